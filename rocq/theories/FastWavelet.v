(** Model of dsp/transform/fast_fourier_transform.cpp and dsp/transform/wavelet/fast_wavelet_transform.cpp. *)
From Verif Require Import Base Num Optim Dsp Cache.
Local Open Scope list_scope.

Section Fast.
Variable T : TNum.
Notation num := (num T).
Notation cplx := (cplx T).

(** What the library was built with: [None] without FFTW3; [Some f] with FFTW3, where [f] is the result of
    fftw_execute on the input array (FFTW is external to the repository: nothing about [f] is assumed here). *)
Definition build : Type := option (list cplx -> list cplx).

(** fast_fourier_transform.cpp:27-40,92-95 (FFTW3) and 112 (without) constructor. *)
Definition fft_create (b : build) (size : nat) : outcome nat :=
  match b with
  | Some _ => if Nat.eqb size 0 then Throw InvalidArgument else Ok size
  | None => Ok size
  end.
(** fast_fourier_transform.cpp:51-78,102-106 (FFTW3) and 116-120 (without) Transform of an object created for [size]. *)
Definition fft_transform (b : build) (size : nat) (x : list cplx) : outcome (list cplx) :=
  match b with
  | Some f => if Nat.eqb size (length x) then Ok (f x) else Throw InvalidArgument
  | None => Throw RuntimeError
  end.

(** The wavelet objects: shared_ptr<IWavelet> is the identity of an object, [psi w] is its GetValue, a function
    of its argument only that may throw (spline based wavelets do). Keys hold a shared_ptr, so that the object outlives its key. *)
Variable psi : nat -> num -> outcome cplx.
Variable b : build.
(** sizeof(ScaledWaveletKey) + sizeof(pair<const ScaledWaveletKey, StoredValue<vector>>), cache.h:136-145 *)
Variable bytes : Z.

(** fast_wavelet_transform.h:26 ScaledWaveletKey, compared component by component (tuple_comparison). *)
Definition wkey : Type := (nat * num * nat)%type.
Definition wkey_eqb (a c : wkey) : bool :=
  match a, c with (w, s, n), (w', s', n') => (Nat.eqb w w' && n_eqb T s s' && Nat.eqb n n')%bool end.
Definition wcache : Type := option (cache wkey (list cplx)).

(** fast_wavelet_transform.h:57-59; the scales are those returned by i_scale_->GetScales(). *)
Record fwt : Type := MkFwt { f_scales : list num; f_size : nat }.
(** fast_wavelet_transform.cpp:33-49 constructor (the cache is the only thing that changes later). *)
Definition fwt_create (scales : list num) (size : nat) (limit : dbl) : outcome (fwt * wcache) :=
  let! _ := fft_create b size in Ok (MkFwt scales size, c_create wkey (list cplx) bytes limit).

(** fast_wavelet_transform.cpp:113-117 GetScaledWaveletValue. *)
Definition scaled_value (w : nat) (scale t : num) : outcome cplx :=
  let! z := psi w (n_div T t scale) in Ok (c_div_r T z (m_sqrt T scale)).
(** fast_wavelet_transform.cpp:101-111 CalculateWaveletSamplesForConvolution; -t is (-1)*t, exact in binary64. *)
Definition calc_samples (w : nat) (scale : num) (N : nat) : outcome (list cplx) :=
  mapM (fun n =>
    let t := n_sub T (nat_num T n) (n_div T (nat_num T N) (n_ofZ T 2)) in
    let! z := scaled_value w scale (n_mul T (n_ofZ T (-1)) t) in Ok (c_conj T z)) (seq 0 N).

(** fast_wavelet_transform.cpp:81-99 GetWaveletSamplesForConvolution. *)
Definition get_samples (w : nat) (scale : num) (N : nat) (ca : wcache) : wcache * outcome (list cplx) :=
  match ca with
  | None => (None, calc_samples w scale N)
  | Some c =>
      let key := (w, scale, N) in
      let (c1, cached) := is_cached wkey (list cplx) wkey_eqb key c in
      if cached then let (c2, r) := get_cached wkey (list cplx) wkey_eqb key c1 in (Some c2, r)
      else match calc_samples w scale N with
           | Ok samples =>
               let (c2, r) := add_value wkey (list cplx) wkey_eqb key samples c1 in
               (Some c2, let! _ := r in Ok samples)
           | o => (Some c1, o)
           end
  end.

(** fast_wavelet_transform.cpp:69-79 TransformOneScale. *)
Definition transform_one (o : fwt) (x : list cplx) (w : nat) (scale : num) (ca : wcache) : wcache * outcome (list cplx) :=
  if n_leb T scale (n_ofZ T 0) then (ca, Throw InvalidArgument)
  else
    let (ca', samples) := get_samples w scale (length x) ca in
    (ca', let! h := samples in fourier_convolution T (fft_transform b (f_size o)) x h).

(** std::rotate(begin, begin + size/2, end), fast_wavelet_transform.cpp:63. *)
Definition rotate_half {A} (l : list A) : list A := skipn (length l / 2) l ++ firstn (length l / 2) l.

(** fast_wavelet_transform.cpp:51-67 Transform: the loop over the scales. *)
Fixpoint transform_scales (o : fwt) (x : list cplx) (w : nat) (scales : list num) (ca : wcache) : wcache * outcome (list (list cplx)) :=
  match scales with
  | [] => (ca, Ok [])
  | s :: r =>
      match transform_one o x w s ca with
      | (ca1, Ok row) =>
          let (ca2, rest) := transform_scales o x w r ca1 in (ca2, let! rows := rest in Ok (rotate_half row :: rows))
      | (ca1, Throw e) => (ca1, Throw e)
      | (ca1, UB u) => (ca1, UB u)
      end
  end.
Definition transform (o : fwt) (x : list cplx) (w : nat) (ca : wcache) : wcache * outcome (list (list cplx)) :=
  transform_scales o x w (f_scales o) ca.

(** A history of calls on one object. *)
Inductive wcall : Type := Whole (x : list cplx) (w : nat) | OneScale (x : list cplx) (w : nat) (scale : num).
Definition wstep (o : fwt) (ca : wcache) (c : wcall) : wcache :=
  match c with Whole x w => fst (transform o x w ca) | OneScale x w s => fst (transform_one o x w s ca) end.
Definition wafter (o : fwt) (ca : wcache) (h : list wcall) : wcache := fold_left (wstep o) h ca.
End Fast.
