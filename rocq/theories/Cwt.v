(** Model of dsp/wavelet.h, wavelet.cpp and cwt.h, cwt.cpp. *)
From Verif Require Import Base Num Optim Dsp.
Local Open Scope Z_scope.
Local Open Scope list_scope.

Section Cwt.
Variable T : TNum.
Notation num := (num T).
Notation cplx := (cplx T).
Notation "# z" := (n_ofZ T z) (at level 1).
Declare Scope num_scope.
Notation "x + y" := (n_add T x y) : num_scope. Notation "x - y" := (n_sub T x y) : num_scope.
Notation "x * y" := (n_mul T x y) : num_scope. Notation "x / y" := (n_div T x y) : num_scope.
Delimit Scope num_scope with num.

(** wavelet.h:56-63. base_function_ is a pointer (null at first) to an object whose GetValue depends on its argument only. *)
Record wavelet : Type := MkWavelet {
  w_base : option (num -> outcome cplx);
  w_count : Z; w_max : Z; w_min : Z;
  w_real : list (list num); w_imaj : list (list num); w_scale : list num
}.
(** wavelet.cpp:13-18. *)
Definition new_wavelet : wavelet := MkWavelet None 256 1024 10 [] [] [].
(** wavelet.h:34-41 setters. *)
Definition set_base f (w : wavelet) := MkWavelet f (w_count w) (w_max w) (w_min w) (w_real w) (w_imaj w) (w_scale w).
Definition set_count c (w : wavelet) := MkWavelet (w_base w) c (w_max w) (w_min w) (w_real w) (w_imaj w) (w_scale w).
Definition set_max m (w : wavelet) := MkWavelet (w_base w) (w_count w) m (w_min w) (w_real w) (w_imaj w) (w_scale w).
Definition set_min m (w : wavelet) := MkWavelet (w_base w) (w_count w) (w_max w) m (w_real w) (w_imaj w) (w_scale w).

Inductive scale_type : Set := Log | Linear.
(** wavelet.cpp:79-106 createScale (count >= 0 here: resize has thrown otherwise). The division max/min of Linear is an
    integer division, undefined when min is 0 and for INT_MIN / -1. *)
Definition create_scale (type : scale_type) (count max min : Z) : outcome (list num) :=
  match type with
  | Log =>
      let lg := t_ln T (#max / #min)%num in
      Ok (map (fun i => t_exp T (#(Z.of_nat i) / #count * lg)%num) (seq 0 (Z.to_nat count)))
  | Linear =>
      if min =? 0 then UB DivByZero
      else let! k := chk_int (Z.quot max min) in
           Ok (map (fun i => (#(Z.of_nat i) / #count * #k)%num) (seq 1 (Z.to_nat count)))
  end.
(** wavelet.cpp:69-70: the sampling point; max/2 in the second line is an integer division. *)
Definition sample_point (max : Z) (scale : num) (j : nat) : num :=
  let x := ((#(Z.of_nat j) - #max / #2) * scale)%num in ((x * #4) / #(Z.quot max 2))%num.
(** wavelet.cpp:38-77 createWavelet. The object left behind by an exception is not modelled. *)
Definition create_wavelet (type : scale_type) (w : wavelet) : outcome wavelet :=
  match w_base w with
  | None => Throw StringLiteral
  | Some f =>
      if w_count w <? 0 then Throw LengthError
      else if (0 <? w_count w) && (w_max w <? 0) then Throw LengthError
      else
        let! scales := create_scale type (w_count w) (w_max w) (w_min w) in
        let! rows := mapM (fun i => let! s := at_ scales i in
                       mapM (fun j => f (sample_point (w_max w) s j)) (seq 0 (Z.to_nat (w_max w))))
                       (seq 0 (Z.to_nat (w_count w))) in
        Ok (MkWavelet (w_base w) (w_count w) (w_max w) (w_min w) (map (map fst) rows) (map (map snd) rows) scales)
  end.
(** wavelet.cpp:20-35 BuildWavelet. *)
Definition build_wavelet f (min max count : Z) (type : scale_type) : outcome wavelet :=
  create_wavelet type (set_min min (set_max max (set_count count (set_base f new_wavelet)))).

(** std::inner_product(row.begin(), row.end(), data_begin, acc): reading past the data is undefined. *)
Fixpoint inner_product (row data : list num) (acc : num) : outcome num :=
  match row, data with
  | [], _ => Ok acc
  | _ :: _, [] => UB OutOfBounds
  | a :: r, d :: ds => inner_product r ds (acc + a * d)%num
  end.
(** wavelet.h:66-91 transform; [data] is what follows data_begin. *)
Definition w_transform (w : wavelet) (data : list num) : outcome (list num) :=
  match w_real w, w_imaj w, w_scale w with
  | _ :: _, _ :: _, _ :: _ =>
      if w_count w <? 0 then Throw LengthError
      else mapM (fun i =>
             let! re := at_ (w_real w) i in let! r := inner_product re data #0 in
             let! im := at_ (w_imaj w) i in let! q := inner_product im data #0 in
             Ok (m_sqrt T (r * r + q * q)%num)) (seq 0 (Z.to_nat (w_count w)))
  | _, _, _ => Throw StringLiteral
  end.

(** cwt.cpp:14-16 the zero padded data. *)
Definition pad (x : list num) (max : Z) : outcome (list num) :=
  let n := Z.of_nat (length x) in
  if n + max <? 0 then Throw LengthError
  else
    let front := Z.quot max 2 in
    if (front <? 0) || (n + max <? front + n) then UB OutOfBounds
    else Ok (repeat #0 (Z.to_nat front) ++ x ++ repeat #0 (Z.to_nat (n + max - front - n))).
(** cwt.cpp:18-21 the loop; i is a size_t, so that i += step is modulo 2^64. The windows are returned with their start. *)
Definition SIZE_MOD : Z := 2 ^ 64.
Fixpoint cwt_loop (fuel : nat) (w : wavelet) (data : list num) (i_end step i : Z) : outcome (list (Z * list num)) :=
  if i <? i_end then
    match fuel with
    | O => UB OutOfFuel
    | S fuel' =>
        let! row := w_transform w (skipn (Z.to_nat i) data) in
        let! rest := cwt_loop fuel' w data i_end step ((i + step) mod SIZE_MOD) in
        Ok ((i, row) :: rest)
    end
  else Ok [].
Definition cwt_windows (fuel : nat) (x : list num) (w : wavelet) (step : Z) : outcome (list (Z * list num)) :=
  let! data := pad x (w_max w) in cwt_loop fuel w data (Z.of_nat (length x)) step 0.
(** cwt.cpp:8-24. *)
Definition cwt (fuel : nat) (x : list num) (w : wavelet) (step : Z) : outcome (list (list num)) :=
  let! r := cwt_windows fuel x w step in Ok (map snd r).
(** cwt.h:12-32: the overload with a callback, and the values passed to the callback (which must not throw). *)
Definition cwt_callback (fuel : nat) (x : list num) (w : wavelet) (step : Z) : outcome (list (list num) * list num) :=
  let! r := cwt_windows fuel x w step in
  let progress_k := (#1 / #(Z.of_nat (length x)))%num in
  Ok (map snd r, map (fun e => (#100 * #(fst e) * progress_k)%num) r).
End Cwt.
