(** Model of dsp/transform: complex numbers, Fourier transform, its inverse, and the two circular convolutions, in any
    arithmetic with the functions of <cmath> they use. *)
From Coq Require Import Reals Ratan.
From Verif Require Import Base Num Optim.
Local Open Scope Z_scope.
Local Open Scope list_scope.

(** Doubles with the functions of <cmath> used by the dsp library. *)
Record TNum : Type := MkTNum {
  t_math :> MNum;
  t_exp : num t_math -> num t_math;
  t_cos : num t_math -> num t_math;
  t_sin : num t_math -> num t_math;
  t_asin : num t_math -> num t_math;
  t_ln : num t_math -> num t_math;
}.
Definition RTrig : TNum := MkTNum RMath exp cos sin asin ln.

Section Transforms.
Variable T : TNum.
Notation num := (num T).
Notation "0" := (n_ofZ T 0).
Notation "x + y" := (n_add T x y). Notation "x - y" := (n_sub T x y).
Notation "x * y" := (n_mul T x y). Notation "x / y" := (n_div T x y).
Definition nat_num (n : nat) : num := n_ofZ T (Z.of_nat n).

(** std::complex<double>. The product is the textbook formula (the compiler's treatment of infinities and NaN in
    complex products is not modelled). *)
Definition cplx : Type := (num * num)%type.
Definition c_zero : cplx := (0, 0).
Definition c_add (z w : cplx) : cplx := (fst z + fst w, snd z + snd w).
Definition c_mul (z w : cplx) : cplx := (fst z * fst w - snd z * snd w, fst z * snd w + snd z * fst w).
Definition c_scale (r : num) (z : cplx) : cplx := (r * fst z, r * snd z).
Definition c_scale_r (z : cplx) (r : num) : cplx := (fst z * r, snd z * r).
Definition c_div_r (z : cplx) (r : num) : cplx := (fst z / r, snd z / r).
(** std::conj; -x is (-1)*x, which is exact in binary64. *)
Definition c_conj (z : cplx) : cplx := (fst z, n_ofZ T (-1) * snd z).
Definition c_exp (z : cplx) : cplx := (t_exp T (fst z) * t_cos T (snd z), t_exp T (fst z) * t_sin T (snd z)).

(** constants.cpp:12-13. *)
Definition t_pi : num := n_ofZ T 2 * t_asin T (n_ofZ T 1).
Definition imaginary_unit : cplx := (0, n_ofZ T 1).

(** helpers.cpp:15-26 Conjugate. *)
Definition conjugate (x : list cplx) : list cplx := map c_conj x.

(** circular_convolution.cpp:9-33 EvaluateConvolution; the inner loop over m. *)
Fixpoint conv_loop (a b : list cplx) (n m count : nat) (acc : cplx) : outcome cplx :=
  match count with
  | O => Ok acc
  | S c =>
      let! x := at_ a m in
      let! y := at_ b (if Nat.leb m n then Nat.sub n m else Nat.sub (Nat.add (length a) n) m) in
      conv_loop a b n (S m) c (c_add acc (c_mul x y))
  end.
Definition circular_convolution (a b : list cplx) : outcome (list cplx) :=
  if negb (Nat.eqb (length a) (length b)) then Throw RuntimeError
  else mapM (fun n => conv_loop a b n O (length a) c_zero) (seq O (length a)).

(** fourier_transform.cpp:27: exp(-2 * Pi * ImaginaryUnit * (double)k * (double)n / (double)N). *)
Definition twiddle (N k n : nat) : cplx :=
  c_exp (c_div_r (c_scale_r (c_scale_r (c_scale (n_ofZ T (-2) * t_pi) imaginary_unit) (nat_num k)) (nat_num n)) (nat_num N)).
(** fourier_transform.cpp:14-32 Transform; the inner loop over n. *)
Fixpoint dft_loop (N k n : nat) (x : list cplx) (acc : cplx) : cplx :=
  match x with [] => acc | v :: r => dft_loop N k (S n) r (c_add acc (c_mul v (twiddle N k n))) end.
Definition fourier_transform (x : list cplx) : outcome (list cplx) :=
  Ok (map (fun k => dft_loop (length x) k O x c_zero) (seq O (length x))).

(** inverse_fourier_transform.cpp:19-34 Transform, for any IFourierTransform [ft]. [div_first n d l]: the loop
    at lines 28-31 divides the first [n] elements by [d] in place. *)
Fixpoint div_first (n : nat) (d : num) (l : list cplx) : outcome (list cplx) :=
  match n, l with
  | O, _ => Ok l
  | S _, [] => UB OutOfBounds
  | S m, z :: r => let! r' := div_first m d r in Ok (c_div_r z d :: r')
  end.
Definition inverse_transform (ft : list cplx -> outcome (list cplx)) (x : list cplx) : outcome (list cplx) :=
  let! direct := ft (conjugate x) in
  div_first (length x) (nat_num (length x)) (conjugate direct).

(** fourier_based_circular_convolution.cpp:12-33 EvaluateConvolution, for any IFourierTransform [ft]. *)
Definition fourier_convolution (ft : list cplx -> outcome (list cplx)) (a b : list cplx) : outcome (list cplx) :=
  if negb (Nat.eqb (length a) (length b)) then Throw RuntimeError
  else
    let! fa := ft a in
    let! fb := ft b in
    let! product := mapM (fun k => let! x := at_ fa k in let! y := at_ fb k in Ok (c_mul x y)) (seq O (length a)) in
    inverse_transform ft product.
End Transforms.
