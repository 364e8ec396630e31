(** Model of dsp/akima_spline.cpp, dsp/spline_based_wavelet_function.cpp and dsp/haar_wavelet_function.cpp. std::pow(x, 2)
    and std::pow(x, 3) are x*x and x*x*x. *)
From Verif Require Import Base Num Optim.
Local Open Scope Z_scope.
Local Open Scope list_scope.

Section Spline.
Variable M : MNum.
Notation num := (num M).
Notation "x + y" := (n_add M x y). Notation "x - y" := (n_sub M x y).
Notation "x * y" := (n_mul M x y). Notation "x / y" := (n_div M x y).
Notation "# z" := (n_ofZ M z) (at level 8, format "# z").
Notation abs := (m_abs M).

(** A polynomial of degree 3: the coefficients of akima_spline.h Polynomial(4). *)
Record cubic : Type := Cubic { q0 : num; q1 : num; q2 : num; q3 : num }.
(** An AkimaSpline object: train_x_, train_y_, coeffs_; empty after construction (akima_spline.cpp:21-23). *)
Record spline : Type := MkSpline { s_x : list num; s_y : list num; s_coeffs : list cubic }.
Definition new_spline : spline := MkSpline [] [] [].

(** akima_spline.cpp:79-87: the quotients (y[i+1]-y[i])/(x[i+1]-x[i]), result[2..]. *)
Definition quotient (xs ys : list num) (i : nat) : outcome num :=
  let! y1 := at_ ys (S i) in let! y0 := at_ ys i in let! x1 := at_ xs (S i) in let! x0 := at_ xs i in
  Ok ((y1 - y0) / (x1 - x0)).
(** akima_spline.cpp:79-100 CalculateM. The elements 2..n of the result are the quotients, two more are put in front
    (91-92) and two at the end (94-96). *)
Definition calculate_m (xs ys : list num) : outcome (list num) :=
  let! mid := mapM (quotient xs ys) (seq 0 (Nat.sub (length xs) 1)) in
  let! m2 := at_ mid 0 in
  let! m3 := at_ mid 1 in
  let! e := at_ mid (Nat.sub (length mid) 1) in
  let! e' := at_ mid (Nat.sub (length mid) 2) in
  Ok ((#3 * m2 - #2 * m3) :: (#2 * m2 - m3) :: mid ++ [#2 * e - e'; #3 * e - #2 * e']).
(** akima_spline.cpp:102-121 CalculateSlopes (0.5 is 1/2). *)
Definition slope (m : list num) (i : nat) : outcome num :=
  let! m0 := at_ m i in let! m1 := at_ m (Nat.add i 1) in let! m2 := at_ m (Nat.add i 2) in let! m3 := at_ m (Nat.add i 3) in
  let d := abs (m3 - m2) + abs (m1 - m0) in
  Ok (if n_eqb M d #0 then (#1 / #2) * (m1 + m2) else (m1 * abs (m3 - m2) + m2 * abs (m1 - m0)) / d).
Definition calculate_slopes (n : nat) (m : list num) : outcome (list num) := mapM (slope m) (seq 0 n).
(** akima_spline.cpp:55-77 ReestimatePolynomials. *)
Definition piece (xs ys s : list num) (i : nat) : outcome cubic :=
  let! y0 := at_ ys i in let! y1 := at_ ys (S i) in let! x0 := at_ xs i in let! x1 := at_ xs (S i) in
  let! s0 := at_ s i in let! s1 := at_ s (S i) in
  Ok (Cubic y0 s0
        ((#3 * (y1 - y0) / (x1 - x0) - #2 * s0 - s1) / (x1 - x0))
        ((s1 + s0 - #2 * (y1 - y0) / (x1 - x0)) / ((x1 - x0) * (x1 - x0)))).
Definition reestimate (xs ys : list num) : outcome (list cubic) :=
  let! m := calculate_m xs ys in
  let! s := calculate_slopes (length xs) m in
  mapM (piece xs ys s) (seq 0 (Nat.sub (length xs) 1)).
(** akima_spline.cpp:25-43 Initialize: the object afterwards and the outcome. *)
Definition initialize (s : spline) (xs ys : list num) : spline * outcome unit :=
  if ((length xs <? 5) || (length ys <? 5))%nat then (s, Throw InvalidArgument)
  else if negb (Nat.eqb (length xs) (length ys)) then (s, Throw InvalidArgument)
  else match reestimate xs ys with
       | Ok c => (MkSpline xs ys c, Ok tt)
       | Throw e => (MkSpline xs ys [], Throw e)
       | UB u => (MkSpline xs ys [], UB u)
       end.

(** std::upper_bound and std::lower_bound on a sorted range: the number of elements before the first one with
    [x < element], with [not (element < x)]. (Both require a sorted range; on other ranges the model is meaningless.) *)
Fixpoint upper_bound (x : num) (l : list num) : nat :=
  match l with [] => O | t :: r => if n_ltb M x t then O else S (upper_bound x r) end.
Fixpoint lower_bound (x : num) (l : list num) : nat :=
  match l with [] => O | t :: r => if n_ltb M t x then S (lower_bound x r) else O end.
(** akima_spline.cpp:123-144 ResolveInterval; an index below 0 (possible for NaN) is out of bounds. *)
Definition pred_index (n : nat) : outcome nat := match n with O => UB OutOfBounds | S m => Ok m end.
Definition resolve_interval (xs : list num) (x : num) : outcome nat :=
  let u := upper_bound x xs in
  if Nat.eqb u 0 then Throw OutOfRange
  else if Nat.eqb u (length xs) then
    let l := lower_bound x xs in
    if Nat.eqb l (length xs) then Throw OutOfRange else pred_index l
  else pred_index u.
(** akima_spline.cpp:45-53 Value. *)
Definition eval (c : cubic) (t : num) : num := q0 c + q1 c * t + q2 c * (t * t) + q3 c * (t * t * t).
Definition value (s : spline) (x : num) : outcome num :=
  let! i := resolve_interval (s_x s) x in
  let! t := at_ (s_x s) i in
  let! c := at_ (s_coeffs s) i in
  Ok (eval c (x - t)).

(** *** spline_based_wavelet_function.cpp *)
(** reading and writing vector elements *)
Definition set_at {A} (l : list A) (i : nat) (a : A) : outcome (list A) :=
  if (i <? length l)%nat then Ok (upd l i a) else UB OutOfBounds.
(** spline_based_wavelet_function.cpp:18-38 Init: the training points and values. points has real.size()+2 elements, of
    which 1..n are -4 + delta*i; the imaginary values are ignored. *)
Definition init_points (n : nat) : outcome (list num) :=
  let delta := #8 / n_ofZ M (Z.of_nat n) in
  let points := (#0 :: map (fun i => #(-4) + delta * n_ofZ M (Z.of_nat i)) (seq 0 n)) ++ [#0] in
  let size := Nat.add n 2 in
  let! p1 := at_ points 1 in let! p2 := at_ points 2 in
  let! points := set_at points 0 (p1 - (p2 - p1)) in
  let! b := at_ points (Nat.sub size 2) in let! a := at_ points (Nat.sub size 3) in
  set_at points (Nat.sub size 1) (b - (a - b)).
Definition init_values (real : list num) : list num := #0 :: real ++ [#0].
(** Init of a new AkimaWavelet object (akima_wavelet_function.cpp:12-19). *)
Definition create_akima_wavelet (real imaj : list num) : outcome spline :=
  let! points := init_points (length real) in
  match initialize new_spline points (init_values real) with
  | (s, Ok _) => Ok s
  | (_, Throw e) => Throw e
  | (_, UB u) => UB u
  end.
(** spline_based_wavelet_function.cpp:40-48 real, 13-16 GetValue: real part and imaginary part (0). *)
Definition wavelet_real (s : spline) (x : num) : outcome num :=
  if (n_leb M #(-4) x && n_leb M x #4)%bool then value s x else Ok #0.
Definition wavelet_value (s : spline) (x : num) : outcome (num * num) :=
  let! r := wavelet_real s x in Ok (r, #0).

(** *** haar_wavelet_function.cpp *)
(** haar_wavelet_function.cpp:14-27 real and 29-42 imag, 8-11 GetValue. *)
Definition haar_real (x : num) : num :=
  if (n_ltb M x (#(-1) / #2) || n_ltb M (#1 / #2) x || n_eqb M x #0)%bool then #0
  else if (n_leb M (#(-1) / #2) x && n_ltb M x #0)%bool then #(-1) else #1.
Definition haar_imag (x : num) : num :=
  if (n_ltb M x (#(-1) / #4) || n_ltb M (#3 / #4) x || n_eqb M x (#1 / #4))%bool then #0
  else if (n_leb M (#(-1) / #4) x && n_ltb M x (#1 / #4))%bool then #(-1) else #1.
Definition haar_value (x : num) : num * num := (haar_real x, haar_imag x).
End Spline.
