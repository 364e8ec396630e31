(** Model of dsp/mhat_wavelet_function.cpp and dsp/morlet_wavelet_function.cpp, in any arithmetic with the functions of <cmath> they use. *)
From Verif Require Import Base Num Optim Dsp.
Local Open Scope Z_scope.

Section Analytic.
Variable T : TNum.
Notation num := (num T).
Notation cplx := (cplx T).
Notation "# z" := (n_ofZ T z) (at level 1).
Declare Scope an_scope.
Notation "x + y" := (n_add T x y) : an_scope. Notation "x - y" := (n_sub T x y) : an_scope.
Notation "x * y" := (n_mul T x y) : an_scope. Notation "x / y" := (n_div T x y) : an_scope.
Delimit Scope an_scope with an.

(** mhat_wavelet_function.cpp:6. *)
Definition mhat_sigma : num := #3.
(** mhat_wavelet_function.cpp:14, the constructor: k_ = 2./sqrt(3. * kDefaultSigma) * pow(M_PI, 0.25). [root] is what std::pow(M_PI, 0.25) returns. *)
Definition mhat_k (root : num) : num := (#2 / m_sqrt T (#3 * mhat_sigma) * root)%an.
(** mhat_wavelet_function.cpp:23-27 real. std::pow(k, 2.) is k*k (exact in exact arithmetic, and the correctly rounded result in binary64); -0.5 is -1/2. *)
Definition mhat_real (root value : num) : num :=
  let k := (value / mhat_sigma)%an in (mhat_k root * (#1 - k * k) * t_exp T (#(-1) / #2 * (k * k)))%an.
(** mhat_wavelet_function.cpp:18-21 GetValue. *)
Definition mhat_value (root t : num) : cplx := (mhat_real root t, #0).

(** morlet_wavelet_function.cpp:13-16 GetValue: exp(5 * t * ImaginaryUnit - t * t/2.); a double minus from a complex changes the real part only. *)
Definition morlet_value (t : num) : cplx :=
  let z := c_scale T (#5 * t)%an (imaginary_unit T) in c_exp T (fst z - t * t / #2, snd z)%an.
End Analytic.
