(** Model of optimization/conjugate_gradient_method.cpp and optimization/steepest_descent_method.cpp, in any arithmetic with a
    square root and an absolute value. Vectors of the code have the size of the initial parameters; loops over corresponding
    elements are [zip_with]. Loops the code does not bound take fuel ([lf] for the line searches). pow(x, 2) is taken to be x*x. The console message
    (conjugate_gradient_method.cpp:108) is not modelled. *)
From Verif Require Import Base Num Optim NelderMead.
Local Open Scope Z_scope.
Local Open Scope list_scope.

Section Gradient.
Variable M : MNum.
Notation num := (num M).
Notation "x + y" := (n_add M x y). Notation "x - y" := (n_sub M x y).
Notation "x * y" := (n_mul M x y). Notation "x / y" := (n_div M x y).
Notation zip_with := (zip_with M).
Notation search := (search M).
Definition zero : num := n_ofZ M 0.
Definition two : num := n_ofZ M 2.

(** [p + x*direction] *)
Definition along (x : num) (p d : list num) : list num := zip_with (fun a b => a + x * b) p d.
(** The loops that add the squares of the elements to a variable that starts at 0 (conjugate_gradient_method.cpp:98-102, 217-221;
    steepest_descent_method.cpp:107-110). *)
Definition sum_squares (v : list num) : num := fold_left (fun t x => t + x * x) v zero.

(** [half] is increment_of_the_argument_/2 (conjugate_gradient_method.cpp:126-137 CalculateDerivative) or
    increment_of_the_argument_*0.5 (steepest_descent_method.cpp:139-151). *)
Definition derivative (h half : num) (p : list num) (i : nat) : search num :=
  ask! a := lift (at_ p i) in
  ask! up := ask_min M (upd p i (a + half)) in
  ask! down := ask_min M (upd p i (a - half)) in
  Ret ((up - down) / h).
(** conjugate_gradient_method.cpp:159-171, steepest_descent_method.cpp:120-132 CalculateGradient. *)
Fixpoint gradient_from (h half : num) (p : list num) (i todo : nat) : search (list num) :=
  match todo with
  | O => Ret []
  | S t => ask! d := derivative h half p i in ask! r := gradient_from h half p (S i) t in Ret (d :: r)
  end.
Definition gradient (h half : num) (p : list num) : search (list num) := gradient_from h half p 0 (length p).

(** *** ConjugateGradientMethod (conjugate_gradient_method.cpp:25-33) *)
Record cg_cfg : Type := MkCg { cg_precision : num; cg_increment : num; cg_iterations : Z }.
Definition cg_gradient (c : cg_cfg) : list num -> search (list num) := gradient (cg_increment c) (cg_increment c / two).
(** conjugate_gradient_method.cpp:139-157 FindNextSearchDirection. *)
Definition cg_direction (g previous : list num) (weight : num) (iteration : Z) : list num :=
  if 1 <? iteration then zip_with (fun a b => a + weight * b) g previous else g.
(** conjugate_gradient_method.cpp:173-207 PerformOneDimensionalSearch. *)
Fixpoint cg_line (fuel : nat) (c : cg_cfg) (p d : list num) (x : num) : search num :=
  match fuel with
  | O => Undef OutOfFuel
  | S fu =>
      let h := cg_increment c in
      ask! f := ask_min M (along x p d) in
      ask! up := ask_min M (along (x + h / two) p d) in
      ask! down := ask_min M (along (x - h / two) p d) in
      let x' := x - ((up - down) / h) / ((up - two * f + down) / (h * h / n_ofZ M 4)) in
      if n_ltb M (cg_precision c) (m_abs M (x - x')) then cg_line fu c p d x' else Ret x'
  end.
(** floating_point.cpp:8-16 IsZero with constants.cpp:11 Eps = 1e-10 (the quotient below rounds to that double). *)
Definition eps : num := n_ofZ M 1 / n_ofZ M 10000000000.
Definition nearly_zero (x : num) : bool := n_ltb M (m_abs M (x - zero)) eps.
(** conjugate_gradient_method.cpp:209-230 CalculateWeightingCoefficient. *)
Definition cg_weight (g previous : list num) : search num :=
  if nearly_zero (sum_squares previous) then Fail RuntimeError else Ret (sum_squares g / sum_squares previous).
(** conjugate_gradient_method.cpp:79-113: the do/while. *)
Fixpoint cg_loop (fuel lf : nat) (c : cg_cfg) (p g direction : list num) (weight : num) (iteration : Z) : search (list num) :=
  match fuel with
  | O => Undef OutOfFuel
  | S fu =>
      let d := cg_direction g direction weight iteration in
      ask! x := cg_line lf c p d zero in
      let p' := along x p d in
      ask! g' := cg_gradient c p' in
      ask! w := cg_weight g' g in
      let exit := m_sqrt M (sum_squares g') in
      if iteration + 1 =? cg_iterations c then Ret p'
      else if n_leb M (cg_precision c) exit then cg_loop fu lf c p' g' d w (iteration + 1) else Ret p'
  end.
(** conjugate_gradient_method.cpp:64-116 FindOptimalParameters. *)
Definition cg_find (fuel lf : nat) (c : cg_cfg) (init : list num) : search (list num) :=
  ask! g := cg_gradient c init in
  cg_loop fuel lf c init g (repeat zero (length init)) zero 1.

(** *** SteepestDescentMethod (steepest_descent_method.cpp:29-37) *)
Record sd_cfg : Type := MkSd { sd_increment : num; sd_iterations : Z; sd_precision : num }.
(** Unqualified abs on doubles (lines 245, 266): std::abs where the headers included bring it into the global namespace, else the
    C function abs(int) on the truncated argument ([int_abs]). *)
Definition sd_abs (int_abs : bool) (x : num) : outcome num :=
  if int_abs then let! i := n_toint M x in let! a := chk_int (Z.abs i) in Ok (n_ofZ M a) else Ok (m_abs M x).
Definition sd_gradient (c : sd_cfg) : list num -> search (list num) :=
  gradient (sd_increment c) (sd_increment c * (n_ofZ M 1 / two)).
(** steepest_descent_method.cpp:154-163 InvertVector. *)
Definition invert (v : list num) : list num := map (fun x => x * n_ofZ M (-1)) v.
(** steepest_descent_method.cpp:20 kAlpha. *)
Definition golden : num := (n_ofZ M 1 + m_sqrt M (n_ofZ M 5)) / two.
(** steepest_descent_method.cpp:259-266, the first loop of Localization; the compiler may evaluate the two sides of > in either
    order. *)
Fixpoint sd_shrink (int_abs : bool) (fuel : nat) (c : sd_cfg) (p d : list num) (step : num) : search num :=
  match fuel with
  | O => Undef OutOfFuel
  | S fu =>
      let step' := step / two in
      ask! v := ask_min M (along step' p d) in
      ask! v0 := ask_min M p in
      if n_ltb M v0 v then
        ask! a := lift (sd_abs int_abs step') in
        if n_ltb M (sd_precision c) a then sd_shrink int_abs fu c p d step' else Ret step'
      else Ret step'
  end.
(** steepest_descent_method.cpp:269-280, the second loop; the result is next_step_point. *)
Fixpoint sd_expand (fuel : nat) (p d : list num) (step : num) (point : list num) : search (list num) :=
  match fuel with
  | O => Undef OutOfFuel
  | S fu =>
      let step' := step * golden in
      let next := along step' p d in
      ask! vn := ask_min M next in
      ask! v := ask_min M point in
      if n_leb M vn v then sd_expand fu p d step' next else Ret next
  end.
(** steepest_descent_method.cpp:251-289 Localization. *)
Definition sd_localize (int_abs : bool) (fuel : nat) (c : sd_cfg) (p d : list num) (step : num) : search num :=
  ask! s := sd_shrink int_abs fuel c p d (step * two) in
  ask! next := sd_expand fuel p d s (along s p d) in
  Ret (m_sqrt M (sum_squares (zip_with (fun a b => a - b) next p))).
(** steepest_descent_method.cpp:191, the constant 0.382. *)
Definition constriction : num := n_ofZ M 382 / n_ofZ M 1000.
(** steepest_descent_method.cpp:206-245, the loop of FindStepLength. *)
Fixpoint sd_golden (int_abs : bool) (fuel : nat) (c : sd_cfg) (p d : list num) (l r nl nr : num) : search num :=
  match fuel with
  | O => Undef OutOfFuel
  | S fu =>
      ask! vl := ask_min M (along nl p d) in
      ask! vr := ask_min M (along nr p d) in
      let '(l', r', nl', nr') :=
        if n_ltb M nl nr then
          if n_ltb M vr vl then (nl, r, nr, r - constriction * (r - nl))
          else (l, nr, l + constriction * (nr - l), nl)
        else
          if n_ltb M vl vr then (nr, r, r - constriction * (r - nr), nl)
          else (l, nl, nr, l + constriction * (nl - l)) in
      if n_eqb M l' l && n_eqb M r' r then Ret ((l' + r') / two)
      else
        ask! a := lift (sd_abs int_abs (l' - r')) in
        if n_ltb M (sd_precision c) a then sd_golden int_abs fu c p d l' r' nl' nr' else Ret ((l' + r') / two)
  end.
(** steepest_descent_method.cpp:180-249 FindStepLength. *)
Definition sd_step_length (int_abs : bool) (fuel : nat) (c : sd_cfg) (p d : list num) (border : num) : search num :=
  sd_golden int_abs fuel c p d zero border (zero + constriction * (border - zero)) (border - constriction * (border - zero)).
(** steepest_descent_method.cpp:165-178 GoldenSectionSearch. *)
Definition sd_line (int_abs : bool) (fuel : nat) (c : sd_cfg) (p : list num) (step : num) (d : list num) : search num :=
  ask! border := sd_localize int_abs fuel c p d step in sd_step_length int_abs fuel c p d border.
(** steepest_descent_method.cpp:101-116 IsExitCriteriaFulfilled. *)
Definition sd_exit (c : sd_cfg) (p : list num) : search bool :=
  ask! g := sd_gradient c p in Ret (negb (n_ltb M (sd_precision c) (m_sqrt M (sum_squares g)))).
(** steepest_descent_method.cpp:80-96: the do/while; [p] is next_step_parameters at the start of the iteration. *)
Fixpoint sd_loop (int_abs : bool) (fuel lf : nat) (c : sd_cfg) (p : list num) (lambda : num) (counter : Z) : search (list num) :=
  match fuel with
  | O => Undef OutOfFuel
  | S fu =>
      ask! g := sd_gradient c p in
      let d := invert g in
      ask! lam := sd_line int_abs lf c p lambda d in
      let next := along lam p d in
      ask! e := sd_exit c next in
      if e || (counter + 1 =? sd_iterations c) then Ret p else sd_loop int_abs fu lf c next lam (counter + 1)
  end.
(** steepest_descent_method.cpp:73-99 FindOptimalParameters. *)
Definition sd_find (int_abs : bool) (fuel lf : nat) (c : sd_cfg) (init : list num) : search (list num) :=
  sd_loop int_abs fuel lf c init (n_ofZ M 1) 0.
End Gradient.
