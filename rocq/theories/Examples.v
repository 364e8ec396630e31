(** Model of the programs in examples/: examples/continuous_optimization (test functions, their reported solutions, the tester) and the objective
    function of examples/genetic_algorithm. The printing in main.cpp and optimizer_tester.cpp:50-55 is not modelled. *)
From Verif Require Import Base Num Misc Optim Dsp.
Local Open Scope Z_scope.
Local Open Scope list_scope.

Section Functions.
Variable T : TNum.
Notation num := (num T).
Notation "# z" := (n_ofZ T z) (at level 1, format "# z").
Declare Scope ex_scope.
Notation "x + y" := (n_add T x y) : ex_scope. Notation "x - y" := (n_sub T x y) : ex_scope.
Notation "x * y" := (n_mul T x y) : ex_scope. Notation "x / y" := (n_div T x y) : ex_scope.
Delimit Scope ex_scope with ex.
(** Constants::Eps (constants.cpp:11) and the literal 1.1. *)
Variable eps c11 : num.

(** summ = 0; for every value: summ += add(value). *)
Definition sum_of (add : num -> num) (v : list num) : num := fold_left (fun s x => (s + add x)%ex) v #0.
(** test_objective_functions.h:27-39; also examples/genetic_algorithm/genetic_algorithm.cpp:34-51 (there on the values of a DoubleParametersArray). *)
Definition square (v : list num) : num := sum_of (fun x => (#1 / m_abs T (x * x - #2))%ex) v.
(** test_objective_functions.h:51-64. *)
Definition simple_square (v : list num) : num := sum_of (fun x => let d := (x * x - #2)%ex in (d * d)%ex) v.
(** test_objective_functions.h:76-87. *)
Definition square_summ (v : list num) : num := sum_of (fun x => (x * x)%ex) v.
(** test_objective_functions.h:99-121. *)
Definition difraction (v : list num) : num := sum_of (fun x => if n_ltb T (m_abs T x) eps then #1 else (t_sin T x / x)%ex) v.
(** test_objective_functions.h:132-144 (the check of the size) and 151-156. *)
Definition multiminimum (v : list num) : outcome num :=
  match v with [x; y] => Ok (x * t_sin T (#4 * x) + c11 * y * t_sin T (#2 * y))%ex | _ => Throw InvalidArgument end.

(** The classes, operator() and Clone (test_objective_functions.h:41-44, 66-69, 89-92, 123-126, 158-161). *)
Inductive objective : Set := Square | SimpleSquare | SquareSumm | Difraction | Multiminimum.
Definition evaluate (o : objective) (v : list num) : outcome num :=
  match o with
  | Square => Ok (square v) | SimpleSquare => Ok (simple_square v) | SquareSumm => Ok (square_summ v)
  | Difraction => Ok (difraction v) | Multiminimum => multiminimum v
  end.
Definition clone_of (o : objective) : objective :=
  match o with Square => Square | SimpleSquare => SimpleSquare | SquareSumm => SquareSumm | Difraction => SimpleSquare | Multiminimum => Multiminimum end.

(** M_SQRT2. *)
Variable sqrt2 : num.
(** test_function.h, test_function.cpp:12-24: what a TestFunction holds; test_functions_provider.cpp:17-118. *)
Record test_function : Type := MkTest { tf_objective : objective; tf_solution : list num; tf_start : list num; tf_maximize : bool }.
Definition square_solution : list num := [sqrt2; sqrt2].
Definition square_start : list num := [#11; #7].
Definition zero_solution : list num := [#0; #0].
Definition difraction_start : list num := [#100; #100].
Definition test_functions : list test_function :=
  [ MkTest Square square_solution square_start true; MkTest SimpleSquare square_solution square_start false;
    MkTest Difraction zero_solution difraction_start true; MkTest SquareSumm zero_solution difraction_start false;
    MkTest Multiminimum zero_solution difraction_start false ].
(** test_function.cpp:23, 36-39: the value reported as the solution's. *)
Definition solution_value (t : test_function) : outcome num := evaluate (tf_objective t) (tf_solution t).

(** optimizer_tester.cpp:24-71. An optimiser is an object: Optimize may use and change what it keeps between calls. The parameters
    are a ContinuousParametersArray, a clone of the start point. *)
Variable S : Type.
Definition optimiser : Type := (list num -> outcome num) -> bool -> list num -> S -> outcome (list num) * S.
Record cell : Type := MkCell { cell_point : list num; cell_value : num }.
(** optimizer_tester.cpp:46-71 TestSingleFunction. *)
Definition test_single (t : test_function) (o : optimiser) (s : S) : outcome cell * S :=
  match o (evaluate (tf_objective t)) (tf_maximize t) (tf_start t) s with
  | (Ok p, s') => (let! v := evaluate (tf_objective t) p in Ok (MkCell p v), s')
  | (Throw e, s') => (Throw e, s')
  | (UB u, s') => (UB u, s')
  end.
(** optimizer_tester.cpp:35-38: one row; the objects afterwards. *)
Fixpoint test_row (t : test_function) (os : list (optimiser * S)) : outcome (list cell * list (optimiser * S)) :=
  match os with
  | [] => Ok ([], [])
  | (o, s) :: r =>
      match test_single t o s with
      | (Ok c, s') => let! rest := test_row t r in Ok (c :: fst rest, (o, s') :: snd rest)
      | (Throw e, _) => Throw e
      | (UB u, _) => UB u
      end
  end.
(** optimizer_tester.cpp:24-44 Test: the same optimiser objects for every function. *)
Fixpoint test_all (ts : list test_function) (os : list (optimiser * S)) : outcome (list (list cell)) :=
  match ts with
  | [] => Ok []
  | t :: r => let! row := test_row t os in let! rest := test_all r (snd row) in Ok (fst row :: rest)
  end.
End Functions.
