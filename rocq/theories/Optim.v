(** Model of optimization/continuous_optimizer.cpp and of the objects it works on: the searches of the continuous
    optimisers are programs that ask for objective function values. *)
From Coq Require Import Reals.
From Flocq Require Import IEEE754.BinarySingleNaN.
From Verif Require Import Base Num.
Local Open Scope Z_scope.
Local Open Scope list_scope.

(** Doubles with std::sqrt and std::abs: exact reals and binary64. *)
Record MNum : Type := MkMNum { m_num :> Num; m_sqrt : num m_num -> num m_num; m_abs : num m_num -> num m_num }.
Definition RMath : MNum := MkMNum RNum sqrt Rabs.
Definition FMath : MNum := MkMNum FNum (fun x : dbl => Bsqrt mode_NE x) (fun x : dbl => Babs x).

Section Search.
Variable N : Num.
Notation num := (num N).

(** A computation of an optimiser: [Ask false v k] calls CountObjectiveFunctionValueToMinimize(v) and goes on with its
    result, [Ask true v k] calls CountObjectiveFunctionValueToMaximize(v). [Fail] is an exception thrown by the search
    itself, [Undef] undefined behaviour or (OutOfFuel) running past the fuel given to the model of an unbounded loop. *)
Inductive search (A : Type) : Type :=
| Ret (a : A)
| Ask (to_maximize : bool) (v : list num) (k : num -> search A)
| Fail (e : exn)
| Undef (u : ub).
Arguments Ret {A}. Arguments Ask {A}. Arguments Fail {A}. Arguments Undef {A}.

Fixpoint sbind {A B} (x : search A) (f : A -> search B) : search B :=
  match x with
  | Ret a => f a
  | Ask m v k => Ask m v (fun y => sbind (k y) f)
  | Fail e => Fail e
  | Undef u => Undef u
  end.
Definition ask_min (v : list num) : search num := Ask false v Ret.
Definition lift {A} (o : outcome A) : search A :=
  match o with Ok a => Ret a | Throw e => Fail e | UB u => Undef u end.

(** (-1)*x (continuous_optimizer.cpp:57, 63). *)
Definition negate (x : num) : num := n_mul N (n_ofZ N (-1)) x.

(** *** IContinuousParameters and ContinuousOptimizer *)
Section Object.
Variable P : Type.
(** SetValues: the object may change even when it throws. *)
Variable p_set : list num -> P -> outcome unit * P.
Variable p_get : P -> list num.
Variable p_check : P -> bool.
(** ContinuousObjectiveFunction::operator()(const std::vector<double>&) *)
Variable f : list num -> outcome num.
Variable maximize : bool.

(** continuous_optimizer.cpp:42-52 CountObjectiveFunctionValue; continuous_objective_function.cpp:22-25: the function
    is applied to GetValues(). The log lists the vectors the objective function was applied to. *)
Definition count_value (v : list num) (p : P) (log : list (list num)) : outcome num * P * list (list num) :=
  match p_set v p with
  | (Ok _, q) => if p_check q then (f (p_get q), q, log ++ [p_get q]) else (Throw LogicError, q, log)
  | (Throw e, q) => (Throw e, q, log)
  | (UB u, q) => (UB u, q, log)
  end.
(** continuous_optimizer.cpp:54-64 ...ToMaximize, ...ToMinimize. *)
Definition signed (to_maximize : bool) (y : num) : num :=
  if to_maximize then (if maximize then y else negate y) else (if maximize then negate y else y).

(** Execution of a search inside the optimiser object. *)
Fixpoint run {A} (s : search A) (p : P) (log : list (list num)) : outcome A * P * list (list num) :=
  match s with
  | Ret a => (Ok a, p, log)
  | Ask m v k =>
      match count_value v p log with
      | (Ok y, q, l) => run (k (signed m y)) q l
      | (Throw e, q, l) => (Throw e, q, l)
      | (UB u, q, l) => (UB u, q, l)
      end
  | Fail e => (Throw e, p, log)
  | Undef u => (UB u, p, log)
  end.

(** continuous_optimizer.cpp:28-40 Optimize: GetValues, FindOptimalParameters, SetValues. [find] is the virtual
    FindOptimalParameters. *)
Definition optimize (find : list num -> search (list num)) (p : P) : outcome unit * P * list (list num) :=
  match run (find (p_get p)) p [] with
  | (Ok v, q, l) => let (o, q') := p_set v q in (o, q', l)
  | (Throw e, q, l) => (Throw e, q, l)
  | (UB u, q, l) => (UB u, q, l)
  end.
End Object.

(** continuous_optimizer.cpp:12-26, the overload that takes IParameters* and rejects objects that are not
    IContinuousParameters (std::logic_error) or functions of a wrong class (std::bad_cast), is modelled in Dispatch.v. *)

(** *** ContinuousParametersArray (params/continuous_parameters_array.cpp:26-58) *)
Definition arr_set (v : list num) (p : list num) : outcome unit * list num :=
  if Nat.eqb (length v) (length p) then (Ok tt, v) else (Throw InvalidArgument, p).
Definition arr_get (p : list num) : list num := p.
Definition arr_check (_ : list num) : bool := true.

(** A search run against a plain function (the value to minimise). *)
Fixpoint pure {A} (g : list num -> outcome num) (s : search A) : outcome A :=
  match s with
  | Ret a => Ok a
  | Ask false v k => let! y := g v in pure g (k y)
  | Ask true v k => let! y := g v in pure g (k (negate y))
  | Fail e => Throw e
  | Undef u => UB u
  end.
End Search.
Arguments Ret {N A}. Arguments Ask {N A}. Arguments Fail {N A}. Arguments Undef {N A}.
Arguments sbind {N A B}. Arguments lift {N A}.
Notation "'ask!' x := e 'in' f" := (sbind e (fun x => f)) (at level 200, x binder, e at level 100, f at level 200).
