(** Model of the overloads of Optimize and operator() that take the interfaces IParameters and IObjectiveFunction:
    optimization/continuous_optimizer.cpp:12-26, optimization/discrete_optimizer.cpp:10-23, optimization/continuous_objective_function.cpp:10-25,
    optimization/discrete_objective_function.cpp:10-20, optimization/optimization_task.cpp:32-42,137-141. *)
From Verif Require Import Base Num Misc Optim.
Local Open Scope list_scope.

(** The exceptions these functions let out: std::bad_cast is one more than in [exn]. *)
Inductive gexn : Type := Std (e : exn) | StdBadCast.
Inductive gout (A : Type) : Type := GOk (a : A) | GThrow (e : gexn) | GUB (u : ub).
Arguments GOk {A}. Arguments GThrow {A}. Arguments GUB {A}.
Definition of_outcome {A} (o : outcome A) : gout A := match o with Ok a => GOk a | Throw e => GThrow (Std e) | UB u => GUB u end.
Definition gbind {A B} (x : gout A) (k : A -> gout B) : gout B := match x with GOk a => k a | GThrow e => GThrow e | GUB u => GUB u end.

Section Dispatch.
(** an object of a class derived from IContinuousParameters; from IDiscreteParameters; from IParameters only *)
Variables P D O : Type.
Notation num := dbl.
(** What a pointer to IParameters points to. *)
Inductive iparams : Type := ICont (p : P) | IDisc (d : D) | IOther (o : O) | INull.
(** IContinuousParameters::GetValues, SetValues, CheckConstraints *)
Variable p_get : P -> list num.
Variable p_set : list num -> P -> outcome unit * P.
Variable p_check : P -> bool.

(** What an IObjectiveFunction& refers to: an object derived from ContinuousObjectiveFunction (its pure virtual operator() on a vector), from
    DiscreteObjectiveFunction, or from IObjectiveFunction only. *)
Inductive ifunction : Type := FCont (f : list num -> outcome num) | FDisc (g : D -> outcome num) | FOther (h : iparams -> outcome num).
(** IObjectiveFunction::operator() on a const IParameters pointer: continuous_objective_function.cpp:10-25, discrete_objective_function.cpp:10-20. *)
Definition call (fn : ifunction) (p : iparams) : outcome num :=
  match fn with
  | FCont f => match p with ICont q => f (p_get q) | _ => Throw LogicError end
  | FDisc g => match p with IDisc d => g d | _ => Throw LogicError end
  | FOther h => h p
  end.

(** Everything a call of Optimize does: how it ends, what the parameters hold then, and what the objective function was asked, in order. *)
Inductive asked : Type := AskedVector (v : list num) | AskedObject (d : D).
Definition effect : Type := (gout unit * iparams * list asked)%type.
(** An IOptimizer: a ContinuousOptimizer is its FindOptimalParameters, a DiscreteOptimizer its typed Optimize (e.g. the genetic algorithm); the flag says
    whether Clone works (RandomSearch, SimulatedAnnealing: random_search.cpp:68-71, simulated_annealing.cpp:32-35 throw logic_error). *)
Inductive ioptimizer : Type :=
| OCont (clones : bool) (find : bool -> list num -> search FNum (list num))
| ODisc (clones : bool) (typed : (D -> outcome num) -> D -> bool -> gout unit * D * list D).
(** ICloneable::Clone of an optimiser: an object that does the same. *)
Definition clone_optimizer (o : ioptimizer) : outcome ioptimizer :=
  match o with OCont c _ => if c then Ok o else Throw LogicError | ODisc c _ => if c then Ok o else Throw LogicError end.

(** IOptimizer::Optimize on an IObjectiveFunction and an IParameters pointer; continuous_optimizer.cpp:12-40, discrete_optimizer.cpp:10-23. *)
Definition i_optimize (o : ioptimizer) (fn : ifunction) (p : iparams) (maximize : bool) : effect :=
  match o with
  | OCont _ find =>
      match p with
      | ICont q =>
          match fn with
          | FCont f => match optimize FNum P p_set p_get p_check f maximize (find maximize) q with
                       | (r, q', log) => (of_outcome r, ICont q', map AskedVector log) end
          | _ => (GThrow StdBadCast, p, [])
          end
      | _ => (GThrow (Std LogicError), p, [])
      end
  | ODisc _ typed =>
      match p with
      | IDisc d =>
          match fn with
          | FDisc g => match typed g d maximize with (r, d', log) => (r, IDisc d', map AskedObject log) end
          | _ => (GThrow StdBadCast, p, [])
          end
      | _ => (GThrow (Std LogicError), p, [])
      end
  end.

(** optimization_task.cpp:32-42 and 137-141, optimization_parameters_processor.cpp:29-45: the nested optimiser is cloned and called through the
    interface on a clone of the parameters (Clone of parameters and functions: an object with the same contents); the parameters it leaves are the result. *)
Definition nested_task (o : ioptimizer) (fn : ifunction) (maximize : bool) (p : iparams) : gout iparams :=
  gbind (of_outcome (clone_optimizer o)) (fun o' => match i_optimize o' fn p maximize with (r, q, _) => gbind r (fun _ => GOk q) end).
Fixpoint nested_tasks (o : ioptimizer) (fn : ifunction) (maximize : bool) (ps : list iparams) : gout (list iparams) :=
  match ps with
  | [] => GOk []
  | p :: r => gbind (nested_task o fn maximize p) (fun q => gbind (nested_tasks o fn maximize r) (fun qs => GOk (q :: qs)))
  end.
End Dispatch.
