(** Models of optimization/simple_parameters_processor.cpp, optimization/optimization_parameters_processor.cpp,
    common/floating_point.cpp and parallel/mpi/delay_supplier.cpp. *)
From Flocq Require Import IEEE754.BinarySingleNaN.
From Verif Require Import Base Num.
Local Open Scope Z_scope.
Local Open Scope list_scope.

(** ** parameters processors *)

(** simple_parameters_processor.cpp:28-39 and optimization_parameters_processor.cpp:58-71 (the same loop). *)
Fixpoint pick_loop (maximize : bool) (value : dbl) (index i : nat) (rest : list dbl) : nat :=
  match rest with
  | [] => index
  | v :: r =>
      let condition := d_ltb value v in
      let condition := if maximize then condition else negb condition in
      if condition then pick_loop maximize v i (S i) r else pick_loop maximize value index (S i) r
  end.
(** simple_parameters_processor.cpp:25-26: values[0] is read first. *)
Definition pick (maximize : bool) (values : list dbl) : outcome nat :=
  match values with [] => UB OutOfBounds | v :: r => Ok (pick_loop maximize v 0 1 r) end.

Section Processors.
Variable P : Type.
(** IObjectiveFunction::operator() *)
Variable f : P -> outcome dbl.

(** simple_parameters_processor.cpp:15-42 ProcessParameters; the values come from the worker pool in order (C32-C37). *)
Definition simple_process (ps : list P) (maximize : bool) : outcome P :=
  match ps with
  | [] => Throw InvalidArgument
  | _ => let! vs := mapM f ps in let! i := pick maximize vs in at_ ps i
  end.

(** optimization_task.cpp:32-42 constructor and 137-141 Perform, optimization_task_result.cpp: the parameters are cloned,
    optimised, and the result clones them again. [opt] is IOptimizer::Optimize on a clone of the optimiser. *)
Variable cln : P -> outcome P.
Variable opt : P -> bool -> outcome P.
Definition optimization_task (maximize : bool) (p : P) : outcome P :=
  let! q := cln p in let! r := opt q maximize in cln r.

(** optimization_parameters_processor.cpp:29-78 ProcessParameters. *)
Definition optimization_process (ps : list P) (maximize : bool) : outcome P :=
  let! rs := mapM (optimization_task maximize) ps in
  let! vs := mapM f rs in
  let! i := pick maximize vs in at_ rs i.
End Processors.

(** ** common/floating_point.cpp *)

(** constants.cpp:11 Constants::Eps = 1e-10 (the nearest double). *)
Definition d_eps : dbl := d_of 7737125245533627 (-86).
Definition d_abs (x : dbl) : dbl := Babs x.
(** floating_point.cpp:8-11. *)
Definition are_equal (x y : dbl) : bool := d_ltb (d_abs (d_sub x y)) d_eps.
(** floating_point.cpp:13-16. *)
Definition is_zero (x : dbl) : bool := are_equal x (d_ofZ 0).
(** floating_point.cpp:24-30: the loop. *)
Fixpoint all_equal (v1 v2 : list dbl) : bool :=
  match v1, v2 with
  | x :: r, y :: s => if are_equal x y then all_equal r s else false
  | _, _ => true
  end.
(** floating_point.cpp:18-33 AreEqual on vectors. *)
Definition vectors_equal (v1 v2 : list dbl) : bool :=
  if negb (Nat.eqb (length v1) (length v2)) then false else all_equal v1 v2.

(** ** parallel/mpi/delay_supplier.cpp *)
Record delay : Type := MkDelay { dl_initial : Z; dl_maximum : Z; dl_current : Z }.
(** delay_supplier.cpp:18-23. *)
Definition delay_new : delay := MkDelay 1 1000 1.
Inductive delay_op : Type := DSleep | DIncrease | DReset.
(** delay_supplier.cpp:25-43: the new state and the length of the sleep, if any. *)
Definition delay_step (d : delay) (o : delay_op) : outcome (delay * option Z) :=
  match o with
  | DSleep => Ok (d, Some (dl_current d))
  | DIncrease =>
      let! c := chk_int (dl_current d * 10) in
      Ok (MkDelay (dl_initial d) (dl_maximum d) (if dl_maximum d <? c then dl_maximum d else c), None)
  | DReset => Ok (MkDelay (dl_initial d) (dl_maximum d) (dl_initial d), None)
  end.
(** The sleeps of a history of calls. *)
Fixpoint delay_run (d : delay) (os : list delay_op) : outcome (list Z) :=
  match os with
  | [] => Ok []
  | o :: r => let! x := delay_step d o in let! s := delay_run (fst x) r in
              Ok (match snd x with Some z => z :: s | None => s end)
  end.
