(** Model of the Send/Receive members (MPI builds) of the continuous optimisers, the parameter classes, OptimizationTask,
    OptimizationTaskResult, CountObjectiveFunctionTask and ObjectiveFunctionTaskResult, and of the Clone members the
    receiving side relies on. *)
From Verif Require Import Base Num Params Optim Hooke NelderMead Rosenbrock Parallel.
Local Open Scope Z_scope.
Local Open Scope list_scope.

(** What one communicator->send transfers. All messages of these classes use one tag, and MPI delivers the messages between
    two ranks with one tag in order: a connection is the list of the items sent and not yet received. *)
Inductive cls : Type :=
| KHooke | KRosenbrock | KNelderMead | KConjugate | KSteepest | KGrid | KRandom | KAnnealing
| KContinuousArray | KInt | KDouble | KDoubleArray | KComposite | KFunction (name : nat).
Inductive item : Type :=
| IDbl (d : dbl) | ISize (z : Z) | IBool (b : bool) | IId (k : cls) | IVec (v : list dbl) | IChrom (c : chromosome).
Definition wire : Type := list item.
(** communicator->recv: waits for ever when nothing comes (OutOfFuel); a message of another type is undefined (BadCast). *)
Definition rx (A : Type) : Type := wire -> outcome (A * wire).
Definition nothing {A} (w : wire) : outcome A := match w with [] => UB OutOfFuel | _ => UB BadCast end.
Definition recv_dbl : rx dbl := fun w => match w with IDbl d :: r => Ok (d, r) | _ => nothing w end.
Definition recv_size : rx Z := fun w => match w with ISize z :: r => Ok (z, r) | _ => nothing w end.
Definition recv_bool : rx bool := fun w => match w with IBool b :: r => Ok (b, r) | _ => nothing w end.
Definition recv_id : rx cls := fun w => match w with IId k :: r => Ok (k, r) | _ => nothing w end.
Definition recv_vec : rx (list dbl) := fun w => match w with IVec v :: r => Ok (v, r) | _ => nothing w end.
Definition recv_chrom : rx chromosome := fun w => match w with IChrom c :: r => Ok (c, r) | _ => nothing w end.
Notation "'rx!' ( x , w ) := e 'in' f" := (bind e (fun xw => let (x, w) := xw in f)) (at level 200, x name, w name, e at level 100, f at level 200).

(** *** Optimisers: the members that are not recomputed by FindOptimalParameters. BoundedNelderMead also keeps
    previous_polygons_. The members of RandomSearch, GridSearch and SimulatedAnnealing are not transferred at all. *)
Inductive optimizer : Type :=
| OHooke (c : hooke)
| ORosenbrock (c : rb_cfg FMath)
| ONelderMead (c : nm_cfg FMath) (previous_polygons : list (list (list dbl)))
| OConjugate (precision increment : dbl) (iterations : Z)
| OSteepest (increment : dbl) (iterations : Z) (precision : dbl)
| OGrid | ORandom | OAnnealing.
Definition opt_class (o : optimizer) : cls :=
  match o with
  | OHooke _ => KHooke | ORosenbrock _ => KRosenbrock | ONelderMead _ _ => KNelderMead | OConjugate _ _ _ => KConjugate
  | OSteepest _ _ _ => KSteepest | OGrid => KGrid | ORandom => KRandom | OAnnealing => KAnnealing
  end.
(** hooke_jeeves_method.cpp:55-62, hleborodov_rosenbrock_method.cpp:54-60, bounded_nelder_mead.cpp:55-61,
    conjugate_gradient_method.cpp:46-51, steepest_descent_method.cpp:54-59, grid_search.cpp:83-86, random_search.cpp:79-82,
    simulated_annealing.cpp:34-37. *)
Definition opt_send (o : optimizer) : outcome wire :=
  match o with
  | OHooke c => Ok [IDbl (hj_acceleration c); IDbl (hj_precision c); ISize (hj_max_iterations c); IDbl (hj_init_step c); IDbl (hj_divider c)]
  | ORosenbrock c => Ok [IDbl (rb_precision FMath c); IDbl (rb_first_step FMath c); IDbl (rb_max_step FMath c); ISize (rb_max_iterations FMath c)]
  | ONelderMead c _ => Ok [IDbl (nm_l FMath c); IDbl (nm_precision FMath c); IDbl (nm_lower FMath c); IDbl (nm_upper FMath c)]
  | OConjugate p i n => Ok [IDbl p; IDbl i; ISize n]
  | OSteepest i n p => Ok [IDbl i; ISize n; IDbl p]
  | OGrid | ORandom | OAnnealing => Throw LogicError
  end.
(** hooke_jeeves_method.cpp:64-71, hleborodov_rosenbrock_method.cpp:62-68, bounded_nelder_mead.cpp:63-69,
    conjugate_gradient_method.cpp:53-64, steepest_descent_method.cpp:61-66, grid_search.cpp:88-91 (as the virtual member it is
    meant to be: it lacks the parameter [source]), random_search.cpp:84-87, simulated_annealing.cpp:39-42. *)
Definition opt_receive (o : optimizer) : rx optimizer := fun w =>
  match o with
  | OHooke _ =>
      rx! (a, w) := recv_dbl w in rx! (p, w) := recv_dbl w in rx! (n, w) := recv_size w in
      rx! (s, w) := recv_dbl w in rx! (d, w) := recv_dbl w in Ok (OHooke (MkHooke a s n p d), w)
  | ORosenbrock _ =>
      rx! (p, w) := recv_dbl w in rx! (f, w) := recv_dbl w in rx! (m, w) := recv_dbl w in
      rx! (n, w) := recv_size w in Ok (ORosenbrock (MkRb FMath p n f m), w)
  | ONelderMead _ polygons =>
      rx! (l, w) := recv_dbl w in rx! (p, w) := recv_dbl w in rx! (a, w) := recv_dbl w in
      rx! (b, w) := recv_dbl w in Ok (ONelderMead (MkNM FMath l p a b) polygons, w)
  | OConjugate _ _ _ =>
      rx! (p, w) := recv_dbl w in rx! (i, w) := recv_dbl w in rx! (n, w) := recv_size w in Ok (OConjugate p i n, w)
  | OSteepest _ _ _ =>
      rx! (i, w) := recv_dbl w in rx! (n, w) := recv_size w in rx! (p, w) := recv_dbl w in Ok (OSteepest i n p, w)
  | OGrid | ORandom | OAnnealing => Throw LogicError
  end.
(** hooke_jeeves_method.cpp:39-47, hleborodov_rosenbrock_method.cpp:43-46, bounded_nelder_mead.cpp:34-37,
    conjugate_gradient_method.cpp:35-38, steepest_descent_method.cpp:39-45, grid_search.cpp:72-75, random_search.cpp:68-71,
    simulated_annealing.cpp:28-31. *)
Definition opt_clone (o : optimizer) : outcome optimizer :=
  match o with
  | OHooke c => Ok (OHooke (MkHooke (hj_acceleration c) (hj_init_step c) (hj_max_iterations c) (hj_precision c) (hj_divider c)))
  | ORosenbrock c => Ok (ORosenbrock (MkRb FMath (rb_precision FMath c) (rb_max_iterations FMath c) (rb_first_step FMath c) (rb_max_step FMath c)))
  | ONelderMead c _ => Ok (ONelderMead (MkNM FMath (nm_l FMath c) (nm_precision FMath c) (nm_lower FMath c) (nm_upper FMath c)) [])
  | OConjugate p i n => Ok (OConjugate p i n)
  | OSteepest i n p => Ok (OSteepest i n p)
  | OGrid | ORandom | OAnnealing => Throw LogicError
  end.

(** *** Parameters *)
Inductive parameters : Type := Continuous (values : list dbl) | Discrete (p : param FNum).
Definition par_class (p : parameters) : cls :=
  match p with
  | Continuous _ => KContinuousArray
  | Discrete (PInt _ _) => KInt | Discrete (PDouble _ _) => KDouble | Discrete (PArr _ _) => KDoubleArray | Discrete (PComp _ _ _ _) => KComposite
  end.
(** params/continuous_parameters_array.cpp:61-64, params/discrete_parameters.cpp:14-21. *)
Definition par_send (p : parameters) : outcome wire :=
  match p with
  | Continuous v => Ok [IVec v]
  | Discrete p => let! c := p_send FNum p in Ok [IChrom c]
  end.
(** params/continuous_parameters_array.cpp:66-69, params/discrete_parameters.cpp:23-29. *)
Definition par_receive (p : parameters) : rx parameters := fun w =>
  match p with
  | Continuous _ => rx! (v, w) := recv_vec w in Ok (Continuous v, w)
  | Discrete p =>
      rx! (c, w) := recv_chrom w in
      let (q, o) := p_receive FNum p c in let! _ := o in Ok (Discrete q, w)
  end.
(** params/continuous_parameters_array.cpp:47-52; [p_clone]. *)
Definition par_clone (p : parameters) : outcome parameters :=
  match p with Continuous v => Ok (Continuous v) | Discrete p => omap Discrete (p_clone FNum p) end.

(** *** Objective functions: user classes with a state of any kind; their Clone copies the state. *)
Section Tasks.
Variable S : Type.
Record function : Type := MkFun { fn_class : nat; fn_state : S }.
Inductive object : Type := ObjFun (f : function) | ObjPar (p : parameters) | ObjOpt (o : optimizer).
(** identifyable_objects_manager.cpp:41-44 GetId: typeid names, taken to be different for different classes. *)
Definition get_id (o : object) : cls :=
  match o with ObjFun f => KFunction (fn_class f) | ObjPar p => par_class p | ObjOpt o => opt_class o end.
Definition cls_eqb (a b : cls) : bool :=
  match a, b with
  | KHooke, KHooke | KRosenbrock, KRosenbrock | KNelderMead, KNelderMead | KConjugate, KConjugate | KSteepest, KSteepest
  | KGrid, KGrid | KRandom, KRandom | KAnnealing, KAnnealing | KContinuousArray, KContinuousArray | KInt, KInt
  | KDouble, KDouble | KDoubleArray, KDoubleArray | KComposite, KComposite => true
  | KFunction n, KFunction m => Nat.eqb n m
  | _, _ => false
  end.
(** The registry (identifyable_objects_manager.cpp:36-39 RegisterObject stores a clone under the id of its class). *)
Definition reg : Type := registry object cls.
Definition obj_clone (o : object) : outcome object :=
  match o with ObjFun f => Ok (ObjFun f) | ObjPar p => omap ObjPar (par_clone p) | ObjOpt o => omap ObjOpt (opt_clone o) end.
Definition register (o : object) (r : reg) : outcome reg :=
  let! c := obj_clone o in Ok (register_object object cls cls_eqb (get_id o) c r).
(** identifyable_objects_manager.cpp:19-34. The null entry left by a failed look-up is not carried on: C41 shows that it
    changes nothing. *)
Definition look_up (r : reg) (k : cls) : outcome object := fst (get_object object cls cls_eqb k r).
(** optimization_task.cpp:85-98: receive an id, look the object up, dynamic_cast, clone *)
Definition receive_function (r : reg) : rx function := fun w =>
  rx! (k, w) := recv_id w in let! o := look_up r k in
  match o with ObjFun f => Ok (f, w) | _ => Throw RuntimeError end.
(** optimization_task.cpp:100-114 *)
Definition receive_parameters (r : reg) : rx parameters := fun w =>
  rx! (k, w) := recv_id w in let! o := look_up r k in
  match o with ObjPar p => let! c := par_clone p in par_receive c w | _ => Throw RuntimeError end.
(** optimization_task.cpp:116-130 *)
Definition receive_optimizer (r : reg) : rx optimizer := fun w =>
  rx! (k, w) := recv_id w in let! o := look_up r k in
  match o with ObjOpt p => let! c := opt_clone p in opt_receive c w | _ => Throw RuntimeError end.

(** OptimizationTask; optimization_task.cpp:32-41 (the constructor clones its arguments). *)
Record task : Type := MkTask { tk_optimizer : optimizer; tk_parameters : parameters; tk_function : function; tk_maximize : bool }.
Definition task_new (o : optimizer) (p : parameters) (f : function) (m : bool) : outcome task :=
  let! p' := par_clone p in let! o' := opt_clone o in Ok (MkTask o' p' f m).
(** optimization_task.cpp:67-81 Send (what would already have been sent when a later part throws is not modelled: the
    constructor refuses such optimisers, see C56_not_transferable) *)
Definition task_send (t : task) : outcome wire :=
  let! ps := par_send (tk_parameters t) in
  let! os := opt_send (tk_optimizer t) in
  Ok ([IId (KFunction (fn_class (tk_function t))); IId (par_class (tk_parameters t))] ++ ps ++ [IId (opt_class (tk_optimizer t))] ++ os ++ [IBool (tk_maximize t)]).
(** optimization_task.cpp:83-135 Receive *)
Definition task_receive (r : reg) : rx task := fun w =>
  rx! (f, w) := receive_function r w in
  rx! (p, w) := receive_parameters r w in
  rx! (o, w) := receive_optimizer r w in
  rx! (m, w) := recv_bool w in
  Ok (MkTask o p f m, w).
(** optimization_task.cpp:23-30, the default constructor of the receiving task: it registers BoundedNelderMead(1,1,1,1). *)
Definition default_task_registers (r : reg) : reg :=
  register_object object cls cls_eqb KNelderMead (ObjOpt (ONelderMead (MkNM FMath (d_ofZ 1) (d_ofZ 1) (d_ofZ 1) (d_ofZ 1)) [])) r.

(** CountObjectiveFunctionTask; count_objective_function_task.cpp:62-67 Send, 69-89 Receive. *)
Definition count_send (f : function) (p : parameters) : outcome wire :=
  let! ps := par_send p in Ok ([IId (KFunction (fn_class f)); IId (par_class p)] ++ ps).
Definition count_receive (r : reg) : rx (function * parameters) := fun w =>
  rx! (f, w) := receive_function r w in rx! (p, w) := receive_parameters r w in Ok ((f, p), w).
End Tasks.

(** objective_function_task_result.cpp:36-44 *)
Definition value_send (v : dbl) : wire := [IDbl v].
Definition value_receive : rx dbl := recv_dbl.
(** optimization_task_result.cpp:52-79; the two asynchronous calls of ReceiveAsync one after the other (C38) *)
Definition result_send (p : parameters) : outcome wire := let! ps := par_send p in Ok (IId (par_class p) :: ps).
Definition result_receive (S : Type) (r : reg S) : rx parameters := receive_parameters S r.
