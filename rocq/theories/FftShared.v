(** Model of dsp/transform/fast_fourier_transform.cpp (built with FFTW3) at the level of its buffers, its mutex and threads. *)
From Verif Require Import Base.
Local Open Scope list_scope.

Section Fft.
Variable A : Type. (* fftw_complex / std::complex<double> *)
(** What fftw_execute leaves in the output array for an input array (FFTW is external). *)
Variable f : list A -> list A.

(** fast_fourier_transform.cpp:80-86: sequence_size_, in_, out_ of an object. *)
Record fobj : Type := MkObj { o_size : nat; o_in : list A; o_out : list A }.
(** What a thread does with the objects, which it names by numbers. *)
Inductive fop : Type := Create (k size : nat) | Transform (k : nat) (x : list A) | Destroy (k : nat).
(** What each call gives back: [Dangling] is a call on a name that holds no object. *)
Inductive fres : Type := Created | Refused | Transformed (y : list A) | Destroyed | Dangling.

(** Where a thread is. *)
Inductive fpc : Type :=
| Idle
| InConstructor (k size : nat)  (* lines 29-39, holding fftw_mutex_ *)
| InDestructor (k : nat)        (* lines 43-48, holding fftw_mutex_ *)
| Copying (k : nat) (x : list A) (n : nat) (* lines 60-64: elements 0..n-1 are copied *)
| Reading (k : nat) (y : list A)           (* lines 69-75: the elements read so far *).
Record fthread : Type := MkFT { ft_prog : list fop; ft_pc : fpc; ft_done : list fres }.
Record fstate : Type := MkFS { fs_objs : nat -> option fobj; fs_mutex : option nat; fs_threads : list fthread }.
Definition set_obj (m : nat -> option fobj) (k : nat) (o : option fobj) : nat -> option fobj := fun j => if Nat.eqb j k then o else m j.
Definition set_thr (s : fstate) (i : nat) (t : fthread) : list fthread := upd (fs_threads s) i t.
(** the call at the head of the program returns [r] *)
Definition finish (t : fthread) (r : fres) : fthread := MkFT (tl (ft_prog t)) Idle (ft_done t ++ [r]).
Definition at_pc (t : fthread) (pc : fpc) : fthread := MkFT (ft_prog t) pc (ft_done t).

Inductive fstep : fstate -> fstate -> Prop :=
(* line 29: the constructor locks fftw_mutex_ *)
| F_create_lock : forall s i t k n p, nth_error (fs_threads s) i = Some t -> ft_pc t = Idle -> ft_prog t = Create k n :: p -> fs_mutex s = None ->
    fstep s (MkFS (fs_objs s) (Some i) (set_thr s i (at_pc t (InConstructor k n))))
(* lines 31-34: sequence_size <= 0, the exception unlocks the mutex; there is no object (line 94: the raw pointer is never assigned) *)
| F_create_zero : forall s i t k, nth_error (fs_threads s) i = Some t -> ft_pc t = InConstructor k 0 ->
    fstep s (MkFS (fs_objs s) None (set_thr s i (finish t Refused)))
(* lines 36-39: fresh arrays with whatever the planner leaves in them *)
| F_create : forall s i t k n u v, nth_error (fs_threads s) i = Some t -> ft_pc t = InConstructor k n -> n <> 0 -> length u = n -> length v = n ->
    fstep s (MkFS (set_obj (fs_objs s) k (Some (MkObj n u v))) None (set_thr s i (finish t Created)))
(* line 44: the destructor locks fftw_mutex_ *)
| F_destroy_lock : forall s i t k p o, nth_error (fs_threads s) i = Some t -> ft_pc t = Idle -> ft_prog t = Destroy k :: p -> fs_objs s k = Some o -> fs_mutex s = None ->
    fstep s (MkFS (fs_objs s) (Some i) (set_thr s i (at_pc t (InDestructor k))))
(* lines 46-49 *)
| F_destroy : forall s i t k, nth_error (fs_threads s) i = Some t -> ft_pc t = InDestructor k ->
    fstep s (MkFS (set_obj (fs_objs s) k None) None (set_thr s i (finish t Destroyed)))
(* a call on a name that holds no object (any more) *)
| F_dangling : forall s i t k p, nth_error (fs_threads s) i = Some t -> ft_pc t = Idle ->
    (ft_prog t = Destroy k :: p \/ exists x, ft_prog t = Transform k x :: p) -> fs_objs s k = None ->
    fstep s (MkFS (fs_objs s) (fs_mutex s) (set_thr s i (finish t Dangling)))
(* lines 54-58: another size than at construction *)
| F_refuse : forall s i t k x p o, nth_error (fs_threads s) i = Some t -> ft_pc t = Idle -> ft_prog t = Transform k x :: p -> fs_objs s k = Some o -> o_size o <> length x ->
    fstep s (MkFS (fs_objs s) (fs_mutex s) (set_thr s i (finish t Refused)))
(* line 60: the loop starts; no lock is taken *)
| F_start : forall s i t k x p o, nth_error (fs_threads s) i = Some t -> ft_pc t = Idle -> ft_prog t = Transform k x :: p -> fs_objs s k = Some o -> o_size o = length x ->
    fstep s (MkFS (fs_objs s) (fs_mutex s) (set_thr s i (at_pc t (Copying k x 0))))
(* lines 60-64: one element *)
| F_copy : forall s i t k x n a o, nth_error (fs_threads s) i = Some t -> ft_pc t = Copying k x n -> nth_error x n = Some a -> fs_objs s k = Some o ->
    fstep s (MkFS (set_obj (fs_objs s) k (Some (MkObj (o_size o) (upd (o_in o) n a) (o_out o)))) (fs_mutex s) (set_thr s i (at_pc t (Copying k x (S n)))))
(* line 67: fftw_execute *)
| F_execute : forall s i t k x o, nth_error (fs_threads s) i = Some t -> ft_pc t = Copying k x (length x) -> fs_objs s k = Some o ->
    fstep s (MkFS (set_obj (fs_objs s) k (Some (MkObj (o_size o) (o_in o) (f (o_in o))))) (fs_mutex s) (set_thr s i (at_pc t (Reading k []))))
(* lines 71-75: one element of the result *)
| F_read : forall s i t k y a o, nth_error (fs_threads s) i = Some t -> ft_pc t = Reading k y -> fs_objs s k = Some o -> length y < o_size o -> nth_error (o_out o) (length y) = Some a ->
    fstep s (MkFS (fs_objs s) (fs_mutex s) (set_thr s i (at_pc t (Reading k (y ++ [a])))))
(* line 77 *)
| F_return : forall s i t k y o, nth_error (fs_threads s) i = Some t -> ft_pc t = Reading k y -> fs_objs s k = Some o -> o_size o <= length y ->
    fstep s (MkFS (fs_objs s) (fs_mutex s) (set_thr s i (finish t (Transformed y))))
(* the object was destroyed by another thread while this one is using it *)
| F_vanished : forall s i t k, nth_error (fs_threads s) i = Some t -> ((exists x n, ft_pc t = Copying k x n) \/ exists y, ft_pc t = Reading k y) -> fs_objs s k = None ->
    fstep s (MkFS (fs_objs s) (fs_mutex s) (set_thr s i (finish t Dangling))).

Definition finit (programs : list (list fop)) : fstate := MkFS (fun _ => None) None (map (fun p => MkFT p Idle []) programs).
(** Runs of [n] steps. *)
Inductive fruns : nat -> fstate -> fstate -> Prop :=
| fruns_nil : forall s, fruns 0 s s
| fruns_step : forall n s1 s2 s3, fruns n s1 s2 -> fstep s2 s3 -> fruns (S n) s1 s3.
End Fft.
