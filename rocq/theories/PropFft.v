(** C70: FastFourierTransform objects and threads. *)
From Verif Require Import Base Num Optim Dsp FastWavelet FftShared.
Local Open Scope list_scope.

Section C70.
Variable A : Type.
Variable f : list A -> list A.
Notation fop := (fop A). Notation fres := (fres A). Notation fobj := (fobj A). Notation fthread := (fthread A). Notation fstate := (fstate A).

(** *** Specification: what the calls of one thread give if nobody else exists. [m k]: the size the object named [k] was created for. *)
Definition put (m : nat -> option nat) (k : nat) (v : option nat) : nat -> option nat := fun j => if Nat.eqb j k then v else m j.
Fixpoint expected (m : nat -> option nat) (p : list fop) : list fres :=
  match p with
  | [] => []
  | Create _ k 0 :: q => Refused A :: expected m q
  | Create _ k n :: q => Created A :: expected (put m k (Some n)) q
  | Transform _ k x :: q =>
      match m k with
      | None => Dangling A
      | Some n => if Nat.eqb n (length x) then Transformed A (f x) else Refused A
      end :: expected m q
  | Destroy _ k :: q =>
      match m k with
      | None => Dangling A :: expected m q
      | Some _ => Destroyed A :: expected (put m k None) q
      end
  end.
Definition slot (o : fop) : nat := match o with Create _ k _ => k | Transform _ k _ => k | Destroy _ k => k end.
(** no object is named by two threads *)
Definition private (owner : nat -> nat) (programs : list (list fop)) : Prop :=
  forall i p o, nth_error programs i = Some p -> In o p -> owner (slot o) = i.
(** inside the code guarded by the mutex (FFTW's planner) *)
Definition in_planner (t : fthread) : Prop := match ft_pc A t with InConstructor _ _ _ => True | InDestructor _ _ => True | _ => False end.
Definition finished (t : fthread) : Prop := ft_prog A t = [] /\ ft_pc A t = Idle A.

Lemma expected_ext p : forall m m', (forall o, In o p -> m (slot o) = m' (slot o)) -> expected m p = expected m' p.
Proof.
  induction p as [|o p IH]; intros m m' H; [reflexivity|]. pose proof (H o (or_introl eq_refl)) as Ho.
  assert (P : forall k v, (forall o', In o' p -> put m k v (slot o') = put m' k v (slot o'))) by (intros k v o' I; unfold put; destruct (Nat.eqb _ _); [reflexivity|apply H; right; exact I]).
  assert (Q : forall o', In o' p -> m (slot o') = m' (slot o')) by (intros o' I; apply H; right; exact I).
  destruct o as [k n|k x|k]; cbn [expected slot] in *.
  - destruct n; f_equal; apply IH; auto.
  - rewrite Ho. f_equal. apply IH; auto.
  - rewrite Ho. destruct (m' k); f_equal; apply IH; auto.
Qed.
Definition sizes (m : nat -> option fobj) : nat -> option nat := fun k => option_map (o_size A) (m k).
Lemma sizes_set m k o j : sizes (set_obj A m k o) j = put (sizes m) k (option_map (o_size A) o) j.
Proof. unfold sizes, set_obj, put. destruct (Nat.eqb j k); reflexivity. Qed.
Lemma put_same (m : nat -> option nat) k v j : m k = v -> put m k v j = m j.
Proof. intro E. unfold put. destruct (Nat.eqb_spec j k); [subst; congruence|reflexivity]. Qed.

Section Private.
Hypothesis f_length : forall x, length (f x) = length x.
Variable owner : nat -> nat.
Definition good (o : fobj) (n : nat) : Prop := o_size A o = n /\ length (o_in A o) = n /\ length (o_out A o) = n.
Definition pc_ok (m : nat -> option fobj) (t : fthread) : Prop :=
  match ft_pc A t with
  | Idle _ => True
  | InConstructor _ k n => exists p, ft_prog A t = Create A k n :: p
  | InDestructor _ k => exists p o, ft_prog A t = Destroy A k :: p /\ m k = Some o
  | Copying _ k x n => exists p o, ft_prog A t = Transform A k x :: p /\ m k = Some o /\ o_size A o = length x /\ n <= length x /\ firstn n (o_in A o) = firstn n x
  | Reading _ k y => exists p o x, ft_prog A t = Transform A k x :: p /\ m k = Some o /\ o_size A o = length x /\ o_out A o = f x /\ length y <= length x /\ y = firstn (length y) (f x)
  end.
Definition tinv (P : list fop) (m : nat -> option fobj) (i : nat) (t : fthread) : Prop :=
  (forall o, In o (ft_prog A t) -> owner (slot o) = i) /\ ft_done A t ++ expected (sizes m) (ft_prog A t) = expected (fun _ => None) P /\
  (forall k o, owner k = i -> m k = Some o -> good o (o_size A o)) /\ pc_ok m t.
Lemma tinv_ext P m m' i t : (forall k, owner k = i -> m k = m' k) -> tinv P m i t -> tinv P m' i t.
Proof.
  intros H (O & E & G & C). split; [exact O|]. split; [rewrite <- E; f_equal; apply expected_ext; intros o I; unfold sizes; rewrite H by (apply O; exact I); reflexivity|].
  split; [intros k o Hk Ho; apply (G k o Hk); rewrite H by exact Hk; exact Ho|].
  unfold pc_ok in *. destruct (ft_pc A t) as [|k n|k|k x n|k y]; auto.
  - destruct C as (p & o & Ep & Eo). exists p, o. split; [exact Ep|]. rewrite <- H; [exact Eo|]. apply (O (Destroy A k)). rewrite Ep. left; reflexivity.
  - destruct C as (p & o & Ep & Eo & C). exists p, o. split; [exact Ep|]. split; [|exact C]. rewrite <- H; [exact Eo|]. apply (O (Transform A k x)). rewrite Ep. left; reflexivity.
  - destruct C as (p & o & x & Ep & Eo & C). exists p, o, x. split; [exact Ep|]. split; [|exact C]. rewrite <- H; [exact Eo|]. apply (O (Transform A k x)). rewrite Ep. left; reflexivity.
Qed.
Lemma firstn_S (l : list A) n a : nth_error l n = Some a -> firstn (S n) l = firstn n l ++ [a].
Proof. revert n. induction l as [|b l IH]; intros [|n] H; try discriminate; cbn in *; [congruence|]. rewrite (IH n H). reflexivity. Qed.
Lemma firstn_upd (l : list A) n a : firstn n (upd l n a) = firstn n l.
Proof. revert n. induction l as [|b l IH]; intros [|n]; cbn; try reflexivity. rewrite IH. reflexivity. Qed.

(** cost of what is left of a thread *)
Definition op_cost (o : fop) : nat := match o with Create _ _ _ => 2 | Destroy _ _ => 2 | Transform _ _ x => 2 * length x + 3 end.
Definition prog_cost (p : list fop) : nat := fold_right (fun o n => op_cost o + n) 0 p.
Definition cost (t : fthread) : nat :=
  match ft_pc A t with
  | Idle _ => prog_cost (ft_prog A t)
  | InConstructor _ _ _ => 1 + prog_cost (tl (ft_prog A t))
  | InDestructor _ _ => 1 + prog_cost (tl (ft_prog A t))
  | Copying _ _ x n => 2 * length x + 2 - n + prog_cost (tl (ft_prog A t))
  | Reading _ _ y => (match ft_prog A t with Transform _ _ x :: _ => length x | _ => 0 end) + 1 - length y + prog_cost (tl (ft_prog A t))
  end.

Lemma step_private s s' : fstep A f s s' -> exists i t t', nth_error (fs_threads A s) i = Some t /\ fs_threads A s' = upd (fs_threads A s) i t' /\
  (forall P, tinv P (fs_objs A s) i t -> (forall k, owner k <> i -> fs_objs A s k = fs_objs A s' k) /\ tinv P (fs_objs A s') i t' /\ cost t' < cost t).
Proof.
  intro H. destruct H as [s i t k n p Ht Hp Hg Hm|s i t k Ht Hp|s i t k n u v Ht Hp Hn Hu Hv|s i t k p o Ht Hp Hg Ho Hm|s i t k Ht Hp|s i t k p Ht Hp Hg Ho|s i t k x p o Ht Hp Hg Ho Hs|s i t k x p o Ht Hp Hg Ho Hs|s i t k x n a o Ht Hp Ha Ho|s i t k x o Ht Hp Ho|s i t k y a o Ht Hp Ho Hl Ha|s i t k y o Ht Hp Ho Hl|s i t k Ht Hp Ho];
    exists i, t; eexists; (split; [exact Ht|]); (split; [reflexivity|]); cbn [fs_objs]; intros P (O & E & G & C); unfold pc_ok in C.
  - split; [reflexivity|]. split; [split; [exact O|]; split; [exact E|]; split; [exact G|]; exists p; exact Hg|]. unfold cost. cbn. rewrite Hp, Hg. cbn. lia.
  - rewrite Hp in C. destruct C as (p & Ep). rewrite Ep in *. split; [reflexivity|]. cbn [expected] in E.
    split; [|unfold cost; cbn; rewrite Hp, Ep; cbn; lia]. unfold tinv, finish, pc_ok. cbn [ft_prog ft_pc ft_done]. rewrite Ep. cbn [tl]. split; [intros o I; apply O; right; exact I|]. split; [rewrite <- app_assoc; exact E|]. split; [exact G|exact I].
  - rewrite Hp in C. destruct C as (p & Ep). rewrite Ep in *. assert (Ok : owner k = i) by (apply (O (Create A k n)); left; reflexivity).
    split; [intros j Hj; unfold set_obj; destruct (Nat.eqb_spec j k); [congruence|reflexivity]|]. cbn [expected] in E. destruct n as [|n']; [congruence|].
    split; [|unfold cost; cbn; rewrite Hp, Ep; cbn; lia]. unfold tinv, finish, pc_ok. cbn [ft_prog ft_pc ft_done]. rewrite Ep. cbn [tl]. split; [intros o I; apply O; right; exact I|].
    split; [rewrite <- app_assoc; cbn [app]; rewrite <- E; do 2 f_equal; apply expected_ext; intros o _; apply sizes_set|]. split; [|exact I].
    intros j o Hj. unfold set_obj. destruct (Nat.eqb_spec j k); [|apply G; exact Hj]. intro Q. injection Q as <-. repeat split; assumption.
  - split; [reflexivity|]. split; [split; [exact O|]; split; [exact E|]; split; [exact G|]; exists p, o; split; [exact Hg|exact Ho]|]. unfold cost. cbn. rewrite Hp, Hg. cbn. lia.
  - rewrite Hp in C. destruct C as (p & o & Ep & Eo). rewrite Ep in *. assert (Ok : owner k = i) by (apply (O (Destroy A k)); left; reflexivity).
    split; [intros j Hj; unfold set_obj; destruct (Nat.eqb_spec j k); [congruence|reflexivity]|]. cbn [expected] in E. unfold sizes in E at 1. rewrite Eo in E. cbn [option_map] in E.
    split; [|unfold cost; cbn; rewrite Hp, Ep; cbn; lia]. unfold tinv, finish, pc_ok. cbn [ft_prog ft_pc ft_done]. rewrite Ep. cbn [tl]. split; [intros o' I; apply O; right; exact I|].
    split; [rewrite <- app_assoc; cbn [app]; rewrite <- E; do 2 f_equal; apply expected_ext; intros o' _; apply sizes_set|]. split; [|exact I].
    intros j o' Hj. unfold set_obj. destruct (Nat.eqb_spec j k); [discriminate|apply G; exact Hj].
  - split; [reflexivity|]. assert (X : exists op, ft_prog A t = op :: p /\ slot op = k /\ expected (sizes (fs_objs A s)) (op :: p) = Dangling A :: expected (sizes (fs_objs A s)) p).
    { destruct Hg as [Hg|(x & Hg)]; rewrite Hg; eexists; (split; [reflexivity|]); (split; [reflexivity|]); cbn [expected]; unfold sizes at 1; rewrite Ho; reflexivity. }
    destruct X as (op & Eg & _ & Ex). rewrite Eg in *. rewrite Ex in E. split; [|unfold cost; cbn; rewrite Hp, Eg; destruct op; cbn; lia].
    unfold tinv, finish, pc_ok. cbn [ft_prog ft_pc ft_done]. rewrite Eg. cbn [tl]. split; [intros o I; apply O; right; exact I|]. split; [rewrite <- app_assoc; exact E|]. split; [exact G|exact I].
  - split; [reflexivity|]. rewrite Hg in *. cbn [expected] in E. unfold sizes in E at 1. rewrite Ho in E. cbn [option_map] in E. destruct (Nat.eqb_spec (o_size A o) (length x)); [contradiction|].
    split; [|unfold cost; cbn; rewrite Hp, Hg; cbn; lia].
    unfold tinv, finish, pc_ok. cbn [ft_prog ft_pc ft_done]. rewrite Hg. cbn [tl]. split; [intros o' I; apply O; right; exact I|]. split; [rewrite <- app_assoc; exact E|]. split; [exact G|exact I].
  - split; [reflexivity|]. split; [split; [exact O|]; split; [exact E|]; split; [exact G|]; exists p, o; repeat split; auto; lia|]. unfold cost. cbn. rewrite Hp, Hg. cbn. lia.
  - rewrite Hp in C. destruct C as (p & o' & Ep & Eo & Es & Hn & Ef). rewrite Ho in Eo. injection Eo as <-. assert (Ok : owner k = i) by (apply (O (Transform A k x)); rewrite Ep; left; reflexivity).
    assert (Ln : n < length x) by (apply nth_error_Some; congruence). destruct (G k o Ok Ho) as (_ & Gi & Go).
    split; [intros j Hj; unfold set_obj; destruct (Nat.eqb_spec j k); [congruence|reflexivity]|].
    split; [|unfold cost; cbn; rewrite Hp; lia]. unfold tinv, at_pc, pc_ok. cbn [ft_prog ft_pc ft_done]. split; [exact O|].
    split; [rewrite <- E; f_equal; apply expected_ext; intros o' _; rewrite sizes_set; cbn [option_map o_size]; apply put_same; unfold sizes; rewrite Ho; reflexivity|]. split.
    + intros j o' Hj. unfold set_obj. destruct (Nat.eqb_spec j k); [|apply G; exact Hj]. intro Q. injection Q as <-. unfold good. cbn [o_size o_in o_out]. rewrite upd_length. auto.
    + exists p. eexists. split; [exact Ep|]. split; [unfold set_obj; rewrite Nat.eqb_refl; reflexivity|]. cbn [o_size o_in]. split; [exact Es|]. split; [lia|].
      rewrite (firstn_S x n a Ha), (firstn_S _ n a); [rewrite firstn_upd, Ef; reflexivity|]. rewrite nth_error_upd, Nat.eqb_refl. destruct (Nat.ltb_spec n (length (o_in A o))); [reflexivity|lia].
  - rewrite Hp in C. destruct C as (p & o' & Ep & Eo & Es & Hn & Ef). rewrite Ho in Eo. injection Eo as <-. assert (Ok : owner k = i) by (apply (O (Transform A k x)); rewrite Ep; left; reflexivity).
    destruct (G k o Ok Ho) as (_ & Gi & Go). assert (Ei : o_in A o = x) by (rewrite firstn_all in Ef; rewrite <- Ef, firstn_all2 by lia; reflexivity).
    split; [intros j Hj; unfold set_obj; destruct (Nat.eqb_spec j k); [congruence|reflexivity]|].
    split; [|unfold cost; cbn; rewrite Hp, Ep; cbn; lia]. unfold tinv, at_pc, pc_ok. cbn [ft_prog ft_pc ft_done]. split; [exact O|].
    split; [rewrite <- E; f_equal; apply expected_ext; intros o' _; rewrite sizes_set; cbn [option_map o_size]; apply put_same; unfold sizes; rewrite Ho; reflexivity|]. split.
    + intros j o' Hj. unfold set_obj. destruct (Nat.eqb_spec j k); [|apply G; exact Hj]. intro Q. injection Q as <-. unfold good. cbn [o_size o_in o_out]. rewrite f_length. auto.
    + exists p. eexists. exists x. split; [exact Ep|]. split; [unfold set_obj; rewrite Nat.eqb_refl; reflexivity|]. cbn [o_size o_out]. split; [exact Es|]. split; [rewrite Ei; reflexivity|]. split; [cbn; lia|reflexivity].
  - rewrite Hp in C. destruct C as (p & o' & x & Ep & Eo & Es & Ef & Hl' & Ey). rewrite Ho in Eo. injection Eo as <-. split; [reflexivity|].
    split; [|unfold cost; cbn; rewrite Hp, Ep, app_length; cbn; lia]. unfold tinv, at_pc, pc_ok. cbn [ft_prog ft_pc ft_done]. split; [exact O|]. split; [exact E|]. split; [exact G|].
    exists p, o, x. split; [exact Ep|]. split; [exact Ho|]. split; [exact Es|]. split; [exact Ef|]. rewrite app_length. cbn [length]. split; [lia|]. rewrite Ef in Ha. rewrite Nat.add_1_r, (firstn_S _ _ a Ha), <- Ey. reflexivity.
  - rewrite Hp in C. destruct C as (p & o' & x & Ep & Eo & Es & Ef & Hl' & Ey). rewrite Ho in Eo. injection Eo as <-. split; [reflexivity|]. rewrite Ep in *. cbn [expected] in E. unfold sizes in E at 1. rewrite Ho in E. cbn [option_map] in E.
    rewrite Es, Nat.eqb_refl in E. assert (Ey' : y = f x) by (rewrite Ey; apply firstn_all2; rewrite f_length; lia).
    split; [|unfold cost; cbn; rewrite Hp, Ep; cbn; lia]. unfold tinv, finish, pc_ok. cbn [ft_prog ft_pc ft_done]. rewrite Ep. cbn [tl]. split; [intros o' I; apply O; right; exact I|]. split; [rewrite <- app_assoc, Ey'; exact E|]. split; [exact G|exact I].
  - exfalso. destruct Hp as [(x & n & Hp)|(y & Hp)]; rewrite Hp in C; [destruct C as (p & o & _ & Eo & _)|destruct C as (p & o & x & _ & Eo & _)]; congruence.
Qed.

Definition all_inv (programs : list (list fop)) (s : fstate) : Prop :=
  length (fs_threads A s) = length programs /\ forall i t P, nth_error (fs_threads A s) i = Some t -> nth_error programs i = Some P -> tinv P (fs_objs A s) i t.
Fixpoint total_cost (l : list fthread) : nat := match l with [] => 0 | t :: r => cost t + total_cost r end.
Lemma total_upd : forall l i t t', nth_error l i = Some t -> cost t' < cost t -> total_cost (upd l i t') < total_cost l.
Proof. induction l as [|a l IH]; intros [|i] t t' H L; cbn in *; try discriminate; [injection H as ->; lia|]. specialize (IH i t t' H L). lia. Qed.
Lemma all_inv_step programs s s' : all_inv programs s -> fstep A f s s' -> all_inv programs s' /\ total_cost (fs_threads A s') < total_cost (fs_threads A s).
Proof.
  intros [L Inv] H. destruct (step_private s s' H) as (i & t & t' & Ht & Et & K). assert (Hi : i < length (fs_threads A s)) by (apply nth_error_Some; congruence).
  destruct (nth_error programs i) as [P|] eqn:HP; [|apply nth_error_None in HP; lia]. destruct (K P (Inv i t P Ht HP)) as (F & T & Cl).
  split; [|rewrite Et; apply total_upd with t; assumption]. split; [rewrite Et, upd_length; exact L|]. intros j u Q Hu HQ. rewrite Et, nth_error_upd in Hu.
  destruct (Nat.eqb_spec i j) as [<-|Ne].
  - destruct (Nat.ltb_spec i (length (fs_threads A s))); [|lia]. injection Hu as <-. rewrite HP in HQ. injection HQ as <-. exact T.
  - apply tinv_ext with (fs_objs A s); [intros k Hk; apply F; congruence|]. apply Inv; assumption.
Qed.
Lemma all_inv_init programs : private owner programs -> all_inv programs (finit A programs).
Proof.
  intro H. split; [apply map_length|]. intros i t P Ht HP. cbn [finit fs_threads fs_objs] in *. rewrite nth_error_map, HP in Ht. injection Ht as <-.
  split; [intros o I; exact (H i P o HP I)|]. split; [reflexivity|]. split; [discriminate|exact I].
Qed.
Lemma all_inv_run programs n s0 s : fruns A f n s0 s -> all_inv programs s0 -> all_inv programs s /\ n + total_cost (fs_threads A s) <= total_cost (fs_threads A s0).
Proof.
  intro R. induction R as [s|n s1 s2 s3 R IH H]; intro I; [split; [exact I|lia]|]. destruct (IH I) as [J Cn]. destruct (all_inv_step programs s2 s3 J H) as [K D]. split; [exact K|lia].
Qed.

(** ** Theorems *)
(** Objects used by one thread each: in every schedule, the calls of every thread give, in their order, what they would give if the thread were
    alone: each Transform returns the transform of its own argument, whatever was computed with the object before. *)
Theorem C70_private : forall programs n s, private owner programs -> fruns A f n (finit A programs) s ->
  forall i t P, nth_error (fs_threads A s) i = Some t -> nth_error programs i = Some P ->
  exists rest, expected (fun _ => None) P = ft_done A t ++ rest /\ (finished t -> rest = []).
Proof.
  intros programs n s H R i t P Ht HP. destruct (all_inv_run programs _ _ _ R (all_inv_init programs H)) as [[_ I] _]. destruct (I i t P Ht HP) as (_ & E & _).
  eexists. split; [symmetry; exact E|]. intros [F _]. rewrite F. reflexivity.
Qed.
(** ... and every schedule ends. *)
Theorem C70_bounded : forall programs n s, private owner programs -> fruns A f n (finit A programs) s ->
  n <= fold_right (fun p c => fold_right (fun o d => match o with Create _ _ _ => 2 | Destroy _ _ => 2 | Transform _ _ x => 2 * length x + 3 end + d) 0 p + c) 0 programs.
Proof.
  intros programs n s H R. destruct (all_inv_run programs _ _ _ R (all_inv_init programs H)) as [_ B]. assert (E : total_cost (fs_threads A (finit A programs)) = fold_right (fun p c => prog_cost p + c) 0 programs).
  { cbn [finit fs_threads]. clear. induction programs as [|p q IH]; [reflexivity|]. cbn [map total_cost fold_right]. rewrite IH. reflexivity. }
  rewrite E in B. assert (F : forall q, fold_right (fun p c => prog_cost p + c) 0 q = fold_right (fun p c => fold_right (fun o d => match o with Create _ _ _ => 2 | Destroy _ _ => 2 | Transform _ _ x => 2 * length x + 3 end + d) 0 p + c) 0 q) by reflexivity.
  rewrite <- F. lia.
Qed.
End Private.

(** *** The planner's mutex *)
Definition lock_inv (s : fstate) : Prop :=
  (forall i t, nth_error (fs_threads A s) i = Some t -> in_planner t -> fs_mutex A s = Some i) /\
  (forall i, fs_mutex A s = Some i -> exists t, nth_error (fs_threads A s) i = Some t /\ in_planner t).
Definition shape (t : fthread) : Prop :=
  match ft_pc A t with Copying _ _ x n => n <= length x | _ => True end.

Lemma step_lock s s' : fstep A f s s' -> exists i t t', nth_error (fs_threads A s) i = Some t /\ fs_threads A s' = upd (fs_threads A s) i t' /\
  ((fs_mutex A s = None /\ fs_mutex A s' = Some i /\ ~ in_planner t /\ in_planner t') \/ (in_planner t /\ fs_mutex A s' = None /\ ~ in_planner t') \/ (fs_mutex A s' = fs_mutex A s /\ ~ in_planner t /\ ~ in_planner t')).
Proof.
  intro H; destruct H as [s i t k n p Ht Hp Hg Hm|s i t k Ht Hp|s i t k n u v Ht Hp Hn Hu Hv|s i t k p o Ht Hp Hg Ho Hm|s i t k Ht Hp|s i t k p Ht Hp Hg Ho|s i t k x p o Ht Hp Hg Ho Hs|s i t k x p o Ht Hp Hg Ho Hs|s i t k x n a o Ht Hp Ha Ho|s i t k x o Ht Hp Ho|s i t k y a o Ht Hp Ho Hl Ha|s i t k y o Ht Hp Ho Hl|s i t k Ht Hp Ho];
    exists i, t; eexists; (split; [exact Ht|]); (split; [reflexivity|]); unfold in_planner; cbn [fs_mutex at_pc finish ft_pc]; try rewrite Hp; auto 8.
  destruct Hp as [(x & n & Hp)|(y & Hp)]; rewrite Hp; auto 8.
Qed.
Lemma lock_step s s' : lock_inv s -> fstep A f s s' -> lock_inv s'.
Proof.
  intros [L1 L2] H. destruct (step_lock s s' H) as (i & t & t' & Ht & Et & K). assert (Hi : i < length (fs_threads A s)) by (apply nth_error_Some; congruence).
  assert (N : forall j u, nth_error (fs_threads A s') j = Some u -> (j = i /\ u = t') \/ (j <> i /\ nth_error (fs_threads A s) j = Some u)).
  { intros j u Hu. rewrite Et, nth_error_upd in Hu. destruct (Nat.eqb_spec i j) as [<-|Ne]; [|right; auto]. destruct (Nat.ltb_spec i (length (fs_threads A s))); [injection Hu as <-; auto|lia]. }
  assert (I : nth_error (fs_threads A s') i = Some t') by (rewrite Et, nth_error_upd, Nat.eqb_refl; destruct (Nat.ltb_spec i (length (fs_threads A s))); [reflexivity|lia]).
  assert (M : forall j, j <> i -> nth_error (fs_threads A s') j = nth_error (fs_threads A s) j) by (intros j Ne; rewrite Et, nth_error_upd; destruct (Nat.eqb_spec i j); [congruence|reflexivity]).
  destruct K as [(M0 & M1 & P0 & P1)|[(P0 & M1 & P1)|(M1 & P0 & P1)]]; split; rewrite M1.
  - intros j u Hu Pu. destruct (N j u Hu) as [[-> ->]|[Ne Hu']]; [reflexivity|]. pose proof (L1 j u Hu' Pu). congruence.
  - intros j E. injection E as <-. eauto.
  - intros j u Hu Pu. destruct (N j u Hu) as [[-> ->]|[Ne Hu']]; [contradiction|]. pose proof (L1 j u Hu' Pu). pose proof (L1 i t Ht P0). congruence.
  - discriminate.
  - intros j u Hu Pu. destruct (N j u Hu) as [[-> ->]|[Ne Hu']]; [contradiction|]. exact (L1 j u Hu' Pu).
  - intros j E. destruct (L2 j E) as (u & Hu & Pu). exists u. split; [|exact Pu]. rewrite M; [exact Hu|]. intros ->. congruence.
Qed.
Lemma obj_step s s' : (forall x, length (f x) = length x) -> (forall k o, fs_objs A s k = Some o -> length (o_in A o) = o_size A o /\ length (o_out A o) = o_size A o) -> fstep A f s s' ->
  forall k o, fs_objs A s' k = Some o -> length (o_in A o) = o_size A o /\ length (o_out A o) = o_size A o.
Proof.
  intros Fl I H; destruct H as [s i t k n p Ht Hp Hg Hm|s i t k Ht Hp|s i t k n u v Ht Hp Hn Hu Hv|s i t k p o Ht Hp Hg Ho Hm|s i t k Ht Hp|s i t k p Ht Hp Hg Ho|s i t k x p o Ht Hp Hg Ho Hs|s i t k x p o Ht Hp Hg Ho Hs|s i t k x n a o Ht Hp Ha Ho|s i t k x o Ht Hp Ho|s i t k y a o Ht Hp Ho Hl Ha|s i t k y o Ht Hp Ho Hl|s i t k Ht Hp Ho];
    intros j o'; cbn [fs_objs]; try exact (I j o'); unfold set_obj; destruct (Nat.eqb_spec j k); try exact (I j o'); try discriminate; intro Q; injection Q as <-; cbn [o_in o_out o_size]; auto;
    destruct (I k o Ho) as [I1 I2]; rewrite ?upd_length, ?Fl; auto.
Qed.
Lemma shape_step s s' : (forall i t, nth_error (fs_threads A s) i = Some t -> shape t) -> fstep A f s s' -> forall i t, nth_error (fs_threads A s') i = Some t -> shape t.
Proof.
  intros I H. assert (X : exists i t t', nth_error (fs_threads A s) i = Some t /\ fs_threads A s' = upd (fs_threads A s) i t' /\ (shape t -> shape t')).
  { destruct H as [s i t k n p Ht Hp Hg Hm|s i t k Ht Hp|s i t k n u v Ht Hp Hn Hu Hv|s i t k p o Ht Hp Hg Ho Hm|s i t k Ht Hp|s i t k p Ht Hp Hg Ho|s i t k x p o Ht Hp Hg Ho Hs|s i t k x p o Ht Hp Hg Ho Hs|s i t k x n a o Ht Hp Ha Ho|s i t k x o Ht Hp Ho|s i t k y a o Ht Hp Ho Hl Ha|s i t k y o Ht Hp Ho Hl|s i t k Ht Hp Ho];
    exists i, t; eexists; (split; [exact Ht|]); (split; [reflexivity|]); unfold shape, at_pc, finish; cbn [ft_pc ft_prog]; try rewrite Hp; try rewrite Hg; auto; try discriminate; try lia.
    assert (n < length x) by (apply nth_error_Some; congruence). lia. }
  destruct X as (i & t & t' & Ht & Et & K). intros j u Hu. rewrite Et, nth_error_upd in Hu. destruct (Nat.eqb_spec i j) as [<-|Ne]; [|apply (I j u Hu)]. destruct (Nat.ltb_spec i (length (fs_threads A s))); [injection Hu as <-; apply K, (I i t Ht)|discriminate].
Qed.

Lemma lock_run programs n s : fruns A f n (finit A programs) s -> lock_inv s.
Proof.
  remember (finit A programs) as s0. intro R. revert Heqs0. induction R as [s|n s1 s2 s3 R IH H]; intro E; [subst|exact (lock_step _ _ (IH E) H)].
  split; [|discriminate]. intros i t Ht Pt. cbn [finit fs_threads] in Ht. rewrite nth_error_map in Ht. destruct (nth_error programs i); [injection Ht as <-; destruct Pt|discriminate].
Qed.
(** FFTW's planner is never entered by two threads at a time: for any programs, any schedule, objects shared or not. *)
Theorem C70_planner_exclusive : forall programs n s, fruns A f n (finit A programs) s ->
  forall i j t u, nth_error (fs_threads A s) i = Some t -> nth_error (fs_threads A s) j = Some u -> in_planner t -> in_planner u -> i = j.
Proof. intros programs n s R i j t u Ht Hu Pt Pu. destruct (lock_run programs n s R) as [L _]. pose proof (L i t Ht Pt). pose proof (L j u Hu Pu). congruence. Qed.
(** Nobody is ever blocked for good: while a thread has something left to do, some thread can go on. In particular a refused construction releases
    the mutex. *)
Theorem C70_no_deadlock : forall (a : A), (forall x, length (f x) = length x) -> forall programs n s, fruns A f n (finit A programs) s ->
  forall i t, nth_error (fs_threads A s) i = Some t -> ~ finished t -> exists s', fstep A f s s'.
Proof.
  intros a Fl programs n s R i t Ht Nf. pose proof (lock_run programs n s R) as [L1 L2].
  assert (OI : forall k o, fs_objs A s k = Some o -> length (o_in A o) = o_size A o /\ length (o_out A o) = o_size A o).
  { remember (finit A programs) as s0. clear - R Fl Heqs0. induction R as [s|m s1 s2 s3 R IH H]; [subst; discriminate|]. exact (obj_step s2 s3 Fl (IH Heqs0) H). }
  assert (SH : forall j u, nth_error (fs_threads A s) j = Some u -> shape u).
  { remember (finit A programs) as s0. clear - R Heqs0. induction R as [s|m s1 s2 s3 R IH H]; [subst|exact (shape_step s2 s3 (IH Heqs0) H)].
    intros j u Hu. cbn [finit fs_threads] in Hu. rewrite nth_error_map in Hu. destruct (nth_error programs j); [injection Hu as <-; exact I|discriminate]. }
  assert (PL : forall j u, nth_error (fs_threads A s) j = Some u -> in_planner u -> exists s', fstep A f s s').
  { intros j u Hu Pu. unfold in_planner in Pu. destruct (ft_pc A u) as [|k m|k|k x m|k y] eqn:E; try contradiction.
    - destruct m as [|m]; [eexists; eapply F_create_zero; eassumption|]. eexists. eapply (F_create A f s j u k (S m) (repeat a (S m)) (repeat a (S m))); try eassumption; [discriminate|apply repeat_length|apply repeat_length].
    - eexists. eapply F_destroy; eassumption. }
  destruct (ft_pc A t) as [|k m|k|k x m|k y] eqn:E.
  - destruct (ft_prog A t) as [|op p] eqn:Ep; [exfalso; apply Nf; split; assumption|].
    destruct (fs_mutex A s) as [j|] eqn:Em; [destruct (L2 j eq_refl) as (u & Hu & Pu); exact (PL j u Hu Pu)|].
    destruct op as [k m|k x|k].
    + eexists. eapply F_create_lock; eassumption.
    + destruct (fs_objs A s k) as [o|] eqn:Eo; [|eexists; eapply F_dangling; eauto].
      destruct (Nat.eq_dec (o_size A o) (length x)); eexists; [eapply F_start|eapply F_refuse]; eassumption.
    + destruct (fs_objs A s k) as [o|] eqn:Eo; eexists; [eapply F_destroy_lock|eapply F_dangling]; eauto.
  - apply (PL i t Ht). unfold in_planner. rewrite E. exact I.
  - apply (PL i t Ht). unfold in_planner. rewrite E. exact I.
  - destruct (fs_objs A s k) as [o|] eqn:Eo; [|eexists; eapply F_vanished; eauto]. pose proof (SH i t Ht) as S. unfold shape in S. rewrite E in S.
    destruct (nth_error x m) as [b|] eqn:Ex; [eexists; eapply F_copy; eassumption|]. apply nth_error_None in Ex. assert (m = length x) as -> by lia. eexists. eapply F_execute; eassumption.
  - destruct (fs_objs A s k) as [o|] eqn:Eo; [|eexists; eapply F_vanished; eauto]. destruct (OI k o Eo) as [_ Oo]. destruct (Nat.lt_ge_cases (length y) (o_size A o)) as [L|L].
    + destruct (nth_error (o_out A o) (length y)) as [b|] eqn:Eb; [|apply nth_error_None in Eb; lia]. eexists. eapply F_read; eassumption.
    + eexists. eapply F_return; eassumption.
Qed.

(** Objects used by several threads at a time: Transform may return the transform of something else. For any two sequences x, y of the same length
    and any position j there is a schedule of two threads, one of which transforms x and the other y with the same object, in which the call for x
    returns the transform of the first j elements of y followed by the others of x (for j = length x: the transform of y). *)
Lemma fruns_trans n m s1 s2 s3 : fruns A f n s1 s2 -> fruns A f m s2 s3 -> exists k, fruns A f k s1 s3.
Proof. intros R1 R2. induction R2 as [s|m s2 s4 s5 R2 IH H]; [eauto|]. destruct (IH R1) as (k & Rk). exists (S k). eapply fruns_step; eassumption. Qed.
Definition reach (s s' : fstate) : Prop := exists n, fruns A f n s s'.
Lemma reach_refl s : reach s s. Proof. exists 0. constructor. Qed.
Lemma reach_step s1 s2 s3 : reach s1 s2 -> fstep A f s2 s3 -> reach s1 s3. Proof. intros (n & R) H. exists (S n). econstructor; eassumption. Qed.
Lemma reach_trans s1 s2 s3 : reach s1 s2 -> reach s2 s3 -> reach s1 s3. Proof. intros (n & R) (m & Q). exact (fruns_trans n m s1 s2 s3 R Q). Qed.
Lemma nth_error_ext {X} (a b : list X) : (forall q, nth_error a q = nth_error b q) -> a = b.
Proof.
  revert b. induction a as [|x a IH]; intros [|y b] H; [reflexivity|discriminate (H 0)|discriminate (H 0)|]. injection (H 0) as ->. f_equal. apply IH. intro q. exact (H (S q)).
Qed.
Lemma nth_error_firstn_lt {X} (l : list X) j q : q < j -> nth_error (firstn j l) q = nth_error l q.
Proof. revert j q. induction l as [|a l IH]; intros [|j] [|q] H; cbn; try lia; try reflexivity. apply IH. lia. Qed.
Lemma nth_error_skipn_at {X} (l : list X) j q : nth_error (skipn j l) q = nth_error l (j + q).
Proof. revert j. induction l as [|a l IH]; intros [|j]; cbn; try reflexivity; [destruct q; reflexivity|apply IH]. Qed.
Lemma upd_upd {X} (l : list X) i a b : upd (upd l i a) i b = upd l i b.
Proof. revert i. induction l as [|c l IH]; intros [|i]; cbn; f_equal; auto. Qed.
Lemma upd_id {X} (l : list X) i a : nth_error l i = Some a -> upd l i a = l.
Proof. revert i. induction l as [|c l IH]; intros [|i] H; cbn in *; try discriminate; f_equal; [congruence|auto]. Qed.

(** thread [i] is [t], the others are as in [s0]; the object [k] is [o] *)
Definition looks (s0 : list fthread) (i : nat) (t : fthread) (k : nat) (o : fobj) (s : fstate) : Prop :=
  fs_threads A s = upd s0 i t /\ i < length s0 /\ fs_objs A s k = Some o.
Lemma looks_thread s0 i t k o s : looks s0 i t k o s -> nth_error (fs_threads A s) i = Some t.
Proof. intros (E & L & _). rewrite E, nth_error_upd, Nat.eqb_refl. destruct (Nat.ltb_spec i (length s0)); [reflexivity|lia]. Qed.
Lemma copy_loop s0 i p done k x : forall d m o s, m + d <= length x -> looks s0 i (MkFT A p (Copying A k x m) done) k o s -> o_size A o = length x -> length (o_in A o) = length x ->
  exists s' inb, reach s s' /\ looks s0 i (MkFT A p (Copying A k x (m + d)) done) k (MkObj A (length x) inb (o_out A o)) s' /\ length inb = length x /\
    forall j, nth_error inb j = if (m <=? j) && (j <? m + d) then nth_error x j else nth_error (o_in A o) j.
Proof.
  induction d as [|d IH]; intros m o s Hm Hs Ho Hi.
  - exists s, (o_in A o). rewrite Nat.add_0_r. split; [apply reach_refl|]. split; [destruct o; cbn in *; subst; exact Hs|]. split; [exact Hi|]. intro j. destruct (Nat.leb_spec m j), (Nat.ltb_spec j m); cbn; try lia; reflexivity.
  - destruct (nth_error x m) as [b|] eqn:Eb; [|apply nth_error_None in Eb; lia]. pose proof (looks_thread _ _ _ _ _ _ Hs) as Ht. destruct Hs as (Et & Hl & Eo).
    set (s1 := MkFS A (set_obj A (fs_objs A s) k (Some (MkObj A (o_size A o) (upd (o_in A o) m b) (o_out A o)))) (fs_mutex A s) (set_thr A s i (at_pc A (MkFT A p (Copying A k x m) done) (Copying A k x (S m))))).
    assert (H1 : fstep A f s s1) by (eapply F_copy; [exact Ht|reflexivity|exact Eb|exact Eo]).
    assert (L1 : looks s0 i (MkFT A p (Copying A k x (S m)) done) k (MkObj A (o_size A o) (upd (o_in A o) m b) (o_out A o)) s1).
    { repeat split; [|exact Hl|]; cbn [s1 fs_threads fs_objs set_thr]; [unfold set_thr; rewrite Et, upd_upd; reflexivity|unfold set_obj; rewrite Nat.eqb_refl; reflexivity]. }
    destruct (IH (S m) _ s1 ltac:(lia) L1 Ho ltac:(cbn [o_in]; rewrite upd_length; exact Hi)) as (s' & inb & R & L' & Li & Hn). exists s', inb.
    split; [eapply reach_trans; [eapply reach_step; [apply reach_refl|exact H1]|exact R]|]. rewrite <- plus_n_Sm in *. split; [exact L'|]. split; [exact Li|].
    intro j. rewrite Hn. cbn [o_in Nat.add]. rewrite nth_error_upd. destruct (Nat.leb_spec (S m) j), (Nat.ltb_spec j (S (m + d))), (Nat.leb_spec m j), (Nat.eqb_spec m j); cbn [andb]; try lia; try reflexivity.
    all: subst j; rewrite Eb; destruct (Nat.ltb_spec m (length (o_in A o))); [reflexivity|lia].
Qed.
Lemma read_loop s0 i p done k o : forall d y s, length y + d = o_size A o -> length (o_out A o) = o_size A o -> y = firstn (length y) (o_out A o) ->
  looks s0 i (MkFT A p (Reading A k y) done) k o s -> exists s', reach s s' /\ looks s0 i (MkFT A p (Reading A k (o_out A o)) done) k o s'.
Proof.
  induction d as [|d IH]; intros y s Hy Ho Ey Hs.
  - assert (E : y = o_out A o) by (rewrite Ey; apply firstn_all2; lia). rewrite <- E. exists s. split; [apply reach_refl|exact Hs].
  - destruct (nth_error (o_out A o) (length y)) as [b|] eqn:Eb; [|apply nth_error_None in Eb; lia]. pose proof (looks_thread _ _ _ _ _ _ Hs) as Ht. destruct Hs as (Et & Hl & Eo).
    set (s1 := MkFS A (fs_objs A s) (fs_mutex A s) (set_thr A s i (at_pc A (MkFT A p (Reading A k y) done) (Reading A k (y ++ [b]))))).
    assert (H1 : fstep A f s s1) by (eapply F_read; [exact Ht|reflexivity|exact Eo|lia|exact Eb]).
    destruct (IH (y ++ [b]) s1) as (s' & R & L'); [rewrite app_length; cbn; lia|exact Ho|rewrite app_length; cbn; rewrite Nat.add_1_r, (firstn_S _ _ b Eb), <- Ey; reflexivity| |].
    { repeat split; [cbn [s1 fs_threads]; unfold set_thr; rewrite Et, upd_upd; reflexivity|exact Hl|exact Eo]. }
    exists s'. split; [eapply reach_trans; [eapply reach_step; [apply reach_refl|exact H1]|exact R]|exact L'].
Qed.
Theorem C70_shared : (forall x, length (f x) = length x) -> forall (x y : list A) j, length x = length y -> 0 < length x -> j <= length x ->
  exists n s, fruns A f n (finit A [[Create A 0 (length x); Transform A 0 x]; [Transform A 0 y]]) s /\
    exists t, nth_error (fs_threads A s) 0 = Some t /\ finished t /\ ft_done A t = [Created A; Transformed A (f (firstn j y ++ skipn j x))].
Proof.
  intros Fl x y j L Lx Hj. set (N := length x) in *. set (p0 := [Create A 0 N; Transform A 0 x]). set (i0 := finit A [p0; [Transform A 0 y]]).
  set (t1 := MkFT A [Transform A 0 y] (Idle A) []). set (l0 := [MkFT A p0 (Idle A) []; t1]).
  (* the first thread creates the object *)
  set (s1 := MkFS A (fun _ => None) (Some 0) [MkFT A p0 (InConstructor A 0 N) []; t1]).
  assert (R1 : reach i0 s1) by (eapply reach_step; [apply reach_refl|]; exact (F_create_lock A f i0 0 (MkFT A p0 (Idle A) []) 0 N _ eq_refl eq_refl eq_refl eq_refl)).
  set (s2 := MkFS A (set_obj A (fun _ => None) 0 (Some (MkObj A N x x))) None [MkFT A [Transform A 0 x] (Idle A) [Created A]; t1]).
  assert (R2 : reach i0 s2) by (eapply reach_step; [exact R1|]; exact (F_create A f s1 0 (MkFT A p0 (InConstructor A 0 N) []) 0 N x x eq_refl eq_refl ltac:(lia) eq_refl eq_refl)).
  (* it starts to copy; the second thread too *)
  set (px := [Transform A 0 x]). set (py := [Transform A 0 y]).
  set (s3 := MkFS A (fs_objs A s2) None [MkFT A px (Copying A 0 x 0) [Created A]; t1]).
  assert (R3 : reach i0 s3) by (eapply reach_step; [exact R2|]; exact (F_start A f s2 0 (MkFT A px (Idle A) [Created A]) 0 x [] (MkObj A N x x) eq_refl eq_refl eq_refl eq_refl eq_refl)).
  set (s4 := MkFS A (fs_objs A s2) None [MkFT A px (Copying A 0 x 0) [Created A]; MkFT A py (Copying A 0 y 0) []]).
  assert (R4 : reach i0 s4) by (eapply reach_step; [exact R3|]; exact (F_start A f s3 1 t1 0 y [] (MkObj A N x x) eq_refl eq_refl eq_refl eq_refl L)).
  (* the first copies j elements *)
  destruct (copy_loop (fs_threads A s4) 0 px [Created A] 0 x j 0 (MkObj A N x x) s4) as (s5 & in5 & R5 & L5 & Li5 & N5); [exact Hj|repeat split; cbn; lia|reflexivity|reflexivity|].
  (* the second copies everything *)
  set (l5 := upd (fs_threads A s4) 0 (MkFT A px (Copying A 0 x (0 + j)) [Created A])) in *.
  destruct (copy_loop l5 1 py [] 0 y N 0 (MkObj A N in5 x) s5) as (s6 & in6 & R6 & L6 & Li6 & N6); [lia| |cbn [o_size o_in]; unfold N in *; congruence|cbn [o_size o_in]; unfold N in *; congruence|].
  { destruct L5 as (E & _ & Eo). repeat split; [exact E|cbn; lia|exact Eo]. }
  (* the first copies the rest *)
  set (l6 := upd l5 1 (MkFT A py (Copying A 0 y (0 + N)) [])) in *.
  destruct (copy_loop l6 0 px [Created A] 0 x (N - j) j (MkObj A (length y) in6 x) s6) as (s7 & in7 & R7 & L7 & Li7 & N7); [lia| |cbn [o_size o_in]; unfold N in *; congruence|cbn [o_size o_in]; unfold N in *; congruence|].
  { destruct L6 as (E & _ & Eo). repeat split; [exact E|cbn; lia|exact Eo]. }
  assert (E7 : in7 = firstn j y ++ skipn j x).
  { apply nth_error_ext. intro q. rewrite N7. cbn [o_in]. rewrite N6. cbn [o_in]. replace (j + (N - j)) with N by lia.
    destruct (Nat.lt_ge_cases q j) as [Q|Q].
    - rewrite nth_error_app1 by (rewrite firstn_length; lia). destruct (Nat.leb_spec j q); [lia|]. destruct (Nat.leb_spec 0 q), (Nat.ltb_spec q (0 + N)); try lia. cbn. symmetry. apply nth_error_firstn_lt. exact Q.
    - rewrite nth_error_app2 by (rewrite firstn_length; lia). rewrite firstn_length, Nat.min_l, nth_error_skipn_at by lia. replace (j + (q - j)) with q by lia.
      destruct (Nat.leb_spec j q); [|lia]. destruct (Nat.ltb_spec q N); cbn [andb]; [reflexivity|]. rewrite (proj2 (nth_error_None x q)) by (fold N; lia).
      destruct (Nat.ltb_spec q (0 + N)); [lia|]. cbn [Nat.leb andb]. apply nth_error_None. rewrite Li5. fold N. lia. }
  (* it executes the plan and reads the result *)
  replace (j + (N - j)) with N in L7 by lia. pose proof (looks_thread _ _ _ _ _ _ L7) as T7. destruct L7 as (E7t & _ & E7o).
  set (o8 := MkObj A N in7 (f in7)). set (s8 := MkFS A (set_obj A (fs_objs A s7) 0 (Some o8)) (fs_mutex A s7) (set_thr A s7 0 (MkFT A px (Reading A 0 []) [Created A]))).
  assert (H8 : fstep A f s7 s8) by exact (F_execute A f s7 0 _ 0 x _ T7 eq_refl E7o).
  destruct (read_loop l6 0 px [Created A] 0 o8 N [] s8) as (s9 & R9 & L9); [reflexivity|cbn; rewrite Fl; exact Li7|reflexivity| |].
  { repeat split; [cbn [s8 fs_threads]; unfold set_thr; rewrite E7t, upd_upd; reflexivity|cbn; lia]. }
  pose proof (looks_thread _ _ _ _ _ _ L9) as T9. destruct L9 as (E9t & L9l & E9o). cbn [o8 o_out] in T9.
  assert (H10 : fstep A f s9 (MkFS A (fs_objs A s9) (fs_mutex A s9) (set_thr A s9 0 (MkFT A [] (Idle A) ([Created A] ++ [Transformed A (f in7)]))))) by (refine (F_return A f s9 0 _ 0 (f in7) o8 T9 eq_refl E9o _); cbn; rewrite Fl; lia).
  assert (RR : reach i0 (MkFS A (fs_objs A s9) (fs_mutex A s9) (set_thr A s9 0 (MkFT A [] (Idle A) ([Created A] ++ [Transformed A (f in7)]))))).
  { eapply reach_step; [|exact H10]. eapply reach_trans; [|exact R9]. eapply reach_step; [|exact H8]. eapply reach_trans; [|exact R7]. eapply reach_trans; [|exact R6]. eapply reach_trans; [exact R4|exact R5]. }
  destruct RR as (n & RR). exists n. eexists. split; [exact RR|]. eexists. split; [cbn [fs_threads]; unfold set_thr; rewrite E9t, upd_upd, nth_error_upd; cbn; reflexivity|]. split; [split; reflexivity|]. rewrite E7. reflexivity.
Qed.
End C70.

(** What a thread alone gets from an object agrees with the sequential model (FastWavelet.v, C50-C52): an object created for [n] > 0 elements, then any
    Transforms with it, then its destruction. *)
Theorem C70_sequential : forall (T : TNum) (f : list (cplx T) -> list (cplx T)) k n xs,
  expected (cplx T) f (fun _ => None) (Create _ k n :: map (Transform _ k) xs ++ [Destroy _ k]) =
  match fft_create T (Some f) n with
  | Ok size => Created _ :: map (fun x => match fft_transform T (Some f) size x with Ok y => Transformed _ y | _ => Refused _ end) xs ++ [Destroyed _]
  | _ => Refused _ :: map (fun _ => Dangling _) xs ++ [Dangling _]
  end.
Proof.
  intros T f k n xs. destruct n as [|n].
  - cbn [expected fft_create Nat.eqb]. f_equal. induction xs as [|x xs IH]; [reflexivity|]. cbn [map app expected]. f_equal. exact IH.
  - cbn [expected fft_create Nat.eqb]. f_equal. induction xs as [|x xs IH]; cbn [map app expected]; unfold put at 1; rewrite Nat.eqb_refl; [reflexivity|]. f_equal; [|exact IH].
    unfold fft_transform. destruct (Nat.eqb (S n) (length x)); reflexivity.
Qed.

(** The hypotheses of C70_private and C70_bounded are met: two threads, each with an object of its own. *)
Example C70_private_ex : private nat (fun k => k) [[Create nat 0 2; Transform nat 0 [1; 2]; Transform nat 0 [3]; Destroy nat 0]; [Create nat 1 1; Transform nat 1 [7]; Create nat 1 0]].
Proof. intros [|[|i]] p o Hp Ho; cbn in Hp; try discriminate; [| |destruct i; discriminate]; injection Hp as <-; cbn in Ho; repeat (destruct Ho as [<-|Ho]; [reflexivity|]); contradiction. Qed.
Example C70_expected_ex : expected nat (@rev nat) (fun _ => None) [Create nat 0 2; Transform nat 0 [1; 2]; Transform nat 0 [3]; Destroy nat 0] = [Created nat; Transformed nat [2; 1]; Refused nat; Destroyed nat].
Proof. reflexivity. Qed.
(** C70_shared really is a wrong answer: with rev for the transform, [1;2] gives neither [2;1] nor the transform of the other thread's [5;6]. *)
Example C70_shared_ex : exists n s, fruns nat (@rev nat) n (finit nat [[Create nat 0 2; Transform nat 0 [1; 2]]; [Transform nat 0 [5; 6]]]) s /\
  exists t, nth_error (fs_threads nat s) 0 = Some t /\ finished nat t /\ ft_done nat t = [Created nat; Transformed nat [2; 5]].
Proof. exact (C70_shared nat (@rev nat) (@rev_length nat) [1; 2] [5; 6] 1 eq_refl ltac:(cbn; lia) ltac:(cbn; lia)). Qed.
