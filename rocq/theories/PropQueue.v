(** C36: the thread safe queue is a linearizable FIFO queue without lost wake-ups. *)
From Verif Require Import Base Queue.
Local Open Scope list_scope.

(** ** generic: sums over a list with one entry replaced *)
Fixpoint sumf {A} (f : A -> nat) (l : list A) : nat := match l with [] => 0 | x :: r => f x + sumf f r end.
Lemma sumf_upd {A} (f : A -> nat) l i x y : nth_error l i = Some x -> sumf f (upd l i y) + f x = sumf f l + f y.
Proof.
  revert i; induction l as [|a l IH]; intros [|i] H; cbn in *; try discriminate.
  - injection H as ->. lia.
  - specialize (IH _ H). lia.
Qed.
Lemma sumf_ge {A} (f : A -> nat) l i x : nth_error l i = Some x -> f x <= sumf f l.
Proof. revert i; induction l as [|a l IH]; intros [|i] H; cbn in *; try discriminate; [injection H as ->; lia|specialize (IH _ H); lia]. Qed.
Lemma sumf_pos {A} (f : A -> nat) l : 0 < sumf f l -> exists i x, nth_error l i = Some x /\ 0 < f x.
Proof.
  induction l as [|a l IH]; cbn; intro H; [lia|]. destruct (f a) eqn:E.
  - destruct IH as (i & x & H1 & H2); [lia|]. exists (S i), x. auto.
  - exists 0, a. split; [reflexivity|lia].
Qed.
Lemma nth_upd_same {A} (l : list A) i x y : nth_error l i = Some x -> nth_error (upd l i y) i = Some y.
Proof. intro H. rewrite nth_error_upd, Nat.eqb_refl. assert (i < length l) by (apply nth_error_Some; congruence). destruct (Nat.ltb_spec i (length l)); [reflexivity|lia]. Qed.
Lemma nth_upd_other {A} (l : list A) i j y : i <> j -> nth_error (upd l i y) j = nth_error l j.
Proof. intro H. rewrite nth_error_upd. destruct (Nat.eqb_spec i j); [contradiction|reflexivity]. Qed.

Section C36.
Variable V : Type.
Notation qstate := (qstate V).
Notation qthread := (qthread V).
Arguments MkThread {V}. Arguments t_prog {V}. Arguments t_pc {V}. Arguments t_done {V}.
Arguments MkQ {V}. Arguments q_items {V}. Arguments q_owner {V}. Arguments q_threads {V}. Arguments q_log {V}.
Arguments PReady {V}. Arguments PPushLocked {V}. Arguments PPushed {V}. Arguments PPushNotify {V}. Arguments PPopLocked {V}.
Arguments PWaiting {V}. Arguments PWoken {V}. Arguments PPopTaken {V}. Arguments PTryLocked {V}. Arguments PTryTaken {V}.
Arguments Enq {V}. Arguments Deq {V}. Arguments FoundEmpty {V}. Arguments ResPush {V}. Arguments ResPopped {V}. Arguments ResTry {V}.
Arguments OpPush {V}. Arguments OpWaitAndPop {V}. Arguments OpTryPop {V}.

(** ** Specification: a sequential FIFO queue *)

(** Replaying effects on an ordinary queue; fails when an effect is not what a FIFO queue would do. *)
Inductive fifo : list V -> list (qevent V) -> list V -> Prop :=
| fifo_nil : forall q, fifo q [] q
| fifo_enq : forall q v es q', fifo (q ++ [v]) es q' -> fifo q (Enq v :: es) q'
| fifo_deq : forall q v es q', fifo q es q' -> fifo (v :: q) (Deq v :: es) q'
| fifo_empty : forall es q', fifo [] es q' -> fifo [] (FoundEmpty :: es) q'.
(** the answer a call must give for its effect, and the call a result belongs to *)
Definition event_of (r : qres V) : qevent V :=
  match r with ResPush v => Enq v | ResPopped v => Deq v | ResTry (Some v) => Deq v | ResTry None => FoundEmpty end.
Inductive answers : qop V -> qres V -> Prop :=
| ans_push : forall v, answers (OpPush v) (ResPush v)
| ans_pop : forall v, answers OpWaitAndPop (ResPopped v)
| ans_try : forall o, answers OpTryPop (ResTry o).
(** the effects of thread [i], in order *)
Definition effects (i : nat) (log : list (nat * qevent V)) : list (qevent V) := map snd (filter (fun e => Nat.eqb (fst e) i) log).

Lemma fifo_snoc q es q' : fifo q es q' -> forall e q'', fifo q' [e] q'' -> fifo q (es ++ [e]) q''.
Proof. induction 1; intros e q'' H'; cbn; [exact H'|constructor; auto..]. Qed.
Lemma effects_snoc i log j e : effects i (log ++ [(j, e)]) = effects i log ++ (if Nat.eqb j i then [e] else []).
Proof. unfold effects. rewrite filter_app, map_app. cbn. destruct (Nat.eqb j i); reflexivity. Qed.

(** ** Invariant *)
Definition holds (t : qthread) : bool :=
  match t_pc t with PPushLocked _ | PPushed _ | PPopLocked | PPopTaken _ | PTryLocked | PTryTaken _ => true | _ => false end.
Definition is_waiting (t : qthread) : bool := match t_pc t with PWaiting => true | _ => false end.
Definition will_wake (t : qthread) : bool := match t_pc t with PPushed _ | PPushNotify _ | PWoken | PPopLocked => true | _ => false end.
Definition one (b : bool) : nat := if b then 1 else 0.
Definition pending (t : qthread) : list (qres V) :=
  match t_pc t with PPushed v | PPushNotify v => [ResPush v] | PPopTaken v => [ResPopped v] | PTryTaken o => [ResTry o] | _ => [] end.
Definition pc_ok (t : qthread) : Prop :=
  match t_pc t with
  | PReady => True
  | PPushLocked v | PPushed v | PPushNotify v => exists r, t_prog t = OpPush v :: r
  | PPopLocked | PWaiting | PWoken | PPopTaken _ => exists r, t_prog t = OpWaitAndPop :: r
  | PTryLocked | PTryTaken _ => exists r, t_prog t = OpTryPop :: r
  end.
Definition thread_ok (log : list (nat * qevent V)) (i : nat) (program : list (qop V)) (t : qthread) : Prop :=
  pc_ok t /\ effects i log = map event_of (t_done t ++ pending t) /\
  exists ops, program = ops ++ t_prog t /\ Forall2 answers ops (t_done t).
Record qinv (programs : list (list (qop V))) (s : qstate) : Prop := {
  inv_owner : forall i t, nth_error (q_threads s) i = Some t -> (holds t = true <-> q_owner s = Some i);
  inv_owner_in : forall i, q_owner s = Some i -> i < length (q_threads s);
  inv_fifo : fifo [] (map snd (q_log s)) (q_items s);
  inv_len : length (q_threads s) = length programs;
  inv_threads : forall i t p, nth_error (q_threads s) i = Some t -> nth_error programs i = Some p -> thread_ok (q_log s) i p t;
  inv_wake : 0 < sumf (fun t => one (is_waiting t)) (q_threads s) ->
             length (q_items s) <= sumf (fun t => one (will_wake t)) (q_threads s) }.

Lemma qinv_init programs : qinv programs (qinit V programs).
Proof.
  assert (T : forall i t, nth_error (q_threads (qinit V programs)) i = Some t -> exists p, nth_error programs i = Some p /\ t = MkThread p PReady []).
  { intros i t H. cbn in H. rewrite nth_error_map in H. destruct (nth_error programs i); cbn in H; [|discriminate]. injection H as <-. eauto. }
  constructor.
  - intros i t H. apply T in H. destruct H as (p & _ & ->). cbn. split; discriminate.
  - cbn. discriminate.
  - constructor.
  - cbn. apply map_length.
  - intros i t p H Hp. apply T in H. destruct H as (p' & Hp' & ->). assert (p' = p) by congruence. subst p'.
    split; [exact Logic.I|]. split; [reflexivity|]. exists []. split; [reflexivity|constructor].
  - cbn. lia.
Qed.

(** one thread changes; everything else is a side condition *)
Lemma inv_one programs s i t t' items owner log :
  qinv programs s -> nth_error (q_threads s) i = Some t ->
  (* ownership *)
  ((holds t' = true /\ owner = Some i /\ (q_owner s = None \/ q_owner s = Some i)) \/
   (holds t' = false /\ ((owner = None /\ (q_owner s = Some i \/ q_owner s = None)) \/ (owner = q_owner s /\ q_owner s <> Some i)))) ->
  fifo [] (map snd log) items ->
  (forall j, j <> i -> effects j log = effects j (q_log s)) ->
  (forall p, nth_error programs i = Some p -> thread_ok (q_log s) i p t -> thread_ok log i p t') ->
  (is_waiting t' = true -> is_waiting t = true \/ items = []) ->
  length items + one (will_wake t) <= length (q_items s) + one (will_wake t') \/ items = [] ->
  qinv programs (MkQ items owner (set_thread V s i t') log).
Proof.
  intros [I1 I1' I2 I3 I4 I5] Hi Ho Hf He Ht Hw Hl.
  assert (Lt : i < length (q_threads s)) by (apply nth_error_Some; congruence).
  constructor; cbn [q_items q_owner q_threads q_log]; unfold set_thread.
  - intros j u Hj. destruct (Nat.eq_dec i j) as [<-|N].
    + rewrite (nth_upd_same _ _ _ _ Hi) in Hj. injection Hj as <-.
      destruct Ho as [(A & B & _)|(A & [(B & C)|(B & C)])]; rewrite A, B; [tauto|split; discriminate|].
      split; [discriminate|]. intro X. congruence.
    + rewrite nth_upd_other in Hj by exact N. apply I1 in Hj. rewrite Hj.
      destruct Ho as [(A & -> & [C|C])|(A & [(-> & [C|C])|(-> & C)])]; rewrite ?C; try tauto; split; congruence.
  - intros j Hj. rewrite upd_length. destruct Ho as [(_ & -> & _)|(_ & [(-> & _)|(-> & _)])]; [injection Hj as <-; exact Lt|discriminate|apply I1'; exact Hj].
  - exact Hf.
  - rewrite upd_length. exact I3.
  - intros j u p Hj Hp. destruct (Nat.eq_dec i j) as [<-|N].
    + rewrite (nth_upd_same _ _ _ _ Hi) in Hj. injection Hj as <-. apply Ht; [exact Hp|]. apply I4; assumption.
    + rewrite nth_upd_other in Hj by exact N. destruct (I4 _ _ _ Hj Hp) as (T1 & T2 & T3). split; [exact T1|]. split; [|exact T3].
      rewrite He by congruence. exact T2.
  - intro W. destruct Hl as [Hl| ->]; [|cbn; lia].
    assert (E1 := sumf_upd (fun t => one (is_waiting t)) _ _ _ t' Hi). assert (E2 := sumf_upd (fun t => one (will_wake t)) _ _ _ t' Hi). cbn beta in E1, E2.
    destruct (is_waiting t') eqn:Ew.
    + destruct (Hw eq_refl) as [Hw'| ->]; [|cbn; lia]. rewrite Hw' in E1. cbn in E1. rewrite Nat.add_cancel_r in E1. rewrite E1 in W. apply I5 in W. lia.
    + cbn in E1. assert (0 < sumf (fun t => one (is_waiting t)) (q_threads s)) by lia. apply I5 in H. lia.
Qed.

Lemma tl_cons {A} (x : A) r : tl (x :: r) = r. Proof. reflexivity. Qed.
Lemma Forall2_snoc {A B} (R : A -> B -> Prop) l l' x y : Forall2 R l l' -> R x y -> Forall2 R (l ++ [x]) (l' ++ [y]).
Proof. intros H1 H2. apply Forall2_app; [exact H1|constructor; [exact H2|constructor]]. Qed.

Lemma qinv_step programs b s s' : qinv programs s -> qstep V b s s' -> qinv programs s'.
Proof.
  intros I H. assert (Io := inv_owner _ _ I). assert (It := inv_threads _ _ I). assert (If := inv_fifo _ _ I).
  destruct H as [s i v rest d H Ho|s i rest d H Ho|s i rest d H Ho|s i v p d H|s i v p d H|s i v p d H Hn|s i v p d j pj dj H Hj|s i p d H He|s i p d H
    |s i p d H Ho|s i v q p d H He|s i v p d H|s i p d H He|s i v q p d H He|s i o p d H].
  - eapply inv_one; [exact I|exact H|left; cbn; auto|exact If|auto| |cbn; discriminate|left; cbn; lia].
    intros p0 Hp (T1 & T2 & T3). split; [cbn; eauto|]. split; [exact T2|exact T3].
  - eapply inv_one; [exact I|exact H|left; cbn; auto|exact If|auto| |cbn; discriminate|left; cbn; lia].
    intros p0 Hp (T1 & T2 & T3). split; [cbn; eauto|]. split; [exact T2|exact T3].
  - eapply inv_one; [exact I|exact H|left; cbn; auto|exact If|auto| |cbn; discriminate|left; cbn; lia].
    intros p0 Hp (T1 & T2 & T3). split; [cbn; eauto|]. split; [exact T2|exact T3].
  - assert (O : q_owner s = Some i) by (apply (Io _ _ H); reflexivity).
    eapply inv_one; [exact I|exact H|left; cbn; rewrite O; auto| | | |cbn; discriminate|left; cbn; rewrite app_length; cbn; lia].
    + rewrite map_app. eapply fifo_snoc; [exact If|]. repeat constructor.
    + intros j N. rewrite effects_snoc. destruct (Nat.eqb_spec i j); [congruence|apply app_nil_r].
    + intros p0 Hp (T1 & T2 & T3). split; [exact T1|]. split; [|exact T3]. rewrite effects_snoc, Nat.eqb_refl, T2. cbn. rewrite app_nil_r, map_app. reflexivity.
  - assert (O : q_owner s = Some i) by (apply (Io _ _ H); reflexivity).
    eapply inv_one; [exact I|exact H|right; cbn; rewrite O; auto|exact If|auto| |cbn; discriminate|left; cbn; lia].
    intros p0 Hp (T1 & T2 & T3). split; [exact T1|]. split; [exact T2|exact T3].
  - assert (O : q_owner s <> Some i) by (intro X; apply (Io _ _ H) in X; discriminate X).
    assert (Hk : qinv programs (MkQ (q_items s) (q_owner s) (set_thread V s i (MkThread (tl p) PReady (d ++ [ResPush v]))) (q_log s))).
    { destruct I as [I1 I1' I2 I3 I4 I5].
      assert (W0 : sumf (fun t => one (is_waiting t)) (q_threads s) = 0).
      { destruct (sumf (fun t => one (is_waiting t)) (q_threads s)) eqn:E; [reflexivity|].
        destruct (sumf_pos (fun t => one (is_waiting t)) (q_threads s)) as (j & t & Hj & X); [lia|]. exfalso. apply (Hn _ _ Hj).
        unfold is_waiting in X. destruct (t_pc t); cbn in X; try lia. reflexivity. }
      assert (Lt : i < length (q_threads s)) by (apply nth_error_Some; congruence).
      constructor; cbn [q_items q_owner q_threads q_log]; unfold set_thread; [| |assumption|rewrite upd_length; assumption| |].
      - intros j u Hj. destruct (Nat.eq_dec i j) as [<-|N].
        + rewrite (nth_upd_same _ _ _ _ H) in Hj. injection Hj as <-. cbn. split; [discriminate|contradiction].
        + rewrite nth_upd_other in Hj by exact N. apply I1. exact Hj.
      - intros j Hj. rewrite upd_length. apply I1'. exact Hj.
      - intros j u p0 Hj Hp. destruct (Nat.eq_dec i j) as [<-|N].
        + rewrite (nth_upd_same _ _ _ _ H) in Hj. injection Hj as <-.
          destruct (I4 _ _ _ H Hp) as ((r & T1) & T2 & ops & T3 & T4). cbn in T1, T2, T3, T4. subst p. cbn [tl].
          split; [exact Logic.I|]. split; [cbn; rewrite app_nil_r; exact T2|]. exists (ops ++ [OpPush v]). split; [rewrite <- app_assoc; exact T3|].
          apply Forall2_snoc; [exact T4|constructor].
        + rewrite nth_upd_other in Hj by exact N. apply I4; assumption.
      - intro W. assert (E1 := sumf_upd (fun t => one (is_waiting t)) _ _ _ (MkThread (tl p) PReady (d ++ [ResPush v])) H). cbn in E1. lia. }
    exact Hk.
  - (* notify_one: two threads *)
    assert (O : q_owner s <> Some i) by (intro X; apply (Io _ _ H) in X; discriminate X).
    assert (Oj : q_owner s <> Some j) by (intro X; apply (Io _ _ Hj) in X; discriminate X).
    assert (Nij : i <> j) by (intro X; subst; congruence).
    destruct I as [I1 I1' I2 I3 I4 I5].
    set (ti := MkThread (tl p) PReady (d ++ [ResPush v])) in *. set (tj := MkThread pj PWoken dj) in *.
    assert (Hj' : nth_error (upd (q_threads s) i ti) j = Some (MkThread pj PWaiting dj)) by (rewrite nth_upd_other by exact Nij; exact Hj).
    assert (Hi' : nth_error (upd (q_threads s) i ti) i = Some ti) by (eapply nth_upd_same; exact H).
    assert (X : forall k u, nth_error (upd (upd (q_threads s) i ti) j tj) k = Some u -> (k = j /\ u = tj) \/ (k = i /\ u = ti) \/ (k <> i /\ k <> j /\ nth_error (q_threads s) k = Some u)).
    { intros k u Hk. destruct (Nat.eq_dec j k) as [<-|N].
      - rewrite (nth_upd_same _ _ _ _ Hj') in Hk. injection Hk as <-. auto.
      - rewrite nth_upd_other in Hk by exact N. destruct (Nat.eq_dec i k) as [<-|N'].
        + rewrite Hi' in Hk. injection Hk as <-. auto.
        + rewrite nth_upd_other in Hk by exact N'. auto. }
    constructor; cbn [q_items q_owner q_threads q_log]; [| |assumption|rewrite !upd_length; assumption| |].
    + intros k u Hk. apply X in Hk. destruct Hk as [[-> ->]|[[-> ->]|(N1 & N2 & Hk)]]; cbn; [split; [discriminate|contradiction]|split; [discriminate|contradiction]|apply I1; exact Hk].
    + intros k Hk. rewrite !upd_length. apply I1'. exact Hk.
    + intros k u p0 Hk Hp. apply X in Hk. destruct Hk as [[-> ->]|[[-> ->]|(N1 & N2 & Hk)]].
      * destruct (I4 _ _ _ Hj Hp) as (T1 & T2 & T3). split; [exact T1|]. split; [exact T2|exact T3].
      * destruct (I4 _ _ _ H Hp) as ((r & T1) & T2 & ops & T3 & T4). cbn in T1, T2, T3, T4. unfold ti. subst p. cbn [tl].
        split; [exact Logic.I|]. split; [cbn; rewrite app_nil_r; exact T2|]. exists (ops ++ [OpPush v]). split; [rewrite <- app_assoc; exact T3|].
        apply Forall2_snoc; [exact T4|constructor].
      * apply I4; assumption.
    + intro W. assert (E1 := sumf_upd (fun t => one (is_waiting t)) _ _ _ ti H). assert (E2 := sumf_upd (fun t => one (is_waiting t)) _ _ _ tj Hj').
      assert (E3 := sumf_upd (fun t => one (will_wake t)) _ _ _ ti H). assert (E4 := sumf_upd (fun t => one (will_wake t)) _ _ _ tj Hj').
      cbn in E1, E2, E3, E4. assert (0 < sumf (fun t => one (is_waiting t)) (q_threads s)) as W' by lia. apply I5 in W'. lia.
  - assert (O : q_owner s = Some i) by (apply (Io _ _ H); reflexivity).
    eapply inv_one; [exact I|exact H|right; cbn; rewrite O; auto|exact If|auto| |auto|right; exact He].
    intros p0 Hp (T1 & T2 & T3). split; [exact T1|]. split; [exact T2|exact T3].
  - assert (O : q_owner s <> Some i) by (intro X; apply (Io _ _ H) in X; discriminate X).
    eapply inv_one; [exact I|exact H|right; cbn; auto|exact If|auto| |cbn; discriminate|left; cbn; lia].
    intros p0 Hp (T1 & T2 & T3). split; [exact T1|]. split; [exact T2|exact T3].
  - eapply inv_one; [exact I|exact H|left; cbn; auto|exact If|auto| |cbn; discriminate|left; cbn; lia].
    intros p0 Hp (T1 & T2 & T3). split; [exact T1|]. split; [exact T2|exact T3].
  - assert (O : q_owner s = Some i) by (apply (Io _ _ H); reflexivity).
    eapply inv_one; [exact I|exact H|left; cbn; rewrite O; auto| | | |cbn; discriminate|left; rewrite He; cbn; lia].
    + rewrite map_app. eapply fifo_snoc; [exact If|]. rewrite He. repeat constructor.
    + intros j N. rewrite effects_snoc. destruct (Nat.eqb_spec i j); [congruence|apply app_nil_r].
    + intros p0 Hp (T1 & T2 & T3). split; [exact T1|]. split; [|exact T3]. rewrite effects_snoc, Nat.eqb_refl, T2. cbn. rewrite app_nil_r, map_app. reflexivity.
  - assert (O : q_owner s = Some i) by (apply (Io _ _ H); reflexivity).
    eapply inv_one; [exact I|exact H|right; cbn; rewrite O; auto|exact If|auto| |cbn; discriminate|left; cbn; lia].
    intros p0 Hp ((r & T1) & T2 & ops & T3 & T4). cbn in T1, T2, T3, T4. subst p. split; [exact Logic.I|]. split; [cbn; rewrite app_nil_r; exact T2|].
    exists (ops ++ [OpWaitAndPop]). split; [rewrite <- app_assoc; exact T3|]. apply Forall2_snoc; [exact T4|constructor].
  - assert (O : q_owner s = Some i) by (apply (Io _ _ H); reflexivity).
    eapply inv_one; [exact I|exact H|left; cbn; rewrite O; auto| | | |cbn; discriminate|left; cbn; lia].
    + rewrite map_app. eapply fifo_snoc; [exact If|]. rewrite He. repeat constructor.
    + intros j N. rewrite effects_snoc. destruct (Nat.eqb_spec i j); [congruence|apply app_nil_r].
    + intros p0 Hp (T1 & T2 & T3). split; [exact T1|]. split; [|exact T3]. rewrite effects_snoc, Nat.eqb_refl, T2. cbn. rewrite app_nil_r, map_app. reflexivity.
  - assert (O : q_owner s = Some i) by (apply (Io _ _ H); reflexivity).
    eapply inv_one; [exact I|exact H|left; cbn; rewrite O; auto| | | |cbn; discriminate|left; rewrite He; cbn; lia].
    + rewrite map_app. eapply fifo_snoc; [exact If|]. rewrite He. repeat constructor.
    + intros j N. rewrite effects_snoc. destruct (Nat.eqb_spec i j); [congruence|apply app_nil_r].
    + intros p0 Hp (T1 & T2 & T3). split; [exact T1|]. split; [|exact T3]. rewrite effects_snoc, Nat.eqb_refl, T2. cbn. rewrite app_nil_r, map_app. reflexivity.
  - assert (O : q_owner s = Some i) by (apply (Io _ _ H); reflexivity).
    eapply inv_one; [exact I|exact H|right; cbn; rewrite O; auto|exact If|auto| |cbn; discriminate|left; cbn; lia].
    intros p0 Hp ((r & T1) & T2 & ops & T3 & T4). cbn in T1, T2, T3, T4. subst p. split; [exact Logic.I|]. split; [cbn; rewrite app_nil_r; exact T2|].
    exists (ops ++ [OpTryPop]). split; [rewrite <- app_assoc; exact T3|]. apply Forall2_snoc; [exact T4|constructor].
Qed.
Lemma qinv_run programs n m s s' : qinv programs s -> qrun V n m s s' -> qinv programs s'.
Proof. intros I H. revert I. induction H as [s|n m s1 s2 s3 H IH Hs|n m s1 s2 s3 H IH Hs]; intro I; [exact I|exact (qinv_step _ _ _ _ (IH I) Hs)..]. Qed.

(** ** Theorems *)

(** Linearizability: in every reachable state of every interleaving there is one total order of effects that a FIFO queue
    could have had, ending in the current content; the effects of each thread in it are, in program order, exactly the
    ones its returned calls report (plus at most the one of the call it is in); and a thread's returned calls are a prefix
    of its program, each answered by a result of its kind. *)
Theorem C36_linearizable : forall programs n m s, qrun V n m (qinit V programs) s ->
  fifo [] (map snd (q_log s)) (q_items s) /\ length (q_threads s) = length programs /\
  forall i t p, nth_error (q_threads s) i = Some t -> nth_error programs i = Some p ->
    (exists late, length late <= 1 /\ effects i (q_log s) = map event_of (t_done t ++ late) /\ (t_pc t = PReady -> late = [])) /\
    exists ops, p = ops ++ t_prog t /\ Forall2 answers ops (t_done t).
Proof.
  intros programs n m s H. assert (I := qinv_run _ _ _ _ _ (qinv_init programs) H). destruct I as [I1 I1' I2 I3 I4 I5].
  split; [exact I2|]. split; [exact I3|]. intros i t p Hi Hp. destruct (I4 _ _ _ Hi Hp) as (T1 & T2 & T3). split; [|exact T3].
  exists (pending t). split; [unfold pending; destruct (t_pc t); cbn; lia|]. split; [exact T2|]. intro E. unfold pending. rewrite E. reflexivity.
Qed.

(** Values leave in the order they entered, each exactly once: what entered = what left, followed by what is inside. *)
Definition entered (log : list (qevent V)) : list V := flat_map (fun e => match e with Enq v => [v] | _ => [] end) log.
Definition left_ (log : list (qevent V)) : list V := flat_map (fun e => match e with Deq v => [v] | _ => [] end) log.
Lemma fifo_order q es q' : fifo q es q' -> q ++ entered es = left_ es ++ q'.
Proof.
  induction 1 as [q|q v es q' H IH|q v es q' H IH|es q' H IH]; cbn.
  - apply app_nil_r.
  - rewrite <- app_assoc in IH. exact IH.
  - f_equal. exact IH.
  - exact IH.
Qed.
Theorem C36_fifo : forall programs n m s, qrun V n m (qinit V programs) s ->
  entered (map snd (q_log s)) = left_ (map snd (q_log s)) ++ q_items s.
Proof. intros programs n m s H. destruct (C36_linearizable _ _ _ _ H) as [F _]. apply fifo_order in F. exact F. Qed.

(** Mutual exclusion: two different threads are never both inside a locked region. *)
Theorem C36_mutual_exclusion : forall programs n m s, qrun V n m (qinit V programs) s -> forall i j t u,
  nth_error (q_threads s) i = Some t -> nth_error (q_threads s) j = Some u -> holds t = true -> holds u = true -> i = j.
Proof.
  intros programs n m s H i j t u Hi Hj Ht Hu. assert (I := qinv_run _ _ _ _ _ (qinv_init programs) H).
  apply (inv_owner _ _ I _ _ Hi) in Ht. apply (inv_owner _ _ I _ _ Hj) in Hu. congruence.
Qed.

Lemma qinv_stuck programs s : qinv programs s -> (forall s', ~ qstep V false s s') ->
  (forall t, In t (q_threads s) -> t_prog t = []) \/
  (q_items s = [] /\ forall t, In t (q_threads s) -> t_prog t = [] \/ (t_pc t = PWaiting /\ exists r, t_prog t = OpWaitAndPop :: r)).
Proof.
  intros I Stuck.
  (* nobody holds the lock *)
  assert (Hh : forall i t, nth_error (q_threads s) i = Some t -> holds t = false).
  { intros i [p pc d] Hi. unfold holds. cbn. destruct pc; try reflexivity; exfalso.
    - eapply Stuck. eapply S_push. exact Hi.
    - eapply Stuck. eapply S_unlock. exact Hi.
    - destruct (q_items s) eqn:E; eapply Stuck; [eapply S_wait|eapply S_pop]; eassumption.
    - eapply Stuck. eapply S_pop_return. exact Hi.
    - destruct (q_items s) eqn:E; eapply Stuck; [eapply S_try_empty|eapply S_try_pop]; eassumption.
    - eapply Stuck. eapply S_try_return. exact Hi. }
  assert (Ho : q_owner s = None).
  { destruct (q_owner s) as [i|] eqn:E; [|reflexivity]. assert (L := inv_owner_in _ _ I _ E). apply nth_error_Some in L.
    destruct (nth_error (q_threads s) i) as [t|] eqn:Ei; [|congruence]. apply (inv_owner _ _ I _ _ Ei) in E. rewrite (Hh _ _ Ei) in E. discriminate. }
  assert (K : forall i t, nth_error (q_threads s) i = Some t -> t_prog t = [] \/ (t_pc t = PWaiting /\ exists r, t_prog t = OpWaitAndPop :: r)).
  { intros i t Hi. assert (L : i < length programs) by (rewrite <- (inv_len _ _ I); apply nth_error_Some; congruence).
    apply nth_error_Some in L. destruct (nth_error programs i) as [p0|] eqn:Ep; [|congruence].
    destruct (inv_threads _ _ I _ _ _ Hi Ep) as (T1 & _). assert (Hf := Hh _ _ Hi). destruct t as [p pc d]. unfold holds in Hf. unfold pc_ok in T1. cbn in *.
    destruct pc; try discriminate.
    - destruct p as [|[v| |] p]; [auto|exfalso..]; eapply Stuck; [eapply S_lock_push|eapply S_lock_pop|eapply S_lock_try]; eassumption.
    - exfalso. destruct (sumf (fun t => one (is_waiting t)) (q_threads s)) eqn:E.
      + eapply Stuck. eapply S_notify_none; [exact Hi|]. intros j u Hj Hw. assert (G := sumf_ge (fun t => one (is_waiting t)) _ _ _ Hj). cbn in G.
        unfold is_waiting in G. rewrite Hw in G. cbn in G. unfold is_waiting in E. lia.
      + destruct (sumf_pos (fun t => one (is_waiting t)) (q_threads s)) as (j & [pj cj dj] & Hj & X); [lia|]. unfold is_waiting in X. cbn in X.
        destruct cj; cbn in X; try lia. eapply Stuck. eapply S_notify_one; eassumption.
    - right. auto.
    - exfalso. eapply Stuck. eapply S_relock; eassumption. }
  destruct (sumf (fun t => one (is_waiting t)) (q_threads s)) eqn:E.
  - left. intros t Ht. apply In_nth_error in Ht. destruct Ht as [i Hi]. destruct (K _ _ Hi) as [X|[X _]]; [exact X|].
    exfalso. assert (G := sumf_ge (fun t => one (is_waiting t)) _ _ _ Hi). cbn in G. unfold is_waiting in *. rewrite X in G. cbn in G. lia.
  - right. split.
    + assert (W := inv_wake _ _ I). rewrite E in W. specialize (W (Nat.lt_0_succ _)).
      assert (Z0 : sumf (fun t => one (will_wake t)) (q_threads s) = 0).
      { destruct (sumf (fun t => one (will_wake t)) (q_threads s)) eqn:E2; [reflexivity|].
        destruct (sumf_pos (fun t => one (will_wake t)) (q_threads s)) as (j & t & Hj & X); [lia|]. exfalso.
        assert (Hf := Hh _ _ Hj). destruct t as [p pc d]. unfold will_wake, holds in *. cbn in *. destruct pc; cbn in X, Hf; try lia; try discriminate.
        - destruct (K _ _ Hj) as [Y|[Y _]]; [|discriminate]. cbn in Y. subst p.
          assert (L : j < length programs) by (rewrite <- (inv_len _ _ I); apply nth_error_Some; congruence). apply nth_error_Some in L.
          destruct (nth_error programs j) as [p0|] eqn:Ep; [|congruence]. destruct (inv_threads _ _ I _ _ _ Hj Ep) as ((r & T1) & _). discriminate.
        - destruct (K _ _ Hj) as [Y|[Y _]]; [|discriminate]. cbn in Y. subst p.
          assert (L : j < length programs) by (rewrite <- (inv_len _ _ I); apply nth_error_Some; congruence). apply nth_error_Some in L.
          destruct (nth_error programs j) as [p0|] eqn:Ep; [|congruence]. destruct (inv_threads _ _ I _ _ _ Hj Ep) as ((r & T1) & _). discriminate. }
      rewrite Z0 in W. destruct (q_items s); [reflexivity|cbn in W; lia].
    + intros t Ht. apply In_nth_error in Ht. destruct Ht as [i Hi]. exact (K _ _ Hi).
Qed.

(** No lost wake-up and no deadlock: when nothing but spurious wake-ups can happen any more, either every thread has
    finished its program, or the queue is empty and the unfinished threads are all blocked in WaitAndPop. *)
Theorem C36_no_lost_wakeup : forall programs n m s, qrun V n m (qinit V programs) s -> (forall s', ~ qstep V false s s') ->
  (forall t, In t (q_threads s) -> t_prog t = []) \/
  (q_items s = [] /\ forall t, In t (q_threads s) -> t_prog t = [] \/ (t_pc t = PWaiting /\ exists r, t_prog t = OpWaitAndPop :: r)).
Proof. intros programs n m s H Stuck. apply (qinv_stuck programs); [exact (qinv_run _ _ _ _ _ (qinv_init programs) H)|exact Stuck]. Qed.

(** Termination: every run makes at most 7 ordinary steps per call plus 3 per spurious wake-up. *)
Definition op_cost (o : qop V) : nat := match o with OpPush _ => 7 | OpWaitAndPop => 4 | OpTryPop => 3 end.
Definition pc_cost (t : qthread) : nat :=
  match t_pc t with
  | PReady => sumf op_cost (t_prog t)
  | PPushLocked _ => 6 + sumf op_cost (tl (t_prog t)) | PPushed _ => 5 + sumf op_cost (tl (t_prog t)) | PPushNotify _ => 4 + sumf op_cost (tl (t_prog t))
  | PWaiting => 1 + sumf op_cost (tl (t_prog t)) | PWoken => 4 + sumf op_cost (tl (t_prog t)) | PPopLocked => 3 + sumf op_cost (tl (t_prog t))
  | PPopTaken _ => 2 + sumf op_cost (tl (t_prog t)) | PTryLocked => 2 + sumf op_cost (tl (t_prog t)) | PTryTaken _ => 1 + sumf op_cost (tl (t_prog t))
  end.
Definition cost (s : qstate) : nat := sumf pc_cost (q_threads s).
Lemma cost_step b s s' : qstep V b s s' -> cost s' + 1 <= cost s + (if b then 4 else 0).
Proof.
  intro H. unfold cost.
  destruct H as [s i v rest d H Ho|s i rest d H Ho|s i rest d H Ho|s i v p d H|s i v p d H|s i v p d H Hn|s i v p d j pj dj H Hj|s i p d H He|s i p d H
    |s i p d H Ho|s i v q p d H He|s i v p d H|s i p d H He|s i v q p d H He|s i o p d H]; cbn [q_threads]; unfold set_thread;
  try match goal with |- sumf pc_cost (upd ?l ?i ?y) + 1 <= _ => assert (E := sumf_upd pc_cost l i _ y H); cbn in E; try lia end.
  assert (Hj' : nth_error (upd (q_threads s) i (MkThread (tl p) PReady (d ++ [ResPush v]))) j = Some (MkThread pj PWaiting dj)).
  { rewrite nth_upd_other; [exact Hj|]. intro X; subst; congruence. }
  assert (E1 := sumf_upd pc_cost _ _ _ (MkThread (tl p) PReady (d ++ [ResPush v])) H).
  assert (E2 := sumf_upd pc_cost _ _ _ (MkThread pj PWoken dj) Hj'). cbn in E1, E2. lia.
Qed.
Theorem C36_runs_finite : forall programs n m s, qrun V n m (qinit V programs) s ->
  n <= 7 * sumf (@length _) programs + 3 * m.
Proof.
  intros programs n m s H.
  assert (G : forall s0, qrun V n m s0 s -> n + cost s <= cost s0 + 3 * m).
  { intros s0 H0. clear H. induction H0 as [s|n m s1 s2 s3 H IH Hs|n m s1 s2 s3 H IH Hs]; [lia|apply cost_step in Hs; lia|apply cost_step in Hs; lia]. }
  apply G in H. assert (B : cost (qinit V programs) <= 7 * sumf (@length _) programs).
  { clear. unfold cost, qinit. cbn [q_threads]. induction programs as [|p ps IH]; cbn [map sumf]; [lia|].
    assert (sumf op_cost p <= 7 * length p) by (induction p as [|[] p IHp]; cbn in *; lia).
    change (pc_cost (MkThread p PReady [])) with (sumf op_cost p). lia. }
  lia.
Qed.
End C36.
Print Assumptions C36_linearizable.
Print Assumptions C36_fifo.
Print Assumptions C36_mutual_exclusion.
Print Assumptions C36_no_lost_wakeup.
Print Assumptions C36_runs_finite.
(** A consumer blocks first, a producer pushes and wakes it. *)
Example C36_witness : exists s, qrun nat 9 0 (qinit nat [[OpWaitAndPop nat]; [OpPush nat 5]]) s /\
  map (t_done nat) (q_threads nat s) = [[ResPopped nat 5]; [ResPush nat 5]] /\ q_items nat s = [] /\ q_log nat s = [(1, Enq nat 5); (0, Deq nat 5)].
Proof.
  set (q0 := qinit nat [[OpWaitAndPop nat]; [OpPush nat 5]]). pose proof (qrun_nil nat q0) as R. unfold q0 at 2 in R.
  eassert (R' : qrun nat _ _ q0 _) by (eapply qrun_step; [exact R|eapply (S_lock_pop nat _ 0); reflexivity]). cbv - [q0] in R'. clear R. rename R' into R.
  eassert (R' : qrun nat _ _ q0 _) by (eapply qrun_step; [exact R|eapply (S_wait nat _ 0); reflexivity]). cbv - [q0] in R'. clear R. rename R' into R.
  eassert (R' : qrun nat _ _ q0 _) by (eapply qrun_step; [exact R|eapply (S_lock_push nat _ 1); reflexivity]). cbv - [q0] in R'. clear R. rename R' into R.
  eassert (R' : qrun nat _ _ q0 _) by (eapply qrun_step; [exact R|eapply (S_push nat _ 1); reflexivity]). cbv - [q0] in R'. clear R. rename R' into R.
  eassert (R' : qrun nat _ _ q0 _) by (eapply qrun_step; [exact R|eapply (S_unlock nat _ 1); reflexivity]). cbv - [q0] in R'. clear R. rename R' into R.
  eassert (R' : qrun nat _ _ q0 _) by (eapply qrun_step; [exact R|eapply (S_notify_one nat _ 1 _ _ _ 0); reflexivity]). cbv - [q0] in R'. clear R. rename R' into R.
  eassert (R' : qrun nat _ _ q0 _) by (eapply qrun_step; [exact R|eapply (S_relock nat _ 0); reflexivity]). cbv - [q0] in R'. clear R. rename R' into R.
  eassert (R' : qrun nat _ _ q0 _) by (eapply qrun_step; [exact R|eapply (S_pop nat _ 0); reflexivity]). cbv - [q0] in R'. clear R. rename R' into R.
  eassert (R' : qrun nat _ _ q0 _) by (eapply qrun_step; [exact R|eapply (S_pop_return nat _ 0); reflexivity]). cbv - [q0] in R'. clear R. rename R' into R.
  eexists. split; [exact R|]. repeat split.
Qed.
(** A consumer wakes up spuriously before anything was pushed: it waits again, and gets the element later. *)
Example C36_spurious : exists s, qrun nat 11 1 (qinit nat [[OpWaitAndPop nat]; [OpPush nat 5]]) s /\
  map (t_done nat) (q_threads nat s) = [[ResPopped nat 5]; [ResPush nat 5]] /\ q_items nat s = [] /\ q_log nat s = [(1, Enq nat 5); (0, Deq nat 5)].
Proof.
  set (q0 := qinit nat [[OpWaitAndPop nat]; [OpPush nat 5]]). pose proof (qrun_nil nat q0) as R. unfold q0 at 2 in R.
  eassert (R' : qrun nat _ _ q0 _) by (eapply qrun_step; [exact R|eapply (S_lock_pop nat _ 0); reflexivity]). cbv - [q0] in R'. clear R. rename R' into R.
  eassert (R' : qrun nat _ _ q0 _) by (eapply qrun_step; [exact R|eapply (S_wait nat _ 0); reflexivity]). cbv - [q0] in R'. clear R. rename R' into R.
  eassert (R' : qrun nat _ _ q0 _) by (eapply qrun_spurious; [exact R|eapply (S_spurious nat _ 0); reflexivity]). cbv - [q0] in R'. clear R. rename R' into R.
  eassert (R' : qrun nat _ _ q0 _) by (eapply qrun_step; [exact R|eapply (S_relock nat _ 0); reflexivity]). cbv - [q0] in R'. clear R. rename R' into R.
  eassert (R' : qrun nat _ _ q0 _) by (eapply qrun_step; [exact R|eapply (S_wait nat _ 0); reflexivity]). cbv - [q0] in R'. clear R. rename R' into R.
  eassert (R' : qrun nat _ _ q0 _) by (eapply qrun_step; [exact R|eapply (S_lock_push nat _ 1); reflexivity]). cbv - [q0] in R'. clear R. rename R' into R.
  eassert (R' : qrun nat _ _ q0 _) by (eapply qrun_step; [exact R|eapply (S_push nat _ 1); reflexivity]). cbv - [q0] in R'. clear R. rename R' into R.
  eassert (R' : qrun nat _ _ q0 _) by (eapply qrun_step; [exact R|eapply (S_unlock nat _ 1); reflexivity]). cbv - [q0] in R'. clear R. rename R' into R.
  eassert (R' : qrun nat _ _ q0 _) by (eapply qrun_step; [exact R|eapply (S_notify_one nat _ 1 _ _ _ 0); reflexivity]). cbv - [q0] in R'. clear R. rename R' into R.
  eassert (R' : qrun nat _ _ q0 _) by (eapply qrun_step; [exact R|eapply (S_relock nat _ 0); reflexivity]). cbv - [q0] in R'. clear R. rename R' into R.
  eassert (R' : qrun nat _ _ q0 _) by (eapply qrun_step; [exact R|eapply (S_pop nat _ 0); reflexivity]). cbv - [q0] in R'. clear R. rename R' into R.
  eassert (R' : qrun nat _ _ q0 _) by (eapply qrun_step; [exact R|eapply (S_pop_return nat _ 0); reflexivity]). cbv - [q0] in R'. clear R. rename R' into R.
  eexists. split; [exact R|]. repeat split.
Qed.
