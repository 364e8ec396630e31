(** C66: the thread worker pool on its lock-level queues does what the pool on atomic queues does. *)
From Coq Require Import Permutation.
From Verif Require Import Base Queue PropQueue Pool PropPool LockPool.
Local Open Scope list_scope.

(** ** What the pool sees of a queue thread: the calls it is in, the answers it got, and the answer that is already decided. *)
Notation qth := (qthread task).
Definition view (t : qth) : list (qop task) * list (qres task) * list (qres task) := (t_prog task t, t_done task t, pending task t).
Notation vprog := (fun t : qth => fst (fst (view t))).

Lemma idle_thread log i p (t : qth) : thread_ok task log i p t -> t_prog task t = [] -> exists d, t = MkThread task [] (PReady task) d.
Proof. intros (H & _) E. destruct t as [q pc d]. cbn in *. subst q. unfold pc_ok in H. cbn in H. exists d. destruct pc; try reflexivity; destruct H as [r H]; discriminate. Qed.

(** The three kinds of steps of a queue. *)
Inductive qkind (s s' : qstate task) : Prop :=
| K_silent : q_items task s' = q_items task s -> length (q_threads task s') = length (q_threads task s) ->
    (forall j t', nth_error (q_threads task s') j = Some t' -> exists t, nth_error (q_threads task s) j = Some t /\ view t' = view t) -> qkind s s'
| K_return : forall i op p d r, q_items task s' = q_items task s -> length (q_threads task s') = length (q_threads task s) ->
    (exists t, nth_error (q_threads task s) i = Some t /\ view t = (op :: p, d, [r])) ->
    (forall j t', nth_error (q_threads task s') j = Some t' -> exists t, nth_error (q_threads task s) j = Some t /\ (if Nat.eqb j i then view t' = (p, d ++ [r], []) else view t' = view t)) -> qkind s s'
| K_push : forall i v p d, q_items task s' = q_items task s ++ [v] -> length (q_threads task s') = length (q_threads task s) ->
    (exists t, nth_error (q_threads task s) i = Some t /\ view t = (OpPush task v :: p, d, [])) ->
    (forall j t', nth_error (q_threads task s') j = Some t' -> exists t, nth_error (q_threads task s) j = Some t /\ (if Nat.eqb j i then view t' = (OpPush task v :: p, d, [ResPush task v]) else view t' = view t)) -> qkind s s'
| K_pop : forall i v p d, q_items task s = v :: q_items task s' -> length (q_threads task s') = length (q_threads task s) ->
    (exists t, nth_error (q_threads task s) i = Some t /\ view t = (OpWaitAndPop task :: p, d, [])) ->
    (forall j t', nth_error (q_threads task s') j = Some t' -> exists t, nth_error (q_threads task s) j = Some t /\ (if Nat.eqb j i then view t' = (OpWaitAndPop task :: p, d, [ResPopped task v]) else view t' = view t)) -> qkind s s'
| K_try : forall i op p d, q_items task s' = q_items task s \/ (exists v, q_items task s = v :: q_items task s') ->
    (exists t, nth_error (q_threads task s) i = Some t /\ view t = (op :: p, d, []) /\ op = OpTryPop task) -> qkind s s'.

Lemma upd_view (l : list qth) i x y : nth_error l i = Some x ->
  forall j t', nth_error (upd l i y) j = Some t' -> exists t, nth_error l j = Some t /\ (if Nat.eqb j i then view t' = view y else view t' = view t).
Proof.
  intros H j t' Hj. destruct (Nat.eqb_spec j i) as [->|N].
  - rewrite (nth_upd_same _ _ _ _ H) in Hj. injection Hj as <-. eauto.
  - rewrite nth_upd_other in Hj by congruence. eauto.
Qed.
Lemma upd_view_same (l : list qth) i x y : nth_error l i = Some x -> view y = view x ->
  forall j t', nth_error (upd l i y) j = Some t' -> exists t, nth_error l j = Some t /\ view t' = view t.
Proof.
  intros H E j t' Hj. destruct (upd_view l i x y H j t' Hj) as (t & Ht & V). exists t. split; [exact Ht|]. destruct (Nat.eqb_spec j i) as [->|N]; [|exact V].
  rewrite V, E. congruence.
Qed.

Lemma qstep_kind programs b s s' : qinv task programs s -> qstep task b s s' -> qkind s s'.
Proof.
  intros I H.
  assert (OK : forall i t, nth_error (q_threads task s) i = Some t -> pc_ok task t).
  { intros i t Hi. assert (L : i < length programs) by (rewrite <- (inv_len _ _ _ I); apply nth_error_Some; congruence). apply nth_error_Some in L.
    destruct (nth_error programs i) as [p|] eqn:Ep; [|congruence]. destruct (inv_threads _ _ _ I _ _ _ Hi Ep) as (X & _). exact X. }
  destruct H as [s i v rest d H Ho|s i rest d H Ho|s i rest d H Ho|s i v p d H|s i v p d H|s i v p d H Hn|s i v p d j pj dj H Hj|s i p d H He|s i p d H
    |s i p d H Ho|s i v q p d H He|s i v p d H|s i p d H He|s i v q p d H He|s i o p d H]; assert (O := OK _ _ H); unfold pc_ok in O; cbn in O.
  - apply K_silent; [reflexivity|apply upd_length|]. apply (upd_view_same _ _ _ _ H). reflexivity.
  - apply K_silent; [reflexivity|apply upd_length|]. apply (upd_view_same _ _ _ _ H). reflexivity.
  - apply K_silent; [reflexivity|apply upd_length|]. apply (upd_view_same _ _ _ _ H). reflexivity.
  - destruct O as [r ->]. eapply (K_push _ _ i v r d); [reflexivity|apply upd_length|eexists; split; [exact H|reflexivity]|]. apply (upd_view _ _ _ (MkThread task (OpPush task v :: r) (PPushed task v) d) H).
  - apply K_silent; [reflexivity|apply upd_length|]. apply (upd_view_same _ _ _ _ H). reflexivity.
  - destruct O as [r ->]. eapply (K_return _ _ i (OpPush task v) r d (ResPush task v)); [reflexivity|apply upd_length|eexists; split; [exact H|reflexivity]|]. apply (upd_view _ _ _ (MkThread task r (PReady task) (d ++ [ResPush task v])) H).
  - destruct O as [r ->]. eapply (K_return _ _ i (OpPush task v) r d (ResPush task v)); [reflexivity|cbn; rewrite !upd_length; reflexivity|eexists; split; [exact H|reflexivity]|].
    assert (Nij : i <> j) by (intro X; subst; congruence).
    assert (Hj' : nth_error (upd (q_threads task s) i (MkThread task r (PReady task) (d ++ [ResPush task v]))) j = Some (MkThread task pj (PWaiting task) dj)) by (rewrite nth_upd_other by exact Nij; exact Hj).
    intros k t' Hk. cbn [q_threads tl] in Hk. destruct (upd_view_same _ _ _ (MkThread task pj (PWoken task) dj) Hj' eq_refl _ _ Hk) as (t & Ht & V).
    destruct (upd_view _ _ _ (MkThread task r (PReady task) (d ++ [ResPush task v])) H _ _ Ht) as (t0 & Ht0 & V0). exists t0. split; [exact Ht0|].
    destruct (Nat.eqb k i); rewrite V; exact V0.
  - apply K_silent; [reflexivity|apply upd_length|]. apply (upd_view_same _ _ _ _ H). reflexivity.
  - apply K_silent; [reflexivity|apply upd_length|]. apply (upd_view_same _ _ _ _ H). reflexivity.
  - apply K_silent; [reflexivity|apply upd_length|]. apply (upd_view_same _ _ _ _ H). reflexivity.
  - destruct O as [r ->]. eapply (K_pop _ _ i v r d); [cbn; exact He|apply upd_length|eexists; split; [exact H|reflexivity]|]. apply (upd_view _ _ _ (MkThread task (OpWaitAndPop task :: r) (PPopTaken task v) d) H).
  - destruct O as [r ->]. eapply (K_return _ _ i (OpWaitAndPop task) r d (ResPopped task v)); [reflexivity|apply upd_length|eexists; split; [exact H|reflexivity]|]. apply (upd_view _ _ _ (MkThread task r (PReady task) (d ++ [ResPopped task v])) H).
  - destruct O as [r ->]. eapply (K_try _ _ i (OpTryPop task) r d); [left; reflexivity|eexists; split; [exact H|split; reflexivity]].
  - destruct O as [r ->]. eapply (K_try _ _ i (OpTryPop task) r d); [right; exists v; exact He|eexists; split; [exact H|split; reflexivity]].
  - destruct O as [r ->]. eapply (K_return _ _ i (OpTryPop task) r d (ResTry task o)); [reflexivity|apply upd_length|eexists; split; [exact H|reflexivity]|]. apply (upd_view _ _ _ (MkThread task r (PReady task) (d ++ [ResTry task o])) H).
Qed.

(** A call by a thread in no operation extends its program. *)
Lemma qinv_enter programs s i op d : qinv task programs s -> outside s i d -> exists programs', qinv task programs' (enter s i op d).
Proof.
  intros [I1 I1' I2 I3 I4 I5] H. unfold outside in H.
  assert (Li : i < length programs) by (rewrite <- I3; apply nth_error_Some; congruence).
  destruct (nth_error programs i) as [p|] eqn:Ep; [|apply nth_error_None in Ep; lia].
  exists (upd programs i (p ++ [op])).
  assert (X : forall k u, nth_error (upd (q_threads task s) i (MkThread task [op] (PReady task) d)) k = Some u -> (k = i /\ u = MkThread task [op] (PReady task) d) \/ (k <> i /\ nth_error (q_threads task s) k = Some u)).
  { intros k u Hk. destruct (Nat.eq_dec i k) as [<-|N]; [rewrite (nth_upd_same _ _ _ _ H) in Hk; injection Hk as <-; auto|rewrite nth_upd_other in Hk by exact N; auto]. }
  constructor; cbn [enter q_items q_owner q_threads q_log].
  - intros k u Hk. apply X in Hk. destruct Hk as [[-> ->]|[N Hk]]; [exact (I1 _ _ H)|apply I1; exact Hk].
  - intros k Hk. rewrite upd_length. apply I1'. exact Hk.
  - exact I2.
  - rewrite !upd_length. exact I3.
  - intros k u p0 Hk Hp. apply X in Hk. destruct Hk as [[-> ->]|[N Hk]].
    + rewrite (nth_upd_same _ _ _ _ Ep) in Hp. injection Hp as <-. destruct (I4 _ _ _ H Ep) as (T1 & T2 & ops & T3 & T4). cbn in T3, T4. rewrite app_nil_r in T3. subst p.
      split; [exact Logic.I|]. split; [exact T2|]. exists ops. split; [reflexivity|exact T4].
    + rewrite nth_upd_other in Hp by congruence. apply I4; assumption.
  - assert (E1 := sumf_upd (fun t => one (is_waiting task t)) _ _ _ (MkThread task [op] (PReady task) d) H).
    assert (E2 := sumf_upd (fun t => one (will_wake task t)) _ _ _ (MkThread task [op] (PReady task) d) H). cbn in E1, E2. intro W.
    specialize (I5 ltac:(lia)). lia.
Qed.

Section C66.
Variable R : Type.
Variable perform : task -> option R.
Notation fstate := (fstate R).
Notation pstate := (pstate R).
Arguments p_calls {R}. Arguments p_todo {R}. Arguments p_workers {R}. Arguments p_done {R}. Arguments p_writes {R}. Arguments p_exec {R}.
Arguments p_sub {R}. Arguments p_taken {R}. Arguments p_lost {R}. Arguments MkPool {R}.
Arguments f_calls {R}. Arguments f_workers {R}. Arguments f_todo {R}. Arguments f_done {R}. Arguments f_writes {R}. Arguments f_exec {R}. Arguments MkF {R}.
Arguments wth {R}.

(** ** The simulation: what a worker and a call are in the pool on atomic queues, given what their threads do in the queues. *)
Notation V := (list (qop task) * list (qres task) * list (qres task))%type.
Inductive wrel : fworker -> V -> V -> worker -> Prop :=
| wr_top : forall d1 d2, wrel FTop ([], d1, []) ([], d2, []) WIdle
| wr_pop0 : forall d1 d2, wrel FPop ([OpWaitAndPop task], d1, []) ([], d2, []) WIdle
| wr_pop1 : forall d1 d2 t, wrel FPop ([OpWaitAndPop task], d1, [ResPopped task t]) ([], d2, []) (WHas t)
| wr_pop2 : forall d1 d2 t, wrel FPop ([], d1 ++ [ResPopped task t], []) ([], d2, []) (WHas t)
| wr_has : forall d1 d2 t, wrel (FHas t) ([], d1, []) ([], d2, []) (WHas t)
| wr_did : forall d1 d2 t, wrel (FDid t) ([], d1, []) ([], d2, []) (WDid t)
| wr_push0 : forall d1 d2 t, wrel (FPush t) ([], d1, []) ([OpPush task t], d2, []) (WDid t)
| wr_push1 : forall d1 d2 t, wrel (FPush t) ([], d1, []) ([OpPush task t], d2, [ResPush task t]) WIdle
| wr_push2 : forall d1 d2 t, wrel (FPush t) ([], d1, []) ([], d2, []) WIdle.
Inductive crel (c : nat) : fcall -> V -> V -> call -> Prop :=
| cr_top : forall d1 d2 n i k, crel c (MkFC n i k CTop) ([], d1, []) ([], d2, []) (MkCall n i k)
| cr_push0 : forall d1 d2 n i k, i < n -> crel c (MkFC n i k CPush) ([OpPush task (c, i)], d1, []) ([], d2, []) (MkCall n i k)
| cr_push1 : forall d1 d2 n i k, i < n -> crel c (MkFC n i k CPush) ([OpPush task (c, i)], d1, [ResPush task (c, i)]) ([], d2, []) (MkCall n (S i) k)
| cr_push2 : forall d1 d2 n i k, i < n -> crel c (MkFC n i k CPush) ([], d1, []) ([], d2, []) (MkCall n (S i) k)
| cr_pop0 : forall d1 d2 n k, k < n -> crel c (MkFC n n k CPop) ([], d1, []) ([OpWaitAndPop task], d2, []) (MkCall n n k)
| cr_pop1 : forall d1 d2 n k t, k < n -> crel c (MkFC n n k CPop) ([], d1, []) ([OpWaitAndPop task], d2, [ResPopped task t]) (MkCall n n (S k))
| cr_pop2 : forall d1 d2 n k, k < n -> crel c (MkFC n n k CPop) ([], d1, []) ([], d2, []) (MkCall n n (S k)).

Record frel (f : fstate) (s : pstate) : Prop := {
  fr_qt : exists programs, qinv task programs (f_todo f);
  fr_qd : exists programs, qinv task programs (f_done f);
  fr_lt : length (q_threads task (f_todo f)) = length (f_calls f) + length (f_workers f);
  fr_ld : length (q_threads task (f_done f)) = length (f_calls f) + length (f_workers f);
  fr_lc : length (p_calls s) = length (f_calls f);
  fr_lw : length (p_workers s) = length (f_workers f);
  fr_calls : forall c x t1 t2 k, nth_error (f_calls f) c = Some x -> nth_error (q_threads task (f_todo f)) c = Some t1 -> nth_error (q_threads task (f_done f)) c = Some t2 ->
     nth_error (p_calls s) c = Some k -> crel c x (view t1) (view t2) k;
  fr_workers : forall w x t1 t2 k, nth_error (f_workers f) w = Some x -> nth_error (q_threads task (f_todo f)) (length (f_calls f) + w) = Some t1 ->
     nth_error (q_threads task (f_done f)) (length (f_calls f) + w) = Some t2 -> nth_error (p_workers s) w = Some k -> wrel x (view t1) (view t2) k;
  fr_todo : q_items task (f_todo f) = p_todo s;
  fr_done : q_items task (f_done f) = p_done s;
  fr_writes : f_writes f = p_writes s;
  fr_exec : f_exec f = p_exec s }.

Lemma frel_init w ns : frel (finit R w ns) (pinit R w ns).
Proof.
  assert (T : forall n i t, nth_error (q_threads task (qinit task (repeat [] n))) i = Some t -> view t = ([], [], [])).
  { intros n i t H. cbn in H. apply nth_error_In in H. apply in_map_iff in H. destruct H as (p & <- & Hp). apply repeat_spec in Hp. subst p. reflexivity. }
  constructor; cbn [finit pinit f_calls f_workers f_todo f_done f_writes f_exec p_calls p_workers p_todo p_done p_writes p_exec]; try reflexivity.
  - eexists. apply qinv_init.
  - eexists. apply qinv_init.
  - cbn. rewrite !map_length, !repeat_length. reflexivity.
  - cbn. rewrite !map_length, !repeat_length. reflexivity.
  - rewrite !map_length. reflexivity.
  - rewrite !repeat_length. reflexivity.
  - intros c x t1 t2 k Hx H1 H2 Hk. apply T in H1, H2. rewrite H1, H2. rewrite nth_error_map in Hx, Hk. destruct (nth_error ns c); cbn in *; [|discriminate].
    injection Hx as <-. injection Hk as <-. constructor.
  - intros i x t1 t2 k Hx H1 H2 Hk. apply T in H1, H2. rewrite H1, H2. apply nth_error_In, repeat_spec in Hx, Hk. subst. constructor.
Qed.

Lemma nth_some {A} (l : list A) i : i < length l -> exists x, nth_error l i = Some x.
Proof. intro H. apply nth_error_Some in H. destruct (nth_error l i); [eauto|congruence]. Qed.
Lemma nth_lt {A} (l : list A) i x : nth_error l i = Some x -> i < length l.
Proof. intro H. apply nth_error_Some. congruence. Qed.

(** The data of the caller, or of the worker, behind a queue thread. *)
Lemma who f s i : frel f s -> i < length (f_calls f) + length (f_workers f) ->
  (exists x t1 t2 k, nth_error (f_calls f) i = Some x /\ nth_error (q_threads task (f_todo f)) i = Some t1 /\ nth_error (q_threads task (f_done f)) i = Some t2 /\
     nth_error (p_calls s) i = Some k /\ crel i x (view t1) (view t2) k) \/
  (exists w x t1 t2 k, i = length (f_calls f) + w /\ nth_error (f_workers f) w = Some x /\ nth_error (q_threads task (f_todo f)) i = Some t1 /\ nth_error (q_threads task (f_done f)) i = Some t2 /\
     nth_error (p_workers s) w = Some k /\ wrel x (view t1) (view t2) k).
Proof.
  intros F L. destruct (nth_some (q_threads task (f_todo f)) i) as [t1 H1]; [rewrite (fr_lt _ _ F); exact L|].
  destruct (nth_some (q_threads task (f_done f)) i) as [t2 H2]; [rewrite (fr_ld _ _ F); exact L|].
  destruct (Nat.lt_ge_cases i (length (f_calls f))) as [Lc|Lc].
  - left. destruct (nth_some (f_calls f) i Lc) as [x Hx]. destruct (nth_some (p_calls s) i) as [k Hk]; [rewrite (fr_lc _ _ F); exact Lc|].
    exists x, t1, t2, k. repeat (split; [assumption|]). eapply (fr_calls _ _ F); eassumption.
  - right. remember (i - length (f_calls f)) as w eqn:Ew. assert (Ei : i = length (f_calls f) + w) by lia. assert (Lw : w < length (f_workers f)) by lia.
    destruct (nth_some (f_workers f) w Lw) as [x Hx]. destruct (nth_some (p_workers s) w) as [k Hk]; [rewrite (fr_lw _ _ F); exact Lw|].
    exists w, x, t1, t2, k. repeat (split; [assumption|]). subst i. eapply (fr_workers _ _ F); eassumption.
Qed.

Lemma frel_q_todo f s q' s' i v' f' : frel f s -> (exists programs, qinv task programs q') -> length (q_threads task q') = length (q_threads task (f_todo f)) ->
  (forall j t', nth_error (q_threads task q') j = Some t' -> exists t, nth_error (q_threads task (f_todo f)) j = Some t /\ (if Nat.eqb j i then view t' = v' else view t' = view t)) ->
  f_calls f' = f_calls f -> f_workers f' = f_workers f -> f_todo f' = q' -> f_done f' = f_done f -> f_writes f' = f_writes f -> f_exec f' = f_exec f ->
  length (p_calls s') = length (p_calls s) -> length (p_workers s') = length (p_workers s) ->
  (forall c, c <> i -> nth_error (p_calls s') c = nth_error (p_calls s) c) ->
  (forall w, length (f_calls f) + w <> i -> nth_error (p_workers s') w = nth_error (p_workers s) w) ->
  (forall x t2 k, nth_error (f_calls f) i = Some x -> nth_error (q_threads task (f_done f)) i = Some t2 -> nth_error (p_calls s') i = Some k -> crel i x v' (view t2) k) ->
  (forall w x t2 k, length (f_calls f) + w = i -> nth_error (f_workers f) w = Some x -> nth_error (q_threads task (f_done f)) i = Some t2 -> nth_error (p_workers s') w = Some k -> wrel x v' (view t2) k) ->
  q_items task q' = p_todo s' -> p_done s' = p_done s -> p_writes s' = p_writes s -> p_exec s' = p_exec s -> frel f' s'.
Proof.
  intros F Q L Hq E1 E2 E3 E4 E5 E6 Lc Lw Oc Ow Hc Hw It Id Iw Ie.
  assert (A1 := fr_lt _ _ F). assert (A2 := fr_ld _ _ F).
  constructor; rewrite ?E1, ?E2, ?E3, ?E4, ?E5, ?E6, ?Iw, ?Ie, ?Id, ?Lc, ?Lw; try (apply F; fail); try congruence; try exact Q.
  - intros c x t1 t2 k Hx H1 H2 Hk. destruct (Nat.eq_dec c i) as [->|N].
    + destruct (Hq _ _ H1) as (t & Ht & Hv). rewrite Nat.eqb_refl in Hv. rewrite Hv. eapply Hc; eassumption.
    + destruct (Hq _ _ H1) as (t & Ht & Hv). destruct (Nat.eqb_spec c i) as [X|_]; [congruence|]. rewrite Hv. rewrite Oc in Hk by exact N. eapply (fr_calls _ _ F); eassumption.
  - intros w x t1 t2 k Hx H1 H2 Hk. destruct (Nat.eq_dec (length (f_calls f) + w) i) as [X|N].
    + destruct (Hq _ _ H1) as (t & Ht & Hv). rewrite X, Nat.eqb_refl in Hv. rewrite Hv. eapply Hw; try eassumption; rewrite <- X; eassumption.
    + destruct (Hq _ _ H1) as (t & Ht & Hv). destruct (Nat.eqb_spec (length (f_calls f) + w) i) as [X|_]; [congruence|]. rewrite Hv. rewrite Ow in Hk by exact N. eapply (fr_workers _ _ F); eassumption.
Qed.

Lemma frel_q_done f s q' s' i v' f' : frel f s -> (exists programs, qinv task programs q') -> length (q_threads task q') = length (q_threads task (f_done f)) ->
  (forall j t', nth_error (q_threads task q') j = Some t' -> exists t, nth_error (q_threads task (f_done f)) j = Some t /\ (if Nat.eqb j i then view t' = v' else view t' = view t)) ->
  f_calls f' = f_calls f -> f_workers f' = f_workers f -> f_done f' = q' -> f_todo f' = f_todo f -> f_writes f' = f_writes f -> f_exec f' = f_exec f ->
  length (p_calls s') = length (p_calls s) -> length (p_workers s') = length (p_workers s) ->
  (forall c, c <> i -> nth_error (p_calls s') c = nth_error (p_calls s) c) ->
  (forall w, length (f_calls f) + w <> i -> nth_error (p_workers s') w = nth_error (p_workers s) w) ->
  (forall x t2 k, nth_error (f_calls f) i = Some x -> nth_error (q_threads task (f_todo f)) i = Some t2 -> nth_error (p_calls s') i = Some k -> crel i x (view t2) v' k) ->
  (forall w x t2 k, length (f_calls f) + w = i -> nth_error (f_workers f) w = Some x -> nth_error (q_threads task (f_todo f)) i = Some t2 -> nth_error (p_workers s') w = Some k -> wrel x (view t2) v' k) ->
  q_items task q' = p_done s' -> p_todo s' = p_todo s -> p_writes s' = p_writes s -> p_exec s' = p_exec s -> frel f' s'.
Proof.
  intros F Q L Hq E1 E2 E3 E4 E5 E6 Lc Lw Oc Ow Hc Hw It Id Iw Ie.
  assert (A1 := fr_lt _ _ F). assert (A2 := fr_ld _ _ F).
  constructor; rewrite ?E1, ?E2, ?E3, ?E4, ?E5, ?E6, ?Iw, ?Ie, ?Id, ?Lc, ?Lw; try (apply F; fail); try congruence; try exact Q.
  - intros c x t1 t2 k Hx H1 H2 Hk. destruct (Nat.eq_dec c i) as [->|N].
    + destruct (Hq _ _ H2) as (t & Ht & Hv). rewrite Nat.eqb_refl in Hv. rewrite Hv. eapply Hc; eassumption.
    + destruct (Hq _ _ H2) as (t & Ht & Hv). destruct (Nat.eqb_spec c i) as [X|_]; [congruence|]. rewrite Hv. rewrite Oc in Hk by exact N. eapply (fr_calls _ _ F); eassumption.
  - intros w x t1 t2 k Hx H1 H2 Hk. destruct (Nat.eq_dec (length (f_calls f) + w) i) as [X|N].
    + destruct (Hq _ _ H2) as (t & Ht & Hv). rewrite X, Nat.eqb_refl in Hv. rewrite Hv. eapply Hw; try eassumption; rewrite <- X; eassumption.
    + destruct (Hq _ _ H2) as (t & Ht & Hv). destruct (Nat.eqb_spec (length (f_calls f) + w) i) as [X|_]; [congruence|]. rewrite Hv. rewrite Ow in Hk by exact N. eapply (fr_workers _ _ F); eassumption.
Qed.

(** ** Potential *)
Definition phi_w (x : fworker) : nat := match x with FTop => 6 | FPop => 1 | FHas _ => 0 | FDid _ => 15 | FPush _ => 7 end.
Definition phi_c (x : fcall) : nat := (match fc_at x with CTop => 9 | _ => 0 end) + 10 * (2 * fc_n x - fc_sent x - fc_taken x).
Definition psi (s : pstate) : nat := 27 * pcost R s + 10 * (sumf k_sent (p_calls s) + sumf k_taken (p_calls s)).
Definition Phi (f : fstate) (s : pstate) : nat := cost task (f_todo f) + cost task (f_done f) + psi s + sumf phi_w (f_workers f) + sumf phi_c (f_calls f).
Notation pinv := (pinvf R perform (fun t => perform t = None)).
Lemma psi_step w ns s s' : pinv w ns s -> pstep R perform s s' -> psi s' + 17 <= psi s.
Proof.
  intros I H. assert (C := pcost_step _ _ _ _ _ _ I H). unfold psi.
  assert (D : sumf k_sent (p_calls s') + sumf k_taken (p_calls s') <= 1 + sumf k_sent (p_calls s) + sumf k_taken (p_calls s)); [|lia]. clear C I.
  destruct H as [s c k Hc L|s wi t r Hw Ht|s wi t v Hw Hp|s wi t Hw Hp|s wi t Hw|s c k t r Hc Hs Ht Hd]; cbn [p_calls]; try lia.
  - assert (E1 := sumf_upd k_sent _ _ _ (MkCall (k_n k) (S (k_sent k)) (k_taken k)) Hc). assert (E2 := sumf_upd k_taken _ _ _ (MkCall (k_n k) (S (k_sent k)) (k_taken k)) Hc). cbn in E1, E2. lia.
  - assert (E1 := sumf_upd k_sent _ _ _ (MkCall (k_n k) (k_sent k) (S (k_taken k))) Hc). assert (E2 := sumf_upd k_taken _ _ _ (MkCall (k_n k) (k_sent k) (S (k_taken k))) Hc). cbn in E1, E2. lia.
Qed.

(** One step of the pool with locks is no step or one step of the pool on atomic queues. *)
Definition matched (b : bool) (f f' : fstate) (s : pstate) : Prop :=
  exists s', (s' = s \/ pstep R perform s s') /\ frel f' s' /\ Phi f' s' + 1 <= Phi f s + (if b then 4 else 0).

Ltac fin := intros; try reflexivity; try assumption; try (rewrite upd_length; reflexivity); try congruence.
Lemma upd_same_len {A} (l : list A) i y j : j <> i -> nth_error (upd l i y) j = nth_error l j.
Proof. intro H. apply nth_upd_other. congruence. Qed.

Lemma crel_ret1 c x op p d r v k : crel c x (op :: p, d, [r]) v k -> crel c x (p, d ++ [r], []) v k.
Proof. intro H. inversion H; subst; constructor; assumption. Qed.
Lemma crel_ret2 c x op p d r v k : crel c x v (op :: p, d, [r]) k -> crel c x v (p, d ++ [r], []) k.
Proof. intro H. inversion H; subst; econstructor; assumption. Qed.
Lemma wrel_ret1 x op p d r v k : wrel x (op :: p, d, [r]) v k -> wrel x (p, d ++ [r], []) v k.
Proof. intro H. inversion H; subst; constructor. Qed.
Lemma wrel_ret2 x op p d r v k : wrel x v (op :: p, d, [r]) k -> wrel x v (p, d ++ [r], []) k.
Proof. intro H. inversion H; subst; constructor. Qed.
Lemma crel_push1 c x u p d v k : crel c x (OpPush task u :: p, d, []) v k ->
  u = (c, k_sent k) /\ k_sent k < k_n k /\ crel c x (OpPush task u :: p, d, [ResPush task u]) v (MkCall (k_n k) (S (k_sent k)) (k_taken k)).
Proof. intro H. inversion H; subst. split; [reflexivity|]. split; [assumption|]. constructor. assumption. Qed.
Lemma crel_push2 c x u p d v k : ~ crel c x v (OpPush task u :: p, d, []) k.
Proof. intro H. inversion H. Qed.
Lemma crel_pop1 c x p d v k : ~ crel c x (OpWaitAndPop task :: p, d, []) v k.
Proof. intro H. inversion H. Qed.
Lemma crel_pop2 c x p d v k u : crel c x v (OpWaitAndPop task :: p, d, []) k ->
  k_sent k = k_n k /\ k_taken k < k_n k /\ crel c x v (OpWaitAndPop task :: p, d, [ResPopped task u]) (MkCall (k_n k) (k_sent k) (S (k_taken k))).
Proof. intro H. inversion H; subst. split; [reflexivity|]. split; [assumption|]. constructor. assumption. Qed.
Lemma wrel_push1 x u p d v k : ~ wrel x (OpPush task u :: p, d, []) v k.
Proof. intro H. inversion H. Qed.
Lemma wrel_push2 x u p d v k : wrel x v (OpPush task u :: p, d, []) k -> k = WDid u /\ wrel x v (OpPush task u :: p, d, [ResPush task u]) WIdle.
Proof. intro H. inversion H; subst. split; [reflexivity|]. constructor. Qed.
Lemma wrel_pop1 x p d v k u : wrel x (OpWaitAndPop task :: p, d, []) v k -> k = WIdle /\ wrel x (OpWaitAndPop task :: p, d, [ResPopped task u]) v (WHas u).
Proof. intro H. inversion H; subst. split; [reflexivity|]. constructor. Qed.
Lemma wrel_pop2 x p d v k : ~ wrel x v (OpWaitAndPop task :: p, d, []) k.
Proof. intro H. inversion H. Qed.
Lemma rel_try c x y p d v k k' : ~ crel c x (OpTryPop task :: p, d, []) v k /\ ~ crel c x v (OpTryPop task :: p, d, []) k /\ ~ wrel y (OpTryPop task :: p, d, []) v k' /\ ~ wrel y v (OpTryPop task :: p, d, []) k'.
Proof. repeat split; intro H; inversion H. Qed.

Lemma sim_todo w ns b f s q : pinv w ns s -> frel f s -> qstep task b (f_todo f) q -> matched b f (MkF (f_calls f) (f_workers f) q (f_done f) (f_writes f) (f_exec f)) s.
Proof.
  intros PI F H. destruct (fr_qt _ _ F) as [pr I]. assert (I' := qinv_step _ _ _ _ _ I H). assert (C := cost_step _ _ _ _ H). assert (K := qstep_kind _ _ _ _ I H).
  destruct K as [Ei El Ev|i op p d r Ei El (t & Ht & Hv) Ev|i v p d Ei El (t & Ht & Hv) Ev|i v p d Ei El (t & Ht & Hv) Ev|i op p d Ei (t & Ht & Hv & Eo)].
  - exists s. split; [left; reflexivity|]. split; [|unfold Phi; cbn [f_todo f_done f_workers f_calls]; lia].
    eapply (frel_q_todo f s q s (length (q_threads task (f_todo f))) ([], [], [])); fin; try exact F.
    + exists pr. exact I'.
    + destruct (Ev _ _ H0) as (t & Ht & Hv). exists t. split; [exact Ht|]. apply nth_lt in Ht. destruct (Nat.eqb_spec j (length (q_threads task (f_todo f)))); [lia|exact Hv].
    + apply nth_lt in H0. rewrite (fr_lt _ _ F) in H0. lia.
    + apply nth_lt in H1. rewrite (fr_lt _ _ F) in H0. lia.
    + rewrite Ei. apply F.
  - (* an operation returns *)
    exists s. split; [left; reflexivity|]. split; [|unfold Phi; cbn [f_todo f_done f_workers f_calls]; lia].
    eapply (frel_q_todo f s q s i (p, d ++ [r], [])); fin; try exact F.
    + exists pr. exact I'.
    + apply Ev. assumption.
    + assert (X := fr_calls _ _ F _ _ _ _ _ H0 Ht H1 H2). rewrite Hv in X. exact (crel_ret1 _ _ _ _ _ _ _ _ X).
    + subst i. assert (X := fr_workers _ _ F _ _ _ _ _ H1 Ht H2 H3). rewrite Hv in X. exact (wrel_ret1 _ _ _ _ _ _ _ X).
    + rewrite Ei. apply F.
  - (* an element enters *)
    destruct (who f s i F) as [(x & t1 & t2 & k & Hx & H1 & H2 & Hk & X)|(wi & x & t1 & t2 & k & Hi & Hx & H1 & H2 & Hk & X)]; [rewrite <- (fr_lt _ _ F); eapply nth_lt; exact Ht| |];
      assert (t1 = t) by congruence; subst t1; rewrite Hv in X; [|destruct (wrel_push1 _ _ _ _ _ _ X)]. destruct (crel_push1 _ _ _ _ _ _ _ X) as (-> & Lk & X').
    assert (S1 := P_submit R perform s i k Hk Lk).
    eexists. split; [right; exact S1|]. split; [|assert (D := psi_step _ _ _ _ PI S1); unfold Phi; cbn [f_todo f_done f_workers f_calls] in *; lia].
    eapply (frel_q_todo f s q _ i); [exact F|exists pr; exact I'|exact El|exact Ev|..]; cbn [p_calls p_workers p_todo p_done p_writes p_exec f_calls f_workers f_todo f_done f_writes f_exec]; fin.
    + rewrite nth_upd_other by congruence. reflexivity.
    + rewrite (nth_upd_same _ _ _ _ Hk) in H4. injection H4 as <-. assert (x0 = x) by congruence. assert (t0 = t2) by congruence. subst. exact X'.
    + exfalso. apply nth_lt in Hx. lia.
    + rewrite Ei. f_equal. apply F.
  - (* an element leaves *)
    destruct (who f s i F) as [(x & t1 & t2 & k & Hx & H1 & H2 & Hk & X)|(wi & x & t1 & t2 & k & Hi & Hx & H1 & H2 & Hk & X)]; [rewrite <- (fr_lt _ _ F); eapply nth_lt; exact Ht| |];
      assert (t1 = t) by congruence; subst t1; rewrite Hv in X; [destruct (crel_pop1 _ _ _ _ _ _ X)|]. destruct (wrel_pop1 _ _ _ _ _ v X) as (-> & X').
    assert (S1 := P_get R perform s wi v (q_items task q) Hk (eq_trans (eq_sym (fr_todo _ _ F)) Ei)).
    eexists. split; [right; exact S1|]. split; [|assert (D := psi_step _ _ _ _ PI S1); unfold Phi; cbn [f_todo f_done f_workers f_calls] in *; lia].
    subst i. eapply (frel_q_todo f s q _ (length (f_calls f) + wi)); [exact F|exists pr; exact I'|exact El|exact Ev|..]; cbn [p_calls p_workers p_todo p_done p_writes p_exec f_calls f_workers f_todo f_done f_writes f_exec]; fin.
    + rewrite nth_upd_other by lia. reflexivity.
    + exfalso. apply nth_lt in H0. lia.
    + assert (w0 = wi) by lia. subst w0. rewrite (nth_upd_same _ _ _ _ Hk) in H5. injection H5 as <-. assert (x0 = x) by congruence. assert (t0 = t2) by congruence. subst. exact X'.
  - exfalso. subst op. destruct (who f s i F) as [(x & t1 & t2 & k & Hx & H1 & H2 & Hk & X)|(wi & x & t1 & t2 & k & Hi & Hx & H1 & H2 & Hk & X)]; [rewrite <- (fr_lt _ _ F); eapply nth_lt; exact Ht| |];
      assert (t1 = t) by congruence; subst t1; rewrite Hv in X;
      [destruct (rel_try i x FTop p d (view t2) k WIdle) as (X1 & X2 & X3 & X4)|destruct (rel_try i (MkFC 0 0 0 CTop) x p d (view t2) (MkCall 0 0 0) k) as (X1 & X2 & X3 & X4)]; tauto.
Qed.

Lemma sim_done w ns b f s q : pinv w ns s -> frel f s -> qstep task b (f_done f) q -> matched b f (MkF (f_calls f) (f_workers f) (f_todo f) q (f_writes f) (f_exec f)) s.
Proof.
  intros PI F H. destruct (fr_qd _ _ F) as [pr I]. assert (I' := qinv_step _ _ _ _ _ I H). assert (C := cost_step _ _ _ _ H). assert (K := qstep_kind _ _ _ _ I H).
  destruct K as [Ei El Ev|i op p d r Ei El (t & Ht & Hv) Ev|i v p d Ei El (t & Ht & Hv) Ev|i v p d Ei El (t & Ht & Hv) Ev|i op p d Ei (t & Ht & Hv & Eo)].
  - exists s. split; [left; reflexivity|]. split; [|unfold Phi; cbn [f_todo f_done f_workers f_calls]; lia].
    eapply (frel_q_done f s q s (length (q_threads task (f_done f))) ([], [], [])); fin; try exact F.
    + exists pr. exact I'.
    + destruct (Ev _ _ H0) as (t & Ht & Hv). exists t. split; [exact Ht|]. apply nth_lt in Ht. destruct (Nat.eqb_spec j (length (q_threads task (f_done f)))); [lia|exact Hv].
    + apply nth_lt in H0. rewrite (fr_ld _ _ F) in H0. lia.
    + apply nth_lt in H1. rewrite (fr_ld _ _ F) in H0. lia.
    + rewrite Ei. apply F.
  - (* an operation returns *)
    exists s. split; [left; reflexivity|]. split; [|unfold Phi; cbn [f_todo f_done f_workers f_calls]; lia].
    eapply (frel_q_done f s q s i (p, d ++ [r], [])); fin; try exact F.
    + exists pr. exact I'.
    + apply Ev. assumption.
    + assert (X := fr_calls _ _ F _ _ _ _ _ H0 H1 Ht H2). rewrite Hv in X. exact (crel_ret2 _ _ _ _ _ _ _ _ X).
    + subst i. assert (X := fr_workers _ _ F _ _ _ _ _ H1 H2 Ht H3). rewrite Hv in X. exact (wrel_ret2 _ _ _ _ _ _ _ X).
    + rewrite Ei. apply F.
  - (* an element enters *)
    destruct (who f s i F) as [(x & t1 & t2 & k & Hx & H1 & H2 & Hk & X)|(wi & x & t1 & t2 & k & Hi & Hx & H1 & H2 & Hk & X)]; [rewrite <- (fr_ld _ _ F); eapply nth_lt; exact Ht| |];
      assert (t2 = t) by congruence; subst t2; rewrite Hv in X; [destruct (crel_push2 _ _ _ _ _ _ _ X)|]. destruct (wrel_push2 _ _ _ _ _ _ X) as (-> & X').
    assert (S1 := P_report R perform s wi v Hk).
    eexists. split; [right; exact S1|]. split; [|assert (D := psi_step _ _ _ _ PI S1); unfold Phi; cbn [f_todo f_done f_workers f_calls] in *; lia].
    subst i. eapply (frel_q_done f s q _ (length (f_calls f) + wi)); [exact F|exists pr; exact I'|exact El|exact Ev|..]; cbn [p_calls p_workers p_todo p_done p_writes p_exec f_calls f_workers f_todo f_done f_writes f_exec]; fin.
    + rewrite nth_upd_other by lia. reflexivity.
    + exfalso. apply nth_lt in H0. lia.
    + assert (w0 = wi) by lia. subst w0. rewrite (nth_upd_same _ _ _ _ Hk) in H5. injection H5 as <-. assert (x0 = x) by congruence. assert (t2 = t1) by congruence. subst. exact X'.
    + rewrite Ei. f_equal. apply F.
  - (* an element leaves *)
    destruct (who f s i F) as [(x & t1 & t2 & k & Hx & H1 & H2 & Hk & X)|(wi & x & t1 & t2 & k & Hi & Hx & H1 & H2 & Hk & X)]; [rewrite <- (fr_ld _ _ F); eapply nth_lt; exact Ht| |];
      assert (t2 = t) by congruence; subst t2; rewrite Hv in X; [|destruct (wrel_pop2 _ _ _ _ _ X)]. destruct (crel_pop2 _ _ _ _ _ _ v X) as (Es & Lk & X').
    assert (S1 := P_token R perform s i k v (q_items task q) Hk Es Lk (eq_trans (eq_sym (fr_done _ _ F)) Ei)).
    eexists. split; [right; exact S1|]. split; [|assert (D := psi_step _ _ _ _ PI S1); unfold Phi; cbn [f_todo f_done f_workers f_calls] in *; lia].
    eapply (frel_q_done f s q _ i); [exact F|exists pr; exact I'|exact El|exact Ev|..]; cbn [p_calls p_workers p_todo p_done p_writes p_exec f_calls f_workers f_todo f_done f_writes f_exec]; fin.
    + rewrite nth_upd_other by congruence. reflexivity.
    + rewrite (nth_upd_same _ _ _ _ Hk) in H4. injection H4 as <-. assert (x0 = x) by congruence. assert (t2 = t1) by congruence. subst. exact X'.
    + exfalso. apply nth_lt in Hx. lia.
  - exfalso. subst op. destruct (who f s i F) as [(x & t1 & t2 & k & Hx & H1 & H2 & Hk & X)|(wi & x & t1 & t2 & k & Hi & Hx & H1 & H2 & Hk & X)]; [rewrite <- (fr_ld _ _ F); eapply nth_lt; exact Ht| |];
      assert (t2 = t) by congruence; subst t2; rewrite Hv in X;
      [destruct (rel_try i x FTop p d (view t1) k WIdle) as (X1 & X2 & X3 & X4)|destruct (rel_try i (MkFC 0 0 0 CTop) x p d (view t1) (MkCall 0 0 0) k) as (X1 & X2 & X3 & X4)]; tauto.
Qed.

Lemma frel_caller f s f' c x x' : frel f s -> nth_error (f_calls f) c = Some x -> f_calls f' = upd (f_calls f) c x' -> f_workers f' = f_workers f ->
  (exists programs, qinv task programs (f_todo f')) -> (exists programs, qinv task programs (f_done f')) ->
  length (q_threads task (f_todo f')) = length (q_threads task (f_todo f)) -> length (q_threads task (f_done f')) = length (q_threads task (f_done f)) ->
  (forall j, j <> c -> nth_error (q_threads task (f_todo f')) j = nth_error (q_threads task (f_todo f)) j) ->
  (forall j, j <> c -> nth_error (q_threads task (f_done f')) j = nth_error (q_threads task (f_done f)) j) ->
  q_items task (f_todo f') = q_items task (f_todo f) -> q_items task (f_done f') = q_items task (f_done f) -> f_writes f' = f_writes f -> f_exec f' = f_exec f ->
  (forall t1 t2 k, nth_error (q_threads task (f_todo f')) c = Some t1 -> nth_error (q_threads task (f_done f')) c = Some t2 -> nth_error (p_calls s) c = Some k -> crel c x' (view t1) (view t2) k) ->
  frel f' s.
Proof.
  intros F Hx E1 E2 Q1 Q2 L1 L2 O1 O2 I1 I2 E3 E4 Hc.
  assert (A1 := fr_lt _ _ F). assert (A2 := fr_ld _ _ F). assert (Lc := nth_lt _ _ _ Hx).
  constructor; try assumption; rewrite ?E1, ?E2, ?upd_length, ?I1, ?I2, ?E3, ?E4; try (apply F; fail); try congruence.
  - intros j y t1 t2 k Hy H1 H2 Hk. destruct (Nat.eq_dec j c) as [->|N].
    + rewrite (nth_upd_same _ _ _ _ Hx) in Hy. injection Hy as <-. apply Hc; assumption.
    + rewrite nth_upd_other in Hy by congruence. rewrite O1 in H1 by exact N. rewrite O2 in H2 by exact N. eapply (fr_calls _ _ F); eassumption.
  - intros w y t1 t2 k Hy H1 H2 Hk. rewrite O1 in H1 by lia. rewrite O2 in H2 by lia. eapply (fr_workers _ _ F); eassumption.
Qed.
Lemma frel_worker f s f' s' w x x' : frel f s -> nth_error (f_workers f) w = Some x -> f_workers f' = upd (f_workers f) w x' -> f_calls f' = f_calls f ->
  (exists programs, qinv task programs (f_todo f')) -> (exists programs, qinv task programs (f_done f')) ->
  length (q_threads task (f_todo f')) = length (q_threads task (f_todo f)) -> length (q_threads task (f_done f')) = length (q_threads task (f_done f)) ->
  (forall j, j <> length (f_calls f) + w -> nth_error (q_threads task (f_todo f')) j = nth_error (q_threads task (f_todo f)) j) ->
  (forall j, j <> length (f_calls f) + w -> nth_error (q_threads task (f_done f')) j = nth_error (q_threads task (f_done f)) j) ->
  q_items task (f_todo f') = p_todo s' -> q_items task (f_done f') = p_done s' -> f_writes f' = p_writes s' -> f_exec f' = p_exec s' ->
  p_calls s' = p_calls s -> length (p_workers s') = length (p_workers s) -> (forall j, j <> w -> nth_error (p_workers s') j = nth_error (p_workers s) j) ->
  (forall t1 t2 k, nth_error (q_threads task (f_todo f')) (length (f_calls f) + w) = Some t1 -> nth_error (q_threads task (f_done f')) (length (f_calls f) + w) = Some t2 ->
     nth_error (p_workers s') w = Some k -> wrel x' (view t1) (view t2) k) ->
  frel f' s'.
Proof.
  intros F Hx E1 E2 Q1 Q2 L1 L2 O1 O2 I1 I2 E3 E4 Pc Lw Pw Hc.
  assert (A1 := fr_lt _ _ F). assert (A2 := fr_ld _ _ F). assert (Lx := nth_lt _ _ _ Hx).
  constructor; try assumption; rewrite ?E1, ?E2, ?upd_length, ?Pc, ?Lw; try (apply F; fail); try congruence.
  - intros j y t1 t2 k Hy H1 H2 Hk. assert (Lj := nth_lt _ _ _ Hy). rewrite O1 in H1 by lia. rewrite O2 in H2 by lia. eapply (fr_calls _ _ F); eassumption.
  - intros j y t1 t2 k Hy H1 H2 Hk. destruct (Nat.eq_dec j w) as [->|N].
    + rewrite (nth_upd_same _ _ _ _ Hx) in Hy. injection Hy as <-. apply Hc; assumption.
    + rewrite nth_upd_other in Hy by congruence. rewrite O1 in H1 by lia. rewrite O2 in H2 by lia. rewrite Pw in Hk by exact N. eapply (fr_workers _ _ F); eassumption.
Qed.

Lemma cost_enter q i op d : outside q i d -> cost task (enter q i op d) = cost task q + op_cost task op.
Proof. intro H. unfold outside in H. unfold cost, enter. cbn [q_threads]. assert (E := sumf_upd (pc_cost task) _ _ _ (MkThread task [op] (PReady task) d) H). cbn in E. lia. Qed.
Lemma enter_same q i op d : outside q i d -> nth_error (q_threads task (enter q i op d)) i = Some (MkThread task [op] (PReady task) d).
Proof. intro H. cbn. eapply nth_upd_same. exact H. Qed.
Lemma enter_other q i op d j : j <> i -> nth_error (q_threads task (enter q i op d)) j = nth_error (q_threads task q) j.
Proof. intro H. cbn. apply nth_upd_other. congruence. Qed.
Lemma enter_len q i op d : length (q_threads task (enter q i op d)) = length (q_threads task q).
Proof. cbn. apply upd_length. Qed.
Lemma view_top c n i k v1 v2 K : crel c (MkFC n i k CTop) v1 v2 K -> (exists d1, v1 = ([], d1, [])) /\ (exists d2, v2 = ([], d2, [])) /\ K = MkCall n i k.
Proof. intro H. inversion H; subst. eauto. Qed.

Lemma phi_top n i k : phi_c (MkFC n i k CTop) = 9 + 10 * (2 * n - i - k). Proof. reflexivity. Qed.
Lemma phi_push n i k : phi_c (MkFC n i k CPush) = 10 * (2 * n - i - k). Proof. reflexivity. Qed.
Lemma phi_pop n i k : phi_c (MkFC n i k CPop) = 10 * (2 * n - i - k). Proof. reflexivity. Qed.
(** What is known of the caller and of the worker that moves. *)
Lemma the_call w ns f s c x : pinv w ns s -> frel f s -> nth_error (f_calls f) c = Some x ->
  exists t1 t2 k, nth_error (q_threads task (f_todo f)) c = Some t1 /\ nth_error (q_threads task (f_done f)) c = Some t2 /\ nth_error (p_calls s) c = Some k /\ crel c x (view t1) (view t2) k /\ k_sent k <= k_n k /\ k_taken k <= k_n k.
Proof.
  intros PI F Hc. assert (LL := nth_lt _ _ _ Hc).
  destruct (who f s c F) as [(x' & t1 & t2 & K & Hx & H1 & H2 & Hk & X)|(w0 & x' & t1 & t2 & K & Hi & Hx & H1 & H2 & Hk & X)]; [lia| |lia].
  assert (x' = x) by congruence. subst x'. exists t1, t2, K. repeat (split; [assumption|]). apply (iv_calls _ _ _ _ _ _ PI). eapply nth_error_In. exact Hk.
Qed.
Lemma the_worker f s w x : frel f s -> nth_error (f_workers f) w = Some x ->
  exists t1 t2 k, nth_error (q_threads task (f_todo f)) (length (f_calls f) + w) = Some t1 /\ nth_error (q_threads task (f_done f)) (length (f_calls f) + w) = Some t2 /\ nth_error (p_workers s) w = Some k /\ wrel x (view t1) (view t2) k.
Proof.
  intros F Hw. assert (LL := nth_lt _ _ _ Hw).
  destruct (who f s (length (f_calls f) + w) F) as [(x' & t1 & t2 & K & Hx & H1 & H2 & Hk & X)|(w0 & x' & t1 & t2 & K & Hi & Hx & H1 & H2 & Hk & X)]; [lia|apply nth_lt in Hx; lia|].
  assert (w0 = w) by lia. subst w0. assert (x' = x) by congruence. subst x'. exists t1, t2, K. auto.
Qed.
Notation idle_view d := (@nil (qop task), d, @nil (qres task)).

Lemma sim w ns b f s f' : pinv w ns s -> frel f s -> fstep R perform b f f' -> matched b f f' s.
Proof.
  intros PI F H. destruct (fr_qt _ _ F) as [pt Qt]. destruct (fr_qd _ _ F) as [pd Qd].
  destruct H as [b f q H|b f q H|f c n i k d Hc L Ho|f c n i k d Hc Ho|f c n k d Hc L Ho|f c n i k d Hc Ho|f wi d Hw Ho|f wi d t Hw Ho|f wi t v Hw Hp|f wi t Hw Hp|f wi t d Hw Ho|f wi t d Hw Ho].
  - eapply sim_todo; eassumption.
  - eapply sim_done; eassumption.
  - (* submit *)
    destruct (the_call _ _ _ _ _ _ PI F Hc) as (t1 & t2 & K & H1 & H2 & Hk & X & B1 & B2). unfold outside in Ho. rewrite Ho in H1. injection H1 as <-.
    change (view (MkThread task [] (PReady task) d)) with (idle_view d) in X.
    exists s. split; [left; reflexivity|]. split.
    + eapply (frel_caller f s _ c _ _ F Hc); cbn [f_calls f_workers f_todo f_done f_writes f_exec]; try reflexivity; eauto.
      * eapply qinv_enter; eassumption.
      * apply enter_len.
      * intros j N. apply enter_other. exact N.
      * intros t1' t2' K' H1' H2' Hk'. rewrite (enter_same _ _ _ _ Ho) in H1'. injection H1' as <-. assert (t2' = t2) by congruence. assert (K' = K) by congruence. subst.
        cbn [view t_prog t_done]. revert X. generalize (view t2). intros v2 X. inversion X; subst. apply cr_push0. exact L.
    + unfold Phi. cbn [f_calls f_workers f_todo f_done]. rewrite (cost_enter _ _ _ _ Ho). assert (E := sumf_upd phi_c _ _ _ (MkFC n i k CPush) Hc). rewrite phi_push, phi_top in E. cbn [op_cost]. lia.
  - (* submitted *)
    destruct (the_call _ _ _ _ _ _ PI F Hc) as (t1 & t2 & K & H1 & H2 & Hk & X & B1 & B2). unfold outside in Ho. rewrite Ho in H1. injection H1 as <-.
    change (view (MkThread task [] (PReady task) d)) with (idle_view d) in X.
    assert (Y : i < n /\ k <= n /\ crel c (MkFC n (S i) k CTop) (idle_view d) (view t2) K).
    { revert X. generalize (view t2). intros v2 X. inversion X; subst. cbn in B1, B2. split; [assumption|]. split; [lia|constructor]. }
    destruct Y as (Y1 & Y2 & Y). exists s. split; [left; reflexivity|]. split.
    + eapply (frel_caller f s _ c _ _ F Hc); cbn [f_calls f_workers f_todo f_done f_writes f_exec]; try reflexivity; eauto.
      intros t1' t2' K' H1' H2' Hk'. rewrite Ho in H1'. injection H1' as <-. assert (t2' = t2) by congruence. assert (K' = K) by congruence. subst. exact Y.
    + unfold Phi. cbn [f_calls f_workers f_todo f_done]. assert (E := sumf_upd phi_c _ _ _ (MkFC n (S i) k CTop) Hc). rewrite phi_push, phi_top in E. lia.
  - (* collect *)
    destruct (the_call _ _ _ _ _ _ PI F Hc) as (t1 & t2 & K & H1 & H2 & Hk & X & B1 & B2). unfold outside in Ho. rewrite Ho in H2. injection H2 as <-.
    change (view (MkThread task [] (PReady task) d)) with (idle_view d) in X.
    exists s. split; [left; reflexivity|]. split.
    + eapply (frel_caller f s _ c _ _ F Hc); cbn [f_calls f_workers f_todo f_done f_writes f_exec]; try reflexivity; eauto.
      * eapply qinv_enter; eassumption.
      * apply enter_len.
      * intros j N. apply enter_other. exact N.
      * intros t1' t2' K' H1' H2' Hk'. rewrite (enter_same _ _ _ _ Ho) in H2'. injection H2' as <-. assert (t1' = t1) by congruence. assert (K' = K) by congruence. subst.
        change (view (MkThread task [OpWaitAndPop task] (PReady task) d)) with ([OpWaitAndPop task], d, @nil (qres task)). revert X. generalize (view t1). intros v2 X. inversion X; subst. apply cr_pop0. exact L.
    + unfold Phi. cbn [f_calls f_workers f_todo f_done]. rewrite (cost_enter _ _ _ _ Ho). assert (E := sumf_upd phi_c _ _ _ (MkFC n n k CPop) Hc). rewrite phi_pop, phi_top in E. cbn [op_cost]. lia.
  - (* collected *)
    destruct (the_call _ _ _ _ _ _ PI F Hc) as (t1 & t2 & K & H1 & H2 & Hk & X & B1 & B2). unfold outside in Ho. rewrite Ho in H2. injection H2 as <-.
    change (view (MkThread task [] (PReady task) d)) with (idle_view d) in X.
    assert (Y : k < n /\ i <= n /\ crel c (MkFC n i (S k) CTop) (view t1) (idle_view d) K).
    { revert X. generalize (view t1). intros v2 X. inversion X; subst. cbn in B1, B2. split; [assumption|]. split; [lia|constructor]. }
    destruct Y as (Y1 & Y2 & Y). exists s. split; [left; reflexivity|]. split.
    + eapply (frel_caller f s _ c _ _ F Hc); cbn [f_calls f_workers f_todo f_done f_writes f_exec]; try reflexivity; eauto.
      intros t1' t2' K' H1' H2' Hk'. rewrite Ho in H2'. injection H2' as <-. assert (t1' = t1) by congruence. assert (K' = K) by congruence. subst. exact Y.
    + unfold Phi. cbn [f_calls f_workers f_todo f_done]. assert (E := sumf_upd phi_c _ _ _ (MkFC n i (S k) CTop) Hc). rewrite phi_pop, phi_top in E. lia.
  - (* fetch *)
    destruct (the_worker _ _ _ _ F Hw) as (t1 & t2 & K & H1 & H2 & Hk & X). unfold outside, wth in Ho. rewrite Ho in H1. injection H1 as <-.
    change (view (MkThread task [] (PReady task) d)) with (idle_view d) in X.
    exists s. split; [left; reflexivity|]. split.
    + eapply (frel_worker f s _ s wi _ _ F Hw); cbn [f_calls f_workers f_todo f_done f_writes f_exec]; try reflexivity; eauto; try (apply F; fail).
      * eapply qinv_enter; eassumption.
      * apply enter_len.
      * intros j N. apply enter_other. exact N.
      * intros t1' t2' K' H1' H2' Hk'. unfold wth in H1'. rewrite (enter_same _ _ _ _ Ho) in H1'. injection H1' as <-. assert (t2' = t2) by congruence. assert (K' = K) by congruence. subst.
        change (view (MkThread task [OpWaitAndPop task] (PReady task) d)) with ([OpWaitAndPop task], d, @nil (qres task)). revert X. generalize (view t2). intros v2 X. inversion X; subst. constructor.
    + unfold Phi, wth. cbn [f_calls f_workers f_todo f_done]. rewrite (cost_enter _ _ _ _ Ho). assert (E := sumf_upd phi_w _ _ _ FPop Hw). cbn [phi_w op_cost] in *. lia.
  - (* fetched *)
    destruct (the_worker _ _ _ _ F Hw) as (t1 & t2 & K & H1 & H2 & Hk & X). unfold outside, wth in Ho. rewrite Ho in H1. injection H1 as <-.
    change (view (MkThread task [] (PReady task) (d ++ [ResPopped task t]))) with (idle_view (d ++ [ResPopped task t])) in X.
    assert (Y : wrel (FHas t) (idle_view (d ++ [ResPopped task t])) (view t2) K).
    { revert X. generalize (view t2). intros v2 X. inversion X; subst. match goal with E : _ ++ [_] = _ ++ [_] |- _ => apply app_inj_tail in E; destruct E as [_ E]; injection E as -> end. constructor. }
    exists s. split; [left; reflexivity|]. split.
    + eapply (frel_worker f s _ s wi _ _ F Hw); cbn [f_calls f_workers f_todo f_done f_writes f_exec]; try reflexivity; eauto; try (apply F; fail).
      intros t1' t2' K' H1' H2' Hk'. rewrite Ho in H1'. injection H1' as <-. assert (t2' = t2) by congruence. assert (K' = K) by congruence. subst. exact Y.
    + unfold Phi. cbn [f_calls f_workers f_todo f_done]. assert (E := sumf_upd phi_w _ _ _ (FHas t) Hw). cbn [phi_w] in *. lia.
  - (* perform *)
    destruct (the_worker _ _ _ _ F Hw) as (t1 & t2 & K & H1 & H2 & Hk & X).
    assert (Y : K = WHas t /\ wrel (FDid t) (view t1) (view t2) (WDid t)).
    { revert X. generalize (view t1) (view t2). intros v1 v2 X. inversion X; subst. split; [reflexivity|constructor]. }
    destruct Y as [-> Y]. assert (S1 := P_perform R perform s wi t v Hk Hp).
    eexists. split; [right; exact S1|]. split; [|assert (D := psi_step _ _ _ _ PI S1); unfold Phi; cbn [f_todo f_done f_workers f_calls] in *; assert (E := sumf_upd phi_w _ _ _ (FDid t) Hw); cbn [phi_w] in E; lia].
    eapply (frel_worker f s _ _ wi _ _ F Hw); cbn [f_calls f_workers f_todo f_done f_writes f_exec p_calls p_workers p_todo p_done p_writes p_exec]; try reflexivity; eauto; try (apply F; fail).
    + f_equal. apply F.
    + f_equal. apply F.
    + apply upd_length.
    + intros j N. apply nth_upd_other. congruence.
    + intros t1' t2' K' H1' H2' Hk'. rewrite (nth_upd_same _ _ _ _ Hk) in Hk'. injection Hk' as <-. assert (t1' = t1) by congruence. assert (t2' = t2) by congruence. subst. exact Y.
  - (* throw *)
    destruct (the_worker _ _ _ _ F Hw) as (t1 & t2 & K & H1 & H2 & Hk & X).
    assert (Y : K = WHas t /\ wrel FTop (view t1) (view t2) WIdle).
    { revert X. generalize (view t1) (view t2). intros v1 v2 X. inversion X; subst. split; [reflexivity|constructor]. }
    destruct Y as [-> Y]. assert (S1 := P_throw R perform s wi t Hk Hp).
    eexists. split; [right; exact S1|]. split; [|assert (D := psi_step _ _ _ _ PI S1); unfold Phi; cbn [f_todo f_done f_workers f_calls] in *; assert (E := sumf_upd phi_w _ _ _ FTop Hw); cbn [phi_w] in E; lia].
    eapply (frel_worker f s _ _ wi _ _ F Hw); cbn [f_calls f_workers f_todo f_done f_writes f_exec p_calls p_workers p_todo p_done p_writes p_exec]; try reflexivity; eauto; try (apply F; fail).
    + f_equal. apply F.
    + apply upd_length.
    + intros j N. apply nth_upd_other. congruence.
    + intros t1' t2' K' H1' H2' Hk'. rewrite (nth_upd_same _ _ _ _ Hk) in Hk'. injection Hk' as <-. assert (t1' = t1) by congruence. assert (t2' = t2) by congruence. subst. exact Y.
  - (* report *)
    destruct (the_worker _ _ _ _ F Hw) as (t1 & t2 & K & H1 & H2 & Hk & X). unfold outside, wth in Ho. rewrite Ho in H2. injection H2 as <-.
    change (view (MkThread task [] (PReady task) d)) with (idle_view d) in X.
    exists s. split; [left; reflexivity|]. split.
    + eapply (frel_worker f s _ s wi _ _ F Hw); cbn [f_calls f_workers f_todo f_done f_writes f_exec]; try reflexivity; eauto; try (apply F; fail).
      * eapply qinv_enter; eassumption.
      * apply enter_len.
      * intros j N. apply enter_other. exact N.
      * intros t1' t2' K' H1' H2' Hk'. unfold wth in H2'. rewrite (enter_same _ _ _ _ Ho) in H2'. injection H2' as <-. assert (t1' = t1) by congruence. assert (K' = K) by congruence. subst.
        change (view (MkThread task [OpPush task t] (PReady task) d)) with ([OpPush task t], d, @nil (qres task)). revert X. generalize (view t1). intros v2 X. inversion X; subst. constructor.
    + unfold Phi, wth. cbn [f_calls f_workers f_todo f_done]. rewrite (cost_enter _ _ _ _ Ho). assert (E := sumf_upd phi_w _ _ _ (FPush t) Hw). cbn [phi_w op_cost] in *. lia.
  - (* reported *)
    destruct (the_worker _ _ _ _ F Hw) as (t1 & t2 & K & H1 & H2 & Hk & X). unfold outside, wth in Ho. rewrite Ho in H2. injection H2 as <-.
    change (view (MkThread task [] (PReady task) d)) with (idle_view d) in X.
    assert (Y : wrel FTop (view t1) (idle_view d) K).
    { revert X. generalize (view t1). intros v1 X. inversion X; subst. constructor. }
    exists s. split; [left; reflexivity|]. split.
    + eapply (frel_worker f s _ s wi _ _ F Hw); cbn [f_calls f_workers f_todo f_done f_writes f_exec]; try reflexivity; eauto; try (apply F; fail).
      intros t1' t2' K' H1' H2' Hk'. rewrite Ho in H2'. injection H2' as <-. assert (t1' = t1) by congruence. assert (K' = K) by congruence. subst. exact Y.
    + unfold Phi. cbn [f_calls f_workers f_todo f_done]. assert (E := sumf_upd phi_w _ _ _ FTop Hw). cbn [phi_w] in *. lia.
Qed.

Lemma Phi_init w ns : Phi (finit R w ns) (pinit R w ns) = 155 * sumf (fun x => x) ns + 6 * w + 9 * length ns.
Proof.
  unfold Phi, psi, pcost. cbn [finit pinit f_todo f_done f_workers f_calls p_calls p_todo p_workers p_done length].
  assert (A : sumf k_n (map (fun n => MkCall n 0 0) ns) = sumf (fun x => x) ns) by (clear; induction ns; cbn in *; lia).
  assert (B : sumf k_sent (map (fun n => MkCall n 0 0) ns) = 0) by (clear; induction ns; cbn in *; lia).
  assert (C : sumf k_taken (map (fun n => MkCall n 0 0) ns) = 0) by (clear; induction ns; cbn in *; lia).
  assert (D : sumf phi_w (repeat FTop w) = 6 * w) by (clear; induction w; cbn [repeat sumf phi_w]; lia).
  assert (E : sumf phi_c (map (fun n => MkFC n 0 0 CTop) ns) = 9 * length ns + 20 * sumf (fun x => x) ns) by (clear; induction ns as [|a l IH]; cbn [map sumf length]; [lia|rewrite phi_top; lia]).
  assert (G : forall k, cost task (qinit task (repeat [] k)) = 0) by (clear; intro k; unfold cost; cbn; induction k; cbn in *; lia).
  rewrite A, B, C, D, E, !G, !sumf_repeat by reflexivity. lia.
Qed.
Lemma reach w ns n m f : frun R perform n m (finit R w ns) f ->
  exists k s, prun R perform k (pinit R w ns) s /\ frel f s /\ n + Phi f s <= 155 * sumf (fun x => x) ns + 6 * w + 9 * length ns + 3 * m.
Proof.
  intro H. remember (finit R w ns) as f0 eqn:E0. induction H as [f|n m f1 f2 f3 H IH Hs|n m f1 f2 f3 H IH Hs].
  - subst f. exists 0, (pinit R w ns). split; [constructor|]. split; [apply frel_init|]. rewrite Phi_init. lia.
  - destruct (IH E0) as (k & s & Hr & F & B). destruct (sim w ns _ _ _ _ (pinv_run _ _ _ _ _ _ _ (pinv_init _ _ _ w ns) Hr) F Hs) as (s' & [->|St] & F' & P).
    + exists k, s. split; [exact Hr|]. split; [exact F'|]. lia.
    + exists (S k), s'. split; [econstructor; eassumption|]. split; [exact F'|]. lia.
  - destruct (IH E0) as (k & s & Hr & F & B). destruct (sim w ns _ _ _ _ (pinv_run _ _ _ _ _ _ _ (pinv_init _ _ _ w ns) Hr) F Hs) as (s' & [->|St] & F' & P).
    + exists k, s. split; [exact Hr|]. split; [exact F'|]. lia.
    + exists (S k), s'. split; [econstructor; eassumption|]. split; [exact F'|]. lia.
Qed.

(** ** Theorems *)

(** Whatever the schedule of locks, wake-ups (spurious ones included) and tasks: the stored results, the order in which tasks are
    executed, and the fact that a call has returned are those of some schedule of the pool on atomic queues. So all of C33, C34, C35 that holds in
    every reachable state holds here. *)
Lemma returned_rel f s w ns : pinv w ns s -> frel f s -> forall c x, nth_error (f_calls f) c = Some x -> freturned x -> exists k, nth_error (p_calls s) c = Some k /\ returned k.
Proof.
  intros PI F c x Hx [R1 R2]. destruct (the_call _ _ _ _ _ _ PI F Hx) as (t1 & t2 & K & H1 & H2 & Hk & X & B1 & B2). exists K. split; [exact Hk|].
  revert X. generalize (view t1) (view t2). intros v1 v2 X. inversion X; subst; cbn in *; subst; split; cbn; lia.
Qed.
Theorem C66_refines : forall w ns n m f, frun R perform n m (finit R w ns) f ->
  exists k s, prun R perform k (pinit R w ns) s /\ f_writes f = p_writes s /\ f_exec f = p_exec s /\
    length (f_calls f) = length (p_calls s) /\ forall c x, nth_error (f_calls f) c = Some x -> freturned x -> exists y, nth_error (p_calls s) c = Some y /\ returned y.
Proof.
  intros w ns n m f H. destruct (reach _ _ _ _ _ H) as (k & s & Hr & F & _). exists k, s. split; [exact Hr|]. split; [apply F|]. split; [apply F|]. split; [symmetry; apply F|].
  eapply returned_rel; [exact (pinv_run _ _ _ _ _ _ _ (pinv_init _ _ _ w ns) Hr)|exact F].
Qed.

(** A single DoTasks call that has returned: results[i] is what task i returned, every task was executed exactly once, both queues are empty and no
    worker has a task. *)
Theorem C66_results : forall w n a m f x, frun R perform a m (finit R w [n]) f -> f_calls f = [x] -> freturned x ->
  (forall i, i < n -> exists v, perform (0, i) = Some v /\ last_write R (0, i) (f_writes f) = Some v) /\
  Permutation (f_exec f) (map (fun i => (0, i)) (seq 0 n)) /\ q_items task (f_todo f) = [] /\ q_items task (f_done f) = [] /\
  forall y t, In y (f_workers f) -> y <> FHas t /\ y <> FDid t.
Proof.
  intros w n a m f x H Ex Hx. destruct (reach _ _ _ _ _ H) as (k & s & Hr & F & _).
  assert (PI := pinv_run _ _ _ _ _ _ _ (pinv_init _ _ (fun t => perform t = None) w [n]) Hr).
  destruct (returned_rel f s w [n] PI F 0 x) as (y & Hy & Ry); [rewrite Ex; reflexivity|exact Hx|].
  assert (Ek : p_calls s = [y]).
  { assert (L := fr_lc _ _ F). rewrite Ex in L. destruct (p_calls s) as [|z [|z' l]]; cbn in *; try discriminate. congruence. }
  destruct (C33_results _ _ _ _ _ _ _ Hr Ek Ry) as (A & B & (C1 & C2 & C3)).
  rewrite (fr_writes _ _ F), (fr_exec _ _ F), (fr_todo _ _ F), (fr_done _ _ F). repeat (split; [assumption|]).
  intros z t Hz. apply In_nth_error in Hz. destruct Hz as [wi Hz]. destruct (the_worker _ _ _ _ F Hz) as (t1 & t2 & K & H1 & H2 & Hk & X).
  assert (K = WIdle) by (apply C3; eapply nth_error_In; exact Hk). subst K. revert X. generalize (view t1) (view t2). intros v1 v2 X. inversion X; subst; split; discriminate.
Qed.

(** The calls of [held] have not begun and are held back; nothing else but a spurious wake-up can happen: the other calls have returned. *)
Definition funtouched (x : fcall) : Prop := fc_sent x = 0 /\ fc_taken x = 0 /\ fc_at x = CTop.
Lemma untouched_rel f s w ns : pinv w ns s -> frel f s -> forall c x y, nth_error (f_calls f) c = Some x -> nth_error (p_calls s) c = Some y -> funtouched x -> untouched y.
Proof.
  intros PI F c x y Hx Hy (U1 & U2 & U3). destruct (the_call _ _ _ _ _ _ PI F Hx) as (t1 & t2 & K & H1 & H2 & Hk & X & B1 & B2). assert (K = y) by congruence. subst K.
  revert X. generalize (view t1) (view t2). intros v1 v2 X. inversion X; subst; cbn in *; subst; try discriminate; split; reflexivity.
Qed.
Lemma fstuck_held (held : nat -> bool) w ns n m f : frun R perform n m (finit R w ns) f -> 1 <= w -> (forall t, is_task ns t -> held (fst t) = false -> perform t <> None) ->
  (forall c x, nth_error (f_calls f) c = Some x -> held c = true -> funtouched x) ->
  (forall f', fstep R perform false f f' -> (forall d, held d = true -> nth_error (f_calls f') d = nth_error (f_calls f) d) -> False) ->
  forall c x, nth_error (f_calls f) c = Some x -> held c = false -> freturned x.
Proof.
  intros H Hw Hp Unt Stuck. destruct (reach _ _ _ _ _ H) as (k & s & Hr & F & _).
  assert (PI := pinv_run _ _ _ _ _ _ _ (pinv_init _ _ (fun t => perform t = None) w ns) Hr).
  destruct (fr_qt _ _ F) as [pt Qt]. destruct (fr_qd _ _ F) as [pd Qd].
  assert (St : forall q', ~ qstep task false (f_todo f) q') by (intros q' Hq; eapply Stuck; [eapply F_todo; exact Hq|reflexivity]).
  assert (Sd : forall q', ~ qstep task false (f_done f) q') by (intros q' Hq; eapply Stuck; [eapply F_done; exact Hq|reflexivity]).
  assert (Tt := qinv_stuck _ _ _ Qt St). assert (Td := qinv_stuck _ _ _ Qd Sd).
  assert (Ot : forall i t, nth_error (q_threads task (f_todo f)) i = Some t -> t_prog task t = [] -> exists d, t = MkThread task [] (PReady task) d).
  { intros i t Hi. assert (L : i < length pt) by (rewrite <- (inv_len _ _ _ Qt); eapply nth_lt; exact Hi). destruct (nth_some pt i L) as [p Ep]. exact (idle_thread _ _ _ _ (inv_threads _ _ _ Qt _ _ _ Hi Ep)). }
  assert (Od : forall i t, nth_error (q_threads task (f_done f)) i = Some t -> t_prog task t = [] -> exists d, t = MkThread task [] (PReady task) d).
  { intros i t Hi. assert (L : i < length pd) by (rewrite <- (inv_len _ _ _ Qd); eapply nth_lt; exact Hi). destruct (nth_some pd i L) as [p Ep]. exact (idle_thread _ _ _ _ (inv_threads _ _ _ Qd _ _ _ Hi Ep)). }
  (* a thread inside an operation is blocked in WaitAndPop on an empty queue, with nothing decided *)
  assert (Bt : forall i t op p, nth_error (q_threads task (f_todo f)) i = Some t -> t_prog task t = op :: p -> op = OpWaitAndPop task /\ q_items task (f_todo f) = [] /\ pending task t = []).
  { intros i t op p Hi E. assert (Hin := nth_error_In _ _ Hi). destruct Tt as [T|[T1 T2]]; [rewrite (T _ Hin) in E; discriminate|].
    destruct (T2 _ Hin) as [T|[T3 [r T4]]]; [congruence|]. split; [congruence|]. split; [exact T1|]. unfold pending. rewrite T3. reflexivity. }
  assert (Bd : forall i t op p, nth_error (q_threads task (f_done f)) i = Some t -> t_prog task t = op :: p -> op = OpWaitAndPop task /\ q_items task (f_done f) = [] /\ pending task t = []).
  { intros i t op p Hi E. assert (Hin := nth_error_In _ _ Hi). destruct Td as [T|[T1 T2]]; [rewrite (T _ Hin) in E; discriminate|].
    destruct (T2 _ Hin) as [T|[T3 [r T4]]]; [congruence|]. split; [congruence|]. split; [exact T1|]. unfold pending. rewrite T3. reflexivity. }
  (* every worker waits for a task *)
  assert (Ww : forall wi x k0, nth_error (f_workers f) wi = Some x -> nth_error (p_workers s) wi = Some k0 -> k0 = WIdle /\ p_todo s = []).
  { intros wi x k0 Hx Hk0. destruct (the_worker _ _ _ _ F Hx) as (t1 & t2 & K & H1 & H2 & Hk & X). assert (K = k0) by congruence. subst K.
    remember (view t1) as v1 eqn:V1. remember (view t2) as v2 eqn:V2. destruct X; injection V1 as V1a V1b V1c; injection V2 as V2a V2b V2c; symmetry in V1a, V2a.
    - exfalso. destruct (Ot _ _ H1 V1a) as [d ->]. eapply Stuck; [eapply F_fetch; [exact Hx|exact H1]|reflexivity].
    - destruct (Bt _ _ _ _ H1 V1a) as (_ & B & _). split; [reflexivity|]. rewrite <- (fr_todo _ _ F). exact B.
    - exfalso. destruct (Bt _ _ _ _ H1 V1a) as (_ & _ & B). congruence.
    - exfalso. destruct (Ot _ _ H1 V1a) as [d ->]. cbn in V1b. subst d. eapply Stuck; [eapply F_fetched; [exact Hx|exact H1]|reflexivity].
    - exfalso. destruct (perform t) eqn:E; eapply Stuck; [eapply F_perform; eassumption|reflexivity|eapply F_throw; eassumption|reflexivity].
    - exfalso. destruct (Od _ _ H2 V2a) as [d ->]. eapply Stuck; [eapply F_report; [exact Hx|exact H2]|reflexivity].
    - exfalso. destruct (Bd _ _ _ _ H2 V2a) as (B & _). discriminate.
    - exfalso. destruct (Bd _ _ _ _ H2 V2a) as (B & _). discriminate.
    - exfalso. destruct (Od _ _ H2 V2a) as [d ->]. eapply Stuck; [eapply F_reported; [exact Hx|exact H2]|reflexivity]. }
  assert (Lw : length (f_workers f) = w) by (rewrite <- (fr_lw _ _ F); apply (iv_w _ _ _ _ _ _ PI)).
  assert (Et : p_todo s = []).
  { destruct (nth_some (f_workers f) 0) as [x Hx]; [lia|]. destruct (nth_some (p_workers s) 0) as [k0 Hk0]; [rewrite (fr_lw _ _ F); lia|]. apply (Ww _ _ _ Hx Hk0). }
  assert (Wi : forall wi k0, nth_error (p_workers s) wi = Some k0 -> k0 = WIdle).
  { intros wi k0 Hk0. destruct (nth_some (f_workers f) wi) as [x Hx]; [rewrite <- (fr_lw _ _ F); eapply nth_lt; exact Hk0|]. apply (Ww _ _ _ Hx Hk0). }
  (* every call has finished, or waits for a completion *)
  assert (Cc : forall c x y, held c = false -> nth_error (f_calls f) c = Some x -> nth_error (p_calls s) c = Some y -> fc_sent x = fc_n x /\ y = MkCall (fc_n x) (fc_sent x) (fc_taken x) /\ (fc_taken x < fc_n x -> q_items task (f_done f) = [])).
  { intros c x y Hh Hx Hy. destruct (the_call _ _ _ _ _ _ PI F Hx) as (t1 & t2 & K & H1 & H2 & Hk & X & B1 & B2). assert (K = y) by congruence. subst K.
    remember (view t1) as v1 eqn:V1. remember (view t2) as v2 eqn:V2. destruct X; injection V1 as V1a V1b V1c; injection V2 as V2a V2b V2c; symmetry in V1a, V2a; cbn [k_sent k_n k_taken] in B1, B2; cbn [fc_sent fc_n fc_taken].
    - assert (Si : i = n0).
      { destruct (Nat.eq_dec i n0) as [E|E]; [exact E|exfalso]. destruct (Ot _ _ H1 V1a) as [d ->]. eapply Stuck; [eapply F_submit; [exact Hx|lia|exact H1]|intros dd Hdd; apply nth_upd_other; congruence]. }
      split; [exact Si|]. split; [reflexivity|]. intro L. exfalso. subst i. destruct (Od _ _ H2 V2a) as [d ->]. eapply Stuck; [eapply F_collect; [exact Hx|exact L|exact H2]|intros dd Hdd; apply nth_upd_other; congruence].
    - exfalso. destruct (Bt _ _ _ _ H1 V1a) as (B & _). discriminate.
    - exfalso. destruct (Bt _ _ _ _ H1 V1a) as (B & _). discriminate.
    - exfalso. destruct (Ot _ _ H1 V1a) as [d ->]. eapply Stuck; [eapply F_submitted; [exact Hx|exact H1]|intros dd Hdd; apply nth_upd_other; congruence].
    - destruct (Bd _ _ _ _ H2 V2a) as (_ & B & _). auto.
    - exfalso. destruct (Bd _ _ _ _ H2 V2a) as (_ & _ & B). congruence.
    - exfalso. destruct (Od _ _ H2 V2a) as [d ->]. eapply Stuck; [eapply F_collected; [exact Hx|exact H2]|intros dd Hdd; apply nth_upd_other; congruence]. }
  assert (Unt' : forall c y, nth_error (p_calls s) c = Some y -> held c = true -> untouched y).
  { intros c y Hy Hh. destruct (nth_some (f_calls f) c) as [x Hx]; [rewrite <- (fr_lc _ _ F); eapply nth_lt; exact Hy|]. exact (untouched_rel f s w ns PI F c x y Hx Hy (Unt _ _ Hx Hh)). }
  (* so nothing can happen in the pool on atomic queues, the calls held back apart *)
  assert (As : forall s', pstep R perform s s' -> (forall d, held d = true -> nth_error (p_calls s') d = nth_error (p_calls s) d) -> False).
  { intros s' S1 Same. clear Hr Unt'. destruct S1 as [s c y Hc L|s wi t r Hwi Ht|s wi t v Hwi Hpf|s wi t Hwi Hpf|s wi t Hwi|s c y t r Hc Hs Ht Hd].
    - destruct (held c) eqn:Eh.
      { specialize (Same c Eh). cbn [p_calls] in Same. rewrite (nth_upd_same _ _ _ _ Hc), Hc in Same. injection Same as Same. destruct y as [y1 y2 y3]. cbn in Same. injection Same as Same. lia. }
      destruct (nth_some (f_calls f) c) as [x Hx]; [rewrite <- (fr_lc _ _ F); eapply nth_lt; exact Hc|]. destruct (Cc _ _ _ Eh Hx Hc) as (E & -> & _). cbn in L. lia.
    - congruence.
    - specialize (Wi _ _ Hwi). discriminate.
    - specialize (Wi _ _ Hwi). discriminate.
    - specialize (Wi _ _ Hwi). discriminate.
    - destruct (held c) eqn:Eh.
      { specialize (Same c Eh). cbn [p_calls] in Same. rewrite (nth_upd_same _ _ _ _ Hc), Hc in Same. injection Same as Same. destruct y as [y1 y2 y3]. cbn in Same. injection Same as Same. lia. }
      destruct (nth_some (f_calls f) c) as [x Hx]; [rewrite <- (fr_lc _ _ F); eapply nth_lt; exact Hc|]. destruct (Cc _ _ _ Eh Hx Hc) as (E & -> & B). cbn in Ht. specialize (B Ht). rewrite (fr_done _ _ F) in B. congruence. }
  assert (Ret := stuck_held _ _ held _ _ _ _ Hr Hw Hp Unt' As).
  intros c x Hx Hh. destruct (nth_some (p_calls s) c) as [y Hy]; [rewrite (fr_lc _ _ F); eapply nth_lt; exact Hx|].
  destruct (Cc _ _ _ Hh Hx Hy) as (E1 & -> & _). specialize (Ret _ _ Hy Hh). destruct Ret as [R1 R2]. cbn in R1, R2. split; assumption.
Qed.
(** No deadlock and no lost wake-up: with at least one worker and no throwing task, whenever nothing but a spurious wake-up can happen, every
    call has returned. *)
Theorem C66_no_deadlock : forall w ns n m f, frun R perform n m (finit R w ns) f -> 1 <= w -> (forall t, is_task ns t -> perform t <> None) ->
  (forall f', ~ fstep R perform false f f') -> forall x, In x (f_calls f) -> freturned x.
Proof.
  intros w ns n m f H Hw Hp Stuck x Hx. apply In_nth_error in Hx. destruct Hx as [c Hx].
  apply (fstuck_held (fun _ => false) w ns n m f H Hw) with (c := c); auto; [intros; discriminate|]. intros f' Hf _. exact (Stuck _ Hf).
Qed.

(** Every run is finite, up to spurious wake-ups: at most three more steps for each of those. *)
Theorem C66_runs_finite : forall w ns n m f, frun R perform n m (finit R w ns) f -> n <= 155 * sumf (fun x => x) ns + 6 * w + 9 * length ns + 3 * m.
Proof. intros w ns n m f H. destruct (reach _ _ _ _ _ H) as (k & s & _ & _ & B). lia. Qed.

(** C34 on the real queues: a call one of whose tasks throws never returns. *)
Theorem C66_throwing_hangs : forall w n a m f i, frun R perform a m (finit R w [n]) f -> i < n -> perform (0, i) = None -> forall x, In x (f_calls f) -> ~ freturned x.
Proof.
  intros w n a m f i H Li Hi x Hx Rx. destruct (C66_refines _ _ _ _ _ H) as (k & s & Hr & _ & _ & _ & C). apply In_nth_error in Hx. destruct Hx as [c Hx].
  destruct (C _ _ Hx Rx) as (y & Hy & Ry). exact (C34_never_returns _ _ _ _ _ _ _ Hr Li Hi y (nth_error_In _ _ Hy) Ry).
Qed.

(** ** The other direction: nothing is lost by looking at atomic queues only *)
Lemma upd_upd {A} (l : list A) i x y : upd (upd l i x) i y = upd l i y.
Proof. revert i; induction l as [|a l IH]; intros [|i]; cbn; [reflexivity..|]. f_equal. apply IH. Qed.
Definition quiet_queue (q : qstate task) : Prop := q_owner task q = None /\ forall t, In t (q_threads task q) -> exists d, t = MkThread task [] (PReady task) d.
Lemma quiet_out q i : quiet_queue q -> i < length (q_threads task q) -> exists d, outside q i d.
Proof. intros [_ H] L. destruct (nth_some _ _ L) as [t Ht]. destruct (H _ (nth_error_In _ _ Ht)) as [d ->]. exists d. exact Ht. Qed.
Lemma quiet_upd q i d items log : quiet_queue q -> quiet_queue (MkQ task items None (upd (q_threads task q) i (MkThread task [] (PReady task) d)) log).
Proof. intros [_ H]. split; [reflexivity|]. intros t Ht. cbn in Ht. apply in_upd in Ht. destruct Ht as [->|Ht]; [eauto|apply H; exact Ht]. Qed.

Inductive qsteps : nat -> qstate task -> qstate task -> Prop :=
| qs_nil : forall q, qsteps 0 q q
| qs_cons : forall n q1 q2 q3, qstep task false q1 q2 -> qsteps n q2 q3 -> qsteps (S n) q1 q3.
Lemma push_alone q i v d : quiet_queue q -> outside q i d ->
  qsteps 4 (enter q i (OpPush task v) d)
    (MkQ task (q_items task q ++ [v]) None (upd (q_threads task q) i (MkThread task [] (PReady task) (d ++ [ResPush task v]))) (q_log task q ++ [(i, Enq task v)])).
Proof.
  intros [Ho Hq] H. unfold enter. rewrite Ho.
  eapply qs_cons; [apply (S_lock_push task _ i v [] d); [cbn; eapply nth_upd_same; exact H|reflexivity]|]. unfold set_thread. cbn [q_items q_owner q_threads q_log]. rewrite upd_upd.
  eapply qs_cons; [apply (S_push task _ i v [OpPush task v] d); cbn; eapply nth_upd_same; exact H|]. unfold set_thread. cbn [q_items q_owner q_threads q_log]. rewrite upd_upd.
  eapply qs_cons; [apply (S_unlock task _ i v [OpPush task v] d); cbn; eapply nth_upd_same; exact H|]. unfold set_thread. cbn [q_items q_owner q_threads q_log]. rewrite upd_upd.
  eapply qs_cons; [apply (S_notify_none task _ i v [OpPush task v] d); [cbn; eapply nth_upd_same; exact H|]|].
  - cbn. intros j t Hj E. apply nth_error_In, in_upd in Hj. destruct Hj as [->|Hj]; [discriminate|]. destruct (Hq _ Hj) as [d' ->]. discriminate.
  - unfold set_thread. cbn [q_items q_owner q_threads q_log tl]. rewrite upd_upd. apply qs_nil.
Qed.
Lemma pop_alone q i v r d : quiet_queue q -> outside q i d -> q_items task q = v :: r ->
  qsteps 3 (enter q i (OpWaitAndPop task) d)
    (MkQ task r None (upd (q_threads task q) i (MkThread task [] (PReady task) (d ++ [ResPopped task v]))) (q_log task q ++ [(i, Deq task v)])).
Proof.
  intros [Ho Hq] H E. unfold enter. rewrite Ho.
  eapply qs_cons; [apply (S_lock_pop task _ i [] d); [cbn; eapply nth_upd_same; exact H|reflexivity]|]. unfold set_thread. cbn [q_items q_owner q_threads q_log]. rewrite upd_upd.
  eapply qs_cons; [apply (S_pop task _ i v r [OpWaitAndPop task] d); [cbn; eapply nth_upd_same; exact H|exact E]|]. unfold set_thread. cbn [q_items q_owner q_threads q_log]. rewrite upd_upd.
  eapply qs_cons; [apply (S_pop_return task _ i v [OpWaitAndPop task] d); cbn; eapply nth_upd_same; exact H|]. unfold set_thread. cbn [q_items q_owner q_threads q_log tl]. rewrite upd_upd. apply qs_nil.
Qed.
Lemma frun_todo n a m f0 cs ws q q' dn wr ex : qsteps n q q' -> frun R perform a m f0 (MkF cs ws q dn wr ex) -> frun R perform (n + a) m f0 (MkF cs ws q' dn wr ex).
Proof.
  intro H. revert a. induction H as [q|n q1 q2 q3 Hs H IH]; intros a Hr; [exact Hr|].
  replace (S n + a) with (n + S a) by lia. apply IH. eapply frun_step; [exact Hr|]. exact (F_todo R perform false (MkF cs ws q1 dn wr ex) q2 Hs).
Qed.
Lemma frun_done n a m f0 cs ws q q' td wr ex : qsteps n q q' -> frun R perform a m f0 (MkF cs ws td q wr ex) -> frun R perform (n + a) m f0 (MkF cs ws td q' wr ex).
Proof.
  intro H. revert a. induction H as [q|n q1 q2 q3 Hs H IH]; intros a Hr; [exact Hr|].
  replace (S n + a) with (n + S a) by lia. apply IH. eapply frun_step; [exact Hr|]. exact (F_done R perform false (MkF cs ws td q1 wr ex) q2 Hs).
Qed.
(** A state in which no thread is inside a queue operation. *)
Definition fw (k : worker) : fworker := match k with WIdle => FTop | WHas t => FHas t | WDid t => FDid t end.
Definition fk (k : call) : fcall := MkFC (k_n k) (k_sent k) (k_taken k) CTop.
Record quiet (f : fstate) (s : pstate) : Prop := {
  qu_calls : f_calls f = map fk (p_calls s); qu_workers : f_workers f = map fw (p_workers s);
  qu_todo : q_items task (f_todo f) = p_todo s; qu_done : q_items task (f_done f) = p_done s; qu_writes : f_writes f = p_writes s; qu_exec : f_exec f = p_exec s;
  qu_qt : quiet_queue (f_todo f); qu_qd : quiet_queue (f_done f);
  qu_lt : length (q_threads task (f_todo f)) = length (f_calls f) + length (f_workers f); qu_ld : length (q_threads task (f_done f)) = length (f_calls f) + length (f_workers f) }.
Lemma map_upd_f {A B} (g : A -> B) l i x : map g (upd l i x) = upd (map g l) i (g x).
Proof. revert i; induction l as [|a l IH]; intros [|i]; cbn; [reflexivity..|]. f_equal. apply IH. Qed.
Lemma nth_map {A B} (g : A -> B) l i x : nth_error l i = Some x -> nth_error (map g l) i = Some (g x).
Proof. intro H. rewrite nth_error_map, H. reflexivity. Qed.

Lemma real_step a m f0 f s s' : frun R perform a m f0 f -> quiet f s -> pstep R perform s s' -> exists a' f', frun R perform a' m f0 f' /\ quiet f' s'.
Proof.
  intros Hr Q H. destruct f as [cs ws td dn wr ex]. destruct Q as [Q1 Q2 Q3 Q4 Q5 Q6 Q7 Q8 Q9 Q10]. cbn [f_calls f_workers f_todo f_done f_writes f_exec] in *. subst cs ws wr ex.
  destruct H as [s c k Hc L|s wi t r Hw Ht|s wi t v Hw Hp|s wi t Hw Hp|s wi t Hw|s c k t r Hc Hs Ht Hd].
  - (* submit *)
    assert (Hf := nth_map fk _ _ _ Hc). unfold fk at 2 in Hf. assert (Lc := nth_lt _ _ _ Hf).
    destruct (quiet_out td c Q7) as [d Ho]; [lia|]. assert (P := push_alone td c (c, k_sent k) d Q7 Ho).
    assert (Ho' := nth_upd_same _ _ _ (MkThread task [] (PReady task) (d ++ [ResPush task (c, k_sent k)])) Ho).
    eassert (R1 := frun_step R perform _ _ _ _ _ Hr ltac:(eapply (F_submit R perform); [exact Hf|exact L|exact Ho])). cbn [f_calls f_workers f_todo f_done f_writes f_exec] in R1.
    assert (R2 := frun_todo _ _ _ _ _ _ _ _ _ _ _ P R1).
    assert (Hf2 := nth_upd_same _ _ _ (MkFC (k_n k) (k_sent k) (k_taken k) CPush) Hf).
    eassert (R3 := frun_step R perform _ _ _ _ _ R2 ltac:(eapply (F_submitted R perform); [exact Hf2|exact Ho'])). cbn [f_calls f_workers f_todo f_done f_writes f_exec] in R3. rewrite upd_upd in R3.
    eexists. eexists. split; [exact R3|]. constructor; cbn [f_calls f_workers f_todo f_done f_writes f_exec p_calls p_workers p_todo p_done p_writes p_exec q_items q_threads]; try reflexivity; try assumption.
    + rewrite map_upd_f. reflexivity.
    + rewrite Q3. reflexivity.
    + apply quiet_upd. exact Q7.
    + rewrite !upd_length. exact Q9.
    + rewrite !upd_length. exact Q10.
  - (* get *)
    assert (Hf := nth_map fw _ _ _ Hw). cbn [fw] in Hf. assert (Lc := nth_lt _ _ _ Hf).
    destruct (quiet_out td (length (map fk (p_calls s)) + wi) Q7) as [d Ho]; [lia|].
    assert (P := pop_alone td _ t r d Q7 Ho (eq_trans Q3 Ht)).
    assert (Ho' := nth_upd_same _ _ _ (MkThread task [] (PReady task) (d ++ [ResPopped task t])) Ho).
    eassert (R1 := frun_step R perform _ _ _ _ _ Hr ltac:(eapply (F_fetch R perform); [exact Hf|exact Ho])). unfold wth in R1. cbn [f_calls f_workers f_todo f_done f_writes f_exec] in R1.
    assert (R2 := frun_todo _ _ _ _ _ _ _ _ _ _ _ P R1).
    assert (Hf2 := nth_upd_same _ _ _ FPop Hf).
    eassert (R3 := frun_step R perform _ _ _ _ _ R2 ltac:(eapply (F_fetched R perform); [exact Hf2|exact Ho'])). cbn [f_calls f_workers f_todo f_done f_writes f_exec] in R3. rewrite upd_upd in R3.
    eexists. eexists. split; [exact R3|]. constructor; cbn [f_calls f_workers f_todo f_done f_writes f_exec p_calls p_workers p_todo p_done p_writes p_exec q_items q_threads]; try reflexivity; try assumption.
    + rewrite map_upd_f. reflexivity.
    + apply quiet_upd. exact Q7.
    + rewrite !upd_length. exact Q9.
    + rewrite !upd_length. exact Q10.
  - (* perform *)
    assert (Hf := nth_map fw _ _ _ Hw). cbn [fw] in Hf.
    eassert (R1 := frun_step R perform _ _ _ _ _ Hr ltac:(eapply (F_perform R perform); [exact Hf|exact Hp])). cbn [f_calls f_workers f_todo f_done f_writes f_exec] in R1.
    eexists. eexists. split; [exact R1|]. constructor; cbn [f_calls f_workers f_todo f_done f_writes f_exec p_calls p_workers p_todo p_done p_writes p_exec q_items q_threads]; try reflexivity; try assumption.
    + rewrite map_upd_f. reflexivity.
    + rewrite !upd_length. exact Q9.
    + rewrite !upd_length. exact Q10.
  - (* throw *)
    assert (Hf := nth_map fw _ _ _ Hw). cbn [fw] in Hf.
    eassert (R1 := frun_step R perform _ _ _ _ _ Hr ltac:(eapply (F_throw R perform); [exact Hf|exact Hp])). cbn [f_calls f_workers f_todo f_done f_writes f_exec] in R1.
    eexists. eexists. split; [exact R1|]. constructor; cbn [f_calls f_workers f_todo f_done f_writes f_exec p_calls p_workers p_todo p_done p_writes p_exec q_items q_threads]; try reflexivity; try assumption.
    + rewrite map_upd_f. reflexivity.
    + rewrite !upd_length. exact Q9.
    + rewrite !upd_length. exact Q10.
  - (* report *)
    assert (Hf := nth_map fw _ _ _ Hw). cbn [fw] in Hf. assert (Lc := nth_lt _ _ _ Hf).
    destruct (quiet_out dn (length (map fk (p_calls s)) + wi) Q8) as [d Ho]; [lia|].
    assert (P := push_alone dn _ t d Q8 Ho).
    assert (Ho' := nth_upd_same _ _ _ (MkThread task [] (PReady task) (d ++ [ResPush task t])) Ho).
    eassert (R1 := frun_step R perform _ _ _ _ _ Hr ltac:(eapply (F_report R perform); [exact Hf|exact Ho])). unfold wth in R1. cbn [f_calls f_workers f_todo f_done f_writes f_exec] in R1.
    assert (R2 := frun_done _ _ _ _ _ _ _ _ _ _ _ P R1).
    assert (Hf2 := nth_upd_same _ _ _ (FPush t) Hf).
    eassert (R3 := frun_step R perform _ _ _ _ _ R2 ltac:(eapply (F_reported R perform); [exact Hf2|exact Ho'])). cbn [f_calls f_workers f_todo f_done f_writes f_exec] in R3. rewrite upd_upd in R3.
    eexists. eexists. split; [exact R3|]. constructor; cbn [f_calls f_workers f_todo f_done f_writes f_exec p_calls p_workers p_todo p_done p_writes p_exec q_items q_threads]; try reflexivity; try assumption.
    + rewrite map_upd_f. reflexivity.
    + rewrite Q4. reflexivity.
    + apply quiet_upd. exact Q8.
    + rewrite !upd_length. exact Q9.
    + rewrite !upd_length. exact Q10.
  - (* token *)
    assert (Hf := nth_map fk _ _ _ Hc). unfold fk at 2 in Hf. rewrite Hs in Hf. assert (Lc := nth_lt _ _ _ Hf).
    destruct (quiet_out dn c Q8) as [d Ho]; [lia|]. assert (P := pop_alone dn c t r d Q8 Ho (eq_trans Q4 Hd)).
    assert (Ho' := nth_upd_same _ _ _ (MkThread task [] (PReady task) (d ++ [ResPopped task t])) Ho).
    eassert (R1 := frun_step R perform _ _ _ _ _ Hr ltac:(eapply (F_collect R perform); [exact Hf|exact Ht|exact Ho])). cbn [f_calls f_workers f_todo f_done f_writes f_exec] in R1.
    assert (R2 := frun_done _ _ _ _ _ _ _ _ _ _ _ P R1).
    assert (Hf2 := nth_upd_same _ _ _ (MkFC (k_n k) (k_n k) (k_taken k) CPop) Hf).
    eassert (R3 := frun_step R perform _ _ _ _ _ R2 ltac:(eapply (F_collected R perform); [exact Hf2|exact Ho'])). cbn [f_calls f_workers f_todo f_done f_writes f_exec] in R3. rewrite upd_upd in R3.
    eexists. eexists. split; [exact R3|]. constructor; cbn [f_calls f_workers f_todo f_done f_writes f_exec p_calls p_workers p_todo p_done p_writes p_exec q_items q_threads]; try reflexivity; try assumption.
    + rewrite map_upd_f. unfold fk at 3. cbn [k_n k_sent k_taken]. rewrite Hs. reflexivity.
    + apply quiet_upd. exact Q8.
    + rewrite !upd_length. exact Q9.
    + rewrite !upd_length. exact Q10.
Qed.
Lemma quiet_init w ns : quiet (finit R w ns) (pinit R w ns).
Proof.
  constructor; cbn [finit pinit f_calls f_workers f_todo f_done f_writes f_exec p_calls p_workers p_todo p_done p_writes p_exec]; try reflexivity.
  - rewrite map_map. reflexivity.
  - clear. induction w; cbn; [reflexivity|f_equal; assumption].
  - split; [reflexivity|]. intros t Ht. cbn in Ht. apply in_map_iff in Ht. destruct Ht as (p & <- & Hp). apply repeat_spec in Hp. subst p. eauto.
  - split; [reflexivity|]. intros t Ht. cbn in Ht. apply in_map_iff in Ht. destruct Ht as (p & <- & Hp). apply repeat_spec in Hp. subst p. eauto.
  - cbn. rewrite !map_length, !repeat_length. reflexivity.
  - cbn. rewrite !map_length, !repeat_length. reflexivity.
Qed.
Lemma real_run a f0 f k s s' : frun R perform a 0 f0 f -> quiet f s -> prun R perform k s s' -> exists a' f', frun R perform a' 0 f0 f' /\ quiet f' s'.
Proof.
  intros Hr Q H. induction H as [s|k s1 s2 s3 H IH Hs]; [eauto|]. destruct (IH Q) as (a' & f' & Hr' & Q'). eapply real_step; eassumption.
Qed.

(** Every schedule of the pool on atomic queues is a schedule of the pool on the real ones. *)
Theorem C66_realises : forall w ns k s, prun R perform k (pinit R w ns) s ->
  exists n f, frun R perform n 0 (finit R w ns) f /\ f_writes f = p_writes s /\ f_exec f = p_exec s /\
    map (fun x => (fc_n x, fc_sent x, fc_taken x)) (f_calls f) = map (fun y => (k_n y, k_sent y, k_taken y)) (p_calls s).
Proof.
  intros w ns k s H. destruct (real_run 0 (finit R w ns) (finit R w ns) k (pinit R w ns) s) as (a & f & Hr & Q); [constructor|apply quiet_init|exact H|].
  exists a, f. split; [exact Hr|]. split; [apply Q|]. split; [apply Q|]. rewrite (qu_calls _ _ Q), map_map. reflexivity.
Qed.
(** C35 on the real queues: of two concurrent calls one may return before its result is there. *)
Theorem C66_early_return : forall w v0 v1, 1 <= w -> perform (0, 0) = Some v0 -> perform (1, 0) = Some v1 ->
  exists n f x, frun R perform n 0 (finit R w [1; 1]) f /\ nth_error (f_calls f) 1 = Some x /\ freturned x /\ last_write R (1, 0) (f_writes f) = None.
Proof.
  intros w v0 v1 Hw H0 H1. destruct (C35_early_return R perform w v0 v1 Hw H0 H1) as (k & s & y & m & s' & Hr & Hy & [Ry1 Ry2] & Hn & _).
  destruct (C66_realises _ _ _ _ Hr) as (n & f & Hf & E1 & E2 & E3).
  assert (X := f_equal (fun l => nth_error l 1) E3). cbv beta in X. rewrite !nth_error_map, Hy in X. destruct (nth_error (f_calls f) 1) as [x|] eqn:Ex; [|discriminate].
  cbn in X. injection X as X1 X2 X3. exists n, f, x. split; [exact Hf|]. split; [exact Ex|]. split; [split; congruence|]. rewrite E1. exact Hn.
Qed.
End C66.
Print Assumptions C66_refines.
Print Assumptions C66_results.
Print Assumptions C66_no_deadlock.
Print Assumptions C66_runs_finite.
Print Assumptions C66_throwing_hangs.
Print Assumptions C66_realises.
Print Assumptions C66_early_return.

(** Two tasks on two workers, finishing out of order, returned with their results. *)
Theorem C66_witness : exists n f, frun nat (fun t => Some (10 + snd t)) n 0 (finit nat 2 [2]) f /\ map (fun x => (fc_sent x, fc_taken x)) (f_calls nat f) = [(2, 2)] /\ f_exec nat f = [(0, 1); (0, 0)] /\
  map (fun i => last_write nat (0, i) (f_writes nat f)) [0; 1] = [Some 10; Some 11].
Proof.
  destruct C33_witness as (m & s & k & Hr & Ek & [R1 R2] & Ee & Ew). destruct (C66_realises _ _ _ _ _ _ Hr) as (n & f & Hf & E1 & E2 & E3).
  assert (I := pinv_run _ _ _ _ _ _ _ (pinv_init _ _ _ 2 [2]) Hr). assert (En := iv_ns _ _ _ _ _ _ I). rewrite Ek in E3, En. cbn in En. injection En as En.
  exists n, f. split; [exact Hf|]. split.
  - destruct (f_calls nat f) as [|x [|x' l]]; cbn in *; try discriminate. injection E3 as X1 X2 X3. congruence.
  - split; [congruence|]. rewrite E1. exact Ew.
Qed.
(** A worker that blocks first, is woken for nothing, blocks again and is woken by the Push. *)
Lemma frun_next {R} (perform : task -> option R) sp n m s1 s2 s3 s3' : frun R perform n m s1 s2 -> fstep R perform sp s2 s3 -> s3 = s3' -> frun R perform (if sp then n else S n) (if sp then S m else m) s1 s3'.
Proof. intros H1 H2 <-. destruct sp; [eapply frun_spurious|eapply frun_step]; eassumption. Qed.
Theorem C66_witness_blocked : exists n f, frun nat (fun t => Some 7) n 1 (finit nat 1 [1]) f /\ f_workers nat f = [FHas (0, 0)] /\ f_calls nat f = [MkFC 1 0 0 CPush].
Proof.
  assert (H := frun_nil nat (fun t => Some 7) (finit nat 1 [1])). set (f0 := finit nat 1 [1]) in H at 1. unfold finit in H. cbn in H.
  eapply (frun_next _ false) in H; [|eapply (F_fetch _ _ _ 0); reflexivity|cbn; reflexivity]. cbn in H.
  eapply (frun_next _ false) in H; [|eapply F_todo; eapply (S_lock_pop task _ 1); reflexivity|cbn; reflexivity]. cbn in H.
  eapply (frun_next _ false) in H; [|eapply F_todo; eapply (S_wait task _ 1); reflexivity|cbn; reflexivity]. cbn in H.
  eapply (frun_next _ false) in H; [|eapply (F_submit _ _ _ 0); [reflexivity|cbn; lia|reflexivity]|cbn; reflexivity]. cbn in H.
  eapply (frun_next _ true) in H; [|eapply F_todo; eapply (S_spurious task _ 1); reflexivity|cbn; reflexivity]. cbn in H.
  eapply (frun_next _ false) in H; [|eapply F_todo; eapply (S_relock task _ 1); reflexivity|cbn; reflexivity]. cbn in H.
  eapply (frun_next _ false) in H; [|eapply F_todo; eapply (S_wait task _ 1); reflexivity|cbn; reflexivity]. cbn in H.
  eapply (frun_next _ false) in H; [|eapply F_todo; eapply (S_lock_push task _ 0); reflexivity|cbn; reflexivity]. cbn in H.
  eapply (frun_next _ false) in H; [|eapply F_todo; eapply (S_push task _ 0); reflexivity|cbn; reflexivity]. cbn in H.
  eapply (frun_next _ false) in H; [|eapply F_todo; eapply (S_unlock task _ 0); reflexivity|cbn; reflexivity]. cbn in H.
  eapply (frun_next _ false) in H; [|eapply F_todo; eapply (S_notify_one task _ 0 _ _ _ 1); reflexivity|cbn; reflexivity]. cbn in H.
  eapply (frun_next _ false) in H; [|eapply F_todo; eapply (S_relock task _ 1); reflexivity|cbn; reflexivity]. cbn in H.
  eapply (frun_next _ false) in H; [|eapply F_todo; eapply (S_pop task _ 1); reflexivity|cbn; reflexivity]. cbn in H.
  eapply (frun_next _ false) in H; [|eapply F_todo; eapply (S_pop_return task _ 1); reflexivity|cbn; reflexivity]. cbn in H.
  eapply (frun_next _ false) in H; [|eapply (F_fetched _ _ _ 0 []); reflexivity|cbn; reflexivity]. cbn in H.
  eexists. eexists. split; [exact H|]. split; reflexivity.
Qed.
