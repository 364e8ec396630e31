(** C64: destroying a pool. *)
From Verif Require Import Base PropQueue Pool PropPool PoolStop.
Local Open Scope list_scope.

Section C64.
Variable R : Type.
Variable perform : task -> option R.
Variable interruptible swallows : task -> Prop.
Notation xstate := (xstate R).
Notation xstep := (xstep R perform interruptible swallows).
Notation xrun := (xrun R perform interruptible swallows).
Notation xinit := (xinit R).
Notation destroyed := (destroyed R).
Arguments x_calls {R}. Arguments x_todo {R}. Arguments x_workers {R}. Arguments x_done {R}. Arguments x_writes {R}. Arguments x_exec {R}.
Arguments x_sub {R}. Arguments x_taken {R}. Arguments x_lost {R}. Arguments MkX {R}. Arguments x_stop {R}. Arguments x_join {R}. Arguments set_worker {R}.
Arguments MkPool {R}.

(** ** The invariant *)
Record wgood (x : xworker) : Prop := {
  g_flag : xw_flag x = true -> xw_stopped x = true;
  g_end : xw_at x = XEnd -> xw_stopped x = true }.
Record xinv (w : nat) (ns : list nat) (s : xstate) : Prop := {
  v_w : length (x_workers s) = w;
  v_ns : map k_n (x_calls s) = ns;
  v_calls : forall k, In k (x_calls s) -> k_sent k <= k_n k;
  v_stop : x_stop s <= w;
  v_join : x_join s <= w;
  v_order : 0 < x_join s -> x_stop s = w;
  v_workers : forall i x, nth_error (x_workers s) i = Some x -> xw_stopped x = Nat.ltb i (x_stop s) /\ (i < x_join s -> xw_at x = XEnd) /\ wgood x }.

Lemma xinv_init w ns : xinv w ns (xinit w ns).
Proof.
  constructor; cbn [PoolStop.xinit x_workers x_calls x_stop x_join]; try lia.
  - apply repeat_length.
  - rewrite map_map. cbn. apply map_id.
  - intros k Hk. apply in_map_iff in Hk. destruct Hk as (n & <- & _). cbn. lia.
  - intros i x H. apply nth_error_In, repeat_spec in H. subst x. cbn. split; [reflexivity|]. split; [lia|]. constructor; cbn; discriminate.
Qed.

(** A step of a worker keeps what the destructor knows of the workers. *)
Lemma workers_step (ws : list xworker) sp jn w x y :
  (forall i x, nth_error ws i = Some x -> xw_stopped x = Nat.ltb i sp /\ (i < jn -> xw_at x = XEnd) /\ wgood x) ->
  nth_error ws w = Some x -> xw_stopped y = xw_stopped x -> (xw_at x = XEnd -> xw_at y = XEnd) -> (wgood x -> wgood y) ->
  forall i z, nth_error (upd ws w y) i = Some z -> xw_stopped z = Nat.ltb i sp /\ (i < jn -> xw_at z = XEnd) /\ wgood z.
Proof.
  intros I H Hs He Hg i z Hz. destruct (Nat.eq_dec w i) as [<-|N].
  - rewrite (nth_upd_same _ _ _ _ H) in Hz. injection Hz as <-. destruct (I _ _ H) as (A & B & C). split; [congruence|]. split; auto.
  - rewrite nth_upd_other in Hz by exact N. exact (I _ _ Hz).
Qed.

Ltac wstep I7 Hx E := eapply workers_step; [exact I7|exact Hx|reflexivity|rewrite E; discriminate|];
  let G := fresh in intro G; constructor; cbn; [try (intro; discriminate); try apply (g_flag _ G)|try discriminate; try (intros _; apply (g_flag _ G); assumption)].
Lemma xinv_step w ns s s' : xinv w ns s -> xstep s s' -> xinv w ns s'.
Proof.
  intros [I1 I2 I3 I4 I5 I6 I7] H.
  destruct H as [s c k Hc L|s c k t r Hc Hs Ht Hd|s wi x t r Hx E Ht|s wi x Hx E Ht Hf|s wi x Hx E Ht Hf|s wi x t r Hx E Hf Ht|s wi x Hx E Hf|s wi x t v Hx E Hp|s wi x t Hx E Hp
    |s wi x t Hx E Hf Hi|s wi x t Hx E Hf Hi|s wi x t Hx E|s wi x Hx E Hf|s wi x Hx E Hf|s x Hx|s x Hs Hx E];
  constructor; cbn [x_workers x_calls x_stop x_join set_worker]; try rewrite upd_length; try assumption; try (erewrite map_upd; [exact I2|exact Hc|reflexivity]).
  - intros k0 Hk. apply in_upd in Hk. destruct Hk as [->|Hk]; [cbn; lia|apply I3; exact Hk].
  - intros k0 Hk. apply in_upd in Hk. destruct Hk as [->|Hk]; [cbn; lia|apply I3; exact Hk].
  - wstep I7 Hx E.
  - wstep I7 Hx E.
  - wstep I7 Hx E.
  - wstep I7 Hx E.
  - wstep I7 Hx E.
  - wstep I7 Hx E.
  - wstep I7 Hx E.
  - wstep I7 Hx E.
  - wstep I7 Hx E.
  - wstep I7 Hx E.
  - wstep I7 Hx E.
  - wstep I7 Hx E.
  - assert (x_stop s < length (x_workers s)) by (apply nth_error_Some; congruence). lia.
  - intro J. apply I6 in J. assert (x_stop s < length (x_workers s)) by (apply nth_error_Some; congruence). lia.
  - intros i z Hz. destruct (Nat.eq_dec (x_stop s) i) as [<-|N].
    + rewrite (nth_upd_same _ _ _ _ Hx) in Hz. injection Hz as <-. destruct (I7 _ _ Hx) as (A & B & C). cbn [stopped xw_stopped xw_at]. split; [symmetry; apply Nat.ltb_lt; lia|]. split; [exact B|].
      constructor; reflexivity.
    + rewrite nth_upd_other in Hz by exact N. destruct (I7 _ _ Hz) as (A & B & C). split; [|split; assumption]. rewrite A.
      destruct (Nat.ltb_spec i (x_stop s)), (Nat.ltb_spec i (S (x_stop s))); lia.
  - assert (x_join s < length (x_workers s)) by (apply nth_error_Some; congruence). lia.
  - intros _. lia.
  - intros i z Hz. destruct (I7 _ _ Hz) as (A & B & C). split; [exact A|]. split; [|exact C]. intro L. destruct (Nat.eq_dec (x_join s) i) as [<-|N]; [congruence|apply B; lia].
Qed.
Lemma xinv_run w ns n s s' : xinv w ns s -> xrun n s s' -> xinv w ns s'.
Proof. intros I H. revert I. induction H as [s|n s1 s2 s3 H IH Hs]; intro I; [exact I|exact (xinv_step _ _ _ _ (IH I) Hs)]. Qed.
Lemma xinv_reach w ns n s : xrun n (xinit w ns) s -> xinv w ns s.
Proof. intro H. exact (xinv_run _ _ _ _ _ (xinv_init w ns) H). Qed.

(** ** Every run is finite *)
Definition wcost (x : xworker) : nat :=
  match xw_at x with XEnd => 0 | XWait => 1 | XTop => 2 | XCheck => 3 | XDid _ => 5 | XHas _ => 6 end + (if xw_flag x then 1 else 0).
Definition xcost (s : xstate) : nat :=
  7 * sumf (fun k => k_n k - k_sent k) (x_calls s) + 6 * length (x_todo s) + sumf wcost (x_workers s) + length (x_done s) +
  2 * (length (x_workers s) - x_stop s) + (length (x_workers s) - x_join s).
Lemma xcost_step w ns s s' : xinv w ns s -> xstep s s' -> xcost s' < xcost s.
Proof.
  intros [I1 I2 I3 I4 I5 I6 I7] H.
  destruct H as [s c k Hc L|s c k t r Hc Hs Ht Hd|s wi x t r Hx E Ht|s wi x Hx E Ht Hf|s wi x Hx E Ht Hf|s wi x t r Hx E Hf Ht|s wi x Hx E Hf|s wi x t v Hx E Hp|s wi x t Hx E Hp
    |s wi x t Hx E Hf Hi|s wi x t Hx E Hf Hi|s wi x t Hx E|s wi x Hx E Hf|s wi x Hx E Hf|s x Hx|s x Hs Hx E]; unfold xcost;
  cbn [x_workers x_calls x_todo x_done x_stop x_join set_worker]; rewrite ?upd_length, ?app_length;
  try (match goal with |- context [upd (x_workers ?s) ?i ?y] => pose proof (sumf_upd wcost _ _ _ y Hx) as EW end;
       unfold wcost at 2 4 in EW; cbn [goes pops thrown stopped xw_at xw_flag] in EW; rewrite ?E in EW; try rewrite Hf in EW).
  - pose proof (sumf_upd (fun k => k_n k - k_sent k) _ _ _ (MkCall (k_n k) (S (k_sent k)) (k_taken k)) Hc) as EC. cbn [k_n k_sent] in EC. cbn [length]. lia.
  - pose proof (sumf_upd (fun k => k_n k - k_sent k) _ _ _ (MkCall (k_n k) (k_sent k) (S (k_taken k))) Hc) as EC. cbn [k_n k_sent] in EC. rewrite Hd. cbn [length]. lia.
  - rewrite Ht. cbn [length]. lia.
  - rewrite Ht. lia.
  - rewrite Ht. lia.
  - rewrite Ht. cbn [length]. lia.
  - lia.
  - lia.
  - lia.
  - lia.
  - lia.
  - cbn [length]. lia.
  - lia.
  - lia.
  - assert (x_stop s < length (x_workers s)) by (apply nth_error_Some; congruence). destruct (xw_flag x); lia.
  - assert (x_join s < length (x_workers s)) by (apply nth_error_Some; congruence). lia.
Qed.

Lemma sumf_const {A} (f : A -> nat) x n : sumf f (repeat x n) = n * f x.
Proof. induction n as [|n IH]; cbn [repeat sumf]; [reflexivity|rewrite IH; lia]. Qed.

(** C64, the number of steps: whatever the scheduler does, all threads together, the destructor included, take finitely many steps. *)
Theorem C64_runs_finite : forall w ns n s, xrun n (xinit w ns) s -> n <= 7 * sumf (fun k => k) ns + 5 * w.
Proof.
  intros w ns n s H.
  assert (G : xcost s + n <= xcost (xinit w ns)).
  { assert (Q : forall s0, xinv w ns s0 -> xrun n s0 s -> xcost s + n <= xcost s0); [|exact (Q _ (xinv_init w ns) H)].
    clear H. intros s0 I0 H. induction H as [s|m s1 s2 s3 H IH Hs]; [lia|]. pose proof (xcost_step _ _ _ _ (xinv_run _ _ _ _ _ I0 H) Hs). specialize (IH I0). lia. }
  unfold xcost at 2 in G. cbn [PoolStop.xinit x_workers x_calls x_todo x_done x_stop x_join length] in G. rewrite sumf_const, repeat_length in G. cbn [wcost xw_at xw_flag] in G.
  assert (E : sumf (fun k => k_n k - k_sent k) (map (fun n0 => MkCall n0 0 0) ns) = sumf (fun k => k) ns).
  { clear. induction ns as [|a l IH]; cbn [map sumf k_n k_sent]; [reflexivity|]. cbn beta in IH. rewrite IH. lia. }
  rewrite E in G. change (wcost _) with 2 in G. lia.
Qed.

(** ** Tasks that do not swallow the interruption *)
Definition patient : Prop := forall t, ~ swallows t.
Record wkept (x : xworker) : Prop := {
  h_flag : xw_stopped x = true -> xw_flag x = true \/ xw_at x = XEnd;
  h_after : xw_after x <= if xw_stopped x then match xw_at x with XTop | XWait => 0 | _ => 1 end else 0 }.
Definition all_kept (s : xstate) : Prop := forall x, In x (x_workers s) -> wkept x.
Lemma kept_upd (ws : list xworker) w y : (forall x, In x ws -> wkept x) -> wkept y -> forall x, In x (upd ws w y) -> wkept x.
Proof. intros H Hy x Hx. apply in_upd in Hx. destruct Hx as [->|Hx]; auto. Qed.
Lemma kept_step s s' : patient -> all_kept s -> xstep s s' -> all_kept s'.
Proof.
  intros P K H. unfold all_kept in *.
  destruct H as [s c k Hc L|s c k t r Hc Hs Ht Hd|s wi x t r Hx E Ht|s wi x Hx E Ht Hf|s wi x Hx E Ht Hf|s wi x t r Hx E Hf Ht|s wi x Hx E Hf|s wi x t v Hx E Hp|s wi x t Hx E Hp
    |s wi x t Hx E Hf Hi|s wi x t Hx E Hf Hi|s wi x t Hx E|s wi x Hx E Hf|s wi x Hx E Hf|s x Hx|s x Hs Hx E];
  cbn [x_workers set_worker]; try assumption; try (exfalso; exact (P _ Hi)); apply kept_upd; try assumption;
  destruct (K _ (nth_error_In _ _ Hx)) as [A B]; constructor; cbn [goes pops thrown stopped xw_at xw_flag xw_stopped xw_after] in *; try rewrite E in A, B;
  try (intro S; specialize (A S); destruct A as [A|A]; [left; exact A|discriminate A]); try (intros; right; reflexivity); try (intros; left; reflexivity);
  try (destruct (xw_stopped x); lia).
  - destruct (xw_stopped x) eqn:Q; [|lia]. destruct (A eq_refl) as [Z|Z]; [congruence|discriminate].
Qed.
Lemma kept_reach w ns n s : patient -> xrun n (xinit w ns) s -> all_kept s.
Proof.
  intros P H. remember (xinit w ns) as s0 eqn:E. assert (K : all_kept s0).
  { subst s0. intros x Hx. apply repeat_spec in Hx. subst x. constructor; cbn; [discriminate|lia]. }
  clear E. induction H as [s|m s1 s2 s3 H IH Hs]; [exact K|exact (kept_step _ _ P (IH K) Hs)].
Qed.

(** C64: the destructor returns, whatever the state of the workers when it starts, with pending calls, full queues or failing tasks: no run stops
    before it (and by C64_runs_finite every run stops). *)
Theorem C64_returns : forall w ns n s, patient -> xrun n (xinit w ns) s -> (forall s', ~ xstep s s') -> destroyed s.
Proof.
  intros w ns n s P H Stuck. pose proof (xinv_reach _ _ _ _ H) as [I1 I2 I3 I4 I5 I6 I7]. pose proof (kept_reach _ _ _ _ P H) as K. unfold PoolStop.destroyed. rewrite I1.
  assert (S : x_stop s = w).
  { destruct (nth_error (x_workers s) (x_stop s)) as [x|] eqn:E; [exfalso; eapply Stuck, X_stop; exact E|]. apply nth_error_None in E. lia. }
  split; [exact S|].
  destruct (nth_error (x_workers s) (x_join s)) as [x|] eqn:E; [exfalso|apply nth_error_None in E; lia].
  destruct (I7 _ _ E) as (A & B & G). assert (L : x_join s < length (x_workers s)) by (apply nth_error_Some; congruence).
  assert (St : xw_stopped x = true) by (rewrite A; apply Nat.ltb_lt; lia).
  destruct (h_flag _ (K _ (nth_error_In _ _ E)) St) as [F|F]; [|eapply Stuck, X_join; [lia|exact E|exact F]].
  destruct (xw_at x) eqn:At.
  - destruct (x_todo s) as [|t r] eqn:T; [eapply Stuck, X_wait_end; eassumption|eapply Stuck, X_get; eassumption].
  - eapply Stuck, X_interrupted; eassumption.
  - destruct (perform t) as [v|] eqn:Pf; [eapply Stuck, X_perform; eassumption|eapply Stuck, X_throw; eassumption].
  - eapply Stuck, X_report; eassumption.
  - eapply Stuck, X_check_end; eassumption.
  - eapply Stuck, X_join; [lia|exact E|exact At].
Qed.

(** C64: no worker takes more than one task after its Stop. *)
Theorem C64_one_more : forall w ns n s i x, patient -> xrun n (xinit w ns) s -> nth_error (x_workers s) i = Some x -> xw_after x <= 1.
Proof. intros w ns n s i x P H E. pose proof (h_after _ (kept_reach _ _ _ _ P H _ (nth_error_In _ _ E))). destruct (xw_stopped x); [destruct (xw_at x)|]; lia. Qed.

(** A worker that waits when it is stopped takes none. *)
Theorem C64_waiting_none : forall w ns n s m s' i x x', patient -> xrun n (xinit w ns) s -> nth_error (x_workers s) i = Some x -> xw_at x = XWait -> i < x_stop s ->
  xrun m s s' -> nth_error (x_workers s') i = Some x' -> xw_after x' = 0 /\ (xw_at x' = XWait \/ xw_at x' = XEnd).
Proof.
  intros w ns n s m s' i x x' P H Hx W Li H' Hx'.
  assert (G : forall y, nth_error (x_workers s') i = Some y -> xw_stopped y = true /\ xw_after y = 0 /\ ((xw_at y = XWait /\ xw_flag y = true) \/ xw_at y = XEnd)).
  { assert (B : xw_stopped x = true /\ xw_after x = 0 /\ ((xw_at x = XWait /\ xw_flag x = true) \/ xw_at x = XEnd)).
    { destruct (v_workers _ _ _ (xinv_reach _ _ _ _ H) _ _ Hx) as (A & _). assert (St : xw_stopped x = true) by (rewrite A; apply Nat.ltb_lt; exact Li).
      destruct (kept_reach _ _ _ _ P H _ (nth_error_In _ _ Hx)) as [K1 K2]. rewrite St, W in K2. destruct (K1 St) as [F|F]; [|congruence]. split; [exact St|]. split; [lia|]. left. split; assumption. }
    clear -B Hx H'. induction H' as [s|m s1 s2 s3 H' IH Hs]; [intros y Hy; rewrite Hx in Hy; injection Hy as <-; exact B|]. specialize (IH Hx). clear Hx B H'.
    destruct Hs as [s c k Hc L|s c k t r Hc Hs Ht Hd|s wi z t r Hx E Ht|s wi z Hx E Ht Hf|s wi z Hx E Ht Hf|s wi z t r Hx E Hf Ht|s wi z Hx E Hf|s wi z t v Hx E Hp|s wi z t Hx E Hp
      |s wi z t Hx E Hf Hi|s wi z t Hx E Hf Hi|s wi z t Hx E|s wi z Hx E Hf|s wi z Hx E Hf|s z Hx|s z Hs Hx E]; cbn [x_workers set_worker]; try exact IH; intros y Hy;
    match type of Hy with nth_error (upd _ ?j _) _ = _ => destruct (Nat.eq_dec j i) as [Ej|N]; [|rewrite nth_upd_other in Hy by exact N; exact (IH _ Hy)] end;
    subst i; rewrite (nth_upd_same _ _ _ _ Hx) in Hy; injection Hy as <-; destruct (IH _ Hx) as (S1 & S2 & [[S3 S4]|S3]); try congruence; cbn; auto. }
  destruct (G _ Hx') as (_ & A & [[B _]|B]); auto.
Qed.

(** ** After the destructor *)
Lemma over_step w ns s s' : xinv w ns s -> destroyed s -> xstep s s' ->
  x_workers s' = x_workers s /\ x_exec s' = x_exec s /\ x_writes s' = x_writes s /\ x_lost s' = x_lost s /\ length (x_done s') <= length (x_done s) /\ destroyed s'.
Proof.
  intros [I1 I2 I3 I4 I5 I6 I7] [D1 D2] H.
  assert (E0 : forall i x, nth_error (x_workers s) i = Some x -> xw_at x = XEnd).
  { intros i x Hx. destruct (I7 _ _ Hx) as (_ & B & _). apply B. rewrite D2. apply nth_error_Some. congruence. }
  destruct H as [s c k Hc L|s c k t r Hc Hs Ht Hd|s wi x t r Hx E Ht|s wi x Hx E Ht Hf|s wi x Hx E Ht Hf|s wi x t r Hx E Hf Ht|s wi x Hx E Hf|s wi x t v Hx E Hp|s wi x t Hx E Hp
    |s wi x t Hx E Hf Hi|s wi x t Hx E Hf Hi|s wi x t Hx E|s wi x Hx E Hf|s wi x Hx E Hf|s x Hx|s x Hs Hx E];
  try (exfalso; specialize (E0 _ _ Hx); congruence).
  - cbn [x_workers x_exec x_writes x_lost x_done]. repeat split; try reflexivity; cbn; assumption.
  - cbn [x_workers x_exec x_writes x_lost x_done]. rewrite Hd. repeat split; try reflexivity; cbn; try assumption; lia.
  - assert (x_stop s < length (x_workers s)) by (apply nth_error_Some; congruence). lia.
  - assert (x_join s < length (x_workers s)) by (apply nth_error_Some; congruence). lia.
Qed.
(** C64: once the destructor has returned every worker's function has returned, and never again is a task performed, a result written or a
    completion reported. *)
Theorem C64_nothing_after : forall w ns n s m s', xrun n (xinit w ns) s -> destroyed s -> xrun m s s' ->
  (forall x, In x (x_workers s) -> xw_at x = XEnd) /\ x_workers s' = x_workers s /\ x_exec s' = x_exec s /\ x_writes s' = x_writes s /\ length (x_done s') <= length (x_done s).
Proof.
  intros w ns n s m s' H D H'. pose proof (xinv_reach _ _ _ _ H) as I. split.
  - intros x Hx. apply In_nth_error in Hx. destruct Hx as (i & Hx). destruct (v_workers _ _ _ I _ _ Hx) as (_ & B & _). apply B. destruct D as [_ D]. rewrite D. apply nth_error_Some. congruence.
  - assert (G : x_workers s' = x_workers s /\ x_exec s' = x_exec s /\ x_writes s' = x_writes s /\ length (x_done s') <= length (x_done s) /\ destroyed s'); [|tauto].
    clear H. induction H' as [s|m s1 s2 s3 H' IH Hs]; [repeat split; try reflexivity; apply D|]. destruct (IH D I) as (A & B & C & E & F).
    destruct (over_step _ _ _ _ (xinv_run _ _ _ _ _ I H') F Hs) as (A' & B' & C' & _ & E' & F').
    split; [congruence|]. split; [congruence|]. split; [congruence|]. split; [lia|exact F'].
Qed.

(** ** Relation to the pool without a destructor (Pool.v) *)
Definition seen (x : xworker) : worker := match xw_at x with XHas t => WHas t | XDid t => WDid t | _ => WIdle end.
Definition view (s : xstate) : pstate R :=
  MkPool (x_calls s) (x_todo s) (map seen (x_workers s)) (x_done s) (x_writes s) (x_exec s) (x_sub s) (x_taken s) (x_lost s).
Lemma upd_map {A B} (f : A -> B) (l : list A) i x : map f (upd l i x) = upd (map f l) i (f x).
Proof. revert i; induction l as [|a l IH]; intros [|i]; cbn; congruence. Qed.
Lemma upd_id {A} (l : list A) i x : nth_error l i = Some x -> upd l i x = l.
Proof. revert i; induction l as [|a l IH]; intros [|i] H; cbn in *; try discriminate; [injection H as ->; reflexivity|f_equal; auto]. Qed.
Lemma seen_nth (s : xstate) i x : nth_error (x_workers s) i = Some x -> nth_error (map seen (x_workers s)) i = Some (seen x).
Proof. intro H. rewrite nth_error_map, H. reflexivity. Qed.
Lemma view_idle (ws : list xworker) i x y : nth_error ws i = Some x -> seen y = seen x -> map seen (upd ws i y) = map seen ws.
Proof. intros H E. rewrite upd_map, E. apply upd_id. rewrite nth_error_map, H. reflexivity. Qed.
Lemma view_step s s' : xstep s s' -> view s' = view s \/ pstep R perform (view s) (view s') \/
  exists i x t, nth_error (x_workers s) i = Some x /\ xw_flag x = true /\ interruptible t /\ nth_error (map seen (x_workers s)) i = Some (WHas t) /\
    view s' = MkPool (x_calls s) (x_todo s) (upd (map seen (x_workers s)) i WIdle) (x_done s) (x_writes s) (x_exec s ++ [t]) (x_sub s) (x_taken s) (x_lost s ++ [t]).
Proof.
  intro H.
  destruct H as [s c k Hc L|s c k t r Hc Hs Ht Hd|s wi x t r Hx E Ht|s wi x Hx E Ht Hf|s wi x Hx E Ht Hf|s wi x t r Hx E Hf Ht|s wi x Hx E Hf|s wi x t v Hx E Hp|s wi x t Hx E Hp
    |s wi x t Hx E Hf Hi|s wi x t Hx E Hf Hi|s wi x t Hx E|s wi x Hx E Hf|s wi x Hx E Hf|s x Hx|s x Hs Hx E];
  unfold view; cbn [x_calls x_todo x_workers x_done x_writes x_exec x_sub x_taken x_lost set_worker];
  try (left; erewrite view_idle; [reflexivity|exact Hx|unfold seen; cbn [goes thrown stopped xw_at]; rewrite ?E; reflexivity]);
  try (pose proof (seen_nth _ _ _ Hx) as Hn; unfold seen at 2 in Hn; rewrite E in Hn); try rewrite upd_map; try (left; reflexivity).
  - right. left. eapply (P_submit R perform (view s) c k); assumption.
  - right. left. eapply (P_token R perform (view s) c k t r); assumption.
  - right. left. eapply (P_get R perform (view s) wi t r); assumption.
  - right. left. eapply (P_get R perform (view s) wi t r); assumption.
  - right. left. eapply (P_perform R perform (view s) wi t v); assumption.
  - right. left. eapply (P_throw R perform (view s) wi t); assumption.
  - right. right. exists wi, x, t. repeat split; assumption.
  - right. left. eapply (P_report R perform (view s) wi t); assumption.
Qed.
Lemma view_init w ns : view (xinit w ns) = pinit R w ns.
Proof. unfold view, pinit. cbn [PoolStop.xinit x_calls x_todo x_workers x_done x_writes x_exec x_sub x_taken x_lost]. f_equal. clear. induction w as [|w IH]; cbn; [reflexivity|f_equal; exact IH]. Qed.
Lemma stop_mono n s s' : xrun n s s' -> x_stop s <= x_stop s'.
Proof. induction 1 as [s|n s1 s2 s3 H IH Hs]; [lia|]. assert (x_stop s2 <= x_stop s3) by (destruct Hs; cbn; lia). lia. Qed.

(** C64: until the destructor starts, a run is a run of the pool of Pool.v; if no task has an interruption point, so is the whole of it, destruction included. *)
Theorem C64_refines : forall w ns n s, xrun n (xinit w ns) s -> x_stop s = 0 \/ (forall t, ~ interruptible t) -> exists m, m <= n /\ prun R perform m (pinit R w ns) (view s).
Proof.
  intros w ns n s H. remember (xinit w ns) as s0 eqn:E0. revert E0. induction H as [s|n s1 s2 s3 H IH Hs]; intros E0 Q; subst.
  - exists 0. split; [lia|]. rewrite view_init. apply prun_nil.
  - assert (Q' : x_stop s2 = 0 \/ (forall t, ~ interruptible t)) by (destruct Q as [Q|Q]; [left|right; exact Q]; destruct Hs; cbn in Q; lia).
    destruct (IH eq_refl Q') as (m & L & Hm).
    destruct (view_step s2 s3 Hs) as [V|[V|(i & x & t & Hx & Hf & Hi & _)]].
    + exists m. split; [lia|]. rewrite V. exact Hm.
    + exists (S m). split; [lia|]. eapply prun_cons; eassumption.
    + exfalso. destruct Q' as [Q'|Q']; [|exact (Q' _ Hi)]. destruct (v_workers _ _ _ (xinv_reach _ _ _ _ H) _ _ Hx) as (A & _ & G). rewrite Q', (g_flag _ G Hf) in A. discriminate A.
Qed.

(** C64: and until it starts the workers are as alive as those of Pool.v: no worker has ended, and whatever can happen next there happens here, after
    at most one silent step. *)
Theorem C64_alive : forall w ns n s p, xrun n (xinit w ns) s -> x_stop s = 0 ->
  (forall x, In x (x_workers s) -> xw_at x <> XEnd) /\ (pstep R perform (view s) p -> exists m s', m <= 2 /\ xrun m s s' /\ x_stop s' = 0 /\ view s' = p).
Proof.
  intros w ns n s p H Z. pose proof (xinv_reach _ _ _ _ H) as I.
  assert (NF : forall i x, nth_error (x_workers s) i = Some x -> xw_flag x = false /\ xw_at x <> XEnd).
  { intros i x Hx. destruct (v_workers _ _ _ I _ _ Hx) as (A & _ & [G1 G2]). rewrite Z in A. cbn in A. split; [destruct (xw_flag x); [rewrite (G1 eq_refl) in A; discriminate A|reflexivity]|].
    intro E. rewrite (G2 E) in A. discriminate A. }
  split; [intros x Hx; apply In_nth_error in Hx; destruct Hx as (i & Hx); apply (NF _ _ Hx)|].
  intro P. remember (view s) as q eqn:Q. destruct P as [q c k Hc L|q wi t r Hw Ht|q wi t v Hw Hp|q wi t Hw Hp|q wi t Hw|q c k t r Hc Hs Ht Hd]; subst q; cbn [view p_calls p_todo p_workers p_done] in *;
  try (rewrite nth_error_map in Hw; destruct (nth_error (x_workers s) wi) as [x|] eqn:Hx; cbn [option_map] in Hw; [injection Hw as Hw|discriminate Hw]; destruct (NF _ _ Hx) as [F NE]).
  - exists 1. eexists. split; [lia|]. split; [eapply xrun_cons; [apply xrun_nil|eapply X_submit; eassumption]|]. split; [exact Z|reflexivity].
  - unfold seen in Hw. destruct (xw_at x) eqn:E; try discriminate Hw; [| | |congruence].
    + exists 1. eexists. split; [lia|]. split; [eapply xrun_cons; [apply xrun_nil|eapply X_get; eassumption]|]. split; [exact Z|]. unfold view. cbn [x_calls x_todo x_workers x_done x_writes x_exec x_sub x_taken x_lost].
      rewrite upd_map. reflexivity.
    + exists 1. eexists. split; [lia|]. split; [eapply xrun_cons; [apply xrun_nil|eapply X_woken; eassumption]|]. split; [exact Z|]. unfold view. cbn [x_calls x_todo x_workers x_done x_writes x_exec x_sub x_taken x_lost].
      rewrite upd_map. reflexivity.
    + exists 2. eexists. split; [lia|]. split; [eapply xrun_cons; [eapply xrun_cons; [apply xrun_nil|eapply X_again; eassumption]|]|].
      { eapply (X_get _ _ _ _ _ wi (goes x XTop)); [cbn [set_worker x_workers]; eapply nth_upd_same; exact Hx|reflexivity|exact Ht]. }
      split; [exact Z|]. unfold view. cbn [set_worker x_calls x_todo x_workers x_done x_writes x_exec x_sub x_taken x_lost].
      rewrite upd_map. erewrite view_idle; [reflexivity|exact Hx|unfold seen; cbn; rewrite E; reflexivity].
  - unfold seen in Hw. destruct (xw_at x) eqn:E; try discriminate Hw. injection Hw as ->. exists 1. eexists. split; [lia|]. split; [eapply xrun_cons; [apply xrun_nil|eapply X_perform; eassumption]|].
    split; [exact Z|]. unfold view. cbn [x_calls x_todo x_workers x_done x_writes x_exec x_sub x_taken x_lost]. rewrite upd_map. reflexivity.
  - unfold seen in Hw. destruct (xw_at x) eqn:E; try discriminate Hw. injection Hw as ->. exists 1. eexists. split; [lia|]. split; [eapply xrun_cons; [apply xrun_nil|eapply X_throw; eassumption]|].
    split; [exact Z|]. unfold view. cbn [x_calls x_todo x_workers x_done x_writes x_exec x_sub x_taken x_lost]. rewrite upd_map. reflexivity.
  - unfold seen in Hw. destruct (xw_at x) eqn:E; try discriminate Hw. injection Hw as ->. exists 1. eexists. split; [lia|]. split; [eapply xrun_cons; [apply xrun_nil|eapply X_report; eassumption]|].
    split; [exact Z|]. unfold view. cbn [x_calls x_todo x_workers x_done x_writes x_exec x_sub x_taken x_lost]. rewrite upd_map. reflexivity.
  - exists 1. eexists. split; [lia|]. split; [eapply xrun_cons; [apply xrun_nil|eapply X_token; eassumption]|]. split; [exact Z|reflexivity].
Qed.

(** C64: a pool destroyed after every call of DoTasks has returned performs nothing, writes nothing and loses nothing while it is destroyed, and
    the queues stay empty: everything was done before. *)
Theorem C64_clean : forall w ns n s m s', xrun n (xinit w ns) s -> x_stop s = 0 -> (forall k, In k (x_calls s) -> returned k) -> xrun m s s' ->
  x_exec s' = x_exec s /\ x_writes s' = x_writes s /\ x_lost s' = x_lost s /\ x_todo s' = [] /\ x_done s' = [] /\
  (forall t, is_task ns t -> count_occ tdec (x_exec s') t = 1 /\ exists v, perform t = Some v /\ last_write R t (x_writes s') = Some v) /\
  (forall x, In x (x_workers s') -> xw_after x = 0).
Proof.
  intros w ns n s m s' H Z Hr H'. destruct (C64_refines _ _ _ _ H (or_introl Z)) as (j & _ & J).
  destruct (C35_all_returned R perform _ _ _ _ J Hr) as ((T & D & W) & All). cbn [view p_todo p_done p_workers p_exec p_writes] in *.
  assert (G : x_exec s' = x_exec s /\ x_writes s' = x_writes s /\ x_lost s' = x_lost s /\ x_todo s' = [] /\ x_done s' = [] /\ x_calls s' = x_calls s /\
    (forall x, In x (x_workers s') -> seen x = WIdle /\ xw_after x = 0)).
  { assert (B0 : forall x, In x (x_workers s) -> seen x = WIdle /\ xw_after x = 0).
    { intros x Hx. split; [apply W, in_map; exact Hx|]. apply In_nth_error in Hx. destruct Hx as (i & Hx).
      assert (A0 : forall x, In x (x_workers s) -> xw_stopped x = false -> xw_after x = 0).
      { clear -H. remember (xinit w ns) as s0 eqn:E. assert (K : forall x, In x (x_workers s0) -> xw_stopped x = false -> xw_after x = 0).
        { subst s0. intros x Hx. apply repeat_spec in Hx. subst x. reflexivity. }
        clear E. induction H as [s|m s1 s2 s3 H IH Hs]; [exact K|]. specialize (IH K). clear K H.
        destruct Hs as [s c k Hc L|s c k t r Hc Hs Ht Hd|s wi x t r Hx E Ht|s wi x Hx E Ht Hf|s wi x Hx E Ht Hf|s wi x t r Hx E Hf Ht|s wi x Hx E Hf|s wi x t v Hx E Hp|s wi x t Hx E Hp
          |s wi x t Hx E Hf Hi|s wi x t Hx E Hf Hi|s wi x t Hx E|s wi x Hx E Hf|s wi x Hx E Hf|s x Hx|s x Hs Hx E]; cbn [x_workers set_worker]; try exact IH;
        intros y Hy; apply in_upd in Hy; destruct Hy as [->|Hy]; try (apply IH; exact Hy); cbn; intro Q; try discriminate Q; rewrite ?Q; apply IH; try exact Q; eapply nth_error_In; exact Hx. }
      destruct (v_workers _ _ _ (xinv_reach _ _ _ _ H) _ _ Hx) as (A & _ & _). rewrite Z in A. apply A0; [eapply nth_error_In; exact Hx|exact A]. }
    clear -H' T D Hr B0. induction H' as [s|m s1 s2 s3 H' IH Hs]; [repeat split; try reflexivity; try assumption; intros; apply B0; assumption|].
    destruct (IH Hr T D B0) as (E1 & E2 & E3 & E4 & E5 & E6 & E7). clear IH H'.
    assert (Hr2 : forall k, In k (x_calls s2) -> returned k) by (rewrite E6; exact Hr).
    destruct Hs as [s c k Hc L|s c k t r Hc Hs Ht Hd|s wi x t r Hx E Ht|s wi x Hx E Ht Hf|s wi x Hx E Ht Hf|s wi x t r Hx E Hf Ht|s wi x Hx E Hf|s wi x t v Hx E Hp|s wi x t Hx E Hp
      |s wi x t Hx E Hf Hi|s wi x t Hx E Hf Hi|s wi x t Hx E|s wi x Hx E Hf|s wi x Hx E Hf|s x Hx|s x Hs Hx E];
    try (exfalso; destruct (Hr2 _ (nth_error_In _ _ Hc)); lia); try (exfalso; congruence);
    try (exfalso; destruct (E7 _ (nth_error_In _ _ Hx)) as [Q _]; unfold seen in Q; rewrite E in Q; discriminate Q);
    cbn [x_calls x_todo x_workers x_done x_writes x_exec x_sub x_taken x_lost set_worker]; (repeat split; try assumption; try (intros; apply E7; assumption)).
    all: apply in_upd in H; destruct H as [->|H]; [|apply E7; exact H]; destruct (E7 _ (nth_error_In _ _ Hx)) as [Q1 Q2]; cbn; try exact Q2; try exact Q1; reflexivity. }
  destruct G as (E1 & E2 & E3 & E4 & E5 & E6 & E7). split; [exact E1|]. split; [exact E2|]. split; [exact E3|]. split; [exact E4|]. split; [exact E5|]. split.
  - intros t Ht. rewrite E1, E2. apply All. exact Ht.
  - intros x Hx. apply E7. exact Hx.
Qed.

(** ** Where the tasks are: as in Pool.v, but anything may be dropped *)
Lemma xplace_reach w ns n s : xrun n (xinit w ns) s -> pinvf R perform (fun _ => True) w ns (view s).
Proof.
  intro H. remember (xinit w ns) as s0 eqn:E. assert (K : pinvf R perform (fun _ => True) w ns (view s0)) by (subst s0; rewrite view_init; apply pinv_init).
  clear E. induction H as [s|m s1 s2 s3 H IH Hs]; [exact K|]. specialize (IH K). destruct (view_step _ _ Hs) as [V|[V|(i & x & t & Hx & Hf & Hi & Hn & V)]]; [rewrite V; exact IH| |].
  - exact (pinv_step R perform _ _ _ _ _ (fun _ _ => Logic.I) IH V).
  - rewrite V. exact (pinv_lose R perform _ _ _ _ _ _ IH Logic.I Hn).
Qed.
(** C64: destruction never makes a task run twice, nor makes a wrong result appear, also with pending calls, interrupted tasks and tasks that swallow the interruption;
    and what a pending call is told to be complete was performed and has its result. *)
Theorem C64_at_most_once : forall w ns n s, xrun n (xinit w ns) s ->
  NoDup (x_exec s) /\ (forall t, In t (x_exec s) -> is_task ns t) /\ (forall t v, last_write R t (x_writes s) = Some v -> perform t = Some v) /\
  (forall t, In t (x_done s ++ x_taken s) -> In t (x_exec s) /\ exists v, last_write R t (x_writes s) = Some v).
Proof.
  intros w ns n s H. pose proof (xplace_reach _ _ _ _ H) as I. split; [|split; [|split]].
  - apply (NoDup_count_occ tdec). intro t. assert (A := exec_le _ _ _ _ _ _ t I). assert (B := occ_sub_le _ _ _ _ _ _ t I). cbn [view p_exec p_sub] in A, B. lia.
  - intros t Ht. apply occ_in in Ht. assert (A := exec_le _ _ _ _ _ _ t I). assert (B := occ_sub_le _ _ _ _ _ _ t I). cbn [view p_exec p_sub] in A, B.
    apply (valid_task _ _ _ _ _ _ _ I). rewrite <- (iv_valid _ _ _ _ _ _ I). cbn [view p_sub]. lia.
  - intros t v Hv. apply last_write_in in Hv. apply (iv_values _ _ _ _ _ _ I). exact Hv.
  - intros t Ht. assert (W := iv_writes _ _ _ _ _ _ I t). assert (E := iv_exec _ _ _ _ _ _ I t). cbn [view p_writes p_workers p_done p_taken p_exec p_lost] in W, E.
    assert (O : 0 < count_occ tdec (x_done s ++ x_taken s) t) by (apply occ_in; exact Ht). rewrite count_occ_app in O.
    split; [apply occ_in; lia|]. apply (last_write_some R perform). apply (proj1 (occ_in _ _)). lia.
Qed.

(** C64: a call still pending when the destructor returns comes to its end only if every task had been performed by then: a task still in the
    queue is never performed, and its caller waits for ever. *)
Theorem C64_too_late : forall w ns n s m s', xrun n (xinit w ns) s -> destroyed s -> xrun m s s' ->
  (forall k, In k (x_calls s') -> returned k) -> forall t, is_task ns t -> In t (x_exec s) /\ exists v, perform t = Some v /\ last_write R t (x_writes s) = Some v.
Proof.
  intros w ns n s m s' H D H' Hr t Ht. destruct (C64_nothing_after _ _ _ _ _ _ H D H') as (_ & _ & E1 & E2 & _).
  assert (H2 : exists j, xrun j (xinit w ns) s').
  { clear -H H'. induction H' as [s|m s1 s2 s3 H' IH Hs]; [exists n; exact H|]. destruct (IH H) as (j & J). exists (S j). eapply xrun_cons; eassumption. }
  destruct H2 as (j & J). destruct (all_returned_inv R perform _ _ _ _ (xplace_reach _ _ _ _ J) Hr) as (_ & _ & All). destruct (All _ Ht) as (A & B). cbn [view p_exec p_writes] in A, B. rewrite E1 in A. rewrite E2 in B.
  split; [apply occ_in; lia|exact B].
Qed.

Lemma xrun_next n (s1 s2 s3 s3' : xstate) : xrun n s1 s2 -> xstep s2 s3 -> s3 = s3' -> xrun (S n) s1 s3'.
Proof. intros H1 H2 <-. eapply xrun_cons; eassumption. Qed.
End C64.

(** C64: without [patient] it fails: a single task that catches boost::thread_interrupted inside Perform, and is interrupted by the destructor, leaves its
    worker waiting for ever and the destructor with it, although the call itself returns. *)
Theorem C64_swallowed_refuted : forall (R : Type) (perform : task -> option R) v, perform (0, 0) = Some v ->
  exists n s, xrun R perform (fun _ => False) (fun t => t = (0, 0)) n (xinit R 1 [1]) s /\ (forall k, In k (x_calls R s) -> returned k) /\ ~ destroyed R s /\
    forall s', ~ xstep R perform (fun _ => False) (fun t => t = (0, 0)) s s'.
Proof.
  intros R perform v P.
  exists 9. exists (MkX R [MkCall 1 1 1] [] [MkXW XWait false true 0] [] [((0, 0), v)] [(0, 0)] [(0, 0)] [(0, 0)] [] 1 0). split.
  - eapply xrun_next; [eapply xrun_next; [eapply xrun_next; [eapply xrun_next; [eapply xrun_next; [eapply xrun_next; [eapply xrun_next; [eapply xrun_next; [eapply xrun_next; [apply xrun_nil
      |eapply (X_submit _ _ _ _ _ 0); [reflexivity|cbn; lia]|cbn; reflexivity]
      |eapply (X_get _ _ _ _ _ 0); reflexivity|cbn; reflexivity]
      |eapply X_stop; reflexivity|cbn; reflexivity]
      |eapply (X_swallow _ _ _ _ _ 0); [reflexivity|reflexivity|reflexivity|reflexivity]|cbn; reflexivity]
      |eapply (X_perform _ _ _ _ _ 0); [reflexivity|reflexivity|exact P]|cbn; reflexivity]
      |eapply (X_report _ _ _ _ _ 0); reflexivity|cbn; reflexivity]
      |eapply (X_again _ _ _ _ _ 0); reflexivity|cbn; reflexivity]
      |eapply (X_token _ _ _ _ _ 0); [reflexivity|reflexivity|cbn; lia|reflexivity]|cbn; reflexivity]
      |eapply (X_wait _ _ _ _ _ 0); reflexivity|cbn; reflexivity].
  - split; [intros k [<-|[]]; split; reflexivity|]. split; [intros [_ D]; discriminate D|]. intros s' H.
    inversion H; subst; cbn in *;
    repeat match goal with
    | Q : nth_error (_ :: _) ?i = Some _ |- _ => destruct i as [|[|?]]; cbn in Q; try discriminate Q; injection Q as <-; cbn in *
    end; try discriminate; try lia. injection H1 as <-. discriminate H2.
Qed.

Print Assumptions C64_runs_finite.
Print Assumptions C64_returns.
Print Assumptions C64_one_more.
Print Assumptions C64_waiting_none.
Print Assumptions C64_alive.
Print Assumptions C64_nothing_after.
Print Assumptions C64_refines.
Print Assumptions C64_clean.
Print Assumptions C64_at_most_once.
Print Assumptions C64_too_late.
Print Assumptions C64_swallowed_refuted.

(** Two workers, two tasks; the destructor starts while one task is being performed and one is in the queue, which its worker still takes: nothing is lost here,
    and both workers end. And a pool whose workers are stopped before the second task was taken: it is never performed. *)
Definition w_perform (t : task) : option nat := Some (10 + snd t).
Notation wrun := (xrun nat w_perform (fun _ => False) (fun _ => False)).
Theorem C64_witness : exists n s, wrun n (xinit nat 1 [2]) s /\ destroyed nat s /\ x_exec nat s = [(0, 0)] /\ x_todo nat s = [(0, 1)] /\ map xw_at (x_workers nat s) = [XEnd].
Proof.
  exists 8. eexists. split.
  - eapply xrun_next; [eapply xrun_next; [eapply xrun_next; [eapply xrun_next; [eapply xrun_next; [eapply xrun_next; [eapply xrun_next; [eapply xrun_next; [apply xrun_nil
      |eapply (X_submit _ _ _ _ _ 0); [reflexivity|cbn; lia]|cbn; reflexivity]
      |eapply (X_submit _ _ _ _ _ 0); [reflexivity|cbn; lia]|cbn; reflexivity]
      |eapply X_stop; reflexivity|cbn; reflexivity]
      |eapply (X_get _ _ _ _ _ 0); reflexivity|cbn; reflexivity]
      |eapply (X_perform _ _ _ _ _ 0); reflexivity|cbn; reflexivity]
      |eapply (X_report _ _ _ _ _ 0); reflexivity|cbn; reflexivity]
      |eapply (X_check_end _ _ _ _ _ 0); reflexivity|cbn; reflexivity]
      |eapply X_join; [reflexivity|reflexivity|reflexivity]|cbn; reflexivity].
  - repeat split.
Qed.
Theorem C64_witness_clean : exists n s, wrun n (xinit nat 1 [1]) s /\ x_stop nat s = 0 /\ (forall k, In k (x_calls nat s) -> returned k) /\
  exists m s', wrun m s s' /\ destroyed nat s' /\ x_writes nat s' = [((0, 0), 10)].
Proof.
  exists 5. eexists. split; [|split; [|split]].
  - eapply xrun_next; [eapply xrun_next; [eapply xrun_next; [eapply xrun_next; [eapply xrun_next; [apply xrun_nil
      |eapply (X_submit _ _ _ _ _ 0); [reflexivity|cbn; lia]|cbn; reflexivity]
      |eapply (X_get _ _ _ _ _ 0); reflexivity|cbn; reflexivity]
      |eapply (X_perform _ _ _ _ _ 0); reflexivity|cbn; reflexivity]
      |eapply (X_report _ _ _ _ _ 0); reflexivity|cbn; reflexivity]
      |eapply (X_token _ _ _ _ _ 0); [reflexivity|reflexivity|cbn; lia|reflexivity]|cbn; reflexivity].
  - reflexivity.
  - intros k [<-|[]]; split; reflexivity.
  - exists 3. eexists. split.
    + eapply xrun_next; [eapply xrun_next; [eapply xrun_next; [apply xrun_nil
        |eapply X_stop; reflexivity|cbn; reflexivity]
        |eapply (X_check_end _ _ _ _ _ 0); reflexivity|cbn; reflexivity]
        |eapply X_join; [reflexivity|reflexivity|reflexivity]|cbn; reflexivity].
    + repeat split.
Qed.
