(** C33, C36, C37, C64, C66, C70, C75, C76: executions given as schedules, that is as functions from time to states in which every state follows from
    the one before by a step. The runs of the models are exactly the finite schedules, and no schedule from an initial state is longer than
    the bound proved for runs. *)
From Verif Require Import Base.
From Verif Require FftShared LockPool Mpi Pool PoolStop Queue PropFft PropLockPool PropPool PropPoolStop PropQueue PropMpi MpiLife PropMpiLife PoolForeign PropPoolForeign.
From Coq Require Import Lia.
Local Open Scope list_scope.
Local Open Scope nat_scope.

(** the first n+1 states of f, joined by steps *)
Definition schedule {St} (step : St -> St -> Prop) (f : nat -> St) (n : nat) : Prop := forall i, i < n -> step (f i) (f (S i)).
(** the same, where b tells which steps are spurious wake-ups *)
Definition schedule_b {St} (step : bool -> St -> St -> Prop) (b : nat -> bool) (f : nat -> St) (n : nat) : Prop := forall i, i < n -> step (b i) (f i) (f (S i)).
Definition wakeups (b : nat -> bool) (n : nat) : nat := length (filter b (seq 0 n)).

Section One.
Variables (St : Type) (step : St -> St -> Prop) (run : nat -> St -> St -> Prop).
Hypothesis nil : forall s s', run 0 s s' <-> s = s'.
Hypothesis cons : forall n s1 s3, run (S n) s1 s3 <-> exists s2, run n s1 s2 /\ step s2 s3.
Lemma schedule_iff : forall n s1 s3, run n s1 s3 <-> exists f, f 0 = s1 /\ f n = s3 /\ schedule step f n.
Proof.
  induction n as [|n IH]; intros s1 s3.
  - rewrite nil. split; [intros ->; exists (fun _ => s3); repeat split; intros i Hi; lia|intros (f & <- & <- & _); reflexivity].
  - rewrite cons. split.
    + intros (s2 & R & H). apply IH in R as (f & A & B & C). exists (fun i => if i <=? n then f i else s3).
      split; [exact A|]. split; [destruct (Nat.leb_spec (S n) n); [lia|reflexivity]|].
      intros i Hi. destruct (Nat.leb_spec i n); [|lia]. destruct (Nat.leb_spec (S i) n); [apply C; lia|]. replace i with n by lia. rewrite B. exact H.
    + intros (f & A & B & C). exists (f n). split; [apply IH; exists f; repeat split; auto; intros i Hi; apply C; lia|]. rewrite <- B. apply C. lia.
Qed.
End One.

Lemma wakeups_S b n : wakeups b (S n) = wakeups b n + (if b n then 1 else 0).
Proof. unfold wakeups. rewrite seq_S, filter_app, app_length. cbn. destruct (b n); reflexivity. Qed.
Lemma wakeups_le b n : wakeups b n <= n.
Proof. induction n as [|n IH]; [unfold wakeups; cbn; lia|]. rewrite wakeups_S. destruct (b n); lia. Qed.
Section Two.
Variables (St : Type) (step : bool -> St -> St -> Prop) (run : nat -> nat -> St -> St -> Prop).
Hypothesis nil : forall n m s s', n + m = 0 -> (run n m s s' <-> s = s').
Hypothesis cons : forall n m s1 s3, n + m <> 0 -> (run n m s1 s3 <-> exists s2, (exists n', n = S n' /\ run n' m s1 s2 /\ step false s2 s3) \/ (exists m', m = S m' /\ run n m' s1 s2 /\ step true s2 s3)).
Lemma schedule_b_iff : forall k s1 s3 n m, n + m = k -> (run n m s1 s3 <-> exists b f, f 0 = s1 /\ f k = s3 /\ schedule_b step b f k /\ wakeups b k = m).
Proof.
  induction k as [|k IH]; intros s1 s3 n m E.
  - rewrite (nil n m) by exact E. split; [intros ->; exists (fun _ => false), (fun _ => s3); repeat split; [intros i Hi; lia|unfold wakeups; cbn; lia]|intros (b & f & <- & <- & _); reflexivity].
  - rewrite (cons n m) by lia. split.
    + assert (G : forall c s2 b f, f 0 = s1 -> f k = s2 -> schedule_b step b f k -> step c s2 s3 ->
        exists b' f', f' 0 = s1 /\ f' (S k) = s3 /\ schedule_b step b' f' (S k) /\ wakeups b' (S k) = wakeups b k + (if c then 1 else 0)).
      { intros c s2 b f A B C H. exists (fun i => if i <? k then b i else c), (fun i => if i <=? k then f i else s3).
        split; [exact A|]. split; [destruct (Nat.leb_spec (S k) k); [lia|reflexivity]|]. split.
        - intros i Hi. destruct (Nat.leb_spec i k); [|lia]. destruct (Nat.leb_spec (S i) k); destruct (Nat.ltb_spec i k); try lia; [apply C; lia|]. replace i with k by lia. rewrite B. exact H.
        - rewrite wakeups_S. rewrite Nat.ltb_irrefl. f_equal. unfold wakeups. f_equal. apply filter_ext_in. intros i Hi. apply in_seq in Hi. destruct (Nat.ltb_spec i k); [reflexivity|lia]. }
      intros (s2 & [(n' & -> & R & H)|(m' & -> & R & H)]); apply (IH s1 s2) in R as (b & f & A & B & C & D); try lia; destruct (G _ s2 b f A B C H) as (b' & f' & A' & B' & C' & D'); exists b', f'; repeat split; try assumption; lia.
    + intros (b & f & A & B & C & D). exists (f k). pose proof (C k ltac:(lia)) as H. rewrite B in H. rewrite wakeups_S in D. pose proof (wakeups_le b k) as L.
      destruct (b k).
      * right. exists (wakeups b k). split; [lia|]. split; [apply IH; [lia|]; exists b, f; repeat split; auto; intros i Hi; apply C; lia|exact H].
      * left. exists (k - wakeups b k). split; [lia|]. split; [apply IH; [lia|]; exists b, f; repeat split; auto; try lia; intros i Hi; apply C; lia|exact H].
Qed.
End Two.

Lemma sum_id ns : PropQueue.sumf (fun x => x) ns = fold_right Nat.add 0 ns.
Proof. induction ns as [|a l IH]; [reflexivity|]. cbn [PropQueue.sumf fold_right]. rewrite <- IH. reflexivity. Qed.
Ltac runs := apply schedule_iff; intros; split;
  [let H := fresh in intro H; inversion H; reflexivity|intros <-; constructor|let H := fresh in intro H; inversion H; subst; eauto|intros (? & ? & ?); econstructor; eassumption].
Ltac runs_b :=
  intros; apply schedule_b_iff; [| |reflexivity]; clear;
  [intros n m s s' E; split; [let H := fresh in intro H; inversion H; subst; [reflexivity|lia|lia]|intros <-; replace n with 0 by lia; replace m with 0 by lia; constructor]
  |intros n m s1 s3 E; split;
    [let H := fresh in intro H; inversion H; subst; [lia|eexists; left; eexists; split; [reflexivity|split; eassumption]|eexists; right; eexists; split; [reflexivity|split; eassumption]]
    |intros (? & [(? & -> & ? & ?)|(? & -> & ? & ?)]); [eapply LockPool.frun_step || eapply Queue.qrun_step|eapply LockPool.frun_spurious || eapply Queue.qrun_spurious]; eassumption]].

(** ** The thread pool: its callers and workers (C33) *)
Theorem C33_schedules : forall R perform,
  (forall n s1 s2, Pool.prun R perform n s1 s2 <-> exists f, f 0 = s1 /\ f n = s2 /\ schedule (Pool.pstep R perform) f n) /\
  (forall w ns f n, f 0 = Pool.pinit R w ns -> schedule (Pool.pstep R perform) f n -> n <= 5 * fold_right Nat.add 0 ns).
Proof.
  intros R perform. assert (I : forall n s1 s2, Pool.prun R perform n s1 s2 <-> exists f, f 0 = s1 /\ f n = s2 /\ schedule (Pool.pstep R perform) f n) by runs.
  split; [exact I|]. intros w ns f n H0 H. rewrite <- sum_id. apply (PropPool.C33_runs_finite R perform w ns n (f n)). apply I. exists f. auto.
Qed.
(** ** The queue with its mutex and condition variable (C36): a spurious wake-up can cost three more steps *)
Theorem C36_schedules : forall V,
  (forall n m s1 s2, Queue.qrun V n m s1 s2 <-> exists b f, f 0 = s1 /\ f (n + m) = s2 /\ schedule_b (Queue.qstep V) b f (n + m) /\ wakeups b (n + m) = m) /\
  (forall programs b f k, f 0 = Queue.qinit V programs -> schedule_b (Queue.qstep V) b f k -> k <= 7 * length (concat programs) + 4 * wakeups b k).
Proof.
  intros V. assert (I : forall n m s1 s2, Queue.qrun V n m s1 s2 <-> exists b f, f 0 = s1 /\ f (n + m) = s2 /\ schedule_b (Queue.qstep V) b f (n + m) /\ wakeups b (n + m) = m) by runs_b.
  split; [exact I|]. intros ps b f k H0 H. pose proof (wakeups_le b k) as L.
  assert (E : PropQueue.sumf (@length _) ps = length (concat ps)) by (clear; induction ps as [|a l IH]; [reflexivity|]; cbn [PropQueue.sumf concat]; rewrite app_length, IH; reflexivity).
  pose proof (PropQueue.C36_runs_finite V ps (k - wakeups b k) (wakeups b k) (f k)) as B. rewrite E in B.
  enough (k - wakeups b k <= 7 * length (concat ps) + 3 * wakeups b k) by lia. apply B. apply I. exists b, f. replace (k - wakeups b k + wakeups b k) with k by lia. auto.
Qed.
(** ** Dispatch to MPI workers (C37) *)
Theorem C37_schedules : forall M (perform : nat -> list M) n size, 2 <= size -> (forall t, perform t <> []) ->
  (forall k s1 s2, Mpi.mrun M perform n size k s1 s2 <-> exists f, f 0 = s1 /\ f k = s2 /\ schedule (Mpi.mstep M perform n size) f k) /\
  (forall f k, f 0 = Mpi.minit M size -> schedule (Mpi.mstep M perform n size) f k -> k <= fold_right Nat.add 0 (map (fun t => 3 + length (perform t)) (seq 0 n))).
Proof.
  intros M perform n size Hs Hp. assert (I : forall k s1 s2, Mpi.mrun M perform n size k s1 s2 <-> exists f, f 0 = s1 /\ f k = s2 /\ schedule (Mpi.mstep M perform n size) f k) by runs.
  split; [exact I|]. intros f k H0 H.
  assert (E : forall l, PropQueue.sumf (PropMpi.left_cost M perform) l = fold_right Nat.add 0 (map (fun t => 3 + length (perform t)) l)) by (clear; induction l as [|a l IH]; [reflexivity|]; cbn [PropQueue.sumf map fold_right]; rewrite <- IH; reflexivity).
  rewrite <- E. apply (PropMpi.C37_runs_finite M perform n size Hs Hp k (f k)). apply I. exists f. auto.
Qed.
(** ** The pool that is being destroyed (C64) *)
Theorem C64_schedules : forall R perform interruptible swallows,
  (forall n s1 s2, PoolStop.xrun R perform interruptible swallows n s1 s2 <-> exists f, f 0 = s1 /\ f n = s2 /\ schedule (PoolStop.xstep R perform interruptible swallows) f n) /\
  (forall w ns f n, f 0 = PoolStop.xinit R w ns -> schedule (PoolStop.xstep R perform interruptible swallows) f n -> n <= 7 * fold_right Nat.add 0 ns + 5 * w).
Proof.
  intros R perform i sw. assert (I : forall n s1 s2, PoolStop.xrun R perform i sw n s1 s2 <-> exists f, f 0 = s1 /\ f n = s2 /\ schedule (PoolStop.xstep R perform i sw) f n) by runs.
  split; [exact I|]. intros w ns f n H0 H. rewrite <- sum_id. apply (PropPoolStop.C64_runs_finite R perform i sw w ns n (f n)). apply I. exists f. auto.
Qed.
(** ** The pool on top of the queue's locks (C66) *)
Theorem C66_schedules : forall R perform,
  (forall n m s1 s2, LockPool.frun R perform n m s1 s2 <-> exists b f, f 0 = s1 /\ f (n + m) = s2 /\ schedule_b (LockPool.fstep R perform) b f (n + m) /\ wakeups b (n + m) = m) /\
  (forall w ns b f k, f 0 = LockPool.finit R w ns -> schedule_b (LockPool.fstep R perform) b f k -> k <= 155 * fold_right Nat.add 0 ns + 6 * w + 9 * length ns + 4 * wakeups b k).
Proof.
  intros R perform. assert (I : forall n m s1 s2, LockPool.frun R perform n m s1 s2 <-> exists b f, f 0 = s1 /\ f (n + m) = s2 /\ schedule_b (LockPool.fstep R perform) b f (n + m) /\ wakeups b (n + m) = m) by runs_b.
  split; [exact I|]. intros w ns b f k H0 H. pose proof (wakeups_le b k) as L. rewrite <- sum_id.
  pose proof (PropLockPool.C66_runs_finite R perform w ns (k - wakeups b k) (wakeups b k) (f k)) as B.
  match type of B with _ -> ?x <= ?y => enough (x <= y) by lia end. apply B. apply I. exists b, f. replace (k - wakeups b k + wakeups b k) with k by lia. auto.
Qed.
(** ** FFTW objects used by threads (C70) *)
Theorem C70_schedules : forall A (f : list A -> list A), (forall x, length (f x) = length x) ->
  (forall n s1 s2, FftShared.fruns A f n s1 s2 <-> exists g, g 0 = s1 /\ g n = s2 /\ schedule (FftShared.fstep A f) g n) /\
  (forall owner programs, PropFft.private A owner programs -> exists bound, forall g n, g 0 = FftShared.finit A programs -> schedule (FftShared.fstep A f) g n -> n <= bound).
Proof.
  intros A f Hf. assert (I : forall n s1 s2, FftShared.fruns A f n s1 s2 <-> exists g, g 0 = s1 /\ g n = s2 /\ schedule (FftShared.fstep A f) g n) by runs.
  split; [exact I|]. intros owner programs P. eexists. intros g n H0 H. apply (PropFft.C70_bounded A f Hf owner programs n (g n) P). apply I. exists g. auto.
Qed.
(** ** The MPI pool with tasks that cannot be sent or that throw, and its destruction (C75) *)
Theorem C75_schedules : forall M (perform : nat -> list M) n size is_mpi throws, 2 <= size -> (forall t, perform t <> []) ->
  (forall k s1 s2, MpiLife.lrun M perform n size is_mpi throws k s1 s2 <-> exists f, f 0 = s1 /\ f k = s2 /\ schedule (MpiLife.lstep M perform n size is_mpi throws) f k) /\
  (forall f k, f 0 = MpiLife.linit M size -> schedule (MpiLife.lstep M perform n size is_mpi throws) f k -> k <= fold_right Nat.add 0 (map (fun t => 3 + length (perform t)) (seq 0 n)) + 3 * size + 1).
Proof.
  intros M perform n size im th Hs Hp.
  assert (I : forall k s1 s2, MpiLife.lrun M perform n size im th k s1 s2 <-> exists f, f 0 = s1 /\ f k = s2 /\ schedule (MpiLife.lstep M perform n size im th) f k) by runs.
  split; [exact I|]. intros f k H0 H.
  assert (E : forall l, PropQueue.sumf (fun t => 3 + length (perform t)) l = fold_right Nat.add 0 (map (fun t => 3 + length (perform t)) l)) by (clear; induction l as [|a l IH]; [reflexivity|]; cbn [PropQueue.sumf map fold_right]; rewrite <- IH; reflexivity).
  rewrite <- E. apply (PropMpiLife.C75_runs_finite M perform n size im th Hs Hp k (f k)). apply I. exists f. auto.
Qed.
(** ** The thread pool whose tasks throw something foreign (C76) *)
Theorem C76_schedules : forall R perform foreign,
  (forall k s1 s2, PoolForeign.frun R perform foreign k s1 s2 <-> exists f, f 0 = s1 /\ f k = s2 /\ schedule (PoolForeign.fstep R perform foreign) f k) /\
  (forall w ns f k, f 0 = PoolForeign.finit R w ns -> schedule (PoolForeign.fstep R perform foreign) f k -> k <= 5 * fold_right Nat.add 0 ns + w + 1).
Proof.
  intros R perform fo. assert (I : forall k s1 s2, PoolForeign.frun R perform fo k s1 s2 <-> exists f, f 0 = s1 /\ f k = s2 /\ schedule (PoolForeign.fstep R perform fo) f k) by runs.
  split; [exact I|]. intros w ns f k H0 H. rewrite <- sum_id. apply (PropPoolForeign.C76_runs_finite R perform fo w ns k (f k)). apply I. exists f. auto.
Qed.
Print Assumptions C75_schedules. Print Assumptions C76_schedules.
Print Assumptions C33_schedules. Print Assumptions C36_schedules. Print Assumptions C37_schedules. Print Assumptions C64_schedules. Print Assumptions C66_schedules. Print Assumptions C70_schedules.
