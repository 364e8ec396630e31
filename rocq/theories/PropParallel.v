(** C32 sequential worker pool, C39 statistics, C40 factory, C41 registry. *)
From Coq Require Import Sorted.
From Verif Require Import Base Parallel.
Local Open Scope Z_scope.
Local Open Scope list_scope.

(** ** C32 *)
Section Seq.
Variables T R W : Type.
Variable perform : T -> W -> outcome R * W.

(** performing tasks one after the other, each exactly once, in order, all successfully *)
Inductive performs : list T -> W -> list R -> W -> Prop :=
| performs_nil : forall w, performs [] w [] w
| performs_cons : forall t ts w v w1 vs w2, perform t w = (Ok v, w1) -> performs ts w1 vs w2 -> performs (t :: ts) w (v :: vs) w2.

(** Every DoTasks call is exactly one of: all tasks performed in order, result i of task i, counter increased by their
    number; or a prefix performed and then one task that does not return normally: nothing after it runs, its exception
    is what escapes, and the counter has grown by the number of completed tasks. *)
Theorem C32_do_tasks : forall tasks counted w,
  (exists vs w', performs tasks w vs w' /\ length vs = length tasks /\
     seq_do_tasks T R W perform tasks counted w = (Ok vs, counted + Z.of_nat (length tasks), w')) \/
  (exists ts t rest vs w1 x w2, tasks = ts ++ t :: rest /\ performs ts w vs w1 /\ perform t w1 = (x, w2) /\
     (forall v, x <> Ok v) /\
     seq_do_tasks T R W perform tasks counted w =
       (match x with Ok _ => Ok [] | Throw e => Throw e | UB u => UB u end, counted + Z.of_nat (length ts), w2)).
Proof.
  induction tasks as [|t tasks IH]; intros counted w; cbn [seq_do_tasks].
  - left. exists [], w. split; [constructor|]. split; [reflexivity|]. f_equal. f_equal. cbn. lia.
  - destruct (perform t w) as [[v|e|u] w1] eqn:P.
    + destruct (IH (counted + 1) w1) as [(vs & w' & H1 & H2 & H3)|(ts & t0 & rest & vs & w2 & x & w3 & H1 & H2 & H3 & H4 & H5)].
      * left. exists (v :: vs), w'. split; [econstructor; eauto|]. split; [cbn; congruence|]. rewrite H3. f_equal. f_equal. cbn [length]. lia.
      * right. exists (t :: ts), t0, rest, (v :: vs), w2, x, w3. split; [cbn; congruence|]. split; [econstructor; eauto|].
        split; [exact H3|]. split; [exact H4|]. rewrite H5.
        replace (counted + 1 + Z.of_nat (length ts)) with (counted + Z.of_nat (length (t :: ts))) by (cbn [length]; lia).
        destruct x as [v'|e|u]; [exfalso; eapply H4; reflexivity|reflexivity|reflexivity].
    + right. exists [], t, tasks, [], w, (Throw e), w1. split; [reflexivity|]. split; [constructor|]. split; [exact P|].
      split; [discriminate|]. f_equal. f_equal. cbn. lia.
    + right. exists [], t, tasks, [], w, (UB u), w1. split; [reflexivity|]. split; [constructor|]. split; [exact P|].
      split; [discriminate|]. f_equal. f_equal. cbn. lia.
Qed.

(** For tasks without effects on each other: the result list is the map. *)
Theorem C32_results_in_order : forall (g : T -> R) tasks counted w, (forall t w0, exists w1, perform t w0 = (Ok (g t), w1)) ->
  fst (fst (seq_do_tasks T R W perform tasks counted w)) = Ok (map g tasks).
Proof.
  intros g tasks counted w H. revert counted w. induction tasks as [|t tasks IH]; intros counted w; cbn [seq_do_tasks map]; [reflexivity|].
  destruct (H t w) as [w1 ->]. specialize (IH (counted + 1) w1). destruct (seq_do_tasks T R W perform tasks (counted + 1) w1) as [[o c] w2].
  cbn in *. rewrite IH. reflexivity.
Qed.
End Seq.
Print Assumptions C32_do_tasks.
Print Assumptions C32_results_in_order.
Example C32_witness : seq_do_tasks Z Z (list Z) (fun t w => (if t =? 0 then Throw RuntimeError else Ok (t * 2), t :: w)) [3; 5; 0; 7] 10 [] =
  (Throw RuntimeError, 12, [0; 5; 3]) /\
  seq_do_tasks Z Z (list Z) (fun t w => (if t =? 0 then Throw RuntimeError else Ok (t * 2), t :: w)) [3; 5; 7] 10 [] = (Ok [6; 10; 14], 13, [7; 5; 3]).
Proof. split; reflexivity. Qed.

(** ** C39 *)
Definition is_count (id : Z) (o : stat_op) : bool := match o with RegCount i => i =? id | _ => false end.
Definition is_error (id : Z) (o : stat_op) : bool := match o with RegError i => i =? id | _ => false end.
Definition op_id (o : stat_op) : Z := match o with RegCount i => i | RegError i => i end.
Definition number {A} (p : A -> bool) (l : list A) : Z := Z.of_nat (length (filter p l)).

Lemma sm_find_put k k' s m : sm_find k (sm_put k' s m) = if k =? k' then Some s else sm_find k m.
Proof.
  induction m as [|[a x] m IH]; cbn [sm_put sm_find].
  - destruct (Z.eqb_spec k k'); reflexivity.
  - destruct (Z.ltb_spec k' a).
    + cbn [sm_find]. destruct (Z.eqb_spec k k'); reflexivity.
    + destruct (Z.eqb_spec k' a) as [->|N]; cbn [sm_find].
      * destruct (Z.eqb_spec k a); reflexivity.
      * rewrite IH. destruct (Z.eqb_spec k a) as [->|]; [|reflexivity]. destruct (Z.eqb_spec a k'); [congruence|reflexivity].
Qed.
Lemma sm_put_sorted k s m : StronglySorted Z.lt (map fst m) -> StronglySorted Z.lt (map fst (sm_put k s m)).
Proof.
  induction m as [|[a x] m IH]; cbn [sm_put map fst]; intro H; [repeat constructor|].
  inversion H as [|? ? H1 H2]; subst.
  destruct (Z.ltb_spec k a) as [L|L].
  - cbn [map fst]. constructor; [exact H|]. constructor; [exact L|]. eapply Forall_impl; [|exact H2]. cbn. lia.
  - destruct (Z.eqb_spec k a) as [->|N]; cbn [map fst]; [exact H|]. constructor; [apply IH; exact H1|].
    rewrite Forall_forall in *. intros y Hy.
    assert (In y (map fst m) \/ y = k) as [Y|Y].
    { clear - Hy. induction m as [|[b z] m IH]; cbn in *; [intuition congruence|]. destruct (k <? b); cbn in Hy; [intuition congruence|].
      destruct (k =? b); cbn in Hy; intuition congruence. }
    + apply H2. exact Y.
    + subst. lia.
Qed.
Lemma sm_find_in k s m : StronglySorted Z.lt (map fst m) -> (sm_find k m = Some s <-> In (k, s) m).
Proof.
  induction m as [|[a x] m IH]; cbn; intro H; [split; [discriminate|tauto]|]. inversion H as [|? ? H1 H2]; subst.
  destruct (Z.eqb_spec k a) as [->|N].
  - split; [intro X; injection X as ->; auto|]. intros [X|X]; [congruence|]. exfalso. rewrite Forall_forall in H2.
    specialize (H2 a). apply (Z.lt_irrefl a). apply H2. apply in_map_iff. exists (a, s). auto.
  - rewrite IH by exact H1. split; [auto|]. intros [X|X]; [congruence|exact X].
Qed.


Lemma number_zero id (p : stat_op -> bool) past : ~ In id (map op_id past) -> (forall o, p o = true -> op_id o = id) -> number p past = 0.
Proof.
  intros Hn Hp. unfold number. induction past as [|a past IH]; [reflexivity|]. cbn [filter]. cbn [map In] in Hn.
  destruct (p a) eqn:E; [exfalso; apply Hn; left; auto|]. apply IH. tauto.
Qed.
Lemma number_snoc {A} (p : A -> bool) past o : number p (past ++ [o]) = number p past + (if p o then 1 else 0).
Proof. unfold number. rewrite filter_app, app_length. cbn [filter]. destruct (p o); cbn [length]; lia. Qed.
Lemma is_count_id id o : is_count id o = true -> op_id o = id.
Proof. destruct o; cbn; intro H; [apply Z.eqb_eq in H; exact H|discriminate]. Qed.
Lemma is_error_id id o : is_error id o = true -> op_id o = id.
Proof. destruct o; cbn; intro H; [discriminate|apply Z.eqb_eq in H; exact H]. Qed.

Definition stat_inv (past : list stat_op) (m : list (Z * wstat)) : Prop :=
  StronglySorted Z.lt (map fst m) /\
  forall id, sm_find id m = if in_dec Z.eq_dec id (map op_id past)
    then Some (MkStat (number (is_count id) past) (number (is_error id) past) id) else None.
Definition stat_step (o : stat_op) (m : list (Z * wstat)) := match o with RegCount id => register_count id m | RegError id => register_error id m end.
Lemma get_appropriate_inv past m id : stat_inv past m ->
  get_appropriate m id = MkStat (number (is_count id) past) (number (is_error id) past) id.
Proof.
  intros [_ H]. unfold get_appropriate. rewrite H. destruct (in_dec Z.eq_dec id (map op_id past)) as [i|n]; [reflexivity|].
  rewrite (number_zero id (is_count id)), (number_zero id (is_error id)); auto using is_count_id, is_error_id.
Qed.
Lemma stat_step_inv past m o : stat_inv past m -> stat_inv (past ++ [o]) (stat_step o m).
Proof.
  intro H. assert (A := get_appropriate_inv past m (op_id o) H). destruct H as [Hs Hf].
  assert (E : stat_step o m = sm_put (op_id o) (MkStat (number (is_count (op_id o)) (past ++ [o])) (number (is_error (op_id o)) (past ++ [o])) (op_id o)) m).
  { rewrite !number_snoc. destruct o as [id|id]; cbn [stat_step op_id is_count is_error] in *; unfold register_count, register_error; rewrite A;
    unfold increase_counted, increase_errors; cbn [ws_counted ws_errors ws_id]; rewrite Z.eqb_refl, ?Z.add_0_r; reflexivity. }
  rewrite E. split; [apply sm_put_sorted; exact Hs|].
  intro id. rewrite sm_find_put. rewrite map_app. cbn [map].
  destruct (Z.eqb_spec id (op_id o)) as [->|N].
  - destruct (in_dec Z.eq_dec (op_id o) (map op_id past ++ [op_id o])) as [_|n]; [reflexivity|]. exfalso. apply n. apply in_or_app. right. left. reflexivity.
  - rewrite Hf. rewrite !number_snoc.
    assert (C : is_count id o = false) by (destruct (is_count id o) eqn:X; [apply is_count_id in X; congruence|reflexivity]).
    assert (C' : is_error id o = false) by (destruct (is_error id o) eqn:X; [apply is_error_id in X; congruence|reflexivity]).
    rewrite C, C', !Z.add_0_r.
    destruct (in_dec Z.eq_dec id (map op_id past)) as [i|n]; destruct (in_dec Z.eq_dec id (map op_id past ++ [op_id o])) as [i'|n']; try reflexivity.
    + exfalso. apply n'. apply in_or_app. left. exact i.
    + exfalso. apply in_app_or in i'. destruct i' as [i'|[i'|[]]]; [exact (n i')|congruence].
Qed.
Lemma stat_run_inv todo : forall past m, stat_inv past m -> stat_inv (past ++ todo) (stat_run m todo).
Proof.
  induction todo as [|o todo IH]; intros past m H; cbn [stat_run]; [rewrite app_nil_r; exact H|].
  replace (past ++ o :: todo) with ((past ++ [o]) ++ todo) by (rewrite <- app_assoc; reflexivity).
  apply (stat_step_inv _ _ o) in H. destruct o; cbn [stat_step] in H; apply IH; exact H.
Qed.

(** After any sequence of registrations, GetStatistics lists exactly the ids that occurred, each once, in increasing
    order, each with its numbers of completions and of errors. *)
Theorem C39_statistics : forall ops, let st := get_statistics (stat_run [] ops) in
  StronglySorted Z.lt (map ws_id st) /\
  (forall id, In id (map ws_id st) <-> In id (map op_id ops)) /\
  (forall s, In s st -> ws_counted s = number (is_count (ws_id s)) ops /\ ws_errors s = number (is_error (ws_id s)) ops).
Proof.
  intro ops. cbv zeta. unfold get_statistics.
  assert (H : stat_inv ([] ++ ops) (stat_run [] ops)).
  { apply stat_run_inv. split; [constructor|]. intro id. reflexivity. }
  cbn [app] in H. destruct H as [Hs Hf]. set (m := stat_run [] ops) in *. clearbody m.
  assert (K : forall k s, In (k, s) m -> s = MkStat (number (is_count k) ops) (number (is_error k) ops) k /\ In k (map op_id ops)).
  { intros k s Hi. apply (sm_find_in k s m Hs) in Hi. rewrite Hf in Hi. destruct (in_dec Z.eq_dec k (map op_id ops)); [|discriminate].
    injection Hi as <-. auto. }
  assert (Ids : map ws_id (map snd m) = map fst m).
  { rewrite map_map. apply map_ext_in. intros [k s] Hi. apply K in Hi. destruct Hi as [-> _]. reflexivity. }
  rewrite Ids. split; [exact Hs|]. split.
  - intro id. split; intro Hi.
    + apply in_map_iff in Hi. destruct Hi as ([k s] & E & Hi). apply K in Hi. cbn in E. subst. tauto.
    + specialize (Hf id). destruct (in_dec Z.eq_dec id (map op_id ops)); [|tauto]. apply (sm_find_in _ _ m Hs) in Hf.
      apply in_map_iff. eexists. split; [|exact Hf]. reflexivity.
  - intros s Hi. apply in_map_iff in Hi. destruct Hi as ([k s'] & E & Hi). cbn in E. subst s'. apply K in Hi. destruct Hi as [-> _].
    cbn. auto.
Qed.
Print Assumptions C39_statistics.
Example C39_witness : get_statistics (stat_run [] [RegCount 7; RegCount 3; RegError 7; RegCount 7]) = [MkStat 1 0 3; MkStat 2 1 7].
Proof. reflexivity. Qed.

(** ** C40 *)

(** what the documentation promises: available means the library was built with the option (and, for MPI, that the one
    MPI pool of the process does not exist yet); usable means at least two workers (threads or ranks). *)
Definition available (pf : platform) (created : bool) (t : pool_type) : Prop :=
  match t with ThreadPool => with_thread pf = true | MpiPool => with_mpi pf = true /\ created = false | SequentialPool => True end.
Definition usable (pf : platform) (t : pool_type) : Prop :=
  match t with ThreadPool => 2 <= hw_threads pf | MpiPool => 2 <= mpi_size pf | SequentialPool => True end.
Definition preferred : list pool_type := [MpiPool; ThreadPool; SequentialPool].

(** When it returns, it returns the first type in the preference order that is available and usable. *)
Theorem C40_best : forall pf created p created', create_best pf created = (Ok p, created') ->
  exists before after, preferred = before ++ p :: after /\ available pf created p /\ usable pf p /\
    forall q, In q before -> ~ (available pf created q /\ usable pf q).
Proof.
  intros [wm wt ms hw] created p created'. unfold create_best, preferred. cbn [best_loop can_create create_pool is_valid with_mpi with_thread mpi_size hw_threads].
  intro H.
  assert (HM : (wm = true /\ created = false /\ 2 <= ms /\ p = MpiPool) \/
    ((~ (wm = true /\ created = false /\ 2 <= ms)) /\ exists c, (if wt then if hw <=? 0 then (Throw InvalidArgument, c) else if 2 <=? hw then (Ok ThreadPool, c) else (Ok SequentialPool, c) else (Ok SequentialPool, c)) = (Ok p, created'))).
  { destruct wm; [destruct created; cbn [negb] in H|].
    - right. split; [intros (_ & X & _); discriminate|]. exists true. rewrite <- H. destruct wt; [|reflexivity]. destruct (hw <=? 0); [reflexivity|]. cbn [is_valid hw_threads]. destruct (2 <=? hw); reflexivity.
    - cbn [is_valid mpi_size] in H. destruct (Z.leb_spec 2 ms) as [L|L]; [left; injection H as <- _; auto|]. right. split; [lia|]. exists true.
      rewrite <- H. destruct wt; [|reflexivity]. destruct (hw <=? 0); [reflexivity|]. cbn [is_valid hw_threads]. destruct (2 <=? hw); reflexivity.
    - right. split; [intros (X & _); discriminate|]. exists created. rewrite <- H. destruct wt; [|reflexivity]. destruct (hw <=? 0); [reflexivity|]. cbn [is_valid hw_threads]. destruct (2 <=? hw); reflexivity. }
  destruct HM as [(-> & -> & L & ->)|(N & c & E)].
  - exists [], [ThreadPool; SequentialPool]. cbn. repeat split; auto; intros ? [].
  - destruct wt.
    + destruct (hw <=? 0); [discriminate|]. destruct (Z.leb_spec 2 hw) as [L|L]; injection E as <- _.
      * exists [MpiPool], [SequentialPool]. cbn. repeat split; auto. intros q [<-|[]]. cbn. tauto.
      * exists [MpiPool; ThreadPool], []. cbn. repeat split; auto. intros q [<-|[<-|[]]]; cbn; [tauto|lia].
    + injection E as <- _. exists [MpiPool; ThreadPool], []. cbn. repeat split; auto. intros q [<-|[<-|[]]]; cbn; [tauto|]. intros [X _]. discriminate.
Qed.
(** It fails exactly when no usable MPI pool can be made and the library has threads on a platform that reports no
    hardware threads (hardware_concurrency() = 0): the constructor's invalid_argument escapes although the sequential
    pool is available. Otherwise it returns. *)
Theorem C40_fails_iff : forall pf created,
  ((forall p, fst (create_best pf created) <> Ok p) <->
   (~ (available pf created MpiPool /\ usable pf MpiPool) /\ with_thread pf = true /\ hw_threads pf <= 0)) /\
  ((forall p, fst (create_best pf created) <> Ok p) -> fst (create_best pf created) = Throw InvalidArgument).
Proof.
  intros [wm wt ms hw] created. unfold create_best. cbn [best_loop can_create create_pool is_valid available usable with_mpi with_thread mpi_size hw_threads].
  assert (T : forall c (x : outcome pool_type * bool),
    x = (if wt then if hw <=? 0 then (Throw InvalidArgument, c) else if 2 <=? hw then (Ok ThreadPool, c) else (Ok SequentialPool, c) else (Ok SequentialPool, c)) ->
    ((forall p, fst x <> Ok p) <-> (wt = true /\ hw <= 0)) /\ ((forall p, fst x <> Ok p) -> fst x = Throw InvalidArgument)).
  { intros c x ->. destruct wt; [destruct (Z.leb_spec hw 0); [|destruct (Z.leb_spec 2 hw)]|]; cbn [fst].
    - split; [split; auto; discriminate|auto].
    - split; [split; [intro H1; exfalso; eapply H1; reflexivity|lia]|intro H1; exfalso; eapply H1; reflexivity].
    - split; [split; [intro H1; exfalso; eapply H1; reflexivity|lia]|intro H1; exfalso; eapply H1; reflexivity].
    - split; [split; [intro H1; exfalso; eapply H1; reflexivity|intros [X _]; discriminate]|intro H1; exfalso; eapply H1; reflexivity]. }
  destruct wm; [destruct created; cbn [negb]|].
  - match goal with |- ((forall p, fst ?x <> _) <-> _) /\ _ => destruct (T true x) as [T1 T2] end.
    { destruct wt; [|reflexivity]. destruct (hw <=? 0); [reflexivity|]. cbn [is_valid hw_threads]. destruct (2 <=? hw); reflexivity. }
    split; [|exact T2]. rewrite T1. split; [|tauto]. intros [A B]. split; [|auto]. intros [[_ X] _]; discriminate.
  - cbn [is_valid mpi_size]. destruct (Z.leb_spec 2 ms) as [L|L].
    + cbn. split; [split; [intro H1; exfalso; eapply H1; reflexivity|tauto]|intro H1; exfalso; eapply H1; reflexivity].
    + match goal with |- ((forall p, fst ?x <> _) <-> _) /\ _ => destruct (T true x) as [T1 T2] end.
      { destruct wt; [|reflexivity]. destruct (hw <=? 0); [reflexivity|]. cbn [is_valid hw_threads]. destruct (2 <=? hw); reflexivity. }
      split; [|exact T2]. rewrite T1. split; [|tauto]. intros [A B]. split; [|auto]. lia.
  - match goal with |- ((forall p, fst ?x <> _) <-> _) /\ _ => destruct (T created x) as [T1 T2] end.
    { destruct wt; [|reflexivity]. destruct (hw <=? 0); [reflexivity|]. cbn [is_valid hw_threads]. destruct (2 <=? hw); reflexivity. }
    split; [|exact T2]. rewrite T1. split; [|tauto]. intros [A B]. split; [|auto]. intros [[X _] _]; discriminate.
Qed.
(** any history of calls: every call may run on a different platform state *)
Inductive factory_op : Type := Create (t : pool_type) (pf : platform) | CreateBest (pf : platform).
Fixpoint factory_run (created : bool) (os : list factory_op) : list (outcome pool_type) :=
  match os with
  | [] => []
  | Create t pf :: r => let (x, c) := create_pool pf created t in x :: factory_run c r
  | CreateBest pf :: r => let (x, c) := create_best pf created in x :: factory_run c r
  end.
Lemma create_pool_mono pf c t x c' : create_pool pf c t = (x, c') -> (c = true -> c' = true /\ x <> Ok MpiPool) /\ (x = Ok MpiPool -> c' = true).
Proof.
  destruct t; cbn; intro H.
  - destruct (with_mpi pf); [destruct c|]; injection H as <- <-; split; intros; try split; auto; try discriminate.
  - destruct (with_thread pf); [destruct (hw_threads pf <=? 0)|]; injection H as <- <-; split; intros; try split; auto; try discriminate.
  - injection H as <- <-; split; intros; try split; auto; try discriminate.
Qed.
Lemma best_loop_mono pf ts : forall c x c', best_loop pf c ts = (x, c') -> (c = true -> c' = true /\ x <> Ok MpiPool) /\ (x = Ok MpiPool -> c' = true).
Proof.
  induction ts as [|t ts IH]; intros c x c' H; cbn [best_loop] in H.
  - injection H as <- <-; split; intros; try split; auto; discriminate.
  - destruct (can_create pf c t); [|apply IH; exact H]. destruct (create_pool pf c t) as [y c1] eqn:E.
    apply create_pool_mono in E. destruct E as [E1 E2]. destruct y as [p|e|u].
    + destruct (is_valid pf p).
      * injection H as <- <-. auto.
      * destruct (IH _ _ _ H) as [H1 H2]. split; [|exact H2]. intro Hc. apply E1 in Hc. destruct Hc as [Hc _]. auto.
    + injection H as <- <-. split; [intro Hc; apply E1 in Hc; tauto|discriminate].
    + injection H as <- <-. split; [intro Hc; apply E1 in Hc; tauto|discriminate].
Qed.
Definition is_mpi (x : outcome pool_type) : bool := match x with Ok MpiPool => true | _ => false end.
(** In any history of CreateWorkerPool and CreateBestWorkerPool calls of a process at most one call returns an MPI pool. *)
Theorem C40_one_mpi_pool : forall os, number is_mpi (factory_run false os) <= 1.
Proof.
  assert (Z0 : forall os, number is_mpi (factory_run true os) = 0).
  { induction os as [|[t pf|pf] os IH]; [reflexivity|cbn [factory_run]..].
    - destruct (create_pool pf true t) as [x c] eqn:E. apply create_pool_mono in E. destruct E as [E _]. destruct (E eq_refl) as [-> N].
      unfold number in *. cbn [filter]. destruct x as [[]| |]; cbn [is_mpi]; try exact IH. congruence.
    - destruct (create_best pf true) as [x c] eqn:E. apply best_loop_mono in E. destruct E as [E _]. destruct (E eq_refl) as [-> N].
      unfold number in *. cbn [filter]. destruct x as [[]| |]; cbn [is_mpi]; try exact IH. congruence. }
  assert (St : forall x c os, (x = Ok MpiPool -> c = true) -> (forall c0, number is_mpi (factory_run c0 os) <= 1) -> number is_mpi (x :: factory_run c os) <= 1).
  { intros x c os H IH. unfold number in *. cbn [filter]. destruct (is_mpi x) eqn:E; [|apply IH].
    rewrite H by (destruct x as [[]| |]; try discriminate; reflexivity). cbn [length]. rewrite Nat2Z.inj_succ, Z0. lia. }
  assert (G : forall os c, number is_mpi (factory_run c os) <= 1).
  { induction os as [|[t pf|pf] os IH]; intro c0; [cbn; lia|cbn [factory_run]..].
    - destruct (create_pool pf c0 t) as [x c] eqn:E. apply create_pool_mono in E. apply St; [tauto|exact IH].
    - destruct (create_best pf c0) as [x c] eqn:E. apply best_loop_mono in E. apply St; [tauto|exact IH]. }
  intro os. apply G.
Qed.
(** An MPI pool that turns out to be invalid (a single rank) is still counted as created: every later attempt is refused. *)
Theorem C40_invalid_mpi_burns : forall pf pf', with_mpi pf = true -> mpi_size pf < 2 -> with_mpi pf' = true -> 
  snd (create_best pf false) = true /\ fst (create_pool pf' (snd (create_best pf false)) MpiPool) = Throw RuntimeError.
Proof.
  intros [wm wt ms hw] pf' Hm Hs Hm'. cbn in Hm, Hs. subst wm.
  assert (E : snd (create_best (MkPlatform true wt ms hw) false) = true).
  { unfold create_best. cbn [best_loop can_create create_pool is_valid with_mpi with_thread mpi_size hw_threads negb].
    cbn [is_valid mpi_size]. destruct (Z.leb_spec 2 ms); [lia|]. destruct wt; [destruct (hw <=? 0); [reflexivity|cbn [is_valid hw_threads]; destruct (2 <=? hw); reflexivity]|reflexivity]. }
  split; [exact E|]. rewrite E. cbn. rewrite Hm'. reflexivity.
Qed.
Print Assumptions C40_best.
Print Assumptions C40_fails_iff.
Print Assumptions C40_one_mpi_pool.
Print Assumptions C40_invalid_mpi_burns.
Example C40_witness : create_best (MkPlatform true true 4 8) false = (Ok MpiPool, true) /\ create_best (MkPlatform true true 4 8) true = (Ok ThreadPool, true) /\
  create_best (MkPlatform false true 0 1) false = (Ok SequentialPool, false) /\ create_best (MkPlatform false true 0 0) false = (Throw InvalidArgument, false).
Proof. repeat split. Qed.

(** ** C41 *)
Section Reg.
Variables O I : Type.
Variable ieqb : I -> I -> bool.
Hypothesis ieqb_spec : forall a b, ieqb a b = true <-> a = b.
(** the object most recently registered under [k], looking back from the end of the history *)
Fixpoint latest (k : I) (newest_first : list (reg_op O I)) : option O :=
  match newest_first with
  | [] => None
  | Register _ _ k' o :: r => if ieqb k k' then Some o else latest k r
  | Lookup _ _ _ :: r => latest k r
  end.
(** what every look-up of a history must answer *)
Fixpoint expected (past_newest_first todo : list (reg_op O I)) : list (I * outcome O) :=
  match todo with
  | [] => []
  | Register _ _ k o :: r => expected (Register _ _ k o :: past_newest_first) r
  | Lookup _ _ k :: r => (k, match latest k past_newest_first with Some o => Ok o | None => Throw InvalidArgument end) :: expected (Lookup _ _ k :: past_newest_first) r
  end.
Lemma ieqb_refl k : ieqb k k = true. Proof. apply ieqb_spec. reflexivity. Qed.
Lemma rg_find_put k k' o m : rg_find O I ieqb k (rg_put O I ieqb k' o m) = if ieqb k k' then Some o else rg_find O I ieqb k m.
Proof.
  induction m as [|[a x] m IH]; cbn [rg_put rg_find]; [reflexivity|].
  destruct (ieqb k' a) eqn:E; cbn [rg_find].
  - apply ieqb_spec in E. subst a. destruct (ieqb k k'); reflexivity.
  - rewrite IH. destruct (ieqb k a) eqn:E2; [|reflexivity]. apply ieqb_spec in E2. subst a.
    destruct (ieqb k k') eqn:E3; [|reflexivity]. apply ieqb_spec in E3. subst k'. rewrite ieqb_refl in E. discriminate.
Qed.
Definition rg_value (k : I) (m : registry O I) : option O := match rg_find O I ieqb k m with Some (Some o) => Some o | _ => None end.
Theorem C41_history : forall os, snd (reg_run O I ieqb [] os) = expected [] os.
Proof.
  assert (G : forall todo past m, (forall k, rg_value k m = latest k past) -> snd (reg_run O I ieqb m todo) = expected past todo).
  { induction todo as [|[k o|k] todo IH]; intros past m Hm; cbn [reg_run expected]; [reflexivity|..].
    - apply IH. intro k0. cbn [latest]. unfold rg_value, register_object. rewrite rg_find_put. destruct (ieqb k0 k); [reflexivity|]. apply Hm.
    - destruct (get_object O I ieqb k m) as [x m1] eqn:Eg. destruct (reg_run O I ieqb m1 todo) as [m2 ys] eqn:Er. cbn [snd].
      assert (X : x = match latest k past with Some o => Ok o | None => Throw InvalidArgument end /\ forall k0, rg_value k0 m1 = rg_value k0 m).
      { rewrite <- Hm. unfold get_object in Eg. unfold rg_value. destruct (rg_find O I ieqb k m) as [[o|]|] eqn:F; injection Eg as <- <-; split; try reflexivity.
        intro k0. rewrite rg_find_put. destruct (ieqb k0 k) eqn:E; [|reflexivity]. apply ieqb_spec in E. subst k0. rewrite F. reflexivity. }
      destruct X as [-> X]. f_equal. replace ys with (snd (reg_run O I ieqb m1 todo)) by (rewrite Er; reflexivity). apply IH.
      intro k0. rewrite X. apply Hm. }
  intro os. apply G. intro k. reflexivity.
Qed.
(** Direct consequences. *)
Theorem C41_unregistered_throws : forall os k, (forall o, ~ In (Register O I k o) os) ->
  fst (get_object O I ieqb k (fst (reg_run O I ieqb [] os))) = Throw InvalidArgument.
Proof.
  intros os k H.
  assert (G : forall todo m, (forall o, ~ In (Register O I k o) todo) -> rg_value k m = None -> rg_value k (fst (reg_run O I ieqb m todo)) = None).
  { induction todo as [|[k' o|k'] todo IH]; intros m Hn Hm; cbn [reg_run]; [exact Hm|..].
    - apply IH; [intros o' Hi; apply (Hn o'); right; exact Hi|]. unfold rg_value, register_object. rewrite rg_find_put.
      destruct (ieqb k k') eqn:E; [|exact Hm]. apply ieqb_spec in E. subst k'. exfalso. apply (Hn o). left. reflexivity.
    - destruct (get_object O I ieqb k' m) as [x m1] eqn:Eg. destruct (reg_run O I ieqb m1 todo) as [m2 ys] eqn:Er. cbn [fst].
      replace m2 with (fst (reg_run O I ieqb m1 todo)) by (rewrite Er; reflexivity). apply IH; [intros o' Hi; apply (Hn o'); right; exact Hi|].
      unfold get_object in Eg. destruct (rg_find O I ieqb k' m) as [[o|]|] eqn:F; injection Eg as <- <-; try exact Hm.
      unfold rg_value. rewrite rg_find_put. destruct (ieqb k k'); [reflexivity|exact Hm]. }
  specialize (G os [] H eq_refl). unfold rg_value in G. unfold get_object. destruct (rg_find O I ieqb k _) as [[o|]|]; [discriminate|reflexivity..].
Qed.
End Reg.
Print Assumptions C41_history.
Print Assumptions C41_unregistered_throws.
Example C41_witness : snd (reg_run nat nat Nat.eqb [] [Lookup _ _ 1%nat; Register _ _ 1%nat 10%nat; Lookup _ _ 1%nat; Register _ _ 1%nat 11%nat; Lookup _ _ 2%nat; Lookup _ _ 1%nat; Lookup _ _ 2%nat]) =
  [(1%nat, Throw InvalidArgument); (1%nat, Ok 10%nat); (2%nat, Throw InvalidArgument); (1%nat, Ok 11%nat); (2%nat, Throw InvalidArgument)].
Proof. reflexivity. Qed.
