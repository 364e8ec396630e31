(** C76: the thread pool and tasks that throw something else than a std::exception. *)
From Verif Require Import Base Pool PoolForeign PropQueue PropPool.
Local Open Scope list_scope.

Section C76.
Variable R : Type.
Variable perform : task -> option R.
Variable foreign : task -> option leaving.
Arguments p_calls {R}. Arguments p_todo {R}. Arguments p_workers {R}. Arguments p_done {R}. Arguments p_writes {R}.
Arguments p_exec {R}. Arguments p_sub {R}. Arguments p_taken {R}. Arguments p_lost {R}. Arguments MkPool {R}.
Arguments f_pool {R}. Arguments f_left {R}. Arguments f_dead {R}. Arguments MkF {R}.
Notation fstep := (fstep R perform foreign).
Notation frun := (frun R perform foreign).
Notation finit := (finit R).
(** For Pool.v, a task that throws something foreign has no result. *)
Definition perform0 (t : task) : option R := match foreign t with None => perform t | Some _ => None end.
Notation pinv0 := (pinvf R perform0 (fun t => foreign t = None /\ perform t = None)).

Lemma exec_longer {A} (l : list A) x : l <> l ++ [x].
Proof. intro H. apply (f_equal (@length A)) in H. rewrite app_length in H. cbn in H. lia. Qed.
(** A step of the pool, seen with [perform0]. *)
Lemma pstep0 p p' : pstep R perform p p' -> (forall t, p_exec p' = p_exec p ++ [t] -> foreign t = None) ->
  pstep R perform0 p p' /\ (forall t, perform0 t = None -> p_lost p' = p_lost p ++ [t] -> foreign t = None).
Proof.
  intros H F. destruct H as [s c k Hc L|s wi t r Hw Ht|s wi t v Hw Hp|s wi t Hw Hp|s wi t Hw|s c k t r Hc Hs Ht Hd];
    cbn [p_exec p_lost] in *; (split; [|try (intros t0 _ E; exfalso; exact (exec_longer _ _ E))]).
  - eapply P_submit; eassumption.
  - eapply P_get; eassumption.
  - eapply P_perform; [eassumption|]. unfold perform0. rewrite (F t eq_refl). exact Hp.
  - apply P_throw; [eassumption|]. unfold perform0. rewrite (F t eq_refl). exact Hp.
  - intros t0 _ E. apply app_inv_head in E. injection E as <-. exact (F t eq_refl).
  - eapply P_report; eassumption.
  - eapply P_token; eassumption.
Qed.
Lemma pinv0_step w ns p p' : pinv0 w ns p -> pstep R perform p p' -> (forall t, p_exec p' = p_exec p ++ [t] -> foreign t = None) -> pinv0 w ns p'.
Proof.
  intros I H F. destruct (pstep0 _ _ H F) as [H0 _].
  destruct H as [s c k Hc L|s wi t r Hw Ht|s wi t v Hw Hp|s wi t Hw Hp|s wi t Hw|s c k t r Hc Hs Ht Hd].
  4: { apply pinv_lose; [exact I|split; [apply F; reflexivity|exact Hp]|exact Hw]. }
  all: match type of H0 with pstep _ _ _ ?q =>
         assert (J := fun I0 => pinv_step R perform0 (fun t => perform0 t = None) w ns s q (fun t H => H) I0 H0) end;
       assert (I0 : pinvf R perform0 (fun t => perform0 t = None) w ns s)
         by (destruct I; constructor; auto; intros t0 X; apply iv_lost in X; unfold perform0; destruct X as [-> X]; exact X);
       specialize (J I0); assert (Kl := iv_lost _ _ _ _ _ _ I); destruct J; constructor; auto; intros t0 X; apply (Kl t0); exact X.
Qed.

(** ** Invariant *)
Record finv (w : nat) (ns : list nat) (s : fstate R) : Prop := {
  fi_pool : pinv0 w ns (f_pool s);
  fi_nodup : NoDup (f_left s);
  fi_left : forall i, In i (f_left s) -> exists t, nth_error (p_workers (f_pool s)) i = Some (WHas t) /\ foreign t = Some Leaves;
  fi_dead : f_dead s = true -> exists i t, nth_error (p_workers (f_pool s)) i = Some (WHas t) /\ foreign t = Some Terminates }.
Lemma nth_upd_other' {A} (l : list A) i j x : i <> j -> nth_error (upd l i x) j = nth_error l j.
Proof. revert i j. induction l as [|a l IH]; intros [|i] [|j] H; cbn; try reflexivity; try congruence. apply IH. congruence. Qed.
(** Steps of the pool leave a worker alone that holds a foreign task. *)
Lemma pstep_keeps p p' i t : pstep R perform p p' -> (forall t, p_exec p' = p_exec p ++ [t] -> foreign t = None) ->
  nth_error (p_workers p) i = Some (WHas t) -> foreign t <> None -> nth_error (p_workers p') i = Some (WHas t).
Proof.
  intros H F Hi Ft. destruct H as [s c k Hc L|s wi t0 r Hw Ht|s wi t0 v Hw Hp|s wi t0 Hw Hp|s wi t0 Hw|s c k t0 r Hc Hs Ht Hd]; cbn [p_workers p_exec] in *; try exact Hi.
  all: destruct (Nat.eq_dec wi i) as [->|N]; [|rewrite nth_upd_other' by exact N; exact Hi]; rewrite Hi in Hw; try discriminate; injection Hw as <-; exfalso; apply Ft, F; reflexivity.
Qed.
Lemma finv_step w ns s s' : finv w ns s -> fstep s s' -> finv w ns s'.
Proof.
  intros [I1 I2 I3 I4] H. destruct H as [s p' D H F|s wi t D Hw Ft Nl|s wi t D Hw Ft]; constructor; cbn [f_pool f_left f_dead]; auto.
  - eapply pinv0_step; eassumption.
  - intros i Hi. destruct (I3 i Hi) as (t & A & B). exists t. split; [|exact B]. eapply pstep_keeps; try eassumption. congruence.
  - discriminate.
  - constructor; assumption.
  - intros i [<-|Hi]; [exists t; auto|apply I3; exact Hi].
  - discriminate.
  - intros _. exists wi, t. auto.
Qed.
Lemma finv_init w ns : finv w ns (finit w ns).
Proof. constructor; cbn [f_pool f_left f_dead PoolForeign.finit]; [apply pinv_init|constructor|intros i []|discriminate]. Qed.
Lemma finv_run w ns k s : frun k (finit w ns) s -> finv w ns s.
Proof. intro H. remember (finit w ns) as s0 eqn:E. induction H as [x|k s1 s2 s3 H IH Hs]; [subst; apply finv_init|eapply finv_step; [apply IH; exact E|exact Hs]]. Qed.

(** ** What it is *)
(** Every run is one of the pool of Pool.v whose foreign tasks have not been performed yet: what was proved of those (C33_at_most_once) holds. *)
Theorem C76_refines : forall w ns k s, frun k (finit w ns) s ->
  exists j, j <= k /\ prun R perform0 j (pinit R w ns) (f_pool s) /\ forall t, In t (p_exec (f_pool s)) -> foreign t = None.
Proof.
  intros w ns k s H. remember (finit w ns) as s0 eqn:E0. induction H as [x|k s1 s2 s3 H IH Hs].
  - subst x. exists 0. split; [lia|]. split; [constructor|intros t []].
  - destruct (IH E0) as (j & Lj & Hj & Ex). destruct Hs as [s p' D Hp F|s wi t D Hw Ft Nl|s wi t D Hw Ft]; cbn [f_pool]; [|exists j; split; [lia|auto]..].
    exists (S j). split; [lia|]. split; [eapply prun_cons; [exact Hj|apply pstep0; assumption]|].
    intros t Ht. destruct Hp; cbn [p_exec] in *; try (apply Ex; exact Ht); apply in_app_iff in Ht; (destruct Ht as [Ht|[<-|[]]]; [apply Ex; exact Ht|apply F; reflexivity]).
Qed.
(** Without foreign tasks nothing is new. *)
Theorem C76_conservative : forall w ns, (forall t, is_task ns t -> foreign t = None) ->
  (forall k p, prun R perform k (pinit R w ns) p -> frun k (finit w ns) (MkF p [] false)) /\
  (forall k s, frun k (finit w ns) s -> f_left s = [] /\ f_dead s = false /\ prun R perform k (pinit R w ns) (f_pool s)).
Proof.
  intros w ns Ok.
  assert (T : forall s i t, finv w ns s -> nth_error (p_workers (f_pool s)) i = Some (WHas t) -> is_task ns t).
  { intros s i t I Hi. eapply valid_task; [apply (fi_pool _ _ _ I)|]. rewrite <- (iv_valid _ _ _ _ _ _ (fi_pool _ _ _ I)).
    assert (X := occ_sub_le _ _ _ _ _ _ t (fi_pool _ _ _ I)). assert (Y := iv_place _ _ _ _ _ _ (fi_pool _ _ _ I) t).
    assert (Z := sumf_upd (fun x => count_occ tdec (has x) t) _ _ _ WIdle Hi). cbn [has count_occ] in Z. destruct (tdec t t); [|congruence]. lia. }
  split.
  - intros k p H. remember (pinit R w ns) as p0 eqn:E0. induction H as [x|k s1 s2 s3 H IH Hs]; [subst x; constructor|].
    specialize (IH E0). eapply frun_cons; [exact IH|]. assert (I := finv_run _ _ _ _ IH).
    apply (F_pool R perform foreign (MkF s2 [] false)); [reflexivity|exact Hs|]. cbn [f_pool]. intros t Et.
    destruct Hs; cbn [p_exec] in Et; try (exfalso; exact (exec_longer _ _ Et)); apply app_inv_head in Et; injection Et as <-; apply Ok; eapply (T _ _ _ I); eassumption.
  - intros k s H. remember (finit w ns) as s0 eqn:E0. induction H as [x|k s1 s2 s3 H IH Hs]; [subst x; split; [reflexivity|split; [reflexivity|constructor]]|].
    destruct (IH E0) as (A & B & C). subst s1. assert (I := finv_run _ _ _ _ H). destruct Hs as [s p' D Hp F|s wi t D Hw Ft Nl|s wi t D Hw Ft]; cbn [f_pool f_left f_dead].
    + split; [exact A|]. split; [reflexivity|]. eapply prun_cons; eassumption.
    + rewrite Ok in Ft by (eapply T; eassumption). discriminate.
    + rewrite Ok in Ft by (eapply T; eassumption). discriminate.
Qed.
(** Every run is finite. *)
Lemma pcost0_step w ns p p' : pinv0 w ns p -> pstep R perform p p' -> (forall t, p_exec p' = p_exec p ++ [t] -> foreign t = None) -> pcost R p' < pcost R p.
Proof.
  intros I H F. destruct (pstep0 _ _ H F) as [H0 _]. eapply (pcost_step R perform0); [|exact H0].
  destruct I; constructor; eauto. intros t0 X. apply iv_lost in X. unfold perform0. destruct X as [-> X]. exact X.
Qed.
Lemma left_bound w ns s : finv w ns s -> length (f_left s) <= w.
Proof.
  intro I. rewrite <- (seq_length w 0). apply NoDup_incl_length; [apply (fi_nodup _ _ _ I)|]. intros i Hi. destruct (fi_left _ _ _ I i Hi) as (t & A & _).
  apply in_seq. assert (i < length (p_workers (f_pool s))) by (apply nth_error_Some; congruence). rewrite (iv_w _ _ _ _ _ _ (fi_pool _ _ _ I)) in H. lia.
Qed.
Theorem C76_runs_finite : forall w ns k s, frun k (finit w ns) s -> k <= 5 * sumf (fun x => x) ns + w + 1.
Proof.
  intros w ns k s H.
  set (cost s := pcost R (f_pool s) + (w - length (f_left s)) + (if f_dead s then 0 else 1)).
  assert (G : k + cost s <= cost (finit w ns)).
  { remember (finit w ns) as s0 eqn:E0. induction H as [x|k s1 s2 s3 H IH Hs]; [lia|]. specialize (IH E0). subst s1.
    assert (I := finv_run _ _ _ _ H). assert (I' := finv_step _ _ _ _ I Hs). assert (B := left_bound _ _ _ I'). assert (cost s3 < cost s2); [|lia]. unfold cost.
    destruct Hs as [s p' D Hp F|s wi t D Hw Ft Nl|s wi t D Hw Ft]; cbn [f_pool f_left f_dead length] in *; rewrite D.
    - assert (X := pcost0_step _ _ _ _ (fi_pool _ _ _ I) Hp F). lia.
    - lia.
    - lia. }
  assert (E : cost (finit w ns) = 5 * sumf (fun x => x) ns + w + 1).
  { unfold cost, pcost. cbn [PoolForeign.finit f_pool f_left f_dead pinit p_calls p_todo p_workers p_done length]. rewrite !sumf_repeat by reflexivity.
    assert (X : forall f (g : nat -> nat), (forall n, f (MkCall n 0 0) = g n) -> sumf f (map (fun n => MkCall n 0 0) ns) = sumf g ns)
      by (intros f g Q; clear - Q; induction ns as [|a l IH]; cbn; [reflexivity|rewrite IH, Q; reflexivity]).
    rewrite (X k_n (fun n => n)), (X k_sent (fun _ => 0)) by reflexivity. assert (Z : sumf (fun _ : nat => 0) ns = 0) by (clear; induction ns; cbn in *; lia). lia. }
  lia.
Qed.

(** ** What it does *)
(** A worker that has left keeps its task for ever: it was not performed, and has no result. Different workers left because of different tasks. *)
Theorem C76_left : forall w ns k s, frun k (finit w ns) s -> NoDup (f_left s) /\
  exists ts, NoDup ts /\ Forall2 (fun i t => i < w /\ is_task ns t /\ foreign t = Some Leaves /\ nth_error (p_workers (f_pool s)) i = Some (WHas t) /\
                                  ~ In t (p_exec (f_pool s)) /\ last_write R t (p_writes (f_pool s)) = None) (f_left s) ts.
Proof.
  intros w ns k s H. assert (I := finv_run _ _ _ _ H). assert (Ip := fi_pool _ _ _ I). split; [apply (fi_nodup _ _ _ I)|].
  destruct (C76_refines _ _ _ _ H) as (j & _ & Hj & Ex).
  exists (map (fun i => match nth_error (p_workers (f_pool s)) i with Some (WHas t) => t | _ => (0, 0) end) (f_left s)).
  assert (Nd := fi_nodup _ _ _ I). assert (Lf := fi_left _ _ _ I).
  assert (Occ : forall i t, nth_error (p_workers (f_pool s)) i = Some (WHas t) -> sumf (fun x => count_occ tdec (has x) t) (upd (p_workers (f_pool s)) i WIdle) = 0 /\
                 valid (p_calls (f_pool s)) t = 1).
  { intros i t Hi. assert (X := occ_sub_le _ _ _ _ _ _ t Ip). assert (Y := iv_place _ _ _ _ _ _ Ip t). assert (V := iv_valid _ _ _ _ _ _ Ip t).
    assert (Z := sumf_upd (fun x => count_occ tdec (has x) t) _ _ _ WIdle Hi). cbn [has count_occ] in Z. destruct (tdec t t); [|congruence]. lia. }
  induction (f_left s) as [|i l IH]; cbn [map]; [split; constructor|]. inversion Nd as [|? ? Ni Nl]; subst.
  destruct (IH Nl (fun q Hq => Lf q (or_intror Hq))) as [A B]. destruct (Lf i (or_introl eq_refl)) as (t & Hi & Ft). rewrite Hi. destruct (Occ _ _ Hi) as [O V]. split.
  - constructor; [|exact A]. intro Ht. apply in_map_iff in Ht. destruct Ht as (q & Eq & Hq). destruct (Lf q (or_intror Hq)) as (tq & Hq' & _). rewrite Hq' in Eq. subst tq.
    assert (Nq : i <> q) by (intros ->; exact (Ni Hq)). rewrite <- (nth_upd_other' _ _ _ WIdle Nq) in Hq'.
    assert (Z := sumf_zero _ _ O _ (nth_error_In _ _ Hq')). cbn [has count_occ] in Z. destruct (tdec t t); [discriminate|congruence].
  - constructor; [|exact B]. assert (i < w) by (rewrite <- (iv_w _ _ _ _ _ _ Ip); apply nth_error_Some; congruence).
    split; [assumption|]. split; [eapply valid_task; eassumption|]. split; [exact Ft|]. split; [exact Hi|].
    split; [intro X; rewrite (Ex _ X) in Ft; discriminate|]. destruct (last_write R t (p_writes (f_pool s))) as [v|] eqn:Lw; [|reflexivity].
    destruct (C33_at_most_once _ _ _ _ _ _ Hj) as (_ & _ & P). apply P in Lw. unfold perform0 in Lw. rewrite Ft in Lw. discriminate.
Qed.
(** No call with a foreign task among its tasks returns (calls made one at a time); of several calls at a time not all return. *)
Theorem C76_never_returns : forall w ns k s t, frun k (finit w ns) s -> is_task ns t -> foreign t <> None -> exists c, In c (p_calls (f_pool s)) /\ ~ returned c.
Proof.
  intros w ns k s t H Ht Ft. destruct (C76_refines _ _ _ _ H) as (j & _ & Hj & _).
  destruct (Forall_Exists_dec (fun c => returned c) (fun c => match Nat.eq_dec (k_sent c) (k_n c), Nat.eq_dec (k_taken c) (k_n c) with
     | left a, left b => left (conj a b) | right a, _ => right (fun x => a (proj1 x)) | _, right b => right (fun x => b (proj2 x)) end) (p_calls (f_pool s))) as [A|A].
  - rewrite Forall_forall in A. destruct (C35_all_returned _ _ _ _ _ _ Hj A) as (_ & X). destruct (X t Ht) as (_ & v & Hv & _). unfold perform0 in Hv. destruct (foreign t); [discriminate|congruence].
  - apply Exists_exists in A. destruct A as (c & Hc & Nr). exists c. auto.
Qed.
(** A terminated process does nothing more, and has been terminated by a task; *)
Theorem C76_dead : forall w ns k s, frun k (finit w ns) s -> f_dead s = true ->
  (exists i t, nth_error (p_workers (f_pool s)) i = Some (WHas t) /\ is_task ns t /\ foreign t = Some Terminates) /\ forall s', ~ fstep s s'.
Proof.
  intros w ns k s H D. assert (I := finv_run _ _ _ _ H). split.
  - destruct (fi_dead _ _ _ I D) as (i & t & Hi & Ft). exists i, t. split; [exact Hi|]. split; [|exact Ft].
    eapply valid_task; [apply (fi_pool _ _ _ I)|]. rewrite <- (iv_valid _ _ _ _ _ _ (fi_pool _ _ _ I)).
    assert (X := occ_sub_le _ _ _ _ _ _ t (fi_pool _ _ _ I)). assert (Y := iv_place _ _ _ _ _ _ (fi_pool _ _ _ I) t).
    assert (Z := sumf_upd (fun x => count_occ tdec (has x) t) _ _ _ WIdle Hi). cbn [has count_occ] in Z. destruct (tdec t t); [|congruence]. lia.
  - intros s' Hs. destruct Hs; congruence.
Qed.
(** A run that is not terminated ends with all tasks submitted, and: every worker gone; or every ordinary task performed, every other one has sent its worker away, and none would terminate. *)
Theorem C76_ends : forall w ns k s, frun k (finit w ns) s -> (forall s', ~ fstep s s') -> f_dead s = false ->
  (forall c, In c (p_calls (f_pool s)) -> k_sent c = k_n c) /\
  ((forall i, i < w -> In i (f_left s)) \/
   (p_todo (f_pool s) = [] /\ forall t, is_task ns t ->
      (foreign t = None /\ In t (p_exec (f_pool s))) \/
      (foreign t = Some Leaves /\ exists i, In i (f_left s) /\ nth_error (p_workers (f_pool s)) i = Some (WHas t)))).
Proof.
  intros w ns k s H St D. assert (I := finv_run _ _ _ _ H). assert (Ip := fi_pool _ _ _ I).
  assert (Sent : forall c, In c (p_calls (f_pool s)) -> k_sent c = k_n c).
  { intros c Hc. destruct (Nat.eq_dec (k_sent c) (k_n c)) as [E|N]; [exact E|exfalso]. assert (X := iv_calls _ _ _ _ _ _ Ip c Hc). destruct (In_nth_error _ _ Hc) as [i Hi].
    eapply St. eapply F_pool; [exact D|eapply P_submit; [exact Hi|lia]|]. cbn [p_exec]. intros t E. exfalso. exact (exec_longer _ _ E). }
  split; [exact Sent|].
  assert (Wk : forall i x, nth_error (p_workers (f_pool s)) i = Some x -> (x = WIdle /\ p_todo (f_pool s) = []) \/ (exists t, x = WHas t /\ foreign t = Some Leaves /\ In i (f_left s))).
  { intros i x Hi. destruct x as [|t|t].
    - left. split; [reflexivity|]. destruct (p_todo (f_pool s)) as [|t r] eqn:E; [reflexivity|exfalso]. eapply St. eapply F_pool; [exact D|eapply P_get; eassumption|].
      cbn [p_exec]. intros t0 E0. exfalso. exact (exec_longer _ _ E0).
    - right. exists t. split; [reflexivity|]. destruct (foreign t) as [[]|] eqn:Ft.
      + split; [reflexivity|]. destruct (in_dec Nat.eq_dec i (f_left s)) as [L|L]; [exact L|exfalso]. eapply St. eapply F_leave; eassumption.
      + exfalso. eapply St. eapply F_terminate; eassumption.
      + exfalso. destruct (perform t) as [v|] eqn:Pt; eapply St; (eapply F_pool; [exact D|first [eapply P_perform; eassumption | eapply P_throw; eassumption]|]);
          cbn [p_exec]; intros t0 E0; apply app_inv_head in E0; injection E0 as <-; exact Ft.
    - exfalso. eapply St. eapply F_pool; [exact D|eapply P_report; exact Hi|]. cbn [p_exec]. intros t0 E0. exact (False_ind _ (exec_longer _ _ E0)). }
  destruct (Nat.eq_dec (length (filter (fun x => match x with WIdle => true | _ => false end) (p_workers (f_pool s)))) 0) as [Z|Z].
  - left. intros i Li. rewrite <- (iv_w _ _ _ _ _ _ Ip) in Li. apply nth_error_Some in Li. destruct (nth_error (p_workers (f_pool s)) i) as [x|] eqn:Hi; [|congruence].
    destruct (Wk _ _ Hi) as [[-> _]|(t & _ & _ & L)]; [|exact L]. exfalso. apply nth_error_In in Hi.
    assert (Q : In WIdle (filter (fun x => match x with WIdle => true | _ => false end) (p_workers (f_pool s)))) by (apply filter_In; auto).
    destruct (filter _ (p_workers (f_pool s))); [destruct Q|discriminate].
  - right. assert (Td : p_todo (f_pool s) = []).
    { destruct (filter (fun x => match x with WIdle => true | _ => false end) (p_workers (f_pool s))) as [|x l] eqn:E; [exfalso; apply Z; reflexivity|].
      assert (Q : In x (filter (fun x => match x with WIdle => true | _ => false end) (p_workers (f_pool s)))) by (rewrite E; left; reflexivity). apply filter_In in Q. destruct Q as [Q B].
      destruct (In_nth_error _ _ Q) as [i Hi]. destruct (Wk _ _ Hi) as [[_ X]|(t & -> & _)]; [exact X|discriminate]. }
    split; [exact Td|]. intros t Ht.
    assert (V : valid (p_calls (f_pool s)) t = 1).
    { destruct Ht as (m & Hm & Lm). rewrite <- (iv_ns _ _ _ _ _ _ Ip), nth_error_map in Hm. unfold valid. destruct (nth_error (p_calls (f_pool s)) (fst t)) as [c|] eqn:Ec; [|discriminate].
      injection Hm as <-. rewrite (Sent c (nth_error_In _ _ Ec)). apply Nat.ltb_lt in Lm. rewrite Lm. reflexivity. }
    assert (A := iv_place _ _ _ _ _ _ Ip t). rewrite (iv_valid _ _ _ _ _ _ Ip), V, Td in A. cbn [count_occ] in A.
    assert (B := iv_writes _ _ _ _ _ _ Ip t). assert (C := iv_exec _ _ _ _ _ _ Ip t). destruct (C76_refines _ _ _ _ H) as (_ & _ & _ & Ex).
    destruct (Nat.eq_dec (count_occ tdec (p_exec (f_pool s)) t) 0) as [E|E].
    + right. assert (Hs : sumf (fun x => count_occ tdec (has x) t) (p_workers (f_pool s)) <> 0) by lia.
      assert (exists x, In x (p_workers (f_pool s)) /\ count_occ tdec (has x) t <> 0) as (x & Hx & Ox).
      { clear - Hs. induction (p_workers (f_pool s)) as [|y l IH]; cbn in Hs; [congruence|]. destruct (Nat.eq_dec (count_occ tdec (has y) t) 0) as [Z|Z].
        - destruct IH as (x & Hx & Ox); [lia|]. exists x. split; [right; exact Hx|exact Ox].
        - exists y. split; [left; reflexivity|exact Z]. }
      destruct (In_nth_error _ _ Hx) as [i Hi]. destruct (Wk _ _ Hi) as [[-> _]|(t' & -> & Ft & L)]; cbn in Ox; [congruence|]. destruct (tdec t' t) as [->|]; [|congruence].
      split; [exact Ft|]. exists i. auto.
    + left. assert (X : In t (p_exec (f_pool s))) by (apply occ_in; lia). split; [apply Ex; exact X|exact X].
Qed.
(** With fewer tasks that throw thread_interrupted than workers, all ordinary tasks are performed in the end, unless some task terminates the process; and it does if there is one. *)
Theorem C76_survives : forall w ns k s l, frun k (finit w ns) s -> (forall s', ~ fstep s s') -> (forall t, is_task ns t -> foreign t = Some Leaves -> In t l) -> length l < w ->
  (f_dead s = true <-> exists t, is_task ns t /\ foreign t = Some Terminates) /\
  (f_dead s = false -> forall t, is_task ns t -> foreign t = None -> In t (p_exec (f_pool s))).
Proof.
  intros w ns k s l H St Hl Ll.
  assert (Few : ~ forall i, i < w -> In i (f_left s)).
  { intro All. destruct (C76_left _ _ _ _ H) as (_ & ts & Nd & F). assert (w <= length (f_left s)).
    { rewrite <- (seq_length w 0) at 1. apply NoDup_incl_length; [apply seq_NoDup|]. intros i Hi. apply in_seq in Hi. apply All. lia. }
    assert (length ts <= length l).
    { apply NoDup_incl_length; [exact Nd|]. intros t Ht. clear - F Ht Hl. induction F as [|i q li lt (_ & A & B & _) F IH]; [destruct Ht|]. destruct Ht as [<-|Ht]; auto. }
    assert (L : length (f_left s) = length ts) by (clear - F; induction F; cbn; congruence). lia. }
  assert (E := C76_ends _ _ _ _ H St). split; [split|].
  - intro D. destruct (C76_dead _ _ _ _ H D) as ((i & t & _ & A & B) & _). exists t. auto.
  - intros (t & Ht & Ft). destruct (f_dead s); [reflexivity|exfalso]. destruct (E eq_refl) as (_ & [X|(_ & X)]); [exact (Few X)|]. destruct (X t Ht) as [[Y _]|[Y _]]; congruence.
  - intro D. destruct (E D) as (_ & [X|(_ & X)]); [contradiction|]. intros t Ht Ft. destruct (X t Ht) as [[_ Y]|[Y _]]; [exact Y|congruence].
Qed.
Lemma frun_next k (s1 s2 s3 s3' : fstate R) : frun k s1 s2 -> fstep s2 s3 -> s3 = s3' -> frun (S k) s1 s3'.
Proof. intros H1 H2 <-. eapply frun_cons; eassumption. Qed.
End C76.

(** One worker, the first of two tasks throws thread_interrupted: the second is never performed, and nothing happens any more. *)
Theorem C76_witness_nobody : exists k s, frun nat (fun t => Some (snd t)) (fun t => if Nat.eqb (snd t) 0 then Some Leaves else None) k (finit nat 1 [2]) s /\
  f_left nat s = [0] /\ f_dead nat s = false /\ p_todo nat (f_pool nat s) = [(0, 1)] /\ p_exec nat (f_pool nat s) = [] /\
  forall s', ~ fstep nat (fun t => Some (snd t)) (fun t => if Nat.eqb (snd t) 0 then Some Leaves else None) s s'.
Proof.
  eexists. eexists. split; [|split; [|split; [|split; [|split]]]].
  - eapply frun_next; [eapply frun_next; [eapply frun_next; [eapply frun_next; [apply frun_nil
    |eapply F_pool; [reflexivity|eapply (P_submit _ _ _ 0); [reflexivity|cbn; lia]|cbn; discriminate]|cbn; reflexivity]
    |eapply F_pool; [reflexivity|eapply (P_submit _ _ _ 0); [reflexivity|cbn; lia]|cbn; discriminate]|cbn; reflexivity]
    |eapply F_pool; [reflexivity|eapply (P_get _ _ _ 0); reflexivity|cbn; discriminate]|cbn; reflexivity]
    |eapply (F_leave _ _ _ _ 0); [reflexivity|reflexivity|reflexivity|cbn; tauto]|cbn; reflexivity].
  - reflexivity.
  - reflexivity.
  - reflexivity.
  - reflexivity.
  - intros s' H. inversion H as [? p' D Hp F|? w t D Hw Ft Nl|? w t D Hw Ft]; subst; cbn in *.
    + inversion Hp as [? c k Hc L|? wi t r Hw Ht|? wi t v Hw Hq|? wi t Hw Hq|? wi t Hw|? c k t r Hc Hs Ht Hd]; subst; cbn in *.
      * destruct c as [|[|c]]; cbn in Hc; try discriminate. injection Hc as <-. cbn in L. lia.
      * destruct wi as [|[|wi]]; discriminate.
      * destruct wi as [|[|wi]]; try discriminate. injection Hw as <-. specialize (F _ eq_refl). discriminate.
      * discriminate.
      * destruct wi as [|[|wi]]; discriminate.
      * discriminate.
    + destruct w as [|[|w]]; try discriminate. apply Nl. left. reflexivity.
    + destruct w as [|[|w]]; try discriminate. injection Hw as <-. discriminate.
Qed.
(** Two workers: the other one performs the second task; the call waits. *)
Theorem C76_witness_left : exists k s c, frun nat (fun t => Some (snd t)) (fun t => if Nat.eqb (snd t) 0 then Some Leaves else None) k (finit nat 2 [2]) s /\
  f_left nat s = [0] /\ p_exec nat (f_pool nat s) = [(0, 1)] /\ p_calls nat (f_pool nat s) = [c] /\ k_taken c = 1 /\ ~ returned c.
Proof.
  eexists. eexists. eexists. split; [|split; [|split; [|split; [|split]]]].
  - eapply frun_next; [eapply frun_next; [eapply frun_next; [eapply frun_next; [eapply frun_next; [eapply frun_next; [eapply frun_next; [eapply frun_next; [apply frun_nil
    |eapply F_pool; [reflexivity|eapply (P_submit _ _ _ 0); [reflexivity|cbn; lia]|cbn; discriminate]|cbn; reflexivity]
    |eapply F_pool; [reflexivity|eapply (P_submit _ _ _ 0); [reflexivity|cbn; lia]|cbn; discriminate]|cbn; reflexivity]
    |eapply F_pool; [reflexivity|eapply (P_get _ _ _ 0); reflexivity|cbn; discriminate]|cbn; reflexivity]
    |eapply (F_leave _ _ _ _ 0); [reflexivity|reflexivity|reflexivity|cbn; tauto]|cbn; reflexivity]
    |eapply F_pool; [reflexivity|eapply (P_get _ _ _ 1); reflexivity|cbn; discriminate]|cbn; reflexivity]
    |eapply F_pool; [reflexivity|eapply (P_perform _ _ _ 1); reflexivity|cbn; intros t E; injection E as <-; reflexivity]|cbn; reflexivity]
    |eapply F_pool; [reflexivity|eapply (P_report _ _ _ 1); reflexivity|cbn; discriminate]|cbn; reflexivity]
    |eapply F_pool; [reflexivity|eapply (P_token _ _ _ 0); [reflexivity|reflexivity|cbn; lia|reflexivity]|cbn; discriminate]|cbn; reflexivity].
  - reflexivity.
  - reflexivity.
  - cbn. reflexivity.
  - reflexivity.
  - intros [_ X]. cbn in X. discriminate.
Qed.
(** A task that throws something else ends the process. *)
Theorem C76_witness_terminate : exists k s, frun nat (fun t => Some (snd t)) (fun t => Some Terminates) k (finit nat 2 [1]) s /\ f_dead nat s = true.
Proof.
  eexists. eexists. split.
  - eapply frun_next; [eapply frun_next; [eapply frun_next; [apply frun_nil
    |eapply F_pool; [reflexivity|eapply (P_submit _ _ _ 0); [reflexivity|cbn; lia]|cbn; discriminate]|cbn; reflexivity]
    |eapply F_pool; [reflexivity|eapply (P_get _ _ _ 1); reflexivity|cbn; discriminate]|cbn; reflexivity]
    |eapply (F_terminate _ _ _ _ 1); reflexivity|cbn; reflexivity].
  - reflexivity.
Qed.
Print Assumptions C76_witness_nobody.
Print Assumptions C76_refines.
Print Assumptions C76_conservative.
Print Assumptions C76_runs_finite.
Print Assumptions C76_left.
Print Assumptions C76_never_returns.
Print Assumptions C76_dead.
Print Assumptions C76_ends.
Print Assumptions C76_survives.
