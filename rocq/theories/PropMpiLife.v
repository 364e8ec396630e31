(** C75: the MPI pool when tasks cannot be sent, when tasks throw in a worker's process, and when it is destroyed. *)
From Verif Require Import Base Mpi MpiLife PropQueue PropPool PropMpi.
Local Open Scope list_scope.

Section C75.
Variable M : Type.
Variable perform : nat -> list M.
Variables n size : nat.
Variables is_mpi throws : nat -> bool.
Arguments e_rank {M}. Arguments e_task {M}. Arguments e_got {M}. Arguments MkExpect {M}.
Arguments m_next {M}. Arguments m_rank {M}. Arguments m_first {M}. Arguments m_wait {M}. Arguments m_exp {M}. Arguments m_inbox {M}. Arguments m_outbox {M}.
Arguments m_results {M}. Arguments m_stats {M}. Arguments m_sent {M}. Arguments MkMpi {M}.
Arguments l_m {M}. Arguments l_dead {M}. Arguments l_refused {M}. Arguments l_fin {M}. Arguments l_exited {M}. Arguments MkLife {M}.
Notation life := (life M).
Notation mstep := (mstep M perform n size).
Notation mrun := (mrun M perform n size).
Notation lstep := (lstep M perform n size is_mpi throws).
Notation lrun := (lrun M perform n size is_mpi throws).
Notation linit := (linit M size).
Notation over := (over M n).
Notation alive := (alive M size).
Notation minv := (minv M perform n size).
Notation for_rank := (for_rank M).
(** At least one worker rank, every result is at least one message (otherwise DoTasks throws: lines 215-223, 113-116). *)
Hypothesis size2 : 2 <= size.
Hypothesis nonempty : forall t, perform t <> [].

Lemma server_mstep m m' : server_step M perform n size m m' -> mstep m m'.
Proof. intro H. destruct H; [eapply M_send_first|eapply M_send_next|eapply M_receive|eapply M_pop|eapply M_drain]; eassumption. Qed.
Lemma worked_mstep m r t rest : 1 <= r -> r < size -> nexts (m_inbox m) r = t :: rest -> mstep m (worked M perform m r t rest).
Proof. intros. eapply M_work; eassumption. Qed.
Lemma mstep_cases m m' : mstep m m' -> server_step M perform n size m m' \/ exists r t rest, 1 <= r /\ r < size /\ nexts (m_inbox m) r = t :: rest /\ m' = worked M perform m r t rest.
Proof.
  intro H. destruct H as [s W L F|s W L F|s r t rest L1 L2 Hb|s l1 e l2 x rest P E G Ho|s l1 e l2 W E G|s l1 e l2 W L E G]; [left|left|right|left|left|left].
  - eapply S_send_first; eassumption.
  - eapply S_send_next; eassumption.
  - exists r, t, rest. auto.
  - eapply S_receive; eassumption.
  - eapply S_pop; eassumption.
  - eapply S_drain; eassumption.
Qed.

(** Which ranks are busy. *)
Record binv (m : mstate M) : Prop := {
  b_wait : m_wait m = true -> length (m_exp m) = size - 1 /\ forall r, 1 <= r < size -> for_rank r (m_exp m) <> [];
  b_first : m_first m = false -> S (m_next m) = m_rank m /\ (m_next m < n -> length (m_exp m) = m_next m /\ forall r, 1 <= r < m_rank m -> for_rank r (m_exp m) <> []);
  b_next : m_first m = true -> m_wait m = false -> m_next m < n -> length (m_exp m) = size - 2 /\ size - 1 <= m_next m;
  b_more : m_first m = true -> size - 1 <= m_next m /\ forall r, m_wait m = false -> m_next m < n -> 1 <= r < size -> r <> m_rank m -> for_rank r (m_exp m) <> [];
  b_sent : forall e, In e (m_exp m) -> In (e_task e, e_rank e) (m_sent m);
  b_len : length (m_results m) = length (m_stats m) }.
Lemma for_rank_snoc_ne r l e : for_rank r l <> [] -> for_rank r (l ++ [e]) <> [].
Proof. intros H X. apply H. rewrite for_rank_app in X. apply app_eq_nil in X. tauto. Qed.
Lemma for_rank_snoc_eq l e : for_rank (e_rank e) (l ++ [e]) <> [].
Proof. rewrite for_rank_app, for_rank_cons, Nat.eqb_refl. intro X. apply app_eq_nil in X. destruct X. discriminate. Qed.
Lemma binv_init : binv (minit M size).
Proof. constructor; cbn; try discriminate; try reflexivity; [|intros e []]. intros _. split; [reflexivity|]. intros _. split; [reflexivity|]. intros; lia. Qed.
Lemma binv_step m m' : minv m -> binv m -> mstep m m' -> binv m'.
Proof.
  intros I B H.
  assert (Sent : (forall e, In e (m_exp m') -> In (e_task e, e_rank e) (m_sent m')) /\ length (m_results m') = length (m_stats m')).
  { assert (B5 := b_sent _ B). assert (B6 := b_len _ B).
    destruct H as [s W L F|s W L F|s r t rest L1 L2 Hb|s l1 e l2 x rest P E G Ho|s l1 e l2 W E G|s l1 e l2 W L E G]; cbn [m_exp m_sent m_results m_stats];
      rewrite ?app_length; cbn [length]; (split; [|lia]); try exact B5.
    1,2: intros y Hy; apply in_or_app; apply in_app_or in Hy; destruct Hy as [Hy|[<-|[]]]; [left; apply B5; exact Hy|right; left; reflexivity].
    - intros y Hy. apply in_app_or in Hy. rewrite E in B5. destruct Hy as [Hy|[<-|Hy]]; try (apply B5; apply in_or_app; cbn; tauto).
      apply (B5 e). apply in_or_app. cbn. tauto.
    - intros y Hy. apply B5. rewrite E. apply in_app_or in Hy. apply in_or_app. cbn. tauto.
    - intros y Hy. apply B5. rewrite E. apply in_app_or in Hy. apply in_or_app. cbn. tauto. }
  destruct Sent as [Sent Len]. assert (I' := minv_step M perform n size size2 nonempty _ _ I H).
  destruct H as [s W L F|s W L F|s r t rest L1 L2 Hb|s l1 e l2 x rest P E G Ho|s l1 e l2 W E G|s l1 e l2 W L E G].
  - destruct (b_first _ B F) as (B1 & B23). destruct (B23 L) as [B2 B3]. assert (Lr := proj1 (mi_free _ _ _ _ _ I W)). destruct (Nat.leb_spec size (S (m_rank s))) as [Le|Gt].
    + assert (Em : m_rank s = size - 1) by lia.
      assert (A : forall r, 1 <= r < size -> for_rank r (m_exp s ++ [MkExpect (m_rank s) (m_next s) []]) <> []).
      { intros r Hr. destruct (Nat.eq_dec r (m_rank s)) as [->|N]; [apply (for_rank_snoc_eq _ (MkExpect (m_rank s) (m_next s) []))|apply for_rank_snoc_ne, B3; lia]. }
      constructor; [| | | |exact Sent|exact Len]; cbn [m_next m_rank m_first m_wait m_exp]; try discriminate.
      * intros _. split; [rewrite app_length; cbn; lia|exact A].
      * intros _. split; [lia|discriminate].
    + constructor; [| | | |exact Sent|exact Len]; cbn [m_next m_rank m_first m_wait m_exp]; try discriminate. intros _. split; [lia|]. intros _. split; [rewrite app_length; cbn; lia|].
      intros r Hr. destruct (Nat.eq_dec r (m_rank s)) as [->|N]; [apply (for_rank_snoc_eq _ (MkExpect (m_rank s) (m_next s) []))|apply for_rank_snoc_ne, B3; lia].
  - destruct (b_next _ B F W L) as [B1 B2]. destruct (b_more _ B F) as [B3 B4]. constructor; [| | | |exact Sent|exact Len]; cbn [m_next m_rank m_first m_wait m_exp]; try discriminate.
    + intros _. split; [rewrite app_length; cbn; lia|]. intros r Hr. destruct (Nat.eq_dec r (m_rank s)) as [->|N]; [apply (for_rank_snoc_eq _ (MkExpect (m_rank s) (m_next s) []))|].
      apply for_rank_snoc_ne, B4; assumption.
    + intros _. split; [lia|discriminate].
  - destruct B as [B1 B2 B3 B4 _ _]. constructor; [| | | |exact Sent|exact Len]; cbn [m_next m_rank m_first m_wait m_exp]; assumption.
  - assert (Ln : length (l1 ++ MkExpect (e_rank e) (e_task e) (e_got e ++ [x]) :: l2) = length (m_exp s)) by (rewrite E, !app_length; reflexivity).
    assert (Fr : forall r, for_rank r (m_exp s) <> [] -> for_rank r (l1 ++ MkExpect (e_rank e) (e_task e) (e_got e ++ [x]) :: l2) <> []).
    { intros r. rewrite E, !for_rank_app, !for_rank_cons. cbn [e_rank]. destruct (Nat.eqb (e_rank e) r); [|auto]. intros _ X. apply app_eq_nil in X. destruct X. discriminate. }
    destruct B as [B1 B2 B3 B4 _ _]. constructor; [| | | |exact Sent|exact Len]; cbn [m_next m_rank m_first m_wait m_exp]; rewrite ?Ln; try assumption.
    + intro W. destruct (B1 W) as [X Y]. split; [exact X|]. intros r Hr. apply Fr, Y, Hr.
    + intro F. destruct (B2 F) as (X & YZ). split; [exact X|]. intro L. destruct (YZ L) as [Y Z]. split; [exact Y|]. intros r Hr. apply Fr, Z, Hr.
    + intro F. destruct (B4 F) as (X & Y). split; [exact X|]. intros r H1 H2 H3 H4. apply Fr, Y; assumption.
  - destruct (b_wait _ B W) as [B1 B2]. destruct B as [_ C2 C3 C4 _ _]. rewrite E in B1. rewrite app_length in B1. cbn [length] in B1.
    constructor; [| | | |exact Sent|exact Len]; cbn [m_next m_rank m_first m_wait m_exp]; try discriminate.
    + intro F. destruct (mi_first _ _ _ _ _ I F). congruence.
    + intros F _ L. rewrite app_length. split; [lia|]. apply (C4 F).
    + intro F. split; [apply (C4 F)|]. intros r _ L Hr N. specialize (B2 r Hr). rewrite E, for_rank_app, for_rank_cons in B2.
      destruct (Nat.eqb_spec (e_rank e) r); [congruence|]. rewrite for_rank_app. exact B2.
  - destruct B as [B1 B2 B3 B4 _ _]. constructor; [| | | |exact Sent|exact Len]; cbn [m_next m_rank m_first m_wait m_exp]; try discriminate.
    + intro F. destruct (B2 F) as (X1 & _). split; [exact X1|]. lia.
    + lia.
    + intro F. split; [apply (B4 F)|]. lia.
Qed.

Record linv (s : life) : Prop := {
  li_m : minv (l_m s); li_b : binv (l_m s);
  li_dead : forall r, In r (l_dead s) -> 1 <= r < size /\ exists t, nexts (m_inbox (l_m s)) r = [t] /\ throws t = true;
  li_dead1 : NoDup (l_dead s);
  li_exit : forall r, In r (l_exited s) -> 1 <= r <= l_fin s /\ nexts (m_inbox (l_m s)) r = [];
  li_exit1 : NoDup (l_exited s);
  li_fin : l_fin s < size;
  li_over : 0 < l_fin s -> over s;
  li_thr : forall e, In e (m_exp (l_m s)) -> throws (e_task e) = true -> nexts (m_inbox (l_m s)) (e_rank e) = [e_task e];
  li_res : forall t v, In (t, v) (m_results (l_m s)) -> throws t = false;
  li_mpi : forall t, t < m_next (l_m s) -> is_mpi t = true;
  li_ref : l_refused s = true -> m_wait (l_m s) = false /\ m_next (l_m s) < n /\ is_mpi (m_next (l_m s)) = false }.

Lemma linv_init : linv linit.
Proof.
  constructor; cbn; try (intros; contradiction); try (constructor; fail); try lia; try discriminate.
  - apply minv_init; assumption.
  - apply binv_init.
Qed.
(** A server that has returned does nothing. *)
Lemma returned_stops m m' : mreturned M n m -> server_step M perform n size m m' -> False.
Proof. intros (A & B & C) H. destruct H; try congruence; try lia; rewrite C in *; destruct l1; discriminate. Qed.
(** Each rank has at most one expectation, its channel is as described. *)
Lemma chan_of m e : minv m -> In e (m_exp m) ->
  (nexts (m_inbox m) (e_rank e) = [e_task e] /\ nexts (m_outbox m) (e_rank e) = [] /\ e_got e = []) \/
  (nexts (m_inbox m) (e_rank e) = [] /\ e_got e ++ nexts (m_outbox m) (e_rank e) = perform (e_task e)).
Proof.
  intros I H. apply in_split in H. destruct H as (l1 & l2 & E). destruct (mi_unique _ _ _ _ _ _ _ _ I E) as [U1 U2].
  assert (Ch := mi_chan _ _ _ _ _ I (e_rank e)). rewrite E, for_rank_app, for_rank_cons, Nat.eqb_refl, U1, U2 in Ch. exact Ch.
Qed.
Lemma server_keeps s m' : linv s -> l_refused s = false -> (m_wait (l_m s) = false -> m_next (l_m s) < n -> is_mpi (m_next (l_m s)) = true) ->
  server_step M perform n size (l_m s) m' -> linv (MkLife m' (l_dead s) false (l_fin s) (l_exited s)).
Proof.
  intros I Rf Hm H. assert (Hs := server_mstep _ _ H). assert (I' := minv_step M perform n size size2 nonempty _ _ (li_m _ I) Hs).
  assert (B' := binv_step _ _ (li_m _ I) (li_b _ I) Hs).
  assert (Fin : l_fin s = 0).
  { destruct (l_fin s) eqn:Ef; [reflexivity|exfalso]. assert (O := li_over _ I ltac:(lia)). destruct O as [O|O]; [exact (returned_stops _ _ O H)|congruence]. }
  assert (Ex : l_exited s = []). { destruct (l_exited s) as [|r l] eqn:E; [reflexivity|]. assert (X := proj1 (li_exit _ I r ltac:(rewrite E; left; reflexivity))). lia. }
  assert (Im := li_m _ I). assert (D := li_dead _ I). assert (Th := li_thr _ I).
  assert (SendIn : m_wait (l_m s) = false -> m_next (l_m s) < n -> nexts (m_inbox (l_m s)) (m_rank (l_m s)) = [] /\ m_rank (l_m s) < length (m_inbox (l_m s)) /\ for_rank (m_rank (l_m s)) (m_exp (l_m s)) = []).
  { intros W L. destruct (mi_free _ _ _ _ _ Im W) as [Lr Fr]. specialize (Fr L). assert (C := mi_chan _ _ _ _ _ Im (m_rank (l_m s))). rewrite Fr in C.
    split; [exact (proj1 C)|]. split; [rewrite (mi_len1 _ _ _ _ _ Im); lia|exact Fr]. }
  constructor; cbn [l_m l_dead l_refused l_fin l_exited]; try assumption; try discriminate.
  - intros r Hr. destruct (D r Hr) as (Lr & t & Et & Tt). split; [exact Lr|]. exists t. split; [|exact Tt].
    destruct H as [m W L F|m W L F|m l1 e l2 x rest P E G Ho|m l1 e l2 W E G|m l1 e l2 W L E G]; cbn [m_inbox]; try exact Et;
      (destruct (SendIn W L) as (A1 & A2 & _); rewrite nexts_upd by exact A2; destruct (Nat.eqb_spec (m_rank m) r) as [Er|N]; [|exact Et]; subst r; congruence).
  - apply (li_dead1 _ I).
  - rewrite Ex. intros r [].
  - rewrite Ex. constructor.
  - apply (li_fin _ I).
  - rewrite Fin. lia.
  - intros e He Te. destruct H as [m W L F|m W L F|m l1 e0 l2 x rest P E G Ho|m l1 e0 l2 W E G|m l1 e0 l2 W L E G]; cbn [m_exp m_inbox] in *.
    1,2: destruct (SendIn W L) as (A1 & A2 & A3); rewrite nexts_upd by exact A2; apply in_app_or in He; destruct He as [He|[<-|[]]];
      [assert (Y := Th e He Te); destruct (Nat.eqb_spec (m_rank m) (e_rank e)) as [Er|N]; [rewrite Er in A1; congruence|exact Y]|cbn [e_rank e_task]; rewrite Nat.eqb_refl, A1; reflexivity].
    + apply in_app_or in He. destruct He as [He|[<-|He]]; try (apply Th; [rewrite E; apply in_or_app; cbn; tauto|exact Te]).
      cbn [e_rank e_task] in *. apply Th; [rewrite E; apply in_or_app; cbn; tauto|exact Te].
    + apply Th; [rewrite E; apply in_app_or in He; apply in_or_app; cbn; tauto|exact Te].
    + apply Th; [rewrite E; apply in_app_or in He; apply in_or_app; cbn; tauto|exact Te].
  - intros t v Hv. assert (R := li_res _ I).
    assert (Pop : forall e, In e (m_exp (l_m s)) -> length (e_got e) = length (perform (e_task e)) -> throws (e_task e) = false).
    { intros e He G. destruct (throws (e_task e)) eqn:Te; [|reflexivity]. exfalso. destruct (chan_of _ e Im He) as [(C1 & C2 & C3)|(C1 & C2)].
      - rewrite C3 in G. cbn in G. apply (nonempty (e_task e)). apply length_zero_iff_nil. congruence.
      - rewrite (Th e He Te) in C1. discriminate. }
    destruct H as [m W L F|m W L F|m l1 e0 l2 x rest P E G Ho|m l1 e0 l2 W E G|m l1 e0 l2 W L E G]; cbn [m_results] in Hv; try (eapply R; exact Hv);
      (apply in_app_or in Hv; destruct Hv as [Hv|[Hv|[]]]; [eapply R; exact Hv|]; injection Hv as <- _; apply Pop; [rewrite E; apply in_or_app; cbn; tauto|exact G]).
  - intros t Ht. assert (Q := li_mpi _ I). destruct H as [m W L F|m W L F|m l1 e0 l2 x rest P E G Ho|m l1 e0 l2 W E G|m l1 e0 l2 W L E G]; cbn [m_next] in Ht; try (apply Q; exact Ht);
      (destruct (Nat.eq_dec t (m_next m)) as [->|N]; [apply Hm; assumption|apply Q; lia]).
Qed.
Lemma linv_step s s' : linv s -> lstep s s' -> linv s'.
Proof.
  intros I H. destruct H as [s m' Rf Hm H|s Rf W L Nm|s r t rest (A1 & A2 & A3 & A4) Hb Tt|s r t rest (A1 & A2 & A3 & A4) Hb Tt|s O Lf|s r (A1 & A2 & A3 & A4) Lf Hb].
  - apply server_keeps; assumption.
  - destruct I as [I1 I2 I3 I4 I5 I6 I7 I8 I9 I10 I11 I12]. constructor; cbn [l_m l_dead l_refused l_fin l_exited]; try assumption.
    + intros _. right. reflexivity.
    + auto.
  - assert (Hs := worked_mstep _ _ _ _ A1 A2 Hb). assert (I' := minv_step M perform n size size2 nonempty _ _ (li_m _ I) Hs). assert (B' := binv_step _ _ (li_m _ I) (li_b _ I) Hs).
    assert (Lr : r < length (m_inbox (l_m s))) by (rewrite (mi_len1 _ _ _ _ _ (li_m _ I)); exact A2).
    destruct I as [I1 I2 I3 I4 I5 I6 I7 I8 I9 I10 I11 I12]. constructor; cbn [l_m l_dead l_refused l_fin l_exited]; try assumption; unfold worked; cbn [m_inbox m_exp m_results m_next m_wait]; try assumption.
    + intros q Hq. destruct (I3 q Hq) as (X & u & Eu & Tu). split; [exact X|]. exists u. split; [|exact Tu]. rewrite nexts_upd by exact Lr. destruct (Nat.eqb_spec r q); [subst; contradiction|exact Eu].
    + intros q Hq. destruct (I5 q Hq) as (X & Eu). split; [exact X|]. rewrite nexts_upd by exact Lr. destruct (Nat.eqb_spec r q); [subst; contradiction|exact Eu].
    + intros e He Te. rewrite nexts_upd by exact Lr. assert (Y := I9 e He Te). destruct (Nat.eqb_spec r (e_rank e)) as [Er|N]; [|exact Y].
      rewrite Er, Y in Hb. injection Hb as <- <-. congruence.
  - destruct I as [I1 I2 I3 I4 I5 I6 I7 I8 I9 I10 I11 I12]. constructor; cbn [l_m l_dead l_refused l_fin l_exited]; try assumption.
    + intros q [<-|Hq]; [|apply I3; exact Hq]. split; [lia|]. exists t. split; [|exact Tt].
      assert (C := mi_chan _ _ _ _ _ I1 r). rewrite Hb in C. destruct (for_rank r (m_exp (l_m s))) as [|e [|e' l]]; cbn in C; [destruct C; discriminate| |destruct C].
      destruct C as [(C1 & _)|(C1 & _)]; [|discriminate]. injection C1 as -> ->. exact Hb.
    + constructor; assumption.
  - destruct I as [I1 I2 I3 I4 I5 I6 I7 I8 I9 I10 I11 I12]. constructor; cbn [l_m l_dead l_refused l_fin l_exited]; try assumption.
    + intros q Hq. destruct (I5 q Hq) as [X Y]. split; [lia|exact Y].
    + intros _. exact O.
  - destruct I as [I1 I2 I3 I4 I5 I6 I7 I8 I9 I10 I11 I12]. constructor; cbn [l_m l_dead l_refused l_fin l_exited]; try assumption.
    + intros q [<-|Hq]; [split; [lia|exact Hb]|apply I5; exact Hq].
    + constructor; assumption.
Qed.
Lemma linv_run k s : lrun k linit s -> linv s.
Proof.
  intro H. remember linit as s0 eqn:E0. induction H as [x|j s1 s2 s3 H1 IH Hs]; [subst x; apply linv_init|]. eapply linv_step; [apply IH; exact E0|exact Hs].
Qed.

(** Whatever is thrown and wherever, the dispatch is that of Mpi.v: C37_dispatch applies (each task is sent at most once, in order; a worker is sent
    a task only when the result of its last one has come; completed results are those of their tasks). *)
Theorem C75_dispatch : forall k s, lrun k linit s -> exists j, j <= k /\ mrun j (minit M size) (l_m s).
Proof.
  intros k s H. remember linit as s0 eqn:E0. induction H as [x|k s1 s2 s3 H1 IH Hs].
  - subst x. exists 0. split; [lia|constructor].
  - destruct (IH E0) as (j & Lj & Hj). clear IH. destruct Hs as [s m' Rf Hm H|s Rf W L Nm|s r t rest (A1 & A2 & A3 & A4) Hb Tt|s r t rest (A1 & A2 & A3 & A4) Hb Tt|s O Lf|s r (A1 & A2 & A3 & A4) Lf Hb];
      cbn [l_m]; try (exists j; split; [lia|exact Hj]).
    + exists (S j). split; [lia|]. eapply mrun_cons; [exact Hj|apply server_mstep; exact H].
    + exists (S j). split; [lia|]. eapply mrun_cons; [exact Hj|apply worked_mstep; assumption].
Qed.
(** Without such tasks every run of Mpi.v is possible. *)
Theorem C75_conservative : (forall t, t < n -> is_mpi t = true /\ throws t = false) -> forall k m, mrun k (minit M size) m -> lrun k linit (MkLife m [] false 0 []).
Proof.
  intros Ok k m H. remember (minit M size) as m0 eqn:E0. induction H as [x|k s1 s2 s3 H1 IH Hs]; [subst x; constructor|].
  specialize (IH E0). eapply lrun_cons; [exact IH|]. assert (I := li_m _ (linv_run _ _ IH)). cbn [l_m] in I.
  destruct (mstep_cases _ _ Hs) as [S|(r & t & rest & A1 & A2 & Hb & ->)].
  - apply (L_server M perform n size is_mpi throws (MkLife s2 [] false 0 [])); [reflexivity| |exact S]. intros _ L. exact (proj1 (Ok _ L)).
  - apply (L_work M perform n size is_mpi throws (MkLife s2 [] false 0 [])); cbn; [repeat split; auto|exact Hb|].
    apply Ok. assert (C := mi_chan _ _ _ _ _ I r). rewrite Hb in C. destruct (for_rank r (m_exp s2)) as [|e [|e' l]] eqn:Fr; cbn in C; [destruct C; discriminate| |destruct C].
    destruct C as [(C1 & _)|(C1 & _)]; [|discriminate]. injection C1 as -> _.
    assert (He : In e (m_exp s2)) by (apply (proj1 (filter_In (fun e => Nat.eqb (e_rank e) r) e (m_exp s2))); unfold PropMpi.for_rank in Fr; rewrite Fr; left; reflexivity).
    assert (P := mi_place _ _ _ _ _ I (e_task e)). assert (0 < occn (map e_task (m_exp s2)) (e_task e)) by (apply count_occ_In, in_map, He).
    destruct (Nat.ltb_spec (e_task e) (m_next s2)); [|lia]. assert (X := mi_next _ _ _ _ _ I). lia.
Qed.
(** If DoTasks returns, every task could be sent and none threw ... *)
Theorem C75_returns_only_if : forall k s, lrun k linit s -> mreturned M n (l_m s) -> forall i, i < n -> is_mpi i = true /\ throws i = false.
Proof.
  intros k s H R i Li. assert (I := linv_run _ _ H). destruct (C75_dispatch _ _ H) as (j & _ & Hj).
  destruct (C37_results M perform n size size2 nonempty _ _ Hj R) as (_ & P & _). split.
  - apply (li_mpi _ I). destruct R as (-> & _). exact Li.
  - eapply (li_res _ I). apply (P i Li).
Qed.
(** ... every run is finite ... *)
Definition lcost (s : life) : nat :=
  mcost M perform n (l_m s) + (if l_refused s then 0 else 1) + (size - length (l_dead s)) + (size - l_fin s) + (size - length (l_exited s)).
Lemma ranks_bound l : NoDup l -> (forall r, In r l -> 1 <= r < size) -> length l <= size - 1.
Proof.
  intros Nd H. rewrite <- (seq_length (size - 1) 1). apply NoDup_incl_length; [exact Nd|]. intros r Hr. apply in_seq. specialize (H r Hr). lia.
Qed.
Lemma lcost_step s s' : linv s -> lstep s s' -> lcost s' < lcost s.
Proof.
  intros I H. assert (I' := linv_step _ _ I H). unfold lcost.
  destruct H as [s m' Rf Hm H|s Rf W L Nm|s r t rest (A1 & A2 & A3 & A4) Hb Tt|s r t rest (A1 & A2 & A3 & A4) Hb Tt|s O Lf|s r (A1 & A2 & A3 & A4) Lf Hb]; cbn [l_m l_dead l_refused l_fin l_exited].
  - assert (C := mcost_step M perform n size size2 _ _ (li_m _ I) (server_mstep _ _ H)). rewrite Rf. lia.
  - rewrite Rf. lia.
  - assert (C := mcost_step M perform n size size2 _ _ (li_m _ I) (worked_mstep _ _ _ _ A1 A2 Hb)). lia.
  - assert (B := ranks_bound _ (li_dead1 _ I') (fun q Hq => proj1 (li_dead _ I' q Hq))). cbn [l_dead length] in B |- *. lia.
  - lia.
  - assert (B : length (r :: l_exited s) <= size - 1).
    { apply ranks_bound; [apply (li_exit1 _ I')|]. intros q Hq. assert (X := proj1 (li_exit _ I' q Hq)). assert (Y := li_fin _ I'). cbn [l_fin] in *. lia. }
    cbn [length] in *. lia.
Qed.
Theorem C75_runs_finite : forall k s, lrun k linit s -> k <= sumf (fun t => 3 + length (perform t)) (seq 0 n) + 3 * size + 1.
Proof.
  intros k s H.
  assert (G : k + lcost s <= lcost linit).
  { remember linit as s0 eqn:E0. induction H as [x|k s1 s2 s3 H IH Hs]; [lia|]. specialize (IH E0).
    assert (lcost s3 < lcost s2); [|lia]. apply lcost_step; [|exact Hs]. subst s1. eapply linv_run; exact H. }
  assert (E : lcost linit = sumf (fun t => 3 + length (perform t)) (seq 0 n) + 3 * size + 1).
  { unfold lcost, mcost. cbn [linit l_m l_dead l_refused l_fin l_exited minit m_next m_exp m_inbox sumf length]. rewrite Nat.sub_0_r, sumf_repeat by reflexivity. unfold left_cost. lia. }
  lia.
Qed.
(** ... and ends in one of two ways. Either the call of DoTasks is over and the pool destroyed, with every worker's process gone, those that met no throwing task
    by exit(0); or DoTasks waits for ever for workers that have gone: everything else was received, and as long as one worker was left every task was sent. *)
Theorem C75_ends : forall k s, lrun k linit s -> (forall s', ~ lstep s s') ->
  (finalized M n size s /\ forall r, 1 <= r < size -> In r (l_exited s) \/ In r (l_dead s)) \/
  (~ over s /\ l_exited s = [] /\ (exists t, t < m_next (l_m s) /\ throws t = true) /\
   (forall e, In e (m_exp (l_m s)) -> throws (e_task e) = true /\ In (e_rank e) (l_dead s)) /\
   (forall t, t < m_next (l_m s) -> throws t = false -> In (t, perform t) (m_results (l_m s))) /\
   ((exists r, alive s r) -> m_next (l_m s) = n)).
Proof.
  intros k s H Stuck. assert (I := linv_run _ _ H). assert (Im := li_m _ I).
  (* nothing is left to do for a worker *)
  assert (W1 : forall r, alive s r -> nexts (m_inbox (l_m s)) r = []).
  { intros r A. destruct (nexts (m_inbox (l_m s)) r) as [|t rest] eqn:Eb; [reflexivity|exfalso]. destruct (throws t) eqn:Tt; eapply Stuck; [eapply L_die|eapply L_work]; eassumption. }
  destruct (l_refused s) eqn:Rf; [|destruct (Nat.eq_dec (m_next (l_m s)) n) as [N|N]; [destruct (m_wait (l_m s)) eqn:W; [|destruct (m_exp (l_m s)) as [|e0 l0] eqn:E]|]].
  1: left; set (O := or_intror Rf : over s).
  3: left; assert (O : over s) by (left; repeat split; assumption).
  1,3: (assert (F : S (l_fin s) = size) by (destruct (Nat.eq_dec (S (l_fin s)) size) as [F|F]; [exact F|exfalso]; eapply Stuck; apply L_finalize; [exact O|]; assert (X := li_fin _ I); lia));
    (split; [split; assumption|]); intros r Hr; destruct (in_dec Nat.eq_dec r (l_exited s)) as [X|X]; [left; exact X|]; destruct (in_dec Nat.eq_dec r (l_dead s)) as [Y|Y]; [right; exact Y|exfalso];
    assert (A : alive s r) by (repeat split; try assumption; lia); eapply Stuck; eapply (L_exit _ _ _ _ _ _ s r A); [lia|apply W1; exact A].
  all: right.
  2: rewrite <- E.
  (* the server is not finished *)
  all: assert (No : ~ over s) by (intros [(O1 & O2 & O3)|O]; congruence).
  all: assert (Fin : l_fin s = 0) by (destruct (l_fin s) eqn:Ef; [reflexivity|exfalso; apply No, (li_over _ I); lia]).
  all: assert (Ex : l_exited s = []) by (destruct (l_exited s) as [|r l] eqn:Ee; [reflexivity|]; assert (X := proj1 (li_exit _ I r ltac:(rewrite Ee; left; reflexivity))); lia).
  (* while it looks at its expectations, they are those of dead workers *)
  all: assert (Look : polling M n (l_m s) -> forall e, In e (m_exp (l_m s)) -> throws (e_task e) = true /\ In (e_rank e) (l_dead s)).
  1,3,5: (intros P e He; assert (Srv : forall m', ~ (server_step M perform n size (l_m s) m' /\ (m_wait (l_m s) = false -> m_next (l_m s) = n)))
    by (intros m' [S1 S2]; eapply Stuck; apply L_server; [exact Rf| |exact S1]; intros X Y; specialize (S2 X); lia);
    assert (PW : m_wait (l_m s) = false -> m_next (l_m s) = n) by (destruct P as [P|P]; [congruence|auto]);
    assert (Re := mi_exp _ _ _ _ _ Im e He); pose proof (in_split _ _ He) as (l1 & l2 & El);
    destruct (chan_of _ e Im He) as [(C1 & C2 & C3)|(C1 & C2)];
    [ assert (Dd : In (e_rank e) (l_dead s))
        by (destruct (in_dec Nat.eq_dec (e_rank e) (l_dead s)) as [Y|Y]; [exact Y|exfalso]; assert (A : alive s (e_rank e)) by (repeat split; try lia; [exact Y|rewrite Ex; intros []]); rewrite (W1 _ A) in C1; discriminate);
      destruct (li_dead _ I _ Dd) as (_ & u & Eu & Tu); rewrite C1 in Eu; injection Eu as <-; auto
    | exfalso; destruct (nexts (m_outbox (l_m s)) (e_rank e)) as [|x rest] eqn:Eo;
      [ rewrite app_nil_r in C2; destruct (m_wait (l_m s)) eqn:W';
        [eapply Srv; split; [eapply (S_pop _ _ _ _ (l_m s) l1 e l2); [exact W'|exact El|congruence]|discriminate]
        |eapply Srv; split; [eapply (S_drain _ _ _ _ (l_m s) l1 e l2); [exact W'|apply PW; reflexivity|exact El|congruence]|exact PW]]
      | eapply Srv; split; [eapply (S_receive _ _ _ _ (l_m s) l1 e l2); [exact P|exact El|rewrite <- C2, app_length; cbn; lia|exact Eo]|exact PW] ] ]).
  all: assert (Pl : polling M n (l_m s)).
  1: left; exact W.
  2: right; exact N.
  3: { left. destruct (m_wait (l_m s)) eqn:W'; [reflexivity|exfalso]. assert (L := mi_next _ _ _ _ _ Im). destruct (is_mpi (m_next (l_m s))) eqn:Q.
       - destruct (m_first (l_m s)) eqn:Fi; eapply Stuck; (eapply L_server; [exact Rf|intros _ _; exact Q|]); [eapply S_send_next|eapply S_send_first]; try assumption; lia.
       - eapply Stuck. eapply L_refuse; try assumption. lia. }
  all: specialize (Look Pl); split; [exact No|split; [exact Ex|]].
  all: assert (Ne : m_exp (l_m s) <> []) by (first [apply (mi_wait _ _ _ _ _ Im); assumption | rewrite E; discriminate | destruct Pl as [Pl|Pl]; [apply (mi_wait _ _ _ _ _ Im); exact Pl|contradiction]]).
  all: assert (Place : forall t, occn (map e_task (m_exp (l_m s))) t + occn (map fst (m_results (l_m s))) t = if Nat.ltb t (m_next (l_m s)) then 1 else 0) by apply (mi_place _ _ _ _ _ Im).
  all: (split; [|split; [exact Look|split]]).
  all: try (destruct (m_exp (l_m s)) as [|e1 l1] eqn:E1; [congruence|]; exists (e_task e1); split; [|apply Look; left; reflexivity];
    specialize (Place (e_task e1)); unfold occn in Place at 1; cbn [map count_occ] in Place; destruct (Nat.eq_dec (e_task e1) (e_task e1)); [|contradiction];
    destruct (Nat.ltb_spec (e_task e1) (m_next (l_m s))); lia).
  all: try (intros t Lt Tt; assert (P0 := Place t); destruct (Nat.ltb_spec t (m_next (l_m s))); [|lia];
    assert (Z : occn (map e_task (m_exp (l_m s))) t = 0) by (apply count_occ_not_In; intro Hi; apply in_map_iff in Hi; destruct Hi as (e & <- & He); apply Look in He; destruct He; congruence);
    assert (Q : In t (map fst (m_results (l_m s)))) by (apply (count_occ_In Nat.eq_dec); unfold occn in *; lia);
    apply in_map_iff in Q; destruct Q as ([t' v] & Et & Hv); cbn [fst] in Et; subst t'; rewrite <- (mi_values _ _ _ _ _ Im t v Hv); exact Hv).
  all: intros (r & A1 & A2 & A3 & A4); try exact N.
  exfalso. destruct Pl as [Pl|Pl]; [|contradiction]. destruct (b_wait _ (li_b _ I) Pl) as [_ Q]. specialize (Q r (conj A1 A2)).
  destruct (for_rank r (m_exp (l_m s))) as [|e l] eqn:Fr; [congruence|]. assert (He : In e (filter (fun e => Nat.eqb (e_rank e) r) (m_exp (l_m s)))) by (unfold PropMpi.for_rank in Fr; rewrite Fr; left; reflexivity).
  apply filter_In in He. destruct He as [He Er]. apply Nat.eqb_eq in Er. destruct (Look e He) as [_ Dd]. rewrite Er in Dd. contradiction.
Qed.
(** A task that throws in a worker: DoTasks never returns (if it came to sending it, it waits for ever). *)
Theorem C75_throwing_never_returns : forall k s i, lrun k linit s -> i < n -> throws i = true -> ~ mreturned M n (l_m s).
Proof. intros k s i H Li Ti R. destruct (C75_returns_only_if _ _ H R i Li). congruence. Qed.
Theorem C75_throwing_waits_for_ever : forall k s i, lrun k linit s -> (forall s', ~ lstep s s') -> i < n -> throws i = true -> (forall t, t < n -> is_mpi t = true) ->
  ~ over s /\ (forall e, In e (m_exp (l_m s)) -> throws (e_task e) = true /\ In (e_rank e) (l_dead s)) /\
  (forall t, t < m_next (l_m s) -> throws t = false -> In (t, perform t) (m_results (l_m s))) /\
  ((exists r, alive s r) -> m_next (l_m s) = n).
Proof.
  intros k s i H St Li Ti Q. destruct (C75_ends _ _ H St) as [[[O F] _]|(A & _ & _ & B & C & D)]; [exfalso|auto].
  destruct O as [O|O]; [exact (C75_throwing_never_returns _ _ _ H Li Ti O)|]. destruct (li_ref _ (linv_run _ _ H) O) as (_ & L & X). rewrite (Q _ L) in X. discriminate.
Qed.
(** Each throwing task takes one worker with it, which stays away from every later task. *)
Theorem C75_dead : forall k s, lrun k linit s -> exists ts, NoDup ts /\ NoDup (l_dead s) /\
  Forall2 (fun r t => 1 <= r < size /\ t < m_next (l_m s) /\ throws t = true /\ In (t, r) (m_sent (l_m s)) /\ ~ In t (map fst (m_results (l_m s)))) (l_dead s) ts.
Proof.
  intros k s H. assert (I := linv_run _ _ H). assert (Im := li_m _ I).
  assert (D : forall r, In r (l_dead s) -> exists e, In e (m_exp (l_m s)) /\ e_rank e = r /\ nexts (m_inbox (l_m s)) r = [e_task e] /\ throws (e_task e) = true).
  { intros r Hr. destruct (li_dead _ I r Hr) as (_ & t & Et & Tt). assert (C := mi_chan _ _ _ _ _ Im r). rewrite Et in C.
    destruct (for_rank r (m_exp (l_m s))) as [|e [|e' l]] eqn:Fr; cbn in C; [destruct C; discriminate| |destruct C].
    destruct C as [(C1 & _)|(C1 & _)]; [|discriminate]. injection C1 as ->. exists e.
    assert (He : In e (filter (fun e => Nat.eqb (e_rank e) r) (m_exp (l_m s)))) by (unfold PropMpi.for_rank in Fr; rewrite Fr; left; reflexivity).
    apply filter_In in He. destruct He as [He Er]. apply Nat.eqb_eq in Er. auto. }
  assert (One : forall t, occn (map e_task (m_exp (l_m s))) t <= 1) by (intro t; assert (P := mi_place _ _ _ _ _ Im t); destruct (Nat.ltb t (m_next (l_m s))); lia).
  exists (map (fun r => hd 0 (nexts (m_inbox (l_m s)) r)) (l_dead s)). split; [|split; [apply (li_dead1 _ I)|]].
  - assert (Nd := li_dead1 _ I). induction (l_dead s) as [|r l IH]; cbn [map]; [constructor|]. inversion Nd as [|? ? Nr Nl]; subst. constructor; [|apply IH; [intros; apply D; right; assumption|exact Nl]].
    intro Hi. apply in_map_iff in Hi. destruct Hi as (q & Eq & Hq). destruct (D r ltac:(left; reflexivity)) as (e & He & Er & Ee & _). destruct (D q ltac:(right; exact Hq)) as (e' & He' & Eq' & Ee' & _).
    rewrite Ee, Ee' in Eq. cbn [hd] in Eq. assert (Ne : e <> e') by (intros ->; congruence).
    specialize (One (e_task e)). apply in_split in He. destruct He as (l1 & l2 & El). rewrite El in One, He'. rewrite map_app in One. unfold occn in One. rewrite count_occ_app in One.
    cbn [map count_occ] in One. destruct (Nat.eq_dec (e_task e) (e_task e)); [|contradiction].
    assert (Z : count_occ Nat.eq_dec (map e_task l1) (e_task e) = 0 /\ count_occ Nat.eq_dec (map e_task l2) (e_task e) = 0) by lia. destruct Z as [Z1 Z2].
    apply count_occ_not_In in Z1, Z2. apply in_app_or in He'. destruct He' as [X|[X|X]]; [apply Z1; rewrite <- Eq; apply in_map, X|contradiction|apply Z2; rewrite <- Eq; apply in_map, X].
  - assert (Nd := D). assert (Rk : forall r, In r (l_dead s) -> 1 <= r < size) by (intros r Hr; apply (li_dead _ I r Hr)).
    induction (l_dead s) as [|r l IH]; cbn [map]; constructor; [|apply IH; intros; [apply D|apply Nd|apply Rk]; right; assumption].
    destruct (D r ltac:(left; reflexivity)) as (e & He & Er & Ee & Te). rewrite Ee. cbn [hd]. split; [apply Rk; left; reflexivity|].
    assert (P := mi_place _ _ _ _ _ Im (e_task e)). assert (Pos : 0 < occn (map e_task (m_exp (l_m s))) (e_task e)) by (apply count_occ_In, in_map, He).
    destruct (Nat.ltb_spec (e_task e) (m_next (l_m s))) as [Lt|]; [|lia]. split; [exact Lt|]. split; [exact Te|]. split; [rewrite <- Er; apply (b_sent _ (li_b _ I)), He|].
    apply (count_occ_not_In Nat.eq_dec). unfold occn in *. lia.
Qed.
(** A task that is no IMpiTask: DoTasks throws when it comes to it. The tasks before it have been sent, none after it; the results of all but min(i, size-2) of them have been received,
    these are dropped with their pending receives. *)
Theorem C75_refused : forall k s, lrun k linit s -> l_refused s = true ->
  exists i, i < n /\ is_mpi i = false /\ (forall t, t < i -> is_mpi t = true) /\ map fst (m_sent (l_m s)) = seq 0 i /\
    length (m_exp (l_m s)) = Nat.min i (size - 2) /\ length (m_results (l_m s)) = i - Nat.min i (size - 2).
Proof.
  intros k s H Rf. assert (I := linv_run _ _ H). destruct (li_ref _ I Rf) as (W & L & Q). exists (m_next (l_m s)).
  split; [exact L|]. split; [exact Q|]. split; [apply (li_mpi _ I)|]. split; [apply (mi_sent _ _ _ _ _ (li_m _ I))|].
  assert (C := mi_count _ _ _ _ _ (li_m _ I)). rewrite (b_len _ (li_b _ I)).
  assert (E : length (m_exp (l_m s)) = Nat.min (m_next (l_m s)) (size - 2)); [|split; [exact E|lia]].
  destruct (m_first (l_m s)) eqn:F.
  - destruct (b_next _ (li_b _ I) F W L). lia.
  - destruct (b_first _ (li_b _ I) F) as [X Y]. destruct (Y L) as [Z _]. assert (Lr := proj1 (mi_free _ _ _ _ _ (li_m _ I) W)). lia.
Qed.
(** No task throws in a worker: in the end the pool is destroyed and every worker has exited, having performed every task sent to it. What a refused call did not receive is left in the channels. *)
Theorem C75_all_exit : forall k s, lrun k linit s -> (forall s', ~ lstep s s') -> (forall t, t < n -> throws t = false) ->
  finalized M n size s /\ l_dead s = [] /\ (forall r, 1 <= r < size -> In r (l_exited s) /\ nexts (m_inbox (l_m s)) r = []) /\
  (forall e, In e (m_exp (l_m s)) -> e_got e ++ nexts (m_outbox (l_m s)) (e_rank e) = perform (e_task e)).
Proof.
  intros k s H St Ok. assert (I := linv_run _ _ H). assert (Ln := mi_next _ _ _ _ _ (li_m _ I)).
  assert (Dd : l_dead s = []).
  { destruct (C75_dead _ _ H) as (ts & _ & _ & F). destruct F as [|r t ? ? (_ & Lt & Tt & _) _]; [reflexivity|]. rewrite Ok in Tt by lia. discriminate. }
  destruct (C75_ends _ _ H St) as [[Fi Ex]|(_ & _ & (t & Lt & Tt) & _)]; [|rewrite Ok in Tt by lia; discriminate].
  assert (Ex' : forall r, 1 <= r < size -> In r (l_exited s) /\ nexts (m_inbox (l_m s)) r = []).
  { intros r Hr. destruct (Ex r Hr) as [X|X]; [|rewrite Dd in X; destruct X]. split; [exact X|apply (li_exit _ I r X)]. }
  split; [exact Fi|]. split; [exact Dd|]. split; [exact Ex'|]. intros e He. assert (Re := mi_exp _ _ _ _ _ (li_m _ I) e He).
  destruct (chan_of _ e (li_m _ I) He) as [(C1 & _)|(_ & C2)]; [|exact C2]. rewrite (proj2 (Ex' _ Re)) in C1. discriminate.
Qed.
(** A worker exits only after DoTasks is over and after every task sent to it; it never comes back. *)
Theorem C75_exit_last : forall k s, lrun k linit s -> forall r, In r (l_exited s) -> over s /\ ~ In r (l_dead s) /\ nexts (m_inbox (l_m s)) r = [] /\
  forall j s', lrun j s s' -> In r (l_exited s') /\ nexts (m_inbox (l_m s')) r = [].
Proof.
  intros k s H r Hr. assert (I := linv_run _ _ H). destruct (li_exit _ I r Hr) as [X Y].
  split; [apply (li_over _ I); lia|]. split; [intro D; destruct (li_dead _ I r D) as (_ & t & Et & _); congruence|]. split; [exact Y|].
  intros j s' Hj. assert (G : linv s' /\ In r (l_exited s')).
  { clear X Y H. induction Hj as [x|j s1 s2 s3 H1 IH Hs]; [split; assumption|]. destruct (IH Hr I) as [I2 R2]. split; [eapply linv_step; eassumption|].
    destruct Hs; cbn [l_exited]; try exact R2. right. exact R2. }
  destruct G as [I' R']. split; [exact R'|apply (li_exit _ I' r R')].
Qed.
Lemma lrun_next k s1 s2 s3 s3' : lrun k s1 s2 -> lstep s2 s3 -> s3 = s3' -> lrun (S k) s1 s3'.
Proof. intros H1 H2 <-. eapply lrun_cons; eassumption. Qed.
End C75.
Print Assumptions C75_dispatch.
Print Assumptions C75_conservative.
Print Assumptions C75_returns_only_if.
Print Assumptions C75_runs_finite.
Print Assumptions C75_ends.
Print Assumptions C75_throwing_never_returns.
Print Assumptions C75_throwing_waits_for_ever.
Print Assumptions C75_dead.
Print Assumptions C75_refused.
Print Assumptions C75_all_exit.
Print Assumptions C75_exit_last.

(** Two worker ranks, three tasks, the first of which throws: rank 1 is lost, rank 2 does the others, DoTasks waits. *)
Ltac alive := (unfold MpiLife.alive; cbn; repeat split; try lia; intuition congruence).
Theorem C75_witness_throw : exists k s, lrun nat (fun t => [10 + t]) 3 3 (fun _ => true) (fun t => Nat.eqb t 0) k (linit nat 3) s /\
  l_dead nat s = [1] /\ m_results nat (l_m nat s) = [(1, [11]); (2, [12])] /\ m_exp nat (l_m nat s) = [MkExpect nat 1 0 []] /\
  forall s', ~ lstep nat (fun t => [10 + t]) 3 3 (fun _ => true) (fun t => Nat.eqb t 0) s s'.
Proof.
  eexists. eexists. split; [|split; [|split; [|split]]].
  - eapply lrun_next; [eapply lrun_next; [eapply lrun_next; [eapply lrun_next; [eapply lrun_next; [eapply lrun_next; [eapply lrun_next; [eapply lrun_next; [eapply lrun_next; [eapply lrun_next; [apply lrun_nil
    |eapply L_server; [reflexivity|reflexivity|eapply S_send_first; cbn; reflexivity || lia]|cbn; reflexivity]
    |eapply L_server; [reflexivity|reflexivity|eapply S_send_first; cbn; reflexivity || lia]|cbn; reflexivity]
    |eapply (L_die _ _ _ _ _ _ _ 1); [alive|cbn; reflexivity|reflexivity]|cbn; reflexivity]
    |eapply (L_work _ _ _ _ _ _ _ 2); [alive|cbn; reflexivity|reflexivity]|cbn; reflexivity]
    |eapply L_server; [reflexivity|reflexivity|eapply (S_receive _ _ _ _ _ [_] _ []); [left; reflexivity|reflexivity|cbn; lia|reflexivity]]|cbn; reflexivity]
    |eapply L_server; [reflexivity|reflexivity|eapply (S_pop _ _ _ _ _ [_] _ []); reflexivity]|cbn; reflexivity]
    |eapply L_server; [reflexivity|reflexivity|eapply S_send_next; cbn; reflexivity || lia]|cbn; reflexivity]
    |eapply (L_work _ _ _ _ _ _ _ 2); [alive|cbn; reflexivity|reflexivity]|cbn; reflexivity]
    |eapply L_server; [reflexivity|reflexivity|eapply (S_receive _ _ _ _ _ [_] _ []); [left; reflexivity|reflexivity|cbn; lia|reflexivity]]|cbn; reflexivity]
    |eapply L_server; [reflexivity|reflexivity|eapply (S_pop _ _ _ _ _ [_] _ []); reflexivity]|cbn; reflexivity].
  - reflexivity.
  - reflexivity.
  - reflexivity.
  - intros s' H. inversion H as [s m' Rf Hm S|s Rf W L Nm|s r t rest (A1 & A2 & A3 & A4) Hb Tt|s r t rest (A1 & A2 & A3 & A4) Hb Tt|s O Lf|s r (A1 & A2 & A3 & A4) Lf Hb]; subst; cbn in *; try discriminate; try lia.
    + inversion S; subst; cbn in *; try discriminate; try lia.
      * destruct l1 as [|? [|? ?]]; cbn in *; try discriminate. match goal with E : _ :: _ = _ :: _ |- _ => injection E as <- <- end. cbn in *. discriminate.
      * destruct l1 as [|? [|? ?]]; cbn in *; try discriminate. match goal with E : _ :: _ = _ :: _ |- _ => injection E as <- <- end. cbn in *. discriminate.
    + destruct r as [|[|[|r]]]; cbn in *; try discriminate; try lia.
    + destruct r as [|[|[|r]]]; cbn in *; try discriminate; try lia.
    + destruct O as [(_ & _ & O)|O]; discriminate.
Qed.
(** Two worker ranks, the second task is no IMpiTask: DoTasks throws while the first task is under way; at the end of the pool both workers exit, the result stays in the channel. *)
Theorem C75_witness_refused : exists k s, lrun nat (fun t => [10 + t]) 2 3 (fun t => Nat.eqb t 0) (fun _ => false) k (linit nat 3) s /\
  l_refused nat s = true /\ finalized nat 2 3 s /\ l_exited nat s = [1; 2] /\ m_outbox nat (l_m nat s) = [[]; [10]; []] /\ m_exp nat (l_m nat s) = [MkExpect nat 1 0 []].
Proof.
  eexists. eexists. split.
  - eapply lrun_next; [eapply lrun_next; [eapply lrun_next; [eapply lrun_next; [eapply lrun_next; [eapply lrun_next; [eapply lrun_next; [apply lrun_nil
    |eapply L_server; [reflexivity|reflexivity|eapply S_send_first; cbn; reflexivity || lia]|cbn; reflexivity]
    |eapply L_refuse; cbn; reflexivity || lia|cbn; reflexivity]
    |eapply L_finalize; [right; reflexivity|cbn; lia]|cbn; reflexivity]
    |eapply L_finalize; [right; reflexivity|cbn; lia]|cbn; reflexivity]
    |eapply (L_exit _ _ _ _ _ _ _ 2); [alive|cbn; lia|cbn; reflexivity]|cbn; reflexivity]
    |eapply (L_work _ _ _ _ _ _ _ 1); [alive|cbn; reflexivity|reflexivity]|cbn; reflexivity]
    |eapply (L_exit _ _ _ _ _ _ _ 1); [alive|cbn; lia|cbn; reflexivity]|cbn; reflexivity].
  - repeat split. right. reflexivity.
Qed.
Print Assumptions C75_witness_throw.
Print Assumptions C75_witness_refused.
