(** C37 MPI dispatch, C38 asynchronous call chains. *)
From Coq Require Import Permutation.
From Verif Require Import Base PropQueue PropPool Mpi.
Local Open Scope list_scope.

(** ** C38 *)
Section C38.
Variable C : Type.
Variable mr : C -> bool.
Arguments ch_queue {C}. Arguments ch_request {C}. Arguments ch_finished {C}. Arguments ch_log {C}. Arguments MkChain {C}. Arguments Issued {C}. Arguments FoundComplete {C}.

(** Everything a user of a chain can do; [answer]: what MPI says when asked whether the current request is complete. *)
Inductive chop : Type := CAdd (c : C) | CIsFinished (answer : bool) | CMakeNext (answer : bool).
Definition chstep (o : chop) (s : chain C) : outcome bool * chain C :=
  match o with
  | CAdd c => (Ok true, chain_add C c s)
  | CIsFinished a => let (b, s1) := chain_is_finished C a s in (Ok b, s1)
  | CMakeNext a => let (x, s1) := chain_make_next C mr a s in (omap (fun _ => true) x, s1)
  end.
Fixpoint chrun (os : list chop) (s : chain C) : chain C := match os with [] => s | o :: r => chrun r (snd (chstep o s)) end.
Definition added (os : list chop) : list C := flat_map (fun o => match o with CAdd c => [c] | _ => [] end) os.

(** a call issued and, if it is a real request, found complete once *)
Definition complete (c : C) : list (ch_event C) := Issued c :: if mr c then [FoundComplete c] else [].

Record chinv (all : list C) (s : chain C) : Prop := {
  ci_log : exists done cur, all = done ++ match cur with Some c => [c] | None => [] end ++ ch_queue s /\
      ch_log s = flat_map complete done ++ match cur with Some c => [Issued c] | None => [] end /\
      (forall c, cur = Some c -> mr c = true /\ ch_request s = Some c /\ ch_finished s = false) /\
      (cur = None -> ch_finished s = true \/ ch_request s = None) }.

Lemma chinv_finished all s a b s1 : chinv all s -> chain_is_finished C a s = (b, s1) ->
  chinv all s1 /\ ch_queue s1 = ch_queue s /\ ch_finished s1 = b /\ (b = true -> exists done, all = done ++ ch_queue s1 /\ ch_log s1 = flat_map complete done) /\
  (b = false -> s1 = s /\ a = false).
Proof.
  intros [(done & cur & E1 & E2 & E3 & E4)] H. unfold chain_is_finished in H. destruct (ch_finished s) eqn:F.
  - injection H as <- <-. destruct cur as [c|]; [destruct (E3 c eq_refl) as (_ & _ & X); discriminate|].
    split; [constructor; exists done, None; rewrite F; auto|]. split; [reflexivity|]. split; [exact F|]. split; [|discriminate].
    intros _. exists done. cbn in E1, E2. rewrite app_nil_r in E2. auto.
  - destruct cur as [c|].
    + destruct (E3 c eq_refl) as (Hm & Hr & _). rewrite Hr in H. injection H as <- <-. destruct a.
      * split; [|split; [reflexivity|split; [reflexivity|split; [|discriminate]]]].
        -- constructor. exists (done ++ [c]), None. cbn. rewrite flat_map_app. cbn [flat_map]. unfold complete at 2. rewrite Hm, !app_nil_r.
           split; [rewrite E1, <- app_assoc; reflexivity|]. split; [rewrite E2, <- app_assoc; reflexivity|]. split; [discriminate|auto].
        -- intros _. exists (done ++ [c]). cbn. rewrite flat_map_app. cbn [flat_map]. unfold complete at 2. rewrite Hm, app_nil_r.
           split; [rewrite E1, <- app_assoc; reflexivity|rewrite E2, <- app_assoc; reflexivity].
      * assert (Es : MkChain (ch_queue s) (Some c) false (ch_log s) = s) by (destruct s; cbn in *; congruence). rewrite Es.
        split; [constructor; exists done, (Some c); rewrite F; split; [exact E1|]; split; [exact E2|]; split; [exact E3|discriminate]|].
        split; [reflexivity|]. split; [exact F|]. split; [discriminate|auto].
    + destruct (E4 eq_refl) as [X|X]; [congruence|]. rewrite X in H. injection H as <- <-. cbn in E1, E2. rewrite app_nil_r in E2.
      split; [constructor; exists done, None; cbn; rewrite app_nil_r; repeat split; auto; discriminate|]. split; [reflexivity|]. split; [reflexivity|]. split; [|discriminate].
      intros _. exists done. auto.
Qed.
Lemma chinv_make_next all s a x s1 : chinv all s -> chain_make_next C mr a s = (x, s1) ->
  chinv all s1 /\ (x = Throw RuntimeError -> s1 = s) /\ (forall e, x = Throw e -> e = RuntimeError).
Proof.
  intros I H. unfold chain_make_next in H. destruct (chain_is_finished C a s) as [b s2] eqn:E.
  destruct (chinv_finished _ _ _ _ _ I E) as (I2 & Q & F & T & N). destruct b.
  - destruct (ch_queue s2) as [|c q] eqn:Eq.
    + injection H as <- <-. split; [exact I2|]. split; [discriminate|intros; discriminate].
    + injection H as <- <-. split; [|split; [discriminate|intros; discriminate]]. destruct (T eq_refl) as (done & D1 & D2). constructor. cbn. destruct (mr c) eqn:Em.
      * exists done, (Some c). cbn. rewrite D2. split; [exact D1|]. split; [reflexivity|]. split; [intros c' X; injection X as <-; auto|discriminate].
      * exists (done ++ [c]), None. cbn. rewrite D2, flat_map_app. cbn [flat_map]. unfold complete at 3. rewrite Em, !app_nil_r, <- app_assoc.
        split; [exact D1|]. split; [reflexivity|]. split; [discriminate|auto].
  - injection H as <- <-. split; [exact I2|]. split; [intros _; apply N; reflexivity|]. intros e X. congruence.
Qed.
Lemma chinv_add all s c : chinv all s -> chinv (all ++ [c]) (chain_add C c s).
Proof.
  intros [(done & cur & E1 & E2 & E3 & E4)]. constructor. exists done, cur. cbn. split; [rewrite E1, <- !app_assoc; reflexivity|]. auto.
Qed.
Lemma chinv_step all s o : chinv all s -> chinv (all ++ added [o]) (snd (chstep o s)).
Proof.
  intro I. destruct o as [c|a|a]; unfold added; cbn [flat_map chstep app].
  - apply chinv_add. exact I.
  - rewrite app_nil_r. destruct (chain_is_finished C a s) as [b s1] eqn:E. apply (chinv_finished _ _ _ _ _ I E).
  - rewrite app_nil_r. destruct (chain_make_next C mr a s) as [x s1] eqn:E. apply (chinv_make_next _ _ _ _ _ I E).
Qed.
Lemma chinv_run os : forall all s, chinv all s -> chinv (all ++ added os) (chrun os s).
Proof.
  induction os as [|o os IH]; intros all s I; cbn [chrun]; [cbn; rewrite app_nil_r; exact I|].
  apply (chinv_step _ _ o) in I. apply IH in I. unfold added in *. cbn [flat_map]. cbn [flat_map] in I. rewrite app_nil_r in I. rewrite <- app_assoc in I. exact I.
Qed.
Lemma chinv_new c : chinv [c] (chain_new C c).
Proof. constructor. exists [], None. cbn. repeat split; auto; discriminate. Qed.

(** Whatever is done to a chain, in whatever order requests complete: calls are issued one at a time in the order they were
    added, and every request is found complete - exactly once - before the next call is issued. The calls issued and the
    calls still queued are together the calls added. *)
Theorem C38_one_at_a_time : forall first os, let s := chrun os (chain_new C first) in
  exists finished current, first :: added os = finished ++ match current with Some c => [c] | None => [] end ++ ch_queue s /\
    ch_log s = flat_map complete finished ++ match current with Some c => [Issued c] | None => [] end.
Proof.
  intros first os. cbv zeta. destruct (chinv_run os _ _ (chinv_new first)) as [(done & cur & E1 & E2 & _ & _)]. exists done, cur. auto.
Qed.
(** Asking for the next call while the current one is unfinished throws and changes nothing; it is the only exception. *)
Theorem C38_unfinished_throws : forall first os a x s', let s := chrun os (chain_new C first) in
  chain_make_next C mr a s = (x, s') ->
  (x = Throw RuntimeError <-> exists c, ch_request s = Some c /\ ch_finished s = false /\ a = false) /\
  (forall e, x = Throw e -> e = RuntimeError) /\ (x = Throw RuntimeError -> s' = s).
Proof.
  intros first os a x s'. cbv zeta. intro H. destruct (chinv_make_next _ _ _ _ _ (chinv_run os _ _ (chinv_new first)) H) as (_ & A & B).
  split; [|auto]. set (s := chrun os (chain_new C first)) in *. clearbody s. unfold chain_make_next, chain_is_finished in H. split.
  - intros ->. destruct (ch_finished s); [destruct (ch_queue s); discriminate|]. destruct (ch_request s) as [c|].
    + destruct a; [cbn in H; destruct (ch_queue s); discriminate|]. exists c. auto.
    + cbn in H. destruct (ch_queue s); discriminate.
  - intros (c & R & F & ->). rewrite F, R in H. cbn in H. congruence.
Qed.
(** A pass of WaitAndPopNextExpectation over chains with any histories never fails, and pops a chain only when every call
    ever added to it has been issued and found complete; the others stay in the list, in order. *)
Definition reachable (all : list C) (s : chain C) : Prop := exists first os, all = first :: added os /\ s = chrun os (chain_new C first).
Lemma wait_pass_spec l : forall answers alls, length alls = length l -> (forall i all s, nth_error alls i = Some all -> nth_error l i = Some s -> chinv all s) ->
  exists o l', wait_pass C mr answers l = Ok (o, l') /\
    match o with
    | None => length l' = length l
    | Some s => exists i all, i < length l /\ nth_error alls i = Some all /\ ch_queue s = [] /\ ch_log s = flat_map complete all /\ length l' + 1 = length l /\
                  (forall j, i < j -> nth_error l' (pred j) = nth_error l j)
    end.
Proof.
  induction l as [|s l IH]; intros answers alls Hl Hc; cbn [wait_pass].
  - exists None, []. auto.
  - destruct alls as [|all alls]; [discriminate|]. cbn in Hl.
    assert (I : chinv all s) by (apply (Hc 0); reflexivity).
    destruct (chain_is_finished C (hd false answers) s) as [b s1] eqn:E. destruct (chinv_finished _ _ _ _ _ I E) as (I1 & Q & F & T & N).
    destruct (IH (tl answers) alls) as (o & l' & E' & H'); [lia|intros i a0 s0 H1 H2; apply (Hc (S i)); assumption|].
    assert (Cont : forall s2, match o with
      | None => length (s2 :: l') = length (s :: l)
      | Some s0 => exists i all0, i < length (s :: l) /\ nth_error (all :: alls) i = Some all0 /\ ch_queue s0 = [] /\ ch_log s0 = flat_map complete all0 /\ length (s2 :: l') + 1 = length (s :: l) /\
                  (forall j, i < j -> nth_error (s2 :: l') (pred j) = nth_error (s :: l) j) end).
    { intro s2. destruct o as [s0|]; [|cbn; lia]. destruct H' as (i & all0 & L & A & B & D & G & K). exists (S i), all0. split; [cbn; lia|]. split; [exact A|]. split; [exact B|].
      split; [exact D|]. split; [cbn; lia|]. intros [|[|j]] Hj; [lia|lia|]. cbn [pred nth_error]. specialize (K (S j)). cbn [pred] in K. apply K. lia. }
    destruct b.
    + unfold chain_will_be_next. destruct (ch_queue s1) as [|c q] eqn:Eq.
      * exists (Some s1), l. split; [reflexivity|]. destruct (T eq_refl) as (done & D1 & D2). rewrite app_nil_r in D1. subst done.
        exists 0, all. split; [cbn; lia|]. split; [reflexivity|]. split; [exact Eq|]. split; [exact D2|]. split; [cbn; lia|]. intros [|j] Hj; [lia|reflexivity].
      * unfold chain_make_next, chain_is_finished. rewrite F, Eq. rewrite E'. cbn [bind fst snd]. eexists. eexists. split; [reflexivity|]. apply Cont.
    + rewrite E'. cbn [bind fst snd]. eexists. eexists. split; [reflexivity|]. apply Cont.
Qed.
Theorem C38_wait_pass : forall answers l alls, length alls = length l -> (forall i all s, nth_error alls i = Some all -> nth_error l i = Some s -> reachable all s) ->
  exists o l', wait_pass C mr answers l = Ok (o, l') /\
    match o with
    | None => length l' = length l
    | Some s => exists i all, i < length l /\ nth_error alls i = Some all /\ ch_queue s = [] /\ ch_log s = flat_map complete all /\ length l' + 1 = length l /\
                  (forall j, i < j -> nth_error l' (pred j) = nth_error l j)
    end.
Proof.
  intros answers l alls Hl Hr. apply wait_pass_spec; [exact Hl|]. intros i all s H1 H2. destruct (Hr _ _ _ H1 H2) as (first & os & -> & ->). apply (chinv_run os _ _ (chinv_new first)).
Qed.
End C38.
Print Assumptions C38_one_at_a_time.
Print Assumptions C38_unfinished_throws.
Print Assumptions C38_wait_pass.
Example C38_witness :
  let s := chrun nat (fun _ => true) [CMakeNext nat true; CAdd nat 8; CIsFinished nat false; CMakeNext nat false; CIsFinished nat true; CMakeNext nat true] (chain_new nat 7) in
  ch_log nat s = [Issued nat 7; FoundComplete nat 7; Issued nat 8] /\ fst (chain_make_next nat (fun _ => true) false s) = Throw RuntimeError.
Proof. split; reflexivity. Qed.

(** ** C37 *)
Section C37.
Variable M : Type.
Variable perform : nat -> list M.
Variables n size : nat.
Arguments e_rank {M}. Arguments e_task {M}. Arguments e_got {M}. Arguments MkExpect {M}.
Arguments m_next {M}. Arguments m_rank {M}. Arguments m_first {M}. Arguments m_wait {M}. Arguments m_exp {M}. Arguments m_inbox {M}. Arguments m_outbox {M}.
Arguments m_results {M}. Arguments m_stats {M}. Arguments m_sent {M}. Arguments MkMpi {M}.
Notation mstate := (mstate M).

Definition for_rank (r : nat) (l : list (expect M)) : list (expect M) := filter (fun e => Nat.eqb (e_rank e) r) l.
Definition occn (l : list nat) (x : nat) : nat := count_occ Nat.eq_dec l x.
Lemma occn_snoc l x t : occn (l ++ [x]) t = occn l t + (if Nat.eqb x t then 1 else 0).
Proof. unfold occn. rewrite count_occ_app. cbn. destruct (Nat.eq_dec x t), (Nat.eqb_spec x t); try reflexivity; contradiction. Qed.

Definition chan_ok (inbox : list nat) (outbox : list M) (es : list (expect M)) : Prop :=
  match es with
  | [] => inbox = [] /\ outbox = []
  | [e] => (inbox = [e_task e] /\ outbox = [] /\ e_got e = []) \/ (inbox = [] /\ e_got e ++ outbox = perform (e_task e))
  | _ => False
  end.
Record minv (s : mstate) : Prop := {
  mi_len1 : length (m_inbox s) = size; mi_len2 : length (m_outbox s) = size;
  mi_next : m_next s <= n;
  mi_chan : forall r, chan_ok (nexts (m_inbox s) r) (nexts (m_outbox s) r) (for_rank r (m_exp s));
  mi_exp : forall e, In e (m_exp s) -> 1 <= e_rank e < size;
  mi_free : m_wait s = false -> 1 <= m_rank s < size /\ (m_next s < n -> for_rank (m_rank s) (m_exp s) = []);
  mi_first : m_first s = false -> m_wait s = false /\ forall e, In e (m_exp s) -> e_rank e < m_rank s;
  mi_wait : m_wait s = true -> m_exp s <> [];
  mi_place : forall t, occn (map e_task (m_exp s)) t + occn (map fst (m_results s)) t = if Nat.ltb t (m_next s) then 1 else 0;
  mi_values : forall t v, In (t, v) (m_results s) -> v = perform t;
  mi_sent : map fst (m_sent s) = seq 0 (m_next s);
  mi_ranks : forall r, occn (map snd (m_sent s)) r = occn (m_stats s) r + length (for_rank r (m_exp s));
  mi_count : length (m_stats s) + length (m_exp s) = m_next s;
  mi_stats : forall r, In r (m_stats s) -> 1 <= r < size }.

Lemma nexts_upd {A} (l : list (list A)) i j x : i < length l -> nexts (upd l i x) j = if Nat.eqb i j then x else nexts l j.
Proof.
  intro L. unfold nexts. destruct (Nat.eqb_spec i j) as [<-|N].
  - apply nth_error_nth. rewrite nth_error_upd, Nat.eqb_refl. destruct (Nat.ltb_spec i (length l)); [reflexivity|lia].
  - assert (E := nth_error_upd l i j x). destruct (Nat.eqb_spec i j); [contradiction|].
    destruct (nth_error l j) as [y|] eqn:Ej.
    + rewrite (nth_error_nth _ _ _ Ej). apply nth_error_nth. rewrite E. reflexivity.
    + apply nth_error_None in Ej. rewrite !nth_overflow; [reflexivity|exact Ej|rewrite upd_length; exact Ej].
Qed.
Lemma for_rank_app r l l' : for_rank r (l ++ l') = for_rank r l ++ for_rank r l'.
Proof. apply filter_app. Qed.
Lemma for_rank_cons r e l : for_rank r (e :: l) = if Nat.eqb (e_rank e) r then e :: for_rank r l else for_rank r l.
Proof. reflexivity. Qed.
Lemma mi_unique s l1 e l2 : minv s -> m_exp s = l1 ++ e :: l2 -> for_rank (e_rank e) l1 = [] /\ for_rank (e_rank e) l2 = [].
Proof.
  intros I E. assert (H := mi_chan _ I (e_rank e)). rewrite E, for_rank_app, for_rank_cons, Nat.eqb_refl in H.
  destruct (for_rank (e_rank e) l1) as [|a [|b l]], (for_rank (e_rank e) l2) as [|a' l']; cbn in H; tauto.
Qed.

(** At least one worker rank (otherwise DoTasks throws, lines 215-223), every result is at least one message (otherwise
    SendTask throws, lines 113-116). *)
Hypothesis size2 : 2 <= size.
Hypothesis nonempty : forall t, perform t <> [].

Lemma nexts_repeat {A} k r : nexts (repeat (@nil A) k) r = [].
Proof. unfold nexts. revert r; induction k as [|k IH]; intros [|r]; cbn; auto. Qed.
Lemma minv_init : minv (minit M size).
Proof.
  constructor; cbn [minit m_next m_rank m_first m_wait m_exp m_inbox m_outbox m_results m_stats m_sent]; rewrite ?repeat_length; try reflexivity; try lia.
  - intro r. cbn. rewrite !nexts_repeat. auto.
  - intros e [].
  - intros _. split; [lia|reflexivity].
  - split; [reflexivity|]. intros e [].
  - intros t v [].
  - intros r [].
Qed.

(** sending, common to both kinds of step *)
Lemma minv_send s rank' first' wait' : minv s -> m_wait s = false -> m_next s < n ->
  (wait' = false -> first' = false /\ rank' = S (m_rank s) /\ rank' < size /\ m_first s = false) -> (first' = false -> wait' = false) ->
  minv (MkMpi (S (m_next s)) rank' first' wait' (m_exp s ++ [MkExpect (m_rank s) (m_next s) []])
         (upd (m_inbox s) (m_rank s) (nexts (m_inbox s) (m_rank s) ++ [m_next s])) (m_outbox s) (m_results s) (m_stats s) (m_sent s ++ [(m_next s, m_rank s)])).
Proof.
  intros I W L Hw Hf. destruct (mi_free _ I W) as (Lr & Fr). specialize (Fr L).
  assert (Ch := mi_chan _ I (m_rank s)). rewrite Fr in Ch. cbn in Ch. destruct Ch as [Ch1 Ch2].
  destruct I as [I1 I2 I3 I4 I5 I6 I7 I8 I9 I10 I11 I12 I13 I14].
  constructor; cbn [m_next m_rank m_first m_wait m_exp m_inbox m_outbox m_results m_stats m_sent].
  - rewrite upd_length. exact I1.
  - exact I2.
  - lia.
  - intro r. rewrite nexts_upd by lia. rewrite for_rank_app, for_rank_cons. cbn [e_rank for_rank filter]. destruct (Nat.eqb_spec (m_rank s) r) as [<-|N].
    + rewrite Fr, Ch1, Ch2. cbn. auto.
    + rewrite app_nil_r. apply I4.
  - intros e He. apply in_app_or in He. destruct He as [He|[<-|[]]]; [apply I5; exact He|exact Lr].
  - intro X. destruct (Hw X) as (Y1 & -> & Y3 & Y4). split; [lia|]. intros _. rewrite for_rank_app, for_rank_cons. cbn [e_rank for_rank filter].
    destruct (Nat.eqb_spec (m_rank s) (S (m_rank s))); [lia|]. rewrite app_nil_r. destruct (I7 Y4) as [_ Y5].
    clear -Y5. induction (m_exp s) as [|e l IH]; cbn; [reflexivity|]. assert (e_rank e < m_rank s) by (apply Y5; left; reflexivity).
    destruct (Nat.eqb_spec (e_rank e) (S (m_rank s))); [lia|]. apply IH. intros; apply Y5; right; assumption.
  - intro X. assert (X' := Hf X). split; [exact X'|]. destruct (Hw X') as (_ & -> & _ & Y4). destruct (I7 Y4) as [_ Y5].
    intros e He. apply in_app_or in He. destruct He as [He|[<-|[]]]; [apply Y5 in He; lia|cbn; lia].
  - intros _ X. apply app_eq_nil in X. destruct X as [_ X]. discriminate.
  - intro t. specialize (I9 t). rewrite map_app. cbn [map e_task]. rewrite occn_snoc.
    destruct (Nat.eqb_spec (m_next s) t), (Nat.ltb_spec t (S (m_next s))), (Nat.ltb_spec t (m_next s)); lia.
  - exact I10.
  - rewrite map_app, I11. cbn [map fst]. rewrite seq_S. reflexivity.
  - intro r. rewrite map_app, for_rank_app, app_length. cbn [map snd]. rewrite occn_snoc, I12. cbn [for_rank filter e_rank]. destruct (Nat.eqb (m_rank s) r); cbn [length]; lia.
  - rewrite app_length. cbn [length]. lia.
  - exact I14.
Qed.
(** popping, common to both kinds of step *)
Lemma minv_pop s l1 e l2 rank' : minv s -> m_exp s = l1 ++ e :: l2 -> length (e_got e) = length (perform (e_task e)) ->
  (1 <= rank' < size /\ (m_next s < n -> for_rank rank' (l1 ++ l2) = [])) -> (m_first s = false -> rank' = m_rank s) ->
  minv (MkMpi (m_next s) rank' (m_first s) false (l1 ++ l2) (m_inbox s) (m_outbox s) (m_results s ++ [(e_task e, e_got e)]) (m_stats s ++ [e_rank e]) (m_sent s)).
Proof.
  intros I E G Hr Hf. destruct (mi_unique _ _ _ _ I E) as [U1 U2].
  assert (Ch := mi_chan _ I (e_rank e)). rewrite E, for_rank_app, for_rank_cons, Nat.eqb_refl, U1, U2 in Ch. cbn [app chan_ok] in Ch.
  assert (Re := mi_exp _ I e ltac:(rewrite E; apply in_or_app; right; left; reflexivity)).
  assert (Full : nexts (m_inbox s) (e_rank e) = [] /\ nexts (m_outbox s) (e_rank e) = [] /\ e_got e = perform (e_task e)).
  { destruct Ch as [(A1 & A2 & A3)|(A1 & A2)].
    - rewrite A3 in G. cbn in G. exfalso. apply (nonempty (e_task e)). apply length_zero_iff_nil. congruence.
    - split; [exact A1|]. rewrite <- A2 in G. rewrite app_length in G.
      assert (Z0 : nexts (m_outbox s) (e_rank e) = []) by (apply length_zero_iff_nil; lia). split; [exact Z0|]. rewrite Z0, app_nil_r in A2. exact A2. }
  destruct Full as (Z1 & Z2 & Z3). destruct I as [I1 I2 I3 I4 I5 I6 I7 I8 I9 I10 I11 I12 I13 I14].
  constructor; cbn [m_next m_rank m_first m_wait m_exp m_inbox m_outbox m_results m_stats m_sent]; try assumption.
  - intro r. specialize (I4 r). rewrite E, for_rank_app, for_rank_cons in I4. rewrite for_rank_app. destruct (Nat.eqb_spec (e_rank e) r) as [Er|N]; [subst r|exact I4].
    rewrite U1, U2, Z1, Z2. cbn. auto.
  - intros x Hx. apply I5. rewrite E. apply in_app_or in Hx. apply in_or_app. cbn. tauto.
  - intros _. exact Hr.
  - intro X. split; [reflexivity|]. rewrite (Hf X). destruct (I7 X) as [_ Y]. intros x Hx. apply Y. rewrite E. apply in_app_or in Hx. apply in_or_app. cbn. tauto.
  - discriminate.
  - intro t. specialize (I9 t). rewrite E in I9. rewrite !map_app in *. cbn [map fst] in *. rewrite occn_snoc. unfold occn in *. rewrite count_occ_app in *. cbn [count_occ] in I9.
    destruct (Nat.eq_dec (e_task e) t), (Nat.eqb_spec (e_task e) t); try contradiction; lia.
  - intros t v Hv. apply in_app_or in Hv. destruct Hv as [Hv|[Hv|[]]]; [apply I10; exact Hv|]. injection Hv as <- <-. exact Z3.
  - intro r. specialize (I12 r). rewrite E, !for_rank_app, for_rank_cons, !app_length in *. rewrite occn_snoc. destruct (Nat.eqb (e_rank e) r); cbn [length] in *; lia.
  - rewrite E in I13. rewrite !app_length in *. cbn [length] in *. lia.
  - intros r Hr'. apply in_app_or in Hr'. destruct Hr' as [Hr'|[<-|[]]]; [apply I14; exact Hr'|exact Re].
Qed.

Lemma minv_step s s' : minv s -> mstep M perform n size s s' -> minv s'.
Proof.
  intros I H. destruct H as [s W L F|s W L F|s r t rest L1 L2 Hb|s l1 e l2 x rest P E G Ho|s l1 e l2 W E G|s l1 e l2 W L E G].
  - apply minv_send; auto.
    + destruct (Nat.leb_spec size (S (m_rank s))); [discriminate|auto].
  - apply minv_send; auto; discriminate.
  - assert (Ch := mi_chan _ I r). destruct I as [I1 I2 I3 I4 I5 I6 I7 I8 I9 I10 I11 I12 I13 I14].
    constructor; cbn [m_next m_rank m_first m_wait m_exp m_inbox m_outbox m_results m_stats m_sent]; try assumption; try (rewrite upd_length; assumption).
    intro r0. rewrite !nexts_upd by lia. destruct (Nat.eqb_spec r r0) as [<-|N]; [|apply I4].
    destruct (for_rank r (m_exp s)) as [|e [|e' l]]; cbn in Ch; [destruct Ch; congruence| |tauto].
    destruct Ch as [(A1 & A2 & A3)|(A1 & A2)]; [|congruence]. rewrite Hb in A1. injection A1 as -> ->. cbn. right. rewrite A2, A3. auto.
  - destruct (mi_unique _ _ _ _ I E) as [U1 U2]. assert (Ch := mi_chan _ I (e_rank e)). rewrite E, for_rank_app, for_rank_cons, Nat.eqb_refl, U1, U2 in Ch. cbn [app chan_ok] in Ch.
    assert (Re := mi_exp _ I e ltac:(rewrite E; apply in_or_app; right; left; reflexivity)).
    destruct Ch as [(_ & A2 & _)|(A1 & A2)]; [congruence|]. destruct I as [I1 I2 I3 I4 I5 I6 I7 I8 I9 I10 I11 I12 I13 I14].
    assert (Fr : forall r, length (for_rank r (l1 ++ MkExpect (e_rank e) (e_task e) (e_got e ++ [x]) :: l2)) = length (for_rank r (m_exp s))).
    { intro r. rewrite E, !for_rank_app, !for_rank_cons, !app_length. cbn [e_rank]. destruct (Nat.eqb (e_rank e) r); reflexivity. }
    assert (Fn : forall r, for_rank r (m_exp s) = [] -> for_rank r (l1 ++ MkExpect (e_rank e) (e_task e) (e_got e ++ [x]) :: l2) = []).
    { intros r X. apply length_zero_iff_nil. rewrite Fr, X. reflexivity. }
    assert (Ir : forall y, In y (l1 ++ MkExpect (e_rank e) (e_task e) (e_got e ++ [x]) :: l2) -> exists z, In z (m_exp s) /\ e_rank z = e_rank y).
    { intros y Hy. rewrite E. apply in_app_or in Hy. destruct Hy as [Hy|[<-|Hy]]; [exists y|exists e|exists y]; (split; [apply in_or_app; cbn; tauto|reflexivity]). }
    constructor; cbn [m_next m_rank m_first m_wait m_exp m_inbox m_outbox m_results m_stats m_sent]; try assumption; try (rewrite upd_length; assumption).
    + intro r. rewrite nexts_upd by lia. rewrite for_rank_app, for_rank_cons. cbn [e_rank]. specialize (I4 r). rewrite E, for_rank_app, for_rank_cons in I4.
      destruct (Nat.eqb_spec (e_rank e) r) as [<-|N]; [|exact I4]. rewrite U1, U2, A1. cbn. right. split; [reflexivity|]. rewrite <- A2, Ho, <- app_assoc. reflexivity.
    + intros y Hy. apply Ir in Hy. destruct Hy as (z & Hz & <-). apply I5. exact Hz.
    + intro X. destruct (I6 X) as [Y1 Y2]. split; [exact Y1|]. intro X'. apply Fn. apply Y2. exact X'.
    + intro X. destruct (I7 X) as [Y1 Y2]. split; [exact Y1|]. intros y Hy. apply Ir in Hy. destruct Hy as (z & Hz & <-). apply Y2. exact Hz.
    + intros _ X. apply app_eq_nil in X. destruct X as [_ X]. discriminate.
    + intro t. specialize (I9 t). rewrite E in I9. rewrite map_app in *. exact I9.
    + intro r. rewrite Fr. apply I12.
    + rewrite E in I13. rewrite app_length in *. exact I13.
  - destruct (mi_unique _ _ _ _ I E) as [U1 U2]. apply minv_pop; auto.
    + split; [apply (mi_exp _ I); rewrite E; apply in_or_app; right; left; reflexivity|]. intros _. rewrite for_rank_app, U1, U2. reflexivity.
    + intro X. destruct (mi_first _ I X) as [Y _]. congruence.
  - apply minv_pop; auto. destruct (mi_free _ I W) as [Y _]. split; [exact Y|]. lia.
Qed.
Lemma minv_run k s s' : minv s -> mrun M perform n size k s s' -> minv s'.
Proof. intros I H. revert I. induction H as [s|k s1 s2 s3 H IH Hs]; intro I; [exact I|exact (minv_step _ _ (IH I) Hs)]. Qed.

(** In every reachable state: every task is sent at most once, in order, to a worker rank; a worker is sent a task only
    after the result of its previous one has been received (it holds at most one unfinished task); completed results are
    what their tasks' Perform sent back, untouched by the other workers' messages. *)
Theorem C37_dispatch : forall k s, mrun M perform n size k (minit M size) s ->
  map fst (m_sent s) = seq 0 (m_next s) /\ m_next s <= n /\
  (forall r, In r (map snd (m_sent s)) -> 1 <= r < size) /\
  (forall r, occn (map snd (m_sent s)) r <= occn (m_stats s) r + 1) /\
  (forall t v, In (t, v) (m_results s) -> v = perform t).
Proof.
  intros k s H. assert (I := minv_run _ _ _ minv_init H). split; [apply (mi_sent _ I)|]. split; [apply (mi_next _ I)|]. split; [|split].
  - intros r Hr. apply (count_occ_In Nat.eq_dec) in Hr. fold (occn (map snd (m_sent s)) r) in Hr. rewrite (mi_ranks _ I) in Hr.
    destruct (for_rank r (m_exp s)) as [|e l] eqn:E.
    + cbn in Hr. apply (mi_stats _ I). apply (count_occ_In Nat.eq_dec). fold (occn (m_stats s) r). lia.
    + assert (In e (for_rank r (m_exp s))) by (rewrite E; left; reflexivity). apply filter_In in H0. destruct H0 as [H0 H1]. apply Nat.eqb_eq in H1. subst r. apply (mi_exp _ I). exact H0.
  - intro r. rewrite (mi_ranks _ I). assert (C := mi_chan _ I r). destruct (for_rank r (m_exp s)) as [|e [|e' l]]; cbn in *; [lia|lia|tauto].
  - apply (mi_values _ I).
Qed.
(** When DoTasks returns: every task was sent exactly once; every position holds exactly one result, its own; the counters
    add up to n; and no message is in flight, so the next call starts from the initial situation. *)
Theorem C37_results : forall k s, mrun M perform n size k (minit M size) s -> mreturned M n s ->
  map fst (m_sent s) = seq 0 n /\ (forall i, i < n -> occn (map fst (m_results s)) i = 1 /\ In (i, perform i) (m_results s)) /\
  length (m_results s) = n /\ length (m_stats s) = n /\ (forall r, occn (m_stats s) r = occn (map snd (m_sent s)) r) /\
  (forall r, nexts (m_inbox s) r = [] /\ nexts (m_outbox s) r = []).
Proof.
  intros k s H (R1 & R2 & R3). assert (I := minv_run _ _ _ minv_init H).
  assert (P := mi_place _ I). rewrite R3, R1 in P. unfold occn at 1 in P. cbn [map count_occ Nat.add] in P.
  split; [rewrite <- R1; apply (mi_sent _ I)|]. split; [|split; [|split; [|split]]].
  - intros i Li. specialize (P i). rewrite (proj2 (Nat.ltb_lt i n) Li) in P. split; [exact P|]. unfold occn in P.
    assert (In i (map fst (m_results s))) by (apply (count_occ_In Nat.eq_dec); lia). apply in_map_iff in H0. destruct H0 as ([t v] & E & Hi). cbn in E. subst t.
    assert (v = perform i) by (apply (mi_values _ I); exact Hi). subst v. exact Hi.
  - assert (Permutation (map fst (m_results s)) (seq 0 n)).
    { apply (Permutation_count_occ Nat.eq_dec). intro x. specialize (P x). unfold occn in P. rewrite P. destruct (Nat.ltb_spec x n) as [L|L].
      - symmetry. apply (proj1 (NoDup_count_occ' Nat.eq_dec (seq 0 n)) (seq_NoDup n 0)). apply in_seq. lia.
      - symmetry. apply count_occ_not_In. rewrite in_seq. lia. }
    apply Permutation_length in H0. rewrite map_length, seq_length in H0. exact H0.
  - assert (C := mi_count _ I). rewrite R3, R1 in C. cbn in C. lia.
  - intro r. rewrite (mi_ranks _ I), R3. cbn. lia.
  - intro r. assert (C := mi_chan _ I r). rewrite R3 in C. exact C.
Qed.
(** DoTasks is never stuck before it returns ... *)
Theorem C37_no_deadlock : forall k s, mrun M perform n size k (minit M size) s -> mreturned M n s \/ exists s', mstep M perform n size s s'.
Proof.
  intros k s H. assert (I := minv_run _ _ _ minv_init H).
  destruct (m_wait s) eqn:W.
  - right. assert (X := mi_wait _ I W). destruct (m_exp s) as [|e l] eqn:E; [congruence|].
    assert (Re := mi_exp _ I e ltac:(rewrite E; left; reflexivity)).
    destruct (Nat.eq_dec (length (e_got e)) (length (perform (e_task e)))) as [G|G].
    + eexists. eapply (M_pop _ _ _ _ s [] e l); [exact W|exact E|exact G].
    + assert (Ch := mi_chan _ I (e_rank e)). destruct (mi_unique _ [] e l I E) as [_ U]. rewrite E, for_rank_cons, Nat.eqb_refl, U in Ch. cbn in Ch.
      destruct Ch as [(A1 & A2 & A3)|(A1 & A2)].
      * eexists. eapply (M_work _ _ _ _ s (e_rank e)); [lia|lia|exact A1].
      * destruct (nexts (m_outbox s) (e_rank e)) as [|x rest] eqn:Eo; [rewrite app_nil_r in A2; congruence|].
        eexists. eapply (M_receive _ _ _ _ s [] e l); [left; exact W|exact E| |exact Eo]. rewrite <- A2, app_length. cbn. lia.
  - destruct (Nat.eq_dec (m_next s) n) as [N|N].
    + destruct (m_exp s) as [|e l] eqn:E; [left; repeat split; assumption|right].
      assert (Re := mi_exp _ I e ltac:(rewrite E; left; reflexivity)).
      destruct (Nat.eq_dec (length (e_got e)) (length (perform (e_task e)))) as [G|G].
      * eexists. eapply (M_drain _ _ _ _ s [] e l); [exact W|exact N|exact E|exact G].
      * assert (Ch := mi_chan _ I (e_rank e)). destruct (mi_unique _ [] e l I E) as [_ U]. rewrite E, for_rank_cons, Nat.eqb_refl, U in Ch. cbn in Ch.
        destruct Ch as [(A1 & A2 & A3)|(A1 & A2)].
        -- eexists. eapply (M_work _ _ _ _ s (e_rank e)); [lia|lia|exact A1].
        -- destruct (nexts (m_outbox s) (e_rank e)) as [|x rest] eqn:Eo; [rewrite app_nil_r in A2; congruence|].
           eexists. eapply (M_receive _ _ _ _ s [] e l); [right; exact N|exact E| |exact Eo]. rewrite <- A2, app_length. cbn. lia.
    + right. assert (L := mi_next _ I). destruct (m_first s) eqn:F; eexists; [eapply M_send_next|eapply M_send_first]; try assumption; lia.
Qed.
(** ... and every run is finite: three steps per task and one per message. *)
Definition left_cost (t : nat) : nat := 3 + length (perform t).
Definition mcost (s : mstate) : nat :=
  sumf left_cost (seq (m_next s) (n - m_next s))
  + sumf (fun e => 1 + (length (perform (e_task e)) - length (e_got e))) (m_exp s) + sumf (@length nat) (m_inbox s).
Lemma mcost_step s s' : minv s -> mstep M perform n size s s' -> mcost s' < mcost s.
Proof.
  intros I H. unfold mcost.
  assert (Nx : forall A (l : list (list A)) r, r < length l -> nth_error l r = Some (nexts l r)) by (intros; unfold nexts; apply nth_error_nth'; assumption).
  assert (I1 := mi_len1 _ I). assert (I2 := mi_len2 _ I).
  assert (Send : m_wait s = false -> m_next s < n -> forall e, e = MkExpect (m_rank s) (m_next s) [] ->
    sumf left_cost (seq (S (m_next s)) (n - S (m_next s))) + sumf (fun e => 1 + (length (perform (e_task e)) - length (e_got e))) (m_exp s ++ [e]) +
      sumf (@length nat) (upd (m_inbox s) (m_rank s) (nexts (m_inbox s) (m_rank s) ++ [m_next s])) <
    sumf left_cost (seq (m_next s) (n - m_next s)) + sumf (fun e => 1 + (length (perform (e_task e)) - length (e_got e))) (m_exp s) + sumf (@length nat) (m_inbox s)).
  { intros W L e ->. destruct (mi_free _ I W) as [Lr _]. replace (n - m_next s) with (S (n - S (m_next s))) by lia. cbn [seq sumf].
    rewrite sumf_app. cbn [sumf e_task e_got length]. unfold left_cost at 2.
    assert (E := sumf_upd (@length nat) _ _ _ (nexts (m_inbox s) (m_rank s) ++ [m_next s]) (Nx _ (m_inbox s) (m_rank s) ltac:(lia))). rewrite app_length in E. cbn [length] in E. lia. }
  destruct H as [s W L F|s W L F|s r t rest L1 L2 Hb|s l1 e l2 x rest P E G Ho|s l1 e l2 W E G|s l1 e l2 W L E G];
    cbn [m_next m_rank m_first m_wait m_exp m_inbox m_outbox m_results m_stats m_sent].
  - apply Send; auto.
  - apply Send; auto.
  - assert (E := sumf_upd (@length nat) _ _ _ rest (Nx _ (m_inbox s) r ltac:(lia))). rewrite Hb in E. cbn [length] in E. lia.
  - rewrite E, !sumf_app. cbn [sumf e_task e_got]. rewrite app_length. cbn [length]. lia.
  - rewrite E, !sumf_app. cbn [sumf]. lia.
  - rewrite E, !sumf_app. cbn [sumf]. lia.
Qed.
Theorem C37_runs_finite : forall k s, mrun M perform n size k (minit M size) s -> k <= sumf left_cost (seq 0 n).
Proof.
  intros k s H.
  assert (G : k + mcost s <= mcost (minit M size)).
  { remember (minit M size) as s0 eqn:E0. induction H as [s|k s1 s2 s3 H IH Hs]; [lia|]. specialize (IH E0).
    assert (mcost s3 < mcost s2); [|lia]. apply mcost_step; [|exact Hs]. subst s1. eapply minv_run; [apply minv_init|exact H]. }
  assert (E : mcost (minit M size) = sumf left_cost (seq 0 n)).
  { unfold mcost. cbn [minit m_next m_exp m_inbox sumf]. rewrite Nat.sub_0_r, sumf_repeat by reflexivity. lia. }
  lia.
Qed.
Lemma mrun_next k s1 s2 s3 s3' : mrun M perform n size k s1 s2 -> mstep M perform n size s2 s3 -> s3 = s3' -> mrun M perform n size (S k) s1 s3'.
Proof. intros H1 H2 <-. eapply mrun_cons; eassumption. Qed.
End C37.
Print Assumptions C37_dispatch.
Print Assumptions C37_results.
Print Assumptions C37_no_deadlock.
Print Assumptions C37_runs_finite.
(** Three tasks on two worker ranks; the second worker finishes first and is reused. *)
Example C37_witness : exists k s, mrun nat (fun t => [10 + t; 20 + t]) 3 3 k (minit nat 3) s /\ mreturned nat 3 s /\
  m_sent nat s = [(0, 1); (1, 2); (2, 2)] /\ m_results nat s = [(1, [11; 21]); (2, [12; 22]); (0, [10; 20])] /\ m_stats nat s = [2; 2; 1].
Proof.
  exists 15. eexists. split.
  - eapply mrun_next; [eapply mrun_next; [eapply mrun_next; [eapply mrun_next; [eapply mrun_next; [eapply mrun_next; [eapply mrun_next; [eapply mrun_next;
    [eapply mrun_next; [eapply mrun_next; [eapply mrun_next; [eapply mrun_next; [eapply mrun_next; [eapply mrun_next; [eapply mrun_next; [apply mrun_nil
    |eapply M_send_first; cbn; reflexivity || lia|cbn; reflexivity]
    |eapply M_send_first; cbn; reflexivity || lia|cbn; reflexivity]
    |eapply (M_work _ _ _ _ _ 2); [lia|lia|reflexivity]|cbn; reflexivity]
    |eapply (M_receive _ _ _ _ _ [_] _ []); [left; reflexivity|reflexivity|cbn; lia|reflexivity]|cbn; reflexivity]
    |eapply (M_receive _ _ _ _ _ [_] _ []); [left; reflexivity|reflexivity|cbn; lia|reflexivity]|cbn; reflexivity]
    |eapply (M_pop _ _ _ _ _ [_] _ []); reflexivity|cbn; reflexivity]
    |eapply M_send_next; cbn; reflexivity || lia|cbn; reflexivity]
    |eapply (M_work _ _ _ _ _ 2); [lia|lia|reflexivity]|cbn; reflexivity]
    |eapply (M_receive _ _ _ _ _ [_] _ []); [left; reflexivity|reflexivity|cbn; lia|reflexivity]|cbn; reflexivity]
    |eapply (M_receive _ _ _ _ _ [_] _ []); [left; reflexivity|reflexivity|cbn; lia|reflexivity]|cbn; reflexivity]
    |eapply (M_pop _ _ _ _ _ [_] _ []); reflexivity|cbn; reflexivity]
    |eapply (M_work _ _ _ _ _ 1); [lia|lia|reflexivity]|cbn; reflexivity]
    |eapply (M_receive _ _ _ _ _ [] _ []); [right; reflexivity|reflexivity|cbn; lia|reflexivity]|cbn; reflexivity]
    |eapply (M_receive _ _ _ _ _ [] _ []); [right; reflexivity|reflexivity|cbn; lia|reflexivity]|cbn; reflexivity]
    |eapply (M_drain _ _ _ _ _ [] _ []); reflexivity|cbn; reflexivity].
  - repeat split.
Qed.
