(** C63: what the call-back of the genetic algorithm is shown. *)
From Coq Require Import Permutation Reals String.
From Verif Require Import Base Num Random Params Mutators Cache Individual LibEnv GA CounterProofs PropIndividual GAProofs GAInit PropSelect PropGA GAStats.
Local Open Scope Z_scope.
Local Open Scope list_scope.

(** *** Specification *)
(** Everything the genetic algorithm asks of the outside: a random number, a random bit, a mutation, a new context. *)
Inductive gevent : Type := GRand | GBool | GMut (c : list bool) | GCtx (n g : Z).
Definition is_gmut (e : gevent) : Prop := exists c, e = GMut c.
(** [log] records these calls. *)
Record notes (E : env) (log : e_w E -> list gevent) : Prop := MkNotes {
  nt_rand : forall w, log (snd (e_rand E w)) = log w ++ [GRand];
  nt_bool : forall w, log (snd (e_bool E w)) = log w ++ [GBool];
  nt_mut : forall c w, log (snd (e_mut E c w)) = log w ++ [GMut c];
  nt_ctx : forall n g w, log (e_ctx E n g w) = log w ++ [GCtx n g] }.
(** any environment with a notebook added to its world *)
Definition noted (E : env) : env := {|
  e_par := e_par E; e_size := e_size E; e_enc := e_enc E; e_dec := e_dec E; e_chk := e_chk E; e_cln := e_cln E;
  e_w := e_w E * list gevent; e_rm := e_rm E;
  e_rand := fun w => let (r, w') := e_rand E (fst w) in (r, (w', snd w ++ [GRand]));
  e_bool := fun w => let (r, w') := e_bool E (fst w) in (r, (w', snd w ++ [GBool]));
  e_mut := fun c w => let (r, w') := e_mut E c (fst w) in (r, (w', snd w ++ [GMut c]));
  e_ctx := fun n g w => (e_ctx E n g (fst w), snd w ++ [GCtx n g]);
  e_sort := e_sort E; e_fuel := e_fuel E |}.
Theorem C63_noted_notes : forall E, notes (noted E) snd.
Proof.
  intro E. split; cbn.
  - intros [w l]. cbn. destruct (e_rand E w). reflexivity.
  - intros [w l]. cbn. destruct (e_bool E w). reflexivity.
  - intros c [w l]. cbn. destruct (e_mut E c w). reflexivity.
  - reflexivity.
Qed.

(** The statistics of a population from which the parents with the given indices were chosen. *)
Definition stats_of (E : env) (is : list (indiv E)) (chosen : list nat) : list istat :=
  map (fun x => MkIS (i_fit E (snd x)) (Z.of_nat (count_occ Nat.eq_dec chosen (fst x)))) (combine (seq 0 (length is)) is).
(** [s] is [l] in descending order of the number of choices, equals in their old order. *)
Fixpoint descending_times (l : list istat) : Prop :=
  match l with x :: (y :: _) as r => st_times y <= st_times x /\ descending_times r | _ => True end.
Definition ranked (l s : list istat) : Prop :=
  Permutation s l /\ descending_times s /\
  forall t, filter (fun x => st_times x =? t) s = filter (fun x => st_times x =? t) l.
(** pairs of the next population that are bred, not copied *)
Definition pairs_bred (cfg : ga_cfg) : Z := Z.max 0 (Z.of_nat (cf_pop cfg / 2) - Z.max 0 (cf_elit cfg)).

(** *** Proofs *)
Lemma insert_ranked x l : descending_times l ->
  Permutation (stat_insert x l) (x :: l) /\ descending_times (stat_insert x l) /\
  (forall t, filter (fun y => st_times y =? t) (stat_insert x l) = filter (fun y => st_times y =? t) (x :: l)) /\
  (forall y r, stat_insert x l = y :: r -> y = x \/ exists r', l = y :: r').
Proof.
  induction l as [|y l IH]; intro D.
  - cbn. split; [apply Permutation_refl|]. split; [exact I|]. split; [reflexivity|]. intros ? ? X. injection X as <- <-. auto.
  - assert (D' : descending_times l) by (destruct l; [exact I|apply D]). destruct (IH D') as (P & S & F & H).
    cbn [stat_insert]. destruct (Z.gtb_spec (st_times y) (st_times x)) as [G|G].
    + split; [etransitivity; [apply perm_skip; exact P|apply perm_swap]|]. split; [|split].
      * cbn [descending_times]. destruct (stat_insert x l) as [|z r] eqn:Ei; [exact I|]. split; [|exact S].
        destruct (H z r eq_refl) as [->|[r' ->]]; [lia|]. apply D.
      * intro t. cbn [filter]. rewrite F. cbn [filter].
        destruct (Z.eqb_spec (st_times y) t), (Z.eqb_spec (st_times x) t); try reflexivity. lia.
      * intros z r X. injection X as <- <-. right. eauto.
    + split; [apply Permutation_refl|]. split; [split; [lia|exact D]|]. split; [reflexivity|]. intros z r X. injection X as <- <-. auto.
Qed.
Lemma sort_ranked l : ranked l (stat_sort l).
Proof.
  induction l as [|x l (P & S & F)]; [split; [constructor|split; [exact I|reflexivity]]|].
  cbn [stat_sort fold_right]. fold (stat_sort l). destruct (insert_ranked x (stat_sort l) S) as (P1 & S1 & F1 & _).
  split; [etransitivity; [exact P1|apply perm_skip; exact P]|]. split; [exact S1|]. intro t. rewrite F1. cbn [filter]. rewrite F. reflexivity.
Qed.

Section Reports.
Variable E : env.
Notation indiv := (indiv E).
Notation heap := (heap E).
Notation M := (wm (e_w E)).
(** "from the first world to the second exactly these calls are made": the record of an environment that keeps one, and
    also the trivial relation, for what does not depend on the calls *)
Variable T : e_w E -> list gevent -> e_w E -> Prop.
Record traces : Prop := MkTraces {
  T_nil : forall w, T w [] w;
  T_app : forall w l w1 m w2, T w l w1 -> T w1 m w2 -> T w (l ++ m) w2;
  T_rand : forall w, T w [GRand] (snd (e_rand E w));
  T_bool : forall w, T w [GBool] (snd (e_bool E w));
  T_mut : forall c w, T w [GMut c] (snd (e_mut E c w));
  T_ctx : forall n g w, T w [GCtx n g] (e_ctx E n g w) }.
Hypothesis R : traces.

Definition more (c : Z) (i : indiv) : indiv := MkInd E (i_par E i) (i_chr E i) (i_has E i) (i_fit E i) (i_times E i + c).
Definition occ (l : list nat) (a : nat) : Z := Z.of_nat (count_occ Nat.eq_dec l a).
(** the individuals of [h] are still there, the counters raised by the occurrences of their addresses *)
Definition raised (l : list nat) (h h' : heap) : Prop := forall a i, nth_error h a = Some i -> nth_error h' a = Some (more (occ l a) i).
Lemma more_0 i : more 0 i = i.
Proof. unfold more. destruct i. cbn. f_equal. lia. Qed.
Lemma raised_nil h : raised [] h h.
Proof. intros a i H. rewrite H. unfold occ. cbn [count_occ Z.of_nat]. rewrite more_0. reflexivity. Qed.
Lemma raised_app l1 l2 h1 h2 h3 : raised l1 h1 h2 -> raised l2 h2 h3 -> raised (l1 ++ l2) h1 h3.
Proof.
  intros A B a i H. apply A in H. apply B in H. rewrite H. unfold more, occ. cbn. do 2 f_equal. rewrite count_occ_app. lia.
Qed.
Lemma raised_new h i : raised [] h (fst (h_new E h i)).
Proof.
  intros a j H. unfold h_new. cbn [fst]. unfold occ. cbn [count_occ Z.of_nat]. rewrite more_0.
  rewrite nth_error_app1; [exact H|]. apply nth_error_Some. congruence.
Qed.
Lemma raised_bump h a : raised [a] h (set_times E (fun t => t + 1) h a) /\ length (set_times E (fun t => t + 1) h a) = length h.
Proof.
  unfold set_times. destruct (nth_error h a) as [j|] eqn:Ej.
  - split; [|apply upd_length]. intros b i H. unfold h_set. rewrite nth_error_upd. destruct (Nat.eqb_spec a b) as [->|N].
    + assert (j = i) by congruence. subst j. assert (Hl : (b < length h)%nat) by (apply nth_error_Some; congruence).
      destruct (Nat.ltb_spec b (length h)); [|lia]. unfold more, occ. cbn. destruct (Nat.eq_dec b b); [|congruence]. reflexivity.
    + rewrite H. f_equal. unfold occ. cbn. destruct (Nat.eq_dec a b); [congruence|]. cbn. rewrite more_0. reflexivity.
  - split; [|reflexivity]. intros b i H. rewrite H. f_equal. unfold occ. cbn. destruct (Nat.eq_dec a b) as [->|]; [congruence|]. cbn.
    rewrite more_0. reflexivity.
Qed.

Lemma select_log h pop total w n w' : select_index E h pop total w = (Ok n, w') -> T w ([GRand]) w'.
Proof.
  unfold select_index. pose proof (T_rand R w) as H. destruct (e_rand E w) as [r w1]. cbn in H. intro X. injection X as _ <-. exact H.
Qed.
Lemma crossover_log i j w x w' : ind_crossover E i j w = (Ok x, w') -> T w ([GRand]) w'.
Proof.
  unfold ind_crossover. intro H. apply wbind_ok in H as (ab & w1 & Hb & H).
  assert (L : T w ([GRand]) w1).
  { revert Hb. unfold bool_crossover. destruct (negb _); [discriminate|].
    pose proof (T_rand R w) as Hr. destruct (e_rand E w) as [r w2]. cbn in Hr. intro X. injection X as _ <-. exact Hr. }
  apply wbind_ok in H as (i' & w2 & Hi & H). apply wlift_ok in Hi as [_ ->].
  apply wbind_ok in H as (j' & w3 & Hj & H). apply wlift_ok in Hj as [_ ->].
  apply wbind_ok in H as (o1 & w4 & Ho & H). apply wlift_ok in Ho as [_ ->].
  apply wbind_ok in H as (o2 & w5 & Ho & H). apply wret_ok in H as [_ ->].
  destruct o1; [apply wlift_ok in Ho as [_ ->]|apply wret_ok in Ho as [_ ->]]; exact L.
Qed.

Lemma cross_s_spec fuel : forall h pop total inv w h2 c inv' ch w',
  cross_loop_s E fuel h pop total inv w = (Ok (h2, c, inv', ch), w') ->
  exists addrs att, mapM (at_ pop) ch = Ok addrs /\ length ch = (2 * att)%nat /\ inv' = inv + Z.of_nat att - 1 /\
    raised addrs h h2 /\ length h2 = length h /\ T w (repeat GRand (3 * att)) w'.
Proof.
  induction fuel as [|fuel IH]; intros h pop total inv w h2 c inv' ch w' H; cbn [cross_loop_s] in H; [discriminate|].
  apply wbind_ok in H as (n1 & w1 & H1 & H). apply select_log in H1.
  apply wbind_ok in H as (n2 & w2 & H2 & H). apply select_log in H2.
  apply wbind_ok in H as (a1 & w3 & Ha1 & H). apply wlift_ok in Ha1 as [Ha1 ->].
  apply wbind_ok in H as (a2 & w4 & Ha2 & H). apply wlift_ok in Ha2 as [Ha2 ->].
  apply wbind_ok in H as (p1 & w5 & Hp1 & H). apply wlift_ok in Hp1 as [Hp1 ->].
  apply wbind_ok in H as (p2 & w6 & Hp2 & H). apply wlift_ok in Hp2 as [Hp2 ->].
  apply wbind_ok in H as (c1 & w7 & Hc1 & H). apply wlift_ok in Hc1 as [Hc1 ->].
  apply wbind_ok in H as (c2 & w8 & Hc2 & H). apply wlift_ok in Hc2 as [Hc2 ->].
  apply wbind_ok in H as (r & w9 & Hr & H). apply crossover_log in Hr.
  destruct (raised_bump h a1) as [B1 L1]. destruct (raised_bump (set_times E (fun t => t + 1) h a1) a2) as [B2 L2].
  pose proof (raised_app _ _ _ _ _ B1 B2) as B. cbn [app] in B.
  destruct (snd r).
  - apply wret_ok in H as [H ->]. injection H as -> -> -> ->. exists [a1; a2], 1%nat.
    cbn [mapM]. rewrite Ha1, Ha2. cbn [bind]. split; [reflexivity|]. split; [reflexivity|]. split; [lia|]. split; [exact B|].
    split; [lia|]. exact (T_app R _ _ _ _ _ H1 (T_app R _ _ _ _ _ H2 Hr)).
  - apply wbind_ok in H as ([[[h3 c3] inv3] ch3] & w10 & Hx & H). apply wret_ok in H as [H ->]. cbn [fst snd] in H. injection H as -> -> -> ->.
    destruct (IH _ _ _ _ _ _ _ _ _ _ Hx) as (addrs & att & A1 & A2 & A3 & A4 & A5 & A6).
    exists (a1 :: a2 :: addrs), (S att). cbn [mapM]. rewrite Ha1, Ha2. cbn [bind]. rewrite A1. split; [reflexivity|].
    split; [cbn [length]; lia|]. split; [lia|]. split; [exact (raised_app _ _ _ _ _ B A4)|]. split; [lia|].
    replace (3 * S att)%nat with (S (S (S (3 * att)))) by lia. exact (T_app R _ _ _ _ _ H1 (T_app R _ _ _ _ _ H2 (T_app R _ _ _ _ _ Hr A6))).
Qed.

Lemma mapM_app {A B} (g : A -> outcome B) l1 l2 r1 r2 : mapM g l1 = Ok r1 -> mapM g l2 = Ok r2 -> mapM g (l1 ++ l2) = Ok (r1 ++ r2).
Proof.
  revert r1. induction l1 as [|x l1 IH]; intros r1 H1 H2; cbn [mapM app] in *; [injection H1 as <-; exact H2|].
  apply bind_ok in H1 as (y & Hy & H1). apply bind_ok in H1 as (ys & Hys & H1). injection H1 as <-. rewrite Hy. cbn [bind].
  rewrite (IH _ Hys H2). reflexivity.
Qed.

Lemma next_pairs_s_spec elit pop total : forall m sorted ready h inv w h' np inv' ch w', (length sorted <= m)%nat ->
  next_pairs_s E elit pop total sorted ready h inv w = (Ok (h', np, inv', ch), w') ->
  exists addrs att, mapM (at_ pop) ch = Ok addrs /\ length ch = (2 * att)%nat /\ (exists n, length sorted = 2 * n)%nat /\
    inv' = inv + Z.of_nat att - Z.max 0 (Z.of_nat (length sorted / 2) - Z.max 0 (elit - ready)) /\
    raised addrs h h' /\ np = seq (length h) (length sorted) /\ length h' = (length h + length sorted)%nat /\
    T w (repeat GRand (3 * att)) w'.
Proof.
  induction m as [|m IH]; intros sorted ready h inv w h' np inv' ch w' Hm H.
  { destruct sorted; [|cbn in Hm; lia]. cbn [next_pairs_s] in H. apply wret_ok in H as [H ->]. injection H as -> -> -> ->. exists [], 0%nat.
    cbn [mapM length repeat Nat.mul seq]. split; [reflexivity|]. split; [reflexivity|]. split; [exists 0%nat; reflexivity|].
    split; [cbn; lia|]. split; [apply raised_nil|]. split; [reflexivity|]. split; [lia|apply (T_nil R)]. }
  destruct sorted as [|a [|b r]]; cbn [next_pairs_s] in H.
  { apply wret_ok in H as [H ->]. injection H as -> -> -> ->. exists [], 0%nat.
    cbn [mapM length repeat Nat.mul seq]. split; [reflexivity|]. split; [reflexivity|]. split; [exists 0%nat; reflexivity|].
    split; [cbn; lia|]. split; [apply raised_nil|]. split; [reflexivity|]. split; [lia|apply (T_nil R)]. }
  { discriminate. }
  assert (Ed : (length (a :: b :: r) / 2 = S (length r / 2))%nat).
  { cbn [length]. replace (S (S (length r))) with (length r + 1 * 2)%nat by lia. rewrite Nat.div_add by lia. lia. }
  rewrite Ed.
  destruct (Z.ltb_spec ready elit) as [Lr|Lr].
  - apply wbind_ok in H as (ia & w1 & Hia & H). apply wlift_ok in Hia as [Hia ->].
    apply wbind_ok in H as (ca & w2 & Hca & H). apply wlift_ok in Hca as [Hca ->].
    destruct (h_new E h ca) as [h1 x] eqn:N1. apply wbind_ok in H as (ib & w3 & Hib & H). apply wlift_ok in Hib as [Hib ->].
    apply wbind_ok in H as (cb & w4 & Hcb & H). apply wlift_ok in Hcb as [Hcb ->].
    destruct (h_new E h1 cb) as [h2 y] eqn:N2.
    apply wbind_ok in H as ([[[h3 np3] inv3] ch3] & w5 & Hr & H). apply wret_ok in H as [H ->]. cbn [fst snd] in H. injection H as -> -> -> ->.
    pose proof (raised_new h ca) as B1. rewrite N1 in B1. cbn [fst] in B1. pose proof (raised_new h1 cb) as B2. rewrite N2 in B2. cbn [fst] in B2.
    unfold h_new in N1, N2. injection N1 as N1 <-. injection N2 as N2 <-.
    assert (L1 : length h1 = S (length h)) by (rewrite <- N1, app_length; cbn; lia).
    assert (L2 : length h2 = S (S (length h))) by (rewrite <- N2, app_length, L1; cbn; lia).
    destruct (IH r (ready + 1) h2 inv w h3 np3 inv3 ch3 w5 ltac:(cbn in Hm; lia) Hr) as (addrs & att & A1 & A2 & (n & A3) & A4 & A5 & A6 & A7 & A8).
    exists addrs, att. split; [exact A1|]. split; [exact A2|]. split; [exists (S n); cbn [length]; lia|]. split; [lia|].
    split; [exact (raised_app [] addrs _ _ _ B1 (raised_app [] addrs _ _ _ B2 A5))|]. split; [|split; [cbn [length]; lia|exact A8]].
    cbn [length seq]. rewrite A6, L1, L2. reflexivity.
  - apply wbind_ok in H as ([[[h0 [ca cb]] inv0] ch0] & w1 & Hc & H). cbn [fst snd] in H.
    destruct (h_new E h0 ca) as [h1 x] eqn:N1. destruct (h_new E h1 cb) as [h2 y] eqn:N2.
    apply wbind_ok in H as ([[[h3 np3] inv3] ch3] & w5 & Hr & H). apply wret_ok in H as [H ->]. cbn [fst snd] in H. injection H as -> -> -> ->.
    destruct (cross_s_spec _ _ _ _ _ _ _ _ _ _ _ Hc) as (addrs0 & att0 & C1 & C2 & C3 & C4 & C5 & C6).
    pose proof (raised_new h0 ca) as B1. rewrite N1 in B1. cbn [fst] in B1. pose proof (raised_new h1 cb) as B2. rewrite N2 in B2. cbn [fst] in B2.
    unfold h_new in N1, N2. injection N1 as N1 <-. injection N2 as N2 <-.
    assert (L1 : length h1 = S (length h)) by (rewrite <- N1, app_length; cbn; lia).
    assert (L2 : length h2 = S (S (length h))) by (rewrite <- N2, app_length, L1; cbn; lia).
    destruct (IH r ready h2 inv0 w1 h3 np3 inv3 ch3 w5 ltac:(cbn in Hm; lia) Hr) as (addrs & att & A1 & A2 & (n & A3) & A4 & A5 & A6 & A7 & A8).
    exists (addrs0 ++ addrs), (att0 + att)%nat. split; [apply mapM_app; assumption|]. split; [rewrite app_length; lia|].
    split; [exists (S n); cbn [length]; lia|]. split; [lia|].
    split; [exact (raised_app _ _ _ _ _ C4 (raised_app [] addrs _ _ _ B1 (raised_app [] addrs _ _ _ B2 A5)))|].
    split; [|split; [cbn [length]; lia|]].
    + cbn [length seq]. rewrite A6, L1, L2, C5. reflexivity.
    + replace (3 * (att0 + att))%nat with (3 * att0 + 3 * att)%nat by lia. rewrite repeat_app. exact (T_app R _ _ _ _ _ C6 A8).
Qed.

(** occurrences of an address among the addresses chosen = occurrences of its index among the indices chosen *)
Lemma occ_index pop : NoDup pop -> forall ch addrs, mapM (at_ pop) ch = Ok addrs -> forall n a, nth_error pop n = Some a ->
  count_occ Nat.eq_dec addrs a = count_occ Nat.eq_dec ch n.
Proof.
  intros N. induction ch as [|c ch IH]; intros addrs H n a Hn; cbn [mapM] in H; [injection H as <-; reflexivity|].
  apply bind_ok in H as (x & Hx & H). apply bind_ok in H as (xs & Hxs & H). injection H as <-. apply at_ok in Hx.
  specialize (IH _ Hxs n a Hn). cbn [count_occ]. destruct (Nat.eq_dec x a) as [->|Nx], (Nat.eq_dec c n) as [->|Nc]; try congruence.
  exfalso. apply Nc. rewrite NoDup_nth_error in N. apply N; [apply nth_error_Some; congruence|congruence].
Qed.

(** resetting the counters of the population *)
Definition zeroed (i : indiv) : indiv := MkInd E (i_par E i) (i_chr E i) (i_has E i) (i_fit E i) 0.
Lemma reset_get pop : forall h a i, nth_error h a = Some i ->
  nth_error (fold_left (set_times E (fun _ => 0)) pop h) a = Some (if in_dec Nat.eq_dec a pop then zeroed i else i) /\
  length (fold_left (set_times E (fun _ => 0)) pop h) = length h.
Proof.
  induction pop as [|b pop IH]; intros h a i H; cbn [fold_left]; [auto|].
  assert (S1 : length (set_times E (fun _ => 0) h b) = length h).
  { unfold set_times. destruct (nth_error h b); [apply upd_length|reflexivity]. }
  assert (S2 : nth_error (set_times E (fun _ => 0) h b) a = Some (if Nat.eq_dec b a then zeroed i else i)).
  { unfold set_times. destruct (nth_error h b) as [j|] eqn:Ej; [|destruct (Nat.eq_dec b a); [congruence|exact H]].
    unfold h_set. rewrite nth_error_upd. destruct (Nat.eq_dec b a) as [->|Nb].
    - rewrite Nat.eqb_refl. destruct (Nat.ltb_spec a (length h)) as [|X]; [|apply nth_error_None in X; congruence].
      assert (j = i) by congruence. subst. reflexivity.
    - apply Nat.eqb_neq in Nb. rewrite Nb. exact H. }
  destruct (IH _ _ _ S2) as [I1 I2]. rewrite I1, I2, S1. split; [|reflexivity]. f_equal.
  destruct (in_dec Nat.eq_dec a pop), (in_dec Nat.eq_dec a (b :: pop)) as [Q|Q], (Nat.eq_dec b a) as [Eb|Eb]; try reflexivity; exfalso; cbn in Q; tauto.
Qed.

Hypothesis sort_length : forall l, length (e_sort E l) = length l.

Lemma nth_error_ext {A} : forall l m : list A, (forall n, nth_error l n = nth_error m n) -> l = m.
Proof.
  induction l as [|x l IH]; intros [|y m] H; [reflexivity|discriminate (H 0%nat)|discriminate (H 0%nat)|].
  pose proof (H 0%nat) as H0. cbn in H0. injection H0 as ->. f_equal. apply IH. intro n. apply (H (S n)).
Qed.
Lemma gather_spec addrs ch pop is h h1 h' ps : NoDup pop -> mapM (h_get E h) pop = Ok is ->
  h1 = fold_left (set_times E (fun _ => 0)) pop h -> raised addrs h1 h' -> mapM (at_ pop) ch = Ok addrs ->
  gather E h' pop = Ok ps -> ps = stats_of E is ch.
Proof.
  intros N Hi -> Rz Hch Hg. unfold gather in Hg. apply mapM_ok_nth in Hg as [Lg Hg]. apply mapM_ok_nth in Hi as [Li Hi].
  apply nth_error_ext. intro n. unfold stats_of. rewrite nth_error_map.
  destruct (nth_error pop n) as [a|] eqn:Ha.
  - destruct (nth_error is n) as [i|] eqn:Hn; [|apply nth_error_None in Hn; assert (n < length pop)%nat by (apply nth_error_Some; congruence); lia].
    pose proof (Hi n a i Ha Hn) as G. apply h_get_ok in G.
    assert (Q : nth_error (combine (seq 0 (length is)) is) n = Some (n, i)).
    { clear - Hn. assert (Hl : (n < length is)%nat) by (apply nth_error_Some; congruence).
      rewrite (nth_error_nth' _ (0%nat, i)) by (rewrite combine_length, seq_length; lia).
      rewrite combine_nth by apply seq_length. rewrite seq_nth by exact Hl. f_equal. f_equal. apply nth_error_nth. exact Hn. }
    rewrite Q. cbn [option_map fst snd]. destruct (reset_get pop h a i G) as [G1 _].
    destruct (in_dec Nat.eq_dec a pop) as [_|X]; [|exfalso; apply X; eapply nth_error_In; eauto].
    apply Rz in G1. destruct (nth_error ps n) as [s|] eqn:Hs.
    + specialize (Hg n a s Ha Hs). cbn beta in Hg. assert (G2 : h_get E h' a = Ok (more (occ addrs a) (zeroed i))) by (apply h_get_ok; exact G1).
      rewrite G2 in Hg. cbn [bind] in Hg. unfold ind_stat in Hg. apply bind_ok in Hg as (v & Hv & Hg). injection Hg as <-.
      unfold get_fitness in Hv. destruct (i_has E _); [|discriminate]. injection Hv as <-. cbn. do 2 f_equal.
      unfold occ. rewrite (occ_index pop N ch addrs Hch n a Ha). lia.
    + apply nth_error_None in Hs. assert (n < length pop)%nat by (apply nth_error_Some; congruence). lia.
  - apply nth_error_None in Ha. rewrite (proj2 (nth_error_None ps n)) by lia.
    rewrite (proj2 (nth_error_None (combine (seq 0 (length is)) is) n)) by (rewrite combine_length, seq_length; lia). reflexivity.
Qed.

Lemma generate_s_spec elit h pop is inv w h' np inv' ch ps w' : NoDup pop -> mapM (h_get E h) pop = Ok is ->
  generate_next_s E elit h pop inv w = (Ok (h', np, inv', ch, ps), w') ->
  exists att, length ch = (2 * att)%nat /\ Forall (fun c => (c < length pop)%nat) ch /\
    inv' = inv + Z.of_nat att - Z.max 0 (Z.of_nat (length pop / 2) - Z.max 0 elit) /\
    ps = stats_of E is ch /\ np = seq (length h) (length pop) /\ length h' = (length h + length pop)%nat /\
    T w (repeat GRand (3 * att)) w'.
Proof.
  intros N Hi H. unfold generate_next_s in H. apply wbind_ok in H as (fits & w1 & Hf & H). apply wlift_ok in Hf as [Hf ->].
  apply wbind_ok in H as ([[[h2 np2] inv2] ch2] & w2 & Hn & H). apply wbind_ok in H as (ps2 & w3 & Hg & H). apply wlift_ok in Hg as [Hg ->].
  apply wret_ok in H as [H ->]. injection H as -> -> -> -> ->. cbn [fst] in Hg.
  assert (Ls : length (map snd (e_sort E (combine fits pop))) = length pop).
  { rewrite map_length, sort_length, combine_length. apply mapM_ok_length in Hf. lia. }
  destruct (next_pairs_s_spec _ _ _ _ _ _ _ _ _ _ _ _ _ _ (le_n _) Hn) as (addrs & att & A1 & A2 & _ & A4 & A5 & A6 & A7 & A8).
  rewrite Ls in *.
  assert (Lz : length (fold_left (set_times E (fun _ => 0)) pop h) = length h).
  { apply (ext_set_times_all E). }
  exists att. split; [exact A2|]. split.
  { clear - A1. revert addrs A1. induction ch2 as [|c ch IH]; intros addrs H; constructor; cbn [mapM] in H; apply bind_ok in H as (x & Hx & H).
    - apply at_ok in Hx. apply nth_error_Some. congruence.
    - apply bind_ok in H as (xs & Hxs & _). eapply IH; eauto. }
  split; [rewrite Z.sub_0_r in A4; exact A4|]. split; [exact (gather_spec addrs ch2 pop is h _ h2 ps2 N Hi eq_refl A5 A1 Hg)|].
  rewrite Lz in *. split; [exact A6|]. split; [exact A7|exact A8].
Qed.

Lemma mutate_loop_spec fuel : forall i inv w j inv' w', mutate_loop E fuel i inv w = (Ok (j, inv'), w') ->
  exists ms, T w (ms) w' /\ Forall is_gmut ms /\ (length ms = inv' - inv + 1 /\ inv <= inv')%nat.
Proof.
  induction fuel as [|n IH]; intros i inv w j inv' w'; cbn [mutate_loop]; [discriminate|]. intro H.
  apply wbind_ok in H as (c & w1 & Hm & H). pose proof (T_mut R (i_chr E i) w) as Hl. rewrite Hm in Hl. cbn in Hl.
  apply wbind_ok in H as (k & w2 & Hk & H). apply wlift_ok in Hk as [_ ->].
  apply wbind_ok in H as (ok & w3 & Hk & H). apply wlift_ok in Hk as [_ ->]. destruct ok.
  - apply wret_ok in H as [H ->]. injection H as -> ->. exists [GMut (i_chr E i)]. split; [exact Hl|].
    split; [repeat constructor; eexists; reflexivity|]. cbn. lia.
  - destruct (IH _ _ _ _ _ _ H) as (ms & E1 & F1 & L1 & L2). exists (GMut (i_chr E i) :: ms).
    split; [exact (T_app R _ _ _ _ _ Hl E1)|]. split; [constructor; [eexists; reflexivity|exact F1]|cbn; lia].
Qed.
Lemma mutate_s_spec pop : forall h inv w h' inv' w', mutate_all_s E h pop inv w = (Ok (h', inv'), w') ->
  exists ms, T w (ms) w' /\ Forall is_gmut ms /\ (length pop <= length ms)%nat /\
    inv' = inv + Z.of_nat (length ms) - Z.of_nat (length pop) /\ length h' = length h.
Proof.
  induction pop as [|a pop IH]; intros h inv w h' inv' w' H; cbn [mutate_all_s] in H.
  - apply wret_ok in H as [H ->]. injection H as -> ->. exists []. split; [apply (T_nil R)|]. cbn. repeat split; try constructor; lia.
  - apply wbind_ok in H as (i & w1 & Hi & H). apply wlift_ok in Hi as [_ ->]. apply wbind_ok in H as ([j n] & w2 & Hj & H). cbn [fst snd] in H.
    destruct (mutate_loop_spec _ _ _ _ _ _ _ Hj) as (m1 & A1 & B1 & C1 & D1). destruct (IH _ _ _ _ _ _ H) as (m2 & A2 & B2 & C2 & D2 & E2).
    exists (m1 ++ m2). rewrite app_length. split; [exact (T_app R _ _ _ _ _ A1 A2)|]. split; [apply Forall_app; auto|]. cbn [length].
    unfold h_set in E2. rewrite upd_length in E2. split; [lia|]. split; [lia|exact E2].
Qed.

(** one generation's calls: parents drawn, three numbers an attempt; then the context; then the mutations *)
Definition calls (att : nat) (n g : Z) (ms l : list gevent) : Prop :=
  l = repeat GRand (3 * att) ++ GCtx n g :: ms /\ Forall is_gmut ms.

Variable hash : list bool -> Z.
Variable f : e_par E -> outcome dbl.
Variable show : dbl -> text.
Variable cb : callback E.
Hypothesis cb_quiet : forall r w, T w [] (snd (cb r w)).

Notation run := (run_watched E show hash f (Some cb)).

(** what one call of the call-back shows, given the population and the best individual of the moment *)
Definition shows (n : Z) (is : list indiv) (b : indiv) (sh : shown E) : Prop :=
  let r := sh_report E sh in
  r_number E r = n /\ Forall (fun i => i_has E i = true) is /\
  r_average E r = d_div (fold_left d_add (map (i_fit E) is) (d_ofZ 0)) (d_ofZ (Z.of_nat (length is))) /\
  i_has E b = true /\ r_best_fitness E r = i_fit E b /\ e_cln E (i_par E b) = Ok (r_best E r) /\
  exists w w', cb r w = (Ok (map fst (sh_files E sh)), w') /\
    Forall (fun nt => write_population E show is = Ok (snd nt)) (sh_files E sh).

Lemma fits_of_pop h pop is fits : mapM (h_get E h) pop = Ok is -> mapM (fit_of E h) pop = Ok fits ->
  fits = map (i_fit E) is /\ Forall (fun i => i_has E i = true) is.
Proof.
  revert is fits. induction pop as [|a pop IH]; intros is fits Hi Hf; cbn [mapM] in *.
  - injection Hi as <-. injection Hf as <-. split; [reflexivity|constructor].
  - apply bind_ok in Hi as (i & Ei & Hi). apply bind_ok in Hi as (is' & Hi & X). injection X as <-.
    apply bind_ok in Hf as (v & Ev & Hf). apply bind_ok in Hf as (fits' & Hf & X). injection X as <-.
    destruct (IH _ _ Hi Hf) as [-> F]. unfold fit_of in Ev. rewrite Ei in Ev. cbn [bind] in Ev. unfold get_fitness in Ev.
    destruct (i_has E i) eqn:Eh; [|discriminate]. injection Ev as <-. split; [reflexivity|constructor; assumption].
Qed.

Lemma process_spec_s h pop best n hits inv ps is b w sh w' : mapM (h_get E h) pop = Ok is -> h_get E h best = Ok b ->
  process_statistics E show cb h pop best n hits inv ps w = (Ok sh, w') ->
  shows n is b sh /\ r_hits E (sh_report E sh) = hits /\ r_invalid E (sh_report E sh) = inv /\
  r_individuals E (sh_report E sh) = stat_sort ps /\ T w [] w'.
Proof.
  intros Hi Hb H. unfold process_statistics in H. apply wbind_ok in H as (avg & w1 & Ha & H). apply wlift_ok in Ha as [Ha ->].
  apply wbind_ok in H as (b' & w2 & Hb' & H). apply wlift_ok in Hb' as [Hb' ->]. rewrite Hb in Hb'. injection Hb' as <-.
  apply wbind_ok in H as (fb & w3 & Hfb & H). apply wlift_ok in Hfb as [Hfb ->].
  apply wbind_ok in H as (q & w4 & Hq & H). apply wlift_ok in Hq as [Hq ->].
  apply wbind_ok in H as (names & w5 & Hc & H). pose proof (cb_quiet (MkReport E avg q fb n hits inv (stat_sort ps)) w) as Q. rewrite Hc in Q. cbn in Q.
  apply wbind_ok in H as (is' & w6 & Hi' & H). apply wlift_ok in Hi' as [Hi' ->]. rewrite Hi in Hi'. injection Hi' as <-.
  apply wbind_ok in H as (files & w7 & Hf & H). apply wlift_ok in Hf as [Hf ->]. apply wret_ok in H as [-> ->].
  unfold average_fitness in Ha. apply bind_ok in Ha as (fits & Hfits & Ha). injection Ha as <-.
  destruct (fits_of_pop _ _ _ _ Hi Hfits) as [-> Fh].
  unfold get_fitness in Hfb. destruct (i_has E b) eqn:Eh; [|discriminate]. injection Hfb as <-.
  unfold shows. cbn [sh_report sh_files r_number r_average r_best_fitness r_best r_hits r_invalid r_individuals].
  assert (Lp : length pop = length is) by (apply mapM_ok_length in Hi; lia). rewrite Lp in *.
  assert (Ff : map fst files = names /\ Forall (fun nt => write_population E show is = Ok (snd nt)) files).
  { clear - Hf. revert files Hf. induction names as [|nm names IH]; intros files Hf; cbn [mapM] in Hf; [injection Hf as <-; split; [reflexivity|constructor]|].
    apply bind_ok in Hf as (x & Hx & Hf). apply bind_ok in Hf as (xs & Hxs & Hf). injection Hf as <-. apply bind_ok in Hx as (t & Ht & Hx). injection Hx as <-.
    destruct (IH _ Hxs) as [<- F]. split; [reflexivity|constructor; [exact Ht|exact F]]. }
  destruct Ff as [Ff1 Ff2].
  split; [|split; [reflexivity|split; [reflexivity|split; [reflexivity|exact Q]]]].
  repeat (split; [first [reflexivity|assumption]|]). exists w, w5. rewrite Ff1. split; assumption.
Qed.

(** How the reports of consecutive generations hang together. [segs]: the calls made between them. *)
Definition hits_of (wt : watch E) : Z := match wt_shown E wt with Some sh => r_hits E (sh_report E sh) | None => 0 end.
Definition sum_hits (ws : list (watch E)) : Z := fold_right (fun wt z => hits_of wt + z) 0 ws.

Definition linked (cfg : ga_cfg) (n : Z) (N : nat) (wp : watch E) (seg : list gevent) (inv : Z) (ind : list istat) : Prop :=
  exists att ms, calls att n (cf_gens cfg) ms seg /\ length (wt_chosen E wp) = (2 * att)%nat /\ Forall (fun c => (c < N)%nat) (wt_chosen E wp) /\ (N <= length ms)%nat /\
    inv = (Z.of_nat att - Z.max 0 (Z.of_nat (N / 2) - Z.max 0 (cf_elit cfg))) + (Z.of_nat (length ms) - Z.of_nat N) /\
    ind = stats_of E (sn_pop E (wt_snap E wp)) (wt_chosen E wp).

Lemma run_spec_s cfg : forall left n s inv ps w s' inv' ws w' N,
  run cfg left n s inv ps w = (Ok (s', inv', ws), w') -> NoDup (g_pop E s) -> length (g_pop E s) = N -> k_hits (g_counter E s) = 0 ->
  exists segs, T w (concat segs) w' /\
    sum_hits ws + (k_counts (g_counter E s') - k_counts (g_counter E s)) = Z.of_nat N * Z.of_nat (length ws) /\
    (length ws <= left)%nat /\ (left <> O -> ws <> []) /\
    (ws = [] -> inv' = inv /\ segs = []) /\
    (forall j wt, nth_error ws j = Some wt -> exists sh, wt_shown E wt = Some sh /\
       length (sn_pop E (wt_snap E wt)) = N /\ shows (n + Z.of_nat j) (sn_pop E (wt_snap E wt)) (sn_best E (wt_snap E wt)) sh /\
       0 <= r_hits E (sh_report E sh) <= Z.of_nat N /\ (k_cache (g_counter E s) = None -> r_hits E (sh_report E sh) = 0) /\
       (j = O -> r_invalid E (sh_report E sh) = inv /\ r_individuals E (sh_report E sh) = stat_sort ps) /\
       (forall j' wp, j = S j' -> nth_error ws j' = Some wp -> exists seg ind, nth_error segs j' = Some seg /\
          linked cfg (n + Z.of_nat j') N wp seg (r_invalid E (sh_report E sh)) ind /\ r_individuals E (sh_report E sh) = stat_sort ind) /\
       (S j = length ws -> wt_chosen E wt = [] /\ inv' = 0 /\ length segs = j /\ d_leb (cf_stop cfg) (i_fit E (sn_best E (wt_snap E wt))) = true \/
          d_leb (cf_stop cfg) (i_fit E (sn_best E (wt_snap E wt))) = false /\ length ws = left /\
          exists seg ind, nth_error segs j = Some seg /\ linked cfg (n + Z.of_nat j) N wt seg inv' ind /\ length segs = S j)).
Proof.
  induction left as [|left IH]; intros n s inv ps w s' inv' ws w' N H Nd Ln Kh; cbn [run_watched] in H.
  { apply wret_ok in H as [H ->]. injection H as -> -> ->. exists []. split; [apply (T_nil R)|]. cbn. split; [lia|].
    split; [lia|]. split; [congruence|]. split; [auto|]. intros [|j] wt X; discriminate. }
  apply wbind_ok in H as ([h1 k1] & w1 & Ho & H). apply wlift_ok in Ho as [Ho ->].
  apply wbind_ok in H as (best & w2 & Hb & H). apply wlift_ok in Hb as [Hb ->].
  apply wbind_ok in H as (is & w3 & His & H). apply wlift_ok in His as [His ->].
  apply wbind_ok in H as (b & w4 & Hbb & H). apply wlift_ok in Hbb as [Hbb ->].
  apply wbind_ok in H as (osh & w5 & Hsh & H). apply wbind_ok in Hsh as (sh & w5' & Hsh & X). apply wret_ok in X as [-> ->].
  apply wbind_ok in H as (fb & w6 & Hfb & H). apply wlift_ok in Hfb as [Hfb ->].
  destruct (process_spec_s _ _ _ _ _ _ _ _ _ _ _ _ His Hbb Hsh) as (S1 & S2 & S3 & S4 & S5).
  destruct (obtain_counts E hash f _ _ _ _ _ Ho) as (O1 & O2 & O3 & O4). rewrite Kh, Ln in *.
  assert (Lis : length is = N) by (apply mapM_ok_length in His; lia).
  assert (Efb : fb = i_fit E b) by (unfold get_fitness in Hfb; destruct (i_has E b); congruence). subst fb.
  destruct (d_leb (cf_stop cfg) (i_fit E b)) eqn:Stop.
  - apply wret_ok in H as [H ->]. injection H as -> -> ->. exists [].
    split; [exact S5|]. cbn [sum_hits fold_right hits_of wt_shown sh_report length g_counter k_counts]. split; [rewrite S2; lia|].
    split; [lia|]. split; [discriminate|]. split; [discriminate|].
    intros [|[|j]] wt X; cbn in X; try discriminate. injection X as <-. cbn [wt_shown wt_snap sn_pop sn_best wt_chosen]. exists sh.
    split; [reflexivity|]. split; [exact Lis|]. split; [rewrite Z.add_0_r; exact S1|]. rewrite S2. split; [lia|].
    split; [intro Kn; apply O4 in Kn as [Kn _]; lia|]. split; [intros _; split; [exact S3|exact S4]|]. split; [discriminate|].
    intros _. left. auto.
  - apply wbind_ok in H as ([[[[h2 np] inv2] ch] ps2] & w6 & Hg & H). apply wbind_ok in H as (u & w7 & Hctx & H).
    unfold apply_context in Hctx. injection Hctx as _ <-. apply wbind_ok in H as ([h3 inv3] & w8 & Hm & H). cbn [fst snd] in H.
    apply wbind_ok in H as ([[s2 inv4] ws2] & w9 & Hz & H). apply wret_ok in H as [H ->]. cbn [fst snd] in H. injection H as -> -> ->.
    destruct (generate_s_spec _ _ _ _ _ _ _ _ _ _ _ _ Nd His Hg) as (att & G1 & G1' & G2 & G3 & G4 & G5 & G6). rewrite Ln in *.
    destruct (mutate_s_spec _ _ _ _ _ _ _ Hm) as (ms & M1 & M2 & M3 & M4 & M5). apply (T_app R _ _ _ _ _ (T_ctx R n (cf_gens cfg) w6)) in M1.
    assert (Lnp : length np = N) by (rewrite G4; apply seq_length). rewrite Lnp in *.
    destruct (IH _ _ _ _ _ _ _ _ _ N Hz) as (segs & I1 & I2 & I3 & I4 & I5 & I6); [cbn; rewrite G4; apply seq_NoDup|exact Lnp|reflexivity|].
    assert (Hinv : linked cfg n N (MkWatch E (MkSnap E is b) (Some sh) ch) (repeat GRand (3 * att) ++ GCtx n (cf_gens cfg) :: ms) inv3 ps2).
    { exists att, ms. split; [split; [reflexivity|exact M2]|]. split; [exact G1|]. split; [exact G1'|]. split; [exact M3|]. split; [lia|exact G3]. }
    exists ((repeat GRand (3 * att) ++ GCtx n (cf_gens cfg) :: ms) :: segs).
    split; [cbn [concat]; rewrite <- app_assoc; exact (T_app R _ _ _ _ _ S5 (T_app R _ _ _ _ _ G6 (T_app R _ _ _ _ _ M1 I1)))|].
    split; [cbn [sum_hits fold_right hits_of wt_shown sh_report length]; fold (sum_hits ws2); cbn [g_counter k_counts] in I2; lia|].
    split; [cbn; lia|]. split; [discriminate|]. split; [discriminate|].
    intros [|j] wt X; cbn [nth_error] in X.
    + injection X as <-. cbn [wt_shown wt_snap sn_pop sn_best wt_chosen]. exists sh. split; [reflexivity|]. split; [exact Lis|].
      split; [rewrite Z.add_0_r; exact S1|]. rewrite S2. split; [lia|]. split; [intro Kn; apply O4 in Kn as [Kn _]; lia|].
      split; [intros _; split; [exact S3|exact S4]|]. split; [discriminate|].
      intro El. right. split; [exact Stop|]. cbn [length] in El. assert (ws2 = []) by (destruct ws2; [reflexivity|discriminate]). subst ws2.
      assert (left = O) by (destruct left; [reflexivity|exfalso; apply I4; [discriminate|reflexivity]]). subst left.
      split; [reflexivity|]. exists (repeat GRand (3 * att) ++ GCtx n (cf_gens cfg) :: ms), ps2. split; [reflexivity|].
      destruct (I5 eq_refl) as [-> ->]. rewrite Z.add_0_r. split; [exact Hinv|reflexivity].
    + destruct (I6 j wt X) as (sh2 & J1 & J2 & J3 & J4 & J5 & J6 & J7 & J8). exists sh2. split; [exact J1|]. split; [exact J2|].
      replace (n + Z.of_nat (S j)) with (n + 1 + Z.of_nat j) by lia. split; [exact J3|]. split; [exact J4|].
      split; [intro Kn; apply J5; cbn; apply O4 in Kn; tauto|]. split; [discriminate|]. split.
      * intros j' wp Ej Hp. injection Ej as <-. destruct j as [|j].
        -- cbn [nth_error] in Hp. injection Hp as <-. cbn [nth_error]. destruct (J6 eq_refl) as [-> ->]. eexists _, _. split; [reflexivity|].
           split; [rewrite Z.add_0_r; exact Hinv|reflexivity].
        -- cbn [nth_error] in Hp |- *. destruct (J7 j wp eq_refl Hp) as (seg & ind & K1 & K2 & K3). exists seg, ind. split; [exact K1|].
           split; [|exact K3]. replace (n + Z.of_nat (S j)) with (n + 1 + Z.of_nat j) by lia. exact K2.
      * intro El. cbn [length] in El |- *. injection El as El. destruct (J8 El) as [(K1 & K2 & K3 & K4)|(K1 & K2 & seg & ind & K3 & K4 & K5)].
        -- left. auto.
        -- right. split; [exact K1|]. split; [lia|]. exists seg, ind. cbn [nth_error]. auto.
Qed.

(** *** the initial population *)
Lemma genes_log n : forall w c w', random_genes E n w = (Ok c, w') -> T w (repeat GBool n) w' /\ length c = n.
Proof.
  induction n as [|n IH]; intros w c w' H; cbn [random_genes] in H.
  - apply wret_ok in H as [-> ->]. split; [apply (T_nil R)|reflexivity].
  - apply wbind_ok in H as (b & w1 & Hb & H). pose proof (T_bool R w) as L. rewrite Hb in L. cbn in L.
    apply wbind_ok in H as (r & w2 & Hr & H). apply wret_ok in H as [-> ->]. destruct (IH _ _ _ Hr) as [T2 <-]. split; [exact (T_app R _ _ _ _ _ L T2)|reflexivity].
Qed.
Lemma ind_set_times i c j : ind_set E i c = Ok j -> i_times E j = i_times E i /\ i_chr E j = c.
Proof. unfold ind_set. destruct (e_dec E (i_par E i) c) as [q o]. intro H. apply bind_ok in H as (u & _ & H). injection H as <-. auto. Qed.
Lemma set_random_log fuel : forall i inv w j inv' w', set_random_loop E fuel i inv w = (Ok (j, inv'), w') ->
  (inv <= inv')%nat /\ T w (repeat GBool (length (i_chr E i) * (1 + (inv' - inv)))) w' /\ i_times E j = i_times E i.
Proof.
  induction fuel as [|n IH]; intros i inv w j inv' w' H; cbn [set_random_loop] in H; [discriminate|].
  apply wbind_ok in H as (c & w1 & Hc & H). destruct (genes_log _ _ _ _ Hc) as [L Lc].
  apply wbind_ok in H as (k & w2 & Hk & H). apply wlift_ok in Hk as [Hk ->]. destruct (ind_set_times _ _ _ Hk) as [Ht Hch].
  apply wbind_ok in H as (ok & w3 & Hok & H). apply wlift_ok in Hok as [_ ->]. destruct ok.
  - apply wret_ok in H as [H ->]. injection H as -> ->. split; [lia|]. split; [|exact Ht]. replace (length (i_chr E i) * (1 + (inv - inv)))%nat with (length (i_chr E i)) by lia. exact L.
  - destruct (IH _ _ _ _ _ _ H) as (I1 & I2 & I3). rewrite Hch, Lc in I2. split; [lia|]. split; [|congruence].
    replace (inv' - inv)%nat with (S (inv' - S inv)) by lia.
    replace (length (i_chr E i) * (1 + S (inv' - S inv)))%nat with (length (i_chr E i) + length (i_chr E i) * (1 + (inv' - S inv)))%nat by lia.
    rewrite repeat_app. exact (T_app R _ _ _ _ _ L I2).
Qed.

Definition fresh_times (h : heap) (pop : list nat) : Prop := forall a i, In a pop -> nth_error h a = Some i -> i_times E i = 0.

Lemma init_random_s_spec p i0 : ind_new E p = Ok i0 -> forall n h inv w h' pop inv' w', init_random_s E n p h inv w = (Ok (h', pop, inv'), w') ->
  pop = seq (length h) n /\ length h' = (length h + n)%nat /\ inv <= inv' /\
  T w (repeat GBool (length (i_chr E i0) * (n + Z.to_nat (inv' - inv)))) w' /\
  fresh_times h' pop /\ (forall a, (a < length h)%nat -> nth_error h' a = nth_error h a).
Proof.
  intro Hn. induction n as [|n IH]; intros h inv w h' pop inv' w' H; cbn [init_random_s] in H.
  - apply wret_ok in H as [H ->]. injection H as -> -> ->. split; [reflexivity|]. split; [lia|]. split; [lia|].
    rewrite Z.sub_diag. cbn [Z.to_nat Nat.add]. rewrite Nat.mul_0_r. split; [apply (T_nil R)|]. split; [intros a i []|auto].
  - apply wbind_ok in H as (i & w1 & Hi & H). apply wlift_ok in Hi as [Hi ->]. rewrite Hn in Hi. injection Hi as <-.
    apply wbind_ok in H as ([j c] & w2 & Hr & H). destruct (set_random_log _ _ _ _ _ _ _ Hr) as (R1 & R2 & R3).
    unfold h_new in H. cbn [fst snd] in H. apply wbind_ok in H as ([[h2 pop2] inv2] & w3 & Hx & H). apply wret_ok in H as [H ->].
    cbn [fst snd] in H. injection H as -> -> ->. destruct (IH _ _ _ _ _ _ _ Hx) as (A1 & A2 & A3 & A4 & A5 & A6).
    rewrite app_length in *. cbn [length] in *. rewrite Nat.add_1_r in *. split; [rewrite A1; reflexivity|]. split; [lia|]. split; [lia|].
    split; [|split].
    + pose proof (T_app R _ _ _ _ _ R2 A4) as X. rewrite <- repeat_app in X. replace (length (i_chr E i0) * (S n + Z.to_nat (inv2 - inv)))%nat with (length (i_chr E i0) * (1 + (c - 0)) + length (i_chr E i0) * (n + Z.to_nat (inv2 - (inv + Z.of_nat c))))%nat by nia. exact X.
    + intros a i [<-|Ha] Hg; [|eapply A5; eauto]. rewrite A6, nth_error_app2, Nat.sub_diag in Hg by lia. cbn in Hg. injection Hg as <-.
      rewrite R3. unfold ind_new in Hn. apply bind_ok in Hn as (q & _ & Hn). apply bind_ok in Hn as (m & _ & Hn). apply bind_ok in Hn as (c0 & _ & Hn). injection Hn as <-. reflexivity.
    + intros a Ha. rewrite A6 by lia. apply nth_error_app1. exact Ha.
Qed.
Lemma init_given_s_spec ps : forall h w h' pop w', init_given E ps h w = (Ok (h', pop), w') ->
  pop = seq (length h) (length ps) /\ length h' = (length h + length ps)%nat /\ w' = w /\
  fresh_times h' pop /\ (forall a, (a < length h)%nat -> nth_error h' a = nth_error h a).
Proof.
  induction ps as [|p ps IH]; intros h w h' pop w' H; cbn [init_given] in H.
  - apply wret_ok in H as [H ->]. injection H as -> ->. cbn. repeat split; auto. intros a i [].
  - apply wbind_ok in H as (i & w1 & Hn & H). apply wlift_ok in Hn as [Hn ->]. unfold h_new in H.
    apply wbind_ok in H as ([h2 pop2] & w3 & Hx & H). apply wret_ok in H as [H ->]. cbn [fst snd] in H. injection H as -> ->.
    destruct (IH _ _ _ _ _ Hx) as (A1 & A2 & A3 & A5 & A6). rewrite app_length in *. cbn [length] in *. rewrite Nat.add_1_r in *.
    split; [rewrite A1; reflexivity|]. split; [lia|]. split; [exact A3|]. split.
    + intros a j [<-|Ha] Hg; [|eapply A5; eauto]. rewrite A6, nth_error_app2, Nat.sub_diag in Hg by lia. cbn in Hg. injection Hg as <-.
      unfold ind_new in Hn. apply bind_ok in Hn as (q & _ & Hn). apply bind_ok in Hn as (m & _ & Hn). apply bind_ok in Hn as (c0 & _ & Hn). injection Hn as <-. reflexivity.
    + intros a Ha. rewrite A6 by lia. apply nth_error_app1. exact Ha.
Qed.

Lemma read_individuals_times parse pop : forall t ks t', read_individuals E parse pop t = (Ok ks, t') ->
  length ks = length pop /\ forall n i k, nth_error pop n = Some i -> nth_error ks n = Some k -> i_times E k = i_times E i /\ i_has E k = true.
Proof.
  induction pop as [|i pop IH]; intros t ks t' H; cbn [read_individuals] in H.
  - injection H as <- _. split; [reflexivity|]. intros [|n]; discriminate.
  - destruct (read_ind E parse i t) as [[j|e|u] t1] eqn:Ei; try discriminate.
    destruct (e_chk E (i_par E j)) as [[|]|e|u]; try discriminate.
    destruct (read_individuals E parse pop t1) as [[js|e|u] t2] eqn:Er; cbn in H; try discriminate. injection H as <- _.
    destruct (IH _ _ _ Er) as [L F]. split; [cbn; congruence|]. intros [|n] a k Ha Hk; cbn in Ha, Hk; [|eapply F; eauto].
    injection Ha as <-. injection Hk as <-. revert Ei. unfold read_ind.
    destruct (next_word t) as [x1 t3]. destruct (next_word t3) as [cw t4]. destruct (next_word t4) as [x2 t5]. destruct (parse t5) as [fv t6].
    destruct (negb _); [discriminate|]. intro Q. injection Q as Q _. apply bind_ok in Q as (c & _ & Q). apply bind_ok in Q as (j' & Hs & Q).
    apply set_fitness_ok in Hs as [_ ->]. unfold with_fit in Q. cbn in Q. destruct (e_dec E (i_par E i) c) as [q o].
    apply bind_ok in Q as (v & _ & Q). injection Q as <-. auto.
Qed.

Variable same_type : e_par E -> e_par E -> bool.
Variable same_meta : e_par E -> e_par E -> outcome bool.

Lemma start_spec cfg initial parse file k inv p w q ws s inv' w' :
  ga_watched E show hash f (Some cb) same_type same_meta cfg initial parse file k inv p true w = (Ok (q, ws, s, inv'), w') ->
  exists h1 best inv0 ps1 w1,
    run cfg (Z.to_nat (cf_gens cfg)) 0 (MkG E h1 (seq 0 (cf_pop cfg)) best k) inv0 ps1 w1 = (Ok (s, inv', ws), w') /\
    match initial with
    | None => exists i0 n, ind_new E p = Ok i0 /\ inv <= inv0 /\ T w (repeat GBool n) w1 /\
        Z.of_nat n = Z.of_nat (length (i_chr E i0)) * (Z.of_nat (cf_pop cfg) + (inv0 - inv))
    | Some _ => T w [] w1 /\ inv0 = inv
    end /\
    match file with
    | None => ps1 = repeat (MkIS (d_ofZ 0) 0) (cf_pop cfg)
    | Some t => exists js0 js, length js = cf_pop cfg /\ read_population E parse js0 t = Ok js /\ ps1 = map (fun i => MkIS (i_fit E i) 0) js
    end.
Proof.
  intro H. unfold ga_watched in H. cbn [negb] in H. apply wbind_ok in H as ([[[[h pop] best] inv0] ps0] & w1 & Hi & H).
  apply wbind_ok in H as (h1 & w2 & Hf & H). apply wlift_ok in Hf as [Hf ->].
  apply wbind_ok in H as (ps1 & w3 & Hg & H). apply wlift_ok in Hg as [Hg ->].
  apply wbind_ok in H as ([[s2 inv2] ws2] & w4 & Hr & H). cbn [fst snd] in H.
  apply wbind_ok in H as (b & w5 & Hb & H). apply wlift_ok in Hb as [_ ->].
  destruct (e_dec E p (i_chr E b)) as [q0 o]. apply wbind_ok in H as (u & w6 & Hu & H). apply wlift_ok in Hu as [_ ->].
  apply wret_ok in H as [H ->]. injection H as -> -> -> ->.
  assert (Start : pop = seq 0 (cf_pop cfg) /\ ps0 = repeat (MkIS (d_ofZ 0) 0) (cf_pop cfg) /\ fresh_times h pop /\ (forall a, In a pop -> (a < length h)%nat) /\
    match initial with
    | None => exists i0 n, ind_new E p = Ok i0 /\ inv <= inv0 /\ T w (repeat GBool n) w1 /\
        Z.of_nat n = Z.of_nat (length (i_chr E i0)) * (Z.of_nat (cf_pop cfg) + (inv0 - inv))
    | Some _ => T w [] w1 /\ inv0 = inv
    end).
  { clear Hf Hg Hr. unfold ga_initialize_s in Hi. apply wbind_ok in Hi as ([[hx popx] invx] & w7 & Hx & Hi).
    apply wbind_ok in Hi as (b0 & w8 & Hb0 & Hi). apply wlift_ok in Hb0 as [Hb0 ->]. unfold h_new in Hi. cbn [fst snd] in Hi.
    apply wret_ok in Hi as [Hi ->]. injection Hi as -> -> -> -> ->.
    assert (Fin : popx = seq 0 (cf_pop cfg) -> length hx = cf_pop cfg -> fresh_times hx popx ->
      fresh_times (hx ++ [b0]) popx /\ (forall a, In a popx -> (a < length (hx ++ [b0]))%nat)).
    { intros -> Lx Fx. split; [|intros a Ha; apply in_seq in Ha; rewrite app_length; cbn; lia].
      intros a i Ha Hg. rewrite nth_error_app1 in Hg by (apply in_seq in Ha; lia). eapply Fx; eauto. }
    destruct initial as [ps|].
    - destruct (Nat.eqb_spec (length ps) (cf_pop cfg)) as [Ep|]; [|discriminate]. cbn [negb] in Hx.
      apply wbind_ok in Hx as (u9 & w9 & Hv & Hx). apply wlift_ok in Hv as [_ ->].
      apply wbind_ok in Hx as ([hy popy] & w10 & Hy & Hx). apply wret_ok in Hx as [Hx ->]. injection Hx as -> -> ->.
      destruct (init_given_s_spec _ _ _ _ _ _ Hy) as (A1 & A2 & A3 & A4 & _). cbn [length Nat.add] in *. rewrite Ep in *.
      split; [exact A1|]. split; [reflexivity|]. destruct (Fin A1 A2 A4) as [F1 F2]. split; [exact F1|]. split; [exact F2|]. rewrite A3. split; [apply (T_nil R)|reflexivity].
    - destruct (init_random_s_spec _ _ Hb0 _ _ _ _ _ _ _ _ Hx) as (A1 & A2 & A3 & A4 & A5 & _). cbn [length Nat.add] in *.
      split; [exact A1|]. split; [reflexivity|]. destruct (Fin A1 A2 A5) as [F1 F2]. split; [exact F1|]. split; [exact F2|].
      exists b0, (length (i_chr E b0) * (cf_pop cfg + Z.to_nat (invx - inv)))%nat. split; [exact Hb0|]. split; [exact A3|]. split; [exact A4|].
      rewrite Nat2Z.inj_mul, Nat2Z.inj_add, Z2Nat.id by lia. reflexivity. }
  destruct Start as (-> & -> & Fr & Lt & Hini). exists h1, best, inv0, ps1, w1. split; [exact Hr|]. split; [exact Hini|].
  destruct file as [t|]; [|injection Hg as <-; reflexivity].
  unfold load_file in Hf. apply bind_ok in Hf as (is & His & Hf). apply bind_ok in Hf as (js & Hjs & Hf). injection Hf as <-.
  assert (Lis : length is = cf_pop cfg) by (apply mapM_ok_length in His; rewrite His, seq_length; reflexivity).
  assert (Hj : length js = length is /\ forall n i k0, nth_error is n = Some i -> nth_error js n = Some k0 -> i_times E k0 = i_times E i /\ i_has E k0 = true).
  { unfold read_population in Hjs. destruct (next_word t) as [x1 t1]. destruct (next_count t1) as [x2 t2]. destruct (next_word t2) as [x3 t3]. destruct (next_count t3) as [x4 t4].
    apply bind_ok in Hjs as (fst0 & _ & Hjs). destruct (negb _); [discriminate|].
    destruct (read_individuals E parse is t4) as [o9 t5] eqn:Er. cbn [fst] in Hjs. subst o9. eapply read_individuals_times. exact Er. }
  destruct Hj as [Lj Hj]. exists is, js. split; [lia|]. split; [exact Hjs|].
  destruct (store_all_spec E (seq 0 (cf_pop cfg)) js h (seq_NoDup _ _) ltac:(rewrite seq_length; lia) Lt) as (_ & _ & St).
  unfold gather in Hg. apply mapM_ok_nth in Hg as [Lg Hg]. apply mapM_ok_nth in His as [_ His]. apply nth_error_ext. intro n. rewrite nth_error_map.
  rewrite seq_length in Lg.
  destruct (nth_error js n) as [j|] eqn:Ej.
  - assert (Hl : (n < cf_pop cfg)%nat) by (assert (n < length js)%nat by (apply nth_error_Some; congruence); lia).
    assert (Hs : nth_error (seq 0 (cf_pop cfg)) n = Some n) by (rewrite (nth_error_nth' _ 0%nat) by (rewrite seq_length; exact Hl); rewrite seq_nth by exact Hl; reflexivity).
    destruct (nth_error ps1 n) as [st|] eqn:Es; [|apply nth_error_None in Es; lia].
    destruct (nth_error is n) as [i|] eqn:Eis; [|apply nth_error_None in Eis; lia].
    specialize (Hg n n st Hs Es). cbn beta in Hg. pose proof (St n n j Hs Ej) as Gs.
    assert (G2 : h_get E (store_all E h (seq 0 (cf_pop cfg)) js) n = Ok j) by (apply h_get_ok; exact Gs). rewrite G2 in Hg. cbn [bind] in Hg.
    destruct (Hj n i j Eis Ej) as [Tj Hh]. unfold ind_stat, get_fitness in Hg. rewrite Hh in Hg. cbn [bind] in Hg. injection Hg as <-. cbn [option_map].
    rewrite Tj. rewrite (Fr n i (nth_error_In _ _ Hs)); [reflexivity|]. apply h_get_ok. eapply His; eauto.
  - apply nth_error_None in Ej. cbn. apply nth_error_None. lia.
Qed.
End Reports.

(** *** C63: the reports *)
(** A watched call of Optimize (with a call-back) that returns; [inv] is what the invalid-chromosome counter held before. *)
Section Claims.
Variable E : env.
Hypothesis sort_length : forall l, length (e_sort E l) = length l.
Variables (hash : list bool -> Z) (f : e_par E -> outcome dbl) (show : dbl -> text) (cb : callback E).
Variables (same_type : e_par E -> e_par E -> bool) (same_meta : e_par E -> e_par E -> outcome bool).
Variables (cfg : ga_cfg) (initial : option (list (e_par E))) (parse : text -> dbl * text) (file : option text) (k : counter) (inv : Z) (p : e_par E).
Variables (w : e_w E) (q : e_par E) (ws : list (watch E)) (s : gstate E) (inv' : Z) (w' : e_w E).
Hypothesis Call : ga_watched E show hash f (Some cb) same_type same_meta cfg initial parse file k inv p true w = (Ok (q, ws, s, inv'), w').
(** no earlier call left hits uncounted (an Optimize that returns never does) *)
Hypothesis Clean : k_hits k = 0.

Lemma silent : traces E (fun _ _ _ => True).
Proof. split; auto. Qed.

(** The call-back is called exactly once in every generation, with the number of the generation (from 0), the average of
    the population's objective values, and the best individual found so far (a copy of it) with its value; each file it
    asks for holds the population of that moment. *)
Theorem C63_reports :
  (Z.of_nat (length ws) <= Z.max 0 (cf_gens cfg)) /\ (0 < cf_gens cfg -> ws <> []) /\
  forall j wt, nth_error ws j = Some wt -> let is := sn_pop E (wt_snap E wt) in let b := sn_best E (wt_snap E wt) in
    exists sh, wt_shown E wt = Some sh /\ length is = cf_pop cfg /\
      let r := sh_report E sh in
      r_number E r = Z.of_nat j /\ Forall (fun i => i_has E i = true) is /\
      r_average E r = d_div (fold_left d_add (map (i_fit E) is) (d_ofZ 0)) (d_ofZ (Z.of_nat (cf_pop cfg))) /\
      i_has E b = true /\ r_best_fitness E r = i_fit E b /\ e_cln E (i_par E b) = Ok (r_best E r) /\
      exists u u', cb r u = (Ok (map fst (sh_files E sh)), u') /\
        Forall (fun nt => write_population E show is = Ok (snd nt)) (sh_files E sh).
Proof.
  destruct (start_spec E _ silent _ _ _ _ _ _ _ _ _ _ _ _ _ _ _ _ _ _ _ Call) as (h1 & best & inv0 & ps1 & w1 & Hr & _ & _).
  destruct (run_spec_s E _ silent sort_length _ _ _ _ (fun _ _ => I) _ _ _ _ _ _ _ _ _ _ _ (cf_pop cfg) Hr) as (segs & _ & _ & R3 & R4 & _ & R6);
    [apply seq_NoDup|apply seq_length|exact Clean|].
  split; [lia|]. split; [intro G; apply R4; lia|]. intros j wt Hw is b. destruct (R6 j wt Hw) as (sh & A1 & A2 & A3 & _).
  exists sh. split; [exact A1|]. split; [exact A2|]. unfold shows in A3. rewrite A2 in A3. exact A3.
Qed.

(** The statistics of the individuals, most chosen first: the first report shows an empty list of zeros (or the values of
    the file that was read), every later one the individuals of the population BEFORE, with the number of times each was
    tried as a parent of the current one. *)
Theorem C63_individuals : forall j wt sh, nth_error ws j = Some wt -> wt_shown E wt = Some sh ->
  match j with
  | O => match file with
         | None => ranked (repeat (MkIS (d_ofZ 0) 0) (cf_pop cfg)) (r_individuals E (sh_report E sh))
         | Some t => exists js0 js, read_population E parse js0 t = Ok js /\ length js = cf_pop cfg /\
                     ranked (map (fun i => MkIS (i_fit E i) 0) js) (r_individuals E (sh_report E sh))
         end
  | S j' => exists wp, nth_error ws j' = Some wp /\ Forall (fun c => (c < cf_pop cfg)%nat) (wt_chosen E wp) /\
                       ranked (stats_of E (sn_pop E (wt_snap E wp)) (wt_chosen E wp)) (r_individuals E (sh_report E sh))
  end.
Proof.
  intros j wt sh Hw Hs.
  destruct (start_spec E _ silent _ _ _ _ _ _ _ _ _ _ _ _ _ _ _ _ _ _ _ Call) as (h1 & best & inv0 & ps1 & w1 & Hr & _ & Hf).
  destruct (run_spec_s E _ silent sort_length _ _ _ _ (fun _ _ => I) _ _ _ _ _ _ _ _ _ _ _ (cf_pop cfg) Hr) as (segs & _ & _ & R3 & R4 & _ & R6);
    [apply seq_NoDup|apply seq_length|exact Clean|].
  destruct (R6 j wt Hw) as (sh' & A1 & _ & _ & _ & _ & A6 & A7 & _). rewrite Hs in A1. injection A1 as <-.
  destruct j as [|j'].
  - destruct (A6 eq_refl) as [_ ->]. destruct file as [t|]; [|subst ps1; apply sort_ranked].
    destruct Hf as (js0 & js & L & Hrd & ->). exists js0, js. split; [exact Hrd|]. split; [exact L|apply sort_ranked].
  - destruct (nth_error ws j') as [wp|] eqn:Ep.
    + destruct (A7 j' wp eq_refl Ep) as (seg & ind & _ & (att & ms & _ & _ & Fc & _ & _ & ->) & ->).
      exists wp. split; [reflexivity|]. split; [exact Fc|apply sort_ranked].
    + exfalso. apply nth_error_None in Ep. assert (S j' < length ws)%nat by (apply nth_error_Some; congruence). lia.
Qed.

(** Cache hits: those of the generation alone, never more than the population; together with the evaluations they account
    for every individual of every generation. *)
Theorem C63_hits :
  (forall wt sh, In wt ws -> wt_shown E wt = Some sh -> 0 <= r_hits E (sh_report E sh) <= Z.of_nat (cf_pop cfg) /\
    (k_cache k = None -> r_hits E (sh_report E sh) = 0)) /\
  fold_right (fun wt z => match wt_shown E wt with Some sh => r_hits E (sh_report E sh) | None => 0 end + z) 0 ws
    + (k_counts (g_counter E s) - k_counts k) = Z.of_nat (cf_pop cfg) * Z.of_nat (length ws).
Proof.
  destruct (start_spec E _ silent _ _ _ _ _ _ _ _ _ _ _ _ _ _ _ _ _ _ _ Call) as (h1 & best & inv0 & ps1 & w1 & Hr & _ & Hf).
  destruct (run_spec_s E _ silent sort_length _ _ _ _ (fun _ _ => I) _ _ _ _ _ _ _ _ _ _ _ (cf_pop cfg) Hr) as (segs & _ & R2 & R3 & R4 & _ & R6);
    [apply seq_NoDup|apply seq_length|exact Clean|].
  split; [|exact R2]. intros wt sh Hi Hs. apply In_nth_error in Hi as [j Hj]. destruct (R6 j wt Hj) as (sh' & A1 & _ & _ & A4 & A5 & _).
  rewrite Hs in A1. injection A1 as <-. split; [exact A4|exact A5].
Qed.

(** Invalid chromosomes. [log] records every random number, random bit, mutation and context; the call-back asks for none.
    First report: one for every random chromosome drawn in vain for the initial population (on top of what the counter held
    before); later ones: the attempts at a pair beyond the pairs wanted, plus the mutations beyond one per individual. *)
Variable log : e_w E -> list gevent.
Hypothesis Notes : notes E log.
Hypothesis Quiet : forall r u, log (snd (cb r u)) = log u.

Lemma loud : traces E (fun u l u' => log u' = log u ++ l).
Proof.
  split; try apply Notes.
  - intro u. rewrite app_nil_r. reflexivity.
  - intros u l u1 m u2 -> ->. symmetry. apply app_assoc.
Qed.

Theorem C63_invalid : exists seg0 segs, log w' = log w ++ seg0 ++ concat segs /\
  (forall wt sh, nth_error ws 0 = Some wt -> wt_shown E wt = Some sh ->
     match initial with
     | None => exists i0, ind_new E p = Ok i0 /\ inv <= r_invalid E (sh_report E sh) /\ Forall (eq GBool) seg0 /\
         Z.of_nat (length seg0) = Z.of_nat (length (i_chr E i0)) * (Z.of_nat (cf_pop cfg) + (r_invalid E (sh_report E sh) - inv))
     | Some _ => seg0 = [] /\ r_invalid E (sh_report E sh) = inv
     end) /\
  (forall j wp, nth_error ws j = Some wp ->
     (* what the next report says, or, after the last one, what is left in the counter *)
     forall after, (match nth_error ws (S j) with
                    | Some wt => exists sh, wt_shown E wt = Some sh /\ after = r_invalid E (sh_report E sh)
                    | None => d_leb (cf_stop cfg) (i_fit E (sn_best E (wt_snap E wp))) = false /\ after = inv'
                    end) ->
     exists att ms, nth_error segs j = Some (repeat GRand (3 * att) ++ GCtx (Z.of_nat j) (cf_gens cfg) :: ms) /\ Forall is_gmut ms /\
       length (wt_chosen E wp) = (2 * att)%nat /\
       after = (Z.of_nat att - pairs_bred cfg) + (Z.of_nat (length ms) - Z.of_nat (cf_pop cfg))) /\
  (forall j wp, nth_error ws j = Some wp -> nth_error ws (S j) = None ->
     d_leb (cf_stop cfg) (i_fit E (sn_best E (wt_snap E wp))) = true -> length segs = j /\ inv' = 0).
Proof.
  assert (Q : forall r u, log (snd (cb r u)) = log u ++ []) by (intros; rewrite app_nil_r; apply Quiet).
  destruct (start_spec E _ loud _ _ _ _ _ _ _ _ _ _ _ _ _ _ _ _ _ _ _ Call) as (h1 & best & inv0 & ps1 & w1 & Hr & Hi & Hf).
  destruct (run_spec_s E _ loud sort_length _ _ _ _ Q _ _ _ _ _ _ _ _ _ _ _ (cf_pop cfg) Hr) as (segs & R1 & _ & R3 & R4 & _ & R6);
    [apply seq_NoDup|apply seq_length|exact Clean|].
  assert (H0 : exists seg0, log w1 = log w ++ seg0 /\
     match initial with
     | None => exists i0, ind_new E p = Ok i0 /\ inv <= inv0 /\ Forall (eq GBool) seg0 /\
         Z.of_nat (length seg0) = Z.of_nat (length (i_chr E i0)) * (Z.of_nat (cf_pop cfg) + (inv0 - inv))
     | Some _ => seg0 = [] /\ inv0 = inv end).
  { destruct initial as [ps|]; [exists []; destruct Hi as [X Y]; split; [exact X|auto]|].
    destruct Hi as (i0 & n & A & B & C & D). exists (repeat GBool n). split; [exact C|]. exists i0. split; [exact A|]. split; [exact B|].
    split; [apply Forall_forall; intros x Hx; apply repeat_spec in Hx; auto|]. rewrite repeat_length. exact D. }
  destruct H0 as (seg0 & L0 & H0). exists seg0, segs. split; [rewrite R1, L0, <- app_assoc; reflexivity|]. split; [|split].
  - intros wt sh Hw Hs. destruct (R6 0%nat wt Hw) as (sh' & A1 & _ & _ & _ & _ & A6 & _). rewrite Hs in A1. injection A1 as <-.
    destruct (A6 eq_refl) as [-> _]. exact H0.
  - intros j wp Hp after Ha. destruct (nth_error ws (S j)) as [wt|] eqn:En.
    + destruct Ha as (sh & Hs & ->). destruct (R6 _ wt En) as (sh' & A1 & _ & _ & _ & _ & _ & A7 & _). rewrite Hs in A1. injection A1 as <-.
      destruct (A7 j wp eq_refl Hp) as (seg & ind & K1 & (att & ms & [-> Fm] & L1 & _ & _ & Iv & _) & _).
      exists att, ms. split; [exact K1|]. split; [exact Fm|]. split; [exact L1|]. exact Iv.
    + destruct Ha as [Hs ->]. apply nth_error_None in En. assert (j < length ws)%nat by (apply nth_error_Some; congruence).
      destruct (R6 _ wp Hp) as (sh' & _ & _ & _ & _ & _ & _ & _ & A8). destruct A8 as [(_ & _ & _ & X)|(_ & _ & seg & ind & K1 & (att & ms & [-> Fm] & L1 & _ & _ & Iv & _) & _)]; [lia|congruence|].
      exists att, ms. split; [exact K1|]. split; [exact Fm|]. split; [exact L1|]. exact Iv.
  - intros j wp Hp En St. apply nth_error_None in En. assert (j < length ws)%nat by (apply nth_error_Some; congruence).
    destruct (R6 _ wp Hp) as (sh' & _ & _ & _ & _ & _ & _ & _ & A8). destruct A8 as [(_ & X & Y & _)|(X & _)]; [lia|auto|congruence].
Qed.
End Claims.

(** *** watching changes nothing *)
Section Unwatched.
Variable E : env.
Notation M := (wm (e_w E)).
Variables (hash : list bool -> Z) (f : e_par E -> outcome dbl) (show : dbl -> text).
Variables (same_type : e_par E -> e_par E -> bool) (same_meta : e_par E -> e_par E -> outcome bool).

(** [m] does what [m'] does, up to the view [g] of the result *)
Definition sim {A B} (g : A -> B) (m : M A) (m' : M B) : Prop := forall w, (let! x := fst (m w) in Ok (g x), snd (m w)) = m' w.
Lemma sim_ret {A B} (g : A -> B) a b : g a = b -> sim g (wret a) (wret b).
Proof. intros <- w. reflexivity. Qed.
Lemma sim_bind {A B A' B'} (g : A -> B) (g' : A' -> B') m m' kk kk' : sim g m m' ->
  (forall a w w', m w = (Ok a, w') -> sim g' (kk a) (kk' (g a))) -> sim g' (wbind m kk) (wbind m' kk').
Proof.
  intros H K w. unfold wbind. rewrite <- (H w). destruct (m w) as [[a|e|u] w1] eqn:Em; cbn [fst snd bind]; [|reflexivity|reflexivity].
  rewrite <- (K a w w1 Em). reflexivity.
Qed.
Lemma sim_same {A B'} {A'} (g' : A' -> B') (m : M A) kk kk' :
  (forall a w w', m w = (Ok a, w') -> sim g' (kk a) (kk' a)) -> sim g' (wbind m kk) (wbind m kk').
Proof.
  intro K. apply (sim_bind (fun x => x)); [|exact K]. intro w. destruct (m w) as [[a|e|u] w1]; reflexivity.
Qed.
Lemma sim_lift {A B} (g : A -> B) o o' : (let! x := o in Ok (g x)) = o' -> sim g (wlift o) (wlift o').
Proof. intros <- w. reflexivity. Qed.
Lemma sim_only {A A' B'} (g' : A' -> B') (o : outcome A) kk m' a : o = Ok a -> sim g' (kk a) m' -> sim g' (wbind (wlift o) kk) m'.
Proof. intros -> H w. exact (H w). Qed.
Lemma sim_fail {A B} (g : A -> B) u : sim g (wlift (UB u)) (wlift (UB u)).
Proof. intro w. reflexivity. Qed.

Lemma sim_cross fuel : forall h pop total inv, sim (fun x => (fst (fst (fst x)), snd (fst (fst x)))) (cross_loop_s E fuel h pop total inv) (cross_loop E fuel h pop total).
Proof.
  induction fuel as [|n IH]; intros h pop total inv; cbn [cross_loop_s cross_loop]; [apply sim_fail|].
  do 8 (apply sim_same; intros ? ? ? _). apply sim_same. intros r ? ? _. destruct (snd r); [apply sim_ret; reflexivity|].
  intro z9. unfold wbind. rewrite <- (IH _ _ _ (inv + 1) z9). destruct (cross_loop_s E n _ pop total (inv + 1) z9) as [[x9|e9|u9] z10]; reflexivity.
Qed.

Lemma sim_pairs elit pop total : forall m sorted ready h inv, (length sorted <= m)%nat ->
  sim (fun x => fst (fst x)) (next_pairs_s E elit pop total sorted ready h inv) (next_pairs E elit pop total sorted ready h).
Proof.
  induction m as [|m IH]; intros sorted ready h inv Hm; (destruct sorted as [|a [|b r]]; [apply sim_ret; reflexivity|try (cbn in Hm; lia); apply sim_fail|cbn in Hm; try lia]).
  cbn [next_pairs_s next_pairs]. destruct (ready <? elit).
  - do 2 (apply sim_same; intros ? ? ? _). destruct (h_new E h _) as [h1 x]. do 2 (apply sim_same; intros ? ? ? _). destruct (h_new E h1 _) as [h2 y].
    eapply sim_bind; [apply IH; lia|]. intros [[[h3 np] iv] ch] ? ? _. apply sim_ret. reflexivity.
  - eapply sim_bind; [apply sim_cross|]. intros [[[h0 [c1 c2]] iv] ch] ? ? _. cbn [fst snd].
    destruct (h_new E h0 c1) as [h1 x]. destruct (h_new E h1 c2) as [h2 y].
    eapply sim_bind; [apply IH; lia|]. intros [[[h3 np] iv3] ch3] ? ? _. apply sim_ret. reflexivity.
Qed.

(** heap individuals with a fitness keep it while the next population is made *)
Definition hasfit (h : heap E) (pop : list nat) : Prop := forall a, In a pop -> exists i, nth_error h a = Some i /\ i_has E i = true.
Lemma hasfit_gather h pop : hasfit h pop -> exists ps, gather E h pop = Ok ps.
Proof.
  intro H. unfold gather. induction pop as [|a pop IH]; [eexists; reflexivity|].
  destruct (H a (or_introl eq_refl)) as (i & Hi & Hh). destruct IH as [ps Hps]; [intros b Hb; apply H; right; exact Hb|].
  assert (Hx : (let! j := h_get E h a in ind_stat E j) = Ok (MkIS (i_fit E i) (i_times E i))).
  { unfold h_get. rewrite Hi. cbn [bind]. unfold ind_stat, get_fitness. rewrite Hh. reflexivity. }
  cbn [mapM]. rewrite Hx. cbn [bind]. rewrite Hps. eexists. reflexivity.
Qed.
Lemma raised_hasfit l h h' pop : raised E l h h' -> hasfit h pop -> hasfit h' pop.
Proof. intros Rz H a Ha. destruct (H a Ha) as (i & Hi & Hh). exists (more E (occ l a) i). split; [apply Rz; exact Hi|exact Hh]. Qed.

Lemma sim_generate elit h pop inv : sim (fun x => fst (fst (fst x))) (generate_next_s E elit h pop inv) (generate_next E elit h pop).
Proof.
  unfold generate_next_s, generate_next. apply sim_same. intros fits w w' Hf. apply wlift_ok in Hf as [Hf _].
  intro u. unfold wbind. rewrite <- (sim_pairs elit pop _ _ _ 0 _ inv (le_n _) u).
  destruct (next_pairs_s E elit pop _ _ 0 _ inv u) as [[x|e|b] u1] eqn:Ex; cbn [fst snd bind]; try reflexivity.
  destruct x as [[[h2 np] iv] ch].
  destruct (next_pairs_s_spec E _ (silent E) _ _ _ _ _ _ _ _ _ _ _ _ _ _ (le_n _) Ex) as (addrs & att & _ & _ & _ & _ & Rz & _).
  destruct (hasfit_gather h2 pop) as [ps Hps].
  { apply (raised_hasfit _ _ _ _ Rz). intros a Ha. apply In_nth_error in Ha as [n Hn]. apply mapM_ok_nth in Hf as [Lf Hf].
    destruct (nth_error fits n) as [v|] eqn:Ev; [|apply nth_error_None in Ev; assert (n < length pop)%nat by (apply nth_error_Some; congruence); lia].
    specialize (Hf n a v Hn Ev). unfold fit_of in Hf. apply bind_ok in Hf as (i & Hi & Hv). apply h_get_ok in Hi.
    destruct (reset_get E pop h a i Hi) as [G _]. rewrite G. eexists. split; [reflexivity|].
    unfold get_fitness in Hv. destruct (in_dec Nat.eq_dec a pop); cbn; destruct (i_has E i); congruence. }
  cbn [fst]. rewrite Hps. reflexivity.
Qed.

Lemma sim_mutate pop : forall h inv, sim fst (mutate_all_s E h pop inv) (mutate_all E h pop).
Proof.
  induction pop as [|a pop IH]; intros h inv; cbn [mutate_all_s mutate_all]; [apply sim_ret; reflexivity|].
  apply sim_same. intros i ? ? _. apply sim_same. intros j ? ? _. apply IH.
Qed.

Definition strip_run (x : gstate E * Z * list (watch E)) : gstate E * list (snap E) := (fst (fst x), map (wt_snap E) (snd x)).
Lemma sim_run cfg : forall left n s inv ps, sim strip_run (run_watched E show hash f None cfg left n s inv ps) (run_generations E hash f cfg left n s).
Proof.
  induction left as [|left IH]; intros n s inv ps; cbn [run_watched run_generations]; [apply sim_ret; reflexivity|].
  apply sim_same. intros [h1 k1] ? ? _. do 3 (apply sim_same; intros ? ? ? _).
  apply (sim_only _ (Ok None) _ _ None eq_refl). apply sim_same. intros fb ? ? _. destruct (d_leb (cf_stop cfg) fb); [apply sim_ret; reflexivity|].
  eapply sim_bind; [apply sim_generate|]. intros [[[[h2 np] iv2] ch] ps2] ? ? _. cbn [fst snd].
  apply sim_same. intros ? ? ? _. eapply sim_bind; [apply sim_mutate|]. intros [h3 iv3] ? ? _. cbn [fst snd].
  eapply sim_bind; [apply IH|]. intros [[s2 iv4] ws] ? ? _. apply sim_ret. reflexivity.
Qed.

Lemma sim_init_random n : forall p h inv, sim fst (init_random_s E n p h inv) (init_random E n p h).
Proof.
  induction n as [|n IH]; intros p h inv; cbn [init_random_s init_random]; [apply sim_ret; reflexivity|].
  apply sim_same. intros i ? ? _. apply sim_same. intros r ? ? _. destruct (h_new E h (fst r)) as [h1 a].
  eapply sim_bind; [apply IH|]. intros [[h2 pop] iv] ? ? _. apply sim_ret. reflexivity.
Qed.
Lemma sim_initialize cfg initial p inv :
  sim (fun x => fst (fst x)) (ga_initialize_s E same_type same_meta cfg initial p inv) (ga_initialize E same_type same_meta cfg initial p).
Proof.
  unfold ga_initialize_s, ga_initialize. apply (sim_bind fst).
  - destruct initial as [ps|]; [|apply sim_init_random]. destruct (negb _); [intro w; reflexivity|].
    apply sim_same. intros ? ? ? _. intro z9. unfold wbind. destruct (init_given E ps [] z9) as [[y9|e9|u9] z10]; reflexivity.
  - intros [[h pop] iv] ? ? _. cbn [fst snd]. apply sim_same. intros b ? ? _. destruct (h_new E h b) as [h1 best]. apply sim_ret. reflexivity.
Qed.

(** what is left of a watched call when the call-back's part is forgotten *)
Definition strip (x : e_par E * list (watch E) * gstate E * Z) : e_par E * list (snap E) * gstate E :=
  (fst (fst (fst x)), map (wt_snap E) (snd (fst (fst x))), snd (fst x)).

(** Without a call-back the run is exactly the run of GA.v: same answer, same exceptions, same random numbers drawn,
    whatever the counter of invalid chromosomes held before. *)
Theorem C63_unwatched : forall cfg initial parse file k inv p maximize w,
  (let! x := fst (ga_watched E show hash f None same_type same_meta cfg initial parse file k inv p maximize w) in Ok (strip x),
   snd (ga_watched E show hash f None same_type same_meta cfg initial parse file k inv p maximize w))
  = ga_optimize E hash f same_type same_meta cfg initial parse file k p maximize w.
Proof.
  intros cfg initial parse file k inv p maximize. change (sim strip (ga_watched E show hash f None same_type same_meta cfg initial parse file k inv p maximize)
    (ga_optimize E hash f same_type same_meta cfg initial parse file k p maximize)).
  unfold ga_watched, ga_optimize. destruct (negb maximize); [intro w; reflexivity|].
  eapply sim_bind; [apply sim_initialize|]. intros [[[[h pop] best] inv0] ps0] w0 w0' Hini. cbn [fst snd].
  apply sim_same. intros h1 w1 w1' Hf. apply wlift_ok in Hf as [Hf _].
  assert (Hg : exists ps1, (match file with None => Ok ps0 | Some _ => gather E h1 pop end) = Ok ps1).
  { destruct file as [t|]; [|eexists; reflexivity]. apply hasfit_gather. unfold load_file in Hf.
    apply bind_ok in Hf as (is & His & Hf). apply bind_ok in Hf as (js & Hjs & Hf). injection Hf as <-.
    assert (Hj : length js = length is /\ Forall (fun i => i_has E i = true) js).
    { unfold read_population in Hjs. destruct (next_word t) as [x1 t1]. destruct (next_count t1) as [x2 t2]. destruct (next_word t2) as [x3 t3]. destruct (next_count t3) as [x4 t4].
      apply bind_ok in Hjs as (fst0 & _ & Hjs). destruct (negb _); [discriminate|].
      destruct (read_individuals E parse is t4) as [o9 t5] eqn:Er. cbn [fst] in Hjs. subst o9. apply read_individuals_times in Er as [L Er].
      split; [exact L|]. apply Forall_forall. intros j Hj. apply In_nth_error in Hj as [n Hn].
      destruct (nth_error is n) as [i|] eqn:Ei; [eapply Er; eauto|apply nth_error_None in Ei; assert (n < length js)%nat by (apply nth_error_Some; congruence); lia]. }
    destruct Hj as [Lj Fj]. clear - His Lj Fj.
    assert (Hin : forall a, In a pop -> (a < length h)%nat).
    { intros a Ha. apply In_nth_error in Ha as [n Hn]. apply mapM_ok_nth in His as [Ls His].
      destruct (nth_error is n) as [i|] eqn:Ei; [|apply nth_error_None in Ei; assert (n < length pop)%nat by (apply nth_error_Some; congruence); lia].
      specialize (His n a i Hn Ei). apply h_get_ok in His. apply nth_error_Some. congruence. }
    apply mapM_ok_length in His. rewrite His in Lj. clear His is. revert js h Lj Fj Hin.
    assert (Keep : forall pop js h, Forall (fun i => i_has E i = true) js -> forall a i, nth_error h a = Some i -> i_has E i = true ->
      exists i', nth_error (store_all E h pop js) a = Some i' /\ i_has E i' = true).
    { induction pop0 as [|b pop0 IH]; intros [|j js] h F a i Ha Hh; cbn [store_all]; eauto.
      assert (X : exists i1, nth_error (h_set E h b j) a = Some i1 /\ i_has E i1 = true).
      { unfold h_set. rewrite nth_error_upd. destruct (Nat.eqb_spec b a) as [->|]; [|eauto].
        assert (a < length h)%nat by (apply nth_error_Some; congruence). destruct (Nat.ltb_spec a (length h)); [|lia]. eexists. split; [reflexivity|exact (Forall_inv F)]. }
      destruct X as (i1 & H1 & H2). exact (IH js _ (Forall_inv_tail F) a i1 H1 H2). }
    induction pop as [|b pop IH]; intros [|j js] h Lj Fj Hin; cbn in Lj; try discriminate; [intros a []|].
    cbn [store_all]. intros a [<-|Ha].
    - apply (Keep pop js _ (Forall_inv_tail Fj) b j); [|exact (Forall_inv Fj)]. unfold h_set. rewrite nth_error_upd, Nat.eqb_refl.
      pose proof (Hin b (or_introl eq_refl)). destruct (Nat.ltb_spec b (length h)); [reflexivity|lia].
    - apply (IH js); [lia|exact (Forall_inv_tail Fj)| |exact Ha]. intros c Hc. unfold h_set. rewrite upd_length. apply Hin. right. exact Hc. }
  destruct Hg as [ps1 Hg]. apply (sim_only _ _ _ _ ps1 Hg).
  eapply sim_bind; [apply sim_run|]. intros [[s iv] ws] ? ? _. unfold strip_run. cbn [fst snd].
  apply sim_same. intros b ? ? _. destruct (e_dec E p (i_chr E b)) as [q o]. apply sim_same. intros ? ? ? _. apply sim_ret. reflexivity.
Qed.

(** A call-back that leaves the world alone (no random numbers, no mutations) does not change the run either. *)
Lemma unwatch_run c : (forall r u, snd (c r u) = u) -> forall cfg left n s inv ps w s' inv' ws w',
  run_watched E show hash f (Some c) cfg left n s inv ps w = (Ok (s', inv', ws), w') ->
  exists ws', run_watched E show hash f None cfg left n s inv ps w = (Ok (s', inv', ws'), w') /\ map (wt_snap E) ws' = map (wt_snap E) ws.
Proof.
  intros Hc cfg. induction left as [|left IH]; intros n s inv ps w s' inv' ws w' H; cbn [run_watched] in *.
  { apply wret_ok in H as [H ->]. injection H as -> -> ->. exists []. auto. }
  apply wbind_ok in H as ([h1 k1] & w1 & Ho & H). apply wlift_ok in Ho as [Ho ->].
  apply wbind_ok in H as (best & w2 & Hb & H). apply wlift_ok in Hb as [Hb ->].
  apply wbind_ok in H as (is & w3 & His & H). apply wlift_ok in His as [His ->].
  apply wbind_ok in H as (b & w4 & Hbb & H). apply wlift_ok in Hbb as [Hbb ->].
  apply wbind_ok in H as (osh & w5 & Hsh & H). apply wbind_ok in Hsh as (sh & w5' & Hsh & X). apply wret_ok in X as [-> ->].
  assert (w5' = w).
  { unfold process_statistics in Hsh. apply wbind_ok in Hsh as (v1 & u1 & X & Hsh). apply wlift_ok in X as [_ ->].
    apply wbind_ok in Hsh as (v2 & u2 & X & Hsh). apply wlift_ok in X as [_ ->]. apply wbind_ok in Hsh as (v3 & u3 & X & Hsh). apply wlift_ok in X as [_ ->].
    apply wbind_ok in Hsh as (v4 & u4 & X & Hsh). apply wlift_ok in X as [_ ->]. apply wbind_ok in Hsh as (v5 & u5 & X & Hsh).
    pose proof (Hc (MkReport E v1 v4 v3 n (k_hits k1) inv (stat_sort ps)) w) as Q. rewrite X in Q. cbn in Q. subst u5.
    apply wbind_ok in Hsh as (v6 & u6 & Y & Hsh). apply wlift_ok in Y as [_ ->]. apply wbind_ok in Hsh as (v7 & u7 & Y & Hsh). apply wlift_ok in Y as [_ ->].
    apply wret_ok in Hsh as [_ ->]. reflexivity. }
  subst w5'. apply wbind_ok in H as (fb & w6 & Hfb & H). apply wlift_ok in Hfb as [Hfb ->].
  unfold wbind at 1, wlift at 1. rewrite Ho. unfold wbind at 1, wlift at 1. rewrite Hb. unfold wbind at 1, wlift at 1. rewrite His.
  unfold wbind at 1, wlift at 1. rewrite Hbb. unfold wbind at 1, wret at 1. unfold wbind at 1, wlift at 1. rewrite Hfb.
  destruct (d_leb (cf_stop cfg) fb).
  - apply wret_ok in H as [H ->]. injection H as -> -> ->. eexists. split; reflexivity.
  - apply wbind_ok in H as ([[[[h2 np] inv2] ch] ps2] & w7 & Hg & H). apply wbind_ok in H as (u & w8 & Hctx & H).
    apply wbind_ok in H as ([h3 inv3] & w9 & Hm & H). apply wbind_ok in H as ([[s2 inv4] ws2] & w10 & Hz & H).
    apply wret_ok in H as [H ->]. cbn [fst snd] in H. injection H as -> -> ->. destruct (IH _ _ _ _ _ _ _ _ _ Hz) as (ws' & I1 & I2).
    unfold wbind at 1. rewrite Hg. unfold wbind at 1. rewrite Hctx. unfold wbind at 1. rewrite Hm. unfold wbind at 1. cbn [fst snd] in I1 |- *. rewrite I1.
    eexists. split; [reflexivity|]. cbn [map wt_snap snd]. rewrite I2. reflexivity.
Qed.

Theorem C63_watching_harmless : forall c, (forall r u, snd (c r u) = u) -> forall cfg initial parse file k inv p maximize w x w',
  ga_watched E show hash f (Some c) same_type same_meta cfg initial parse file k inv p maximize w = (Ok x, w') ->
  ga_optimize E hash f same_type same_meta cfg initial parse file k p maximize w = (Ok (strip x), w').
Proof.
  intros c Hc cfg initial parse file k inv p maximize w [[[q ws] s] inv'] w' H.
  assert (N : exists ws', ga_watched E show hash f None same_type same_meta cfg initial parse file k inv p maximize w = (Ok (q, ws', s, inv'), w') /\
    map (wt_snap E) ws' = map (wt_snap E) ws).
  { unfold ga_watched in *. destruct (negb maximize); [discriminate|].
    apply wbind_ok in H as ([[[[h pop] best] inv0] ps0] & w1 & Hi & H).
    apply wbind_ok in H as (h1 & w2 & Hf & H). apply wlift_ok in Hf as [Hf ->].
    apply wbind_ok in H as (ps1 & w3 & Hg & H). apply wlift_ok in Hg as [Hg ->].
    apply wbind_ok in H as ([[s2 inv2] ws2] & w4 & Hr & H). cbn [fst snd] in H.
    destruct (unwatch_run c Hc _ _ _ _ _ _ _ _ _ _ _ Hr) as (ws' & Hr' & Hws). exists ws'.
    unfold wbind at 1. rewrite Hi. unfold wbind at 1, wlift at 1. rewrite Hf. unfold wbind at 1, wlift at 1. rewrite Hg. unfold wbind at 1. rewrite Hr'. cbn [fst snd].
    apply wbind_ok in H as (b & w5 & Hb & H). apply wlift_ok in Hb as [Hb ->]. unfold wbind, wlift. rewrite Hb.
    destruct (e_dec E p (i_chr E b)) as [q0 o]. apply wbind_ok in H as (u & w6 & Hu & H). apply wlift_ok in Hu as [Hu ->]. subst o.
    apply wret_ok in H as [H ->]. injection H as -> -> -> ->. split; [reflexivity|exact Hws]. }
  destruct N as (ws' & N1 & N2). rewrite <- (C63_unwatched cfg initial parse file k inv p maximize w), N1. cbn [fst snd bind].
  unfold strip. cbn [fst snd]. rewrite N2. reflexivity.
Qed.
End Unwatched.

(** *** a run of the library, and two things the reports do not say *)
Definition wN : env := noted wE.
Definition w_cb : callback wN := fun r w => (Ok (if r_number wN r =? 2 then [of_string "p.txt"%string] else []), w).
Definition w_hash (c : list bool) : Z := fold_left (fun z (b : bool) => 2 * z + if b then 1 else 0) c 0.
Definition w_watched (gens : Z) (inv : Z) (k : counter) (initial : option (list (param RNum))) (w : e_w wN) :=
  ga_watched wN (fun _ => []) w_hash (int_objective RNum) (Some w_cb) (p_same_type RNum) (p_same_meta RNum) (MkCfg 6 1 gens (d_ofZ 1000)) initial
    (fun t => (d_ofZ 0, t)) None k inv w_par true w.
(** number, hits, invalid, times chosen, files *)
Definition digest (ws : list (watch wN)) : list (Z * Z * Z * list Z * nat) :=
  map (fun wt => match wt_shown wN wt with
                 | Some sh => let r := sh_report wN sh in (r_number wN r, r_hits wN r, r_invalid wN r, map st_times (r_individuals wN r), length (sh_files wN sh))
                 | None => (0, 0, 0, [], 0%nat) end) ws.
(** some individual of the population has a value that no line of the report has *)
Definition missing (wt : watch wN) : bool :=
  match wt_shown wN wt with
  | None => false
  | Some sh => existsb (fun i => forallb (fun st => negb (d_eqb (st_fitness st) (i_fit wN i))) (r_individuals wN (sh_report wN sh))) (sn_pop wN (wt_snap wN wt))
  end.
Theorem C63_witness : (forall l, length (e_sort wN l) = length l) /\ notes wN snd /\ (forall r u, snd (w_cb r u) = u) /\
  exists q ws s w', w_watched 5 0 (counter_new (d_ofZ 10)) None (w_world, []) = (Ok (q, ws, s, 0), w') /\ k_hits (counter_new (d_ofZ 10)) = 0 /\
    int_of RNum q = 98 /\
    digest ws = [(0, 0, 0, [0; 0; 0; 0; 0; 0], 0%nat); (1, 0, 1, [2; 2; 1; 1; 0; 0], 0%nat); (2, 0, 5, [2; 1; 1; 0; 0; 0], 1%nat);
                 (3, 1, 8, [2; 1; 1; 0; 0; 0], 0%nat); (4, 3, 2, [1; 1; 1; 1; 0; 0], 0%nat)].
Proof.
  split; [intro l; apply Permutation_length; apply sort_desc_perm|]. split; [apply C63_noted_notes|]. split; [reflexivity|].
  assert (H : match w_watched 5 0 (counter_new (d_ofZ 10)) None (w_world, []) with (Ok (q, ws, s, inv'), _) => (int_of RNum q, inv', digest ws) | _ => (0, 1, []) end
    = (98, 0, [(0, 0, 0, [0; 0; 0; 0; 0; 0], 0%nat); (1, 0, 1, [2; 2; 1; 1; 0; 0], 0%nat); (2, 0, 5, [2; 1; 1; 0; 0; 0], 1%nat);
                 (3, 1, 8, [2; 1; 1; 0; 0; 0], 0%nat); (4, 3, 2, [1; 1; 1; 1; 0; 0], 0%nat)])) by (vm_compute; reflexivity).
  destruct (w_watched 5 0 _ None _) as [[[[[q ws] s] inv']|e|u] w']; try discriminate. injection H as H1 H2 H3. subst inv'.
  exists q, ws, s, w'. split; [reflexivity|]. split; [reflexivity|]. split; [exact H1|exact H3].
Qed.

(** "information about individuals of the current population": not so, from the first generation on. *)
Theorem C63_individuals_current_refuted : exists q ws s inv' w', w_watched 5 0 (MkCounter None 0 0) None (w_world, []) = (Ok (q, ws, s, inv'), w') /\
  length ws = 5%nat /\ forall wt, In wt ws -> exists sh i, wt_shown wN wt = Some sh /\ In i (sn_pop wN (wt_snap wN wt)) /\
    forall st, In st (r_individuals wN (sh_report wN sh)) -> d_eqb (st_fitness st) (i_fit wN i) = false.
Proof.
  assert (H : match w_watched 5 0 (MkCounter None 0 0) None (w_world, []) with (Ok (q, ws, s, inv'), _) => (length ws, forallb missing ws) | _ => (0%nat, false) end = (5%nat, true))
    by (vm_compute; reflexivity).
  destruct (w_watched 5 0 _ None _) as [[[[[q ws] s] inv']|e|u] w']; try discriminate. injection H as H1 H2.
  exists q, ws, s, inv', w'. split; [reflexivity|]. split; [exact H1|]. intros wt Hi. rewrite forallb_forall in H2. specialize (H2 wt Hi).
  unfold missing in H2. destruct (wt_shown wN wt) as [sh|]; [|discriminate]. apply existsb_exists in H2 as (i & Hin & H2). exists sh, i.
  split; [reflexivity|]. split; [exact Hin|]. intros st Hst. rewrite forallb_forall in H2. apply negb_true_iff. exact (H2 st Hst).
Qed.

(** Two calls of Optimize on one object: the first report of the second call shows 8 invalid chromosomes although the second
    call was given its initial population and had not drawn a single random bit. *)
Theorem C63_stale_invalid_refuted : exists q ws s inv' w1 q2 ws2 s2 inv2 w2 wt sh,
  w_watched 3 0 (MkCounter None 0 0) None (w_world, []) = (Ok (q, ws, s, inv'), w1) /\
  w_watched 3 inv' (g_counter wN s) (Some (repeat w_par 6)) w1 = (Ok (q2, ws2, s2, inv2), w2) /\
  nth_error ws2 0 = Some wt /\ wt_shown wN wt = Some sh /\ r_invalid wN (sh_report wN sh) = 8.
Proof.
  assert (H : match w_watched 3 0 (MkCounter None 0 0) None (w_world, []) with
              | (Ok (q, ws, s, inv'), w1) => match w_watched 3 inv' (g_counter wN s) (Some (repeat w_par 6)) w1 with
                 | (Ok (q2, wt :: _, s2, inv2), w2) => match wt_shown wN wt with Some sh => r_invalid wN (sh_report wN sh) | None => 0 end
                 | _ => 0 end
              | _ => 0 end = 8) by (vm_compute; reflexivity).
  destruct (w_watched 3 0 _ None _) as [[[[[q ws] s] inv']|e|u] w1]; try discriminate.
  destruct (w_watched 3 inv' _ _ w1) as [[[[[q2 ws2] s2] inv2]|e|u] w2] eqn:E2; try discriminate.
  destruct ws2 as [|wt ws2]; try discriminate. destruct (wt_shown wN wt) as [sh|] eqn:Es; try discriminate.
  exists q, ws, s, inv', w1, q2, (wt :: ws2), s2, inv2, w2, wt, sh. split; [reflexivity|]. split; [exact E2|]. split; [reflexivity|]. split; [exact Es|exact H].
Qed.
