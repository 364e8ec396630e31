(** Invariants of the genetic algorithm. *)
From Coq Require Import Permutation.
From Flocq Require Import IEEE754.BinarySingleNaN.
From Verif Require Import Base Num DblOrder Random Cache CacheProofs Individual GA CounterProofs PropIndividual PropText.
Local Open Scope Z_scope.
Local Open Scope list_scope.

Section GAP.
Variable E : env.
Notation indiv := (indiv E).
Notation heap := (heap E).
Variable hash : list bool -> Z.
Variable f : e_par E -> outcome dbl.

(** equal except for the statistics counter times_chosen_for_crossover_ *)
Definition alike (i j : indiv) : Prop :=
  i_par E j = i_par E i /\ i_chr E j = i_chr E i /\ i_has E j = i_has E i /\ i_fit E j = i_fit E i.
Lemma alike_refl i : alike i i. Proof. repeat split. Qed.
Lemma alike_trans i j k : alike i j -> alike j k -> alike i k.
Proof. unfold alike. intuition congruence. Qed.
Lemma alike_sym i j : alike i j -> alike j i.
Proof. unfold alike. intuition congruence. Qed.

(** [h'] has everything [h] has, up to the statistics counter *)
Definition ext (h h' : heap) : Prop :=
  (length h <= length h')%nat /\ forall a i, nth_error h a = Some i -> exists j, nth_error h' a = Some j /\ alike i j.
Lemma ext_refl h : ext h h.
Proof. split; [lia|]. intros a i H. exists i. split; [exact H|apply alike_refl]. Qed.
Lemma ext_trans h1 h2 h3 : ext h1 h2 -> ext h2 h3 -> ext h1 h3.
Proof.
  intros [L1 H1] [L2 H2]. split; [lia|]. intros a i H. destruct (H1 a i H) as (j & Hj & A).
  destruct (H2 a j Hj) as (k & Hk & B). exists k. split; [exact Hk|eapply alike_trans; eauto].
Qed.
Lemma ext_new h i : ext h (fst (h_new E h i)).
Proof.
  unfold h_new. cbn. split; [rewrite app_length; cbn; lia|]. intros a j H. exists j. split; [|apply alike_refl].
  rewrite nth_error_app1; [exact H|]. apply nth_error_Some. congruence.
Qed.
Lemma ext_set_times t h a : ext h (set_times E t h a) /\ length (set_times E t h a) = length h.
Proof.
  unfold set_times. destruct (nth_error h a) as [i|] eqn:Ha; [|split; [apply ext_refl|reflexivity]].
  unfold h_set. split; [|apply upd_length]. split; [rewrite upd_length; lia|]. intros b j H.
  destruct (Nat.eq_dec a b) as [<-|N].
  - rewrite Ha in H. injection H as <-. rewrite upd_same by (apply nth_error_Some; congruence).
    eexists. split; [reflexivity|]. repeat split.
  - rewrite upd_other by exact N. exists j. split; [exact H|apply alike_refl].
Qed.
Lemma ext_set_times_all t pop : forall h, ext h (fold_left (set_times E t) pop h) /\ length (fold_left (set_times E t) pop h) = length h.
Proof.
  induction pop as [|a pop IH]; intro h; cbn; [split; [apply ext_refl|reflexivity]|].
  destruct (ext_set_times t h a) as [X L]. destruct (IH (set_times E t h a)) as [Y L2]. split; [eapply ext_trans; eauto|lia].
Qed.

(** laws of the parameter implementation *)
Variable good : e_par E -> Prop.
Hypothesis good_dec : forall p c q, good p -> e_dec E p c = (q, Ok tt) -> good q.
Hypothesis good_cln : forall p, good p -> e_cln E p = Ok p.
Hypothesis dec_idem : forall p c q, good p -> e_dec E p c = (q, Ok tt) -> e_dec E q c = (q, Ok tt).

Definition sound (i : indiv) : Prop := good (i_par E i) /\ in_step E i /\ e_chk E (i_par E i) = Ok true.
Lemma sound_alike i j : alike i j -> sound i -> sound j.
Proof. unfold alike, sound, in_step. intros (-> & -> & _ & _). auto. Qed.
Lemma good_alike i j : alike i j -> good (i_par E i) -> good (i_par E j).
Proof. intros (-> & _). auto. Qed.

Definition goods (h : heap) (pop : list nat) : Prop := forall a, In a pop -> exists i, nth_error h a = Some i /\ good (i_par E i).
Lemma goods_ext h h' pop : ext h h' -> goods h pop -> goods h' pop.
Proof.
  intros [_ X] G a Ha. destruct (G a Ha) as (i & Hi & Gi). destruct (X a i Hi) as (j & Hj & A).
  exists j. split; [exact Hj|eapply good_alike; eauto].
Qed.

Lemma copy_ok i j : good (i_par E i) -> ind_copy E i = Ok j -> j = i.
Proof. intros G H. unfold ind_copy in H. rewrite (good_cln _ G) in H. cbn in H. injection H as <-. destruct i; reflexivity. Qed.

Lemma at_ok {A} (l : list A) n a : at_ l n = Ok a <-> nth_error l n = Some a.
Proof. unfold at_. destruct (nth_error l n); split; intro H; congruence. Qed.

Lemma cross_loop_spec fuel : forall h pop total w h2 c1 c2 w', goods h pop ->
  cross_loop E fuel h pop total w = (Ok (h2, (c1, c2)), w') ->
  ext h h2 /\ length h2 = length h /\ sound c1 /\ sound c2 /\ i_has E c1 = false /\ i_has E c2 = false.
Proof.
  induction fuel as [|fuel IH]; intros h pop total w h2 c1 c2 w' G H; [discriminate|]. cbn [cross_loop] in H.
  apply wbind_ok in H as (n1 & w1 & _ & H). apply wbind_ok in H as (n2 & w2 & _ & H).
  apply wbind_ok in H as (a1 & w3 & Ha1 & H). apply wlift_ok in Ha1 as [Ha1 ->]. apply at_ok in Ha1.
  apply wbind_ok in H as (a2 & w4 & Ha2 & H). apply wlift_ok in Ha2 as [Ha2 ->]. apply at_ok in Ha2.
  apply wbind_ok in H as (p1 & w5 & Hp1 & H). apply wlift_ok in Hp1 as [Hp1 ->]. apply h_get_ok in Hp1.
  apply wbind_ok in H as (p2 & w6 & Hp2 & H). apply wlift_ok in Hp2 as [Hp2 ->]. apply h_get_ok in Hp2.
  apply wbind_ok in H as (d1 & w7 & Hd1 & H). apply wlift_ok in Hd1 as [Hd1 ->].
  apply wbind_ok in H as (d2 & w8 & Hd2 & H). apply wlift_ok in Hd2 as [Hd2 ->].
  cbv zeta in H. set (h3 := set_times E (fun t => t + 1) (set_times E (fun t => t + 1) h a1) a2) in *.
  assert (X : ext h h3 /\ length h3 = length h).
  { subst h3. destruct (ext_set_times (fun t => t + 1) h a1) as [X1 L1].
    destruct (ext_set_times (fun t => t + 1) (set_times E (fun t => t + 1) h a1) a2) as [X2 L2].
    split; [eapply ext_trans; eauto|lia]. }
  destruct X as [X L].
  apply wbind_ok in H as ([[e1 e2] ok] & w9 & Hc & H). cbn [snd fst] in H.
  apply nth_error_In in Ha1. apply nth_error_In in Ha2.
  destruct (G a1 Ha1) as (q1 & Hq1 & G1). rewrite Hp1 in Hq1. injection Hq1 as <-.
  destruct (G a2 Ha2) as (q2 & Hq2 & G2). rewrite Hp2 in Hq2. injection Hq2 as <-.
  apply copy_ok in Hd1; [|exact G1]. apply copy_ok in Hd2; [|exact G2]. subst d1 d2.
  destruct (crossover_spec E good good_dec dec_idem _ _ _ _ _ _ _ G1 G2 Hc) as [(S1 & S2 & S3) (T1 & T2 & T3)].
  destruct ok.
  - apply wret_ok in H as [H _]. injection H as -> -> ->. split; [exact X|]. split; [exact L|].
    assert (V : e_chk E (i_par E e1) = Ok true /\ e_chk E (i_par E e2) = Ok true).
    { unfold ind_crossover in Hc. apply wbind_ok in Hc as (ab & u1 & _ & Hc).
      apply wbind_ok in Hc as (k1 & u2 & _ & Hc). apply wbind_ok in Hc as (k2 & u3 & _ & Hc).
      apply wbind_ok in Hc as (ok1 & u4 & H4 & Hc). apply wlift_ok in H4 as [H4 ->].
      apply wbind_ok in Hc as (ok2 & u5 & H5 & Hc). apply wret_ok in Hc as [Hc _].
      assert (Eb : ok1 && ok2 = true) by congruence. apply andb_prop in Eb as [-> ->].
      apply wlift_ok in H5 as [H5 _]. injection Hc as -> ->. auto. }
    unfold sound. tauto.
  - destruct (IH h3 pop total w9 h2 c1 c2 w' (goods_ext _ _ _ X G) H) as (I1 & I2 & I3).
    split; [eapply ext_trans; eauto|]. split; [lia|exact I3].
Qed.

Lemma ext_get h h' a i : ext h h' -> nth_error h a = Some i -> exists j, nth_error h' a = Some j /\ alike i j.
Proof. intros [_ X]. apply X. Qed.
Lemma new_get (h : heap) i : nth_error (fst (h_new E h i)) (length h) = Some i.
Proof. unfold h_new. cbn. rewrite nth_error_app2, Nat.sub_diag by lia. reflexivity. Qed.
Lemma new_len (h : heap) i : length (fst (h_new E h i)) = S (length h).
Proof. unfold h_new. cbn. rewrite app_length. cbn. lia. Qed.

(** [pairs] starts with the given pair of new objects *)
Lemma next_pairs_spec elit pop total : forall m sorted ready h w h' np w', (length sorted <= m)%nat ->
  goods h pop -> (forall s, In s sorted -> In s pop) ->
  next_pairs E elit pop total sorted ready h w = (Ok (h', np), w') ->
  ext h h' /\ length np = length sorted /\ NoDup np /\ (forall a, In a np -> (length h <= a < length h')%nat) /\
  (forall n s, nth_error sorted n = Some s -> exists a j, nth_error np n = Some a /\ nth_error h' a = Some j /\
     (ready + Z.of_nat (n / 2) < elit -> exists i, nth_error h s = Some i /\ alike i j) /\
     (elit <= ready + Z.of_nat (n / 2) -> sound j /\ i_has E j = false)).
Proof.
  induction m as [|m IH]; intros sorted ready h w h' np w' Hm G Hs H.
  { destruct sorted; [|cbn in Hm; lia]. cbn in H. injection H as <- <- <-. split; [apply ext_refl|].
    split; [reflexivity|]. split; [constructor|]. split; [intros a []|]. intros [|n]; discriminate. }
  destruct sorted as [|sa [|sb r]].
  { cbn in H. injection H as <- <- <-. split; [apply ext_refl|].
    split; [reflexivity|]. split; [constructor|]. split; [intros a []|]. intros [|n]; discriminate. }
  { discriminate. }
  cbn [next_pairs] in H.
  assert (Finish : forall h0 ca cb ready' w0, ext h h0 -> length h0 = length h -> goods h0 pop ->
     (ready' = ready \/ ready' = ready + 1) ->
     (ready < elit -> ready' = ready + 1 /\ (exists i, nth_error h sa = Some i /\ alike i ca) /\ (exists i, nth_error h sb = Some i /\ alike i cb)) ->
     (elit <= ready -> ready' = ready /\ (sound ca /\ i_has E ca = false) /\ (sound cb /\ i_has E cb = false)) ->
     (let* rest := next_pairs E elit pop total r ready' (fst (h_new E (fst (h_new E h0 ca)) cb)) in
        wret (fst rest, length h0 :: S (length h0) :: snd rest)) w0 = (Ok (h', np), w') ->
     ext h h' /\ length np = length (sa :: sb :: r) /\ NoDup np /\ (forall a, In a np -> (length h <= a < length h')%nat) /\
     (forall n s, nth_error (sa :: sb :: r) n = Some s -> exists a j, nth_error np n = Some a /\ nth_error h' a = Some j /\
       (ready + Z.of_nat (n / 2) < elit -> exists i, nth_error h s = Some i /\ alike i j) /\
       (elit <= ready + Z.of_nat (n / 2) -> sound j /\ i_has E j = false))).
  { intros h0 ca cb ready' w0 X0 L0 G0 Hr He Hc H0.
    apply wbind_ok in H0 as ([h2 np2] & w1 & H0 & H1). apply wret_ok in H1 as [H1 _]. cbn [fst snd] in H1. injection H1 as -> ->.
    set (h1 := fst (h_new E h0 ca)) in *. set (hh := fst (h_new E h1 cb)) in *.
    assert (X1 : ext h0 h1) by apply ext_new. assert (X2 : ext h1 hh) by apply ext_new.
    assert (L1 : length h1 = S (length h0)) by apply new_len. assert (L2 : length hh = S (S (length h0))) by (unfold hh; rewrite new_len; lia).
    assert (X02 : ext h0 hh) by (eapply ext_trans; eauto).
    destruct (IH r ready' hh w0 h2 np2 w1) as (I1 & I2 & I3 & I4 & I5); [cbn in Hm; lia|eapply goods_ext; eauto| |exact H0|].
    { intros s Hin. apply Hs. right; right; exact Hin. }
    assert (Hca : exists j, nth_error h2 (length h0) = Some j /\ alike ca j).
    { destruct (ext_get _ _ _ _ X2 (new_get h0 ca)) as (j & Hj & A). destruct (ext_get _ _ _ _ I1 Hj) as (k & Hk & B).
      exists k. split; [exact Hk|eapply alike_trans; eauto]. }
    assert (Hcb : exists j, nth_error h2 (S (length h0)) = Some j /\ alike cb j).
    { pose proof (new_get h1 cb) as Q. fold hh in Q. rewrite L1 in Q. apply (ext_get _ _ _ _ I1 Q). }
    destruct I1 as [I1L I1].
    split; [eapply ext_trans; [exact X0|]; eapply ext_trans; [exact X02|split; [exact I1L|exact I1]]|].
    split; [cbn; congruence|].
    split; [|split].
    - constructor; [intros [Q|Q]; [lia|apply I4 in Q; lia]|]. constructor; [intro Q; apply I4 in Q; lia|exact I3].
    - intros a [<-|[<-|Ha]]; [lia|lia|]. apply I4 in Ha. lia.
    - assert (Pair : forall s j c, (ready < elit -> exists i, nth_error h s = Some i /\ alike i c) ->
          (elit <= ready -> sound c /\ i_has E c = false) -> alike c j ->
          (ready + 0 < elit -> exists i, nth_error h s = Some i /\ alike i j) /\
          (elit <= ready + 0 -> sound j /\ i_has E j = false)).
      { intros s j c P1 P2 A. split.
        - intro Lt. destruct (P1 ltac:(lia)) as (i & Hi & B). exists i. split; [exact Hi|eapply alike_trans; eauto].
        - intro Ge. destruct (P2 ltac:(lia)) as [S Hh]. split; [eapply sound_alike; eauto|]. destruct A as (_ & _ & -> & _). exact Hh. }
      intros [|[|n]] s Hn; cbn [nth_error] in Hn |- *.
      + injection Hn as <-. destruct Hca as (j & Hj & A). exists (length h0), j. split; [reflexivity|]. split; [exact Hj|].
        cbn [Nat.div Nat.divmod fst]. apply (Pair sa j ca); auto; [intro L; apply He in L; tauto|intro L; apply Hc in L; tauto].
      + injection Hn as <-. destruct Hcb as (j & Hj & A). exists (S (length h0)), j. split; [reflexivity|]. split; [exact Hj|].
        change (1 / 2)%nat with 0%nat. apply (Pair sb j cb); auto; [intro L; apply He in L; tauto|intro L; apply Hc in L; tauto].
      + destruct (I5 n s Hn) as (a & j & Ha & Hj & E1 & E2). exists a, j. split; [exact Ha|]. split; [exact Hj|].
        assert (Ed : (S (S n) / 2 = S (n / 2))%nat).
        { replace (S (S n)) with (n + 1 * 2)%nat by lia. rewrite Nat.div_add by lia. lia. }
        rewrite Ed. split; intro L.
        * assert (Lr : ready < elit) by lia. destruct (He Lr) as (-> & _).
          destruct (E1 ltac:(lia)) as (i & Hi & A).
          (* the sorted individual is in the population, so it was there before the new objects *)
          assert (In s pop) by (apply Hs; right; right; eapply nth_error_In; eauto).
          destruct (G s H1) as (i0 & Hi0 & _). exists i0. split; [exact Hi0|].
          destruct (ext_get _ _ _ _ X0 Hi0) as (i1 & Hi1 & A1). destruct (ext_get _ _ _ _ X02 Hi1) as (i2 & Hi2 & A2).
          rewrite Hi in Hi2. injection Hi2 as <-. eapply alike_trans; [exact A1|]. eapply alike_trans; eauto.
        * destruct (Z.lt_ge_cases ready elit) as [Lr|Lr]; [destruct (He Lr) as (-> & _)|destruct (Hc Lr) as (-> & _)]; apply E2; lia. }
  destruct (Z.ltb_spec ready elit) as [Lr|Lr].
  - apply wbind_ok in H as (ia & w1 & Hia & H). apply wlift_ok in Hia as [Hia ->]. apply h_get_ok in Hia.
    apply wbind_ok in H as (ca & w2 & Hca & H). apply wlift_ok in Hca as [Hca ->].
    destruct (h_new E h ca) as [h1 x] eqn:N1. apply wbind_ok in H as (ib & w3 & Hib & H). apply wlift_ok in Hib as [Hib ->]. apply h_get_ok in Hib.
    apply wbind_ok in H as (cb & w4 & Hcb & H). apply wlift_ok in Hcb as [Hcb ->].
    destruct (h_new E h1 cb) as [h2 y] eqn:N2.
    assert (Ga : good (i_par E ia)).
    { destruct (G sa (Hs sa ltac:(left; reflexivity))) as (i & Hi & Gi). congruence. }
    destruct (G sb (Hs sb ltac:(right; left; reflexivity))) as (ib0 & Hib0 & Gb).
    assert (ib = ib0).
    { assert (Q : nth_error h1 sb = Some ib0).
      { unfold h_new in N1. injection N1 as <- <-. rewrite nth_error_app1; [exact Hib0|]. apply nth_error_Some; congruence. }
      congruence. }
    subst ib0. apply copy_ok in Hca; [|exact Ga]. apply copy_ok in Hcb; [|exact Gb]. subst ca cb.
    unfold h_new in N1, N2. injection N1 as <- <-. injection N2 as <- <-.
    eapply (Finish h ia ib (ready + 1)); [apply ext_refl|reflexivity|exact G|auto| | |].
    + intros _. split; [reflexivity|]. split; [exists ia|exists ib]; (split; [assumption|apply alike_refl]).
    + lia.
    + unfold h_new. cbn [fst]. rewrite app_length in H. cbn [length] in H. rewrite Nat.add_1_r in H. exact H.
  - apply wbind_ok in H as ([h0 [ca cb]] & w1 & Hc & H). cbn [fst snd] in H.
    destruct (cross_loop_spec _ _ _ _ _ _ _ _ _ G Hc) as (X0 & L0 & S1 & S2 & S3 & S4).
    destruct (h_new E h0 ca) as [h1 x] eqn:N1. destruct (h_new E h1 cb) as [h2 y] eqn:N2.
    unfold h_new in N1, N2. injection N1 as <- <-. injection N2 as <- <-.
    eapply (Finish h0 ca cb ready); [exact X0|exact L0|eapply goods_ext; eauto|auto|lia| |].
    + intros _. auto.
    + unfold h_new. cbn [fst]. rewrite app_length in H. cbn [length] in H. rewrite Nat.add_1_r in H. exact H.
Qed.

Lemma mutate_all_spec : forall pop h w h' w', mutate_all E h pop w = (Ok h', w') -> NoDup pop -> goods h pop ->
  length h' = length h /\ (forall a, ~ In a pop -> nth_error h' a = nth_error h a) /\
  (forall a, In a pop -> exists j, nth_error h' a = Some j /\ sound j /\ i_has E j = false).
Proof.
  induction pop as [|a pop IH]; intros h w h' w' H Hn G; cbn [mutate_all] in H.
  - apply wret_ok in H as [-> _]. split; [reflexivity|]. split; [reflexivity|]. intros a [].
  - inversion Hn as [|? ? Ha Hn']; subst. apply wbind_ok in H as (i & w1 & Hi & H). apply wlift_ok in Hi as [Hi ->]. apply h_get_ok in Hi.
    apply wbind_ok in H as ([j n] & w2 & Hj & H). cbn [fst] in H.
    destruct (G a ltac:(left; reflexivity)) as (i0 & Hi0 & Gi). rewrite Hi in Hi0. injection Hi0 as <-.
    destruct (mutate_loop_spec E good good_dec dec_idem _ _ _ _ _ _ _ Gi Hj) as (Gj & Sj & Hh & Vj).
    assert (La : (a < length h)%nat) by (apply nth_error_Some; congruence).
    assert (G2 : goods (h_set E h a j) pop).
    { intros b Hb. unfold h_set. rewrite upd_other by (intros ->; contradiction). apply G. right; exact Hb. }
    destruct (IH _ _ _ _ H Hn' G2) as (I1 & I2 & I3). unfold h_set in *. rewrite upd_length in I1.
    split; [exact I1|]. split; [intros b Hb; rewrite I2 by (cbn in Hb; tauto); apply upd_other; intros ->; apply Hb; left; reflexivity|].
    intros b [<-|Hb]; [|apply I3; exact Hb]. rewrite I2 by exact Ha. exists j. split; [apply upd_same; exact La|]. split; [|exact Hh].
    unfold sound. auto.
Qed.

(** std::sort with GreaterFitness, specified on NaN-free input *)
Hypothesis sort_perm : forall l, Forall (fun x => is_num (fst x) = true) l -> Permutation (e_sort E l) l.

Lemma generate_spec elit h pop w h' np w' fits :
  generate_next E elit h pop w = (Ok (h', np), w') -> goods h pop ->
  mapM (fit_of E h) pop = Ok fits -> Forall (fun v => is_num v = true) fits ->
  let sorted := map snd (e_sort E (combine fits pop)) in
  Permutation sorted pop /\
  ext h h' /\ length np = length pop /\ NoDup np /\ (forall a, In a np -> (length h <= a < length h')%nat) /\ goods h' np /\
  (forall n s, nth_error sorted n = Some s -> exists a j, nth_error np n = Some a /\ nth_error h' a = Some j /\
     (Z.of_nat (n / 2) < elit -> exists i, nth_error h s = Some i /\ alike i j) /\
     (elit <= Z.of_nat (n / 2) -> sound j /\ i_has E j = false)).
Proof.
  intros H G Hfits Hnum sorted. unfold generate_next in H.
  apply wbind_ok in H as (fits' & w1 & Hf & H). apply wlift_ok in Hf as [Hf ->]. rewrite Hfits in Hf. injection Hf as <-.
  pose proof (mapM_ok_length _ _ _ Hfits) as Lf.
  assert (Pm : Permutation sorted pop).
  { unfold sorted. rewrite sort_perm.
    - assert (Q : map snd (combine fits pop) = pop); [|rewrite Q; reflexivity].
      clear -Lf. revert pop Lf. induction fits as [|v fits IH]; intros [|a pop] L; try discriminate; [reflexivity|].
      cbn. f_equal. apply IH. cbn in L. lia.
    - apply Forall_forall. intros [v a] Hin. apply in_combine_l in Hin. rewrite Forall_forall in Hnum. apply Hnum. exact Hin. }
  split; [exact Pm|].
  destruct (ext_set_times_all (fun _ => 0) pop h) as [X1 L1]. set (h1 := fold_left (set_times E (fun _ => 0)) pop h) in *.
  assert (G1 : goods h1 pop) by (eapply goods_ext; eauto).
  assert (Hsub : forall s, In s sorted -> In s pop) by (intros s Hs; eapply Permutation_in; eauto).
  destruct (next_pairs_spec elit pop _ (length sorted) sorted 0 h1 w h' np w' (le_n _) G1 Hsub H) as (I1 & I2 & I3 & I4 & I5).
  split; [eapply ext_trans; eauto|].
  split; [rewrite I2; apply Permutation_length; exact Pm|]. split; [exact I3|].
  split; [intros a Ha; apply I4 in Ha; lia|].
  assert (Each : forall n s, nth_error sorted n = Some s -> exists a j, nth_error np n = Some a /\ nth_error h' a = Some j /\
     (Z.of_nat (n / 2) < elit -> exists i, nth_error h s = Some i /\ alike i j) /\
     (elit <= Z.of_nat (n / 2) -> sound j /\ i_has E j = false)).
  { intros n s Hn. destruct (I5 n s Hn) as (a & j & Ha & Hj & E1 & E2). exists a, j. split; [exact Ha|]. split; [exact Hj|].
    split; [|exact E2]. intro L. destruct (E1 L) as (i & Hi & A).
    assert (In s pop) by (apply Hsub; eapply nth_error_In; eauto). destruct (G s H0) as (i0 & Hi0 & _). exists i0. split; [exact Hi0|].
    destruct (ext_get _ _ _ _ X1 Hi0) as (i1 & Hi1 & A1). rewrite Hi in Hi1. injection Hi1 as <-. eapply alike_trans; eauto. }
  split; [|exact Each].
  intros a Ha. apply In_nth_error in Ha as [n Hn]. assert (Ln : (n < length sorted)%nat) by (rewrite <- I2; apply nth_error_Some; congruence).
  destruct (nth_error sorted n) as [s|] eqn:Hs; [|apply nth_error_None in Hs; lia].
  destruct (Each n s Hs) as (a' & j & Ha' & Hj & E1 & E2). rewrite Hn in Ha'. injection Ha' as <-. exists j. split; [exact Hj|].
  destruct (Z.lt_ge_cases (Z.of_nat (n / 2)) elit) as [L|L].
  - destruct (E1 L) as (i & Hi & A). apply (good_alike i j A). destruct (G s) as (i0 & Hi0 & Gi); [apply Hsub; eapply nth_error_In; eauto|]. congruence.
  - destruct (E2 L) as [[Gj _] _]. exact Gj.
Qed.

(** ** best individual *)

Definition fitness_lt (i j : indiv) : Prop := d_ltb (i_fit E i) (i_fit E j) = true.
(** [b] is the first individual of greatest fitness of [past] (up to the statistics counter) *)
Definition first_max (past : list indiv) (b : indiv) : Prop :=
  exists pre m post, past = pre ++ m :: post /\ alike m b /\ i_has E b = true /\
    Forall (fun x => fitness_lt x b) pre /\ Forall (fun x => ~ fitness_lt b x) post.

Lemma fit_of_ok h a v : fit_of E h a = Ok v <-> exists i, nth_error h a = Some i /\ i_has E i = true /\ v = i_fit E i.
Proof.
  unfold fit_of. split.
  - intro H. apply bind_ok in H as (i & Hi & H). apply h_get_ok in Hi. unfold get_fitness in H. exists i.
    destruct (i_has E i); [|discriminate]. injection H as <-. auto.
  - intros (i & Hi & Hh & ->). assert (Q : h_get E h a = Ok i) by (apply h_get_ok; exact Hi). rewrite Q. cbn. unfold get_fitness. rewrite Hh. reflexivity.
Qed.

(** values of a list of addresses *)
Definition vals (h : heap) (l : list nat) (is : list indiv) : Prop := mapM (h_get E h) l = Ok is.

Lemma first_max_extend past i b x : is_num (i_fit E b) = true -> is_num (i_fit E x) = true ->
  first_max past b -> i_has E x = true ->
  i = (if d_ltb (i_fit E b) (i_fit E x) then x else b) ->
  Forall (fun y => is_num (i_fit E y) = true) past -> first_max (past ++ [x]) i.
Proof.
  intros Nb Nx (pre & m & post & -> & A & Hb & F1 & F2) Hx -> Np.
  destruct (d_ltb (i_fit E b) (i_fit E x)) eqn:L.
  - exists (pre ++ m :: post), x, []. split; [reflexivity|]. split; [apply alike_refl|]. split; [exact Hx|]. split; [|constructor].
    apply Forall_app. split; [|constructor].
    + eapply Forall_impl; [|exact F1]. intros y Hy. unfold fitness_lt in *. eapply d_ltb_trans; eauto.
    + unfold fitness_lt. destruct A as (_ & _ & _ & <-). exact L.
    + apply Forall_app in Np as [_ Np]. inversion Np as [|? ? _ Np']; subst.
      rewrite Forall_forall in F2, Np' |- *. intros y Hy. specialize (F2 y Hy). specialize (Np' y Hy). unfold fitness_lt in *.
      unfold is_num in *. apply negb_true_iff in Nb, Nx, Np'.
      rewrite d_ltb_nkey in L, F2 |- * by assumption. apply Z.ltb_lt in L. apply Z.ltb_lt. rewrite Z.ltb_lt in F2. lia.
  - exists pre, m, (post ++ [x]). split; [rewrite <- app_assoc; reflexivity|]. split; [exact A|]. split; [exact Hb|]. split; [exact F1|].
    apply Forall_app. split; [exact F2|]. constructor; [|constructor]. unfold fitness_lt. congruence.
Qed.

Lemma best_of_spec h : forall rest cur past b best is, nth_error h cur = Some b -> first_max past b ->
  vals h rest is -> Forall (fun y => is_num (i_fit E y) = true) past -> is_num (i_fit E b) = true ->
  Forall (fun y => is_num (i_fit E y) = true) is ->
  best_of E h cur rest = Ok best ->
  exists b', nth_error h best = Some b' /\ first_max (past ++ is) b' /\ is_num (i_fit E b') = true /\ (best = cur \/ In best rest).
Proof.
  induction rest as [|a rest IH]; intros cur past b best is Hb F V Np Nb Ni H; cbn [best_of] in H.
  - injection H as <-. unfold vals in V. cbn in V. injection V as <-. rewrite app_nil_r. exists b. auto.
  - unfold vals in V. cbn [mapM] in V. apply bind_ok in V as (i & Hi & V). apply h_get_ok in Hi. apply bind_ok in V as (is' & V & Hv). injection Hv as <-.
    inversion Ni as [|? ? Ni1 Ni2]; subst.
    apply bind_ok in H as (fc & Hfc & H). apply bind_ok in H as (fa & Hfa & H).
    apply fit_of_ok in Hfc as (b0 & Hb0 & Hh & ->). rewrite Hb in Hb0. injection Hb0 as <-.
    apply fit_of_ok in Hfa as (i0 & Hi0 & Hhi & ->). rewrite Hi in Hi0. injection Hi0 as <-.
    pose proof (first_max_extend past _ b i Nb Ni1 F Hhi eq_refl Np) as F'.
    assert (Np' : Forall (fun y => is_num (i_fit E y) = true) (past ++ [i])) by (apply Forall_app; auto).
    destruct (IH (if d_ltb (i_fit E b) (i_fit E i) then a else cur) (past ++ [i])
      (if d_ltb (i_fit E b) (i_fit E i) then i else b) best is') as (b' & Hb' & Fb & Nb' & Hor).
    + destruct (d_ltb (i_fit E b) (i_fit E i)); assumption.
    + exact F'.
    + exact V.
    + exact Np'.
    + destruct (d_ltb (i_fit E b) (i_fit E i)); assumption.
    + exact Ni2.
    + exact H.
    + exists b'. split; [exact Hb'|]. rewrite <- app_assoc in Fb. split; [exact Fb|]. split; [exact Nb'|].
      destruct (d_ltb (i_fit E b) (i_fit E i)); destruct Hor as [->|Hor]; [right; left; reflexivity|right; right; exact Hor|left; reflexivity|right; right; exact Hor].
Qed.

Lemma first_max_app past is b b' : first_max past b -> first_max is b' -> is_num (i_fit E b) = true -> is_num (i_fit E b') = true ->
  Forall (fun y => is_num (i_fit E y) = true) past -> Forall (fun y => is_num (i_fit E y) = true) is ->
  first_max (past ++ is) (if d_ltb (i_fit E b) (i_fit E b') then b' else b).
Proof.
  intros (pre & m & post & -> & A & Hb & F1 & F2) (pre' & m' & post' & -> & A' & Hb' & F1' & F2') Nb Nb' Np Ni.
  assert (Mid : is_num (i_fit E m) = true) by (destruct A as (_ & _ & _ & <-); exact Nb).
  unfold is_num in Nb, Nb'. apply negb_true_iff in Nb, Nb'.
  destruct (d_ltb (i_fit E b) (i_fit E b')) eqn:L.
  - exists ((pre ++ m :: post) ++ pre'), m', post'. split; [apply app_assoc|]. split; [exact A'|]. split; [exact Hb'|].
    split; [|exact F2']. apply Forall_app. split; [|exact F1']. rewrite Forall_forall. intros y Hy.
    assert (Ny : BinarySingleNaN.is_nan (i_fit E y) = false) by (rewrite Forall_forall in Np; apply negb_true_iff; apply Np; exact Hy).
    rewrite d_ltb_nkey in L by assumption. apply Z.ltb_lt in L.
    unfold fitness_lt. rewrite d_ltb_nkey by assumption. apply Z.ltb_lt.
    apply in_app_or in Hy as [Hy|[<-|Hy]].
    + rewrite Forall_forall in F1. specialize (F1 y Hy). unfold fitness_lt in F1. rewrite d_ltb_nkey in F1 by assumption. apply Z.ltb_lt in F1. lia.
    + destruct A as (_ & _ & _ & A). rewrite <- A. lia.
    + rewrite Forall_forall in F2. specialize (F2 y Hy). unfold fitness_lt in F2. rewrite d_ltb_nkey, Z.ltb_lt in F2 by assumption. lia.
  - exists pre, m, (post ++ pre' ++ m' :: post'). split; [rewrite <- app_assoc; reflexivity|]. split; [exact A|]. split; [exact Hb|]. split; [exact F1|].
    apply Forall_app. split; [exact F2|]. rewrite Forall_forall. intros y Hy.
    assert (Ny : BinarySingleNaN.is_nan (i_fit E y) = false) by (rewrite Forall_forall in Ni; apply negb_true_iff; apply Ni; exact Hy).
    rewrite d_ltb_nkey in L by assumption. apply Z.ltb_ge in L.
    unfold fitness_lt. rewrite d_ltb_nkey, Z.ltb_lt by assumption.
    apply in_app_or in Hy as [Hy|[<-|Hy]].
    + rewrite Forall_forall in F1'. specialize (F1' y Hy). unfold fitness_lt in F1'. rewrite d_ltb_nkey in F1' by assumption. apply Z.ltb_lt in F1'. lia.
    + destruct A' as (_ & _ & _ & A'). rewrite <- A'. lia.
    + rewrite Forall_forall in F2'. specialize (F2' y Hy). unfold fitness_lt in F2'. rewrite d_ltb_nkey, Z.ltb_lt in F2' by assumption. lia.
Qed.

(** [best_inv past b]: nothing evaluated yet, or b is the first best so far *)
Definition best_inv (past : list indiv) (b : indiv) : Prop :=
  (past = [] /\ i_has E b = false) \/ (first_max past b /\ is_num (i_fit E b) = true).

Lemma update_best_spec h pop best0 b0 past is best : nth_error h best0 = Some b0 -> best_inv past b0 ->
  vals h pop is -> Forall (fun i => i_has E i = true) is ->
  Forall (fun y => is_num (i_fit E y) = true) past -> Forall (fun y => is_num (i_fit E y) = true) is ->
  update_best E h pop best0 = Ok best ->
  exists b, nth_error h best = Some b /\ first_max (past ++ is) b /\ is_num (i_fit E b) = true /\ (best = best0 \/ In best pop).
Proof.
  intros Hb0 B V Hh Np Ni H. unfold update_best in H. destruct pop as [|a r]; [discriminate|].
  unfold vals in V. cbn [mapM] in V. apply bind_ok in V as (i & Hi & V). apply h_get_ok in Hi. apply bind_ok in V as (is' & V & Hv). injection Hv as <-.
  inversion Hh as [|? ? Hhi _]; subst. inversion Ni as [|? ? Ni1 Ni2]; subst.
  apply bind_ok in H as (cur & Hcur & H).
  assert (F0 : first_max [i] i).
  { exists [], i, []. split; [reflexivity|]. split; [apply alike_refl|]. split; [exact Hhi|]. split; constructor. }
  destruct (best_of_spec h r a [i] i cur is' Hi F0 V ltac:(constructor; [exact Ni1|constructor]) Ni1 Ni2 Hcur) as (c & Hc & Fc & Nc & Hor).
  change ([i] ++ is') with (i :: is') in Fc.
  apply bind_ok in H as (b & Hb & H). apply h_get_ok in Hb. rewrite Hb0 in Hb. injection Hb as <-.
  assert (Hin : In cur (a :: r)) by (destruct Hor as [->|]; [left; reflexivity|right; assumption]).
  destruct B as [[-> Hno]|[F Nb]].
  - rewrite Hno in H. cbn in H. injection H as <-. exists c. cbn [app]. auto.
  - destruct F as (pre & m & post & Ep & A & Hb & F1 & F2).
    assert (F : first_max past b0) by (exists pre, m, post; auto).
    rewrite Hb in H. cbn in H. apply bind_ok in H as (fb & Hfb & H). unfold get_fitness in Hfb. rewrite Hb in Hfb. injection Hfb as <-.
    apply bind_ok in H as (fc & Hfc & H). apply fit_of_ok in Hfc as (c' & Hc' & _ & ->). rewrite Hc in Hc'. injection Hc' as <-.
    injection H as <-. pose proof (first_max_app past (i :: is') b0 c F Fc Nb Nc Np Ni) as G.
    destruct (d_ltb (i_fit E b0) (i_fit E c)); [exists c|exists b0]; auto.
Qed.

(** ** the whole run *)

(** [Q]: what is known of the individuals of the first population; [P]: what is known of evaluated chromosomes *)
Variable Q : indiv -> Prop.
Variable P : Z -> dbl -> Prop.
Hypothesis Q_sound : forall i, sound i -> Q i.
Hypothesis Q_fit : forall i v, Q i -> Q (with_fit E i v).
Hypothesis P_eval : forall i v, good (i_par E i) -> Q i -> f (i_par E i) = Ok v -> P (hash (i_chr E i)) v.

Definition numeric (l : list indiv) : Prop := Forall (fun i => is_num (i_fit E i) = true) l.
Definition evaluated (snaps : list (snap E)) : list indiv := concat (map (sn_pop E) snaps).

Record inv (n : nat) (past : list indiv) (s : gstate E) : Prop := MkInv {
  v_len : length (g_pop E s) = n;
  v_nodup : NoDup (g_pop E s);
  v_pop : forall a, In a (g_pop E s) -> exists i, nth_error (g_heap E s) a = Some i /\ good (i_par E i) /\ Q i;
  v_best : ~ In (g_best E s) (g_pop E s);
  v_inv : exists b, nth_error (g_heap E s) (g_best E s) = Some b /\ best_inv past b;
  v_num : numeric past;
  v_cache : cinv P (g_counter E s) }.

Lemma vals_pop h l : (forall a, In a l -> exists i : indiv, nth_error h a = Some i) -> exists is, vals h l is.
Proof.
  induction l as [|a l IH]; intro H; [exists []; reflexivity|].
  destruct (H a ltac:(left; reflexivity)) as (i & Hi). destruct IH as (is & His); [intros b Hb; apply H; right; exact Hb|].
  exists (i :: is). unfold vals. cbn [mapM]. assert (X : h_get E h a = Ok i) by (apply h_get_ok; exact Hi). rewrite X. cbn [bind].
  unfold vals in His. rewrite His. reflexivity.
Qed.
Lemma vals_fits h l is : vals h l is -> Forall (fun i => i_has E i = true) is -> mapM (fit_of E h) l = Ok (map (i_fit E) is).
Proof.
  revert is. induction l as [|a l IH]; intros is V F; unfold vals in V; cbn [mapM] in V |- *; [injection V as <-; reflexivity|].
  apply bind_ok in V as (i & Hi & V). apply bind_ok in V as (is' & V & X). injection X as <-. inversion F as [|? ? F1 F2]; subst.
  assert (Hf : fit_of E h a = Ok (i_fit E i)) by (apply fit_of_ok; apply h_get_ok in Hi; eauto).
  rewrite Hf. cbn [bind]. rewrite (IH is' V F2). reflexivity.
Qed.

Lemma run_spec cfg : forall left n s past w s' snaps w' N, (0 < N)%nat ->
  run_generations E hash f cfg left n s w = (Ok (s', snaps), w') -> inv N past s -> numeric (evaluated snaps) ->
  (length snaps <= left)%nat /\ (left <> O -> snaps <> []) /\
  (forall k sn, nth_error snaps k = Some sn ->
     length (sn_pop E sn) = N /\
     Forall (fun i => i_has E i = true /\ good (i_par E i) /\ Q i /\ P (hash (i_chr E i)) (i_fit E i) /\
        (k_cache (g_counter E s) = None -> f (i_par E i) = Ok (i_fit E i))) (sn_pop E sn) /\
     (k <> O -> Forall sound (sn_pop E sn)) /\
     first_max (past ++ evaluated (firstn (S k) snaps)) (sn_best E sn) /\
     ((S k < length snaps)%nat -> d_leb (cf_stop cfg) (i_fit E (sn_best E sn)) = false) /\
     (S k = length snaps -> (length snaps < left)%nat -> d_leb (cf_stop cfg) (i_fit E (sn_best E sn)) = true) /\
     (S k = length snaps -> exists b, nth_error (g_heap E s') (g_best E s') = Some b /\ alike (sn_best E sn) b)) /\
  cinv P (g_counter E s').
Proof.
  induction left as [|left IH]; intros n s past w s' snaps w' N HN H I Hnum; cbn [run_generations] in H.
  { apply wret_ok in H as [H _]. injection H as -> ->. split; [cbn; lia|]. split; [congruence|]. split; [intros [|k]; discriminate|]. apply I. }
  destruct I as [Il In_ Ip Ib [b0 [Hb0 Bi]] Inum Ic].
  apply wbind_ok in H as ([h1 k1] & w1 & Ho & H). apply wlift_ok in Ho as [Ho ->].
  apply wbind_ok in H as (best & w2 & Hb & H). apply wlift_ok in Hb as [Hb ->].
  apply wbind_ok in H as (is & w3 & His & H). apply wlift_ok in His as [His ->].
  apply wbind_ok in H as (b & w4 & Hbb & H). apply wlift_ok in Hbb as [Hbb ->]. apply h_get_ok in Hbb.
  apply wbind_ok in H as (fb & w5 & Hfb & H). apply wlift_ok in Hfb as [Hfb ->].
  assert (Pev : forall a i v, In a (g_pop E s) -> nth_error (g_heap E s) a = Some i -> f (i_par E i) = Ok v -> P (hash (i_chr E i)) v).
  { intros a i v Ha Hi Hf. destruct (Ip a Ha) as (i0 & Hi0 & G0 & Q0). rewrite Hi in Hi0. injection Hi0 as <-. eapply P_eval; eauto. }
  destruct (obtain_spec E hash f P _ _ _ _ _ Ho In_ Ic Pev) as (O1 & O2 & O3 & O4 & O5).
  (* the population after evaluation *)
  assert (Hall : Forall (fun i => i_has E i = true /\ good (i_par E i) /\ Q i /\ P (hash (i_chr E i)) (i_fit E i) /\
        (k_cache (g_counter E s) = None -> f (i_par E i) = Ok (i_fit E i))) is).
  { apply Forall_forall. intros j Hj. apply (mapM_in_r _ _ _ _ His) in Hj as (a & Ha & Hj). apply h_get_ok in Hj.
    destruct (O4 a Ha) as (i & v & X1 & X2 & X3 & X4 & X5). rewrite X2 in Hj. injection Hj as <-.
    destruct (Ip a Ha) as (i0 & Hi0 & G0 & Q0). rewrite X1 in Hi0. injection Hi0 as <-. cbn. auto 6. }
  assert (Hsound : (forall a, In a (g_pop E s) -> exists i, nth_error (g_heap E s) a = Some i /\ sound i) -> Forall sound is).
  { intro Hs. apply Forall_forall. intros j Hj. apply (mapM_in_r _ _ _ _ His) in Hj as (a & Ha & Hj). apply h_get_ok in Hj.
    destruct (O4 a Ha) as (i & v & X1 & X2 & _). rewrite X2 in Hj. injection Hj as <-.
    destruct (Hs a Ha) as (i0 & Hi0 & S0). rewrite X1 in Hi0. injection Hi0 as <-. exact S0. }
  clear Hsound.
  assert (Lis : length is = N) by (rewrite (mapM_ok_length _ _ _ His); exact Il).
  assert (Hb1 : nth_error h1 (g_best E s) = Some b0) by (rewrite O3 by exact Ib; exact Hb0).
  assert (Nis : numeric is).
  { assert (Sn : exists r, snaps = MkSnap E is b :: r).
    { destruct (d_leb (cf_stop cfg) fb); [apply wret_ok in H as [H _]; injection H as -> ->; eauto|].
      apply wbind_ok in H as (y & w6 & _ & H). apply wbind_ok in H as (u & w7 & _ & H). apply wbind_ok in H as (h3 & w8 & _ & H).
      apply wbind_ok in H as (z & w9 & _ & H). apply wret_ok in H as [H _]. injection H as -> ->. eauto. }
    destruct Sn as (r & ->). unfold evaluated in Hnum. cbn in Hnum. apply Forall_app in Hnum as [Hnum _]. exact Hnum. }
  assert (Hhas : Forall (fun i => i_has E i = true) is) by (eapply Forall_impl; [|exact Hall]; cbn; tauto).
  destruct (update_best_spec h1 _ _ b0 past is best Hb1 Bi His Hhas Inum Nis Hb) as (b1 & Hb2 & F & Nb & Hor).
  rewrite Hbb in Hb2. injection Hb2 as <-.
  assert (Efb : fb = i_fit E b).
  { destruct F as (pre & m & post & _ & A & Hh & _). unfold get_fitness in Hfb. rewrite Hh in Hfb. injection Hfb as <-. reflexivity. }
  subst fb.
  destruct (d_leb (cf_stop cfg) (i_fit E b)) eqn:Stop.
  - apply wret_ok in H as [H _]. injection H as -> ->. split; [cbn; lia|]. split; [discriminate|]. split; [|exact O1].
    intros [|[|k]] sn Hsn; cbn in Hsn; try discriminate. injection Hsn as <-. cbn [sn_pop sn_best].
    split; [exact Lis|]. split; [exact Hall|]. split; [congruence|].
    unfold evaluated. cbn [firstn map concat sn_pop]. rewrite app_nil_r. split; [exact F|]. cbn [length].
    split; [lia|]. split; [auto|]. intros _. exists b. split; [exact Hbb|apply alike_refl].
  - apply wbind_ok in H as ([h2 np] & w6 & Hg & H). apply wbind_ok in H as (u & w7 & Hctx & H).
    apply wbind_ok in H as (h3 & w8 & Hm & H). cbn [fst snd] in Hm, H.
    apply wbind_ok in H as ([s2 snaps2] & w9 & Hz & H). apply wret_ok in H as [H _]. cbn [fst snd] in H. injection H as -> ->.
    assert (G1 : goods h1 (g_pop E s)).
    { intros a Ha. destruct (O4 a Ha) as (i & v & X1 & X2 & _). destruct (Ip a Ha) as (i0 & Hi0 & G0 & _). rewrite X1 in Hi0. injection Hi0 as <-.
      exists (with_fit E i v). split; [exact X2|exact G0]. }
    assert (Hfits : mapM (fit_of E h1) (g_pop E s) = Ok (map (i_fit E) is)) by (apply vals_fits; [exact His|exact Hhas]).
    assert (Nf : Forall (fun v => is_num v = true) (map (i_fit E) is)).
    { apply Forall_forall. intros v Hv. apply in_map_iff in Hv as (i & <- & Hi). unfold numeric in Nis. rewrite Forall_forall in Nis. apply Nis, Hi. }
    destruct (generate_spec _ _ _ _ _ _ _ _ Hg G1 Hfits Nf) as (Pm & X & Ln & Nn & Fresh & Gn & _).
    destruct (mutate_all_spec _ _ _ _ _ Hm Nn Gn) as (M1 & M2 & M3).
    assert (Lb : (best < length h1)%nat) by (apply nth_error_Some; congruence).
    assert (Fb : ~ In best np) by (intro HZ; apply Fresh in HZ; lia).
    destruct (ext_get _ _ _ _ X Hbb) as (b2 & Hb2 & A2).
    assert (Hb3 : nth_error h3 best = Some b2) by (rewrite M2 by exact Fb; exact Hb2).
    assert (F2 : first_max (past ++ is) b2).
    { destruct F as (pre & m & post & Ep & A & Hh & F1 & F2). exists pre, m, post. split; [exact Ep|]. split; [eapply alike_trans; eauto|].
      destruct A2 as (_ & _ & A2h & A2f). split; [congruence|]. unfold fitness_lt in *. rewrite A2f. auto. }
    assert (Inv2 : inv N (past ++ is) (MkG E h3 np best (MkCounter (k_cache k1) 0 (k_counts k1)))).
    { constructor; cbn [g_pop g_heap g_best g_counter].
      - rewrite Ln. exact Il.
      - exact Nn.
      - intros a Ha. destruct (M3 a Ha) as (j & Hj & Sj & _). exists j. split; [exact Hj|]. split; [apply Sj|apply Q_sound; exact Sj].
      - exact Fb.
      - exists b2. split; [exact Hb3|]. right. split; [exact F2|]. destruct A2 as (_ & _ & _ & ->). exact Nb.
      - apply Forall_app. split; [exact Inum|exact Nis].
      - exact O1. }
    assert (Nev2 : numeric (evaluated snaps2)).
    { unfold numeric, evaluated in *. cbn [map concat sn_pop] in Hnum. apply Forall_app in Hnum as [_ Hnum]. exact Hnum. }
    destruct (IH _ _ _ _ _ _ _ N HN Hz Inv2 Nev2) as (J1 & J2 & J3 & J4).
    assert (Snd2 : forall sn, nth_error snaps2 0 = Some sn -> Forall sound (sn_pop E sn)).
    { clear -Hz M3 P_eval Q_sound Inv2 J3. intros sn Hsn. destruct left as [|left]; cbn [run_generations] in Hz.
      { apply wret_ok in Hz as [Hz _]. injection Hz as _ ->. discriminate. }
      cbn [g_heap g_pop g_best g_counter] in Hz.
      apply wbind_ok in Hz as ([h4 k4] & u1 & Ho & Hz). apply wlift_ok in Ho as [Ho ->].
      apply wbind_ok in Hz as (best4 & u2 & _ & Hz). apply wbind_ok in Hz as (is4 & u3 & His & Hz). apply wlift_ok in His as [His ->].
      apply wbind_ok in Hz as (b4 & u4 & _ & Hz). apply wbind_ok in Hz as (fb4 & u5 & _ & Hz).
      assert (Esn : sn_pop E sn = is4).
      { destruct (d_leb (cf_stop cfg) fb4).
        - apply wret_ok in Hz as [Hz _]. injection Hz as _ ->. cbn in Hsn. injection Hsn as <-. reflexivity.
        - apply wbind_ok in Hz as (y & u6 & _ & Hz). apply wbind_ok in Hz as (u & u7 & _ & Hz). apply wbind_ok in Hz as (h5 & u8 & _ & Hz).
          apply wbind_ok in Hz as (z & u9 & _ & Hz). apply wret_ok in Hz as [Hz _]. injection Hz as _ ->. cbn in Hsn. injection Hsn as <-. reflexivity. }
      rewrite Esn.
      destruct (obtain_spec E hash f (fun _ _ => True) _ _ _ _ _ Ho ltac:(apply Inv2)) as (_ & _ & _ & O4 & _).
      { destruct Inv2 as [_ _ _ _ _ _ C]. unfold cinv in *. cbn in *. destruct (k_cache k1); [|exact I]. destruct C as [C _]. split; [exact C|auto]. }
      { auto. }
      apply Forall_forall. intros j Hj. apply (mapM_in_r _ _ _ _ His) in Hj as (a & Ha & Hj). apply h_get_ok in Hj.
      destruct (O4 a Ha) as (i & v & X1 & X2 & _). rewrite X2 in Hj. injection Hj as <-.
      destruct (M3 a Ha) as (i0 & Hi0 & S0 & _). rewrite X1 in Hi0. injection Hi0 as <-. exact S0. }
    assert (Kn : k_cache (g_counter E s) = None -> k_cache k1 = None) by (intro HZ; apply O5; exact HZ).
    split; [cbn; lia|]. split; [discriminate|]. split; [|exact J4].
    intros [|k] sn Hsn; cbn [nth_error] in Hsn.
    + injection Hsn as <-. cbn [sn_pop sn_best].
      split; [exact Lis|]. split; [exact Hall|]. split; [congruence|].
      unfold evaluated. cbn [firstn map concat sn_pop]. rewrite app_nil_r. split; [exact F|]. cbn [length].
      split; [auto|]. split.
      * intros E0 L0. destruct left as [|left]; [lia|]. exfalso. destruct snaps2; [apply J2; [discriminate|reflexivity]|discriminate].
      * intro E0. destruct snaps2; [|discriminate].
        destruct left as [|left]; [|exfalso; apply J2; [discriminate|reflexivity]].
        cbn [run_generations] in Hz. apply wret_ok in Hz as [Hz _]. injection Hz as ->. cbn [g_heap g_best]. exists b2. auto.
    + destruct (J3 k sn Hsn) as (K1 & K2 & K3 & K4 & K5 & K6 & K7).
      split; [exact K1|]. split.
      { eapply Forall_impl; [|exact K2]. cbn. intros i (Z1 & Z2 & Z3 & Z4 & Z5). repeat (split; [assumption|]). auto. }
      split; [intros _; destruct k as [|k]; [apply Snd2; exact Hsn|apply K3; discriminate]|].
      split.
      { change (firstn (S (S k)) (MkSnap E is b :: snaps2)) with (MkSnap E is b :: firstn (S k) snaps2).
        unfold evaluated in *. cbn [map concat sn_pop]. rewrite app_assoc. exact K4. }
      cbn [length]. split; [intro HZ; apply K5; lia|]. split; [intros Z1 Z2; apply K6; lia|]. intro HZ. apply K7. lia.
Qed.

End GAP.
