(** The state in which GeneticAlgorithm::Optimize enters its main loop, and the laws the library's parameter
    implementations satisfy. *)
From Coq Require Import Permutation.
From Flocq Require Import IEEE754.BinarySingleNaN.
From Verif Require Import Base Num DblOrder Random Params ParamsSpec CompositeProofs Mutators Cache CacheProofs Individual LibEnv GA CounterProofs
  PropIndividual PropText GAProofs.
Local Open Scope Z_scope.
Local Open Scope list_scope.

(** What the genetic algorithm needs from an implementation of IDiscreteParameters, for the objects in [good]:
    decoding keeps objects good, a clone is equal, decoding a chromosome twice is decoding it once, decoding overwrites
    what was decoded before; and std::sort permutes (NaN-free) and orders by decreasing fitness. *)
Record lawful (E : env) (good : e_par E -> Prop) : Prop := MkLawful {
  lw_dec : forall p c q, good p -> e_dec E p c = (q, Ok tt) -> good q;
  lw_cln : forall p, good p -> e_cln E p = Ok p;
  lw_idem : forall p c q, good p -> e_dec E p c = (q, Ok tt) -> e_dec E q c = (q, Ok tt);
  lw_over : forall p c q, good p -> e_dec E p c = (q, Ok tt) ->
    forall c' r, e_dec E q c' = (r, Ok tt) <-> e_dec E p c' = (r, Ok tt);
  lw_sort : forall l, Forall (fun x => is_num (fst x) = true) l ->
    Permutation (e_sort E l) l /\
    forall n x y, nth_error (e_sort E l) n = Some x -> nth_error (e_sort E l) (S n) = Some y -> d_ltb (fst x) (fst y) = false }.

Section Init.
Variable E : env.
Notation indiv := (indiv E).
Notation heap := (heap E).
Variable good : e_par E -> Prop.
Hypothesis L : lawful E good.

Lemma ind_new_spec p i : good p -> ind_new E p = Ok i -> i_par E i = p /\ i_has E i = false.
Proof.
  intros G H. unfold ind_new in H. rewrite (lw_cln _ _ L _ G) in H. cbn [bind] in H.
  apply bind_ok in H as (n & _ & H). apply bind_ok in H as (c & _ & H). injection H as <-. auto.
Qed.

(** [q] satisfies its constraints and its chromosome stands for it: encoding it into a new chromosome, as Individual::Initialize does, and
    decoding gives it back. *)
Definition survives (q : e_par E) : Prop :=
  e_chk E q = Ok true /\ forall n c, e_size E q = Ok n -> e_enc E q (repeat false n) = Ok c -> e_dec E q c = (q, Ok tt).
Lemma ind_new_sound p i : good p -> ind_new E p = Ok i -> survives p -> sound E good i.
Proof.
  intros G H [S1 S2]. unfold ind_new in H. rewrite (lw_cln _ _ L _ G) in H. cbn [bind] in H.
  apply bind_ok in H as (n & Hn & H). apply bind_ok in H as (c & Hc & H). injection H as <-.
  split; [exact G|]. split; [exact (S2 n c Hn Hc)|exact S1].
Qed.

(** the population of a fresh Initialize *)
Definition fresh_pop (Q : indiv -> Prop) (h h' : heap) (pop : list nat) : Prop :=
  (length h <= length h')%nat /\ NoDup pop /\
  (forall a, In a pop -> (length h <= a < length h')%nat /\ exists i, nth_error h' a = Some i /\ good (i_par E i) /\ Q i) /\
  (forall a, (a < length h)%nat -> nth_error h' a = nth_error h a).

Lemma fresh_cons (Q : indiv -> Prop) h i h' pop : good (i_par E i) -> Q i ->
  fresh_pop Q (h ++ [i]) h' pop -> fresh_pop Q h h' (length h :: pop).
Proof.
  intros G Hq (F1 & F2 & F3 & F4). rewrite app_length in *. cbn [length] in *.
  split; [lia|]. split; [constructor; [|exact F2]; intro X; apply F3 in X as [X _]; lia|]. split.
  - intros a [<-|Ha].
    + split; [lia|]. exists i. split; [rewrite F4 by lia; rewrite nth_error_app2, Nat.sub_diag by lia; reflexivity|]. auto.
    + destruct (F3 a Ha) as [X Y]. split; [lia|exact Y].
  - intros a Ha. rewrite F4 by lia. apply nth_error_app1. exact Ha.
Qed.
Lemma fresh_nil (Q : indiv -> Prop) h : fresh_pop Q h h [].
Proof. split; [lia|]. split; [constructor|]. split; [intros a []|]. auto. Qed.

Lemma init_random_spec p : good p -> forall n h w h' pop w', init_random E n p h w = (Ok (h', pop), w') ->
  length pop = n /\ fresh_pop (sound E good) h h' pop.
Proof.
  intro G. induction n as [|n IH]; intros h w h' pop w' H; cbn [init_random] in H.
  - apply wret_ok in H as [H _]. injection H as -> ->. split; [reflexivity|apply fresh_nil].
  - apply wbind_ok in H as (i & w1 & Hi & H). apply wlift_ok in Hi as [Hi ->].
    apply wbind_ok in H as ([j k] & w2 & Hj & H). cbn [fst h_new] in H.
    destruct (ind_new_spec p i G Hi) as [Pi _].
    assert (Gi : good (i_par E i)) by (rewrite Pi; exact G).
    destruct (random_loop_spec E good (lw_dec _ _ L) (lw_idem _ _ L) _ _ _ _ _ _ _ Gi Hj) as (Gj & Sj & Hh & Vj).
    apply wbind_ok in H as ([h2 pop2] & w3 & Hr & H). apply wret_ok in H as [H _]. cbn [fst snd] in H. injection H as -> ->.
    destruct (IH _ _ _ _ _ Hr) as [Ln F]. split; [cbn; congruence|]. apply (fresh_cons _ h j); [exact Gj| |exact F].
    unfold sound. auto.
Qed.

Lemma init_given_spec : forall ps h w h' pop w', Forall good ps -> init_given E ps h w = (Ok (h', pop), w') ->
  length pop = length ps /\ fresh_pop (fun i => i_has E i = false /\ (Forall survives ps -> sound E good i)) h h' pop.
Proof.
  induction ps as [|p ps IH]; intros h w h' pop w' G H; cbn [init_given] in H.
  - apply wret_ok in H as [H _]. injection H as -> ->. split; [reflexivity|apply fresh_nil].
  - inversion G as [|? ? Gp Gps]; subst. apply wbind_ok in H as (i & w1 & Hi & H). apply wlift_ok in Hi as [Hi ->].
    destruct (ind_new_spec p i Gp Hi) as [Pi Hh]. cbn [h_new] in H.
    apply wbind_ok in H as ([h2 pop2] & w3 & Hr & H). apply wret_ok in H as [H _]. cbn [fst snd] in H. injection H as -> ->.
    destruct (IH _ _ _ _ _ Gps Hr) as [Ln (F1 & F2 & F3 & F4)]. split; [cbn; congruence|]. apply (fresh_cons _ h i); [rewrite Pi; exact Gp| |].
    + split; [exact Hh|]. intro Sv. inversion Sv; subst. eapply ind_new_sound; eauto.
    + split; [exact F1|]. split; [exact F2|]. split; [|exact F4]. intros a Ha. destruct (F3 a Ha) as (X & j & Y1 & Y2 & Y3 & Y4). split; [exact X|]. exists j. split; [exact Y1|]. split; [exact Y2|].
      split; [exact Y3|]. intro Sv. inversion Sv; subst. auto.
Qed.

(** the population read from a file *)
Lemma read_ind_sound parse i t j t' : good (i_par E i) -> read_ind E parse i t = (Ok j, t') -> e_chk E (i_par E j) = Ok true -> sound E good j.
Proof.
  intros G H V. unfold read_ind in H.
  destruct (next_word t) as [x1 t1]. destruct (next_word t1) as [cw t2]. destruct (next_word t2) as [x2 t3].
  destruct (parse t3) as [fv t4]. destruct (negb _); [discriminate|].
  destruct (parse_bits cw) as [c|e|u]; cbn [bind] in H; try discriminate.
  unfold set_fitness in H. destruct (d_ltb fv (d_ofZ 0)); cbn [bind] in H; [discriminate|].
  cbn [i_par i_chr] in H. destruct (e_dec E (i_par E i) c) as [q [[]|e|u]] eqn:D; cbn in H; try discriminate.
  injection H as <- _. split; [eapply (lw_dec _ _ L); eauto|]. split; [|exact V]. unfold in_step. cbn. eapply (lw_idem _ _ L); eauto.
Qed.
Lemma read_individuals_sound parse pop : forall t ks t', Forall (fun i => good (i_par E i)) pop ->
  read_individuals E parse pop t = (Ok ks, t') -> length ks = length pop /\ Forall (sound E good) ks.
Proof.
  induction pop as [|i pop IH]; intros t ks t' G H; cbn in H; [injection H as <- <-; auto|].
  inversion G as [|? ? Gi Gp]; subst.
  destruct (read_ind E parse i t) as [[j|e|u] t1] eqn:R1; try discriminate.
  destruct (e_chk E (i_par E j)) as [[]|e|u] eqn:K; try discriminate.
  destruct (read_individuals E parse pop t1) as [o t2] eqn:R. destruct o as [js|e|u]; cbn in H; try discriminate.
  injection H as <- <-. destruct (IH _ _ _ Gp R) as [Ln F]. split; [cbn; congruence|constructor; [|assumption]].
  eapply read_ind_sound; eauto.
Qed.

Lemma store_all_spec : forall pop js h, NoDup pop -> length js = length pop -> (forall a, In a pop -> (a < length h)%nat) ->
  length (store_all E h pop js) = length h /\ (forall a, ~ In a pop -> nth_error (store_all E h pop js) a = nth_error h a) /\
  (forall n a j, nth_error pop n = Some a -> nth_error js n = Some j -> nth_error (store_all E h pop js) a = Some j).
Proof.
  induction pop as [|a pop IH]; intros [|j js] h Hn Hl Hb; try discriminate; cbn [store_all].
  - split; [reflexivity|]. split; [auto|]. intros [|n]; discriminate.
  - inversion Hn as [|? ? Ha Hn']; subst. unfold h_set.
    destruct (IH js (upd h a j) Hn' ltac:(cbn in Hl; lia)) as (I1 & I2 & I3).
    { intros b Hb'. rewrite upd_length. apply Hb. right; exact Hb'. }
    rewrite upd_length in I1. split; [exact I1|]. split.
    + intros b Hb'. rewrite I2 by (cbn in Hb'; tauto). apply upd_other. intros ->. apply Hb'. left; reflexivity.
    + intros [|n] b k Hb' Hk; cbn in Hb', Hk; [|eapply I3; eauto].
      injection Hb' as <-. injection Hk as <-. rewrite I2 by exact Ha. apply upd_same. apply Hb. left; reflexivity.
Qed.

Lemma load_file_spec parse h pop file h' : NoDup pop -> (forall a, In a pop -> exists i, nth_error h a = Some i /\ good (i_par E i)) ->
  load_file E parse h pop file = Ok h' ->
  length h' = length h /\ (forall a, ~ In a pop -> nth_error h' a = nth_error h a) /\
  (forall a, In a pop -> exists j, nth_error h' a = Some j /\ sound E good j).
Proof.
  intros Hn G H. unfold load_file in H. apply bind_ok in H as (is & His & H). apply bind_ok in H as (js & Hjs & H). injection H as <-.
  assert (Gis : Forall (fun i => good (i_par E i)) is).
  { apply Forall_forall. intros i Hi. apply (mapM_in_r _ _ _ _ His) in Hi as (a & Ha & Hi). apply h_get_ok in Hi.
    destruct (G a Ha) as (i0 & Hi0 & Gi). congruence. }
  assert (R : length js = length is /\ Forall (sound E good) js).
  { unfold read_population in Hjs.
    destruct (next_word file) as [a t1]. destruct (next_count t1) as [pw t2]. destruct (next_word t2) as [b t3]. destruct (next_count t3) as [cw t4].
    apply bind_ok in Hjs as (first & _ & H). destruct (negb _); [discriminate|].
    destruct (read_individuals E parse is t4) as [o t'] eqn:R. cbn in H. subst o. eapply read_individuals_sound; eauto. }
  destruct R as [Lj Fj]. pose proof (mapM_ok_length _ _ _ His) as Li.
  assert (Hb : forall a, In a pop -> (a < length h)%nat).
  { intros a Ha. destruct (G a Ha) as (i & Hi & _). apply nth_error_Some. congruence. }
  destruct (store_all_spec pop js h Hn ltac:(lia) Hb) as (S1 & S2 & S3).
  split; [exact S1|]. split; [exact S2|]. intros a Ha. apply In_nth_error in Ha as [n Ha].
  assert (Ln : (n < length js)%nat) by (rewrite Lj, Li; apply nth_error_Some; congruence).
  destruct (nth_error js n) as [j|] eqn:Hj; [|apply nth_error_None in Hj; lia].
  exists j. split; [eapply S3; eauto|]. rewrite Forall_forall in Fj. apply Fj. eapply nth_error_In; eauto.
Qed.

Variable hash : list bool -> Z.
Variable f : e_par E -> outcome dbl.
Variable same_type : e_par E -> e_par E -> bool.
Variable same_meta : e_par E -> e_par E -> outcome bool.

(** Everything about the state in which the main loop starts. [strict] holds when the first population was made
    randomly, read from a file or given by parameters that survive, so that its individuals are in step with their chromosomes. *)
Lemma optimize_start cfg initial parse file k p w q snaps s w' (strict : Prop) (P : Z -> dbl -> Prop) :
  good p -> (forall ps, initial = Some ps -> Forall good ps) ->
  ga_optimize E hash f same_type same_meta cfg initial parse file k p true w = (Ok (q, snaps, s), w') ->
  (strict -> (forall ps, initial = Some ps -> Forall survives ps) \/ file <> None) -> cinv P k ->
  exists s0 w0 w1, inv E good (fun i => strict -> sound E good i) P (cf_pop cfg) [] s0 /\
    g_counter E s0 = k /\
    run_generations E hash f cfg (Z.to_nat (cf_gens cfg)) 0 s0 w0 = (Ok (s, snaps), w1) /\
    exists b, nth_error (g_heap E s) (g_best E s) = Some b /\ e_dec E p (i_chr E b) = (q, Ok tt).
Proof.
  intros G Gi H Hs Hk. unfold ga_optimize in H. cbn [negb] in H.
  apply wbind_ok in H as ([[h pop] best] & w1 & H1 & H). cbv iota beta in H.
  apply wbind_ok in H as (h1 & w2 & H2 & H). apply wlift_ok in H2 as [H2 ->].
  apply wbind_ok in H as ([s1 snaps1] & w3 & H3 & H). cbn [fst snd] in H.
  apply wbind_ok in H as (b & w4 & H4 & H). apply wlift_ok in H4 as [H4 ->]. apply h_get_ok in H4.
  destruct (e_dec E p (i_chr E b)) as [q1 o] eqn:D.
  apply wbind_ok in H as ([] & w5 & H5 & H). apply wlift_ok in H5 as [-> ->]. apply wret_ok in H as [H _]. injection H as -> -> ->.
  unfold ga_initialize in H1. apply wbind_ok in H1 as ([h0 pop0] & w6 & H6 & H1).
  apply wbind_ok in H1 as (bi & w7 & H7 & H1). apply wlift_ok in H7 as [H7 ->]. cbn [h_new fst snd] in H1.
  apply wret_ok in H1 as [H1 ->]. injection H1 as -> -> ->.
  destruct (ind_new_spec p bi G H7) as [Pb Hb].
  assert (F : length pop0 = cf_pop cfg /\ fresh_pop (fun i => (forall ps, initial = Some ps -> Forall survives ps) -> sound E good i) [] h0 pop0).
  { destruct initial as [ps|].
    - destruct (Nat.eqb_spec (length ps) (cf_pop cfg)) as [El|]; cbn [negb] in H6; [|discriminate].
      apply wbind_ok in H6 as (u & w8 & _ & H6). destruct (init_given_spec _ _ _ _ _ _ (Gi ps eq_refl) H6) as [L1 (F1 & F2 & F3 & F4)].
      split; [congruence|]. split; [exact F1|]. split; [exact F2|]. split; [|exact F4].
      intros a Ha. destruct (F3 a Ha) as (X & i & Y1 & Y2 & _ & Y3). split; [exact X|]. exists i. split; [exact Y1|]. split; [exact Y2|]. intro Sv. apply Y3. exact (Sv ps eq_refl).
    - destruct (init_random_spec p G _ _ _ _ _ _ H6) as [L1 (F1 & F2 & F3 & F4)].
      split; [exact L1|]. split; [exact F1|]. split; [exact F2|]. split; [|exact F4].
      intros a Ha. destruct (F3 a Ha) as (X & i & Y1 & Y2 & Y3). split; [exact X|]. exists i. auto. }
  destruct F as [Lp (F1 & F2 & F3 & F4)].
  (* the heap with best_individ_ appended *)
  set (hh := h0 ++ [bi]) in *.
  assert (Gh : forall a, In a pop0 -> exists i, nth_error hh a = Some i /\ good (i_par E i) /\ ((forall ps, initial = Some ps -> Forall survives ps) -> sound E good i)).
  { intros a Ha. destruct (F3 a Ha) as (X & i & Y1 & Y2 & Y3). exists i. split; [|auto]. unfold hh. rewrite nth_error_app1 by lia. exact Y1. }
  assert (Nb : ~ In (length h0) pop0) by (intro X; apply F3 in X as [X _]; lia).
  assert (Hbest : nth_error hh (length h0) = Some bi) by (unfold hh; rewrite nth_error_app2, Nat.sub_diag by lia; reflexivity).
  eexists (MkG E h1 pop0 (length h0) k), _, _. split; [|split; [reflexivity|split; [exact H3|exists b; auto]]].
  assert (Hh1 : (forall a, In a pop0 -> exists i, nth_error h1 a = Some i /\ good (i_par E i) /\ (strict -> sound E good i)) /\
                nth_error h1 (length h0) = Some bi).
  { destruct file as [t|].
    - destruct (load_file_spec parse hh pop0 t h1 F2) as (X1 & X2 & X3); [|exact H2|].
      { intros a Ha. destruct (Gh a Ha) as (i & Y1 & Y2 & _). eauto. }
      split; [|rewrite X2 by exact Nb; exact Hbest].
      intros a Ha. destruct (X3 a Ha) as (j & Hj & Sj). exists j. split; [exact Hj|]. split; [apply Sj|auto].
    - injection H2 as <-. split; [|exact Hbest]. intros a Ha. destruct (Gh a Ha) as (i & Y1 & Y2 & Y3). exists i.
      split; [exact Y1|]. split; [exact Y2|]. intro S. apply Y3. destruct (Hs S) as [X|X]; [exact X|congruence]. }
  destruct Hh1 as [Hh1 Hh2].
  constructor; cbn [g_pop g_heap g_best g_counter]; auto.
  - exists bi. split; [exact Hh2|]. left. auto.
  - constructor.
Qed.

(** decoding a chromosome in any object obtained from [p] by decoding gives the same object *)
Definition akin (p x : e_par E) : Prop := forall c r, e_dec E x c = (r, Ok tt) <-> e_dec E p c = (r, Ok tt).
Lemma lawful_akin p : good p -> lawful E (fun x => good x /\ akin p x).
Proof.
  intro G. destruct L as [L1 L2 L3 L4 L5]. constructor.
  - intros x c y [Gx A] D. split; [eapply L1; eauto|]. intros c' r. rewrite (L4 x c y Gx D c' r). apply A.
  - intros x [Gx _]. apply L2. exact Gx.
  - intros x c y [Gx _]. apply L3. exact Gx.
  - intros x c y [Gx _]. apply L4. exact Gx.
  - exact L5.
Qed.
End Init.

(** ** the library *)

Lemma ip_dec_over p c q : ip_set_from p c = (q, Ok tt) -> forall c' r, ip_set_from q c' = (r, Ok tt) <-> ip_set_from p c' = (r, Ok tt).
Proof.
  unfold ip_set_from. destruct (cs_check (ip_size p) (length c)) eqn:E; try discriminate.
  destruct (let! r := int_from_bits c 0 0 in chk_int (r + ip_min p)) as [v|e|u] eqn:D; try discriminate.
  intro H. injection H as <-. intros c' r. cbn [ip_set_value ip_size ip_min].
  destruct (cs_check (ip_size p) (length c')) eqn:E'; try (split; discriminate).
  destruct (let! r := int_from_bits c' 0 0 in chk_int (r + ip_min p)) as [v'|e|u]; try (split; discriminate). reflexivity.
Qed.

Section Over.
Context (N : Num).
Lemma dp_dec_over p c q : dp_set_from N p c = (q, Ok tt) -> forall c' r, dp_set_from N q c' = (r, Ok tt) <-> dp_set_from N p c' = (r, Ok tt).
Proof.
  unfold dp_set_from. destruct (dp_base N p) as [b|]; [|discriminate].
  destruct (ip_set_from b c) as [b' o] eqn:D. intro H. injection H as <- ->. intros c' r.
  pose proof (ip_dec_over _ _ _ D c') as O.
  cbn [dp_with_base dp_base]. destruct (ip_set_from b' c') as [x ox] eqn:D1. destruct (ip_set_from b c') as [y oy] eqn:D2.
  unfold dp_with_base. cbn. split; intro H; injection H as H ->.
  - specialize (O x). destruct O as [O _]. specialize (O eq_refl). injection O as <- <-. rewrite <- H. reflexivity.
  - specialize (O y). destruct O as [_ O]. specialize (O eq_refl). injection O as <- <-. rewrite <- H. reflexivity.
Qed.
Lemma da_dec_over a c q : da_set_from N a c = (q, Ok tt) -> forall c' r, da_set_from N q c' = (r, Ok tt) <-> da_set_from N a c' = (r, Ok tt).
Proof.
  unfold da_set_from.
  destruct (let! _ := cs_check (da_size N a) (length c) in
         let! k := cs_get (dp_size N (da_sample N a)) in
         da_decode_loop N (da_sample N a) k (length (da_values N a)) c) as [vs|e|u] eqn:D; try discriminate.
  intro H. injection H as <-. intros c' r. cbn [da_with_values da_size da_sample da_values].
  assert (Lv : length vs = length (da_values N a)).
  { apply bind_ok in D as (u1 & _ & D). apply bind_ok in D as (kk & _ & D).
    apply ArrayProofs.decode_loop_spec in D. destruct D as [D _]. exact D. }
  rewrite Lv.
  destruct (let! _ := cs_check (da_size N a) (length c') in
         let! k := cs_get (dp_size N (da_sample N a)) in
         da_decode_loop N (da_sample N a) k (length (da_values N a)) c') as [vs'|e|u]; try (split; discriminate). reflexivity.
Qed.

Definition overwrites (p q : param N) : Prop := forall c r, p_set_from N q c = (r, Ok tt) <-> p_set_from N p c = (r, Ok tt).
Lemma comp_dec_over ps : Forall (fun p => forall c q, p_set_from N p c = (q, Ok tt) -> overwrites p q) ps ->
  forall c ps', comp_decode N ps c = (ps', Ok tt) ->
  forall c' rs, comp_decode N ps' c' = (rs, Ok tt) <-> comp_decode N ps c' = (rs, Ok tt).
Proof.
  induction 1 as [|p ps Hp Hps IH]; intros c ps' H c' rs; cbn [comp_decode] in H; [injection H as <-; reflexivity|].
  destruct (p_size N p) as [k|e|u] eqn:K; try discriminate.
  destruct (k <=? length c)%nat eqn:L; [|discriminate].
  destruct (p_set_from N p (firstn k c)) as [p' [[]|e|u]] eqn:S; try discriminate.
  destruct (comp_decode N ps (skipn k c)) as [r' o] eqn:D. injection H as <- ->.
  pose proof (set_from_size N p (firstn k c) k K) as K'. rewrite S in K'. cbn [fst] in K'.
  cbn [comp_decode]. rewrite K', K. destruct (k <=? length c')%nat; [|split; discriminate].
  pose proof (Hp _ _ S (firstn k c')) as O.
  pose proof (IH _ _ D (skipn k c')) as O2.
  destruct (p_set_from N p' (firstn k c')) as [x ox] eqn:Ex. destruct (p_set_from N p (firstn k c')) as [y oy] eqn:Ey.
  destruct (comp_decode N r' (skipn k c')) as [xs oxs] eqn:Exs. destruct (comp_decode N ps (skipn k c')) as [ys oys] eqn:Eys.
  split; intro H.
  - destruct ox as [[]|e|u]; try discriminate. specialize (proj1 (O x) eq_refl); intro Q; injection Q as -> ->.
    injection H as <- ->. specialize (proj1 (O2 xs) eq_refl); intro Q; injection Q as -> ->. reflexivity.
  - destruct oy as [[]|e|u]; try discriminate. specialize (proj2 (O y) eq_refl); intro Q; injection Q as -> ->.
    injection H as <- ->. specialize (proj2 (O2 ys) eq_refl); intro Q; injection Q as -> ->. reflexivity.
Qed.
Lemma param_dec_over : forall p c q, p_set_from N p c = (q, Ok tt) -> overwrites p q.
Proof.
  induction p as [p|p|a|s i ps IH] using (param_nested_ind N); intros c q H c' r.
  - cbn in H |- *. destruct (ip_set_from p c) as [p' o] eqn:D. injection H as <- ->. cbn.
    pose proof (ip_dec_over _ _ _ D c') as O. destruct (ip_set_from p' c') as [x ox]. destruct (ip_set_from p c') as [y oy].
    split; intro H; injection H as <- ->; [specialize (proj1 (O x) eq_refl)|specialize (proj2 (O y) eq_refl)]; intro Q; injection Q as -> ->; reflexivity.
  - cbn in H |- *. destruct (dp_set_from N p c) as [p' o] eqn:D. injection H as <- ->. cbn.
    pose proof (dp_dec_over _ _ _ D c') as O. destruct (dp_set_from N p' c') as [x ox]. destruct (dp_set_from N p c') as [y oy].
    split; intro H; injection H as <- ->; [specialize (proj1 (O x) eq_refl)|specialize (proj2 (O y) eq_refl)]; intro Q; injection Q as -> ->; reflexivity.
  - cbn in H |- *. destruct (da_set_from N a c) as [p' o] eqn:D. injection H as <- ->. cbn.
    pose proof (da_dec_over _ _ _ D c') as O. destruct (da_set_from N p' c') as [x ox]. destruct (da_set_from N a c') as [y oy].
    split; intro H; injection H as <- ->; [specialize (proj1 (O x) eq_refl)|specialize (proj2 (O y) eq_refl)]; intro Q; injection Q as -> ->; reflexivity.
  - destruct i; [|discriminate]. rewrite set_from_comp in H.
    destruct (cs_check s (length c)) as [[]|e|u] eqn:K; try discriminate.
    destruct (comp_decode N ps c) as [ps' o] eqn:D. injection H as <- ->.
    rewrite !set_from_comp. destruct (cs_check s (length c')) as [u|e|u]; try (split; discriminate).
    pose proof (comp_dec_over ps IH _ _ D c') as O.
    destruct (comp_decode N ps' c') as [x ox]. destruct (comp_decode N ps c') as [y oy].
    split; intro H; injection H as <- ->; [specialize (proj1 (O x) eq_refl)|specialize (proj2 (O y) eq_refl)]; intro Q; injection Q as -> ->; reflexivity.
Qed.
End Over.

(** the insertion sort used as std::sort *)
Lemma insert_perm x l : Permutation (insert_desc x l) (x :: l).
Proof.
  induction l as [|y l IH]; cbn [insert_desc]; [reflexivity|].
  destruct (d_ltb (fst y) (fst x)); [reflexivity|]. rewrite IH. apply perm_swap.
Qed.
Lemma sort_desc_perm l : Permutation (sort_desc l) l.
Proof. induction l as [|x l IH]; cbn; [reflexivity|]. rewrite insert_perm. apply perm_skip. exact IH. Qed.
Definition descending (l : list (dbl * nat)) : Prop :=
  forall n x y, nth_error l n = Some x -> nth_error l (S n) = Some y -> d_ltb (fst x) (fst y) = false.
Lemma descending_tail x l : descending (x :: l) -> descending l.
Proof. intros H n a b Ha Hb. apply (H (S n)); assumption. Qed.
Lemma insert_head x l z r : insert_desc x l = z :: r -> z = x \/ exists r', l = z :: r'.
Proof. destruct l as [|y l]; cbn; [intro H; injection H as <- _; auto|]. destruct (d_ltb (fst y) (fst x)); intro H; injection H as <- _; eauto. Qed.
Lemma insert_descending x l : descending l -> descending (insert_desc x l).
Proof.
  induction l as [|y l IH]; intro D; cbn [insert_desc].
  { intros [|[|n]] a b Ha Hb; discriminate. }
  destruct (d_ltb (fst y) (fst x)) eqn:L.
  - intros [|n] a b Ha Hb; [|apply (D n); assumption]. cbn in Ha, Hb. injection Ha as <-. injection Hb as <-.
    destruct (d_ltb (fst x) (fst y)) eqn:Q; [|reflexivity]. pose proof (d_ltb_trans _ _ _ L Q) as T. rewrite d_ltb_irrefl in T. discriminate.
  - specialize (IH (descending_tail _ _ D)). intros [|n] a b Ha Hb; [|apply (IH n); assumption]. cbn in Ha, Hb. injection Ha as <-.
    destruct (insert_desc x l) as [|z r] eqn:I; [discriminate|]. injection Hb as <-.
    destruct (insert_head _ _ _ _ I) as [->|(r' & ->)]; [exact L|]. apply (D 0%nat); reflexivity.
Qed.
Lemma sort_desc_descending l : descending (sort_desc l).
Proof. induction l as [|x l IH]; [intros [|n] a b Ha; discriminate|]. cbn. apply insert_descending. exact IH. Qed.

(** The library's environment: any arithmetic, any gene mutator, any rand() stream. *)
Theorem lib_lawful : forall N RM M ctx fuel, lawful (lib_env N RM M ctx fuel) (wf_param N).
Proof.
  intros N RM M ctx fuel. constructor.
  - intros p c q G D. pose proof (wf_set_from N p G c) as W. cbn in D. rewrite D in W. exact W.
  - exact (clone_id N).
  - intros p c q _ D. exact (param_dec_idem N p c q D).
  - intros p c q _ D. exact (param_dec_over N p c q D).
  - intros l _. split; [apply sort_desc_perm|apply sort_desc_descending].
Qed.
