(** C20-C22: individuals. *)
From Coq Require Import Ascii String.
From Verif Require Import Base Num Random Params ParamsSpec IntProofs DoubleProofs ArrayProofs CompositeProofs Mutators Individual LibEnv PropRandom.
Local Open Scope Z_scope.
Local Open Scope list_scope.

Lemma wbind_ok {W X Y} (m : wm W X) (f : X -> wm W Y) w y w' :
  wbind m f w = (Ok y, w') <-> exists x w1, m w = (Ok x, w1) /\ f x w1 = (Ok y, w').
Proof.
  unfold wbind. destruct (m w) as [[x|e|u] w1]; split; intro H.
  - eauto.
  - destruct H as (x' & w2 & Hm & Hf). inversion Hm; subst; exact Hf.
  - discriminate.
  - destruct H as (x' & w2 & Hm & Hf). discriminate.
  - discriminate.
  - destruct H as (x' & w2 & Hm & Hf). discriminate.
Qed.
Lemma wlift_ok {W X} (o : outcome X) (w w' : W) x : wlift o w = (Ok x, w') <-> o = Ok x /\ w' = w.
Proof. unfold wlift. split; [intro H; inversion H; auto|intros [-> ->]; reflexivity]. Qed.
Lemma wret_ok {W X} (x y : X) (w w' : W) : wret x w = (Ok y, w') <-> y = x /\ w' = w.
Proof. unfold wret. split; [intro H; inversion H; auto|intros [-> ->]; reflexivity]. Qed.

(** ** C20 *)

Lemma cross_from_spec : forall a b q, length a = length b ->
  cross_from q a b = (firstn q a ++ skipn q b, firstn q b ++ skipn q a).
Proof.
  induction a as [|x a IH]; intros [|y b] q H; try discriminate; [destruct q; reflexivity|].
  cbn [cross_from]. destruct q as [|q].
  - rewrite IH by (simpl in H; lia). cbn. destruct x, y; reflexivity.
  - rewrite IH by (simpl in H; lia). reflexivity.
Qed.

(** the chromosomes after crossing at point q *)
Theorem C20_tails_exchanged : forall a b q, length a = length b ->
  let (a', b') := cross_from q a b in
  length a' = length a /\ length b' = length b /\
  (forall i, (i < q)%nat -> nth_error a' i = nth_error a i /\ nth_error b' i = nth_error b i) /\
  (forall i, (q <= i)%nat -> nth_error a' i = nth_error b i /\ nth_error b' i = nth_error a i) /\
  cross_from q a' b' = (a, b).
Proof.
  intros a b q H. pose proof (cross_from_spec a b q H) as E. destruct (cross_from q a b) as [a' b'] eqn:C.
  inversion E; subst; clear E.
  assert (L1 : length (firstn q a ++ skipn q b) = length a) by (rewrite app_length, firstn_length, skipn_length; lia).
  assert (L2 : length (firstn q b ++ skipn q a) = length b) by (rewrite app_length, firstn_length, skipn_length; lia).
  assert (Hlo : forall (l m : list bool) i, (i < q)%nat -> length l = length m -> nth_error (firstn q l ++ skipn q m) i = nth_error l i).
  { clear. intros l m i Hi Hl. rewrite <- (firstn_skipn q l) at 2.
    destruct (Nat.lt_ge_cases i (length (firstn q l))) as [D|D].
    - rewrite !nth_error_app1 by exact D. reflexivity.
    - assert (skipn q l = [] /\ skipn q m = []) as [-> ->].
      { rewrite firstn_length in D. split; apply skipn_all2; lia. } reflexivity. }
  assert (Hhi : forall (l m : list bool) i, (q <= i)%nat -> length l = length m -> nth_error (firstn q l ++ skipn q m) i = nth_error m i).
  { clear. intros l m i Hi Hl. rewrite <- (firstn_skipn q m) at 2.
    destruct (Nat.lt_ge_cases i (length l)) as [D|D].
    - rewrite !nth_error_app2 by (rewrite firstn_length; lia). rewrite !firstn_length. rewrite Hl. reflexivity.
    - assert (nth_error (firstn q l ++ skipn q m) i = None) as -> by
        (apply nth_error_None; rewrite app_length, firstn_length, skipn_length; lia).
      symmetry. apply nth_error_None. rewrite app_length, firstn_length, skipn_length. lia. }
  split; [exact L1|]. split; [exact L2|]. split; [intros i Hi; split; apply Hlo; auto|].
  split; [intros i Hi; split; apply Hhi; auto|].
  rewrite cross_from_spec by lia.
  assert (G : forall l m : list bool, length l = length m -> firstn q (firstn q l ++ skipn q m) = firstn q l /\ skipn q (firstn q l ++ skipn q m) = skipn q m).
  { clear. intros l m Hl. destruct (Nat.le_gt_cases q (length l)) as [D|D].
    - assert (Hq : length (firstn q l) = q) by (rewrite firstn_length; lia).
      split.
      + rewrite firstn_app, Hq, Nat.sub_diag, firstn_O, app_nil_r. rewrite firstn_firstn, Nat.min_id. reflexivity.
      + rewrite skipn_app, Hq, Nat.sub_diag. rewrite skipn_all2 by lia. reflexivity.
    - rewrite (skipn_all2 m) by lia. rewrite app_nil_r. rewrite firstn_firstn, Nat.min_id. split; [reflexivity|].
      rewrite skipn_all2; [reflexivity|]. rewrite firstn_length. lia. }
  destruct (G a b H) as [-> ->]. destruct (G b a ltac:(lia)) as [-> ->]. rewrite !firstn_skipn. reflexivity.
Qed.
Print Assumptions C20_tails_exchanged.

(** the whole operation, for every parameter implementation and every random source; [r] is the rand() result *)
Theorem C20_crossover : forall (E : env) i j w i' j' ok w',
  ind_crossover E i j w = (Ok (i', j', ok), w') ->
  let r := fst (e_rand E w) in let n := Z.of_nat (length (i_chr E i)) in
  (0 <= r) -> n <= INT_MAX ->
  exists q, q = r mod n /\ 0 <= q < n /\
    (i_chr E i', i_chr E j') = cross_from (Z.to_nat q) (i_chr E i) (i_chr E j) /\
    e_dec E (i_par E i) (i_chr E i') = (i_par E i', Ok tt) /\ e_dec E (i_par E j) (i_chr E j') = (i_par E j', Ok tt) /\
    i_has E i' = false /\ i_has E j' = false /\
    (ok = true <-> e_chk E (i_par E i') = Ok true /\ e_chk E (i_par E j') = Ok true).
Proof.
  intros E i j w i' j' ok w' H r n Hr Hn. unfold ind_crossover in H.
  apply wbind_ok in H as (ab & w1 & H1 & H). unfold bool_crossover in H1.
  destruct (Nat.eqb_spec (length (i_chr E i)) (length (i_chr E j))) as [El|]; cbn [negb] in H1; [|discriminate].
  fold n in H1. destruct (e_rand E w) as [r0 w0] eqn:Er. cbn [fst] in r. subst r.
  assert (Hab : 1 <= n /\ ab = cross_from (Z.to_nat (r0 mod n)) (i_chr E i) (i_chr E j)).
  { destruct (Z.eq_dec n 0) as [Z0|N0].
    - rewrite Z0 in H1. unfold discrete_of in H1. cbn in H1. discriminate.
    - destruct (C11_in_range r0 0 (n - 1)) as (v & Hv & Hvr & Ev); unfold INT_MIN, INT_MAX in *; try lia.
      rewrite Hv in H1. cbn [bind] in H1. inversion H1; subst. split; [lia|].
      f_equal. f_equal. replace (n - 1 - 0 + 1) with n in Ev by lia. lia. }
  destruct Hab as [Hn1 Hab].
  apply wbind_ok in H as (i1 & w2 & H2 & H). apply wlift_ok in H2 as [H2 ->].
  apply wbind_ok in H as (j1 & w3 & H3 & H). apply wlift_ok in H3 as [H3 ->].
  apply wbind_ok in H as (ok1 & w4 & H4 & H). apply wlift_ok in H4 as [H4 ->].
  apply wbind_ok in H as (ok2 & w5 & H5 & H). apply wret_ok in H as [H ->]. inversion H; subst i1 j1 ok; clear H.
  unfold ind_set in H2, H3.
  destruct (e_dec E (i_par E i) (fst ab)) as [q1 o1] eqn:D1. destruct o1 as [u|e|u]; cbn in H2; try discriminate. injection H2 as <-.
  destruct (e_dec E (i_par E j) (snd ab)) as [q2 o2] eqn:D2. destruct o2 as [u2|e|u2]; cbn in H3; try discriminate. injection H3 as <-.
  destruct u, u2. cbn [i_par i_chr i_has] in *.
  exists (r0 mod n). split; [reflexivity|]. split; [apply Z.mod_pos_bound; lia|].
  split; [rewrite <- Hab; destruct ab; reflexivity|]. do 4 (split; [assumption || reflexivity|]).
  destruct ok1.
  - apply wlift_ok in H5 as [H5 _]. rewrite H4, H5. cbn. split; [intros ->; auto|intros [_ X]; congruence].
  - apply wret_ok in H5 as [-> _]. rewrite H4. cbn. split; [discriminate|intros [X _]; congruence].
Qed.
Print Assumptions C20_crossover.

Theorem C20_bad_sizes : forall (E : env) i j w,
  (length (i_chr E i) <> length (i_chr E j) -> fst (ind_crossover E i j w) = Throw InvalidArgument) /\
  (i_chr E i = [] -> i_chr E j = [] -> fst (ind_crossover E i j w) = UB DivByZero).
Proof.
  intros E i j w. unfold ind_crossover, wbind, bool_crossover. split.
  - intro H. destruct (Nat.eqb_spec (length (i_chr E i)) (length (i_chr E j))); [contradiction|]. reflexivity.
  - intros -> ->. cbn. destruct (e_rand E w) as [r w']. reflexivity.
Qed.
Print Assumptions C20_bad_sizes.

(** ** C21 *)

Section Reach.
Variable E : env.
(** [fits p f]: f is the value the objective function gives to parameters p *)
Variable fits : e_par E -> dbl -> Prop.
(** the parameter objects individuals are created from *)
Variable good : e_par E -> Prop.

(** Individuals reachable by any sequence of successful operations. The boolean says whether the chromosome has been
    set since Initialize. set_fitness is called with the objective value; a text that is read carries it too. *)
Inductive reach : bool -> indiv E -> Prop :=
| R_new p i : good p -> ind_new E p = Ok i -> reach false i
| R_copy b i j : reach b i -> ind_copy E i = Ok j -> reach b j
| R_random b i w j n w' : reach b i -> set_random E i w = (Ok (j, n), w') -> reach true j
| R_mutate b i w j n w' : reach b i -> ind_mutate E i w = (Ok (j, n), w') -> reach true j
| R_cross1 b1 b2 i1 i2 w j1 j2 ok w' : reach b1 i1 -> reach b2 i2 -> ind_crossover E i1 i2 w = (Ok (j1, j2, ok), w') -> reach true j1
| R_cross2 b1 b2 i1 i2 w j1 j2 ok w' : reach b1 i1 -> reach b2 i2 -> ind_crossover E i1 i2 w = (Ok (j1, j2, ok), w') -> reach true j2
| R_fitness b i f j : reach b i -> fits (i_par E i) f -> set_fitness E i f = Ok j -> reach b j
| R_read b i parse t j t' : reach b i -> read_ind E parse i t = (Ok j, t') -> fits (i_par E j) (i_fit E j) -> reach true j.

(** laws of the parameter implementation: objects used are closed under decoding, cloning them gives an equal object,
    and decoding the same chromosome again changes nothing *)
Hypothesis good_dec : forall p c q, good p -> e_dec E p c = (q, Ok tt) -> good q.
Hypothesis good_cln : forall p, good p -> e_cln E p = Ok p.
Hypothesis dec_idem : forall p c q, good p -> e_dec E p c = (q, Ok tt) -> e_dec E q c = (q, Ok tt).

Definition in_step (i : indiv E) : Prop := e_dec E (i_par E i) (i_chr E i) = (i_par E i, Ok tt).

Lemma ind_set_spec i c j : ind_set E i c = Ok j -> i_chr E j = c /\ i_has E j = false /\ e_dec E (i_par E i) c = (i_par E j, Ok tt).
Proof.
  unfold ind_set. destruct (e_dec E (i_par E i) c) as [q [[]|e|u]]; cbn; intro H; try discriminate. injection H as <-. auto.
Qed.

Lemma random_loop_spec fuel : forall i w inv j n w', good (i_par E i) -> set_random_loop E fuel i inv w = (Ok (j, n), w') ->
  good (i_par E j) /\ in_step j /\ i_has E j = false /\ e_chk E (i_par E j) = Ok true.
Proof.
  induction fuel as [|fuel IH]; intros i w inv j n w' Hg H; [discriminate|]. cbn [set_random_loop] in H.
  apply wbind_ok in H as (c & w1 & _ & H). apply wbind_ok in H as (k & w2 & H2 & H). apply wlift_ok in H2 as [H2 ->].
  apply wbind_ok in H as (ok & w3 & H3 & H). apply wlift_ok in H3 as [H3 ->].
  apply ind_set_spec in H2 as (Hc & Hh & Hd). subst c.
  destruct ok.
  - apply wret_ok in H as [H _]. inversion H; subst. split; [eapply good_dec; eauto|]. split; [unfold in_step; eapply dec_idem; eauto|]. auto.
  - eapply IH; [|exact H]. eapply good_dec; eauto.
Qed.
Lemma mutate_loop_spec fuel : forall i w inv j n w', good (i_par E i) -> mutate_loop E fuel i inv w = (Ok (j, n), w') ->
  good (i_par E j) /\ in_step j /\ i_has E j = false /\ e_chk E (i_par E j) = Ok true.
Proof.
  induction fuel as [|fuel IH]; intros i w inv j n w' Hg H; [discriminate|]. cbn [mutate_loop] in H.
  apply wbind_ok in H as (c & w1 & _ & H). apply wbind_ok in H as (k & w2 & H2 & H). apply wlift_ok in H2 as [H2 ->].
  apply wbind_ok in H as (ok & w3 & H3 & H). apply wlift_ok in H3 as [H3 ->].
  apply ind_set_spec in H2 as (Hc & Hh & Hd). subst c.
  destruct ok.
  - apply wret_ok in H as [H _]. inversion H; subst. split; [eapply good_dec; eauto|]. split; [unfold in_step; eapply dec_idem; eauto|]. auto.
  - eapply IH; [|exact H]. eapply good_dec; eauto.
Qed.
Lemma crossover_spec i1 i2 w j1 j2 ok w' : good (i_par E i1) -> good (i_par E i2) ->
  ind_crossover E i1 i2 w = (Ok (j1, j2, ok), w') ->
  (good (i_par E j1) /\ in_step j1 /\ i_has E j1 = false) /\ (good (i_par E j2) /\ in_step j2 /\ i_has E j2 = false).
Proof.
  intros G1 G2 H. unfold ind_crossover in H.
  apply wbind_ok in H as (ab & w1 & _ & H).
  apply wbind_ok in H as (k1 & w2 & H2 & H). apply wlift_ok in H2 as [H2 ->].
  apply wbind_ok in H as (k2 & w3 & H3 & H). apply wlift_ok in H3 as [H3 ->].
  apply wbind_ok in H as (ok1 & w4 & H4 & H). apply wbind_ok in H as (ok2 & w5 & H5 & H).
  apply wret_ok in H as [H ->]. inversion H; subst; clear H.
  apply ind_set_spec in H2 as (Hc2 & Hh2 & Hd2). apply ind_set_spec in H3 as (Hc3 & Hh3 & Hd3).
  unfold in_step. rewrite Hc2, Hc3.
  split.
  - split; [exact (good_dec _ _ _ G1 Hd2)|]. split; [exact (dec_idem _ _ _ G1 Hd2)|assumption].
  - split; [exact (good_dec _ _ _ G2 Hd3)|]. split; [exact (dec_idem _ _ _ G2 Hd3)|assumption].
Qed.

Theorem C21_in_step : forall b i, reach b i ->
  good (i_par E i) /\
  (b = true -> in_step i) /\
  (b = false -> exists n, e_size E (i_par E i) = Ok n /\ e_enc E (i_par E i) (repeat false n) = Ok (i_chr E i)) /\
  (i_has E i = true -> fits (i_par E i) (i_fit E i)).
Proof.
  intros b i H. induction H as [p i Hp Hi|b i j Hr IH Hc|b i w j n w' Hr IH Ho|b i w j n w' Hr IH Ho
    |b1 b2 i1 i2 w j1 j2 ok w' H1 IH1 H2 IH2 Ho|b1 b2 i1 i2 w j1 j2 ok w' H1 IH1 H2 IH2 Ho
    |b i f j Hr IH Hf Hs|b i parse t j t' Hr IH Ho Hf].
  - unfold ind_new in Hi. rewrite (good_cln p Hp) in Hi. cbn [bind] in Hi.
    destruct (e_size E p) as [n|e|u] eqn:Es; cbn [bind] in Hi; try discriminate.
    destruct (e_enc E p (repeat false n)) as [c|e|u] eqn:Ec; cbn [bind] in Hi; try discriminate. injection Hi as <-.
    cbn. split; [exact Hp|]. split; [discriminate|]. split; [eauto|discriminate].
  - destruct IH as (G & I1 & I2 & I3). unfold ind_copy in Hc. rewrite (good_cln _ G) in Hc. cbn [bind] in Hc. injection Hc as <-.
    cbn. unfold in_step in *. cbn. auto.
  - destruct IH as (G & _). apply random_loop_spec in Ho; [|exact G]. destruct Ho as (G' & S & Hh & _).
    split; [exact G'|]. split; [auto|]. split; [discriminate|congruence].
  - destruct IH as (G & _). apply mutate_loop_spec in Ho; [|exact G]. destruct Ho as (G' & S & Hh & _).
    split; [exact G'|]. split; [auto|]. split; [discriminate|congruence].
  - destruct (crossover_spec _ _ _ _ _ _ _ (proj1 IH1) (proj1 IH2) Ho) as [(G' & S & Hh) _].
    split; [exact G'|]. split; [auto|]. split; [discriminate|congruence].
  - destruct (crossover_spec _ _ _ _ _ _ _ (proj1 IH1) (proj1 IH2) Ho) as [_ (G' & S & Hh)].
    split; [exact G'|]. split; [auto|]. split; [discriminate|congruence].
  - destruct IH as (G & I1 & I2 & I3). unfold set_fitness in Hs. destruct (d_ltb f (d_ofZ 0)); [discriminate|]. injection Hs as <-.
    cbn. unfold in_step in *. cbn. auto.
  - destruct IH as (G & _). unfold read_ind in Ho.
    destruct (next_word t) as [x1 t1]. destruct (next_word t1) as [cw t2]. destruct (next_word t2) as [x2 t3].
    destruct (parse t3) as [fv t4]. destruct (negb _); [discriminate|].
    destruct (parse_bits cw) as [c|e|u]; cbn [bind] in Ho; try discriminate.
    unfold set_fitness in Ho. destruct (d_ltb fv (d_ofZ 0)); cbn [bind] in Ho; [discriminate|].
    cbn [i_par i_chr] in Ho. destruct (e_dec E (i_par E i) c) as [q [[]|e|u]] eqn:D; cbn in Ho; try discriminate.
    inversion Ho; subst; clear Ho. cbn in *. split; [eapply good_dec; eauto|].
    split; [intros _; unfold in_step; cbn; eapply dec_idem; eauto|]. split; [discriminate|auto].
Qed.

(** SetRandomChromosome and Mutate end with parameters that satisfy the constraints, fitness dropped *)
Theorem C21_valid : forall b i w j n w', reach b i ->
  (set_random E i w = (Ok (j, n), w') \/ ind_mutate E i w = (Ok (j, n), w')) ->
  e_chk E (i_par E j) = Ok true /\ i_has E j = false /\ in_step j.
Proof.
  intros b i w j n w' Hr H. destruct (C21_in_step _ _ Hr) as (G & _). destruct H as [H|H].
  - apply random_loop_spec in H; tauto.
  - apply mutate_loop_spec in H; tauto.
Qed.
End Reach.
Print Assumptions C21_in_step.
Print Assumptions C21_valid.

(** the library's parameter objects satisfy the laws *)
Lemma ip_dec_idem p c q : ip_set_from p c = (q, Ok tt) -> ip_set_from q c = (q, Ok tt).
Proof.
  unfold ip_set_from. destruct (cs_check (ip_size p) (length c)) eqn:E; try discriminate.
  destruct (let! r := int_from_bits c 0 0 in chk_int (r + ip_min p)) as [v|e|u] eqn:D; try discriminate.
  intro H. injection H as <-. cbn [ip_set_value ip_size ip_min]. rewrite E, D. reflexivity.
Qed.

Section Idem.
Context (N : Num).
Lemma dp_dec_idem p c q : dp_set_from N p c = (q, Ok tt) -> dp_set_from N q c = (q, Ok tt).
Proof.
  unfold dp_set_from. destruct (dp_base N p) as [b|]; [|discriminate].
  destruct (ip_set_from b c) as [b' o] eqn:D. intro H. injection H as <- ->. apply ip_dec_idem in D.
  cbn [dp_with_base dp_base]. rewrite D. reflexivity.
Qed.
Lemma da_dec_idem a c q : da_set_from N a c = (q, Ok tt) -> da_set_from N q c = (q, Ok tt).
Proof.
  unfold da_set_from.
  destruct (let! _ := cs_check (da_size N a) (length c) in
         let! k := cs_get (dp_size N (da_sample N a)) in
         da_decode_loop N (da_sample N a) k (length (da_values N a)) c) as [vs|e|u] eqn:D; try discriminate.
  intro H. injection H as <-. cbn [da_with_values da_size da_sample da_values].
  assert (L : length vs = length (da_values N a)).
  { apply bind_ok in D as ([] & _ & D). apply bind_ok in D as (k & _ & D). apply decode_loop_spec in D as [D _]. exact D. }
  rewrite L, D. reflexivity.
Qed.
Lemma comp_dec_idem ps : Forall (fun p => forall c q, p_set_from N p c = (q, Ok tt) -> p_set_from N q c = (q, Ok tt)) ps ->
  forall c ps', comp_decode N ps c = (ps', Ok tt) -> comp_decode N ps' c = (ps', Ok tt).
Proof.
  induction 1 as [|p ps Hp Hps IH]; intros c ps' H; cbn [comp_decode] in H; [injection H as <-; reflexivity|].
  destruct (p_size N p) as [k|e|u] eqn:K; try discriminate.
  destruct (k <=? length c)%nat eqn:L; [|discriminate].
  destruct (p_set_from N p (firstn k c)) as [p' [[]|e|u]] eqn:S; try discriminate.
  destruct (comp_decode N ps (skipn k c)) as [r' o] eqn:D. injection H as <- ->.
  pose proof (set_from_size N p (firstn k c) k K) as K'. rewrite S in K'. cbn [fst] in K'.
  cbn [comp_decode]. rewrite K', L. apply Hp in S. rewrite S. apply IH in D. rewrite D. reflexivity.
Qed.
Lemma param_dec_idem : forall p c q, p_set_from N p c = (q, Ok tt) -> p_set_from N q c = (q, Ok tt).
Proof.
  induction p as [p|p|a|s i ps IH] using (param_nested_ind N); intros c q H.
  - cbn in H. destruct (ip_set_from p c) as [p' o] eqn:D. injection H as <- ->. apply ip_dec_idem in D. cbn. rewrite D. reflexivity.
  - cbn in H. destruct (dp_set_from N p c) as [p' o] eqn:D. injection H as <- ->. apply dp_dec_idem in D. cbn. rewrite D. reflexivity.
  - cbn in H. destruct (da_set_from N a c) as [p' o] eqn:D. injection H as <- ->. apply da_dec_idem in D. cbn. rewrite D. reflexivity.
  - destruct i; [|discriminate]. rewrite set_from_comp in H.
    destruct (cs_check s (length c)) as [[]|e|u] eqn:K; try discriminate.
    destruct (comp_decode N ps c) as [ps' o] eqn:D. injection H as <- ->.
    rewrite set_from_comp, K. rewrite (comp_dec_idem ps IH _ _ D). reflexivity.
Qed.
End Idem.

(** The instance for the library's own classes: every parameter object in the state in which constructors and calls
    leave it, in any arithmetic, any mutator, any rand() stream. *)
Theorem C21_library : forall (N : Num) RM M ctx fuel (fits : param N -> dbl -> Prop) b i,
  let E := lib_env N RM M ctx fuel in
  reach E fits (wf_param N) b i ->
  (b = true -> p_set_from N (i_par E i) (i_chr E i) = (i_par E i, Ok tt)) /\
  (b = false -> exists n, p_size N (i_par E i) = Ok n /\ p_set_chromosome N (i_par E i) (repeat false n) = Ok (i_chr E i)) /\
  (i_has E i = true -> fits (i_par E i) (i_fit E i)).
Proof.
  intros N RM M ctx fuel fits b i E H.
  destruct (C21_in_step E fits (wf_param N)
    ltac:(intros p c q G D; pose proof (wf_set_from N p G c) as W; cbn in D; rewrite D in W; exact W)
    (clone_id N) (fun p c q _ D => param_dec_idem N p c q D) b i H) as (_ & H1 & H2 & H3).
  split; [exact H1|]. split; [exact H2|exact H3].
Qed.
Print Assumptions C21_library.

Theorem C21_library_valid : forall (N : Num) RM M ctx fuel (fits : param N -> dbl -> Prop) b i w j n w',
  let E := lib_env N RM M ctx fuel in
  reach E fits (wf_param N) b i ->
  (set_random E i w = (Ok (j, n), w') \/ ind_mutate E i w = (Ok (j, n), w')) ->
  p_check N (i_par E j) = Ok true /\ i_has E j = false /\ p_set_from N (i_par E j) (i_chr E j) = (i_par E j, Ok tt).
Proof.
  intros N RM M ctx fuel fits b i w j n w' E H.
  exact (C21_valid E fits (wf_param N)
    ltac:(intros p c q G D; pose proof (wf_set_from N p G c) as W; cbn in D; rewrite D in W; exact W)
    (clone_id N) (fun p c q _ D => param_dec_idem N p c q D) b i w j n w' H).
Qed.
Print Assumptions C21_library_valid.

(** The restriction to individuals whose chromosome was set since Initialize is needed: IntParameter(4,0,4) is valid,
    its individual carries value 4 but the chromosome decodes to 0. *)
Theorem C21_initialized_refuted : forall RM fuel, let E := flip_env RNum RM fuel in
  exists p i, p_check RNum p = Ok true /\ wf_param RNum p /\ ind_new E p = Ok i /\
    fst (p_set_from RNum (i_par E i) (i_chr E i)) <> i_par E i /\ snd (p_set_from RNum (i_par E i) (i_chr E i)) = Ok tt.
Proof.
  intros RM fuel E.
  set (ip := fun v => {| ip_value := v; ip_min := 0; ip_max := 4; ip_size := Some 2%nat |}).
  exists (PInt RNum (ip 4)), (MkInd E (PInt RNum (ip 4)) [false; false] false (d_ofZ 0) 0).
  split; [reflexivity|]. split; [apply wf_int with 2%nat; reflexivity|]. split; [reflexivity|].
  cbn [i_par i_chr]. assert (S : p_set_from RNum (PInt RNum (ip 4)) [false; false] = (PInt RNum (ip 0), Ok tt)) by reflexivity.
  rewrite S. split; [|reflexivity]. cbn [fst]. intro H. inversion H.
Qed.
Print Assumptions C21_initialized_refuted.
