(** C24 and C79 together: Optimize returns, and what it returns is the best of everything that was evaluated - nothing is assumed about the run. *)
From Coq Require Import Reals Psatz Permutation.
From Flocq Require Import Core.Core IEEE754.BinarySingleNaN.
From Verif Require Import Base Num DblOrder ParamsSpec FloatLemmas RoundError Random Params CompositeProofs CounterProofs Mutators Cache CacheProofs Individual LibEnv GA GAProofs GAInit PropIndividual PropIntParam PropParams PropMutators PropQuantise PropExamples PropGA PropGATotal PropGALibrary.
Local Open Scope Z_scope.
Local Open Scope list_scope.

(** [q] has the greatest value of [f] of all individuals of the populations [snaps], each of which carries the value of its own parameters. *)
Definition best_of_all (E : env) (f : e_par E -> outcome dbl) (q : e_par E) (snaps : list (snap E)) : Prop :=
  snaps <> [] /\ exists v, f q = Ok v /\ moderate v /\
  forall sn i, In sn snaps -> In i (sn_pop E sn) -> f (i_par E i) = Ok (i_fit E i) /\ moderate (i_fit E i) /\ (B2R (i_fit E i) <= B2R v)%R.

Lemma cfg_created cfg : (2 <= cf_pop cfg)%nat -> Nat.even (cf_pop cfg) = true -> 0 < cf_gens cfg -> exists a b c d e, ga_create a b c d e = Some cfg.
Proof.
  intros H2 He Hg. exists (Z.of_nat (cf_pop cfg)), (cf_elit cfg), (cf_gens cfg), true, (cf_stop cfg). destruct cfg as [pop elit gens stop]. cbn [cf_pop cf_elit cf_gens cf_stop] in *.
  apply Nat.even_spec in He as [half ->]. unfold ga_create, ga_construct.
  replace (Z.rem (Z.of_nat (2 * half)) 2) with 0 by (rewrite Nat2Z.inj_mul; change (Z.of_nat 2) with 2; rewrite Z.mul_comm, Z.rem_mul by lia; reflexivity). cbn [negb Z.eqb].
  destruct (Z.leb_spec (Z.of_nat (2 * half)) 0); [lia|]. destruct (Z.leb_spec gens 0); [lia|]. rewrite Nat2Z.id. reflexivity.
Qed.
Lemma fresh_coherent (P : Z -> dbl -> Prop) limit : CounterProofs.cinv P (counter_new limit).
Proof.
  unfold CounterProofs.cinv, counter_new, c_create. destruct (d_ltb (d_ofZ 0) limit); cbn [k_cache]; [|exact Logic.I]. split; [cbn; constructor|]. intros key s v H. cbn in H. discriminate H.
Qed.
(** a counter without a cache stays without one *)
Lemma process_none E hash : forall pop h k h' k' todo, k_cache k = None -> process_population E hash h k pop = Ok (h', k', todo) -> k_cache k' = None.
Proof.
  induction pop as [|a pop IH]; intros h k h' k' todo Hk H; cbn [process_population] in H; [injection H as _ <- _; exact Hk|].
  apply bind_ok in H as (i & _ & H). rewrite Hk in H. apply bind_ok in H as (((h2 & k2) & t2) & H2 & H). cbn [fst snd] in H. injection H as _ <- _. exact (IH _ _ _ _ _ Hk H2).
Qed.
Lemma obtain_none E hash f h k pop h' k' : k_cache k = None -> obtain_fitness E hash f h k pop = Ok (h', k') -> k_cache k' = None.
Proof.
  intros Hk H. unfold obtain_fitness in H. apply bind_ok in H as (((h1 & k1) & todo) & H1 & H). pose proof (process_none E hash _ _ _ _ _ _ Hk H1) as K1.
  apply bind_ok in H as (vs & _ & H). apply bind_ok in H as (h2 & _ & H). cbn [k_cache] in H. rewrite K1 in H. injection H as _ <-. reflexivity.
Qed.
Lemma run_none E hash f cfg : forall left n s w z snaps w', k_cache (g_counter E s) = None -> run_generations E hash f cfg left n s w = (Ok (z, snaps), w') -> k_cache (g_counter E z) = None.
Proof.
  induction left as [|left IH]; intros n s w z snaps w' Hk H; cbn [run_generations] in H; [apply wret_ok in H as [H _]; injection H as -> _; exact Hk|].
  apply wbind_ok in H as ((h1 & k1) & w1 & H1 & H). apply wlift_ok in H1 as [H1 ->]. pose proof (obtain_none E hash f _ _ _ _ _ Hk H1) as K1.
  apply wbind_ok in H as (best & w2 & _ & H). apply wbind_ok in H as (is & w3 & _ & H). apply wbind_ok in H as (b & w4 & _ & H). apply wbind_ok in H as (fb & w5 & _ & H).
  destruct (d_leb _ _); [apply wret_ok in H as [H _]; injection H as -> _; exact K1|].
  apply wbind_ok in H as (y & w6 & _ & H). apply wbind_ok in H as (u & w7 & _ & H). apply wbind_ok in H as (h3 & w8 & _ & H).
  apply wbind_ok in H as ((z1 & sn1) & w9 & H9 & H). apply wret_ok in H as [H _]. cbn [fst snd] in H. injection H as -> _. refine (IH _ _ _ _ _ _ _ H9). exact K1.
Qed.
Lemma optimize_none E hash f same_type same_meta cfg initial parse file k p w q snaps s w' : k_cache k = None ->
  ga_optimize E hash f same_type same_meta cfg initial parse file k p true w = (Ok (q, snaps, s), w') -> k_cache (g_counter E s) = None.
Proof.
  intros Hk H. unfold ga_optimize in H. cbn [negb] in H. apply wbind_ok in H as ([[h pop] best] & w1 & _ & H). cbv iota beta in H. apply wbind_ok in H as (h1 & w2 & _ & H).
  apply wbind_ok in H as ([s1 snaps1] & w3 & H3 & H). cbn [fst snd] in H. apply wbind_ok in H as (b & w4 & _ & H).
  destruct (e_dec E p (i_chr E b)) as [q1 o]. apply wbind_ok in H as (u & w5 & _ & H). apply wret_ok in H as [H _]. injection H as _ _ ->. refine (run_none E hash f cfg _ _ _ _ _ _ _ _ H3). exact Hk.
Qed.

(** what the counter may hold before and after a call: no cache, or values of [f] under keys that are not shared *)
Definition fitting (E : env) (hash : list bool -> Z) (f : e_par E -> outcome dbl) (p : e_par E) (k : counter) : Prop :=
  k_cache k = None \/ (no_collision E hash p /\ coherent E hash f p k).
Lemma fitting_new E hash f p limit : (d_ltb (d_ofZ 0) limit = true -> no_collision E hash p) -> fitting E hash f p (counter_new limit).
Proof. intro Hc. unfold fitting. destruct (d_ltb (d_ofZ 0) limit) eqn:Li; [right; split; [exact (Hc eq_refl)|apply fresh_coherent]|left]. unfold counter_new, c_create. rewrite Li. reflexivity. Qed.
(** from a run that ended with all fitnesses moderate *)
Lemma best_from_run E good : lawful E good -> forall hash f same_type same_meta cfg initial parse k p q w w' snaps s,
  (2 <= cf_pop cfg)%nat -> Nat.even (cf_pop cfg) = true -> 0 < cf_gens cfg -> good p ->
  (forall ps, initial = Some ps -> Forall good ps /\ Forall (akin E p) ps /\ Forall (survives E) ps) ->
  ga_optimize E hash f same_type same_meta cfg initial parse None k p true w = (Ok (q, snaps, s), w') ->
  (forall sn i, In sn snaps -> In i (sn_pop E sn) -> moderate (i_fit E i)) ->
  (exists v, f q = Ok v /\ moderate v) ->
  fitting E hash f p k ->
  best_of_all E f q snaps /\ fitting E hash f p (g_counter E s).
Proof.
  intros L hash f st sm cfg initial parse k p q w w' snaps s H2 He Hg Hp Hps Hrun Md Ht Kc. pose proof (cfg_created cfg H2 He Hg) as Hcfg.
  assert (In_ev : forall i, In i (evaluated E snaps) <-> exists sn, In sn snaps /\ In i (sn_pop E sn)).
  { intro i. unfold evaluated. rewrite in_concat. split.
    - intros (l & Hl & Hi). apply in_map_iff in Hl as (sn & <- & Hl). eauto.
    - intros (sn & Hl & Hi). exists (sn_pop E sn). split; [apply in_map; exact Hl|exact Hi]. }
  assert (Nu : numeric E (evaluated E snaps)).
  { apply Forall_forall. intros i Hi. apply In_ev in Hi as (sn & A & B). apply moderate_num. exact (Md sn i A B). }
  assert (Tr : CounterProofs.cinv (fun _ _ => True) k).
  { destruct Kc as [Kc|[_ Kc]]; unfold CounterProofs.cinv; [rewrite Kc; exact Logic.I|]. unfold coherent, CounterProofs.cinv in Kc. destruct (k_cache k); [|exact Logic.I]. destruct Kc as [A _]. split; [exact A|]. intros; exact Logic.I. }
  destruct (C24_returned_is_best E good L hash f st sm cfg initial parse None k p q w w' snaps s Hcfg Hp (or_introl (fun ps e => proj2 (proj2 (Hps ps e))))
    (fun ps e => conj (proj1 (Hps ps e)) (proj1 (proj2 (Hps ps e)))) Hrun Nu Kc) as (A & _ & (v & B & C) & Co).
  destruct (C25_population E good L hash f st sm cfg initial parse None k p q w w' snaps s Hcfg Hp (fun ps e => proj1 (Hps ps e)) Hrun Tr Nu) as (Ln & Pl & _).
  split.
  - assert (Ne : snaps <> []) by (intros ->; cbn in Ln; lia). split; [exact Ne|]. destruct Ht as (v' & B' & Mv). assert (X : forall a b : dbl, Ok a = Ok b -> a = b) by (intros a b e; injection e; auto).
    rewrite B in B'. apply X in B'. subst v'. exists v. split; [exact B|]. split; [exact Mv|]. intros sn i Hsn Hin. assert (Hi : In i (evaluated E snaps)) by (apply In_ev; eauto).
    split; [exact (A i Hi)|]. split; [exact (Md sn i Hsn Hin)|]. specialize (C i Hi).
    destruct (Rle_or_lt (B2R (i_fit E i)) (B2R v)) as [R|R]; [exact R|]. apply (d_ltb_R _ _ (proj1 Mv) (proj1 (Md sn i Hsn Hin))) in R. congruence.
  - unfold fitting. destruct (k_cache k) eqn:Kk.
    + right. destruct Kc as [Kc|[NC _]]; [congruence|]. split; [exact NC|]. apply Co. discriminate.
    + left. exact (optimize_none E hash f st sm cfg initial parse None k p w q snaps s w' Kk Hrun).
Qed.

(** For the library's own classes and any mutator (the hypotheses are those of C79_any_mutator, and that the hash function tells chromosomes apart if there is a cache). *)
Section Lib.
Variable N : Num.
Variable RM : Z.
Variable M : genmut.
Variable ctx : Z -> Z -> gm_st M -> gm_st M.
Variable fuel : nat.
Variable gens : Z.
Variables P Q : gm_st M -> Prop.
Hypothesis RMok : 0 < RM <= INT_MAX.
Hypothesis ctxok : forall cur m, 0 <= cur < gens -> P m -> Q (ctx cur gens m).
Hypothesis mutok : forall c m g, Q m -> rvalid RM g -> exists c' m' g', mutate_chromosome M c m g = (Ok (c', m'), g') /\ length c' = length c /\ Q m' /\ rvalid RM g'.
Hypothesis back : forall m, Q m -> P m.
Variable n : nat.
Hypothesis nok : (1 <= n)%nat /\ Z.of_nat n <= INT_MAX.
Theorem C24_total : forall hash f same_type same_meta parse cfg limit p s g m,
  cf_gens cfg = gens -> 0 < gens -> (1 <= fuel)%nat -> (2 <= cf_pop cfg)%nat -> Nat.even (cf_pop cfg) = true -> Z.of_nat (cf_pop cfg) <= 2 ^ 31 ->
  (forall q, p_check N q = Ok true -> exists v, f q = Ok v /\ moderate v) ->
  roomy limit (Z.of_nat (cf_pop cfg)) gens -> (d_ltb (d_ofZ 0) limit = true -> no_collision (lib_env N RM M ctx fuel) hash p) ->
  decodable N n p -> rnd_ok s -> rvalid RM g -> P m ->
  exists q snaps z w', ga_optimize (lib_env N RM M ctx fuel) hash f same_type same_meta cfg None parse None (counter_new limit) p true (s, g, m) = (Ok (q, snaps, z), w') /\
    p_check N q = Ok true /\ (length snaps <= Z.to_nat gens)%nat /\ best_of_all (lib_env N RM M ctx fuel) f q snaps.
Proof.
  intros hash f st sm parse cfg limit p s g m Hg Hg0 Hf H2 Hev Hl Ht Ho Hc D Hs Hr Hm.
  destruct (any_total N RM M ctx fuel gens P Q RMok ctxok mutok back n nok hash f st sm parse cfg limit p s g m Hg Hg0 Hf H2 Hev Hl Ht Ho D Hs Hr Hm) as (q & snaps & z & w' & A & B & C & Md).
  exists q, snaps, z, w'. split; [exact A|]. split; [exact B|]. split; [exact C|].
  apply (best_from_run (lib_env N RM M ctx fuel) (wf_param N) (lib_lawful N RM M ctx fuel) hash f st sm cfg None parse (counter_new limit) p q (s, g, m) w' snaps z H2 Hev); try assumption; [lia|exact (dc_wf _ _ _ D)|discriminate|exact (Ht q B)|exact (fitting_new _ _ _ _ _ Hc)].
Qed.
End Lib.
Theorem C24_total_flip_bit : forall N RM fuel hash f same_type same_meta parse cfg limit n p probability g0 m s g,
  0 < RM <= INT_MAX -> (1 <= n)%nat -> Z.of_nat n <= INT_MAX -> (1 <= fuel)%nat ->
  0 < cf_gens cfg -> (2 <= cf_pop cfg)%nat -> Nat.even (cf_pop cfg) = true -> Z.of_nat (cf_pop cfg) <= 2 ^ 31 ->
  (forall q, p_check N q = Ok true -> exists v, f q = Ok v /\ moderate v) ->
  roomy limit (Z.of_nat (cf_pop cfg)) (cf_gens cfg) -> (d_ltb (d_ofZ 0) limit = true -> no_collision (flip_env N RM fuel) hash p) ->
  decodable N n p -> rnd_ok s -> rvalid RM g0 -> flip_new FNum probability g0 = (Ok m, g) -> 
  exists q snaps z w', ga_optimize (flip_env N RM fuel) hash f same_type same_meta cfg None parse None (counter_new limit) p true (s, g, m) = (Ok (q, snaps, z), w') /\
    p_check N q = Ok true /\ (length snaps <= Z.to_nat (cf_gens cfg))%nat /\ best_of_all (flip_env N RM fuel) f q snaps.
Proof.
  intros N RM fuel hash f st sm parse cfg limit n p pr g0 m s g HR Hn1 Hn2 Hf Hg H2 Hev Hl Ht Ho Hc D Hs Hr Hm.
  destruct (flip_start RM pr g0 m g Hr Hm) as [X1 X2].
  exact (C24_total N RM flip_bit (fun _ _ m0 => m0) fuel (cf_gens cfg) fl_ok fl_ok HR (fun _ m _ H => H) (flip_total RM) (fun m H => H) n (conj Hn1 Hn2)
    hash f st sm parse cfg limit p s g m eq_refl Hg Hf H2 Hev Hl Ht Ho Hc D Hs X2 X1).
Qed.
Theorem C24_total_linear : forall N RM fuel hash f same_type same_meta parse cfg limit n p (start stop : dbl) cur0 max0 m s g, let E := lib_env N RM (linear FNum RM) (fun cur mx m => lin_context FNum m cur mx) fuel in
  0 < RM <= INT_MAX -> (1 <= n)%nat -> Z.of_nat n <= INT_MAX -> (1 <= fuel)%nat ->
  0 < cf_gens cfg <= 2 ^ 31 -> (2 <= cf_pop cfg)%nat -> Nat.even (cf_pop cfg) = true -> Z.of_nat (cf_pop cfg) <= 2 ^ 31 ->
  (forall q, p_check N q = Ok true -> exists v, f q = Ok v /\ moderate v) ->
  roomy limit (Z.of_nat (cf_pop cfg)) (cf_gens cfg) -> (d_ltb (d_ofZ 0) limit = true -> no_collision E hash p) ->
  decodable N n p -> rnd_ok s -> rvalid RM g -> lin_new FNum start stop cur0 max0 = Ok m -> 
  fin start -> fin stop -> (0 <= B2R start <= 1)%R -> (6 * bpow radix2 (-53) <= B2R stop <= 1 - 6 * bpow radix2 (-53))%R ->
  exists q snaps z w', ga_optimize E hash f same_type same_meta cfg None parse None (counter_new limit) p true (s, g, m) = (Ok (q, snaps, z), w') /\
    p_check N q = Ok true /\ (length snaps <= Z.to_nat (cf_gens cfg))%nat /\ best_of_all E f q snaps.
Proof.
  intros N RM fuel hash f st sm parse cfg limit n p sa so cur0 max0 m s g E HR Hn1 Hn2 Hf Hg H2 Hev Hl Ht Ho Hc D Hs Hr Hm F1 F2 B1 B2.
  assert (Em : m = MkLin FNum sa so cur0 max0). { unfold lin_new in Hm. apply bind_ok in Hm as (? & _ & Hm). apply bind_ok in Hm as (? & _ & Hm). injection Hm as <-. reflexivity. }
  refine (C24_total N RM (linear FNum RM) (fun cur mx m => lin_context FNum m cur mx) fuel (cf_gens cfg) (lin_from sa so) (lin_in sa so (cf_gens cfg)) HR _ _ _ n (conj Hn1 Hn2)
    hash f st sm parse cfg limit p s g m eq_refl _ Hf H2 Hev Hl Ht Ho Hc D Hs Hr _).
  - intros cur m0 Hcur (a & b & ->). exists cur. split; [exact Hcur|reflexivity].
  - exact (linear_total RM sa so (cf_gens cfg) F1 F2 B1 B2 Hg).
  - intros m0 (a & _ & ->). exists a, (cf_gens cfg). reflexivity.
  - lia.
  - exists cur0, max0. exact Em.
Qed.

(** The hypotheses are met, with an objective function that tells parameters apart: IntParameter(3, 0, 7), whose value modulo 8 is to be maximised. *)
Definition mod8 (p : param FNum) : outcome dbl := Ok (d_ofZ (int_of FNum p mod 8)).
Example C24_total_witness : exists m g, flip_new FNum (d_of 1 (-2)) (fun _ => 5) = (Ok m, g) /\
  exists q snaps z w', ga_optimize (flip_env FNum 32767 1) (fun _ => 0) mod8 (fun _ _ => true) (fun _ _ => Ok true) wcfg None (fun t => (d_ofZ 0, t)) None (counter_new (d_ofZ 0)) (PInt FNum (MkInt 3 0 7 (Some 3%nat))) true
      (MkRnd 5 0 14, g, m) = (Ok (q, snaps, z), w') /\ p_check FNum q = Ok true /\ (length snaps <= 3)%nat /\ best_of_all (flip_env FNum 32767 1) mod8 q snaps.
Proof.
  destruct witness_flip as (m & g & Fm & _). exists m, g. split; [exact Fm|].
  destruct (C79_int FNum 3 0 7 3 (MkInt 3 0 7 (Some 3%nat)) eq_refl ltac:(unfold INT_MIN; lia) ltac:(lia) ltac:(unfold INT_MAX; lia) eq_refl ltac:(cbn; lia)) as [D3 _].
  destruct (d_ofZ_exact 0 ltac:(lia)) as [Z0 Z1].
  apply (C24_total_flip_bit FNum 32767 1 (fun _ => 0) mod8 (fun _ _ => true) (fun _ _ => Ok true) (fun t => (d_ofZ 0, t)) wcfg (d_ofZ 0) 3 (PInt FNum (MkInt 3 0 7 (Some 3%nat))) (d_of 1 (-2)) (fun _ => 5) m (MkRnd 5 0 14) g);
    try assumption; try (unfold INT_MAX; cbn; lia); try reflexivity.
  - intros q _. eexists. split; [reflexivity|]. pose proof (Z.mod_pos_bound (int_of FNum q) 8 ltac:(lia)) as Bd. destruct (d_ofZ_exact (int_of FNum q mod 8) ltac:(cbn; lia)) as [A B]. split; [exact A|]. rewrite B.
    split; [apply IZR_le; lia|]. apply Rle_trans with (bpow radix2 3); [change (bpow radix2 3) with (IZR 8); apply IZR_le; lia|apply bpow_le; lia].
  - split; [exact Z0|]. left. rewrite Z1. lra.
  - unfold rnd_ok. cbn. lia.
  - intro k. lia.
Qed.
Print Assumptions C24_total_witness. Print Assumptions C24_total. Print Assumptions C24_total_flip_bit. Print Assumptions C24_total_linear.
