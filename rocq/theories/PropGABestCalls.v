(** C24 for many calls of Optimize on one object, with or without initial parameters: every call returns the best of everything it evaluated. *)
From Coq Require Import Reals Psatz Permutation.
From Flocq Require Import Core.Core IEEE754.BinarySingleNaN.
From Verif Require Import Base Num DblOrder IntProofs FloatLemmas RoundError Random ParamsSpec Params CompositeProofs Mutators Cache Individual LibEnv GA GAProofs GAInit CounterProofs PropIndividual PropSelect PropIntParam PropMutators PropQuantise PropExamples PropGA PropGATotal PropGALibrary PropGAAgain PropGABest.
Local Open Scope Z_scope.
Local Open Scope list_scope.

(** Calls one after the other on one object, as ga_calls (PropGAAgain.v), keeping the populations of every call: (result, populations). *)
Fixpoint ga_runs (E : env) hash same_type same_meta parse cfg (cs : list (call (e_par E))) (k : counter) : wm (e_w E) (list (e_par E * list (snap E)) * counter) :=
  match cs with
  | [] => wret ([], k)
  | c :: r =>
      let* x := ga_optimize E hash (ca_f c) same_type same_meta cfg (ca_initial c) parse None k (ca_par c) true in
      let* ys := ga_runs E hash same_type same_meta parse cfg r (g_counter E (snd x)) in
      wret (fst x :: fst ys, snd ys)
  end.
(** the results are those of ga_calls *)
Theorem C24_runs_are_calls E hash st sm parse cfg : forall cs k w rs k' w', ga_runs E hash st sm parse cfg cs k w = (Ok (rs, k'), w') ->
  ga_calls E hash st sm parse cfg cs k w = (Ok (map fst rs, k'), w').
Proof.
  induction cs as [|c cs IH]; intros k w rs k' w' H; cbn [ga_runs] in H; cbn [ga_calls].
  - apply wret_ok in H as [H ->]. injection H as -> ->. reflexivity.
  - apply wbind_ok in H as (x & w1 & H1 & H). apply wbind_ok in H as ((ys & k1) & w2 & H2 & H). apply wret_ok in H as [H ->]. cbn [fst snd] in H. injection H as -> ->.
    rewrite (wbind_run _ _ _ _ _ H1). rewrite (wbind_run _ _ _ _ _ (IH _ _ _ _ _ H2)). cbn [fst snd map]. reflexivity.
Qed.

Lemma coherent_akin E hash f p p' k : akin E p p' -> coherent E hash f p k -> coherent E hash f p' k.
Proof.
  intros A H. unfold coherent, CounterProofs.cinv in *. destruct (k_cache k); [|exact I]. destruct H as [H1 H2]. split; [exact H1|].
  intros key s v X Y c0 r Dc. apply A in Dc. exact (H2 key s v X Y c0 r Dc).
Qed.
Lemma akin_sym E p p' : akin E p p' -> akin E p' p.
Proof. intros A c r. split; apply A. Qed.
Lemma akin_trans E p p' p'' : akin E p p' -> akin E p' p'' -> akin E p p''.
Proof. intros A B c r. rewrite (B c r). apply A. Qed.
Lemma fitting_akin E hash f p p' k : akin E p p' -> fitting E hash f p k -> fitting E hash f p' k.
Proof.
  intros A [H|[NC H]]; [left; exact H|right]. split; [|exact (coherent_akin _ _ _ _ _ _ A H)]. intros c c' r r' D D'. apply A in D. apply A in D'. exact (NC c c' r r' D D').
Qed.

Section Calls.
Variable E : env.
Variables good ok : e_par E -> Prop.
Hypothesis L : lawful E good.
Hypothesis okgood : forall p, ok p -> good p.
Variable n : nat.
Variables I J : e_w E -> Prop.
Variable cfg : ga_cfg.
Hypothesis T : tame E ok n (cf_gens cfg) I J.
Hypothesis gens : 0 < cf_gens cfg.
Hypothesis fuel : (1 <= e_fuel E)%nat.
Hypothesis pop2 : (2 <= cf_pop cfg)%nat.
Hypothesis even : Nat.even (cf_pop cfg) = true.
Hypothesis popmax : Z.of_nat (cf_pop cfg) <= 2 ^ 31.
Variable hash : list bool -> Z.
Variable same_type : e_par E -> e_par E -> bool.
Variable same_meta : e_par E -> e_par E -> outcome bool.
Variable parse : text -> dbl * text.
Variable f : e_par E -> outcome dbl.
Variable p0 : e_par E.
(** every call with the objective function [f], on parameters that decode as [p0] does; initial parameters too, and they survive encoding *)
Definition same_call (c : call (e_par E)) : Prop :=
  good_call E ok n cfg same_type same_meta c /\ ca_f c = f /\ akin E p0 (ca_par c) /\
  forall ps, ca_initial c = Some ps -> Forall (akin E p0) ps /\ Forall (survives E) ps.
Lemma many_best lim : forall cs m k w, Forall same_call cs -> kinv lim m k -> (forall j, (j <= m + 3 * cf_pop cfg * Z.to_nat (cf_gens cfg) * length cs)%nat -> over lim 40 j = false) -> I w ->
  fitting E hash f p0 k ->
  exists rs k' w', ga_runs E hash same_type same_meta parse cfg cs k w = (Ok (rs, k'), w') /\ length rs = length cs /\
    Forall (fun r => e_chk E (fst r) = Ok true /\ best_of_all E f (fst r) (snd r)) rs.
Proof.
  induction cs as [|c cs IH]; intros m k w F Hk Ho Hw Fk; [exists [], k, w; cbn; auto|]. apply Forall_cons_iff in F as [(G & Ef & Ak & Si) F].
  destruct (one_call E ok n I J cfg T gens fuel pop2 even popmax hash same_type same_meta parse c lim m k w G Hk) as (q & snaps & s & w1 & E1 & A1 & A2 & A3 & A4 & A5); [|exact Hw|].
  { intros j Hj. apply Ho. cbn [length]. nia. }
  pose proof G as (Hf & Hp & _ & Hi).
  destruct (best_from_run E good L hash (ca_f c) same_type same_meta cfg (ca_initial c) parse k (ca_par c) q w w1 snaps s pop2 even gens (okgood _ Hp)) as [B1 B2].
  - intros ps Eq. destruct (Si ps Eq) as [S1 S2]. rewrite Eq in Hi. destruct Hi as [_ Hi].
    split; [eapply Forall_impl; [|exact Hi]; intros x (X & _); exact (okgood _ X)|]. split; [|exact S2].
    eapply Forall_impl; [|exact S1]. intros x X. exact (akin_trans _ _ _ _ (akin_sym _ _ _ Ak) X).
  - exact E1.
  - intros sn i Hsn Hin. unfold all_moderate in A5. rewrite Forall_forall in A5. specialize (A5 sn Hsn). rewrite Forall_forall in A5. exact (A5 i Hin).
  - exact (Hf q A1 A2).
  - rewrite Ef. exact (fitting_akin _ _ _ _ _ _ Ak Fk).
  - rewrite Ef in B1, B2.
    destruct (IH (m + 3 * cf_pop cfg * Z.to_nat (cf_gens cfg))%nat (g_counter E s) w1 F A4) as (rs & k' & w' & E2 & C1 & C2); [|exact A3|exact (fitting_akin _ _ _ _ _ _ (akin_sym _ _ _ Ak) B2)|].
    { intros j Hj. apply Ho. cbn [length]. nia. }
    exists ((q, snaps) :: rs), k', w'. split.
    + cbn [ga_runs]. rewrite (wbind_run _ _ _ _ _ E1). cbn [fst snd]. rewrite (wbind_run _ _ _ _ _ E2). reflexivity.
    + split; [cbn [length]; congruence|]. constructor; [cbn [fst snd]; split; assumption|exact C2].
Qed.
End Calls.

(** ** The library's classes *)
(** [q] decodes chromosomes as [p] does *)
Definition decodes_alike (N : Num) (p q : param N) : Prop := forall bits r, p_set_from N q bits = (r, Ok tt) <-> p_set_from N p bits = (r, Ok tt).
(** encoding [q] into a new chromosome and decoding that gives [q] again *)
Definition survives_encoding (N : Num) (q : param N) : Prop :=
  forall k bits, p_size N q = Ok k -> p_set_chromosome N q (repeat false k) = Ok bits -> p_set_from N q bits = (q, Ok tt).
(** What is asked of a call beyond C79's library_call: the objective function is [f], all parameters decode as [p0] does, and the initial
    parameters survive encoding (C24_initial_parameters_refuted: without this the parameters returned need not be the best). *)
Record repeated_call (N : Num) (n pop : nat) (f : param N -> outcome dbl) (p0 : param N) (c : call (param N)) : Prop := MkRepeatedCall {
  rc_call : library_call N n pop c;
  rc_objective : ca_f c = f;
  rc_par : decodes_alike N p0 (ca_par c);
  rc_initial : forall ps, ca_initial c = Some ps -> Forall (fun q => decodes_alike N p0 q /\ survives_encoding N q) ps }.

Section LibCalls.
Variable N : Num.
Variable RM : Z.
Variable M : genmut.
Variable ctx : Z -> Z -> gm_st M -> gm_st M.
Variable fuel : nat.
Variable cfg : ga_cfg.
Variables P Q : gm_st M -> Prop.
Hypothesis RMok : 0 < RM <= INT_MAX.
Hypothesis ctxok : forall cur m, 0 <= cur < cf_gens cfg -> P m -> Q (ctx cur (cf_gens cfg) m).
Hypothesis mutok : forall c m g, Q m -> rvalid RM g -> exists c' m' g', mutate_chromosome M c m g = (Ok (c', m'), g') /\ length c' = length c /\ Q m' /\ rvalid RM g'.
Hypothesis back : forall m, Q m -> P m.
Variable n : nat.
Hypothesis nok : (1 <= n)%nat /\ Z.of_nat n <= INT_MAX.
Theorem C24_any_mutator_calls : forall hash parse limit f p0 cs s g m, let E := lib_env N RM M ctx fuel in
  0 < cf_gens cfg -> (1 <= fuel)%nat -> (2 <= cf_pop cfg)%nat -> Nat.even (cf_pop cfg) = true -> Z.of_nat (cf_pop cfg) <= 2 ^ 31 ->
  roomy limit (Z.of_nat (cf_pop cfg)) (cf_gens cfg * Z.of_nat (length cs)) -> (d_ltb (d_ofZ 0) limit = true -> no_collision E hash p0) ->
  Forall (repeated_call N n (cf_pop cfg) f p0) cs -> rnd_ok s -> rvalid RM g -> P m ->
  exists rs k w', ga_runs E hash (p_same_type N) (p_same_meta N) parse cfg cs (counter_new limit) (s, g, m) = (Ok (rs, k), w') /\
    length rs = length cs /\ Forall (fun r => p_check N (fst r) = Ok true /\ best_of_all E f (fst r) (snd r)) rs.
Proof.
  intros hash parse limit f p0 cs s g m E Hg0 Hf H2 Hev Hl Ho Hc F Hs Hr Hm.
  assert (T : tame E (lok N n) n (cf_gens cfg) (wI RM M P) (wI RM M Q)) by exact (lib_tame N RM M ctx fuel (cf_gens cfg) P Q RMok ctxok mutok back n nok).
  assert (Kl : exists lim, kinv lim 0 (counter_new limit) /\ forall j, (j <= 0 + 3 * cf_pop cfg * Z.to_nat (cf_gens cfg) * length cs)%nat -> over lim 40 j = false).
  { unfold counter_new, c_create. destruct (d_ltb (d_ofZ 0) limit) eqn:Li.
    - exists limit. split. { unfold kinv, PropGATotal.cinv. cbn. split; [reflexivity|]. split; [reflexivity|]. split; [lia|constructor]. }
      intros j Hj. apply (roomy_over limit (cf_pop cfg) (Z.to_nat (cf_gens cfg) * length cs)); [|exact Li|cbn in Hj; lia].
      rewrite Nat2Z.inj_mul, Z2Nat.id by lia. exact Ho.
    - exists d_inf. split; [exact Logic.I|]. intros j _. unfold over. destruct (d_div _ _) as [[]|[]| |[]]; reflexivity. }
  destruct Kl as (lim & K1 & K2).
  apply (many_best E (wf_param N) (lok N n) (lib_lawful N RM M ctx fuel) (fun p H => proj1 H) n (wI RM M P) (wI RM M Q) cfg T Hg0 Hf H2 Hev Hl hash (p_same_type N) (p_same_meta N) parse f p0 lim cs 0 (counter_new limit) (s, g, m)).
  - eapply Forall_impl; [|exact F]. intros [cf ci cp] [[C1 C2 C3] C4 C5 C6]. cbn [ca_f ca_initial ca_par] in *. split.
    + split; [intros q _ K; exact (C1 q K)|]. split; [exact (decodable_lok N n _ C2)|]. split; [exact (decodable_encodes N RM M ctx fuel n _ C2)|].
      cbn [ca_initial ca_par]. destruct ci as [ps|]; [|exact Logic.I]. destruct (C3 ps eq_refl) as [L G]. split; [exact L|]. eapply Forall_impl; [|exact G].
      intros q (D1 & D2 & D3 & D4). split; [exact (decodable_lok N n _ D1)|]. split; [exact (decodable_encodes N RM M ctx fuel n _ D1)|]. auto.
    + cbn [ca_f ca_initial ca_par]. split; [exact C4|]. split; [exact C5|]. intros ps Ep. destruct (C3 ps Ep) as [_ G]. specialize (C6 ps Ep). split; [eapply Forall_impl; [|exact C6]; intros q X; exact (proj1 X)|].
      rewrite Forall_forall in *. intros q Hq. split; [exact (proj1 (proj2 (G q Hq)))|exact (proj2 (C6 q Hq))].
  - exact K1.
  - exact K2.
  - split; [exact Hs|]. split; assumption.
  - exact (fitting_new E hash f p0 limit Hc).
Qed.
End LibCalls.

Theorem C24_flip_bit_calls : forall N RM fuel hash parse cfg limit n f p0 cs probability g0 m s g, let E := flip_env N RM fuel in
  0 < RM <= INT_MAX -> (1 <= n)%nat -> Z.of_nat n <= INT_MAX -> (1 <= fuel)%nat ->
  0 < cf_gens cfg -> (2 <= cf_pop cfg)%nat -> Nat.even (cf_pop cfg) = true -> Z.of_nat (cf_pop cfg) <= 2 ^ 31 ->
  roomy limit (Z.of_nat (cf_pop cfg)) (cf_gens cfg * Z.of_nat (length cs)) -> (d_ltb (d_ofZ 0) limit = true -> no_collision E hash p0) ->
  Forall (repeated_call N n (cf_pop cfg) f p0) cs -> rnd_ok s -> rvalid RM g0 -> flip_new FNum probability g0 = (Ok m, g) ->
  exists rs k w', ga_runs E hash (p_same_type N) (p_same_meta N) parse cfg cs (counter_new limit) (s, g, m) = (Ok (rs, k), w') /\
    length rs = length cs /\ Forall (fun r => p_check N (fst r) = Ok true /\ best_of_all E f (fst r) (snd r)) rs.
Proof.
  intros N RM fuel hash parse cfg limit n f p0 cs pr g0 m s g E HR Hn1 Hn2 Hf Hg H2 Hev Hl Ho Hc F Hs Hr Hm.
  destruct (flip_start RM pr g0 m g Hr Hm) as [X1 X2].
  exact (C24_any_mutator_calls N RM flip_bit (fun _ _ m0 => m0) fuel cfg fl_ok fl_ok HR (fun _ m _ H => H) (flip_total RM) (fun m H => H) n (conj Hn1 Hn2)
    hash parse limit f p0 cs s g m Hg Hf H2 Hev Hl Ho Hc F Hs X2 X1).
Qed.

Theorem C24_linear_calls : forall N RM fuel hash parse cfg limit n f p0 cs (start stop : dbl) cur0 max0 m s g, let E := lib_env N RM (linear FNum RM) (fun cur mx m => lin_context FNum m cur mx) fuel in
  0 < RM <= INT_MAX -> (1 <= n)%nat -> Z.of_nat n <= INT_MAX -> (1 <= fuel)%nat ->
  0 < cf_gens cfg <= 2 ^ 31 -> (2 <= cf_pop cfg)%nat -> Nat.even (cf_pop cfg) = true -> Z.of_nat (cf_pop cfg) <= 2 ^ 31 ->
  roomy limit (Z.of_nat (cf_pop cfg)) (cf_gens cfg * Z.of_nat (length cs)) -> (d_ltb (d_ofZ 0) limit = true -> no_collision E hash p0) ->
  Forall (repeated_call N n (cf_pop cfg) f p0) cs -> rnd_ok s -> rvalid RM g -> lin_new FNum start stop cur0 max0 = Ok m ->
  fin start -> fin stop -> (0 <= B2R start <= 1)%R -> (6 * bpow radix2 (-53) <= B2R stop <= 1 - 6 * bpow radix2 (-53))%R ->
  exists rs k w', ga_runs E hash (p_same_type N) (p_same_meta N) parse cfg cs (counter_new limit) (s, g, m) = (Ok (rs, k), w') /\
    length rs = length cs /\ Forall (fun r => p_check N (fst r) = Ok true /\ best_of_all E f (fst r) (snd r)) rs.
Proof.
  intros N RM fuel hash parse cfg limit n f p0 cs sa so cur0 max0 m s g E HR Hn1 Hn2 Hf Hg H2 Hev Hl Ho Hc F Hs Hr Hm F1 F2 B1 B2.
  assert (Em : m = MkLin FNum sa so cur0 max0). { unfold lin_new in Hm. apply bind_ok in Hm as (? & _ & Hm). apply bind_ok in Hm as (? & _ & Hm). injection Hm as <-. reflexivity. }
  refine (C24_any_mutator_calls N RM (linear FNum RM) (fun cur mx m => lin_context FNum m cur mx) fuel cfg (lin_from sa so) (lin_in sa so (cf_gens cfg)) HR _ _ _ n (conj Hn1 Hn2)
    hash parse limit f p0 cs s g m _ Hf H2 Hev Hl Ho Hc F Hs Hr _).
  - intros cur m0 Hcur (a & b & ->). exists cur. split; [exact Hcur|reflexivity].
  - exact (linear_total RM sa so (cf_gens cfg) F1 F2 B1 B2 Hg).
  - intros m0 (a & _ & ->). exists a, (cf_gens cfg). reflexivity.
  - lia.
  - exists cur0, max0. exact Em.
Qed.

(** Which IntParameters survive encoding: all but the maximum of a range whose width is a power of two. *)
Theorem C24_int_survives : forall N v mn mx k p, ip_make v mn mx = Ok p -> INT_MIN <= mn -> mn <= v <= mx -> mx <= INT_MAX -> ip_size p = Some k ->
  (survives_encoding N (PInt N p) <-> ~ (v = mx /\ mx - mn = 2 ^ Z.of_nat k)) /\
  (forall w q, ip_make w mn mx = Ok q -> decodes_alike N (PInt N p) (PInt N q)).
Proof.
  intros N v mn mx k p Hp Hmn Hv Hmx Hs. pose proof (ip_make_inv _ _ _ _ Hp) as (Hd & kp & Ep & Hk & Hle).
  assert (kp = k) by (rewrite Ep in Hs; cbn in Hs; congruence). subst kp. split.
  - destruct (int_roundtrip v v mn mx p p k (repeat false k) Hp Hp Hmn Hmx Hv Hs (repeat_length _ _)) as (bits & q' & A & B & C & D1 & D2 & D3 & D4 & D5).
    rewrite <- D4. unfold survives_encoding. cbn [p_size p_set_chromosome p_set_from]. split.
    + intro H. specialize (H k bits). assert (X : p_set_from N (PInt N p) bits = (PInt N p, Ok tt)) by (apply H; [cbn; rewrite Hs; reflexivity|exact A]).
      cbn [p_set_from] in X. rewrite C in X. injection X as X. rewrite X, Ep. reflexivity.
    + intros Hq k' b Hk' Hb. assert (k' = k) by (cbn in Hk'; rewrite Hs in Hk'; cbn in Hk'; congruence). subst k'. assert (b = bits) by congruence. subst b.
      rewrite C. f_equal. f_equal. assert (Q : q' = ip_set_value p (ip_value q')).
      { unfold ip_set_from in C. destruct (cs_check _ _); [|discriminate|discriminate]. destruct (bind _ _); [|discriminate|discriminate]. injection C as <-. destruct p; reflexivity. }
      rewrite Q, Hq, Ep. reflexivity.
  - intros w q Hq. pose proof (ip_make_inv _ _ _ _ Hq) as (_ & kq & Eq & _ & Hle').
    assert (kq = k) by (eapply least_pow2_exp_unique; eauto). subst kq.
    intros bits r. rewrite Ep, Eq. cbn [p_set_from]. unfold ip_set_from. cbn [ip_size ip_min]. destruct (cs_check _ _); [|split; discriminate|split; discriminate].
    destruct (bind _ _); [|split; discriminate|split; discriminate]. cbn. tauto.
Qed.

(** The hypotheses are met, with a cache, an objective function that tells parameters apart and, in the second call, initial parameters of
    which none is best: IntParameter 0..7, whose value modulo 8 is to be maximised. *)
Definition two_values (v : Z) : param FNum := PInt FNum (MkInt v 0 7 (Some 3%nat)).
Definition repeated : list (call (param FNum)) :=
  [MkCall mod8 None (two_values 3); MkCall mod8 (Some [two_values 0; two_values 1; two_values 2; two_values 5]) (two_values 4)].
Example C24_calls_witness : exists m g, flip_new FNum (d_of 1 (-2)) (fun _ => 5) = (Ok m, g) /\
  exists q1 s1 q2 s2 k w', ga_runs (flip_env FNum 32767 1) bits_val (p_same_type FNum) (p_same_meta FNum) (fun t => (d_ofZ 0, t)) wcfg repeated (counter_new (d_ofZ 1)) (MkRnd 5 0 14, g, m) = (Ok ([(q1, s1); (q2, s2)], k), w') /\
    best_of_all (flip_env FNum 32767 1) mod8 q1 s1 /\ best_of_all (flip_env FNum 32767 1) mod8 q2 s2.
Proof.
  destruct witness_flip as (m & g & Fm & _). exists m, g. split; [exact Fm|].
  assert (R5 : rvalid 32767 (fun _ => 5)) by (intro k; lia). assert (Rk : rnd_ok (MkRnd 5 0 14)) by (unfold rnd_ok; cbn; lia).
  assert (Mk : forall v, 0 <= v <= 7 -> ip_make v 0 7 = Ok (MkInt v 0 7 (Some 3%nat))).
  { intros v Hv. destruct (Z.eq_dec v 0) as [->|]; [reflexivity|]. destruct (Z.eq_dec v 1) as [->|]; [reflexivity|]. destruct (Z.eq_dec v 2) as [->|]; [reflexivity|].
    destruct (Z.eq_dec v 3) as [->|]; [reflexivity|]. destruct (Z.eq_dec v 4) as [->|]; [reflexivity|]. destruct (Z.eq_dec v 5) as [->|]; [reflexivity|].
    destruct (Z.eq_dec v 6) as [->|]; [reflexivity|]. replace v with 7 by lia. reflexivity. }
  assert (D : forall v, 0 <= v <= 7 -> decodable FNum 3 (two_values v)).
  { intros v Hv. exact (proj1 (C79_int FNum v 0 7 3 (MkInt v 0 7 (Some 3%nat)) (Mk v Hv) ltac:(unfold INT_MIN; lia) Hv ltac:(unfold INT_MAX; lia) eq_refl ltac:(cbn; lia))). }
  assert (S : forall v, 0 <= v <= 7 -> survives_encoding FNum (two_values v)).
  { intros v Hv. refine (proj2 (proj1 (C24_int_survives FNum v 0 7 3 _ (Mk v Hv) ltac:(unfold INT_MIN; lia) Hv ltac:(unfold INT_MAX; lia) eq_refl)) _). cbn. lia. }
  assert (A : forall v, 0 <= v <= 7 -> decodes_alike FNum (two_values 3) (two_values v)).
  { intros v Hv. exact (proj2 (C24_int_survives FNum 3 0 7 3 _ (Mk 3 ltac:(lia)) ltac:(unfold INT_MIN; lia) ltac:(lia) ltac:(unfold INT_MAX; lia) eq_refl) v _ (Mk v Hv)). }
  assert (Ob : forall q, p_check FNum q = Ok true -> exists v, mod8 q = Ok v /\ moderate v).
  { intros q _. eexists. split; [reflexivity|]. pose proof (Z.mod_pos_bound (int_of FNum q) 8 ltac:(lia)) as Bd. destruct (d_ofZ_exact (int_of FNum q mod 8) ltac:(cbn; lia)) as [X Y]. split; [exact X|]. rewrite Y.
    split; [apply IZR_le; lia|]. apply Rle_trans with (bpow radix2 3); [change (bpow radix2 3) with (IZR 8); apply IZR_le; lia|apply bpow_le; lia]. }
  assert (F : Forall (repeated_call FNum 3 (cf_pop wcfg) mod8 (two_values 3)) repeated).
  { apply Forall_cons; [|apply Forall_cons; [|apply Forall_nil]].
    - split; [split; [exact Ob|apply D; lia|intros ps X; discriminate X]|reflexivity|apply A; lia|intros ps X; discriminate X].
    - split; [split; [exact Ob|apply D; lia|]|reflexivity|apply A; lia|]; intros ps X; injection X as <-.
      + split; [reflexivity|]. repeat (apply Forall_cons; [split; [apply D; lia|split; [reflexivity|split; reflexivity]]|]). apply Forall_nil.
      + repeat (apply Forall_cons; [split; [apply A; lia|apply S; lia]|]). apply Forall_nil. }
  assert (Ro : roomy (d_ofZ 1) (Z.of_nat (cf_pop wcfg)) (cf_gens wcfg * Z.of_nat (length repeated))).
  { destruct (d_ofZ_exact 1 ltac:(lia)) as [X Y]. split; [exact X|]. right. rewrite Y. split; [cbn; lia|]. cbn. lra. }
  assert (NC : no_collision (flip_env FNum 32767 1) bits_val (two_values 3)).
  { assert (Len : forall c r, e_dec (flip_env FNum 32767 1) (two_values 3) c = (r, Ok tt) -> length c = 3%nat).
    { intros c r X. cbn [flip_env lib_env e_dec p_set_from two_values] in X. unfold ip_set_from, cs_check in X. cbn [ip_size] in X. destruct (Nat.eqb (length c) 3) eqn:Q; [apply Nat.eqb_eq in Q; exact Q|discriminate X]. }
    intros c c' r r' X X' H. apply bits_val_inj; [rewrite (Len _ _ X), (Len _ _ X'); reflexivity|exact H]. }
  destruct (C24_flip_bit_calls FNum 32767 1 bits_val (fun t => (d_ofZ 0, t)) wcfg (d_ofZ 1) 3 mod8 (two_values 3) repeated (d_of 1 (-2)) (fun _ => 5) m (MkRnd 5 0 14) g) as (rs & k & w' & E1 & L & V);
    [unfold INT_MAX; lia|lia|unfold INT_MAX; lia|lia|cbn; lia|cbn; lia|reflexivity|cbn; lia|exact Ro|intros _; exact NC|exact F|exact Rk|exact R5|exact Fm|].
  destruct rs as [|[q1 s1] [|[q2 s2] [|]]]; try discriminate L. apply Forall_cons_iff in V as [[_ V1] V]. apply Forall_cons_iff in V as [[_ V2] _].
  exists q1, s1, q2, s2, k, w'. auto.
Qed.
Print Assumptions C24_calls_witness. Print Assumptions C24_runs_are_calls. Print Assumptions C24_any_mutator_calls. Print Assumptions C24_flip_bit_calls. Print Assumptions C24_linear_calls. Print Assumptions C24_int_survives.
