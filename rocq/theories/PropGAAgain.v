(** C79 for many calls of Optimize on one object, with or without initial parameters. *)
From Coq Require Import Reals Psatz Permutation.
From Flocq Require Import Core.Core IEEE754.BinarySingleNaN.
From Verif Require Import Base Num DblOrder IntProofs FloatLemmas RoundError Random Params CompositeProofs Mutators Cache Individual LibEnv GA CounterProofs PropIndividual PropSelect PropMutators PropQuantise PropExamples PropGATotal PropGALibrary.
Local Open Scope Z_scope.
Local Open Scope list_scope.

(** One call of Optimize: the objective function, the initial parameters that SetInitialParameters gave the object (if any),
    the parameters to optimize. *)
Record call (P : Type) : Type := MkCall { ca_f : P -> outcome dbl; ca_initial : option (list P); ca_par : P }.
Arguments MkCall {P}. Arguments ca_f {P}. Arguments ca_initial {P}. Arguments ca_par {P}.
(** Calls one after the other on one object (genetic_algorithm.cpp:122-143): the cache of the call counter, the generators and
    the mutator go on from call to call. The results, and the counter at the end. *)
Fixpoint ga_calls (E : env) hash same_type same_meta parse cfg (cs : list (call (e_par E))) (k : counter) : wm (e_w E) (list (e_par E) * counter) :=
  match cs with
  | [] => wret ([], k)
  | c :: r =>
      let* x := ga_optimize E hash (ca_f c) same_type same_meta cfg (ca_initial c) parse None k (ca_par c) true in
      let* ys := ga_calls E hash same_type same_meta parse cfg r (g_counter E (snd x)) in
      wret (fst (fst x) :: fst ys, snd ys)
  end.

Section Calls.
Variable E : env.
Variable ok : e_par E -> Prop.
Variable n : nat.
Variables I J : e_w E -> Prop.
Variable cfg : ga_cfg.
Hypothesis T : tame E ok n (cf_gens cfg) I J.
Hypothesis gens : 0 < cf_gens cfg.
Hypothesis fuel : (1 <= e_fuel E)%nat.
Hypothesis pop2 : (2 <= cf_pop cfg)%nat.
Hypothesis even : Nat.even (cf_pop cfg) = true.
Hypothesis popmax : Z.of_nat (cf_pop cfg) <= 2 ^ 31.
Variable hash : list bool -> Z.
Variable same_type : e_par E -> e_par E -> bool.
Variable same_meta : e_par E -> e_par E -> outcome bool.
Variable parse : text -> dbl * text.
Definition encodes (p : e_par E) : Prop := exists c, e_enc E p (repeat false n) = Ok c /\ length c = n.
(** what is asked of a call *)
Definition good_call (c : call (e_par E)) : Prop :=
  (forall q, ok q -> e_chk E q = Ok true -> exists v, ca_f c q = Ok v /\ moderate v) /\ ok (ca_par c) /\ encodes (ca_par c) /\
  match ca_initial c with
  | None => True
  | Some ps => length ps = cf_pop cfg /\
      Forall (fun q => ok q /\ encodes q /\ e_chk E q = Ok true /\ same_type q (ca_par c) = true /\ same_meta q (ca_par c) = Ok true) ps
  end.
Notation hok := (hok E ok n).
Notation pok := (pok E).

Lemma validate_total p : forall ps, Forall (fun q => same_type q p = true /\ same_meta q p = Ok true) ps -> validate_initial E same_type same_meta ps p = Ok tt.
Proof. induction 1 as [|q ps [A B] _ IH]; [reflexivity|]. cbn [validate_initial]. rewrite A, B. cbn [negb bind]. exact IH. Qed.
Lemma given_total : forall ps h w, hok h -> Forall (fun q => ok q /\ encodes q /\ e_chk E q = Ok true) ps ->
  exists h' as_, init_given E ps h w = (Ok (h', as_), w) /\ hok h' /\ ext E h h' /\ pok h' as_ /\ length as_ = length ps.
Proof.
  induction ps as [|p ps IH]; intros h w Hh F.
  - exists h, []. split; [reflexivity|]. split; [exact Hh|]. split; [apply ext_refl|]. split; [intros a []|reflexivity].
  - apply Forall_cons_iff in F as [(A & B & C) F]. destruct (new_total E ok n _ I J T p A B) as (i & I1 & I2).
    assert (I3 : e_chk E (i_par E i) = Ok true).
    { unfold ind_new in I1. apply bind_ok in I1 as (q & Q1 & I1). apply bind_ok in I1 as (m & _ & I1). apply bind_ok in I1 as (c & _ & I1).
      destruct (tm_cln _ _ _ _ _ _ T p A) as (q' & Q2 & _ & Q3). assert (q' = q) by congruence. subst q'.
      assert (X : i_par E i = q) by (inversion I1; reflexivity). rewrite X, Q3. exact C. }
    cbn [init_given]. rewrite (wbind_run _ _ _ _ _ (lift_run _ _ _ I1)). unfold h_new.
    destruct (IH (h ++ [i]) w (hok_new E ok n h i Hh I2) F) as (h' & as_ & E1 & A1 & A2 & A3 & A4). rewrite (wbind_run _ _ _ _ _ E1). cbn [fst snd].
    exists h', (length h :: as_). split; [reflexivity|]. split; [exact A1|]. split; [exact (ext_trans E _ _ _ (ext_new E h i) A2)|]. split; [|cbn; congruence].
    intros x [<-|Hx]; [|exact (A3 x Hx)]. destruct (A2 (length h) i) as (c' & B1 & B2 & _). { rewrite nth_error_app2 by lia. rewrite Nat.sub_diag. reflexivity. }
    exists c'. rewrite B2. auto.
Qed.

Lemma one_call c lim m k w : good_call c -> kinv lim m k -> (forall j, (j <= m + 3 * cf_pop cfg * Z.to_nat (cf_gens cfg))%nat -> over lim 40 j = false) -> I w ->
  exists q snaps s w', ga_optimize E hash (ca_f c) same_type same_meta cfg (ca_initial c) parse None k (ca_par c) true w = (Ok (q, snaps, s), w') /\
    ok q /\ e_chk E q = Ok true /\ I w' /\ kinv lim (m + 3 * cf_pop cfg * Z.to_nat (cf_gens cfg)) (g_counter E s) /\ all_moderate E snaps.
Proof.
  intros (Hf & Hp & He & Hi) Hk Ho Hw. pose proof even as Hev. apply Nat.even_spec in Hev as [half Hhalf].
  destruct (new_total E ok n _ I J T (ca_par c) Hp He) as (b & B1 & B2).
  assert (X : exists h ps w1, ga_initialize E same_type same_meta cfg (ca_initial c) (ca_par c) w = (Ok (h, ps, length h - 1)%nat, w1) /\ hok h /\ pok h ps /\ length ps = cf_pop cfg /\ (0 < length h)%nat /\ I w1).
  { unfold ga_initialize. destruct (ca_initial c) as [ps|].
    - destruct Hi as [Hl F]. rewrite Hl, Nat.eqb_refl. cbn [negb].
      destruct (given_total ps [] w (Forall_nil _)) as (h & as_ & E1 & A1 & A2 & A3 & A4). { eapply Forall_impl; [|exact F]. intros q (X1 & X2 & X3 & _). auto. }
      assert (E2 : (let* _ := wlift (validate_initial E same_type same_meta ps (ca_par c)) in init_given E ps []) w = (Ok (h, as_), w)).
      { rewrite (wbind_run _ _ _ _ _ (lift_run _ _ _ (validate_total (ca_par c) ps ltac:(eapply Forall_impl; [|exact F]; intros q (_ & _ & _ & X4 & X5); auto)))). exact E1. }
      rewrite (wbind_run _ _ _ _ _ E2). cbn [fst snd]. rewrite (wbind_run _ _ _ _ _ (lift_run _ _ _ B1)). unfold h_new.
      exists (h ++ [b]), as_, w. rewrite app_length. cbn [length]. replace (length h + 1 - 1)%nat with (length h) by lia. split; [reflexivity|].
      split; [apply hok_new; assumption|]. split; [exact (ext_pok E h (h ++ [b]) as_ (ext_new E h b) A3)|]. split; [congruence|]. split; [lia|exact Hw].
    - destruct (init_total E ok n _ I J T fuel (ca_par c) Hp He (cf_pop cfg) [] w (Forall_nil _) Hw) as (h & ps & w1 & E1 & A1 & A2 & A3 & A4 & A5).
      rewrite (wbind_run _ _ _ _ _ E1). cbn [fst snd]. rewrite (wbind_run _ _ _ _ _ (lift_run _ _ _ B1)). unfold h_new.
      exists (h ++ [b]), ps, w1. rewrite app_length. cbn [length]. replace (length h + 1 - 1)%nat with (length h) by lia. split; [reflexivity|].
      split; [apply hok_new; assumption|]. split; [exact (ext_pok E h (h ++ [b]) ps (ext_new E h b) A3)|]. split; [exact A4|]. split; [lia|exact A5]. }
  destruct X as (h & ps & w1 & E1 & A1 & A2 & A3 & A4 & A5).
  unfold ga_optimize. cbn [negb]. rewrite (wbind_run _ _ _ _ _ E1). cbn iota. rewrite (wbind_run _ _ _ _ _ (lift_run (Ok h) w1 _ eq_refl)).
  assert (R : (3 * cf_pop cfg * Z.to_nat (cf_gens cfg) = 3 * (2 * half) * Z.to_nat (cf_gens cfg))%nat) by (rewrite Hhalf; reflexivity). rewrite R in *. 
  destruct (run_total E ok n _ I J T fuel hash (ca_f c) Hf lim cfg half ltac:(lia) ltac:(rewrite <- Hhalf; exact popmax) eq_refl (Z.to_nat (cf_gens cfg)) 0 (MkG E h ps (length h - 1) k) w1 m)
    as (z & snaps & w' & R1 & R2 & R3 & R4 & R5 & R6 & R7); cbn [g_heap g_pop g_best g_counter]; try assumption; try lia.
  rewrite (wbind_run _ _ _ _ _ R1). cbn [fst snd].
  destruct (nth_error (g_heap E z) (g_best E z)) as [bi|] eqn:Nb; [|apply nth_error_None in Nb; lia].
  rewrite (wbind_run _ _ _ _ _ (lift_run _ _ _ (get_run E _ _ bi Nb))).
  destruct (tm_dec _ _ _ _ _ _ T (ca_par c) (i_chr E bi) Hp (proj1 (proj2 (hok_nth _ _ _ _ _ _ R2 Nb)))) as (q & Q1 & Q2 & Q3). rewrite Q1.
  rewrite (wbind_run _ _ _ _ _ (lift_run (Ok tt) w' tt eq_refl)). exists q, snaps, z, w'. split; [reflexivity|]. auto.
Qed.
Lemma many_calls lim : forall cs m k w, Forall good_call cs -> kinv lim m k -> (forall j, (j <= m + 3 * cf_pop cfg * Z.to_nat (cf_gens cfg) * length cs)%nat -> over lim 40 j = false) -> I w ->
  exists qs k' w', ga_calls E hash same_type same_meta parse cfg cs k w = (Ok (qs, k'), w') /\ length qs = length cs /\ Forall (fun q => ok q /\ e_chk E q = Ok true) qs /\ I w'.
Proof.
  induction cs as [|c cs IH]; intros m k w F Hk Ho Hw; [exists [], k, w; cbn; auto|]. apply Forall_cons_iff in F as [G F].
  destruct (one_call c lim m k w G Hk) as (q & snaps & s & w1 & E1 & A1 & A2 & A3 & A4 & _); [|exact Hw|]. { intros j Hj. apply Ho. cbn [length]. nia. }
  cbn [ga_calls]. rewrite (wbind_run _ _ _ _ _ E1). cbn [fst snd].
  destruct (IH _ _ w1 F A4) as (qs & k' & w' & E2 & B1 & B2 & B3); [|exact A3|]. { intros j Hj. apply Ho. cbn [length]. nia. }
  rewrite (wbind_run _ _ _ _ _ E2). cbn [fst snd]. exists (q :: qs), k', w'. cbn [length]. split; [reflexivity|]. split; [congruence|]. split; [constructor; [split; assumption|exact B2]|exact B3].
Qed.
End Calls.

Theorem C79_calls : forall E ok n I J cfg hash same_type same_meta parse limit cs w,
  tame E ok n (cf_gens cfg) I J -> 0 < cf_gens cfg -> (1 <= e_fuel E)%nat ->
  (2 <= cf_pop cfg)%nat -> Nat.even (cf_pop cfg) = true -> Z.of_nat (cf_pop cfg) <= 2 ^ 31 ->
  (d_ltb (d_ofZ 0) limit = true -> forall j, (j <= 3 * cf_pop cfg * Z.to_nat (cf_gens cfg) * length cs)%nat -> over limit 40 j = false) ->
  Forall (good_call E ok n cfg same_type same_meta) cs -> I w ->
  exists qs k w', ga_calls E hash same_type same_meta parse cfg cs (counter_new limit) w = (Ok (qs, k), w') /\ length qs = length cs /\
    Forall (fun q => ok q /\ e_chk E q = Ok true) qs.
Proof.
  intros E ok n I J cfg hash st sm parse limit cs w T Hg Hf H2 Hev Hl Ho G Hw.
  assert (Kl : exists lim, kinv lim 0 (counter_new limit) /\ forall j, (j <= 3 * cf_pop cfg * Z.to_nat (cf_gens cfg) * length cs)%nat -> over lim 40 j = false).
  { unfold counter_new, c_create. destruct (d_ltb (d_ofZ 0) limit) eqn:Li.
    - exists limit. split; [|exact (Ho eq_refl)]. unfold kinv, cinv. cbn. split; [reflexivity|]. split; [reflexivity|]. split; [lia|constructor].
    - exists d_inf. split; [exact Logic.I|]. intros j _. unfold over. destruct (d_div _ _) as [[]|[]| |[]]; reflexivity. }
  destruct Kl as (lim & K1 & K2).
  destruct (many_calls E ok n I J cfg T Hg Hf H2 Hev Hl hash st sm parse lim cs 0 (counter_new limit) w G K1 K2 Hw) as (qs & k & w' & E1 & A & B & _).
  exists qs, k, w'. auto.
Qed.

(** ** The library's classes *)
(** what is asked of a call when the parameters objects are the library's: chromosomes of [n] genes, all decodable; initial parameters are as
    many as the population, satisfy their constraints and have the type and settings of the parameters to optimize *)
Record library_call (N : Num) (n pop : nat) (c : call (param N)) : Prop := MkLibraryCall {
  lc_objective : forall q, p_check N q = Ok true -> exists v, ca_f c q = Ok v /\ moderate v;
  lc_par : decodable N n (ca_par c);
  lc_initial : forall ps, ca_initial c = Some ps -> length ps = pop /\
    Forall (fun q => decodable N n q /\ p_check N q = Ok true /\ p_same_type N q (ca_par c) = true /\ p_same_meta N q (ca_par c) = Ok true) ps }.

Section LibCalls.
Variable N : Num.
Variable RM : Z.
Variable M : genmut.
Variable ctx : Z -> Z -> gm_st M -> gm_st M.
Variable fuel : nat.
Variable cfg : ga_cfg.
Variables P Q : gm_st M -> Prop.
Hypothesis RMok : 0 < RM <= INT_MAX.
Hypothesis ctxok : forall cur m, 0 <= cur < cf_gens cfg -> P m -> Q (ctx cur (cf_gens cfg) m).
Hypothesis mutok : forall c m g, Q m -> rvalid RM g -> exists c' m' g', mutate_chromosome M c m g = (Ok (c', m'), g') /\ length c' = length c /\ Q m' /\ rvalid RM g'.
Hypothesis back : forall m, Q m -> P m.
Variable n : nat.
Hypothesis nok : (1 <= n)%nat /\ Z.of_nat n <= INT_MAX.
Lemma decodable_lok p : decodable N n p -> lok N n p.
Proof. intro D. split; [exact (dc_wf _ _ _ D)|]. split; [exact (dc_size _ _ _ D)|exact (dc_dec _ _ _ D)]. Qed.
Lemma decodable_encodes p : decodable N n p -> encodes (lib_env N RM M ctx fuel) n p.
Proof.
  intro D. destruct (dc_enc _ _ _ D (repeat false n) (repeat_length _ _)) as [c C]. exists c. split; [exact C|]. rewrite (set_chromosome_len N p _ _ C). apply repeat_length.
Qed.
Theorem C79_any_mutator_calls : forall hash parse limit cs s g m,
  0 < cf_gens cfg -> (1 <= fuel)%nat -> (2 <= cf_pop cfg)%nat -> Nat.even (cf_pop cfg) = true -> Z.of_nat (cf_pop cfg) <= 2 ^ 31 ->
  roomy limit (Z.of_nat (cf_pop cfg)) (cf_gens cfg * Z.of_nat (length cs)) ->
  Forall (library_call N n (cf_pop cfg)) cs -> rnd_ok s -> rvalid RM g -> P m ->
  exists qs k w', ga_calls (lib_env N RM M ctx fuel) hash (p_same_type N) (p_same_meta N) parse cfg cs (counter_new limit) (s, g, m) = (Ok (qs, k), w') /\
    length qs = length cs /\ Forall (fun q => p_check N q = Ok true) qs.
Proof.
  intros hash parse limit cs s g m Hg0 Hf H2 Hev Hl Ho F Hs Hr Hm.
  destruct (C79_calls (lib_env N RM M ctx fuel) (lok N n) n (wI RM M P) (wI RM M Q) cfg hash (p_same_type N) (p_same_meta N) parse limit cs (s, g, m)
    (lib_tame N RM M ctx fuel (cf_gens cfg) P Q RMok ctxok mutok back n nok) Hg0 Hf H2 Hev Hl) as (qs & k & w' & E1 & A & B).
  - intros L j Hj. apply (roomy_over limit (cf_pop cfg) (Z.to_nat (cf_gens cfg) * length cs)); [|exact L|rewrite Nat.mul_assoc; exact Hj].
    rewrite Nat2Z.inj_mul, Z2Nat.id by lia. exact Ho.
  - eapply Forall_impl; [|exact F]. intros [cf ci cp] [C1 C2 C3]. cbn [ca_f ca_initial ca_par] in *. split; [intros q _ K; exact (C1 q K)|]. split; [exact (decodable_lok _ C2)|]. split; [exact (decodable_encodes _ C2)|].
    cbn [ca_initial ca_par]. destruct ci as [ps|]; [|exact Logic.I]. destruct (C3 ps eq_refl) as [L G]. split; [exact L|]. eapply Forall_impl; [|exact G].
    intros q (D1 & D2 & D3 & D4). split; [exact (decodable_lok _ D1)|]. split; [exact (decodable_encodes _ D1)|]. auto.
  - split; [exact Hs|]. split; assumption.
  - exists qs, k, w'. split; [exact E1|]. split; [exact A|]. eapply Forall_impl; [|exact B]. intros q [_ X]. exact X.
Qed.
End LibCalls.

Theorem C79_flip_bit_calls : forall N RM fuel hash parse cfg limit n cs probability g0 m s g,
  0 < RM <= INT_MAX -> (1 <= n)%nat -> Z.of_nat n <= INT_MAX -> (1 <= fuel)%nat ->
  0 < cf_gens cfg -> (2 <= cf_pop cfg)%nat -> Nat.even (cf_pop cfg) = true -> Z.of_nat (cf_pop cfg) <= 2 ^ 31 ->
  roomy limit (Z.of_nat (cf_pop cfg)) (cf_gens cfg * Z.of_nat (length cs)) ->
  Forall (library_call N n (cf_pop cfg)) cs -> rnd_ok s -> rvalid RM g0 -> flip_new FNum probability g0 = (Ok m, g) ->
  exists qs k w', ga_calls (flip_env N RM fuel) hash (p_same_type N) (p_same_meta N) parse cfg cs (counter_new limit) (s, g, m) = (Ok (qs, k), w') /\
    length qs = length cs /\ Forall (fun q => p_check N q = Ok true) qs.
Proof.
  intros N RM fuel hash parse cfg limit n cs pr g0 m s g HR Hn1 Hn2 Hf Hg H2 Hev Hl Ho F Hs Hr Hm.
  destruct (flip_start RM pr g0 m g Hr Hm) as [X1 X2].
  exact (C79_any_mutator_calls N RM flip_bit (fun _ _ m0 => m0) fuel cfg fl_ok fl_ok HR (fun _ m _ H => H) (flip_total RM) (fun m H => H) n (conj Hn1 Hn2)
    hash parse limit cs s g m Hg Hf H2 Hev Hl Ho F Hs X2 X1).
Qed.
Theorem C79_linear_calls : forall N RM fuel hash parse cfg limit n cs (start stop : dbl) cur0 max0 m s g,
  0 < RM <= INT_MAX -> (1 <= n)%nat -> Z.of_nat n <= INT_MAX -> (1 <= fuel)%nat ->
  0 < cf_gens cfg <= 2 ^ 31 -> (2 <= cf_pop cfg)%nat -> Nat.even (cf_pop cfg) = true -> Z.of_nat (cf_pop cfg) <= 2 ^ 31 ->
  roomy limit (Z.of_nat (cf_pop cfg)) (cf_gens cfg * Z.of_nat (length cs)) ->
  Forall (library_call N n (cf_pop cfg)) cs -> rnd_ok s -> rvalid RM g -> lin_new FNum start stop cur0 max0 = Ok m -> 
  fin start -> fin stop -> (0 <= B2R start <= 1)%R -> (6 * bpow radix2 (-53) <= B2R stop <= 1 - 6 * bpow radix2 (-53))%R ->
  exists qs k w', ga_calls (lib_env N RM (linear FNum RM) (fun cur mx m => lin_context FNum m cur mx) fuel) hash (p_same_type N) (p_same_meta N) parse cfg cs (counter_new limit) (s, g, m) = (Ok (qs, k), w') /\
    length qs = length cs /\ Forall (fun q => p_check N q = Ok true) qs.
Proof.
  intros N RM fuel hash parse cfg limit n cs sa so cur0 max0 m s g HR Hn1 Hn2 Hf Hg H2 Hev Hl Ho F Hs Hr Hm F1 F2 B1 B2.
  assert (Em : m = MkLin FNum sa so cur0 max0). { unfold lin_new in Hm. apply bind_ok in Hm as (? & _ & Hm). apply bind_ok in Hm as (? & _ & Hm). injection Hm as <-. reflexivity. }
  refine (C79_any_mutator_calls N RM (linear FNum RM) (fun cur mx m => lin_context FNum m cur mx) fuel cfg (lin_from sa so) (lin_in sa so (cf_gens cfg)) HR _ _ _ n (conj Hn1 Hn2)
    hash parse limit cs s g m _ Hf H2 Hev Hl Ho F Hs Hr _).
  - intros cur m0 Hc (a & b & ->). exists cur. split; [exact Hc|reflexivity].
  - exact (linear_total RM sa so (cf_gens cfg) F1 F2 B1 B2 Hg).
  - intros m0 (a & _ & ->). exists a, (cf_gens cfg). reflexivity.
  - lia.
  - exists cur0, max0. exact Em.
Qed.

(** The hypotheses are met: two calls with different objective functions, the second with initial parameters. *)
Definition seven : param FNum := PInt FNum (MkInt 3 0 7 (Some 3%nat)).
Definition two_calls : list (call (param FNum)) :=
  [MkCall (fun _ => Ok (d_ofZ 1)) None seven; MkCall (fun q => match q with PInt i => Ok (if ip_value i =? 3 then d_ofZ 0 else d_ofZ 1) | _ => Ok (d_ofZ 1) end) (Some (repeat seven (cf_pop wcfg))) seven].
Example C79_calls_witness : exists m g, flip_new FNum (d_of 1 (-2)) (fun _ => 5) = (Ok m, g) /\
  exists q1 q2 k w', ga_calls (flip_env FNum 32767 1) (fun _ => 0) (p_same_type FNum) (p_same_meta FNum) (fun t => (d_ofZ 0, t)) wcfg two_calls (counter_new (d_ofZ 1)) (MkRnd 5 0 14, g, m) = (Ok ([q1; q2], k), w') /\
    p_check FNum q1 = Ok true /\ p_check FNum q2 = Ok true.
Proof.
  destruct witness_flip as (m & g & Fm & _). exists m, g. split; [exact Fm|].
  assert (R5 : rvalid 32767 (fun _ => 5)) by (intro k; lia). assert (Rk : rnd_ok (MkRnd 5 0 14)) by (unfold rnd_ok; cbn; lia).
  destruct (C79_int FNum 3 0 7 3 (MkInt 3 0 7 (Some 3%nat)) eq_refl ltac:(unfold INT_MIN; lia) ltac:(lia) ltac:(unfold INT_MAX; lia) eq_refl ltac:(cbn; lia)) as [D _].
  destruct (d_ofZ_exact 0 ltac:(lia)) as [Z0 Z1]. assert (M0 : moderate (d_ofZ 0)). { split; [exact Z0|]. rewrite Z1. split; [lra|apply bpow_ge_0]. }
  assert (F : Forall (library_call FNum 3 (cf_pop wcfg)) two_calls).
  { constructor; [|constructor; [|constructor]]; constructor; cbn [ca_f ca_initial ca_par].
    - intros q _. exists (d_ofZ 1). split; [reflexivity|exact one_moderate].
    - exact D.
    - discriminate.
    - intros q _. destruct q as [i| | |]; [destruct (ip_value i =? 3); [exists (d_ofZ 0)|exists (d_ofZ 1)]|exists (d_ofZ 1)..]; (split; [reflexivity|]); first [exact M0|exact one_moderate].
    - exact D.
    - intros ps X. assert (ps = repeat seven (cf_pop wcfg)) by congruence. subst ps. split; [apply repeat_length|]. apply Forall_forall. intros q Hq. apply repeat_spec in Hq. subst q.
      split; [exact D|]. split; [reflexivity|]. split; reflexivity. }
  assert (Ro : roomy (d_ofZ 1) (Z.of_nat (cf_pop wcfg)) (cf_gens wcfg * Z.of_nat (length two_calls))).
  { destruct (d_ofZ_exact 1 ltac:(lia)) as [A B]. split; [exact A|]. right. rewrite B. split; [cbn; lia|]. cbn. lra. }
  destruct (C79_flip_bit_calls FNum 32767 1 (fun _ => 0) (fun t => (d_ofZ 0, t)) wcfg (d_ofZ 1) 3 two_calls (d_of 1 (-2)) (fun _ => 5) m (MkRnd 5 0 14) g) as (qs & k & w' & E1 & L & V);
    [unfold INT_MAX; lia|lia|unfold INT_MAX; lia|lia|cbn; lia|cbn; lia|reflexivity|cbn; lia|exact Ro|exact F|exact Rk|exact R5|exact Fm|].
  destruct qs as [|q1 [|q2 [|q3 qs]]]; try discriminate L. apply Forall_cons_iff in V as [V1 V]. apply Forall_cons_iff in V as [V2 _].
  exists q1, q2, k, w'. auto.
Qed.
Print Assumptions C79_flip_bit_calls. Print Assumptions C79_linear_calls. Print Assumptions C79_calls_witness. Print Assumptions C79_any_mutator_calls.
