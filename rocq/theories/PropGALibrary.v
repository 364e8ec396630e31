(** C79 for the library's own classes: parameter objects of which every chromosome decodes to valid values, the Random
    object, the FlipBitMutator or the LinearMutator. *)
From Coq Require Import Reals Psatz Permutation.
From Flocq Require Import Core.Core IEEE754.BinarySingleNaN.
From Verif Require Import Base Num DblOrder ParamsSpec IntProofs DoubleProofs FDoubleProofs FloatLemmas RoundError Random Params CompositeProofs Mutators Cache Individual LibEnv GA GAInit PropIntParam PropParams PropMutators PropQuantise PropExamples PropBinary64 PropGATotal.
Local Open Scope Z_scope.
Local Open Scope list_scope.

(** A parameter object with chromosomes of [n] genes: SetChromosome succeeds now, and every chromosome of [n] genes decodes to
    an object that satisfies its constraints. *)
Record decodable (N : Num) (n : nat) (p : param N) : Prop := MkDecodable {
  dc_wf : wf_param N p;
  dc_size : p_size N p = Ok n;
  dc_enc : forall old, length old = n -> exists c, p_set_chromosome N p old = Ok c;
  dc_dec : forall c, length c = n -> exists q, p_set_from N p c = (q, Ok tt) /\ p_check N q = Ok true }.

Lemma toint_int (x : dbl) i : d_toint x = Ok i -> INT_MIN <= i <= INT_MAX.
Proof.
  unfold d_toint. intro H. destruct (is_finite x); [|discriminate H]. destruct (in_int (Btrunc x)) eqn:Iz; [|discriminate H]. injection H as <-. apply in_int_true. exact Iz.
Qed.
(** DoubleParameter in binary64: always (the range is not microscopic). *)
Theorem C79_double : forall v mn mx pr d, dp_make FNum v mn mx pr = Ok d -> (bpow radix2 (-992) <= B2R mx - B2R mn)%R ->
  exists n, decodable FNum n (PDouble FNum d) /\ (n <= 30)%nat.
Proof.
  intros v mn mx pr d H W. destruct (dp_make_F_inv _ _ _ _ _ H) as (k & i & Hk & Fmn & Fmx & Hlt & Fw & Ed). exists k. split; [|exact Hk].
  assert (Hs : dp_size FNum d = Some k) by (rewrite Ed; reflexivity). 
  assert (Hi : INT_MIN <= i <= INT_MAX).
  { unfold dp_make in H. destruct (n_leb FNum mx mn); [discriminate|]. destruct (negb (dp_check_bounds FNum mn mx v)); [discriminate|].
    apply bind_ok in H as (m & _ & H). apply bind_ok in H as (best & _ & H). apply bind_ok in H as (base & Hb & H). apply bind_ok in H as (j & Hj & H).
    unfold dp_quantise in Hj. apply (f_equal (fun o => match o with Ok x => match dp_base FNum x with Some b => ip_value b | None => 0 end | _ => 0 end)) in H.
    rewrite Ed in H. cbn [dp_base ip_value ip_set_value] in H. subst j. cbn [n_toint FNum] in Hj. exact (toint_int _ _ Hj). }
  constructor.
  - exact (wf_dp_make FNum _ _ _ _ _ H).
  - cbn [p_size]. rewrite Hs. reflexivity.
  - intros old Lo. cbn [p_set_chromosome]. rewrite Ed. unfold dp_set_chromosome. cbn [dp_base]. eexists. apply (ip_encode _ k); [reflexivity|exact Hk|exact Lo|cbn; lia].
  - intros c Lc. destruct (C05_binary64_decode_valid v mn mx pr d k c H W Hs Lc) as (d' & D1 & D2 & _). exists (PDouble FNum d'). cbn [p_set_from p_check]. rewrite D1. auto.
Qed.

(** IntParameter: when the values of the chromosome, 2^k of them, all fit between the bounds (the width is 2^k - 1 or 2^k). *)
Theorem C79_int : forall N v mn mx k p, ip_make v mn mx = Ok p -> INT_MIN <= mn -> mn <= v <= mx -> mx <= INT_MAX -> ip_size p = Some k -> 2 ^ Z.of_nat k - 1 <= mx - mn ->
  decodable N k (PInt N p) /\ (k <= 30)%nat.
Proof.
  intros N v mn mx k p H Hmn Hv Hmx Hs Hr.
  assert (Hk : (k <= 30)%nat).
  { destruct (Z_le_dec (mx - mn) (2 ^ 30)) as [L|L].
    - destruct (count_size_ok mn mx ltac:(unfold INT_MIN in *; lia)) as (k' & Hk & B & _). unfold ip_make in H. rewrite Hk in H. cbn [bind] in H. injection H as <-. cbn in Hs. injection Hs as <-. exact B.
    - unfold ip_make in H. rewrite (count_size_ub mn mx) in H by lia. discriminate H. }
  assert (Ev : ip_value p = v /\ ip_min p = mn). { unfold ip_make in H. apply bind_ok in H as (k' & _ & H). injection H as <-. split; reflexivity. }
  destruct Ev as [Ev Em]. pose proof (pow2_30 k Hk) as P30. split; [|exact Hk]. constructor.
  - exact (wf_ip_make N _ _ _ _ H).
  - cbn [p_size]. rewrite Hs. reflexivity.
  - intros old Lo. cbn [p_set_chromosome]. eexists. apply (ip_encode _ k); [exact Hs|exact Hk|exact Lo|]. rewrite Ev, Em.
    destruct (Z_le_dec (mx - mn) (2 ^ 30)) as [L|L]; [change (2 ^ 30) with 1073741824 in L; unfold INT_MIN, INT_MAX; lia|].
    unfold ip_make in H. rewrite (count_size_ub mn mx) in H by lia. discriminate H.
  - intros c Lc. pose proof (bits_val_range c) as Rg. rewrite Lc in Rg.
    destruct (proj1 (C03_decode v mn mx p k c H Hmn Hs Lc) ltac:(lia)) as (q & Q1 & Q2 & _ & _ & _ & _ & Q3 & _). exists (PInt N q). cbn [p_set_from p_check]. rewrite Q1.
    split; [reflexivity|]. f_equal. apply Q3. lia.
Qed.

(** DoubleParametersArray in binary64: values away from the maximum, a precision above three times the rounding error (about 2^-50 of the bounds). *)
Section Array.
Variables (mn mx pr : dbl) (s0 : DoubleParam FNum).
Hypotheses (Hmake : dp_make FNum mn mn mx pr = Ok s0) (Fp : fin pr)
  (Bmn : (Rabs (B2R mn) <= bpow radix2 1022)%R) (Bmx : (Rabs (B2R mx) <= bpow radix2 1022)%R) (Hw : (bpow radix2 (-992) <= B2R mx - B2R mn)%R).
Hypothesis (Sl : (3 * slack (B2R mn) (B2R mx) < B2R (dp_prec FNum s0))%R).
Lemma decv k i b : (k <= 30)%nat -> length b = k -> dp_set_from FNum (st mn mx k i) b = (st mn mx k (bits_val b), Ok tt).
Proof.
  intros Hk L. unfold dp_set_from, st. cbn [dp_base]. pose proof (pow2_30 k Hk). pose proof (bits_val_range b) as R. rewrite L in R.
  rewrite (ip_decode _ k); [|reflexivity|exact Hk|exact L|cbn; unfold INT_MIN, INT_MAX; lia]. cbn [ip_min ip_set_value ip_max ip_size]. rewrite Z.add_0_r. reflexivity.
Qed.
Lemma val_in k i0 b : s0 = st mn mx k i0 -> (k <= 30)%nat -> length b = k -> in_range mn mx (val mn mx k (bits_val b)).
Proof.
  intros E Hk L. destruct (dp_make_F_inv _ _ _ _ _ Hmake) as (k' & i & _ & Fmn & Fmx & Hlt & _ & _).
  pose proof (bits_val_range b) as R. rewrite L in R.
  assert (Sz : dp_size FNum s0 = Some k) by (rewrite E; reflexivity).
  destruct (F_decode mn mn mx pr _ k b Hmake Hw Sz L) as (d2 & Hs & _ & x & Hg & Fx & Lx & Ux). rewrite E, (decv k i0 b Hk L) in Hs.
  assert (OKp : forall (a b : DoubleParam FNum) (x y : outcome unit), (a, x) = (b, y) -> a = b) by (intros a c y z e; injection e; auto). apply OKp in Hs. subst d2.
  assert (OK : forall (a b : dbl), Ok a = Ok b -> a = b) by (intros a c e; injection e; auto). apply OK in Hg. change (val mn mx k (bits_val b) = x) in Hg.
  rewrite Hg. split; [exact Fx|]. split; [exact Lx|]. rewrite <- Hg.
  pose proof (value_F mn mx k Fmn Fmx Bmn Bmx Hw Hk (bits_val b) ltac:(lia)) as Vf. cbv zeta in Vf.
  destruct (W_fin mn mx Fmn Fmx Bmn Bmx) as [FW EW]. pose proof (W_err mn mx Fmn Fmx Bmn Bmx Hw) as WE. apply Rabs_le_inv in WE.
  destruct (P_val mn mx k Fmn Fmx Bmn Bmx Hw Hk) as [FP EP].
  rewrite E in Sl. cbn [st dp_prec] in Sl. unfold val. set (P := d_div (d_sub mx mn) (d_ofZ (2 ^ Z.of_nat k))) in *. 
  change (B2R P) with (V P) in *. apply Rabs_le_inv in Vf.
  assert (Hb : (IZR (bits_val b) <= 2 ^ k - 1)%R). { rewrite pow_IZR, <- minus_IZR. apply IZR_le. rewrite <- (Z2Nat.id (bits_val b)) by lia. lia. }
  assert (P0 : (0 < V P)%R). { unfold slack in Sl. pose proof (bpow_gt_0 radix2 (-53)). pose proof (Rabs_pos (B2R mn)). pose proof (Rmax_l (Rabs (B2R mn)) (Rabs (B2R mx))).
    assert (0 <= bpow radix2 (-53) * (4 * (B2R mx - B2R mn) + Rmax (Rabs (B2R mn)) (Rabs (B2R mx))))%R by (apply Rmult_le_pos; lra). lra. }
  assert (X : (IZR (bits_val b) * V P <= (2 ^ k - 1) * V P)%R) by (apply Rmult_le_compat_r; lra).
  assert (Y : ((2 ^ k - 1) * V P = V (d_sub mx mn) - V P)%R). { rewrite EP. field. apply pow_nonzero. lra. }
  assert (Z4 : (4 * (bpow radix2 (-53) * (B2R mx - B2R mn)) <= slack (B2R mn) (B2R mx))%R).
  { unfold slack. pose proof (bpow_gt_0 radix2 (-53)). pose proof (Rabs_pos (B2R mn)). pose proof (Rmax_l (Rabs (B2R mn)) (Rabs (B2R mx))).
    assert (0 <= bpow radix2 (-53) * Rmax (Rabs (B2R mn)) (Rabs (B2R mx)))%R by (apply Rmult_le_pos; lra). lra. }
  unfold u in WE. lra.
Qed.
Lemma dec_all k i0 : s0 = st mn mx k i0 -> (k <= 30)%nat -> forall n i bits, length bits = (k * n)%nat ->
  exists vs, da_decode_loop FNum (st mn mx k i) k n bits = Ok vs /\ length vs = n /\ Forall (in_range mn mx) vs.
Proof.
  intros E Hk. induction n as [|n IH]; intros i bits L; [exists []; split; [reflexivity|split; [reflexivity|constructor]]|].
  rewrite Nat.mul_succ_r in L. assert (Lf : length (firstn k bits) = k) by (apply firstn_length_le; lia).
  destruct (IH (bits_val (firstn k bits)) (skipn k bits)) as (vs & D & Lv & Fv); [rewrite skipn_length; lia|].
  exists (val mn mx k (bits_val (firstn k bits)) :: vs). cbn [da_decode_loop]. rewrite (decv k i _ Hk Lf). cbn [bind].
  change (dp_get_value FNum (st mn mx k (bits_val (firstn k bits)))) with (Ok (val mn mx k (bits_val (firstn k bits)))). cbn [bind]. rewrite D. cbn [bind].
  split; [reflexivity|]. split; [cbn [length]; congruence|]. constructor; [exact (val_in k i0 _ E Hk Lf)|exact Fv].
Qed.
End Array.
Theorem C79_array : forall mn mx pr n a vs a1, da_make FNum mn mx pr n = Ok a -> fin pr ->
  (Rabs (B2R mn) <= bpow radix2 1022)%R -> (Rabs (B2R mx) <= bpow radix2 1022)%R -> (bpow radix2 (-992) <= B2R mx - B2R mn)%R ->
  (3 * slack (B2R mn) (B2R mx) < B2R (dp_prec FNum (da_sample FNum a)))%R ->
  Forall (fun w => fin w /\ (B2R mn <= B2R w < B2R mx - 4 * bpow radix2 (-53) * (B2R mx - B2R mn))%R) vs -> da_set_values FNum a vs = (a1, Ok tt) ->
  exists k, dp_size FNum (da_sample FNum a) = Some k /\ (k <= 30)%nat /\ decodable FNum (k * n) (PArr FNum a1).
Proof.
  intros mn mx pr n a vs a1 H Fp Bmn Bmx Hw Sl F Hset. pose proof (wf_da_make FNum mn mx pr n a H) as Wa. pose proof H as Hmk. unfold da_make in H. apply bind_ok in H as (s & Hs & H). apply bind_ok in H as (k' & Hk' & H).
  destruct (st_of mn mx pr s Hs) as (k & i0 & Hk & E). rewrite E in Hk'. cbn in Hk'. injection Hk' as <-. injection H as <-. cbn [da_sample] in *.
  exists k. split; [rewrite E; reflexivity|]. split; [exact Hk|].
  assert (WV : forall ws x, da_set_values FNum {| da_sample := s; da_values := repeat (n_ofZ FNum 0) n; da_size := Some (k * n)%nat |} ws = (x, Ok tt) ->
    length ws = n /\ x = {| da_sample := s; da_values := ws; da_size := Some (k * n)%nat |} /\ da_check FNum x = Ok true).
  { intros ws x. unfold da_set_values. destruct (Nat.eqb (length ws) _) eqn:Q; cbn [negb]; [|discriminate]. apply Nat.eqb_eq in Q. cbn [da_values] in Q. rewrite repeat_length in Q.
    unfold da_with_values. cbn [da_sample da_size]. destruct (da_check _ _) as [[]| |] eqn:Dc; intro X; inversion X. subst x. auto. }
  destruct (WV _ _ Hset) as (Lv & -> & _). constructor.
  - inversion Wa as [| |? k1 W1 W2 W3|]; subst. apply wf_arr with k1; [exact W1|exact W2|]. cbn [da_size da_values] in *. rewrite repeat_length in W3. exact W3.
  - reflexivity.
  - intros old Lo. cbn [p_set_chromosome]. unfold da_set_chromosome. cbn [da_sample da_size da_values]. unfold cs_check. rewrite Lo, Nat.eqb_refl. cbn [bind]. rewrite E. cbn [dp_size st cs_get bind].
    destruct (through mn mx pr s Hs Bmn Bmx Hw k i0 E Hk vs F i0 old) as (c & vs' & He & _); [exact (eq_trans Lo (f_equal (Nat.mul k) (eq_sym Lv)))|]. exists c. exact He.
  - intros bits Lb. cbn [p_set_from p_check]. destruct (dec_all mn mx pr s Hs Bmn Bmx Hw Sl k i0 E Hk n i0 bits Lb) as (ws & Dw & Lw & Fw).
    destruct (C07_binary64 mn mx pr n _ Hmk Fp Bmn Bmx Hw ws Lw Fw) as (a2 & S2 & _). destruct (WV _ _ S2) as (_ & -> & Ck).
    exists (PArr FNum {| da_sample := s; da_values := ws; da_size := Some (k * n)%nat |}). split; [|exact Ck]. unfold da_set_from. cbn [da_sample da_size da_values]. unfold cs_check. rewrite Lb, Nat.eqb_refl. cbn [bind].
    rewrite E. cbn [dp_size st cs_get bind]. rewrite Lv, Dw. reflexivity.
Qed.

(** CompositeDiscreteParameters of such objects. *)
Theorem C79_composite : forall N ps c, Forall (fun p => exists k, decodable N k p) ps -> comp_initialize N (comp_new N) ps = (c, Ok tt) -> exists n, decodable N n c /\ total_size N ps = Ok n.
Proof.
  intros N ps c F H.
  assert (W : Forall (wf_param N) ps) by (eapply Forall_impl; [|exact F]; intros p [k D]; exact (dc_wf _ _ _ D)).
  destruct (wf_initialize N ps W) as (n & I1 & I2 & I3). rewrite I1 in H. injection H as <-. exists n. split; [|exact I2]. constructor.
  - exact I3.
  - reflexivity.
  - intros old Lo. rewrite set_chromosome_comp. unfold cs_check. rewrite Lo, Nat.eqb_refl. cbn [bind]. clear I1 I3 W. revert n old I2 Lo.
    induction F as [|p ps [k D] F IH]; intros n old T L; [eexists; reflexivity|]. cbn [total_size] in T. rewrite (dc_size _ _ _ D) in T. cbn [bind] in T.
    apply bind_ok in T as (b & T & Eb). injection Eb as <-. cbn [comp_encode]. rewrite (dc_size _ _ _ D). cbn [bind]. rewrite (proj2 (Nat.leb_le k (length old))) by lia.
    destruct (dc_enc _ _ _ D (firstn k old)) as [c1 C1]; [apply firstn_length_le; lia|]. rewrite C1. cbn [bind].
    destruct (IH b (skipn k old) T) as [c2 C2]; [rewrite skipn_length; lia|]. rewrite C2. cbn [bind]. eauto.
  - intros bits Lo. rewrite set_from_comp. unfold cs_check. rewrite Lo, Nat.eqb_refl.
    assert (G : exists ps', comp_decode N ps bits = (ps', Ok tt) /\ Forall (fun p => p_check N p = Ok true) ps').
    { clear I1 I3 W. revert n bits I2 Lo.
      induction F as [|p ps [k D] F IH]; intros n bits T L; [exists []; split; [reflexivity|constructor]|]. cbn [total_size] in T. rewrite (dc_size _ _ _ D) in T. cbn [bind] in T.
      apply bind_ok in T as (b & T & Eb). injection Eb as <-. cbn [comp_decode]. rewrite (dc_size _ _ _ D). rewrite (proj2 (Nat.leb_le k (length bits))) by lia.
      destruct (dc_dec _ _ _ D (firstn k bits)) as (q & Q1 & Q2); [apply firstn_length_le; lia|]. rewrite Q1.
      destruct (IH b (skipn k bits) T) as (ps' & P1 & P2); [rewrite skipn_length; lia|]. rewrite P1. eexists. split; [reflexivity|]. constructor; assumption. }
    destruct G as (ps' & G1 & G2). rewrite G1. eexists. split; [reflexivity|]. rewrite check_comp. apply comp_check_spec. exact G2.
Qed.

(** ** the random numbers and the mutators *)
Definition rnd_ok (s : rnd) : Prop := 0 <= next_bit s /\ max_bit s <= 30.
Lemma get_bool_total RM s g : rnd_ok s -> rvalid RM g -> exists b s' g', get_bool s g = (Ok (b, s'), g') /\ rnd_ok s' /\ rvalid RM g'.
Proof.
  intros [H1 H2] Hg. unfold get_bool, next_bit_from_base. destruct (max_bit s <? next_bit s) eqn:L.
  - unfold draw. cbn [next_bit]. change ((0 <? 0) || (30 <? 0))%bool with false. cbv iota. cbn [omap fst snd]. eexists _, _, _. split; [reflexivity|]. split; [unfold rnd_ok; cbn; lia|]. intro k. apply Hg.
  - apply Z.ltb_ge in L. destruct (Z.ltb_spec (next_bit s) 0); [lia|]. destruct (Z.ltb_spec 30 (next_bit s)); [lia|]. cbn [orb omap fst snd].
    eexists _, _, _. split; [reflexivity|]. split; [unfold rnd_ok; cbn; lia|exact Hg].
Qed.
Lemma flip_total RM : forall c m g, fl_ok m -> rvalid RM g -> exists c' m' g', mutate_chromosome flip_bit c m g = (Ok (c', m'), g') /\ length c' = length c /\ fl_ok m' /\ rvalid RM g'.
Proof.
  induction c as [|b c IH]; intros m g Hm Hg; [exists [], m, g; cbn; auto|]. destruct Hm as (M1 & M2 & M3). cbn [mutate_chromosome flip_bit gm_should gm_after gm_st].
  destruct (Z.leb_spec (fl_skip m) (fl_cur m)) as [L|L].
  - destruct (flip_set_ok (fl_max m) g M1 (proj1 (Hg 0%nat))) as [E R]. rewrite E.
    destruct (IH (MkFlip (fl_max m) (g 0%nat mod (fl_max m + 1)) 0) (fun i => g (S i))) as (c' & m' & g' & E1 & A1 & A2 & A3); [unfold fl_ok; cbn; lia|intro i; apply Hg|].
    rewrite E1. cbn [bind fst snd]. eexists _, m', g'. split; [reflexivity|]. cbn. auto.
  - rewrite IntProofs.chk_int_ok by (unfold INT_MAX, INT_MIN in *; lia). cbn [omap].
    destruct (IH (MkFlip (fl_max m) (fl_skip m) (fl_cur m + 1)) g) as (c' & m' & g' & E1 & A1 & A2 & A3); [unfold fl_ok; cbn; lia|exact Hg|].
    rewrite E1. cbn [bind fst snd]. eexists _, m', g'. split; [reflexivity|]. cbn. auto.
Qed.

(** The cache: none (the limit is not positive), or room for all that a run can put into it: at most three entries of 40
    bytes per individual and generation (the limit is in megabytes). *)
Definition roomy (limit : dbl) (pop gens : Z) : Prop :=
  is_finite limit = true /\ ((B2R limit <= 0)%R \/ 120 * pop * gens <= 2 ^ 53 /\ (IZR (120 * pop * gens) <= B2R limit * 1048576)%R).
Lemma roomy_over limit pop gens : roomy limit (Z.of_nat pop) (Z.of_nat gens) -> d_ltb (d_ofZ 0) limit = true ->
  forall j, (j <= 3 * pop * gens)%nat -> over limit 40 j = false.
Proof.
  intros [F H] L j Hj. destruct (d_ofZ_exact 0 ltac:(lia)) as [Z0 Z1]. apply (d_ltb_R _ _ Z0 F) in L. rewrite Z1 in L.
  destruct H as [H|[H1 H2]]; [lra|]. unfold over.
  assert (J : 0 <= 40 * Z.of_nat j <= 120 * Z.of_nat pop * Z.of_nat gens) by nia. change (2 ^ 53) with 9007199254740992 in H1.
  destruct (d_ofZ_exact (40 * Z.of_nat j) ltac:(change (2 ^ 53) with 9007199254740992; lia)) as [A0 A1]. destruct (d_ofZ_exact 1048576 ltac:(lia)) as [B0 B1].
  assert (X : (0 <= IZR (40 * Z.of_nat j) / 1048576 <= B2R limit)%R).
  { pose proof (IZR_le _ _ (proj1 J)) as J0. pose proof (IZR_le _ _ (proj2 J)) as J1. split; [unfold Rdiv; apply Rmult_le_pos; lra|]. apply Rmult_le_reg_r with 1048576%R; [lra|]. unfold Rdiv. rewrite Rmult_assoc, Rinv_l by lra. lra. }
  destruct (d_div_finite (d_ofZ (40 * Z.of_nat j)) (d_ofZ 1048576) A0) as [C0 C1].
  { rewrite B1. lra. }
  { rewrite A1, B1. apply no_overflow. rewrite Rabs_pos_eq by lra. apply Rle_trans with (IZR (40 * Z.of_nat j) / 1)%R.
    - unfold Rdiv. apply Rmult_le_compat_l; [apply IZR_le; lia|]. apply Rinv_le; lra.
    - unfold Rdiv. rewrite Rinv_1, Rmult_1_r. apply Rle_trans with (IZR (2 ^ 53)); [apply IZR_le; change (2 ^ 53) with 9007199254740992; lia|]. change (IZR (2 ^ 53)) with (bpow radix2 53). apply bpow_le. lia. }
  destruct (d_ltb limit _) eqn:D; [|reflexivity]. apply (d_ltb_R _ _ F C0) in D. rewrite C1, A1, B1 in D.
  assert (rnd64 (IZR (40 * Z.of_nat j) / 1048576) <= B2R limit)%R by (apply rnd_le_fmt; [apply X|apply generic_format_B2R]). lra.
Qed.

Section Lib.
Variable N : Num.
Variable RM : Z.
Variable M : genmut.
Variable ctx : Z -> Z -> gm_st M -> gm_st M.
Variable fuel : nat.
Variable gens : Z.
Variables P Q : gm_st M -> Prop.
Hypothesis RMok : 0 < RM <= INT_MAX.
Hypothesis ctxok : forall cur m, 0 <= cur < gens -> P m -> Q (ctx cur gens m).
Hypothesis mutok : forall c m g, Q m -> rvalid RM g -> exists c' m' g', mutate_chromosome M c m g = (Ok (c', m'), g') /\ length c' = length c /\ Q m' /\ rvalid RM g'.
Hypothesis back : forall m, Q m -> P m.
Variable n : nat.
Hypothesis nok : (1 <= n)%nat /\ Z.of_nat n <= INT_MAX.
Definition lok (p : param N) : Prop := wf_param N p /\ p_size N p = Ok n /\ forall c, length c = n -> exists q, p_set_from N p c = (q, Ok tt) /\ p_check N q = Ok true.
Definition wI (X : gm_st M -> Prop) (w : lib_world M) : Prop := rnd_ok (fst (fst w)) /\ rvalid RM (snd (fst w)) /\ X (snd w).
Lemma lib_tame : tame (lib_env N RM M ctx fuel) lok n gens (wI P) (wI Q).
Proof.
  constructor; cbn [lib_env e_par e_size e_enc e_dec e_chk e_cln e_w e_rm e_rand e_bool e_mut e_ctx e_sort].
  - intros p (_ & H & _). exact H.
  - intros p H. exists p. split; [exact (clone_id N p (proj1 H))|auto].
  - intros p c (W & S & D) L. destruct (D c L) as (q & Q1 & Q2). exists q. split; [exact Q1|]. split; [|exact Q2]. split; [|split].
    + pose proof (wf_set_from N p W c) as X. rewrite Q1 in X. exact X.
    + pose proof (set_from_size N p c n S) as X. rewrite Q1 in X. exact X.
    + intros c' L'. destruct (D c' L') as (r & R1 & R2). exists r. split; [|exact R2]. apply (param_dec_over N p c q Q1). exact R1.
  - exact RMok.
  - intros [[s g] m] (A & B & C). cbn in *. split; [exact (B 0%nat)|]. split; [exact A|]. split; [intro k; apply B|exact C].
  - intros [[s g] m] (A & B & C). cbn [fst snd] in *. destruct (get_bool_total RM s g A B) as (b & s' & g' & E1 & A1 & A2). unfold lib_bool. rewrite E1.
    eexists b, _. split; [reflexivity|]. split; [exact A1|]. split; [exact A2|exact C].
  - intros cur [[s g] m] Hc (A & B & C). cbn [fst snd] in *. split; [exact A|]. split; [exact B|]. cbn. apply ctxok; assumption.
  - intros [[s g] m] c (A & B & C) L. cbn [fst snd] in *. destruct (mutok c m g C B) as (c' & m' & g' & E1 & A1 & A2 & A3). unfold lib_mut. rewrite E1.
    eexists c', _. split; [reflexivity|]. split; [congruence|]. split; [exact A|]. split; [exact A3|exact A2].
  - intros w (A & B & C). split; [exact A|]. split; [exact B|]. apply back, C.
  - intros l _. apply sort_desc_perm.
  - exact nok.
Qed.
Lemma any_total : forall hash f same_type same_meta parse cfg limit p s g m,
  cf_gens cfg = gens -> 0 < gens -> (1 <= fuel)%nat -> (2 <= cf_pop cfg)%nat -> Nat.even (cf_pop cfg) = true -> Z.of_nat (cf_pop cfg) <= 2 ^ 31 ->
  (forall q, p_check N q = Ok true -> exists v, f q = Ok v /\ moderate v) ->
  roomy limit (Z.of_nat (cf_pop cfg)) gens ->
  decodable N n p -> rnd_ok s -> rvalid RM g -> P m ->
  exists q snaps z w', ga_optimize (lib_env N RM M ctx fuel) hash f same_type same_meta cfg None parse None (counter_new limit) p true (s, g, m) = (Ok (q, snaps, z), w') /\
    p_check N q = Ok true /\ (length snaps <= Z.to_nat gens)%nat /\
    forall sn i, In sn snaps -> In i (sn_pop _ sn) -> moderate (i_fit _ i).
Proof.
  intros hash f st sm parse cfg limit p s g m Hg Hg0 Hf H2 Hev Hl Ht Ho D Hs Hr Hm. pose proof lib_tame as T. rewrite <- Hg in T, Ho, Hg0.
  destruct (C79_completes (lib_env N RM M ctx fuel) lok n (wI P) (wI Q) hash f st sm parse cfg limit p (s, g, m) T Hg0 Hf) as (q & snaps & z & w' & E1 & A1 & A2 & A3 & A4 & A5); try assumption.
  - intros q _ K. exact (Ht q K).
  - intro L. apply (roomy_over limit (cf_pop cfg) (Z.to_nat (cf_gens cfg))); [|exact L]. rewrite Z2Nat.id by lia. exact Ho.
  - split; [exact (dc_wf _ _ _ D)|]. split; [exact (dc_size _ _ _ D)|exact (dc_dec _ _ _ D)].
  - destruct (dc_enc _ _ _ D (repeat false n) (repeat_length _ _)) as [c C]. exists c. split; [exact C|]. rewrite (set_chromosome_len N p _ _ C). apply repeat_length.
  - split; [exact Hs|]. split; assumption.
  - exists q, snaps, z, w'. rewrite <- Hg. auto.
Qed.
Theorem C79_any_mutator : forall hash f same_type same_meta parse cfg limit p s g m,
  cf_gens cfg = gens -> 0 < gens -> (1 <= fuel)%nat -> (2 <= cf_pop cfg)%nat -> Nat.even (cf_pop cfg) = true -> Z.of_nat (cf_pop cfg) <= 2 ^ 31 ->
  (forall q, p_check N q = Ok true -> exists v, f q = Ok v /\ moderate v) ->
  roomy limit (Z.of_nat (cf_pop cfg)) gens ->
  decodable N n p -> rnd_ok s -> rvalid RM g -> P m ->
  exists q snaps z w', ga_optimize (lib_env N RM M ctx fuel) hash f same_type same_meta cfg None parse None (counter_new limit) p true (s, g, m) = (Ok (q, snaps, z), w') /\
    p_check N q = Ok true /\ (length snaps <= Z.to_nat gens)%nat.
Proof.
  intros hash f st sm parse cfg limit p s g m Hg Hg0 Hf H2 Hev Hl Ht Ho D Hs Hr Hm.
  destruct (any_total hash f st sm parse cfg limit p s g m Hg Hg0 Hf H2 Hev Hl Ht Ho D Hs Hr Hm) as (q & snaps & z & w' & A & B & C & _). exists q, snaps, z, w'. auto.
Qed.
End Lib.

(** ** the two mutators of the library *)
Lemma flip_start RM pr g0 m g : rvalid RM g0 -> flip_new FNum pr g0 = (Ok m, g) -> fl_ok m /\ rvalid RM g.
Proof.
  intros Hr Hm. unfold flip_new in Hm.
    destruct (let! q := n_toint FNum (n_floor FNum (n_div FNum (n_ofZ FNum 1) pr)) in chk_int (q - 1)) as [mx|e|u] eqn:Em; try discriminate Hm.
    apply bind_ok in Em as (z & Ez & Em). cbn [n_toint FNum] in Ez. pose proof (toint_int _ _ Ez) as Bz. apply chk_int_inv in Em as [Em _].
    destruct (Z.leb_spec mx 0) as [L|L]; [discriminate Hm|]. destruct (flip_set_ok mx g0 ltac:(lia) (proj1 (Hr 0%nat))) as [E R]. rewrite E in Hm. injection Hm as <- <-.
    split; [unfold fl_ok; cbn; lia|intro i; apply Hr].
Qed.
Theorem C79_flip_bit_mutator : forall N RM fuel hash f same_type same_meta parse cfg limit n p probability g0 m s g,
  0 < RM <= INT_MAX -> (1 <= n)%nat -> Z.of_nat n <= INT_MAX -> (1 <= fuel)%nat ->
  0 < cf_gens cfg -> (2 <= cf_pop cfg)%nat -> Nat.even (cf_pop cfg) = true -> Z.of_nat (cf_pop cfg) <= 2 ^ 31 ->
  (forall q, p_check N q = Ok true -> exists v, f q = Ok v /\ moderate v) -> roomy limit (Z.of_nat (cf_pop cfg)) (cf_gens cfg) ->
  decodable N n p -> rnd_ok s -> rvalid RM g0 -> flip_new FNum probability g0 = (Ok m, g) -> 
  exists q snaps z w', ga_optimize (flip_env N RM fuel) hash f same_type same_meta cfg None parse None (counter_new limit) p true (s, g, m) = (Ok (q, snaps, z), w') /\
    p_check N q = Ok true /\ (length snaps <= Z.to_nat (cf_gens cfg))%nat.
Proof.
  intros N RM fuel hash f st sm parse cfg limit n p pr g0 m s g HR Hn1 Hn2 Hf Hg H2 Hev Hl Ht Ho D Hs Hr Hm.
  destruct (flip_start RM pr g0 m g Hr Hm) as [X1 X2].
  exact (C79_any_mutator N RM flip_bit (fun _ _ m0 => m0) fuel (cf_gens cfg) fl_ok fl_ok HR (fun _ m _ H => H) (flip_total RM) (fun m H => H) n (conj Hn1 Hn2)
    hash f st sm parse cfg limit p s g m eq_refl Hg Hf H2 Hev Hl Ht Ho D Hs X2 X1).
Qed.
Lemma linear_stream RM : forall c m g c' m' g', mutate_chromosome (linear FNum RM) c m g = (Ok (c', m'), g') -> rvalid RM g -> rvalid RM g'.
Proof.
  induction c as [|b c IH]; intros m g c' m' g' H Hg; cbn [mutate_chromosome linear gm_should gm_after] in H; [injection H as _ _ <-; exact Hg|].
  unfold check_event, get_base in H. destruct (validate_probability FNum (lin_probability FNum m)) as [[]|e|u]; try (injection H as X _; discriminate X); try discriminate H.
  unfold draw in H. change (mutate_chromosome {| gm_st := lin FNum; gm_should := fun s0 g0 => check_event FNum RM (lin_probability FNum s0) g0; gm_after := fun s1 m1 g1 => (Ok s1, g1) |}) with (mutate_chromosome (linear FNum RM)) in H.
  destruct (mutate_chromosome (linear FNum RM) c m (fun n => g (S n))) as [[x|e|u] g3] eqn:E; cbn [bind] in H; try discriminate H.
  destruct x as [c1 m1]. injection H as _ _ <-. apply (IH _ _ _ _ _ E). intro k. apply Hg.
Qed.
(** with one generation the probability is not a number and no gene is changed *)
Lemma linear_once RM (sa so : dbl) : fin sa -> fin so -> (0 <= B2R sa <= 1)%R -> (0 <= B2R so <= 1)%R -> forall c g, rvalid RM g ->
  exists g', mutate_chromosome (linear FNum RM) c (MkLin FNum sa so 0 1) g = (Ok (c, MkLin FNum sa so 0 1), g') /\ rvalid RM g'.
Proof.
  intros F1 F2 B1 B2. assert (F3 : is_finite (d_sub so sa) = true).
  { apply d_sub_finite; [exact F2|exact F1|]. apply no_overflow. apply Rle_trans with 1%R; [apply Rabs_le; lra|]. change 1%R with (bpow radix2 0). apply bpow_le. lia. }
  induction c as [|b c IH]; intros g Hg; [exists g; split; [reflexivity|exact Hg]|].
  destruct (C19_one_generation RM sa so g F1 F2 F3) as [_ X]. cbn [mutate_chromosome linear gm_should gm_after].
  destruct (check_event FNum RM (lin_probability FNum (MkLin FNum sa so 0 1)) g) as [o g1] eqn:Ce. cbn [fst] in X. subst o.
  assert (Hg1 : rvalid RM g1).
  { unfold check_event, get_base, draw in Ce. destruct (validate_probability FNum (lin_probability FNum (MkLin FNum sa so 0 1))) as [[]|e|u]; try discriminate Ce. injection Ce as _ <-. intro k. apply Hg. }
  destruct (IH g1 Hg1) as (g' & E1 & V1). exists g'. split; [|exact V1]. cbn [linear] in E1. rewrite E1. reflexivity.
Qed.
Definition lin_from (sa so : dbl) (m : lin FNum) : Prop := exists a b, m = MkLin FNum sa so a b.
Definition lin_in (sa so : dbl) (gens : Z) (m : lin FNum) : Prop := exists a, 0 <= a < gens /\ m = MkLin FNum sa so a gens.
Lemma linear_total RM (sa so : dbl) gens : fin sa -> fin so -> (0 <= B2R sa <= 1)%R -> (6 * bpow radix2 (-53) <= B2R so <= 1 - 6 * bpow radix2 (-53))%R -> 0 < gens <= 2 ^ 31 ->
  forall c m g, lin_in sa so gens m -> rvalid RM g -> exists c' m' g', mutate_chromosome (linear FNum RM) c m g = (Ok (c', m'), g') /\ length c' = length c /\ lin_in sa so gens m' /\ rvalid RM g'.
Proof.
  intros F1 F2 B1 B2 Hg c m0 g1 (a & Ha & ->) V1. destruct (Z.eq_dec gens 1) as [E1|E1].
    { subst gens. assert (a = 0) by lia. subst a. destruct (linear_once RM sa so F1 F2 B1 ltac:(pose proof (bpow_gt_0 radix2 (-53)); lra) c g1 V1) as (g' & X1 & X2). exists c, (MkLin FNum sa so 0 1), g'. split; [exact X1|]. split; [reflexivity|]. split; [exists 0; split; [lia|reflexivity]|exact X2]. }
    destruct (C19_binary64_no_throw sa so a gens F1 F2 B1 B2 ltac:(lia) ltac:(lia) RM c g1) as (c' & g' & E2 & L1).
    exists c', (MkLin FNum sa so a gens), g'. split; [exact E2|]. split; [exact L1|]. split; [exists a; auto|]. exact (linear_stream RM _ _ _ _ _ _ E2 V1).
Qed.
Theorem C79_linear_mutator : forall N RM fuel hash f same_type same_meta parse cfg limit n p (start stop : dbl) cur0 max0 m s g,
  0 < RM <= INT_MAX -> (1 <= n)%nat -> Z.of_nat n <= INT_MAX -> (1 <= fuel)%nat ->
  0 < cf_gens cfg <= 2 ^ 31 -> (2 <= cf_pop cfg)%nat -> Nat.even (cf_pop cfg) = true -> Z.of_nat (cf_pop cfg) <= 2 ^ 31 ->
  (forall q, p_check N q = Ok true -> exists v, f q = Ok v /\ moderate v) -> roomy limit (Z.of_nat (cf_pop cfg)) (cf_gens cfg) ->
  decodable N n p -> rnd_ok s -> rvalid RM g -> lin_new FNum start stop cur0 max0 = Ok m -> 
  fin start -> fin stop -> (0 <= B2R start <= 1)%R -> (6 * bpow radix2 (-53) <= B2R stop <= 1 - 6 * bpow radix2 (-53))%R ->
  exists q snaps z w', ga_optimize (lib_env N RM (linear FNum RM) (fun cur mx m => lin_context FNum m cur mx) fuel) hash f same_type same_meta cfg None parse None (counter_new limit) p true (s, g, m)
      = (Ok (q, snaps, z), w') /\
    p_check N q = Ok true /\ (length snaps <= Z.to_nat (cf_gens cfg))%nat.
Proof.
  intros N RM fuel hash f st sm parse cfg limit n p sa so cur0 max0 m s g HR Hn1 Hn2 Hf Hg H2 Hev Hl Ht Ho D Hs Hr Hm F1 F2 B1 B2.
  assert (Em : m = MkLin FNum sa so cur0 max0). { unfold lin_new in Hm. apply bind_ok in Hm as (? & _ & Hm). apply bind_ok in Hm as (? & _ & Hm). injection Hm as <-. reflexivity. }
  refine (C79_any_mutator N RM (linear FNum RM) (fun cur mx m => lin_context FNum m cur mx) fuel (cf_gens cfg) (lin_from sa so) (lin_in sa so (cf_gens cfg)) HR _ _ _ n (conj Hn1 Hn2)
    hash f st sm parse cfg limit p s g m eq_refl _ Hf H2 Hev Hl Ht Ho D Hs Hr _).
  - intros cur m0 Hc (a & b & ->). exists cur. split; [exact Hc|reflexivity].
  - exact (linear_total RM sa so (cf_gens cfg) F1 F2 B1 B2 Hg).
  - intros m0 (a & _ & ->). exists a, (cf_gens cfg). reflexivity.
  - lia.
  - exists cur0, max0. exact Em.
Qed.

(** Without "every chromosome decodes to valid values" the algorithm may never finish: IntParameter(0, 0, 5) has chromosomes of three genes, and when rand() keeps
    giving 0 the random chromosome is 111, that is 7, for ever. *)
Lemma genes_zero N RM M ctx fuel : forall k s g m, bool_base s = 0 -> rnd_ok s -> (forall i, g i = 0) ->
  exists s' g', random_genes (lib_env N RM M ctx fuel) k (s, g, m) = (Ok (repeat true k), (s', g', m)) /\ bool_base s' = 0 /\ rnd_ok s' /\ forall i, g' i = 0.
Proof.
  induction k as [|k IH]; intros s g m Hs [K1 K2] Hg; [exists s, g; cbn; unfold rnd_ok; auto|]. cbn [random_genes].
  assert (X : exists s' g', lib_bool M (s, g, m) = (Ok true, (s', g', m)) /\ bool_base s' = 0 /\ rnd_ok s' /\ forall i, g' i = 0).
  { unfold lib_bool, get_bool, next_bit_from_base, draw. destruct (Z.ltb_spec (max_bit s) (next_bit s)) as [L|L].
    - cbn [next_bit bool_base max_bit]. change ((0 <? 0) || (30 <? 0))%bool with false. cbv iota. cbn [omap fst snd]. rewrite (Hg 0%nat), Z.land_0_l.
      eexists _, _. split; [reflexivity|]. cbn. split; [reflexivity|]. split; [unfold rnd_ok; cbn; lia|auto].
    - destruct (Z.ltb_spec (next_bit s) 0); [lia|]. destruct (Z.ltb_spec 30 (next_bit s)); [lia|]. cbn [orb omap fst snd]. rewrite Hs, Z.land_0_l.
      eexists _, _. split; [reflexivity|]. cbn. split; [reflexivity|]. split; [unfold rnd_ok; cbn; lia|exact Hg]. }
  destruct X as (s1 & g1 & X1 & X2 & X3 & X4). change (e_bool (lib_env N RM M ctx fuel)) with (lib_bool M). rewrite (wbind_run _ _ _ _ _ X1).
  destruct (IH s1 g1 m X2 X3 X4) as (s2 & g2 & Y1 & Y2 & Y3 & Y4). rewrite (wbind_run _ _ _ _ _ Y1). exists s2, g2. split; [reflexivity|auto].
Qed.
Definition five (N : Num) : param N := PInt N (MkInt 0 0 5 (Some 3%nat)).
Lemma random_stuck N RM M ctx fuel : forall lf v inv s g m, bool_base s = 0 -> rnd_ok s -> (forall i, g i = 0) ->
  forall c, length c = 3%nat -> forall has ft t,
  fst (set_random_loop (lib_env N RM M ctx fuel) lf (MkInd (lib_env N RM M ctx fuel) (PInt N (MkInt v 0 5 (Some 3%nat)) : e_par (lib_env N RM M ctx fuel)) c has ft t) inv (s, g, m)) = UB OutOfFuel.
Proof.
  induction lf as [|lf IH]; intros v inv s g m Hs Hr Hg c Lc has ft t; [reflexivity|]. cbn [set_random_loop i_chr]. rewrite Lc.
  destruct (genes_zero N RM M ctx fuel 3 s g m Hs Hr Hg) as (s' & g' & E1 & A1 & A2 & A3). rewrite (wbind_run _ _ _ _ _ E1).
  match goal with |- context [ind_set ?E ?i ?c] => assert (S1 : ind_set E i c = Ok (MkInd E (PInt N (MkInt 7 0 5 (Some 3%nat)) : e_par E) [true; true; true] false ft t)) by reflexivity end.
  rewrite (wbind_run _ _ _ _ _ (lift_run _ _ _ S1)).
  match goal with |- context [e_chk ?E ?p] => assert (S2 : e_chk E p = Ok false) by reflexivity end.
  rewrite (wbind_run _ _ _ _ _ (lift_run _ _ _ S2)). apply (IH 7); auto.
Qed.
Theorem C79_may_not_finish : forall N RM M ctx fuel hash f same_type same_meta parse cfg k s g m,
  ip_make 0 0 5 = Ok (MkInt 0 0 5 (Some 3%nat)) /\ p_check N (five N) = Ok true /\
  (bool_base s = 0 -> rnd_ok s -> (forall i, g i = 0) -> (1 <= cf_pop cfg)%nat ->
   fst (ga_optimize (lib_env N RM M ctx fuel) hash f same_type same_meta cfg None parse None k (five N) true (s, g, m)) = UB OutOfFuel).
Proof.
  intros N RM M ctx fuel hash f st sm parse cfg k s g m. split; [reflexivity|]. split; [reflexivity|]. intros Hs Hr Hg Hp.
  unfold ga_optimize. cbn [negb]. unfold ga_initialize. destruct (cf_pop cfg) as [|pop]; [lia|]. cbn [init_random].
  match goal with |- context [ind_new ?E ?p] => assert (S1 : ind_new E p = Ok (MkInd E (five N : e_par E) [false; false; false] false (d_ofZ 0) 0)) by reflexivity end.
  pose proof (random_stuck N RM M ctx fuel fuel 0 0 s g m Hs Hr Hg [false; false; false] eq_refl false (d_ofZ 0) 0) as X.
  unfold wbind at 1 2 3 4. unfold wlift at 1. rewrite S1. unfold set_random. unfold five in *. cbn [lib_env e_fuel] in *. unfold wbind at 1.
  match goal with |- context [match ?a with (_, _) => _ end] => match a with set_random_loop _ _ _ _ _ => destruct a as [[x|e|u] w'] eqn:Y end end; cbn [fst] in X; try discriminate X. injection X as ->. reflexivity.
Qed.

(** The hypotheses are met: IntParameter(3, 0, 7) together with DoubleParameter(0, -64, 64, 1) in a composite, population 4, three generations, FlipBitMutator(1/4) or
    LinearMutator(1, 1/2), a cache of one megabyte, RAND_MAX = 32767 and rand() always 5; the objective function is 1. *)
Definition wcfg : ga_cfg := MkCfg 4 1 3 (d_ofZ 10000000).
Lemma one_moderate : moderate (d_ofZ 1).
Proof. destruct (d_ofZ_exact 1 ltac:(lia)) as [A B]. split; [exact A|]. rewrite B. split; [lra|]. change 1%R with (bpow radix2 0). apply bpow_le. lia. Qed.
Lemma witness_par : exists d n c, dp_make FNum (d_ofZ 0) (d_ofZ (-64)) (d_ofZ 64) (d_ofZ 1) = Ok d /\
  comp_initialize FNum (comp_new FNum) [PInt FNum (MkInt 3 0 7 (Some 3%nat)); PDouble FNum d] = (c, Ok tt) /\ decodable FNum n c /\ (3 <= n <= 33)%nat.
Proof.
  destruct (d_ofZ_exact 0 ltac:(lia)) as [Z0 Z1]. destruct (d_ofZ_exact (-64) ltac:(lia)) as [A0 A1]. destruct (d_ofZ_exact 64 ltac:(lia)) as [B0 B1]. destruct (d_ofZ_exact 1 ltac:(lia)) as [C0 C1].
  assert (P6 : (64 <= bpow radix2 1022)%R) by (change 64%R with (bpow radix2 6); apply bpow_le; lia).
  assert (Pm : (bpow radix2 (-992) <= 1)%R) by (change 1%R with (bpow radix2 0); apply bpow_le; lia).
  assert (P10 : (1 <= bpow radix2 1000)%R) by (change 1%R with (bpow radix2 0); apply bpow_le; lia).
  assert (W : (bpow radix2 (-992) <= B2R (d_ofZ 64) - B2R (d_ofZ (-64)))%R) by (rewrite A1, B1; lra).
  destruct (C04_binary64_accepts (d_ofZ 0) (d_ofZ (-64)) (d_ofZ 64) (d_ofZ 1)) as [d Hd]; try assumption.
  - rewrite A1. rewrite Rabs_left by lra. lra.
  - rewrite B1. rewrite Rabs_pos_eq by lra. lra.
  - rewrite A1, B1, Z1. lra.
  - rewrite A1, B1, C1. change (bpow radix2 29) with 536870912%R. lra.
  - rewrite A1, B1, C1. lra.
  - destruct (C79_double _ _ _ _ _ Hd W) as (k & D1 & D2).
    destruct (C79_int FNum 3 0 7 3 (MkInt 3 0 7 (Some 3%nat)) eq_refl ltac:(unfold INT_MIN; lia) ltac:(lia) ltac:(unfold INT_MAX; lia) eq_refl ltac:(cbn; lia)) as [D3 _].
    assert (F : Forall (fun p => exists k, decodable FNum k p) [PInt FNum (MkInt 3 0 7 (Some 3%nat)); PDouble FNum d]) by (constructor; [eauto|constructor; [eauto|constructor]]).
    destruct (wf_initialize FNum [PInt FNum (MkInt 3 0 7 (Some 3%nat)); PDouble FNum d]) as (n & I1 & I2 & I3).
    { constructor; [exact (dc_wf _ _ _ D3)|constructor; [exact (dc_wf _ _ _ D1)|constructor]]. }
    destruct (C79_composite FNum _ _ F I1) as (n' & E1 & E2). exists d, n', (PComp FNum (Some n) true [PInt FNum (MkInt 3 0 7 (Some 3%nat)); PDouble FNum d]).
    split; [exact Hd|]. split; [exact I1|]. split; [exact E1|]. cbn [total_size] in E2. rewrite (dc_size _ _ _ D3), (dc_size _ _ _ D1) in E2. cbn [bind] in E2. injection E2 as <-. lia.
Qed.
(** DoubleParametersArray(-64, 64, 1, 3) holding zeros *)
Example C79_array_meets : exists a a1 k, da_make FNum (d_ofZ (-64)) (d_ofZ 64) (d_ofZ 1) 3 = Ok a /\ da_set_values FNum a (repeat (d_ofZ 0) 3) = (a1, Ok tt) /\ decodable FNum (k * 3) (PArr FNum a1).
Proof.
  destruct (d_ofZ_exact 0 ltac:(lia)) as [Z0 Z1]. destruct (d_ofZ_exact (-64) ltac:(lia)) as [A0 A1]. destruct (d_ofZ_exact 64 ltac:(lia)) as [B0 B1]. destruct (d_ofZ_exact 1 ltac:(lia)) as [C0 C1].
  assert (P6 : (64 <= bpow radix2 1022)%R) by (change 64%R with (bpow radix2 6); apply bpow_le; lia).
  assert (Pm : (bpow radix2 (-992) <= 1)%R) by (change 1%R with (bpow radix2 0); apply bpow_le; lia).
  assert (P10 : (1 <= bpow radix2 1000)%R) by (change 1%R with (bpow radix2 0); apply bpow_le; lia).
  assert (W : (bpow radix2 (-992) <= B2R (d_ofZ 64) - B2R (d_ofZ (-64)))%R) by (rewrite A1, B1; lra).
  assert (N1 : (Rabs (B2R (d_ofZ (-64))) <= bpow radix2 1022)%R) by (rewrite A1, Rabs_left by lra; lra).
  assert (N2 : (Rabs (B2R (d_ofZ 64)) <= bpow radix2 1022)%R) by (rewrite B1, Rabs_pos_eq by lra; lra).
  destruct (C04_binary64_accepts (d_ofZ (-64)) (d_ofZ (-64)) (d_ofZ 64) (d_ofZ 1)) as [d Hd]; try assumption.
  { lra. }
  { rewrite A1, B1, C1. change (bpow radix2 29) with 536870912%R. lra. }
  { rewrite A1, B1, C1. lra. }
  destruct (st_of _ _ _ _ Hd) as (k & i0 & Hk & Ed).
  assert (Hmk : exists a, da_make FNum (d_ofZ (-64)) (d_ofZ 64) (d_ofZ 1) 3 = Ok a /\ da_sample FNum a = d).
  { unfold da_make. match goal with |- context [bind ?m _] => match m with dp_make _ _ _ _ _ => change m with (dp_make FNum (d_ofZ (-64)) (d_ofZ (-64)) (d_ofZ 64) (d_ofZ 1)) end end. rewrite Hd. cbn [bind]. assert (Ek : cs_get (dp_size FNum d) = Ok k) by (rewrite Ed; reflexivity). rewrite Ek. cbn [bind]. eexists. split; reflexivity. }
  destruct Hmk as (a & Ha & Hs).
  assert (F : Forall (fun w => fin w /\ (B2R (d_ofZ (-64)) <= B2R w < B2R (d_ofZ 64) - 4 * bpow radix2 (-53) * (B2R (d_ofZ 64) - B2R (d_ofZ (-64))))%R) (repeat (d_ofZ 0) 3)).
  { apply Forall_forall. intros x Hx. apply repeat_spec in Hx. subst x. split; [exact Z0|]. rewrite Z1, A1, B1. pose proof u_tiny. unfold u in *. lra. }
  destruct (C07_binary64 _ _ _ 3 a Ha C0 N1 N2 W (repeat (d_ofZ 0) 3) eq_refl F) as (a1 & Sa & _).
  destruct (C79_array _ _ _ 3 a (repeat (d_ofZ 0) 3) a1 Ha C0 N1 N2 W) as (k2 & _ & _ & D); [|exact F|exact Sa|exists a, a1, k2; split; [exact Ha|split; [exact Sa|exact D]]].
  rewrite Hs, Ed. cbn [st dp_prec]. destruct (P_val _ _ k A0 B0 N1 N2 W Hk) as [_ PV]. rewrite PV.
  destruct (W_fin _ _ A0 B0 N1 N2) as [_ WV]. rewrite WV. pose proof (W_err _ _ A0 B0 N1 N2 W) as WE. rewrite WV in WE. apply Rabs_le_inv in WE. rewrite A1, B1 in *. pose proof u_tiny as Ut. unfold slack.
  rewrite (Rabs_left (-64)), (Rabs_pos_eq 64), Rmax_left by lra. 
  assert (K2 : (2 ^ k <= 1073741824)%R) by (rewrite pow_IZR; apply IZR_le; pose proof (pow2_30 k Hk); rewrite <- (Z2Nat.id 2) in H by lia; exact H).
  clear - WE K2. unfold u in WE. change (bpow radix2 (-53)) with (/ 9007199254740992)%R in *.
  assert (P2 : (0 < 2 ^ k)%R) by (apply pow_lt; lra). apply Rmult_lt_reg_r with (2 ^ k)%R; [exact P2|]. unfold Rdiv. rewrite (Rmult_assoc _ (/ 2 ^ k)), Rinv_l, Rmult_1_r by lra. lra.
Qed.
Lemma witness_flip : exists m g, flip_new FNum (d_of 1 (-2)) (fun _ => 5) = (Ok m, g) /\ fl_max m = 3.
Proof.
  assert (E : (let! q := n_toint FNum (n_floor FNum (n_div FNum (n_ofZ FNum 1) (d_of 1 (-2)))) in chk_int (q - 1)) = Ok 3) by (vm_compute; reflexivity).
  unfold flip_new. rewrite E. eexists _, _. split; reflexivity.
Qed.
Lemma witness_roomy : roomy (d_ofZ 1) (Z.of_nat (cf_pop wcfg)) (cf_gens wcfg).
Proof. destruct (d_ofZ_exact 1 ltac:(lia)) as [A B]. split; [exact A|]. right. rewrite B. split; [cbn; lia|]. cbn. lra. Qed.
Example C79_witness : exists p n, decodable FNum n p /\ (3 <= n)%nat /\ 
  (exists m g, flip_new FNum (d_of 1 (-2)) (fun _ => 5) = (Ok m, g) /\
   exists q snaps z w', ga_optimize (flip_env FNum 32767 1) (fun _ => 0) (fun _ => Ok (d_ofZ 1)) (fun _ _ => true) (fun _ _ => Ok true) wcfg None (fun t => (d_ofZ 0, t)) None (counter_new (d_ofZ 1)) p true
      (MkRnd 5 0 14, g, m) = (Ok (q, snaps, z), w') /\ p_check FNum q = Ok true /\ (length snaps <= 3)%nat) /\
  exists m, lin_new FNum (d_ofZ 1) (d_of 1 (-1)) 77 0 = Ok m /\
   exists q snaps z w', ga_optimize (lib_env FNum 32767 (linear FNum 32767) (fun cur mx m => lin_context FNum m cur mx) 1) (fun _ => 0) (fun _ => Ok (d_ofZ 1)) (fun _ _ => true) (fun _ _ => Ok true) wcfg None
      (fun t => (d_ofZ 0, t)) None (counter_new (d_ofZ 1)) p true (MkRnd 5 0 14, (fun _ => 5), m) = (Ok (q, snaps, z), w') /\ p_check FNum q = Ok true /\ (length snaps <= 3)%nat.
Proof.
  destruct witness_par as (d & n & c & _ & _ & D & Hn). exists c, n. split; [exact D|]. split; [lia|].
  assert (Ho : forall q : param FNum, p_check FNum q = Ok true -> exists v, (fun _ : param FNum => Ok (d_ofZ 1)) q = Ok v /\ moderate v) by (intros q _; exists (d_ofZ 1); split; [reflexivity|exact one_moderate]).
  assert (R5 : rvalid 32767 (fun _ => 5)) by (intro k; lia). assert (Rk : rnd_ok (MkRnd 5 0 14)) by (unfold rnd_ok; cbn; lia).
  split.
  - destruct witness_flip as (m & g & Fm & _). exists m, g. split; [exact Fm|].
    apply (C79_flip_bit_mutator FNum 32767 1 (fun _ => 0) (fun _ => Ok (d_ofZ 1)) (fun _ _ => true) (fun _ _ => Ok true) (fun t => (d_ofZ 0, t)) wcfg (d_ofZ 1) n c (d_of 1 (-2)) (fun _ => 5) m (MkRnd 5 0 14) g);
      try assumption; try exact witness_roomy; try exact Fm; try (unfold INT_MAX; cbn; lia); reflexivity.
  - destruct (PropExamples.d_of_exact 1 (-1)) as [H5 H6]; [lia|lia|]. rewrite Rmult_1_l in H6. change (bpow radix2 (-1)) with (/ 2)%R in H6. destruct (d_ofZ_exact 1 ltac:(lia)) as [O0 O1].
    assert (Lm : lin_new FNum (d_ofZ 1) (d_of 1 (-1)) 77 0 = Ok (MkLin FNum (d_ofZ 1) (d_of 1 (-1)) 77 0)) by reflexivity.
    exists (MkLin FNum (d_ofZ 1) (d_of 1 (-1)) 77 0). split; [exact Lm|].
    assert (P53 : (6 * bpow radix2 (-53) <= / 2)%R) by (pose proof u_tiny; unfold u in *; lra).
    refine (C79_linear_mutator FNum 32767 1 (fun _ => 0) (fun _ => Ok (d_ofZ 1)) (fun _ _ => true) (fun _ _ => Ok true) (fun t => (d_ofZ 0, t)) wcfg (d_ofZ 1) n c (d_ofZ 1) (d_of 1 (-1)) 77 0 (MkLin FNum (d_ofZ 1) (d_of 1 (-1)) 77 0) (MkRnd 5 0 14) (fun _ => 5)
      _ _ _ _ _ _ _ _ Ho witness_roomy D Rk R5 Lm O0 H5 _ _).
    + unfold INT_MAX. lia.
    + lia.
    + unfold INT_MAX. lia.
    + lia.
    + cbn. lia.
    + cbn. lia.
    + reflexivity.
    + cbn. lia.
    + rewrite O1. lra.
    + rewrite H6. lra.
Qed.
Print Assumptions C79_witness.
Print Assumptions C79_may_not_finish.
Print Assumptions C79_double. Print Assumptions C79_array. Print Assumptions C79_int. Print Assumptions C79_composite. Print Assumptions C79_any_mutator. Print Assumptions C79_flip_bit_mutator. Print Assumptions C79_linear_mutator.
