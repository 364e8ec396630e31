(** C11-C14: the Random class. *)
From Coq Require Import Reals Psatz.
From Flocq Require Import Core.Core IEEE754.BinarySingleNaN.
From Verif Require Import Base Num DblOrder FloatLemmas Random.
Local Open Scope Z_scope.

(** ** C11 *)
Lemma chk_int_ok z : INT_MIN <= z <= INT_MAX -> chk_int z = Ok z.
Proof. unfold chk_int, in_int. intro H. destruct (Z.leb_spec INT_MIN z), (Z.leb_spec z INT_MAX); simpl; try lia; reflexivity. Qed.
Lemma chk_int_bad z : z < INT_MIN \/ INT_MAX < z -> chk_int z = UB IntOverflow.
Proof. unfold chk_int, in_int. intro H. destruct (Z.leb_spec INT_MIN z), (Z.leb_spec z INT_MAX); simpl; try lia; reflexivity. Qed.

Theorem C11_in_range : forall r mn mx, 0 <= r -> INT_MIN <= mn -> mn <= mx -> mx <= INT_MAX -> mx - mn + 1 <= INT_MAX ->
  exists v, discrete_of r mn mx = Ok v /\ mn <= v <= mx /\ (v - mn = r mod (mx - mn + 1)).
Proof.
  intros r mn mx Hr Hmn Hle Hmx Hw. unfold discrete_of, INT_MIN, INT_MAX in *.
  rewrite chk_int_ok by (unfold INT_MIN, INT_MAX; lia). cbn [bind].
  rewrite chk_int_ok by (unfold INT_MIN, INT_MAX; lia). cbn [bind].
  destruct (Z.eqb_spec (mx - mn + 1) 0); [lia|].
  rewrite Z.rem_mod_nonneg by lia.
  pose proof (Z.mod_pos_bound r (mx - mn + 1) ltac:(lia)).
  rewrite chk_int_ok by (unfold INT_MIN, INT_MAX; lia).
  eexists. split; [reflexivity|]. lia.
Qed.
Print Assumptions C11_in_range.

Theorem C11_onto : forall RM mn mx v, INT_MIN <= mn -> mx <= INT_MAX -> mx - mn + 1 <= INT_MAX ->
  mx - mn <= RM -> mn <= v <= mx -> exists r, 0 <= r <= RM /\ discrete_of r mn mx = Ok v.
Proof.
  intros RM mn mx v Hmn Hmx Hw HR Hv. exists (v - mn). split; [lia|].
  destruct (C11_in_range (v - mn) mn mx) as (u & Hu & _ & E); try lia.
  rewrite Z.mod_small in E by lia. rewrite Hu. f_equal. lia.
Qed.
Print Assumptions C11_onto.

(** the calls that are undefined although both arguments are ints *)
Theorem C11_undefined : forall r mn mx, 0 <= r -> INT_MIN <= mn <= INT_MAX -> INT_MIN <= mx <= INT_MAX ->
  (mx = mn - 1 -> discrete_of r mn mx = UB DivByZero) /\
  (INT_MAX < mx - mn + 1 -> discrete_of r mn mx = UB IntOverflow).
Proof.
  intros r mn mx Hr Hmn Hmx. unfold discrete_of, INT_MIN, INT_MAX in *. split; intro H.
  - rewrite chk_int_ok by (unfold INT_MIN, INT_MAX; lia). cbn [bind].
    rewrite chk_int_ok by (unfold INT_MIN, INT_MAX; lia). cbn [bind].
    destruct (Z.eqb_spec (mx - mn + 1) 0); [reflexivity|lia].
  - destruct (Z_le_gt_dec (mx - mn) 2147483647).
    + rewrite chk_int_ok by (unfold INT_MIN, INT_MAX; lia). cbn [bind].
      rewrite chk_int_bad by (unfold INT_MIN, INT_MAX; lia). reflexivity.
    + rewrite chk_int_bad by (unfold INT_MIN, INT_MAX; lia). reflexivity.
Qed.
Print Assumptions C11_undefined.

(** reversed arguments are not rejected: (5,0) is defined and leaves [0,5] *)
Theorem C11_reversed_refuted : discrete_of 3 5 0 = Ok 8.
Proof. reflexivity. Qed.
Example C11_run : discrete_of 17 (-3) 4 = Ok (-2).
Proof. reflexivity. Qed.

(** ** C12 *)

(** exact arithmetic *)
Theorem C12_exact : forall RM r mn mx, (0 < RM)%Z -> (0 <= r <= RM)%Z -> (mn <= mx)%R ->
  (mn <= continuous_of RNum RM r mn mx <= mx)%R /\
  (continuous_of RNum RM 0 mn mx = mn)%R /\ (continuous_of RNum RM RM mn mx = mx)%R.
Proof.
  intros RM r mn mx HRM Hr Hle. unfold continuous_of, base_of. cbn.
  assert (0 < IZR RM)%R by (apply IZR_lt; lia).
  assert (0 <= IZR r <= IZR RM)%R by (split; apply IZR_le; lia).
  set (q := (IZR r / IZR RM)%R).
  assert (0 <= q <= 1)%R.
  { unfold q. split.
    - apply Rmult_le_pos; [lra|]. left. apply Rinv_0_lt_compat. lra.
    - apply Rmult_le_reg_r with (IZR RM); [lra|]. unfold Rdiv. rewrite Rmult_assoc, Rinv_l by lra. lra. }
  split; [nra|]. split; [|field; lra]. unfold Rdiv. rewrite Rmult_0_l. ring.
Qed.
Print Assumptions C12_exact.

Theorem C12_vector : forall (N : Num) RM n mn mx g,
  length (fst (random_vector N RM n mn mx g)) = n /\
  (forall i, (i < n)%nat -> nth_error (fst (random_vector N RM n mn mx g)) i = Some (continuous_of N RM (g i) mn mx)) /\
  (forall k, snd (random_vector N RM n mn mx g) k = g (n + k)%nat).
Proof.
  intros N RM n mn mx. induction n as [|n IH]; intros g; cbn [random_vector].
  - split; [reflexivity|]. split; [intros; lia|reflexivity].
  - unfold get_continuous, draw.
    destruct (random_vector N RM n mn mx (fun n => g (S n))) as [xs g2] eqn:E.
    specialize (IH (fun n => g (S n))). rewrite E in IH. cbn [fst snd] in *. destruct IH as (H1 & H2 & H3).
    split; [simpl; congruence|]. split.
    + intros [|i] Hi; [reflexivity|]. simpl. apply H2. lia.
    + intro k. rewrite H3. reflexivity.
Qed.
Print Assumptions C12_vector.

(** binary64: the base quantity *)
Lemma F_base RM r : 0 < RM <= INT_MAX -> 0 <= r <= RM ->
  is_finite (base_of FNum RM r) = true /\ B2R (base_of FNum RM r) = rnd64 (IZR r / IZR RM) /\
  (0 <= B2R (base_of FNum RM r) <= 1)%R.
Proof.
  intros HRM Hr. unfold INT_MAX in *.
  destruct (d_ofZ_exact r ltac:(lia)) as [Hf1 He1]. destruct (d_ofZ_exact RM ltac:(lia)) as [Hf2 He2].
  assert (0 < IZR RM)%R by (apply IZR_lt; lia).
  assert (0 <= IZR r <= IZR RM)%R by (split; apply IZR_le; lia).
  assert (Hq : (0 <= IZR r / IZR RM <= 1)%R).
  { split.
    - apply Rmult_le_pos; [lra|]. left. apply Rinv_0_lt_compat. lra.
    - apply Rmult_le_reg_r with (IZR RM); [lra|]. unfold Rdiv. rewrite Rmult_assoc, Rinv_l by lra. lra. }
  assert (Hr01 : (0 <= rnd64 (IZR r / IZR RM) <= 1)%R).
  { split.
    - apply rnd_ge_fmt; [lra|]. apply (fmt_IZR 0). cbn. lia.
    - apply rnd_le_fmt; [lra|]. apply (fmt_IZR 1). cbn. lia. }
  cbn [base_of n_div n_ofZ FNum]. unfold base_of. cbn [n_div n_ofZ FNum].
  destruct (d_div_finite (d_ofZ r) (d_ofZ RM) Hf1) as [Hf Hv].
  - rewrite He2. lra.
  - rewrite He1, He2. rewrite Rabs_pos_eq by lra.
    apply Rle_lt_trans with 1%R; [lra|]. apply (bpow_lt radix2 0 1024). lia.
  - rewrite He1, He2 in Hv. split; [exact Hf|]. split; [exact Hv|]. rewrite Hv. exact Hr01.
Qed.

(** binary64: the result is never below min (finite bounds whose difference does not overflow); it is at most the
    rounding of min + (max - min), which is NOT always at most max *)
Theorem C12_binary64 : forall RM r mn mx, 0 < RM <= INT_MAX -> 0 <= r <= RM ->
  is_finite mn = true -> is_finite mx = true -> (B2R mn <= B2R mx)%R ->
  is_finite (d_sub mx mn) = true -> is_finite (d_add (d_sub mx mn) mn) = true ->
  is_finite (continuous_of FNum RM r mn mx) = true /\
  (B2R mn <= B2R (continuous_of FNum RM r mn mx) <= B2R (d_add (d_sub mx mn) mn))%R.
Proof.
  intros RM r mn mx HRM Hr Hmn Hmx Hle Hfs Hfa.
  destruct (F_base RM r HRM Hr) as (Hfb & _ & Hb).
  unfold continuous_of. cbn [n_add n_mul n_sub FNum]. set (b := base_of FNum RM r) in *.
  pose proof (d_sub_finite_inv mx mn Hmx Hmn Hfs) as Hs. set (s := d_sub mx mn) in *.
  assert (Hs0 : (0 <= B2R s)%R) by (rewrite Hs; apply rnd_ge_fmt; [lra|apply (fmt_IZR 0); cbn; lia]).
  assert (Hm : (0 <= rnd64 (B2R b * B2R s) <= B2R s)%R).
  { split; [apply rnd_ge_fmt; [nra|apply (fmt_IZR 0); cbn; lia]|apply rnd_le_fmt; [nra|apply fmt_dbl]]. }
  destruct (d_mul_finite b s Hfb Hfs) as [Hfm Hvm].
  { rewrite Rabs_pos_eq by lra. apply Rle_lt_trans with (B2R s); [lra|].
    apply Rle_lt_trans with (Rabs (B2R s)); [apply Rle_abs|apply dbl_lt_max]. }
  set (m := d_mul b s) in *.
  assert (Hva : B2R (d_add s mn) = rnd64 (B2R s + B2R mn)).
  { pose proof (Bplus_correct dprec demax dprec_gt_0 dprec_lt_emax mode_NE s mn Hfs Hmn) as H.
    destruct (Rlt_bool_spec (Rabs (rnd64 (B2R s + B2R mn))) (bpow radix2 1024)) as [L|L].
    - rewrite Rlt_bool_true in H by exact L. unfold d_add. tauto.
    - rewrite Rlt_bool_false in H by exact L. unfold d_add in Hfa.
      destruct H as [H _]. unfold binary_overflow in H. destruct (Bplus mode_NE s mn); cbn in H, Hfa; try discriminate. }
  assert (Hlo : (B2R mn <= rnd64 (B2R m + B2R mn))%R).
  { apply rnd_ge_fmt; [|apply fmt_dbl]. rewrite Hvm. lra. }
  assert (Hhi : (rnd64 (B2R m + B2R mn) <= B2R (d_add s mn))%R).
  { rewrite Hva. apply rnd_le. rewrite Hvm. lra. }
  destruct (d_add_finite m mn Hfm Hmn) as [Hf Hv].
  { pose proof (dbl_lt_max (d_add s mn)) as H1. pose proof (dbl_lt_max mn) as H2.
    apply Rabs_def2 in H1. apply Rabs_def2 in H2. apply Rabs_def1; lra. }
  split; [exact Hf|]. rewrite Hv. split; assumption.
Qed.
Print Assumptions C12_binary64.

Definition c12_min : dbl := d_of (-4953959590107546) (-51).   (* -2.2 *)
Definition c12_max : dbl := d_of 5573204538870989 (-49).      (*  9.9 *)
(** "the result is at most max" is false in binary64: with bounds -2.2 and 9.9, rand() = RAND_MAX gives
    9.900000000000002 *)
Theorem C12_binary64_upper_refuted :
  d_ltb c12_max (continuous_of FNum 2147483647 2147483647 c12_min c12_max) = true /\
  d_ltb c12_min c12_max = true.
Proof. vm_compute. auto. Qed.
Print Assumptions C12_binary64_upper_refuted.

(** ** C13 *)

(** exact arithmetic *)
Theorem C13_exact : forall RM p g, (0 < RM)%Z -> rvalid RM g ->
  ((p < 0 \/ 1 < p)%R -> check_event RNum RM p g = (Throw InvalidArgument, g)) /\
  ((0 <= p <= 1)%R -> exists b, fst (check_event RNum RM p g) = Ok b /\
      (b = true <-> IZR (g 0%nat) <= p * IZR RM)%R /\ (p = 1%R -> b = true) /\ (g 0%nat = 0%Z -> b = true)).
Proof.
  intros RM p g HRM Hv. unfold check_event, validate_probability. cbn [n_ltb n_ofZ RNum].
  assert (HR : (0 < IZR RM)%R) by (apply IZR_lt; lia).
  destruct (Hv 0%nat) as [H0 H1]. apply IZR_le in H0, H1.
  split.
  - intro H. destruct (R_ltb p 0) eqn:E1; [reflexivity|]. destruct (R_ltb 1 p) eqn:E2; [reflexivity|].
    apply R_ltb_false in E1, E2. lra.
  - intro H. destruct (R_ltb p 0) eqn:E1; [apply R_ltb_true in E1; lra|].
    destruct (R_ltb 1 p) eqn:E2; [apply R_ltb_true in E2; lra|]. cbn.
    eexists. split; [reflexivity|]. rewrite R_leb_true.
    assert (E : (IZR (g 0%nat) / IZR RM <= p <-> IZR (g 0%nat) <= p * IZR RM)%R).
    { split; intro L.
      - apply Rmult_le_compat_r with (r := IZR RM) in L; [|lra]. unfold Rdiv in L.
        rewrite Rmult_assoc, Rinv_l in L by lra. lra.
      - apply Rmult_le_reg_r with (IZR RM); [lra|]. unfold Rdiv. rewrite Rmult_assoc, Rinv_l by lra. lra. }
    split; [exact E|]. split.
    + intro Hp. apply E. rewrite Hp. lra.
    + intro Hg. apply E. rewrite Hg. nra.
Qed.
Print Assumptions C13_exact.

(** binary64, every double including NaN and infinities *)
Theorem C13_binary64 : forall RM p g, 0 < RM <= INT_MAX -> rvalid RM g ->
  (d_ltb p (d_ofZ 0) = true \/ d_ltb (d_ofZ 1) p = true -> check_event FNum RM p g = (Throw InvalidArgument, g)) /\
  (d_ltb p (d_ofZ 0) = false -> d_ltb (d_ofZ 1) p = false ->
     exists b, fst (check_event FNum RM p g) = Ok b /\ b = d_leb (d_div (d_ofZ (g 0%nat)) (d_ofZ RM)) p) /\
  fst (check_event FNum RM (d_ofZ 1) g) = Ok true /\
  (fst (check_event FNum RM (d_ofZ 0) g) = Ok (g 0%nat =? 0)) /\
  fst (check_event FNum RM d_nan g) = Ok false.
Proof.
  intros RM p g HRM Hv. destruct (F_base RM (g 0%nat) HRM (Hv 0%nat)) as (Hf & Hb & Hb01).
  split.
  { intro H. unfold check_event, validate_probability. cbn [n_ltb n_ofZ FNum].
    destruct H as [-> | ->]; [reflexivity|]. rewrite orb_true_r. reflexivity. }
  split.
  { intros H1 H2. unfold check_event, validate_probability. cbn [n_ltb n_ofZ FNum]. rewrite H1, H2. cbn. eauto. }
  assert (H1 : is_finite (d_ofZ 1) = true /\ B2R (d_ofZ 1) = 1%R) by (apply d_ofZ_exact; lia).
  assert (H0 : is_finite (d_ofZ 0) = true /\ B2R (d_ofZ 0) = 0%R) by (apply d_ofZ_exact; lia).
  split.
  { unfold check_event, validate_probability. cbn [n_ltb n_ofZ FNum].
    replace (d_ltb (d_ofZ 1) (d_ofZ 0)) with false by (vm_compute; reflexivity).
    replace (d_ltb (d_ofZ 1) (d_ofZ 1)) with false by (vm_compute; reflexivity).
    cbn [orb get_base draw n_leb FNum fst]. f_equal. apply d_leb_R; [exact Hf|apply H1|]. rewrite (proj2 H1). lra. }
  split.
  { unfold check_event, validate_probability. cbn [n_ltb n_ofZ FNum].
    replace (d_ltb (d_ofZ 0) (d_ofZ 0)) with false by (vm_compute; reflexivity).
    replace (d_ltb (d_ofZ 1) (d_ofZ 0)) with false by (vm_compute; reflexivity).
    cbn [orb get_base draw n_leb FNum fst]. f_equal. destruct (Z.eqb_spec (g 0%nat) 0) as [E|E].
    - apply d_leb_R; [exact Hf|apply H0|]. rewrite (proj2 H0), Hb, E. unfold Rdiv. rewrite Rmult_0_l, rnd_0. lra.
    - destruct (d_leb (base_of FNum RM (g 0%nat)) (d_ofZ 0)) eqn:L; [|reflexivity]. exfalso.
      apply d_leb_R in L; [|exact Hf|apply H0]. rewrite (proj2 H0), Hb in L.
      assert (Hpos : (bpow radix2 (-32) <= IZR (g 0%nat) / IZR RM)%R).
      { pose proof (Hv 0%nat). unfold INT_MAX in HRM.
        assert (1 <= IZR (g 0%nat))%R by (apply IZR_le; lia).
        assert (0 < IZR RM <= 4294967296)%R by (split; [apply IZR_lt|apply IZR_le]; lia).
        apply Rmult_le_reg_r with (IZR RM); [lra|]. unfold Rdiv. rewrite Rmult_assoc, Rinv_l by lra.
        cbn. lra. }
      apply rnd_le in Hpos. rewrite (rnd_id (bpow radix2 (-32))) in Hpos.
      + pose proof (bpow_gt_0 radix2 (-32)). lra.
      + apply generic_format_bpow'; [typeclasses eauto|]. unfold FLT_exp. lia. }
  { unfold check_event, validate_probability. cbn [n_ltb n_ofZ FNum]. rewrite d_ltb_nan_l, d_ltb_nan_r.
    cbn [orb get_base draw n_leb FNum fst]. f_equal.
    destruct (d_leb (base_of FNum RM (g 0%nat)) d_nan) eqn:L; [|reflexivity].
    apply d_leb_key in L. destruct L as (_ & L & _). discriminate. }
Qed.
Print Assumptions C13_binary64.

(** for one rand() result an event that happens also happens with every larger admissible probability *)
Theorem C13_monotone : forall RM p q g,
  fst (check_event FNum RM p g) = Ok true -> d_leb p q = true -> d_ltb (d_ofZ 1) q = false ->
  fst (check_event FNum RM q g) = Ok true.
Proof.
  intros RM p q g Hp Hpq Hq1. unfold check_event, validate_probability in *. cbn [n_ltb n_ofZ FNum] in *.
  destruct (d_ltb p (d_ofZ 0)) eqn:E0; [discriminate|].
  destruct (d_ltb (d_ofZ 1) p) eqn:E1; [discriminate|]. cbn [orb get_base draw n_leb FNum fst] in *.
  apply d_leb_key in Hpq. destruct Hpq as (Np & Nq & Hk).
  assert (Hq0 : d_ltb q (d_ofZ 0) = false).
  { destruct (d_ltb q (d_ofZ 0)) eqn:E; [|reflexivity]. apply d_ltb_key in E. destruct E as (_ & N0 & E).
    rewrite d_ltb_nkey in E0 by assumption. apply Z.ltb_ge in E0. lia. }
  rewrite Hq0, Hq1. cbn [orb fst]. assert (L : d_leb (base_of FNum RM (g 0%nat)) p = true) by congruence. apply d_leb_key in L. destruct L as (Nb & _ & L).
  assert (X : d_leb (base_of FNum RM (g 0%nat)) q = true) by (apply d_leb_key; repeat split; auto; lia).
  rewrite X. reflexivity.
Qed.
Print Assumptions C13_monotone.
Example C13_run : fst (check_event FNum 2147483647 (d_of 1 (-1)) (fun _ => 1000000000)) = Ok true /\
                  fst (check_event FNum 2147483647 (d_of 1 (-1)) (fun _ => 2000000000)) = Ok false.
Proof. vm_compute. auto. Qed.

(** ** C14 *)

Lemma max_bit_loop_ok b : forall fuel j, (j < b)%nat -> (b <= 30)%nat -> (b - j <= fuel)%nat ->
  max_bit_loop (2 ^ Z.of_nat b - 1) fuel (2 ^ Z.of_nat j) (Z.of_nat j) = Ok (Z.of_nat b - 1).
Proof.
  induction fuel as [|fuel IH]; intros j Hj Hb Hf; [lia|].
  cbn [max_bit_loop].
  assert (E : 2 ^ Z.of_nat j * 2 = 2 ^ Z.of_nat (S j)).
  { rewrite Nat2Z.inj_succ, Z.pow_succ_r by lia. ring. }
  rewrite E.
  assert (2 ^ Z.of_nat (S j) <= 2 ^ 30) by (apply Z.pow_le_mono_r; lia).
  assert (0 < 2 ^ Z.of_nat (S j)) by (apply Z.pow_pos_nonneg; lia).
  rewrite chk_int_ok by (unfold INT_MIN, INT_MAX; lia). cbn [bind].
  destruct (Nat.eq_dec (S j) b) as [Eb|Nb].
  - subst b. replace (2 ^ Z.of_nat (S j) - 1 <? 2 ^ Z.of_nat (S j)) with true by (symmetry; apply Z.ltb_lt; lia).
    f_equal. lia.
  - assert (2 ^ Z.of_nat (S j) < 2 ^ Z.of_nat b) by (apply Z.pow_lt_mono_r; lia).
    replace (2 ^ Z.of_nat b - 1 <? 2 ^ Z.of_nat (S j)) with false by (symmetry; apply Z.ltb_ge; lia).
    replace (Z.of_nat j + 1) with (Z.of_nat (S j)) by lia. apply IH; lia.
Qed.

Lemma land_bit w j : 0 <= j -> (Z.land w (Z.shiftl 1 j) =? 0) = negb (Z.testbit w j).
Proof.
  intro Hj. rewrite Z.shiftl_1_l.
  destruct (Z.testbit w j) eqn:E.
  - apply Z.eqb_neq. intro H. assert (X : Z.testbit (Z.land w (2 ^ j)) j = true).
    { rewrite Z.land_spec, E, Z.pow2_bits_true by lia. reflexivity. }
    rewrite H, Z.bits_0 in X. discriminate.
  - apply Z.eqb_eq. apply Z.bits_inj'. intros n Hn. rewrite Z.land_spec, Z.bits_0.
    destruct (Z.eq_dec n j) as [->|Ne]; [rewrite E; reflexivity|].
    rewrite Z.pow2_bits_false by lia. apply andb_false_r.
Qed.

Lemma rrun_ext : forall cs s g h, (forall n, g n = h n) -> rrun s g cs = rrun s h cs.
Proof.
  induction cs as [|c cs IH]; intros s g h H; [reflexivity|]. destruct c as [|n]; cbn [rrun].
  - unfold get_bool, next_bit_from_base, draw. rewrite (H 0%nat).
    destruct (max_bit s <? next_bit s); cbn [max_bit next_bit bool_base];
    match goal with |- context [if ?b then _ else _] => destruct b end; cbn [omap bind fst snd];
      try reflexivity; (erewrite IH; [reflexivity|intro n; apply H]).
  - apply IH. intro k. unfold skip. apply H.
Qed.

(** state: current word is number [w] of the stream, [j] of its bits have been used; the stream position is [p] *)
Lemma rrun_spec b g0 : (1 <= b <= 30)%nat ->
  forall cs w p j, (w < p)%nat -> (j <= b)%nat ->
  exists outs f, rrun (MkRnd (g0 w) (Z.of_nat j) (Z.of_nat b - 1)) (skip p g0) cs = Ok outs /\
    f 0%nat = w /\ (forall i, (f i < f (S i))%nat) /\
    (p = S w -> Forall (eq CBool) cs -> forall i, f i = (w + i)%nat) /\
    (forall i o, nth_error outs i = Some o ->
       o = negb (Z.testbit (g0 (f ((j + i) / b)%nat)) (Z.of_nat ((j + i) mod b)))) /\
    length outs = length (filter (fun c => match c with CBool => true | _ => false end) cs).
Proof.
  intro Hb. induction cs as [|c cs IH]; intros w p j Hwp Hj.
  - exists [], (fun i => (w + i)%nat). split; [reflexivity|]. split; [lia|]. split; [intros; lia|].
    split; [reflexivity|]. split; [intros [|i] o H; discriminate|reflexivity].
  - destruct c as [|n]; cbn [rrun].
    + unfold get_bool, next_bit_from_base. cbn [max_bit next_bit bool_base].
      destruct (Nat.eq_dec j b) as [Ej|Nj].
      * subst j. replace (Z.of_nat b - 1 <? Z.of_nat b) with true by (symmetry; apply Z.ltb_lt; lia).
        cbn [draw max_bit next_bit bool_base].
        replace (30 <? 0) with false by reflexivity. replace (0 <? 0) with false by reflexivity. cbn [orb omap bind fst snd].
        destruct (IH p (S p) 1%nat ltac:(lia) ltac:(lia)) as (outs & f & Hr & Hf0 & Hinc & Hid & Ho & Hl).
        replace (skip p g0 0%nat) with (g0 p) by (unfold skip; f_equal; lia).
        change (0 + 1) with (Z.of_nat 1).
        replace (rrun (MkRnd (g0 p) (Z.of_nat 1) (Z.of_nat b - 1)) (fun n => skip p g0 (S n)) cs) with (Ok outs).
        2:{ rewrite <- Hr. clear.
            apply rrun_ext. intro n. unfold skip. f_equal. lia. }
        cbn [bind]. exists ((Z.land (g0 p) (Z.shiftl 1 0) =? 0) :: outs).
        exists (fun i => match i with O => w | S k => f k end).
        split; [reflexivity|]. split; [reflexivity|]. split.
        { intros [|i]; [rewrite Hf0; lia|apply Hinc]. }
        split.
        { intros Ep Hall [|i]; [lia|]. inversion Hall; subst. rewrite Hid by auto. lia. }
        split.
        { intros [|i] o Hio; cbn [nth_error] in Hio.
          - inversion Hio as [E]. rewrite Nat.add_0_r, Nat.div_same, Nat.mod_same by lia.
            rewrite Hf0. apply (land_bit (g0 p) 0). lia.
          - rewrite (Ho i o Hio). replace (b + S i)%nat with (1 + i + 1 * b)%nat by lia.
            rewrite Nat.div_add, Nat.mod_add by lia. rewrite (Nat.add_1_r ((1 + i) / b)). reflexivity. }
        cbn [filter length]. congruence.
      * replace (Z.of_nat b - 1 <? Z.of_nat j) with false by (symmetry; apply Z.ltb_ge; lia).
        cbn beta iota delta [next_bit bool_base max_bit].
        replace (Z.of_nat j <? 0) with false by (symmetry; apply Z.ltb_ge; lia).
        replace (30 <? Z.of_nat j) with false by (symmetry; apply Z.ltb_ge; lia).
        cbn [orb omap bind fst snd bool_base next_bit max_bit].
        destruct (IH w p (S j) Hwp ltac:(lia)) as (outs & f & Hr & Hf0 & Hinc & Hid & Ho & Hl).
        replace (Z.of_nat j + 1) with (Z.of_nat (S j)) by lia. cbn beta iota delta [omap bind fst snd]. rewrite Hr. cbn [bind].
        exists ((Z.land (g0 w) (Z.shiftl 1 (Z.of_nat j)) =? 0) :: outs), f.
        split; [reflexivity|]. split; [exact Hf0|]. split; [exact Hinc|]. split.
        { intros Ep Hall i. inversion Hall; subst. rewrite Hid by auto. lia. }
        split.
        { intros [|i] o Hio; cbn [nth_error] in Hio.
          - inversion Hio as [E]. rewrite Nat.add_0_r, Nat.div_small, Nat.mod_small by lia.
            rewrite Hf0. apply land_bit. lia.
          - rewrite (Ho i o Hio). replace (j + S i)%nat with (S j + i)%nat by lia. reflexivity. }
        cbn [filter length]. congruence.
    + destruct (IH w (p + n)%nat j ltac:(lia) Hj) as (outs & f & Hr & Hf0 & Hinc & _ & H).
      exists outs, f. split; [|do 2 (split; [assumption|]); split; [intros _ Hall; inversion Hall; discriminate|exact H]].
      rewrite <- Hr.
      apply rrun_ext. intro k. unfold skip. f_equal. lia.
Qed.

(** over every history of uses: there is a strictly increasing choice [f] of rand() results (the first one being the
    one drawn by the constructor) such that the i-th GetRandomBool returns the negation of bit [i mod b] of word
    number [i / b]; if nothing else used rand() in between, word number k is simply the k-th rand() result *)
Theorem C14_bits_once : forall b g cs, (1 <= b <= 30)%nat ->
  exists outs f, rhistory (2 ^ Z.of_nat b - 1) g cs = Ok outs /\
    length outs = length (filter (fun c => match c with CBool => true | _ => false end) cs) /\
    f 0%nat = 0%nat /\ (forall i, (f i < f (S i))%nat) /\
    (Forall (eq CBool) cs -> forall i, f i = i) /\
    forall i o, nth_error outs i = Some o -> o = negb (Z.testbit (g (f (i / b)%nat)) (Z.of_nat (i mod b))).
Proof.
  intros b g cs Hb. destruct (rrun_spec b g Hb cs 0 1 0 ltac:(lia) ltac:(lia)) as (outs & f & Hr & Hf0 & Hinc & Hid & Ho & Hl).
  exists outs, f. split; [|do 3 (split; [assumption|]); split; [intros Hall i; rewrite Hid by auto; lia|exact Ho]].
  unfold rhistory, rnd_new, draw.
  change 1 with (2 ^ Z.of_nat 0) at 2. change 0 with (Z.of_nat 0) at 2.
  rewrite (max_bit_loop_ok b 32 0) by lia. cbn [omap bind]. exact Hr.
Qed.
Print Assumptions C14_bits_once.

(** and for RAND_MAX = 2^31-1 (glibc) the constructor overflows a signed int *)
Theorem C14_glibc_constructor_undefined : forall g, fst (rnd_new 2147483647 g) = UB IntOverflow.
Proof. intro g. vm_compute. reflexivity. Qed.
Print Assumptions C14_glibc_constructor_undefined.
Example C14_run : rhistory 32767 (fun n => Z.of_nat n + 5) (CBool :: COther 2 :: repeat CBool 15) =
  Ok [false; true; false; true; true; true; true; true; true; true; true; true; true; true; true; true].
Proof. vm_compute. reflexivity. Qed.
