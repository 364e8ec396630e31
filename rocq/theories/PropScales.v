(** C51: the scales of the wavelet transforms. *)
From Coq Require Import Reals Psatz.
From Flocq Require Import Core Core.Zaux Core.Raux IEEE754.BinarySingleNaN.
From Verif Require Import Base Num DblOrder FloatLemmas Scales.
Local Open Scope Z_scope.
Local Open Scope list_scope.

(** pow(2, e) exactly, and rounded to binary64 *)
Definition R_pow2 (e : Z) : R := powerRZ 2 e.
Definition d_pow2 (e : Z) : dbl := d_of 1 e.

(** ** C51 LinearScale (exact arithmetic): accepted exactly for 0 < min < max and count >= 2; then it has count values, the
    first is min, the last is max, consecutive ones differ by (max-min)/(count-1), and all are positive. *)
Theorem C51_linear : forall (min max : R) count,
  ((0 < min < max)%R /\ (2 <= count)%nat ->
   exists s, linear_scale RNum min max count = Ok s /\ length s = count /\ nth_error s 0 = Some min /\ nth_error s (count - 1) = Some max /\
     (forall i a b, nth_error s i = Some a -> nth_error s (S i) = Some b -> (b - a = (max - min) / (INR count - 1))%R) /\
     Forall (fun v => 0 < v)%R s) /\
  (~ ((0 < min < max)%R /\ (2 <= count)%nat) -> linear_scale RNum min max count = Throw InvalidArgument).
Proof.
  intros min max count. unfold linear_scale. cbn [n_leb n_ofZ RNum]. split.
  - intros [[H0 H1] H2].
    destruct (R_leb min 0) eqn:E; [apply R_leb_true in E; lra|]. destruct (R_leb max 0) eqn:E1; [apply R_leb_true in E1; lra|].
    destruct (R_leb max min) eqn:E2; [apply R_leb_true in E2; lra|]. destruct (Nat.ltb_spec count 2); [lia|].
    eexists. split; [reflexivity|]. unfold calculate_linear. cbn [n_div n_sub n_ofZ n_add n_mul RNum].
    assert (D : IZR (Z.of_nat count - 1) = (INR count - 1)%R) by (rewrite minus_IZR, <- INR_IZR_INZ; reflexivity).
    assert (C : (1 <= INR count - 1)%R) by (apply le_INR in H2; cbn in H2; lra). rewrite D.
    assert (K : forall i a, nth_error (map (fun i => (min + (max - min) / (INR count - 1) * IZR (Z.of_nat i))%R) (seq 0 count)) i = Some a ->
      (i < count)%nat /\ a = (min + (max - min) / (INR count - 1) * INR i)%R).
    { intros i a Ha. rewrite nth_error_map in Ha. destruct (nth_error (seq 0 count) i) as [j|] eqn:Ej; [|discriminate].
      assert (L : (i < count)%nat) by (rewrite <- (seq_length count 0); apply nth_error_Some; congruence).
      rewrite (nth_error_nth' _ 0%nat) in Ej by (rewrite seq_length; exact L). rewrite seq_nth in Ej by exact L. injection Ej as <-.
      injection Ha as <-. rewrite <- INR_IZR_INZ. auto. }
    assert (V : forall i, (i < count)%nat -> nth_error (map (fun i => (min + (max - min) / (INR count - 1) * IZR (Z.of_nat i))%R) (seq 0 count)) i =
      Some (min + (max - min) / (INR count - 1) * INR i)%R).
    { intros i Hi. rewrite nth_error_map, (nth_error_nth' _ 0%nat) by (rewrite seq_length; exact Hi). rewrite seq_nth by exact Hi. cbn. rewrite <- INR_IZR_INZ. reflexivity. }
    split; [rewrite map_length, seq_length; reflexivity|].
    split; [rewrite V by lia; f_equal; cbn; ring|].
    split; [rewrite V by lia; f_equal; rewrite minus_INR by lia; change (INR 1) with 1%R; field; lra|].
    split.
    + intros i a b Ha Hb. apply K in Ha as [_ ->]. apply K in Hb as [_ ->]. rewrite S_INR. field. lra.
    + apply Forall_forall. intros v Hv. apply In_nth_error in Hv as (i & Hi). apply K in Hi as [_ ->].
      assert (0 <= (max - min) / (INR count - 1) * INR i)%R; [|lra]. apply Rmult_le_pos; [|apply pos_INR]. unfold Rdiv. apply Rmult_le_pos; [lra|].
      left. apply Rinv_0_lt_compat. lra.
  - intro H. destruct (R_leb min 0) eqn:E; [reflexivity|]. apply R_leb_false in E. destruct (R_leb max 0) eqn:E1; [reflexivity|].
    destruct (R_leb max min) eqn:E2; [reflexivity|]. apply R_leb_false in E2. destruct (Nat.ltb_spec count 2); [reflexivity|]. exfalso. apply H. split; [lra|lia].
Qed.
(** with doubles the last scale can differ from max (min 1, max 100, 24 scales) ... *)
Theorem C51_linear_last_binary64_refuted :
  match linear_scale FNum (d_ofZ 1) (d_ofZ 100) 24 with Ok s => match nth_error s 23 with Some v => d_ltb v (d_ofZ 100) | None => false end | _ => false end = true.
Proof. vm_compute. reflexivity. Qed.
(** ... and NaN bounds are accepted *)
Theorem C51_linear_nan_refuted : forall (max : dbl) count, (2 <= count)%nat -> d_leb max (d_ofZ 0) = false ->
  exists s, linear_scale FNum d_nan max count = Ok s.
Proof.
  intros max count Hc Hm. unfold linear_scale. change (n_leb FNum) with d_leb. cbn [n_ofZ FNum].
  assert (A : forall y, d_leb d_nan y = false) by (intro y; destruct y as [[|]|[|]| |[|] m e b]; reflexivity).
  assert (B : forall y, d_leb y d_nan = false) by (intro y; destruct y as [[|]|[|]| |[|] m e b]; reflexivity).
  rewrite A, Hm, B. destruct (Nat.ltb_spec count 2); [lia|]. eauto.
Qed.

(** ** C51 LogarithmicScale (exact arithmetic): for min < max (whose difference is an int) the values are 2^min, ..., 2^max. *)
Lemma scales_loop_R : forall n (s : R), length (scales_loop RNum n s) = n /\ forall i, (i < n)%nat -> nth_error (scales_loop RNum n s) i = Some (s * 2 ^ i)%R.
Proof.
  induction n as [|n IH]; intro s; [split; [reflexivity|lia]|]. cbn [scales_loop length]. destruct (IH (n_mul RNum s (n_ofZ RNum 2))) as [L H].
  split; [rewrite L; reflexivity|]. intros [|i] Hi; cbn [nth_error]; [f_equal; cbn; ring|]. rewrite H by lia. f_equal. cbn. ring.
Qed.
Theorem C51_logarithmic : forall min max, min < max -> max - min < INT_MAX ->
  exists s, logarithmic_scale RNum R_pow2 min max = Ok s /\ Z.of_nat (length s) = max - min + 1 /\
    forall i, (i < length s)%nat -> nth_error s i = Some (powerRZ 2 (min + Z.of_nat i)).
Proof.
  intros min max H L. unfold logarithmic_scale. destruct (Z.leb_spec max min); [lia|].
  unfold chk_int, in_int. unfold INT_MAX, INT_MIN in *.
  replace ((-2147483648 <=? max - min) && (max - min <=? 2147483647)) with true by (symmetry; apply andb_true_iff; split; apply Z.leb_le; lia). cbn [bind].
  replace ((-2147483648 <=? max - min + 1) && (max - min + 1 <=? 2147483647)) with true by (symmetry; apply andb_true_iff; split; apply Z.leb_le; lia). cbn [bind].
  eexists. split; [reflexivity|]. destruct (scales_loop_R (Z.to_nat (max - min + 1)) (R_pow2 min)) as [Ln Hn]. rewrite Ln. split; [lia|].
  intros i Hi. rewrite Hn by exact Hi. f_equal. unfold R_pow2. rewrite powerRZ_add by lra. rewrite <- pow_powerRZ. reflexivity.
Qed.
Theorem C51_logarithmic_doubles : forall min max s i a b, logarithmic_scale RNum R_pow2 min max = Ok s ->
  nth_error s i = Some a -> nth_error s (S i) = Some b -> (b = 2 * a)%R /\ (0 < a)%R.
Proof.
  intros min max s i a b H Ha Hb. unfold logarithmic_scale in H. destruct (Z.leb_spec max min); [discriminate|].
  apply bind_ok in H as (d & _ & H). apply bind_ok in H as (sz & _ & H). injection H as <-.
  destruct (scales_loop_R (Z.to_nat sz) (R_pow2 min)) as [Ln Hn]. change (num RNum) with R in *.
  assert (Li : (S i < Z.to_nat sz)%nat) by (rewrite <- Ln; apply nth_error_Some; congruence).
  rewrite Hn in Ha, Hb by lia. injection Ha as <-. injection Hb as <-. split; [cbn; ring|]. apply Rmult_lt_0_compat; [apply powerRZ_lt; lra|apply pow_lt; lra].
Qed.
Theorem C51_logarithmic_invalid : forall N pow2 min max, max <= min -> logarithmic_scale N pow2 min max = Throw InvalidArgument.
Proof. intros. unfold logarithmic_scale. destruct (Z.leb_spec max min); [reflexivity|lia]. Qed.
(** a difference that is not below the greatest int is undefined behaviour *)
Theorem C51_logarithmic_overflow_refuted : forall N pow2 min max, INT_MAX <= max - min -> logarithmic_scale N pow2 min max = UB IntOverflow.
Proof.
  intros N pow2 min max H. unfold logarithmic_scale, chk_int, in_int. unfold INT_MAX, INT_MIN in *. destruct (Z.leb_spec max min); [lia|].
  destruct (Z.leb_spec (-2147483648) (max - min)); [|lia]. destruct (Z.leb_spec (max - min) 2147483647); [|reflexivity]. cbn [andb bind].
  destruct (Z.leb_spec (-2147483648) (max - min + 1)); [|lia]. destruct (Z.leb_spec (max - min + 1) 2147483647); [lia|reflexivity].
Qed.

(** ** C51 with doubles: exact while 2^min .. 2^max are doubles *)
Lemma fmt_bpow e : -1074 <= e -> fmt64 (bpow radix2 e).
Proof. intro H. apply generic_format_bpow. unfold FLT_exp, SpecFloat.fexp, SpecFloat.emin, dprec, demax. lia. Qed.
Lemma d_pow2_exact e : -1074 <= e <= 1023 -> is_finite (d_pow2 e) = true /\ B2R (d_pow2 e) = bpow radix2 e.
Proof.
  intro H. unfold d_pow2, d_of. pose proof (binary_normalize_correct dprec demax dprec_gt_0 dprec_lt_emax mode_NE 1 e false) as C. cbv zeta in C.
  assert (E : F2R (Float radix2 1 e) = bpow radix2 e) by (unfold F2R; cbn; ring). rewrite E in C.
  rewrite Rlt_bool_true in C.
  - destruct C as (C1 & C2 & _). split; [exact C2|]. rewrite C1. apply round_generic; [apply valid_rnd_N|]. apply fmt_bpow. lia.
  - rewrite round_generic; [|apply valid_rnd_N|apply fmt_bpow; lia]. rewrite Rabs_pos_eq by apply bpow_ge_0. apply bpow_lt. unfold demax. lia.
Qed.
Lemma scales_loop_F : forall n (s : dbl) e, is_finite s = true -> B2R s = bpow radix2 e -> -1074 <= e -> e + Z.of_nat n <= 1024 ->
  forall i v, nth_error (scales_loop FNum n s) i = Some v -> is_finite (v : dbl) = true /\ B2R (v : dbl) = bpow radix2 (e + Z.of_nat i).
Proof.
  induction n as [|n IH]; intros s e Fs Bs He Hn [|i] v H; cbn [scales_loop nth_error] in H; try discriminate.
  - injection H as <-. rewrite Z.add_0_r. auto.
  - destruct (Nat.eq_dec n 0) as [->|Nn]; [destruct i; discriminate|].
    destruct (d_ofZ_exact 2) as [F2 B2]; [cbn; lia|].
    assert (P : (bpow radix2 e * 2 = bpow radix2 (e + 1))%R) by (rewrite bpow_plus; reflexivity).
    destruct (d_mul_finite s (d_ofZ 2) Fs F2) as [F' B'].
    { rewrite Bs, B2. change (IZR 2) with 2%R. rewrite P. rewrite rnd_id by (apply fmt_bpow; lia). rewrite Rabs_pos_eq by apply bpow_ge_0. apply bpow_lt. lia. }
    rewrite Bs, B2 in B'. change (IZR 2) with 2%R in B'. rewrite P, rnd_id in B' by (apply fmt_bpow; lia).
    destruct (IH (d_mul s (d_ofZ 2)) (e + 1) F' B' ltac:(lia) ltac:(lia) i v H) as [A B]. split; [exact A|]. rewrite B. f_equal. lia.
Qed.
Theorem C51_logarithmic_binary64 : forall min max s i v, -1074 <= min -> max <= 1023 -> logarithmic_scale FNum d_pow2 min max = Ok s ->
  nth_error s i = Some v -> is_finite (v : dbl) = true /\ B2R (v : dbl) = bpow radix2 (min + Z.of_nat i).
Proof.
  intros min max s i v H1 H2 H Hv. unfold logarithmic_scale in H. destruct (Z.leb_spec max min); [discriminate|].
  apply bind_ok in H as (d & E1 & H). apply bind_ok in H as (sz & E2 & H). injection H as <-.
  unfold chk_int in E1, E2. destruct (in_int (max - min)); [|discriminate]. injection E1 as <-. destruct (in_int (max - min + 1)); [|discriminate]. injection E2 as <-.
  destruct (d_pow2_exact min ltac:(lia)) as [F B]. apply (scales_loop_F (Z.to_nat (max - min + 1)) (d_pow2 min) min F B H1 ltac:(lia) i v Hv).
Qed.
(** below 2^-1074 the initial scale is 0, and so are all the others, whatever the greatest exponent: every wavelet transform
    over these scales throws (C53_scale) *)
Lemma d_pow2_zero e : e <= -1075 -> d_pow2 e = B754_zero false.
Proof.
  intro H. unfold d_pow2, d_of. pose proof (binary_normalize_correct dprec demax dprec_gt_0 dprec_lt_emax mode_NE 1 e false) as C. cbv zeta in C.
  assert (E : F2R (Float radix2 1 e) = bpow radix2 e) by (unfold F2R; cbn; ring). rewrite E in C.
  assert (Rz : round radix2 (SpecFloat.fexp dprec demax) (round_mode mode_NE) (bpow radix2 e) = 0%R).
  { assert (M : (round radix2 (SpecFloat.fexp dprec demax) (round_mode mode_NE) (bpow radix2 e) <= round radix2 (SpecFloat.fexp dprec demax) (round_mode mode_NE) (bpow radix2 (-1075)))%R).
    { apply round_le; [apply fexp_correct; reflexivity|apply valid_rnd_N|]. apply bpow_le. lia. }
    assert (Z1 : round radix2 (SpecFloat.fexp dprec demax) (round_mode mode_NE) (bpow radix2 (-1075)) = 0%R).
    { pose proof (binary_normalize_correct dprec demax dprec_gt_0 dprec_lt_emax mode_NE 1 (-1075) false) as C0. cbv zeta in C0.
      assert (E0 : F2R (Float radix2 1 (-1075)) = bpow radix2 (-1075)) by (unfold F2R; cbn; ring). rewrite E0 in C0.
      destruct (Rlt_bool _ _) in C0; [destruct C0 as (C0 & _); rewrite <- C0; reflexivity|].
      exfalso. revert C0. replace (binary_normalize dprec demax dprec_gt_0 dprec_lt_emax mode_NE 1 (-1075) false) with (B754_zero false : dbl) by reflexivity.
      intros C0. discriminate. }
    assert (G : (0 <= round radix2 (SpecFloat.fexp dprec demax) (round_mode mode_NE) (bpow radix2 e))%R).
    { rewrite <- (round_0 radix2 (SpecFloat.fexp dprec demax) (round_mode mode_NE)). apply round_le; [apply fexp_correct; reflexivity|apply valid_rnd_N|apply bpow_ge_0]. }
    lra. }
  rewrite Rz in C. rewrite Rabs_R0, Rlt_bool_true in C by apply bpow_gt_0. destruct C as (C1 & C2 & C3).
  rewrite Rcompare_Gt in C3.
  2:{ apply bpow_gt_0. }
  destruct (binary_normalize dprec demax dprec_gt_0 dprec_lt_emax mode_NE 1 e false) as [s|s| |s m x b]; try discriminate; [cbn in C3; subst s; reflexivity|].
  exfalso. cbn [B2R] in C1. apply eq_0_F2R in C1. destruct s; discriminate.
Qed.
Theorem C51_logarithmic_underflow_refuted : forall min max s, min <= -1075 -> logarithmic_scale FNum d_pow2 min max = Ok s ->
  (2 <= length s)%nat /\ forall i v, nth_error s i = Some v -> d_leb (v : dbl) (d_ofZ 0) = true.
Proof.
  intros min max s Hm H. unfold logarithmic_scale in H. destruct (Z.leb_spec max min); [discriminate|].
  apply bind_ok in H as (d & E1 & H). apply bind_ok in H as (sz & E2 & H). injection H as <-.
  unfold chk_int in E1, E2. destruct (in_int (max - min)); [|discriminate]. injection E1 as <-. destruct (in_int (max - min + 1)); [|discriminate]. injection E2 as <-.
  rewrite d_pow2_zero by exact Hm.
  assert (G : forall n, length (scales_loop FNum n (B754_zero false : dbl)) = n /\ forall i v, nth_error (scales_loop FNum n (B754_zero false : dbl)) i = Some v -> d_leb (v : dbl) (d_ofZ 0) = true).
  { induction n as [|n IH]; [split; [reflexivity|intros [|i] v H; discriminate]|]. cbn [scales_loop length].
    replace (n_mul FNum (B754_zero false : dbl) (n_ofZ FNum 2)) with (B754_zero false : dbl) by reflexivity. destruct IH as [L IH].
    split; [rewrite L; reflexivity|]. intros [|i] v Hv; cbn [nth_error] in Hv; [injection Hv as <-; reflexivity|eauto]. }
  destruct (G (Z.to_nat (max - min + 1))) as [L K]. split; [etransitivity; [|apply Nat.eq_le_incl; symmetry; exact L]; lia|exact K].
Qed.
Example C51_example : (0 < 1 < 100)%R /\ (2 <= 24)%nat /\ -3 < 5 /\ 5 - -3 < INT_MAX.
Proof. unfold INT_MAX. repeat split; lra || lia. Qed.
Print Assumptions C51_linear. Print Assumptions C51_linear_last_binary64_refuted. Print Assumptions C51_linear_nan_refuted.
Print Assumptions C51_logarithmic. Print Assumptions C51_logarithmic_doubles. Print Assumptions C51_logarithmic_invalid. Print Assumptions C51_logarithmic_overflow_refuted.
Print Assumptions C51_logarithmic_binary64. Print Assumptions C51_logarithmic_underflow_refuted.
