(** Consequences of Flocq's correctness theorems for binary64, in a convenient shape. *)
From Coq Require Import Reals Psatz.
From Flocq Require Import Core.Core IEEE754.BinarySingleNaN.
From Flocq Require Import Relative.
From Verif Require Import Base Num IntProofs.
Open Scope R_scope.

Notation fexp64 := (FLT_exp (-1074) 53).
Notation rnd64 := (round radix2 fexp64 ZnearestE).
Notation fmt64 := (generic_format radix2 fexp64).

#[local] Instance prec53 : Prec_gt_0 53.
Proof. reflexivity. Qed.

Lemma fmt_dbl (x : dbl) : fmt64 (B2R x).
Proof. apply (generic_format_B2R dprec demax x). Qed.

Lemma rnd_fmt x : fmt64 (rnd64 x).
Proof. apply generic_format_round; typeclasses eauto. Qed.
Lemma rnd_id x : fmt64 x -> rnd64 x = x.
Proof. apply round_generic; typeclasses eauto. Qed.
Lemma rnd_le x y : x <= y -> rnd64 x <= rnd64 y.
Proof. apply round_le; typeclasses eauto. Qed.
Lemma rnd_le_fmt x y : x <= y -> fmt64 y -> rnd64 x <= y.
Proof. intros H F. rewrite <- (rnd_id y F). apply rnd_le; exact H. Qed.
Lemma rnd_ge_fmt x y : x <= y -> fmt64 x -> x <= rnd64 y.
Proof. intros H F. rewrite <- (rnd_id x F). apply rnd_le; exact H. Qed.
Lemma rnd_0 : rnd64 0 = 0.
Proof. apply round_0; typeclasses eauto. Qed.

Lemma dbl_lt_max (x : dbl) : Rabs (B2R x) < bpow radix2 1024.
Proof. apply (abs_B2R_lt_emax dprec demax x). Qed.

Lemma fmt_IZR z : (Z.abs z <= 2 ^ 53)%Z -> fmt64 (IZR z).
Proof.
  intro Hz.
  destruct (Z.eq_dec (Z.abs z) (2 ^ 53)) as [E|E].
  - assert (fmt64 (bpow radix2 53)).
    { apply generic_format_bpow'; [typeclasses eauto|]. unfold FLT_exp. lia. }

    destruct (Z.abs_eq_or_opp z) as [E2|E2]; rewrite E2 in E.
    + subst z. exact H.
    + replace z with (- (2 ^ 53))%Z by (rewrite <- E; ring). rewrite opp_IZR. apply generic_format_opp. exact H.
  - apply generic_format_FLT. exists (Float radix2 z 0); cbn [Fnum Fexp].
    + unfold F2R; cbn. ring.
    + change (Z.pow_pos 2 53) with (2 ^ 53)%Z. change (radix2 ^ 53)%Z with (2 ^ 53)%Z. lia.
    + lia.
Qed.

Lemma d_ofZ_exact z : (Z.abs z <= 2 ^ 53)%Z -> is_finite (d_ofZ z) = true /\ B2R (d_ofZ z) = IZR z.
Proof.
  intro Hz. unfold d_ofZ, d_of.
  pose proof (binary_normalize_correct dprec demax dprec_gt_0 dprec_lt_emax mode_NE z 0 false) as H.
  cbv zeta in H. assert (HF : F2R (beta:=radix2) {| Fnum := z; Fexp := 0 |} = IZR z) by (unfold F2R; cbn; ring).
  rewrite HF in H. 
  assert (Hr : round radix2 (SpecFloat.fexp dprec demax) (round_mode mode_NE) (IZR z) = IZR z).
  { apply (rnd_id (IZR z)). apply fmt_IZR; exact Hz. }
  rewrite Hr in H. rewrite Rlt_bool_true in H.
  - tauto.
  - apply Rle_lt_trans with (bpow radix2 53).
    + rewrite <- abs_IZR. change (bpow radix2 53) with (IZR (2 ^ 53)). apply IZR_le; exact Hz.
    + apply bpow_lt. reflexivity.
Qed.

Lemma d_add_finite (x y : dbl) : is_finite x = true -> is_finite y = true ->
  Rabs (rnd64 (B2R x + B2R y)) < bpow radix2 1024 ->
  is_finite (d_add x y) = true /\ B2R (d_add x y) = rnd64 (B2R x + B2R y).
Proof.
  intros Hx Hy Hlt. pose proof (Bplus_correct dprec demax dprec_gt_0 dprec_lt_emax mode_NE x y Hx Hy) as H.
  rewrite Rlt_bool_true in H by exact Hlt. unfold d_add. tauto.
Qed.

Lemma d_sub_finite (x y : dbl) : is_finite x = true -> is_finite y = true ->
  Rabs (rnd64 (B2R x - B2R y)) < bpow radix2 1024 ->
  is_finite (d_sub x y) = true /\ B2R (d_sub x y) = rnd64 (B2R x - B2R y).
Proof.
  intros Hx Hy Hlt. pose proof (Bminus_correct dprec demax dprec_gt_0 dprec_lt_emax mode_NE x y Hx Hy) as H.
  rewrite Rlt_bool_true in H by exact Hlt. unfold d_sub. tauto.
Qed.

(** the converse direction: a finite result means no overflow happened *)
Lemma d_sub_finite_inv (x y : dbl) : is_finite x = true -> is_finite y = true ->
  is_finite (d_sub x y) = true ->
  B2R (d_sub x y) = rnd64 (B2R x - B2R y).
Proof.
  intros Hx Hy Hf. pose proof (Bminus_correct dprec demax dprec_gt_0 dprec_lt_emax mode_NE x y Hx Hy) as H.
  destruct (Rlt_bool_spec (Rabs (rnd64 (B2R x - B2R y))) (bpow radix2 1024)) as [L|L].
  - rewrite Rlt_bool_true in H by exact L. unfold d_sub. tauto.
  - rewrite Rlt_bool_false in H by exact L. destruct H as [H _].
    unfold d_sub in Hf. destruct (Bminus mode_NE x y); try discriminate Hf;
      unfold binary_overflow in H; cbn in H; discriminate.
Qed.

Lemma d_mul_finite (x y : dbl) : is_finite x = true -> is_finite y = true ->
  Rabs (rnd64 (B2R x * B2R y)) < bpow radix2 1024 ->
  is_finite (d_mul x y) = true /\ B2R (d_mul x y) = rnd64 (B2R x * B2R y).
Proof.
  intros Hx Hy Hlt. pose proof (Bmult_correct dprec demax dprec_gt_0 dprec_lt_emax mode_NE x y) as H.
  rewrite Rlt_bool_true in H by exact Hlt. unfold d_mul. rewrite Hx, Hy in H. tauto.
Qed.

Lemma d_div_finite (x y : dbl) : is_finite x = true -> B2R y <> 0 ->
  Rabs (rnd64 (B2R x / B2R y)) < bpow radix2 1024 ->
  is_finite (d_div x y) = true /\ B2R (d_div x y) = rnd64 (B2R x / B2R y).
Proof.
  intros Hx Hy Hlt. pose proof (Bdiv_correct dprec demax dprec_gt_0 dprec_lt_emax mode_NE x y Hy) as H.
  rewrite Rlt_bool_true in H by exact Hlt. unfold d_div. rewrite Hx in H. tauto.
Qed.

Lemma d_leb_R (x y : dbl) : is_finite x = true -> is_finite y = true ->
  (d_leb x y = true <-> B2R x <= B2R y).
Proof.
  intros Hx Hy. unfold d_leb. rewrite (Bleb_correct dprec demax x y Hx Hy).
  split; [intro H|apply Rle_bool_true].
  destruct (Rle_bool_spec (B2R x) (B2R y)); [assumption|discriminate].
Qed.

Lemma d_ltb_R (x y : dbl) : is_finite x = true -> is_finite y = true ->
  (d_ltb x y = true <-> B2R x < B2R y).
Proof.
  intros Hx Hy. unfold d_ltb. rewrite (Bltb_correct dprec demax x y Hx Hy).
  split; [|apply Rlt_bool_true].
  intro H. destruct (Rlt_bool_spec (B2R x) (B2R y)); [assumption|discriminate].
Qed.

(** relative error of rounding a normal number *)
Lemma rnd_rel_error x : bpow radix2 (-1022) <= Rabs x ->
  Rabs (rnd64 x - x) <= / 2 * bpow radix2 (-52) * Rabs x.
Proof.
  intro H. apply (relative_error_N_FLT radix2 (-1074) 53 prec53 (fun z => negb (Z.even z)) x). exact H.
Qed.
