(** C73: the bundled comparison of optimisers - its test functions, their reported solutions and the table of results. *)
From Coq Require Import Reals Psatz.
From Flocq Require Import Core.Core IEEE754.BinarySingleNaN.
From Verif Require Import Base Num Misc FloatLemmas Optim Dsp DblOrder RoundError Examples.
From Verif Require PropFwtRounding.
Local Open Scope list_scope.
Local Open Scope R_scope.
Notation V := (@B2R dprec demax).
Notation pow2 e := (bpow radix2 e).

(** ** Doubles whose square is near 2 *)
(** M_SQRT2, the double nearest to the square root of 2, and the double below it. *)
Definition root2 : dbl := d_of 6369051672525773 (-52).
Definition below2 : dbl := d_of 6369051672525772 (-52).
Definition two_up : dbl := d_add (d_ofZ 2) (d_of 1 (-51)).
Definition two_down : dbl := d_sub (d_ofZ 2) (d_of 1 (-51)).

Lemma d_of_exact m e : (Z.abs m < 2 ^ 53)%Z -> (-1000 <= e <= 900)%Z -> is_finite (d_of m e) = true /\ V (d_of m e) = IZR m * pow2 e.
Proof.
  intros Hm He. pose proof (binary_normalize_correct dprec demax dprec_gt_0 dprec_lt_emax mode_NE m e false) as H. cbv zeta in H.
  assert (F : fmt64 (F2R (Float radix2 m e))).
  { apply generic_format_FLT. exists (Float radix2 m e); [reflexivity|cbn [Fnum]; exact Hm|cbn [Fexp]; lia]. }
  change (round radix2 _ _ (F2R (Float radix2 m e))) with (rnd64 (F2R (Float radix2 m e))) in H. rewrite (rnd_id _ F) in H.
  rewrite Rlt_bool_true in H; [destruct H as (A & B & _); split; [exact B|exact A]|].
  unfold F2R. cbn [Fnum Fexp]. rewrite Rabs_mult, (Rabs_pos_eq (pow2 e)) by apply bpow_ge_0. apply Rle_lt_trans with (pow2 53 * pow2 e).
  - apply Rmult_le_compat_r; [apply bpow_ge_0|]. rewrite <- abs_IZR. change (pow2 53) with (IZR (2 ^ 53)). apply IZR_le. lia.
  - rewrite <- bpow_plus. apply bpow_lt. unfold demax. lia.
Qed.
Lemma feq (x y : dbl) : is_finite x = true -> is_finite y = true -> d_eqb x y = true -> V x = V y.
Proof. intros Fx Fy H. unfold d_eqb in H. rewrite (Beqb_correct dprec demax x y Fx Fy) in H. revert H. case Req_bool_spec; [auto|discriminate]. Qed.
Lemma two_up_V : is_finite two_up = true /\ V two_up = 2 + pow2 (-51).
Proof.
  destruct (d_of_exact 4503599627370497 (-51)) as [F E]; [cbn; lia|lia|].
  assert (Fu : is_finite two_up = true) by (vm_compute; reflexivity). split; [exact Fu|].
  rewrite (feq two_up (d_of 4503599627370497 (-51)) Fu F) by (vm_compute; reflexivity). rewrite E.
  replace 2 with (IZR (2 ^ 52) * pow2 (-51)); [rewrite <- (Rmult_1_l (pow2 (-51))) at 3; rewrite <- Rmult_plus_distr_r, <- plus_IZR; reflexivity|].
  change (IZR (2 ^ 52)) with (pow2 52). rewrite <- bpow_plus. reflexivity.
Qed.
Lemma two_down_V : is_finite two_down = true /\ V two_down = 2 - pow2 (-51).
Proof.
  destruct (d_of_exact 4503599627370495 (-51)) as [F E]; [cbn; lia|lia|].
  assert (Fu : is_finite two_down = true) by (vm_compute; reflexivity). split; [exact Fu|].
  rewrite (feq two_down (d_of 4503599627370495 (-51)) Fu F) by (vm_compute; reflexivity). rewrite E.
  replace 2 with (IZR (2 ^ 52) * pow2 (-51)); [rewrite <- (Rmult_1_l (pow2 (-51))) at 3; rewrite <- Rmult_minus_distr_r, <- minus_IZR; reflexivity|].
  change (IZR (2 ^ 52)) with (pow2 52). rewrite <- bpow_plus. reflexivity.
Qed.
Lemma square_V (x : dbl) : is_finite x = true -> is_finite (d_mul x x) = true -> V (d_mul x x) = rnd64 (V x * V x).
Proof.
  intros Fx F. pose proof (Bmult_correct dprec demax dprec_gt_0 dprec_lt_emax mode_NE x x) as H.
  destruct (Rlt_bool_spec (Rabs (rnd64 (V x * V x))) (bpow radix2 1024)) as [L|L].
  - rewrite Rlt_bool_true in H by exact L. unfold d_mul. tauto.
  - rewrite Rlt_bool_false in H by exact L. unfold d_mul in F. destruct (Bmult mode_NE x x); try discriminate F; unfold binary_overflow in H; cbn in H; discriminate.
Qed.
(** no double is between below2 and root2 *)
Lemma gap x : fmt64 x -> x <= V below2 \/ V root2 <= x.
Proof.
  intro F. destruct (d_of_exact 6369051672525773 (-52)) as [_ Er]; [cbn; lia|lia|]. destruct (d_of_exact 6369051672525772 (-52)) as [_ Eb]; [cbn; lia|lia|].
  fold root2 in Er. fold below2 in Eb. destruct (Rle_lt_dec x (V below2)) as [L|L]; [left; exact L|right].
  destruct (Rle_lt_dec (V root2) x) as [L'|L']; [exact L'|exfalso].
  assert (P : pow2 (-52) * IZR (2 ^ 52) = 1) by (change (IZR (2 ^ 52)) with (pow2 52); rewrite <- bpow_plus; reflexivity).
  assert (B1 : 1 <= V below2). { rewrite Eb, <- P, Rmult_comm. apply Rmult_le_compat_r; [apply bpow_ge_0|]. apply IZR_le. lia. }
  assert (B2 : V root2 < 2). { rewrite Er. replace 2 with (IZR (2 ^ 53) * pow2 (-52)) by (change (IZR (2 ^ 53)) with (pow2 53); rewrite <- bpow_plus; reflexivity). apply Rmult_lt_compat_r; [apply bpow_gt_0|]. apply IZR_lt. lia. }
  assert (C : cexp radix2 (FLT_exp (-1074) 53) x = (-52)%Z).
  { unfold cexp. rewrite (mag_unique_pos radix2 x 1); [reflexivity|]. change (pow2 (1 - 1)) with 1. change (pow2 1) with 2. lra. }
  unfold generic_format, F2R in F. cbn [Fnum Fexp] in F. rewrite C in F. set (m := Ztrunc (scaled_mantissa radix2 (FLT_exp (-1074) 53) x)) in F.
  rewrite F, Eb in L. rewrite F, Er in L'. pose proof (bpow_gt_0 radix2 (-52)) as P0. apply Rmult_lt_reg_r in L; [|exact P0]. apply Rmult_lt_reg_r in L'; [|exact P0]. apply lt_IZR in L. apply lt_IZR in L'. lia.
Qed.
Lemma below_sq : V (d_mul below2 below2) = 2 - pow2 (-51).
Proof. destruct two_down_V as [F <-]. apply feq; [vm_compute; reflexivity|exact F|vm_compute; reflexivity]. Qed.
Lemma root_sq : V (d_mul root2 root2) = 2 + pow2 (-51).
Proof. destruct two_up_V as [F <-]. apply feq; [vm_compute; reflexivity|exact F|vm_compute; reflexivity]. Qed.

(** x*x is never within 2^-51 of 2 *)
Lemma square_far (x : dbl) : is_finite x = true -> rnd64 (V x * V x) <= 2 - pow2 (-51) \/ 2 + pow2 (-51) <= rnd64 (V x * V x).
Proof.
  intro Fx. assert (F : fmt64 (Rabs (V x))) by (apply generic_format_abs, fmt_dbl). replace (V x * V x) with (Rabs (V x) * Rabs (V x)) by (rewrite <- Rabs_mult; apply Rabs_pos_eq; apply Rle_0_sqr).
  assert (Fb : is_finite below2 = true) by (vm_compute; reflexivity). assert (Fr : is_finite root2 = true) by (vm_compute; reflexivity).
  assert (Pr : 0 <= V root2) by (unfold root2; destruct (d_of_exact 6369051672525773 (-52)) as [_ ->]; [cbn; lia|lia|]; apply Rmult_le_pos; [apply IZR_le; lia|apply bpow_ge_0]).
  destruct (gap _ F) as [L|L]; [left|right].
  - rewrite <- below_sq, (square_V below2 Fb) by (vm_compute; reflexivity). apply rnd_le. apply Rmult_le_compat; auto using Rabs_pos.
  - rewrite <- root_sq, (square_V root2 Fr) by (vm_compute; reflexivity). apply rnd_le. apply Rmult_le_compat; auto.
Qed.
(** the difference x*x - 2, for every x that is not NaN *)
Lemma minus_two (x : dbl) : is_nan x = false -> d_sub (d_mul x x) (d_ofZ 2) = B754_infinity false \/
  is_finite (d_sub (d_mul x x) (d_ofZ 2)) = true /\ pow2 (-51) <= Rabs (V (d_sub (d_mul x x) (d_ofZ 2))).
Proof.
  intro N. assert (D2 : exists p, d_ofZ 2 = p /\ is_finite p = true /\ V p = 2) by (exists (d_ofZ 2); split; [reflexivity|]; apply (d_ofZ_exact 2); cbn; lia).
  destruct D2 as (p & -> & Fp & Vp).
  assert (I : d_sub (B754_infinity false) p = B754_infinity false) by (destruct p as [[]| | |[]]; try discriminate Fp; reflexivity).
  destruct (is_finite x) eqn:Fx.
  2:{ destruct x as [|[]| |]; try discriminate N; try discriminate Fx; left; [change (d_mul (B754_infinity true) (B754_infinity true)) with (B754_infinity false : dbl)|change (d_mul (B754_infinity false) (B754_infinity false)) with (B754_infinity false : dbl)]; exact I. }
  pose proof (Bmult_correct dprec demax dprec_gt_0 dprec_lt_emax mode_NE x x) as H.
  destruct (Rlt_bool_spec (Rabs (rnd64 (V x * V x))) (bpow radix2 1024)) as [L|L].
  - rewrite Rlt_bool_true in H by exact L. destruct H as (E & F & _). fold (d_mul x x) in E, F. rewrite Fx in F. cbn [andb] in F. change (V (d_mul x x) = rnd64 (V x * V x)) in E.
    right. pose proof (square_far x Fx) as G. rewrite <- E in G. assert (P : 0 <= V (d_mul x x)) by (rewrite E; apply rnd_ge_fmt; [apply Rle_0_sqr|apply generic_format_0]).
    assert (F51 : fmt64 (pow2 (-51))) by (apply generic_format_bpow'; [typeclasses eauto|unfold FLT_exp; lia]).
    assert (Bd : - 2 <= rnd64 (V (d_mul x x) - V p) <= V (d_mul x x)).
    { rewrite Vp. split; [apply rnd_ge_fmt; [lra|apply (fmt_IZR (-2)); cbn; lia]|apply rnd_le_fmt; [lra|apply fmt_dbl]]. }
    destruct (d_sub_finite (d_mul x x) p F Fp) as [Fs Es].
    { assert (V (d_mul x x) < pow2 1024) by (eapply Rle_lt_trans; [apply Rle_abs|apply dbl_lt_max]). assert (2 < pow2 1024) by (change 2 with (pow2 1); apply bpow_lt; lia). apply Rabs_lt. lra. }
    split; [exact Fs|]. rewrite Es, Vp. destruct G as [G|G].
    + rewrite Rabs_left1; [apply Ropp_le_cancel; rewrite Ropp_involutive|]; [apply rnd_le_fmt; [lra|apply generic_format_opp; exact F51]|apply rnd_le_fmt; [pose proof (bpow_gt_0 radix2 (-51)); lra|apply generic_format_0]].
    + eapply Rle_trans; [|apply Rle_abs]. apply rnd_ge_fmt; [lra|exact F51].
  - rewrite Rlt_bool_false in H by exact L. left. assert (E : d_mul x x = B754_infinity false).
    { unfold d_mul. destruct (Bmult mode_NE x x) as [s|s| |s m e b]; unfold binary_overflow in H; cbn in H; rewrite xorb_nilpotent in H; try discriminate H. injection H as ->. reflexivity. }
    rewrite E. exact I.
Qed.

(** ** Sums of nonnegative finite terms *)
Lemma nonneg_fmt k e : (0 <= k < 2 ^ 53)%Z -> (-1000 <= e <= 900)%Z -> fmt64 (IZR k * pow2 e).
Proof. intros Hk He. destruct (d_of_exact k e) as [_ <-]; [lia|exact He|apply fmt_dbl]. Qed.
Lemma below_max k e : (0 <= k < 2 ^ 53)%Z -> (-1000 <= e <= 900)%Z -> IZR k * pow2 e < pow2 1024.
Proof. intros Hk He. destruct (d_of_exact k e) as [_ <-]; [lia|exact He|]. eapply Rle_lt_trans; [apply Rle_abs|apply dbl_lt_max]. Qed.
(** the term of one value in the functions whose name is Square *)
Definition inverse_term (x : dbl) : dbl := d_div (d_ofZ 1) (Babs (d_sub (d_mul x x) (d_ofZ 2))).
Lemma inverse_term_bounds (x : dbl) : is_nan x = false -> is_finite (inverse_term x) = true /\ 0 <= V (inverse_term x) <= pow2 51.
Proof.
  intro N. unfold inverse_term. destruct (d_ofZ_exact 1) as [F1 V1]; [cbn; lia|]. destruct (minus_two x N) as [E|[F G]].
  - rewrite E. assert (D : d_div (d_ofZ 1) (Babs (B754_infinity false)) = B754_zero false).
    { assert (X : exists p, d_ofZ 1 = p /\ is_finite p = true /\ 0 < V p) by (exists (d_ofZ 1); split; [reflexivity|split; [exact F1|rewrite V1; lra]]).
      destruct X as (p & -> & Fp & Vp). destruct p as [s| | |[] m e b]; try discriminate Fp; try reflexivity.
      - cbn in Vp. lra.
      - exfalso. cbn in Vp. unfold F2R in Vp. cbn [Fnum Fexp] in Vp. pose proof (bpow_gt_0 radix2 e). assert (IZR (Z.neg m) < 0) by (apply IZR_lt; lia). nra. }
    rewrite D. cbn [V B2R is_finite]. split; [reflexivity|]. pose proof (bpow_ge_0 radix2 51). lra.
  - set (d := d_sub (d_mul x x) (d_ofZ 2)) in *. pose proof (bpow_gt_0 radix2 (-51)) as P.
    assert (A : 0 < Rabs (V d)) by lra.
    assert (Q : 0 <= V (d_ofZ 1) / V (Babs d) <= pow2 51).
    { rewrite V1, B2R_Babs. unfold Rdiv. rewrite Rmult_1_l. split; [left; apply Rinv_0_lt_compat; exact A|].
      change 51%Z with (- (-51))%Z. rewrite bpow_opp. apply Rinv_le_contravar; assumption. }
    assert (Q2 : 0 <= rnd64 (V (d_ofZ 1) / V (Babs d)) <= pow2 51).
    { split; [apply rnd_ge_fmt; [lra|apply generic_format_0]|apply rnd_le_fmt; [lra|]]. apply generic_format_bpow'; [typeclasses eauto|unfold FLT_exp; lia]. }
    destruct (d_div_finite (d_ofZ 1) (Babs d) F1) as [Fq Eq].
    + rewrite B2R_Babs. lra.
    + rewrite Rabs_pos_eq by lra. eapply Rle_lt_trans; [apply Q2|]. apply bpow_lt. lia.
    + rewrite Eq. auto.
Qed.
(** summ += term, from 0 *)
Definition dsum (f : dbl -> dbl) (v : list dbl) : dbl := fold_left (fun s x => d_add s (f x)) v (d_ofZ 0).
Lemma dsum_bounds (f : dbl -> dbl) e v : (-1000 <= e <= 900)%Z -> (forall x, In x v -> is_finite (f x) = true /\ 0 <= V (f x) <= pow2 e) -> (Z.of_nat (length v) < 2 ^ 53)%Z ->
  is_finite (dsum f v) = true /\ 0 <= V (dsum f v) <= IZR (Z.of_nat (length v)) * pow2 e.
Proof.
  intros He. induction v as [|x v IH] using rev_ind; intros H L.
  - destruct (d_ofZ_exact 0) as [F E]; [cbn; lia|]. unfold dsum. cbn [fold_left]. rewrite E, F. cbn [length]. split; [reflexivity|]. change (IZR (Z.of_nat 0)) with 0. lra.
  - rewrite app_length in *. cbn [length] in *. destruct IH as [F G]; [intros y Hy; apply H; apply in_or_app; auto|lia|]. destruct (H x) as [Ft Gt]; [apply in_or_app; right; left; reflexivity|].
    unfold dsum in *. rewrite fold_left_app. cbn [fold_left]. set (s := fold_left _ v (d_ofZ 0)) in *. set (t := f x) in *.
    assert (B : V s + V t <= IZR (Z.of_nat (length v + 1)) * pow2 e) by (rewrite Nat2Z.inj_add, plus_IZR, Rmult_plus_distr_r; cbn; lra).
    assert (Q : 0 <= rnd64 (V s + V t) <= IZR (Z.of_nat (length v + 1)) * pow2 e).
    { split; [apply rnd_ge_fmt; [lra|apply generic_format_0]|apply rnd_le_fmt; [exact B|apply nonneg_fmt; [lia|exact He]]]. }
    destruct (d_add_finite s t F Ft) as [Fr Er].
    + rewrite Rabs_pos_eq by lra. eapply Rle_lt_trans; [apply Q|]. apply below_max; [lia|exact He].
    + rewrite Er. auto.
Qed.
(** signed terms of magnitude at most 2^e *)
Lemma dsum_abs (f : dbl -> dbl) e v : (-1000 <= e <= 900)%Z -> (forall x, In x v -> is_finite (f x) = true /\ Rabs (V (f x)) <= pow2 e) -> (Z.of_nat (length v) < 2 ^ 53)%Z ->
  is_finite (dsum f v) = true /\ Rabs (V (dsum f v)) <= IZR (Z.of_nat (length v)) * pow2 e.
Proof.
  intros He. induction v as [|x v IH] using rev_ind; intros H L.
  - destruct (d_ofZ_exact 0) as [F E]; [cbn; lia|]. unfold dsum. cbn [fold_left]. rewrite E, F. cbn [length]. split; [reflexivity|]. change (IZR (Z.of_nat 0)) with 0. rewrite Rabs_R0. lra.
  - rewrite app_length in *. cbn [length] in *. destruct IH as [F G]; [intros y Hy; apply H; apply in_or_app; auto|lia|]. destruct (H x) as [Ft Gt]; [apply in_or_app; right; left; reflexivity|].
    unfold dsum in *. rewrite fold_left_app. cbn [fold_left]. set (s := fold_left _ v (d_ofZ 0)) in *. set (t := f x) in *.
    assert (B : Rabs (V s + V t) <= IZR (Z.of_nat (length v + 1)) * pow2 e) by (rewrite Nat2Z.inj_add, plus_IZR, Rmult_plus_distr_r; cbn; eapply Rle_trans; [apply Rabs_triang|lra]).
    assert (Q : Rabs (rnd64 (V s + V t)) <= IZR (Z.of_nat (length v + 1)) * pow2 e).
    { apply Rabs_le_inv in B. apply Rabs_le. pose proof (nonneg_fmt (Z.of_nat (length v + 1)) e ltac:(lia) He) as K. split; [apply rnd_ge_fmt; [lra|apply generic_format_opp; exact K]|apply rnd_le_fmt; [lra|exact K]]. }
    destruct (d_add_finite s t F Ft) as [Fr Er].
    + eapply Rle_lt_trans; [exact Q|]. apply below_max; [lia|exact He].
    + rewrite Er. auto.
Qed.
(** +infinity, or a finite double that is at least b *)
Definition at_least (b : R) (x : dbl) : Prop := x = B754_infinity false \/ is_finite x = true /\ b <= V x.
Lemma negative_V (x : dbl) : Bsign x = true -> V x <= 0.
Proof.
  destruct x as [s|s| |s m e b]; intro E; [cbn; lra|cbn; lra|cbn; lra|]. cbn in E. subst s. cbn [B2R cond_Zopp]. unfold F2R. cbn [Fnum Fexp].
  pose proof (bpow_gt_0 radix2 e). assert (IZR (- Z.pos m) < 0) by (apply IZR_lt; lia). nra.
Qed.
Lemma sum_at_least a b (x y : dbl) : fmt64 (a + b) -> 0 <= a -> 0 <= b -> at_least a x -> at_least b y -> at_least (a + b) (d_add x y).
Proof.
  intros F Ha Hb [->|[Fx Gx]] [->|[Fy Gy]].
  - left. reflexivity.
  - left. destruct y as [[]| | |[]]; try discriminate Fy; reflexivity.
  - left. destruct x as [[]| | |[]]; try discriminate Fx; reflexivity.
  - pose proof (Bplus_correct dprec demax dprec_gt_0 dprec_lt_emax mode_NE x y Fx Fy) as H.
    destruct (Rlt_bool_spec (Rabs (rnd64 (V x + V y))) (bpow radix2 1024)) as [L|L].
    + rewrite Rlt_bool_true in H by exact L. destruct H as (E & G & _). right. split; [exact G|]. change (V (d_add x y) = rnd64 (V x + V y)) in E. rewrite E. apply rnd_ge_fmt; [lra|exact F].
    + rewrite Rlt_bool_false in H by exact L. destruct H as [H S]. left. change (B2SF (d_add x y) = binary_overflow dprec demax mode_NE (Bsign x)) in H.
      assert (Sx : Bsign x = false).
      { destruct (Bsign x) eqn:E; [|reflexivity]. exfalso.
        pose proof (negative_V x E) as NX. symmetry in S. pose proof (negative_V y S) as NY.
        assert (Z1 : V x = 0) by lra. assert (Z2 : V y = 0) by lra. rewrite Z1, Z2, Rplus_0_r in L. rewrite rnd_0, Rabs_R0 in L. pose proof (bpow_gt_0 radix2 1024). lra. }
      rewrite Sx in H. unfold binary_overflow in H. cbn in H. destruct (d_add x y) as [s|s| |s m e bb]; cbn in H; try discriminate H. injection H as ->. reflexivity.
Qed.
Lemma mul_at_least b (x : dbl) : fmt64 b -> 0 <= b -> is_nan x = false -> (is_finite x = true -> b <= Rabs (V x)) -> fmt64 (b * b) -> at_least (b * b) (d_mul x x).
Proof.
  intros F Hb Nx H F2. destruct (is_finite x) eqn:Fx.
  2:{ destruct x as [|[]| |]; try discriminate Fx; try discriminate Nx; left; reflexivity. }
  assert (Gx : b <= Rabs (V x)) by (apply H; reflexivity).
  assert (G2 : b * b <= V x * V x). { replace (V x * V x) with (Rabs (V x) * Rabs (V x)) by (rewrite <- Rabs_mult; apply Rabs_pos_eq; apply Rle_0_sqr). apply Rmult_le_compat; assumption. }
  pose proof (Bmult_correct dprec demax dprec_gt_0 dprec_lt_emax mode_NE x x) as M.
  destruct (Rlt_bool_spec (Rabs (rnd64 (V x * V x))) (bpow radix2 1024)) as [L|L].
  - rewrite Rlt_bool_true in M by exact L. destruct M as (E & G & _). right. rewrite Fx in G. split; [exact G|]. change (V (d_mul x x) = rnd64 (V x * V x)) in E. rewrite E. apply rnd_ge_fmt; [lra|exact F2].
  - rewrite Rlt_bool_false in M by exact L. left. unfold d_mul. destruct (Bmult mode_NE x x) as [s|s| |s m e bb]; unfold binary_overflow in M; cbn in M; rewrite xorb_nilpotent in M; try discriminate M. injection M as ->. reflexivity.
Qed.
Lemma dsum_at_least (f : dbl -> dbl) b v : 0 <= b -> (forall k, (0 <= k < 2 ^ 53)%Z -> fmt64 (IZR k * b)) -> (forall x, In x v -> at_least b (f x)) -> (Z.of_nat (length v) < 2 ^ 53)%Z ->
  at_least (IZR (Z.of_nat (length v)) * b) (dsum f v).
Proof.
  intros Hb Hf. induction v as [|x v IH] using rev_ind; intros H L.
  - destruct (d_ofZ_exact 0) as [F E]; [cbn; lia|]. unfold dsum. cbn [fold_left length]. right. rewrite E, F. split; [reflexivity|]. change (IZR (Z.of_nat 0)) with 0. lra.
  - rewrite app_length in *. cbn [length] in *. unfold dsum in *. rewrite fold_left_app. cbn [fold_left].
    pose proof (Hf (Z.of_nat (length v + 1)) ltac:(lia)) as K. rewrite Nat2Z.inj_add, plus_IZR, Rmult_plus_distr_r in *. change (IZR (Z.of_nat 1)) with 1 in *. rewrite (Rmult_1_l b) in *.
    apply sum_at_least; [exact K|apply Rmult_le_pos; [apply IZR_le; lia|exact Hb]|exact Hb|apply IH; [intros y Hy; apply H; apply in_or_app; auto|lia]|apply H; apply in_or_app; right; left; reflexivity].
Qed.
Lemma at_least_leb b (x y : dbl) : is_finite x = true -> V x <= b -> at_least b y -> d_leb x y = true.
Proof.
  intros Fx L [->|[Fy G]].
  - destruct x as [[]| | |[]]; try discriminate Fx; reflexivity.
  - rewrite (d_leb_R x y Fx Fy). lra.
Qed.

(** ** The literals *)
(** M_SQRT2 is the literal 1.41421356237309504880; no double is nearer to it than [root2]. *)
Lemma root2_literal : Rabs (V root2 - 141421356237309504880 / 100000000000000000000) <= pow2 (-53).
Proof.
  destruct (d_of_exact 6369051672525773 (-52)) as [_ E]; [cbn; lia|lia|]. unfold root2. rewrite E. apply Rabs_le.
  change (pow2 (-53)) with (/ IZR 9007199254740992). change (pow2 (-52)) with (/ IZR 4503599627370496). split; lra.
Qed.

Section Functions.
Variables fexp fcos fsin fasin fln : dbl -> dbl.
(** double arithmetic, whatever the library's functions return *)
Notation F := (MkTNum FMath fexp fcos fsin fasin fln).

(** ** Square: the reported solution is its maximum over all the points whose coordinates are doubles *)
Theorem C73_square (v : list dbl) : (forall x, In x v -> is_nan x = false) -> (Z.of_nat (length v) < 2 ^ 53)%Z ->
  (* the value is an ordinary nonnegative number: 1/0 cannot happen *)
  (is_finite (square F v : dbl) = true /\ 0 <= V (square F v) <= IZR (Z.of_nat (length v)) * pow2 51) /\
  (* and with two coordinates the reported solution is the best *)
  (length v = 2%nat -> d_leb (square F v) (square F (square_solution F root2)) = true) /\ V (square F (square_solution F root2)) = pow2 52.
Proof.
  intros N L. change (square F v) with (dsum inverse_term v). change (square F (square_solution F root2)) with (dsum inverse_term [root2; root2]).
  assert (A : forall w : list dbl, (forall x, In x w -> is_nan x = false) -> (Z.of_nat (length w) < 2 ^ 53)%Z -> is_finite (dsum inverse_term w) = true /\ 0 <= V (dsum inverse_term w) <= IZR (Z.of_nat (length w)) * pow2 51).
  { intros w Nw Lw. apply (dsum_bounds inverse_term 51); [lia| |exact Lw]. intros x Hx. apply inverse_term_bounds. auto. }
  assert (S : is_finite (dsum inverse_term [root2; root2]) = true /\ V (dsum inverse_term [root2; root2]) = pow2 52).
  { destruct (A [root2; root2]) as [Fs _]; [intros x [<-|[<-|[]]]; vm_compute; reflexivity|cbn; lia|]. split; [exact Fs|].
    destruct (d_of_exact 1 52) as [F1 E1]; [cbn; lia|lia|]. rewrite Rmult_1_l in E1. rewrite <- E1. apply feq; [exact Fs|exact F1|vm_compute; reflexivity]. }
  destruct (A v N L) as [Fv Gv]. split; [auto|]. split; [|apply S]. intro E2. destruct S as [Fs Es].
  rewrite (d_leb_R _ _ Fv Fs), Es. rewrite E2 in Gv. change (IZR (Z.of_nat 2)) with (pow2 1) in Gv. rewrite <- bpow_plus in Gv. exact (proj2 Gv).
Qed.

(** ** SimpleSquare: the reported solution is its minimum, although the value there is not 0 *)
Definition square_term (x : dbl) : dbl := let d := d_sub (d_mul x x) (d_ofZ 2) in d_mul d d.
Lemma square_term_least (x : dbl) : is_nan x = false -> at_least (pow2 (-102)) (square_term x).
Proof.
  intro N. unfold square_term. cbv zeta. change (pow2 (-102)) with (pow2 (-51 + -51)). rewrite bpow_plus. apply mul_at_least.
  - apply generic_format_bpow'; [typeclasses eauto|unfold FLT_exp; lia].
  - apply bpow_ge_0.
  - destruct (minus_two x N) as [->|[E _]]; [reflexivity|]. destruct (d_sub _ _); [reflexivity|reflexivity|discriminate E|reflexivity].
  - intro E. destruct (minus_two x N) as [D|[_ G]]; [rewrite D in E; discriminate E|exact G].
  - rewrite <- bpow_plus. apply generic_format_bpow'; [typeclasses eauto|unfold FLT_exp; lia].
Qed.
Theorem C73_simple_square (v : list dbl) : (forall x, In x v -> is_nan x = false) -> (Z.of_nat (length v) < 2 ^ 53)%Z ->
  (length v = 2%nat -> d_leb (simple_square F (square_solution F root2)) (simple_square F v) = true) /\
  (v <> [] -> d_ltb (d_ofZ 0) (simple_square F v) = true) /\ V (simple_square F (square_solution F root2)) = pow2 (-101).
Proof.
  intros N L. change (simple_square F v) with (dsum square_term v). change (simple_square F (square_solution F root2)) with (dsum square_term [root2; root2]).
  assert (A : at_least (IZR (Z.of_nat (length v)) * pow2 (-102)) (dsum square_term v)).
  { apply dsum_at_least; [apply bpow_ge_0|intros k Hk; apply nonneg_fmt; [exact Hk|lia]| |exact L]. intros x Hx. apply square_term_least. auto. }
  assert (Fs : is_finite (dsum square_term [root2; root2]) = true) by (vm_compute; reflexivity).
  assert (Es : V (dsum square_term [root2; root2]) = pow2 (-101)).
  { destruct (d_of_exact 1 (-101)) as [F1 E1]; [cbn; lia|lia|]. rewrite Rmult_1_l in E1. rewrite <- E1. apply feq; [exact Fs|exact F1|vm_compute; reflexivity]. }
  split; [|split; [|exact Es]].
  - intro E2. apply (at_least_leb _ _ _ Fs) with (2 := A). rewrite Es, E2. change (IZR (Z.of_nat 2)) with (pow2 1). rewrite <- bpow_plus. right. reflexivity.
  - intro Nv. assert (P : 0 < IZR (Z.of_nat (length v)) * pow2 (-102)) by (apply Rmult_lt_0_compat; [apply IZR_lt; destruct v; [congruence|cbn; lia]|apply bpow_gt_0]).
    destruct (d_ofZ_exact 0) as [F0 V0]; [cbn; lia|]. destruct A as [->|[Fa Ga]]; [vm_compute; reflexivity|]. rewrite (d_ltb_R _ _ F0 Fa), V0. lra.
Qed.

(** ** SquareSumm: the reported solution is its minimum *)
Theorem C73_square_summ (v : list dbl) : (forall x, In x v -> is_nan x = false) -> (Z.of_nat (length v) < 2 ^ 53)%Z ->
  d_leb (square_summ F (zero_solution F)) (square_summ F v) = true /\ V (square_summ F (zero_solution F)) = 0.
Proof.
  intros N L. change (square_summ F v) with (dsum (fun x => d_mul x x) v). change (square_summ F (zero_solution F)) with (dsum (fun x => d_mul x x) [d_ofZ 0; d_ofZ 0]).
  set (z := dsum (fun x => d_mul x x) [d_ofZ 0; d_ofZ 0]). assert (Fz : is_finite z = true) by (vm_compute; reflexivity).
  destruct (d_ofZ_exact 0) as [F0 V0]; [cbn; lia|]. assert (Vz : V z = 0) by (rewrite <- V0; apply feq; [exact Fz|exact F0|vm_compute; reflexivity]).
  split; [|exact Vz]. assert (A : at_least (IZR (Z.of_nat (length v)) * 0) (dsum (fun x => d_mul x x) v)).
  { apply dsum_at_least; [lra|intros; rewrite Rmult_0_r; apply generic_format_0| |exact L]. intros x Hx. replace 0 with (0 * 0) by ring. apply mul_at_least; [apply generic_format_0|lra|auto|intros _; apply Rabs_pos|rewrite Rmult_0_r; apply generic_format_0]. }
  apply (at_least_leb _ _ _ Fz) with (2 := A). rewrite Vz. lra.
Qed.

(** ** Difraction: the reported solution is its maximum, provided that sin returns finite values no larger than its argument *)
Variable eps c11 : dbl.
Definition ratio_term (x : dbl) : dbl := if d_ltb (Babs x) eps then d_ofZ 1 else d_div (fsin x) x.
Theorem C73_difraction (v : list dbl) :
  (forall x, is_finite x = true -> is_finite (fsin x) = true /\ Rabs (V (fsin x)) <= Rabs (V x)) -> is_finite eps = true -> 0 < V eps ->
  (forall x, In x v -> is_finite x = true) -> (Z.of_nat (length v) < 2 ^ 53)%Z ->
  (is_finite (difraction F eps v : dbl) = true /\ Rabs (V (difraction F eps v)) <= IZR (Z.of_nat (length v))) /\
  (length v = 2%nat -> d_leb (difraction F eps v) (difraction F eps (zero_solution F)) = true) /\ V (difraction F eps (zero_solution F)) = 2.
Proof.
  intros Hsin Fe Pe N L. change (difraction F eps v) with (dsum ratio_term v). change (difraction F eps (zero_solution F)) with (dsum ratio_term [d_ofZ 0; d_ofZ 0]).
  destruct (d_ofZ_exact 1) as [F1 V1]; [cbn; lia|]. destruct (d_ofZ_exact 0) as [F0 V0]; [cbn; lia|].
  assert (A : is_finite (dsum ratio_term v) = true /\ Rabs (V (dsum ratio_term v)) <= IZR (Z.of_nat (length v)) * pow2 0).
  { apply (dsum_abs ratio_term 0); [lia| |exact L]. intros x Hx. specialize (N x Hx). destruct (Hsin x N) as [Fs Gs]. unfold ratio_term. change (pow2 0) with 1.
    destruct (d_ltb (Babs x) eps) eqn:E; [rewrite V1, Rabs_R1; split; [exact F1|lra]|].
    assert (Nz : V x <> 0).
    { intro Z. assert (X : d_ltb (Babs x) eps = true) by (apply d_ltb_R; [rewrite is_finite_Babs; exact N|exact Fe|rewrite B2R_Babs, Z, Rabs_R0; exact Pe]). congruence. }
    assert (Q : Rabs (V (fsin x) / V x) <= 1).
    { unfold Rdiv. rewrite Rabs_mult, Rabs_inv. pose proof (Rabs_pos_lt _ Nz) as P. apply Rmult_le_reg_r with (1 := P). rewrite Rmult_assoc, Rinv_l by lra. lra. }
    assert (Q2 : Rabs (rnd64 (V (fsin x) / V x)) <= 1).
    { apply Rabs_le_inv in Q. apply Rabs_le. split; [apply rnd_ge_fmt; [lra|apply (fmt_IZR (-1)); cbn; lia]|apply rnd_le_fmt; [lra|apply (fmt_IZR 1); cbn; lia]]. }
    destruct (d_div_finite (fsin x) x Fs Nz) as [Fq Eq].
    - eapply Rle_lt_trans; [exact Q2|]. change 1 with (pow2 0). apply bpow_lt. lia.
    - rewrite Eq. auto. }
  change (pow2 0) with 1 in A. rewrite Rmult_1_r in A.
  assert (S : d_ltb (Babs (d_ofZ 0)) eps = true) by (apply d_ltb_R; [rewrite is_finite_Babs; exact F0|exact Fe|rewrite B2R_Babs, V0, Rabs_R0; exact Pe]).
  assert (Es : is_finite (dsum ratio_term [d_ofZ 0; d_ofZ 0]) = true /\ V (dsum ratio_term [d_ofZ 0; d_ofZ 0]) = 2).
  { unfold dsum. cbn [fold_left]. unfold ratio_term. rewrite S. destruct (d_ofZ_exact 2) as [F2 V2]; [cbn; lia|]. set (r := d_add _ _). assert (Fr : is_finite r = true) by (vm_compute; reflexivity). split; [exact Fr|].
    change 2 with (IZR 2). rewrite <- V2. apply feq; [exact Fr|exact F2|vm_compute; reflexivity]. }
  split; [exact A|]. split; [|apply Es]. intro E2. destruct A as [Fa Ga]. destruct Es as [Fs Es]. rewrite (d_leb_R _ _ Fa Fs), Es. rewrite E2 in Ga. cbn in Ga. apply Rabs_le_inv in Ga. lra.
Qed.
(** ** The table of test functions *)
Ltac same H := match type of H with ?a => match goal with |- ?b => constr_eq a b; exact H end end.
(** Four of its five entries report a solution that no point with two finite coordinates improves on in the direction in which the
    optimisers are asked to go and start within the bounds -1000 and 1000. *)
Theorem C73_table :
  (forall x, is_finite x = true -> is_finite (fsin x) = true /\ Rabs (V (fsin x)) <= Rabs (V x)) -> is_finite eps = true -> 0 < V eps ->
  forall t : test_function F, In t (test_functions F root2) -> tf_objective F t <> Multiminimum ->
  exists best : dbl, solution_value F eps c11 t = Ok best /\
    (forall x y : dbl, is_finite x = true -> is_finite y = true ->
       exists r : dbl, evaluate F eps c11 (tf_objective F t) [x; y] = Ok r /\ (if tf_maximize F t then d_leb r best = true else d_leb best r = true)) /\
    (exists x y : dbl, tf_start F t = [x; y] /\ is_finite x = true /\ is_finite y = true /\ -1000 <= V x <= 1000 /\ -1000 <= V y <= 1000).
Proof.
  intros Hsin Fe Pe t Ht Hm.
  assert (NN : forall x : dbl, is_finite x = true -> is_nan x = false) by (intros [| | |]; intro; [reflexivity|reflexivity|discriminate|reflexivity]).
  assert (N2 : forall x y z : dbl, is_finite x = true -> is_finite y = true -> In z [x; y] -> is_finite z = true) by (intros x y z Fx Fy [<-|[<-|[]]]; assumption).
  assert (L2 : forall x y : dbl, (Z.of_nat (length [x; y]) < 2 ^ 53)%Z) by (intros; cbn; lia).
  assert (St : forall a b : Z, (-1000 <= a <= 1000)%Z -> (-1000 <= b <= 1000)%Z ->
    exists x y : dbl, [d_ofZ a; d_ofZ b] = [x; y] /\ is_finite x = true /\ is_finite y = true /\ -1000 <= V x <= 1000 /\ -1000 <= V y <= 1000).
  { intros a b Ha Hb. destruct (d_ofZ_exact a) as [Fa Va]; [lia|]. destruct (d_ofZ_exact b) as [Fb Vb]; [lia|]. exists (d_ofZ a), (d_ofZ b). split; [reflexivity|]. split; [exact Fa|]. split; [exact Fb|]. rewrite Va, Vb. split; split; apply IZR_le; lia. }
  destruct Ht as [<-|[<-|[<-|[<-|[<-|[]]]]]]; unfold solution_value; cbn [tf_objective tf_solution tf_start tf_maximize evaluate] in *; [| | | |congruence]; (eexists; split; [reflexivity|split; [intros x y Fx Fy; eexists; split; [reflexivity|]|]]).
  - destruct (C73_square [x; y]) as (_ & H & _); [intros z Hz; apply NN; apply (N2 x y z Fx Fy Hz)|apply L2|]. specialize (H eq_refl). same H.
  - apply (St 11%Z 7%Z); lia.
  - destruct (C73_simple_square [x; y]) as (H & _ & _); [intros z Hz; apply NN; apply (N2 x y z Fx Fy Hz)|apply L2|]. specialize (H eq_refl). same H.
  - apply (St 11%Z 7%Z); lia.
  - destruct (C73_difraction [x; y]) as (_ & H & _); [exact Hsin|exact Fe|exact Pe|intros z Hz; apply (N2 x y z Fx Fy Hz)|apply L2|]. specialize (H eq_refl). same H.
  - apply (St 100%Z 100%Z); lia.
  - destruct (C73_square_summ [x; y]) as [H _]; [intros z Hz; apply NN; apply (N2 x y z Fx Fy Hz)|apply L2|]. same H.
  - apply (St 100%Z 100%Z); lia.
Qed.
End Functions.

(** ** Multiminimum over the real numbers *)
Notation rmulti := (multiminimum RTrig (11 / 10)).
(** only two coordinates are accepted; around the reported solution it is a minimum ... *)
Theorem C73_multiminimum : 
  (forall v, length v <> 2%nat -> rmulti v = Throw InvalidArgument) /\ rmulti (zero_solution RTrig) = Ok 0 /\
  (forall x y, Rabs x <= PI / 4 -> Rabs y <= PI / 2 -> exists r, rmulti [x; y] = Ok r /\ 0 <= r).
Proof.
  split; [|split].
  - intros [|x [|y [|z v]]] H; try reflexivity. cbn in H. congruence.
  - cbn. f_equal. unfold Rdiv. rewrite ?Rmult_0_r, ?Rmult_0_l. lra.
  - assert (A : forall c x, 0 < c -> Rabs x <= PI / c -> 0 <= x * sin (c * x)).
    { intros c x Hc Hx. apply Rabs_le_inv in Hx. assert (E : PI / c * c = PI) by (field; lra). destruct (Rle_dec 0 x) as [P|P].
      - apply Rmult_le_pos; [exact P|]. apply sin_ge_0; nra.
      - replace (x * sin (c * x)) with (- x * sin (c * - x)) by (replace (c * - x) with (- (c * x)) by ring; rewrite sin_neg; ring). apply Rmult_le_pos; [lra|]. apply sin_ge_0; nra. }
    intros x y Hx Hy. eexists. split; [reflexivity|]. cbn. pose proof (A 4 x ltac:(lra) Hx). pose proof (A 2 y ltac:(lra) Hy).
    change (0 <= x * sin (4 * x) + 11 / 10 * y * sin (2 * y)). nra.
Qed.
(** ... but not the minimum: there is none, the values are unbounded below. *)
Lemma multi_unbounded : forall bound : R, exists x r, rmulti [x; 0] = Ok r /\ r < bound.
Proof.
  intro b. destruct (archimed (Rabs b)) as [H _]. set (k := up (Rabs b)) in H. assert (P : 0 <= IZR k) by (pose proof (Rabs_pos b); lra). apply le_IZR in P. pose proof PI2_1 as P1.
  exists (3 * (PI / 8) + IZR k * (PI / 2)). eexists. split; [reflexivity|]. cbn.
  change ((3 * (PI / 8) + IZR k * (PI / 2)) * sin (4 * (3 * (PI / 8) + IZR k * (PI / 2))) + 11 / 10 * 0 * sin (2 * 0) < b).
  replace (4 * (3 * (PI / 8) + IZR k * (PI / 2))) with (3 * (PI / 2) + 2 * INR (Z.to_nat k) * PI) by (rewrite INR_IZR_INZ, Z2Nat.id by exact P; field).
  rewrite sin_period, sin_3PI2. assert (IZR k * 1 <= IZR k * (PI / 2)) by (apply Rmult_le_compat_l; [apply IZR_le; exact P|lra]). pose proof (Rle_abs (- b)). rewrite Rabs_Ropp in H1. nra.
Qed.

(** ... but the table holds the five functions once each, and asks the optimisers for a minimum of this one, which has none *)
Theorem C73_multiminimum_refuted : forall root : R,
  map (tf_objective RTrig) (test_functions RTrig root) = [Square; SimpleSquare; Difraction; SquareSumm; Multiminimum] /\
  exists t, In t (test_functions RTrig root) /\ tf_objective RTrig t = Multiminimum /\ tf_maximize RTrig t = false /\ tf_solution RTrig t = [0; 0] /\
    tf_start RTrig t = [100; 100] /\ forall bound eps : R, exists p r, evaluate RTrig eps (11 / 10) (tf_objective RTrig t) p = Ok r /\ r < bound.
Proof.
  intro root. split; [reflexivity|]. eexists. split; [do 4 right; left; reflexivity|]. do 4 (split; [reflexivity|]).
  intros b e. destruct (multi_unbounded b) as (x & r & H & L). exists [x; 0], r. auto.
Qed.

(** ** Clone *)
Theorem C73_clone : forall (T : TNum) (eps c11 : num T) o v, o <> Difraction -> evaluate T eps c11 (clone_of o) v = evaluate T eps c11 o v.
Proof. intros T eps c11 [] v H; try reflexivity. congruence. Qed.
(** Difraction's clone is another function. *)
Theorem C73_clone_refuted : forall eps, 0 < eps -> evaluate RTrig eps (11 / 10) Difraction [0; 0] = Ok 2 /\ evaluate RTrig eps (11 / 10) (clone_of Difraction) [0; 0] = Ok 8.
Proof.
  intros eps H. split; cbn; f_equal.
  - unfold difraction, sum_of. cbn. rewrite Rabs_R0. assert (E : R_ltb 0 eps = true) by (unfold R_ltb; destruct (Rlt_dec 0 eps); [reflexivity|contradiction]). rewrite !E. lra.
  - unfold simple_square, sum_of. cbn. lra.
Qed.

(** ** The tester *)
Section Tester.
Variable T : TNum.
Variables (eps c11 : num T) (S : Type).
Notation testf := (test_function T).
Notation optimiser := (optimiser T S).
Notation value t p := (evaluate T eps c11 (tf_objective T t) p).
(** the answer does not depend on what the object keeps *)
Definition stateless (o : optimiser) : Prop := forall f m p s s', fst (o f m p s) = fst (o f m p s').
(** one optimiser on one function, on its own: Optimize from the start point, then the function's value at the answer *)
Definition alone (t : testf) (o : optimiser * S) : outcome (cell T) :=
  let! p := fst (fst o (evaluate T eps c11 (tf_objective T t)) (tf_maximize T t) (tf_start T t) (snd o)) in
  let! v := value t p in Ok (MkCell T p v).

Lemma single_alone t o s : fst (test_single T eps c11 S t o s) = alone t (o, s).
Proof. unfold test_single, alone. cbn [fst snd]. destruct (o _ _ _ s) as [[p|e|u] s']; reflexivity. Qed.
Lemma row_ok t os : forall cells os', test_row T eps c11 S t os = Ok (cells, os') -> map fst os' = map fst os /\ Forall (fun c => value t (cell_point T c) = Ok (cell_value T c)) cells.
Proof.
  induction os as [|[o s] os IH]; intros cells os' H; cbn [test_row] in H.
  - injection H as <- <-. split; [reflexivity|constructor].
  - unfold test_single in H. destruct (o _ _ _ s) as [[p|e|u] s'] eqn:E; try discriminate H. destruct (value t p) as [v|e|u] eqn:E2; cbn [bind] in H; try discriminate H.
    destruct (test_row T eps c11 S t os) as [[cs o']|e|u] eqn:R; cbn [bind] in H; try discriminate H. injection H as <- <-. destruct (IH cs o' eq_refl) as [A B]. cbn [fst snd map]. rewrite A. split; [reflexivity|]. constructor; [exact E2|exact B].
Qed.
(** Every cell holds the function's value at the point beside it. *)
Theorem C73_tester_values : forall ts os table, test_all T eps c11 S ts os = Ok table ->
  Forall2 (fun t row => length row = length os /\ Forall (fun c => value t (cell_point T c) = Ok (cell_value T c)) row) ts table.
Proof.
  assert (L : forall t os cells os', test_row T eps c11 S t os = Ok (cells, os') -> length cells = length os /\ length os' = length os).
  { intros t. induction os as [|[o s] os IH]; intros cells os' H; cbn [test_row] in H; [injection H as <- <-; auto|].
    destruct (test_single T eps c11 S t o s) as [[c|e|u] s']; try discriminate H. destruct (test_row T eps c11 S t os) as [[cs o']|e|u] eqn:R; cbn [bind] in H; try discriminate H. injection H as <- <-. destruct (IH cs o' eq_refl). cbn [fst snd length]. auto. }
  induction ts as [|t ts IH]; intros os table H; cbn [test_all] in H; [injection H as <-; constructor|].
  destruct (test_row T eps c11 S t os) as [[cells os']|e|u] eqn:R; cbn [bind fst snd] in H; try discriminate H. destruct (test_all T eps c11 S ts os') as [rest|e|u] eqn:A; cbn [bind] in H; try discriminate H. injection H as <-.
  destruct (row_ok _ _ _ _ R) as [_ B]. destruct (L _ _ _ _ R) as [L1 L2]. constructor; [auto|]. rewrite <- L2. apply IH. exact A.
Qed.
Lemma row_stateless t : forall os, Forall (fun o => stateless (fst o)) os ->
  match test_row T eps c11 S t os with
  | Ok (cells, os') => mapM (alone t) os = Ok cells /\ map fst os' = map fst os
  | Throw e => mapM (alone t) os = Throw e | UB u => mapM (alone t) os = UB u end.
Proof.
  induction os as [|[o s] os IH]; intro H; [split; reflexivity|]. apply Forall_cons_iff in H as [_ H]. specialize (IH H). cbn [test_row mapM]. rewrite <- single_alone.
  destruct (test_single T eps c11 S t o s) as [[c|e|u] s']; cbn [fst bind]; try reflexivity.
  destruct (test_row T eps c11 S t os) as [[cs o']|e|u]; cbn [bind fst snd]; [|rewrite IH; reflexivity|rewrite IH; reflexivity]. destruct IH as [-> B]. cbn [bind map fst]. rewrite B. auto.
Qed.
Lemma alone_stateless t : forall os os', map fst os' = map fst os -> Forall (fun o => stateless (fst o)) os -> mapM (alone t) os' = mapM (alone t) os.
Proof.
  induction os as [|[o s] os IH]; intros [|[o' s'] os'] E H; try discriminate E; [reflexivity|]. cbn [map fst] in E. injection E as -> E. apply Forall_cons_iff in H as [H1 H2]. cbn [mapM]. rewrite (IH os' E H2).
  unfold alone at 1 3. cbn [fst snd] in *. rewrite (H1 _ _ _ s' s). reflexivity.
Qed.
(** When the answers do not depend on earlier runs, the table is what isolated runs give, row by row; an exception of any of them ends the test with that exception. *)
Theorem C73_tester : forall ts os, Forall (fun o => stateless (fst o)) os -> test_all T eps c11 S ts os = mapM (fun t => mapM (alone t) os) ts.
Proof.
  assert (G : forall os, Forall (fun o : optimiser * S => stateless (fst o)) os -> forall ts os', map fst os' = map fst os -> test_all T eps c11 S ts os' = mapM (fun t => mapM (alone t) os) ts).
  2:{ intros ts os H. apply G; auto. }
  intros os H. induction ts as [|t ts IH]; intros os' E; [reflexivity|]. cbn [test_all mapM].
  assert (H' : Forall (fun o => stateless (fst o)) os'). { apply Forall_map in H. apply Forall_map. rewrite E. exact H. }
  pose proof (row_stateless t os' H') as R. rewrite (alone_stateless t os os' E H) in R.
  destruct (test_row T eps c11 S t os') as [[cells o2]|e|u]; cbn [bind fst snd]; [|rewrite R; reflexivity|rewrite R; reflexivity].
  destruct R as [-> R]. cbn [bind]. rewrite (IH o2) by congruence. reflexivity.
Qed.
End Tester.

(** ** Cases that meet the hypotheses *)
(** two ordinary points, at which the values are strictly worse than the reported ones *)
Example C73_points : let F := MkTNum FMath (fun x => x) (fun x => x) (fun x => x) (fun x => x) (fun x => x) in
  (forall x, In x [d_ofZ 1; d_ofZ 7] -> is_nan x = false) /\ d_ltb (square F [d_ofZ 1; d_ofZ 7]) (square F (square_solution F root2)) = true /\
  d_ltb (simple_square F (square_solution F root2)) (simple_square F [d_ofZ 1; d_ofZ 7]) = true /\ d_ltb (square_summ F (zero_solution F)) (square_summ F [d_ofZ 1; d_ofZ 7]) = true.
Proof. split; [intros x [<-|[<-|[]]]; vm_compute; reflexivity|]. split; [|split]; vm_compute; reflexivity. Qed.
(** the correctly rounded sine meets the hypothesis of C73_difraction *)
Example C73_sin : forall x : dbl, is_finite x = true -> is_finite (PropFwtRounding.nearest (sin (V x))) = true /\ Rabs (V (PropFwtRounding.nearest (sin (V x)))) <= Rabs (V x).
Proof.
  intros x Fx. pose proof (SIN_bound (V x)) as B. assert (P : 1 <= pow2 1023) by (change 1 with (pow2 0); apply bpow_le; lia).
  destruct (PropFwtRounding.nearest_rnd (sin (V x))) as [G E]; [apply Rabs_le; lra|]. split; [exact G|]. rewrite E.
  assert (S : Rabs (sin (V x)) <= Rabs (V x)).
  { assert (A : forall y, 0 <= y -> Rabs (sin y) <= y).
    { intros y Hy. destruct (Rle_dec 1 y) as [L|L]; [pose proof (SIN_bound y); apply Rabs_le; lra|]. destruct (Req_dec y 0) as [->|N]; [rewrite sin_0, Rabs_R0; lra|].
      pose proof PI2_1. rewrite Rabs_pos_eq by (apply sin_ge_0; lra). left. apply sin_lt_x. lra. }
    destruct (Rle_dec 0 (V x)) as [L|L]; [rewrite (Rabs_pos_eq (V x)) by exact L; apply A; exact L|]. rewrite (Rabs_left1 (V x)) by lra. rewrite <- Rabs_Ropp, <- sin_neg. apply A. lra. }
  assert (F : fmt64 (Rabs (V x))) by (apply generic_format_abs, fmt_dbl). apply Rabs_le_inv in S. apply Rabs_le. split; [apply rnd_ge_fmt; [lra|apply generic_format_opp; exact F]|apply rnd_le_fmt; [lra|exact F]].
Qed.
(** an optimiser that keeps a count but answers alike, and one whose second answer differs: with it the table is not that of isolated runs *)
Definition stay (T : TNum) : optimiser T nat := fun _ _ p s => (Ok p, Datatypes.S s).
Definition once (T : TNum) : optimiser T nat := fun _ _ p s => (if Nat.eqb s 0 then Ok p else Throw RuntimeError, Datatypes.S s).
Example C73_optimisers : forall (T : TNum) (eps c11 sqrt2 : num T), stateless T nat (stay T) /\
  (exists c1 c2, test_all T eps c11 nat (firstn 2 (test_functions T sqrt2)) [(stay T, 0%nat)] = Ok [[c1]; [c2]]) /\
  test_all T eps c11 nat (firstn 2 (test_functions T sqrt2)) [(once T, 0%nat)] = Throw RuntimeError /\
  (exists c1 c2, mapM (fun t => mapM (alone T eps c11 nat t) [(once T, 0%nat)]) (firstn 2 (test_functions T sqrt2)) = Ok [[c1]; [c2]]).
Proof.
  intros T eps c11 sqrt2. split; [intros f m p s s'; reflexivity|]. split; [eexists; eexists; cbn; reflexivity|]. split; [reflexivity|eexists; eexists; cbn; reflexivity].
Qed.
Print Assumptions C73_square. Print Assumptions C73_simple_square. Print Assumptions C73_square_summ. Print Assumptions C73_difraction. Print Assumptions C73_multiminimum.
Print Assumptions C73_multiminimum_refuted. Print Assumptions C73_clone. Print Assumptions C73_clone_refuted. Print Assumptions C73_tester_values. Print Assumptions C73_tester. Print Assumptions C73_table.
