(** C04 in double precision: a DoubleParameter keeps a value to within its actual precision, up to rounding errors; the maximum may fail its own check. *)
From Coq Require Import Reals Psatz.
From Flocq Require Import Core.Core IEEE754.BinarySingleNaN.
From Verif Require Import Base Num DblOrder Params ParamsSpec PropExamples IntProofs DoubleProofs FloatLemmas FDoubleProofs RoundError.
Local Open Scope R_scope.
Notation fin x := (is_finite x = true).

(** Half a unit in the last place of the numbers at hand: 2^-53 times the largest magnitude plus four times the width. *)
Definition slack (mn mx : R) : R := bpow radix2 (-53) * (4 * (mx - mn) + Rmax (Rabs mn) (Rabs mx)).

Lemma eta_u : eta <= u * bpow radix2 (-1022).
Proof. unfold eta, u. rewrite <- bpow_plus. apply bpow_le. lia. Qed.

Lemma toint_small (x : dbl) (k : nat) : fin x -> (k <= 30)%nat -> 0 <= V x <= 2 ^ k ->
  exists i, d_toint x = Ok i /\ (0 <= i <= 2 ^ Z.of_nat k)%Z /\ IZR i <= V x < IZR i + 1.
Proof.
  intros Fx Hk [L H]. exists (Zfloor (V x)).
  assert (E : Btrunc x = Zfloor (V x)).
  { pose proof (Btrunc_correct dprec demax dprec_lt_emax x) as T. rewrite round_FIX_IZR in T. apply eq_IZR in T. rewrite T. apply Ztrunc_floor. exact L. }
  assert (R : (0 <= Zfloor (V x) <= 2 ^ Z.of_nat k)%Z).
  { split; [apply Zfloor_lub; exact L|]. apply le_IZR. rewrite IZR_pow2. pose proof (Zfloor_lb (V x)). lra. }
  unfold d_toint. rewrite Fx, E. pose proof (pow2_30 k Hk) as P. rewrite (proj2 (in_int_true (Zfloor (V x)))) by (unfold INT_MIN, INT_MAX; lia).
  split; [reflexivity|]. split; [exact R|]. split; [apply Zfloor_lb|apply Zfloor_ub].
Qed.

Section Core.
Variables (mn mx : dbl) (k : nat).
Hypotheses (Fmn : fin mn) (Fmx : fin mx) (Bmn : Rabs (V mn) <= bpow radix2 1022) (Bmx : Rabs (V mx) <= bpow radix2 1022)
  (Hw : bpow radix2 (-992) <= V mx - V mn) (Hk : (k <= 30)%nat).
Let W := d_sub mx mn.
Let P := d_div W (d_ofZ (2 ^ Z.of_nat k)).
Let D := V mx - V mn.

Lemma D_pos : 0 < D. Proof. unfold D. pose proof (bpow_gt_0 radix2 (-992)). lra. Qed.
Lemma W_fin : fin W /\ V W = rnd64 D.
Proof.
  assert (A : Rabs (V mx - V mn) <= bpow radix2 1023).
  { replace (bpow radix2 1023) with (bpow radix2 1022 + bpow radix2 1022) by (change 1023%Z with (1 + 1022)%Z; rewrite bpow_plus; change (bpow radix2 1) with 2; ring).
    apply Rabs_le_inv in Bmn. apply Rabs_le_inv in Bmx. apply Rabs_le. lra. }
  destruct (d_sub_finite mx mn Fmx Fmn) as [A1 A2]; [apply no_overflow; exact A|]. auto.
Qed.
Lemma W_err : Rabs (V W - D) <= u * D.
Proof.
  destruct W_fin as [_ E]. rewrite E. pose proof (rnd_error_add (V mx) (- V mn) (fmt_dbl mx) (generic_format_opp _ _ _ (fmt_dbl mn))) as H.
  change (V mx + - V mn) with D in H. rewrite (Rabs_pos_eq D) in H by (pose proof D_pos; lra). exact H.
Qed.
Lemma W_lo : bpow radix2 (-992) <= V W.
Proof. destruct W_fin as [_ E]. rewrite E. apply rnd_ge_fmt; [exact Hw|]. apply generic_format_bpow'; [typeclasses eauto|]. unfold FLT_exp; lia. Qed.
Lemma P_val : fin P /\ V P = V W / 2 ^ k.
Proof.
  pose proof W_lo as HWlo. pose proof (bpow_gt_0 radix2 (-992)) as Hb. destruct W_fin as [FW _].
  destruct (d_ofZ_exact (2 ^ Z.of_nat k)) as [F2 B2]; [rewrite Z.abs_eq; [|pose proof (pow2_pos k)]; pose proof (pow2_30 k Hk); lia|].
  rewrite IZR_pow2 in B2. pose proof (pow2R_pos k) as Hp2.
  assert (Hexact : fmt64 (V W / 2 ^ k)) by (apply fmt_div_pow2; [apply fmt_dbl|exact HWlo|exact Hk]).
  assert (Hge1 : 1 <= 2 ^ k) by (apply pow_R1_Rle; lra).
  destruct (d_div_finite W (d_ofZ (2 ^ Z.of_nat k)) FW) as [FP BP].
  - rewrite B2. lra.
  - rewrite B2, rnd_id by exact Hexact. apply Rle_lt_trans with (2 := dbl_lt_max W).
    rewrite Rabs_pos_eq; [rewrite Rabs_pos_eq by lra|apply Rle_mult_inv_pos; lra].
    apply Rmult_le_reg_r with (2 ^ k); [exact Hp2|]. replace (V W / 2 ^ k * 2 ^ k) with (V W) by (field; lra). nra.
  - split; [exact FP|]. unfold P. rewrite BP, B2, rnd_id by exact Hexact. reflexivity.
Qed.

Lemma quantise_F (v : dbl) : fin v -> V mn <= V v <= V mx ->
  exists i, dp_quantise FNum mn P v = Ok i /\ (0 <= i <= 2 ^ Z.of_nat k)%Z /\
    (V v < V mx - 4 * u * D -> (i < 2 ^ Z.of_nat k)%Z) /\
    let x := dp_value_of FNum mn P i in
    fin x /\ V mn <= V x <= V mx + slack (V mn) (V mx) /\ V x - slack (V mn) (V mx) <= V v < V x + V P + slack (V mn) (V mx).
Proof.
  intros Fv [Lv Hv]. pose proof D_pos as PD. destruct W_fin as [FW EW]. pose proof W_err as WE. pose proof W_lo as WL. destruct P_val as [FP EP].
  pose proof u_pos as Pu. pose proof eta_pos as Pe. pose proof u_small as Su. pose proof (bpow_gt_0 radix2 (-992)) as Hb.
  pose proof (pow2R_pos k) as Hp2. assert (Hge1 : 1 <= 2 ^ k) by (apply pow_R1_Rle; lra).
  assert (PP : 0 < V P) by (rewrite EP; apply Rdiv_lt_0_compat; lra).
  assert (PW : V P * 2 ^ k = V W) by (rewrite EP; field; lra).
  assert (PleW : V P <= V W) by nra.
  apply Rabs_le_inv in WE.
  set (a := V v - V mn). assert (Ha : 0 <= a <= D) by (unfold a, D; lra).
  (* the distance from the minimum *)
  assert (Mid : Rabs (V v - V mn) <= bpow radix2 1023).
  { apply Rle_trans with D; [unfold D; apply Rabs_le; lra|].
    replace (bpow radix2 1023) with (bpow radix2 1022 + bpow radix2 1022) by (change 1023%Z with (1 + 1022)%Z; rewrite bpow_plus; change (bpow radix2 1) with 2; ring).
    apply Rabs_le_inv in Bmn. apply Rabs_le_inv in Bmx. unfold D. lra. }
  destruct (d_sub_finite v mn Fv Fmn) as [Fs Es]; [apply no_overflow; exact Mid|]. fold a in Es.
  set (w := d_sub v mn) in *.
  assert (We : Rabs (V w - a) <= u * a).
  { rewrite Es. pose proof (rnd_error_add (V v) (- V mn) (fmt_dbl v) (generic_format_opp _ _ _ (fmt_dbl mn))) as H.
    change (V v + - V mn) with a in H. rewrite (Rabs_pos_eq a) in H by lra. exact H. }
  apply Rabs_le_inv in We.
  assert (Hw0 : 0 <= V w <= V W).
  { rewrite Es, EW. split; [rewrite <- rnd_0; apply rnd_le; lra|apply rnd_le; lra]. }
  (* the quotient *)
  assert (Q0 : 0 <= V w / V P <= 2 ^ k).
  { split; [apply Rle_mult_inv_pos; lra|]. apply Rmult_le_reg_r with (V P); [exact PP|]. replace (V w / V P * V P) with (V w) by (field; lra). lra. }
  assert (F2k : fmt64 (2 ^ k)) by (rewrite <- IZR_pow2; apply fmt_IZR; rewrite Z.abs_eq; [|pose proof (pow2_pos k)]; pose proof (pow2_30 k Hk); lia).
  assert (Q1 : 0 <= rnd64 (V w / V P) <= 2 ^ k).
  { split; [rewrite <- rnd_0; apply rnd_le; lra|apply rnd_le_fmt; [lra|exact F2k]]. }
  assert (B30 : 2 ^ k < bpow radix2 1024).
  { apply Rle_lt_trans with (bpow radix2 30); [change (bpow radix2 30) with 1073741824; apply pow2_le_30; exact Hk|apply bpow_lt; lia]. }
  destruct (d_div_finite w P Fs) as [Fq Eq]; [lra|rewrite Rabs_pos_eq; lra|]. set (q := d_div w P) in *. rewrite <- Eq in Q1.
  pose proof (rnd_error (V w / V P)) as Qe. rewrite <- Eq, (Rabs_pos_eq (V w / V P)) in Qe by lra. apply Rabs_le_inv in Qe.
  assert (QP : - (u * V w + eta * V P) <= V q * V P - V w <= u * V w + eta * V P).
  { assert (X : V w = V w / V P * V P) by (field; lra). clear Eq. revert X Qe. generalize (V w / V P) at 1 2 3 4 5. intros t X Qe. rewrite X.
    destruct Qe as [Qa Qb]. apply (Rmult_le_compat_r (V P)) in Qa; [|lra]. apply (Rmult_le_compat_r (V P)) in Qb; [|lra]. split; lra. }
  destruct (toint_small q k Fq Hk Q1) as (i & Hi & Ri & Bi). exists i. split; [exact Hi|]. split; [exact Ri|].
  assert (Zi : 0 <= IZR i) by (apply IZR_le; lia). assert (Zk : IZR i <= 2 ^ k) by (rewrite <- IZR_pow2; apply IZR_le; lia).
  (* small quantities *)
  assert (UD : 0 < u * D) by (apply Rmult_lt_0_compat; lra).
  assert (UuD : u * (u * D) <= u * D / 1024) by (replace (u * D / 1024) with (/ 1024 * (u * D)) by field; apply Rmult_le_compat_r; lra).
  assert (UW : u * V W <= u * D + u * D / 1024) by (apply Rle_trans with (u * (D + u * D)); [apply Rmult_le_compat_l; lra|lra]).
  assert (Uw : u * V w <= u * D + u * D / 1024) by (apply Rle_trans with (2 := UW); apply Rmult_le_compat_l; lra).
  assert (UD1 : u * D <= D / 1024) by (replace (D / 1024) with (/ 1024 * D) by field; apply Rmult_le_compat_r; lra).
  assert (Et : eta <= u * D / 1024).
  { pose proof eta_u. assert (bpow radix2 (-1022) <= D / 1024); [|apply Rle_trans with (1 := H); replace (u * D / 1024) with (u * (D / 1024)) by field; apply Rmult_le_compat_l; lra]. change D with (V mx - V mn). apply Rle_trans with (bpow radix2 (-992) / 1024); [|lra].
    change (/ 1024) with (bpow radix2 (-10)). unfold Rdiv. change (/ 1024) with (bpow radix2 (-10)). rewrite <- bpow_plus. apply bpow_le. lia. }
  assert (EtP : eta * V P <= u * D / 1024).
  { pose proof eta_u. assert (bpow radix2 (-1022) <= / 2048) by (change (/ 2048) with (bpow radix2 (-11)); apply bpow_le; lia). assert (V P <= 2 * D) by lra.
    apply Rle_trans with (u * / 2048 * (2 * D)); [|lra]. apply Rmult_le_compat; [lra|lra| |lra]. apply Rle_trans with (1 := H). apply Rmult_le_compat_l; lra. }
  assert (EtP0 : 0 <= eta * V P) by (apply Rmult_le_pos; lra).
  (* the stored integer stays below 2^k away from the maximum *)
  split.
  { intro Far. destruct (Z_lt_dec i (2 ^ Z.of_nat k)) as [L|L]; [exact L|exfalso]. assert (i = 2 ^ Z.of_nat k)%Z by lia. subst i. rewrite IZR_pow2 in *.
    assert (X : V q * V P = V W) by (replace (V q) with (2 ^ k) by lra; lra). rewrite X in QP. assert (u * a <= u * D) by (apply Rmult_le_compat_l; lra). unfold a in *. assert (4 * u * D = 4 * (u * D)) by ring. assert (DD : V mx = D + V mn) by (unfold D; ring). lra. }
  intro x.
  (* the value *)
  destruct (d_ofZ_exact i) as [Fi Ei]; [pose proof (pow2_30 k Hk); lia|].
  assert (iP : 0 <= IZR i * V P <= V W) by (rewrite <- PW, (Rmult_comm (V P)); split; [apply Rmult_le_pos; lra|apply Rmult_le_compat_r; lra]).
  assert (M0 : 0 <= rnd64 (IZR i * V P) <= V W) by (split; [rewrite <- rnd_0; apply rnd_le; lra|apply rnd_le_fmt; [lra|apply fmt_dbl]]).
  destruct (d_mul_finite (d_ofZ i) P Fi FP) as [Fm Em].
  { rewrite Ei. apply Rle_lt_trans with (2 := dbl_lt_max W). rewrite !Rabs_pos_eq by lra. lra. }
  rewrite Ei in Em. set (M := d_mul (d_ofZ i) P) in *. rewrite <- Em in M0.
  pose proof (rnd_error (IZR i * V P)) as Me. rewrite <- Em, (Rabs_pos_eq (IZR i * V P)) in Me by lra. apply Rabs_le_inv in Me.
  assert (UiP : u * (IZR i * V P) <= u * D + u * D / 1024) by (apply Rle_trans with (2 := UW); apply Rmult_le_compat_l; lra).
  set (mm := Rmax (Rabs (V mn)) (Rabs (V mx))).
  assert (Hmm : - mm <= V mn /\ V mx <= mm).
  { unfold mm. pose proof (Rmax_l (Rabs (V mn)) (Rabs (V mx))). pose proof (Rmax_r (Rabs (V mn)) (Rabs (V mx))). pose proof (Rle_abs (V mx)). pose proof (Rle_abs (- V mn)) as X. rewrite Rabs_Ropp in X. lra. }
  assert (Mb : V mn <= V M + V mn <= V mx + u * D) by (unfold D in *; lra).
  assert (Hx1 : Rabs (V M + V mn) <= mm + u * D) by (apply Rabs_le; split; [lra|lra]).
  assert (Bmm : mm <= bpow radix2 1022) by (unfold mm; apply Rmax_lub; assumption).
  assert (D2 : D <= 2 * mm) by (unfold D; lra).
  destruct (d_add_finite M mn Fm Fmn) as [Fx Ex].
  { apply no_overflow. apply Rle_trans with (1 := Hx1).
    replace (bpow radix2 1023) with (bpow radix2 1022 + bpow radix2 1022) by (change 1023%Z with (1 + 1022)%Z; rewrite bpow_plus; change (bpow radix2 1) with 2; ring). lra. }
  change (d_add M mn) with x in Fx, Ex.
  pose proof (rnd_error_add (V M) (V mn) (fmt_dbl M) (fmt_dbl mn)) as Xe. rewrite <- Ex in Xe.
  assert (Xb : u * Rabs (V M + V mn) <= u * mm + u * D / 1024) by (apply Rle_trans with (u * (mm + u * D)); [apply Rmult_le_compat_l; lra|lra]).
  apply Rabs_le_inv in Xe.
  assert (Sl : slack (V mn) (V mx) = 4 * (u * D) + u * mm) by (unfold slack, D, mm, u; ring). rewrite Sl.
  split; [exact Fx|].
  assert (Xlo : V mn <= V x) by (rewrite Ex; apply rnd_ge_fmt; [lra|apply fmt_dbl]).
  assert (Ua : u * a <= u * D) by (apply Rmult_le_compat_l; lra).
  assert (Wa : - (u * D) <= V w - a <= u * D) by lra.
  split; [split; [exact Xlo|lra]|].
  assert (q1 : IZR i * V P <= V q * V P) by (apply Rmult_le_compat_r; lra).
  assert (q2 : V q * V P < IZR i * V P + V P) by (replace (IZR i * V P + V P) with ((IZR i + 1) * V P) by ring; apply Rmult_lt_compat_r; lra).
  unfold a in *. split; lra.
Qed.

Lemma value_F (i : Z) : (0 <= i <= 2 ^ Z.of_nat k)%Z -> Rabs (V (dp_value_of FNum mn P i) - (V mn + IZR i * V P)) <= slack (V mn) (V mx).
Proof.
  intro Ri. set (x := dp_value_of FNum mn P i). pose proof D_pos as PD. destruct W_fin as [FW EW]. pose proof W_err as WE. pose proof W_lo as WL. destruct P_val as [FP EP].
  pose proof u_pos as Pu. pose proof eta_pos as Pe. pose proof u_small as Su. pose proof (bpow_gt_0 radix2 (-992)) as Hb.
  pose proof (pow2R_pos k) as Hp2. assert (PP : 0 < V P) by (rewrite EP; apply Rdiv_lt_0_compat; lra).
  assert (PW : V P * 2 ^ k = V W) by (rewrite EP; field; lra). apply Rabs_le_inv in WE.
  assert (Zi : 0 <= IZR i) by (apply IZR_le; lia). assert (Zk : IZR i <= 2 ^ k) by (rewrite <- IZR_pow2; apply IZR_le; lia).
  assert (UD : 0 < u * D) by (apply Rmult_lt_0_compat; lra).
  assert (UuD : u * (u * D) <= u * D / 1024) by (replace (u * D / 1024) with (/ 1024 * (u * D)) by field; apply Rmult_le_compat_r; lra).
  assert (UW : u * V W <= u * D + u * D / 1024) by (apply Rle_trans with (u * (D + u * D)); [apply Rmult_le_compat_l; lra|lra]).
  assert (UD1 : u * D <= D / 1024) by (replace (D / 1024) with (/ 1024 * D) by field; apply Rmult_le_compat_r; lra).
  assert (Et : eta <= u * D / 1024).
  { pose proof eta_u. assert (bpow radix2 (-1022) <= D / 1024); [|apply Rle_trans with (1 := H); replace (u * D / 1024) with (u * (D / 1024)) by field; apply Rmult_le_compat_l; lra]. change D with (V mx - V mn). apply Rle_trans with (bpow radix2 (-992) / 1024); [|lra].
    unfold Rdiv. change (/ 1024) with (bpow radix2 (-10)). rewrite <- bpow_plus. apply bpow_le. lia. }
  destruct (d_ofZ_exact i) as [Fi Ei]; [pose proof (pow2_30 k Hk); lia|].
  assert (iP : 0 <= IZR i * V P <= V W) by (rewrite <- PW, (Rmult_comm (V P)); split; [apply Rmult_le_pos; lra|apply Rmult_le_compat_r; lra]).
  assert (M0 : 0 <= rnd64 (IZR i * V P) <= V W) by (split; [rewrite <- rnd_0; apply rnd_le; lra|apply rnd_le_fmt; [lra|apply fmt_dbl]]).
  destruct (d_mul_finite (d_ofZ i) P Fi FP) as [Fm Em].
  { rewrite Ei. apply Rle_lt_trans with (2 := dbl_lt_max W). rewrite !Rabs_pos_eq by lra. lra. }
  rewrite Ei in Em. set (M := d_mul (d_ofZ i) P) in *. rewrite <- Em in M0.
  pose proof (rnd_error (IZR i * V P)) as Me. rewrite <- Em, (Rabs_pos_eq (IZR i * V P)) in Me by lra. apply Rabs_le_inv in Me.
  assert (UiP : u * (IZR i * V P) <= u * D + u * D / 1024) by (apply Rle_trans with (2 := UW); apply Rmult_le_compat_l; lra).
  set (mm := Rmax (Rabs (V mn)) (Rabs (V mx))).
  assert (Hmm : - mm <= V mn /\ V mx <= mm).
  { unfold mm. pose proof (Rmax_l (Rabs (V mn)) (Rabs (V mx))). pose proof (Rmax_r (Rabs (V mn)) (Rabs (V mx))). pose proof (Rle_abs (V mx)). pose proof (Rle_abs (- V mn)) as X. rewrite Rabs_Ropp in X. lra. }
  assert (Mb : V mn <= V M + V mn <= V mx + u * D) by (unfold D in *; lra).
  assert (Hx1 : Rabs (V M + V mn) <= mm + u * D) by (apply Rabs_le; split; [lra|lra]).
  assert (Bmm : mm <= bpow radix2 1022) by (unfold mm; apply Rmax_lub; assumption).
  assert (D2 : D <= 2 * mm) by (unfold D; lra).
  destruct (d_add_finite M mn Fm Fmn) as [Fx Ex].
  { apply no_overflow. apply Rle_trans with (1 := Hx1).
    replace (bpow radix2 1023) with (bpow radix2 1022 + bpow radix2 1022) by (change 1023%Z with (1 + 1022)%Z; rewrite bpow_plus; change (bpow radix2 1) with 2; ring). lra. }
  change (d_add M mn) with x in Fx, Ex.
  pose proof (rnd_error_add (V M) (V mn) (fmt_dbl M) (fmt_dbl mn)) as Xe. rewrite <- Ex in Xe.
  assert (Xb : u * Rabs (V M + V mn) <= u * mm + u * D / 1024) by (apply Rle_trans with (u * (mm + u * D)); [apply Rmult_le_compat_l; lra|lra]).
  apply Rabs_le_inv in Xe. assert (Sl : slack (V mn) (V mx) = 4 * (u * D) + u * mm) by (unfold slack, D, mm, u; ring). rewrite Sl. apply Rabs_le. lra.
Qed.
End Core.

Lemma div_finite_val (x y : dbl) : fin x -> fin y -> V y <> 0 -> fin (d_div x y) -> V (d_div x y) = rnd64 (V x / V y).
Proof.
  intros Fx Fy Ny Fd. pose proof (Bdiv_correct dprec demax dprec_gt_0 dprec_lt_emax mode_NE x y Ny) as H.
  destruct (Rlt_bool _ _) in H; [apply H|]. exfalso. change (Bdiv mode_NE x y) with (d_div x y) in H.
  unfold binary_overflow in H. cbn in H. destruct (d_div x y); cbn in *; try discriminate.
Qed.
Lemma ceil_val (x : dbl) : fin x -> exists z, z = Zceil (V x) /\ fin (Bnearbyint mode_UP x) /\ V (Bnearbyint mode_UP x) = IZR z.
Proof.
  intro Fx. destruct (Bnearbyint_correct dprec demax dprec_lt_emax mode_UP x) as (E & F & _). exists (Zceil (V x)). split; [reflexivity|]. rewrite F. split; [exact Fx|].
  rewrite E, round_FIX_IZR. reflexivity.
Qed.
Lemma toint_val (x : dbl) i : d_toint x = Ok i -> i = Ztrunc (V x).
Proof.
  unfold d_toint. destruct (is_finite x); [|discriminate]. destruct (in_int (Btrunc x)); [|discriminate]. intro H. injection H as <-.
  pose proof (Btrunc_correct dprec demax dprec_lt_emax x) as T. rewrite round_FIX_IZR in T. apply eq_IZR in T. exact T.
Qed.
Lemma between_fin (mn v mx : dbl) : fin mn -> fin mx -> d_leb mn v = true -> d_leb v mx = true -> fin v.
Proof. intros A B C D. destruct v as [s|[]| |s m e b]; try reflexivity; exfalso; destruct mn, mx; cbn in *; try discriminate; try destruct s; try destruct s0; cbn in *; discriminate. Qed.

Lemma dp_make_F_full v mn mx p d : dp_make FNum v mn mx p = Ok d ->
  exists k i m, (k <= 30)%nat /\ fin mn /\ fin mx /\ fin v /\ V mn < V mx /\ V mn <= V v <= V mx /\ fin (d_sub mx mn) /\
    fin (d_div (d_sub mx mn) p) /\ m = Zceil (V (d_div (d_sub mx mn) p)) /\ (1 <= m)%Z /\ least_pow2_exp m k /\
    let P := d_div (d_sub mx mn) (d_ofZ (2 ^ Z.of_nat k)) in
    dp_quantise FNum mn P v = Ok i /\
    d = {| dp_base := Some (MkInt i 0 (2 ^ Z.of_nat k) (Some k)); dp_min := mn; dp_max := mx; dp_prec := P; dp_size := Some k |}.
Proof.
  intro H. destruct (dp_make_F_inv _ _ _ _ _ H) as (k & i & Hk & Fmn & Fmx & Hlt & Fw & Ed). revert H.
  unfold dp_make. cbn [n_leb FNum]. destruct (d_leb mx mn) eqn:E1; [discriminate|].
  destruct (dp_check_bounds FNum mn mx v) eqn:E2; [|discriminate]. cbn [negb].
  intro H. apply bind_ok in H as (m & Hm & H). apply bind_ok in H as (best & Hbest & H).
  apply bind_ok in H as (base & Hbase & H). apply bind_ok in H as (j & Hi & H).
  unfold dp_check_bounds in E2. apply andb_true_iff in E2 as [E2 E3]. cbn [n_leb FNum] in E2, E3. pose proof (between_fin mn v mx Fmn Fmx E2 E3) as Fv.
  apply (d_leb_R _ _ Fmn Fv) in E2. apply (d_leb_R _ _ Fv Fmx) in E3.
  unfold get_max_int in Hm. apply bind_ok in Hm as (z & Hz & Hm). cbn [n_toint n_ceil n_div n_sub FNum] in Hz.
  pose proof (toint_finite _ _ Hz) as Fz. apply nearbyint_finite_inv in Fz. destruct (ceil_val _ Fz) as (c & Ec & Fc & Vc).
  apply toint_val in Hz. rewrite Vc, Ztrunc_IZR in Hz. subst z. destruct (c <? 1)%Z eqn:L; [discriminate|]. injection Hm as <-. apply Z.ltb_ge in L.
  assert (Hbest2 : exists k', (k' <= 30)%nat /\ best = (2 ^ Z.of_nat k')%Z /\ least_pow2_exp c k').
  { destruct (Z_le_dec c (2 ^ 30)) as [G|G].
    - destruct (count_best_ok c G) as (k' & Hk' & Hk30 & Hl). rewrite Hk' in Hbest. injection Hbest as <-. eauto.
    - rewrite count_best_ub in Hbest by lia. discriminate. }
  destruct Hbest2 as (k' & Hk' & -> & Hl). rewrite ip_make2_pow2 in Hbase by exact Hk'. injection Hbase as <-.
  cbn [n_div n_sub n_ofZ FNum] in Hi.
  exists k', j, c. do 11 (split; [first [assumption|split; assumption]|]). split; [exact Hi|]. cbn [n_div n_sub n_ofZ FNum ip_set_value ip_min ip_max ip_size] in H. injection H as <-. reflexivity.
Qed.

(** What is kept of the value [w]: a finite number x between the bounds (up to the slack) with x <= w < x + precision (up to the slack). *)
Definition keeps (mn mx prec w x : dbl) : Prop :=
  fin x /\ V mn <= V x <= V mx + slack (V mn) (V mx) /\ V x - slack (V mn) (V mx) <= V w < V x + V prec + slack (V mn) (V mx).

Theorem C04_binary64 : forall v mn mx p d, dp_make FNum v mn mx p = Ok d -> fin p ->
  Rabs (V mn) <= bpow radix2 1022 -> Rabs (V mx) <= bpow radix2 1022 -> bpow radix2 (-992) <= V mx - V mn ->
  exists k prec, dp_size FNum d = Some k /\ (k <= 30)%nat /\ dp_min FNum d = mn /\ dp_max FNum d = mx /\ dp_prec FNum d = prec /\
    (* the actual precision: the rounded width over a power of two, no coarser than desired (up to rounding), and the coarsest such *)
    V prec = rnd64 (V mx - V mn) / 2 ^ k /\ 0 < V prec <= V p * (1 + bpow radix2 (-52)) /\ (k = 0%nat \/ V p < 2 * V prec) /\
    (* the constructor's value lies within the bounds and was stored as SetValue stores it *)
    fin v /\ V mn <= V v <= V mx /\ dp_set_value FNum d v = Ok d /\
    forall w, fin w -> V mn <= V w <= V mx ->
      exists d' x, dp_set_value FNum d w = Ok d' /\ dp_get_value FNum d' = Ok x /\ keeps mn mx prec w x /\
        (* away from the maximum the parameter then satisfies its constraints *)
        (V w < V mx - 4 * bpow radix2 (-53) * (V mx - V mn) -> dp_check FNum d' = Ok true).
Proof.
  intros v mn mx p d H Fp Bmn Bmx Hw. pose proof H as Hmake.
  destruct (dp_make_F_full _ _ _ _ _ H) as (k & i & m & Hk & Fmn & Fmx & Fv & Hlt & Hv & Fw & Fy & Em & Hm & Hl & Hi & ->).
  set (W := d_sub mx mn) in *. set (P := d_div W (d_ofZ (2 ^ Z.of_nat k))) in *.
  destruct (W_fin mn mx Fmn Fmx Bmn Bmx) as [FW EW]. fold W in FW, EW. pose proof (W_lo mn mx k Fmn Fmx Bmn Bmx Hw Hk) as WL. fold W in WL.
  destruct (P_val mn mx k Fmn Fmx Bmn Bmx Hw Hk) as [FP EP]. fold W in EP, FP. fold P in EP, FP.
  pose proof (bpow_gt_0 radix2 (-992)) as Hb. pose proof (pow2R_pos k) as Hp2.
  assert (PP : 0 < V P) by (rewrite EP; apply Rdiv_lt_0_compat; lra).
  (* the desired precision is positive *)
  assert (Y0 : 0 < V (d_div W p)).
  { destruct (Rle_or_lt (V (d_div W p)) 0) as [L|L]; [|exact L]. assert (Zceil (V (d_div W p)) <= 0)%Z by (apply Zceil_glb; exact L). lia. }
  assert (Np : V p <> 0).
  { intro Z. destruct p as [s|s| |s mm e b]; try discriminate Fp; [|cbn in Z; apply eq_0_F2R in Z; destruct s; discriminate Z].
    destruct W as [s'|s'| |s' m' e' b']; cbn in Fy, Y0; try discriminate; lra. }
  pose proof (div_finite_val W p FW Fp Np Fy) as EY.
  assert (Pp : 0 < V p).
  { destruct (Rle_or_lt (V p) 0) as [L|L]; [|exact L]. exfalso. assert (X : V W / V p <= 0).
    { unfold Rdiv. assert (/ V p < 0) by (apply Rinv_lt_0_compat; lra). nra. }
    apply rnd_le in X. rewrite rnd_0 in X. lra. }
  destruct Hl as [Hup Hleast].
  exists k, P. do 5 (split; [first [reflexivity|exact Hk]|]). split; [rewrite EP, EW; reflexivity|].
  assert (Yup : V W / V p <= 2 ^ k * (1 + 2 * u)).
  { assert (Y1 : V (d_div W p) <= 2 ^ k) by (rewrite <- IZR_pow2; apply Rle_trans with (IZR m); [rewrite Em; apply Zceil_ub|apply IZR_le; exact Hup]).
    rewrite EY in Y1. pose proof (rnd_error (V W / V p)) as E. assert (Q : 0 <= V W / V p) by (apply Rle_mult_inv_pos; lra). rewrite (Rabs_pos_eq (V W / V p)) in E by exact Q. apply Rabs_le_inv in E.
    assert (G1 : 1 <= 2 ^ k) by (apply pow_R1_Rle; lra). pose proof u_pos. pose proof u_small. pose proof eta_u. assert (bpow radix2 (-1022) <= / 2) by (change (/ 2) with (bpow radix2 (-1)); apply bpow_le; lia).
    assert (eta <= u / 2) by (apply Rle_trans with (1 := H2); apply Rle_trans with (u * / 2); [apply Rmult_le_compat_l; lra|lra]).
    destruct (Rle_or_lt (V W / V p) (2 ^ k * (1 + 2 * u))) as [L|L]; [exact L|exfalso].
    assert (A : (1 - u) * (2 ^ k * (1 + 2 * u)) < (1 - u) * (V W / V p)) by (apply Rmult_lt_compat_l; lra).
    assert (B : (1 - u) * (2 ^ k * (1 + 2 * u)) = 2 ^ k * (1 + u - 2 * (u * u))) by ring.
    assert (C : u * u <= u / 1024) by (replace (u / 1024) with (u * / 1024) by field; apply Rmult_le_compat_l; lra).
    assert (D : 2 ^ k + u / 2 <= 2 ^ k * (1 + u - 2 * (u * u))).
    { apply Rle_trans with (2 ^ k + 2 ^ k * (u / 2)); [|rewrite <- (Rmult_1_r (2 ^ k)) at 1; rewrite <- Rmult_plus_distr_l; apply Rmult_le_compat_l; lra].
      assert (1 * (u / 2) <= 2 ^ k * (u / 2)) by (apply Rmult_le_compat_r; lra). lra. }
    lra. }
  split; [split; [exact PP|]|].
  { replace (bpow radix2 (-52)) with (2 * u) by (unfold u; change 2 with (bpow radix2 1); rewrite <- bpow_plus; reflexivity).
    rewrite EP. apply Rmult_le_reg_r with (2 ^ k); [exact Hp2|]. replace (V W / 2 ^ k * 2 ^ k) with (V W / V p * V p) by (field; lra).
    apply Rle_trans with (2 ^ k * (1 + 2 * u) * V p); [apply Rmult_le_compat_r; lra|lra]. }
  split.
  { destruct k as [|j]; [left; reflexivity|right]. assert (J : (2 ^ Z.of_nat j < m)%Z).
    { destruct (Z_lt_dec (2 ^ Z.of_nat j) m) as [L|L]; [exact L|]. assert (X : (m <= 2 ^ Z.of_nat j)%Z) by lia. apply Hleast in X. lia. }
    assert (Y2 : 2 ^ j < V (d_div W p)).
    { destruct (Rle_or_lt (V (d_div W p)) (2 ^ j)) as [L|L]; [|exact L]. rewrite <- IZR_pow2 in L. apply Zceil_glb in L. lia. }
    assert (F2j : fmt64 (2 ^ j)) by (rewrite <- IZR_pow2; apply fmt_IZR; rewrite Z.abs_eq; [|pose proof (pow2_pos j)]; pose proof (pow2_30 j ltac:(lia)); lia).
    assert (Y3 : 2 ^ j < V W / V p). { destruct (Rle_or_lt (V W / V p) (2 ^ j)) as [L|L]; [|exact L]. pose proof (rnd_le_fmt _ _ L F2j). lra. }
    pose proof (pow2R_pos j) as Hj. rewrite EP. cbn [pow]. replace (2 * (V W / (2 * 2 ^ j))) with (V W / V p * V p / 2 ^ j) by (field; split; lra).
    apply Rmult_lt_reg_r with (2 ^ j); [exact Hj|]. replace (V W / V p * V p / 2 ^ j * 2 ^ j) with (V W / V p * V p) by (field; split; lra).
    rewrite (Rmult_comm (V p)). apply Rmult_lt_compat_r; assumption. }
  split; [exact Fv|]. split; [exact Hv|]. split.
  { unfold dp_set_value. cbn [dp_min dp_prec dp_base]. rewrite Hi. reflexivity. }
  intros w Fww Hww. destruct (quantise_F mn mx k Fmn Fmx Bmn Bmx Hw Hk w Fww Hww) as (j & Hj & Rj & Far & Hx). fold W in Hj, Hx. fold P in Hj, Hx.
  eexists. eexists. split; [unfold dp_set_value; cbn [dp_min dp_prec dp_base]; rewrite Hj; reflexivity|].
  split; [reflexivity|]. split; [exact Hx|]. intro Lw. 
  assert (Lw' : (j < 2 ^ Z.of_nat k)%Z) by (apply Far; exact Lw).
  destruct (F_decode v mn mx p _ k (z_bits k j) Hmake Hw eq_refl (z_bits_length k j)) as (d2 & Hs & Hc & _).
  unfold dp_set_from in Hs. cbn [dp_base] in Hs. rewrite (ip_decode _ k) in Hs; [|reflexivity|exact Hk|apply z_bits_length|].
  all: cycle 1.
  - cbn. pose proof (bits_val_range (z_bits k j)) as B. rewrite z_bits_length in B. pose proof (pow2_30 k Hk). unfold INT_MIN, INT_MAX. lia.
  - cbn [ip_min ip_set_value ip_max ip_size] in Hs. rewrite Z.add_0_r in Hs.
    assert (E : bits_val (z_bits k j) = j) by (rewrite z_bits_val; apply Z.mod_small; lia). rewrite E in Hs. injection Hs as <-. exact Hc.
Qed.
Print Assumptions C04_binary64.

(** Decoding a chromosome and encoding the value again gives the same chromosome or the one before it, when the precision is above the rounding errors. *)
Theorem C05_binary64_reencode : forall v mn mx p d k bits old, dp_make FNum v mn mx p = Ok d -> fin p ->
  Rabs (V mn) <= bpow radix2 1022 -> Rabs (V mx) <= bpow radix2 1022 -> bpow radix2 (-992) <= V mx - V mn ->
  3 * slack (V mn) (V mx) < V (dp_prec FNum d) ->
  dp_size FNum d = Some k -> length bits = k -> length old = k ->
  exists d' x d'' bits', dp_set_from FNum d bits = (d', Ok tt) /\ dp_get_value FNum d' = Ok x /\
    dp_set_value FNum d x = Ok d'' /\ dp_set_chromosome FNum d'' old = Ok bits' /\ length bits' = k /\
    (bits' = bits \/ bits_val bits' = bits_val bits - 1)%Z.
Proof.
  intros v mn mx p d k bits old H Fp Bmn Bmx Hw Hs Hsz Hlb Hlo. pose proof H as Hmake.
  destruct (dp_make_F_full _ _ _ _ _ H) as (k' & i & m & Hk & Fmn & Fmx & Fv & Hlt & Hv & Fw & Fy & Em & Hm & Hl & Hi & ->).
  cbn [dp_size dp_prec] in Hsz, Hs. injection Hsz as ->.
  set (W := d_sub mx mn) in *. set (P := d_div W (d_ofZ (2 ^ Z.of_nat k))) in *.
  destruct (F_decode v mn mx p _ k bits Hmake Hw eq_refl Hlb) as (d2 & Hs2 & _ & x & Hx & Fx & Bx).
  pose proof (bits_val_range bits) as B. rewrite Hlb in B. pose proof (pow2_30 k Hk) as H30.
  pose proof Hs2 as Hs3. unfold dp_set_from in Hs3. cbn [dp_base] in Hs3. rewrite (ip_decode _ k) in Hs3; [|reflexivity|exact Hk|exact Hlb|cbn; unfold INT_MIN, INT_MAX; lia].
  cbn [ip_min ip_set_value ip_max ip_size] in Hs3. rewrite Z.add_0_r in Hs3. injection Hs3 as Hd2.
  exists d2, x. subst d2. assert (Ex : dp_value_of FNum mn P (bits_val bits) = x) by (assert (OK : forall (A : Type) (a b : A), Ok a = Ok b -> a = b) by (intros A a b e; injection e; auto); exact (OK _ _ _ Hx)).
  destruct (quantise_F mn mx k Fmn Fmx Bmn Bmx Hw Hk x Fx Bx) as (j & Hj & Rj & _ & _ & _ & Kj). fold W in Hj, Kj. fold P in Hj, Kj.
  pose proof (value_F mn mx k Fmn Fmx Bmn Bmx Hw Hk j Rj) as Vj. fold W in Vj. fold P in Vj.
  assert (Rb : (0 <= bits_val bits <= 2 ^ Z.of_nat k)%Z) by lia.
  pose proof (value_F mn mx k Fmn Fmx Bmn Bmx Hw Hk _ Rb) as Vb. fold W in Vb. fold P in Vb. rewrite Ex in Vb.
  apply Rabs_le_inv in Vj. apply Rabs_le_inv in Vb.
  assert (PP : 0 < V P).
  { assert (0 <= slack (V mn) (V mx)); [|lra]. unfold slack. apply Rmult_le_pos; [apply bpow_ge_0|]. pose proof (Rabs_pos (V mn)). pose proof (Rmax_l (Rabs (V mn)) (Rabs (V mx))). lra. }
  assert (J1 : (j <= bits_val bits)%Z).
  { destruct (Z_le_dec j (bits_val bits)) as [L|L]; [exact L|exfalso]. assert (X : IZR (bits_val bits) + 1 <= IZR j) by (rewrite <- plus_IZR; apply IZR_le; lia).
    apply (Rmult_le_compat_r (V P)) in X; [|lra]. lra. }
  assert (J2 : (bits_val bits - 1 <= j)%Z).
  { destruct (Z_le_dec (bits_val bits - 1) j) as [L|L]; [exact L|exfalso]. assert (X : IZR j + 2 <= IZR (bits_val bits)) by (rewrite <- plus_IZR; apply IZR_le; lia).
    apply (Rmult_le_compat_r (V P)) in X; [|lra]. lra. }
  eexists. exists (z_bits k j). split; [exact Hs2|]. split; [exact Hx|].
  split; [unfold dp_set_value; cbn [dp_min dp_prec dp_base]; rewrite Hj; reflexivity|].
  split.
  { unfold dp_set_chromosome, dp_with_base. cbn [dp_base ip_set_value ip_min ip_max ip_size]. rewrite (ip_encode _ k); [cbn [ip_value ip_min]; rewrite Z.sub_0_r; reflexivity|reflexivity|exact Hk|exact Hlo|cbn; unfold INT_MIN, INT_MAX; lia]. }
  split; [apply z_bits_length|].
  assert (E : bits_val (z_bits k j) = j) by (rewrite z_bits_val; apply Z.mod_small; lia).
  assert (C : (j = bits_val bits \/ j = bits_val bits - 1)%Z) by lia. destruct C as [->| ->]; [left|right; exact E].
  rewrite <- Hlb. apply bits_val_z_bits.
Qed.
Print Assumptions C05_binary64_reencode.

(** Every desired precision that needs no more than 2^29 steps, and is not astronomically coarser than the width, is accepted. *)
Theorem C04_binary64_accepts : forall v mn mx p : dbl, fin mn -> fin mx -> fin v -> fin p ->
  Rabs (V mn) <= bpow radix2 1022 -> Rabs (V mx) <= bpow radix2 1022 -> bpow radix2 (-992) <= V mx - V mn -> V mn <= V v <= V mx ->
  V mx - V mn <= V p * bpow radix2 29 -> V p <= (V mx - V mn) * bpow radix2 1000 ->
  exists d, dp_make FNum v mn mx p = Ok d.
Proof.
  intros v mn mx p Fmn Fmx Fv Fp Bmn Bmx Hw [Lv Hv] Up Lp. pose proof (bpow_gt_0 radix2 (-992)) as Hb.
  destruct (W_fin mn mx Fmn Fmx Bmn Bmx) as [FW EW]. pose proof (W_lo mn mx 0%nat Fmn Fmx Bmn Bmx Hw (Nat.le_0_l 30)) as WL. pose proof (W_err mn mx Fmn Fmx Bmn Bmx Hw) as WE. apply Rabs_le_inv in WE.
  set (W := d_sub mx mn) in *. set (D := V mx - V mn) in *. pose proof u_pos as Pu. pose proof u_small as Su.
  assert (UD1 : u * D <= D / 1024) by (replace (D / 1024) with (/ 1024 * D) by field; apply Rmult_le_compat_r; lra).
  change (bpow radix2 29) with 536870912 in Up. assert (Pp : 0 < V p) by lra.
  unfold dp_make. cbn [n_leb FNum].
  assert (E1 : d_leb mx mn = false) by (destruct (d_leb mx mn) eqn:E; [|reflexivity]; apply (d_leb_R _ _ Fmx Fmn) in E; unfold D in *; lra). rewrite E1.
  unfold dp_check_bounds. cbn [n_leb FNum]. rewrite (proj2 (d_leb_R mn v Fmn Fv) Lv), (proj2 (d_leb_R v mx Fv Fmx) Hv). cbn [andb negb].
  (* the quotient *)
  assert (Q : bpow radix2 (-1001) <= V W / V p <= 2 ^ 30).
  { split.
    - apply Rmult_le_reg_r with (V p); [exact Pp|]. replace (V W / V p * V p) with (V W) by (field; lra).
      apply Rle_trans with (bpow radix2 (-1001) * (D * bpow radix2 1000)); [apply Rmult_le_compat_l; [apply bpow_ge_0|exact Lp]|].
      replace (bpow radix2 (-1001) * (D * bpow radix2 1000)) with (D * (bpow radix2 (-1001) * bpow radix2 1000)) by ring. rewrite <- bpow_plus. change (bpow radix2 (-1001 + 1000)) with (/ 2). lra.
    - apply Rmult_le_reg_r with (V p); [exact Pp|]. replace (V W / V p * V p) with (V W) by (field; lra). replace (2 ^ 30) with 1073741824 by ring. lra. }
  assert (F30 : fmt64 (2 ^ 30)) by (replace (2 ^ 30) with (IZR 1073741824) by ring; apply fmt_IZR; cbn; lia).
  assert (Q1 : bpow radix2 (-1001) <= rnd64 (V W / V p) <= 2 ^ 30).
  { split; [apply rnd_ge_fmt; [lra|]|apply rnd_le_fmt; [lra|exact F30]]. apply generic_format_bpow'; [typeclasses eauto|]. unfold FLT_exp; lia. }
  pose proof (bpow_gt_0 radix2 (-1001)) as H1001.
  destruct (d_div_finite W p FW) as [Fq Eq]; [lra| |].
  { rewrite Rabs_pos_eq by lra. apply Rle_lt_trans with (1 := proj2 Q1). change (2 ^ 30) with (2 ^ 30). replace (2 ^ 30) with (bpow radix2 30) by (cbn; lra). apply bpow_lt. lia. }
  rewrite <- Eq in Q1. destruct (ceil_val _ Fq) as (m & Em & Fm & Vm).
  assert (Rm : (1 <= m <= 2 ^ 30)%Z).
  { subst m. split; [|apply Zceil_glb; replace (IZR (2 ^ 30)) with (2 ^ 30) by (cbn; lra); lra].
    assert (0 < Zceil (V (d_div W p)))%Z; [|lia]. apply lt_IZR. pose proof (Zceil_ub (V (d_div W p))). lra. }
  assert (Hm : get_max_int FNum mn mx p = Ok m).
  { unfold get_max_int. cbn [n_toint n_ceil n_div n_sub FNum]. fold W. unfold d_toint. rewrite Fm.
    pose proof (Btrunc_correct dprec demax dprec_lt_emax (Bnearbyint mode_UP (d_div W p))) as T. rewrite round_FIX_IZR, Vm, Ztrunc_IZR in T. apply eq_IZR in T. rewrite T.
    rewrite (proj2 (in_int_true m)) by (unfold INT_MIN, INT_MAX; lia). cbn [bind]. replace (m <? 1)%Z with false by (symmetry; apply Z.ltb_ge; lia). reflexivity. }
  rewrite Hm. cbn [bind]. destruct (count_best_ok m) as (k & Hk & Hk30 & _); [lia|]. rewrite Hk. cbn [bind]. rewrite ip_make2_pow2 by exact Hk30. cbn [bind].
  destruct (quantise_F mn mx k Fmn Fmx Bmn Bmx Hw Hk30 v Fv (conj Lv Hv)) as (i & Hi & _). cbn [n_div n_sub n_ofZ FNum]. rewrite Hi. cbn [bind]. eexists. reflexivity.
Qed.
Print Assumptions C04_binary64_accepts.

(** ** Arrays: SetValues accepts values within the bounds, away from the maximum *)
Lemma set_value_again (N : Num) (d d' : DoubleParam N) w1 w2 : dp_set_value N d w1 = Ok d' -> dp_set_value N d' w2 = dp_set_value N d w2.
Proof.
  unfold dp_set_value. intro H. apply bind_ok in H as (i & _ & H). destruct (dp_base N d) as [b|] eqn:B; [|discriminate]. injection H as <-.
  cbn [dp_with_base dp_min dp_prec dp_base]. destruct (dp_quantise N (dp_min N d) (dp_prec N d) w2); reflexivity.
Qed.
Theorem C07_binary64 : forall mn mx p n a, da_make FNum mn mx p n = Ok a -> fin p ->
  Rabs (V mn) <= bpow radix2 1022 -> Rabs (V mx) <= bpow radix2 1022 -> bpow radix2 (-992) <= V mx - V mn ->
  forall vs, length vs = n -> Forall (fun w => fin w /\ V mn <= V w < V mx - 4 * bpow radix2 (-53) * (V mx - V mn)) vs ->
  exists a', da_set_values FNum a vs = (a', Ok tt) /\ da_values FNum a' = vs.
Proof.
  intros mn mx p n a H Fp Bmn Bmx Hw vs Hn Hvs. unfold da_make in H. apply bind_ok in H as (s & Hs & H). apply bind_ok in H as (k & _ & H).
  destruct (C04_binary64 _ _ _ _ _ Hs Fp Bmn Bmx Hw) as (k' & prec & _ & _ & _ & _ & _ & _ & _ & _ & _ & _ & _ & Hall).
  assert (L : forall d vs, (forall w, dp_set_value FNum d w = dp_set_value FNum s w) -> Forall (fun w => fin w /\ V mn <= V w < V mx - 4 * bpow radix2 (-53) * (V mx - V mn)) vs -> da_check_loop FNum d vs = Ok true).
  { intros d vs' Hd F. revert d Hd. induction F as [|w r [Fw [Lw Uw]] _ IH]; intros d Hd; [reflexivity|]. cbn [da_check_loop]. rewrite Hd.
    destruct (Hall w Fw) as (d' & x & Hd' & _ & _ & Hc). { pose proof (bpow_gt_0 radix2 (-992)). pose proof (bpow_gt_0 radix2 (-53)). assert (0 <= 4 * bpow radix2 (-53) * (V mx - V mn)) by (apply Rmult_le_pos; lra). lra. }
    rewrite Hd'. cbn [bind]. rewrite (Hc Uw). cbn [bind]. apply IH. intro w2. rewrite <- (set_value_again FNum s d' w w2 Hd'). reflexivity. }
  injection H as <-. unfold da_set_values. match goal with |- context [Nat.eqb ?x ?y] => replace (Nat.eqb x y) with true by (symmetry; apply Nat.eqb_eq; cbn [da_values]; rewrite repeat_length; exact Hn) end. cbn [negb].
  unfold da_check. cbn [da_sample da_values da_with_values]. rewrite (L s vs); auto. eexists. split; reflexivity.
Qed.
Print Assumptions C07_binary64.

(** ** Arrays through their chromosome *)
Section Through.
Variables (mn mx p : dbl) (s0 : DoubleParam FNum).
Hypotheses (Hmake : dp_make FNum mn mn mx p = Ok s0) (Fp : fin p)
  (Bmn : Rabs (V mn) <= bpow radix2 1022) (Bmx : Rabs (V mx) <= bpow radix2 1022) (Hw : bpow radix2 (-992) <= V mx - V mn).
Definition in_range (w : dbl) : Prop := fin w /\ V mn <= V w < V mx - 4 * bpow radix2 (-53) * (V mx - V mn).
Definition st (k : nat) (i : Z) : DoubleParam FNum :=
  {| dp_base := Some (MkInt i 0 (2 ^ Z.of_nat k) (Some k)); dp_min := mn : num FNum; dp_max := mx; dp_prec := d_div (d_sub mx mn) (d_ofZ (2 ^ Z.of_nat k)) : num FNum; dp_size := Some k |}.
Definition val (k : nat) (i : Z) : dbl := dp_value_of FNum mn (d_div (d_sub mx mn) (d_ofZ (2 ^ Z.of_nat k))) i.
Lemma st_of : exists k i, (k <= 30)%nat /\ s0 = st k i.
Proof. destruct (dp_make_F_inv _ _ _ _ _ Hmake) as (k & i & Hk & _ & _ & _ & _ & ->). exists k, i. split; [exact Hk|reflexivity]. Qed.
Lemma elem k i0 : s0 = st k i0 -> (k <= 30)%nat -> forall w, in_range w -> exists j, (0 <= j < 2 ^ Z.of_nat k)%Z /\
  (forall i, dp_set_value FNum (st k i) w = Ok (st k j)) /\ keeps mn mx (dp_prec FNum s0) w (val k j) /\ V (val k j) <= V mx.
Proof.
  intros E Hk w [Fww [Lw Uw]]. destruct (dp_make_F_inv _ _ _ _ _ Hmake) as (k' & i & _ & Fmn & Fmx & Hlt & _ & _).
  assert (Hww : V mn <= V w <= V mx).
  { pose proof (bpow_gt_0 radix2 (-53)). assert (0 <= 4 * bpow radix2 (-53) * (V mx - V mn)) by (apply Rmult_le_pos; lra). lra. }
  destruct (quantise_F mn mx k Fmn Fmx Bmn Bmx Hw Hk w Fww Hww) as (j & Hj & Rj & Far & Hx).
  assert (Lj : (j < 2 ^ Z.of_nat k)%Z) by (apply Far; exact Uw). exists j. split; [lia|].
  split; [intro i1; unfold dp_set_value, st; cbn [dp_min dp_prec dp_base]; rewrite Hj; reflexivity|]. split; [rewrite E; exact Hx|].
  assert (Sz : dp_size FNum s0 = Some k) by (rewrite E; reflexivity).
  destruct (F_decode mn mn mx p _ k (z_bits k j) Hmake Hw Sz (z_bits_length k j)) as (d2 & Hs & _ & x & Hg & _ & _ & Ux).
  rewrite E in Hs. unfold dp_set_from, st in Hs. cbn [dp_base] in Hs. pose proof (pow2_30 k Hk).
  assert (Ej : bits_val (z_bits k j) = j) by (rewrite z_bits_val; apply Z.mod_small; lia).
  rewrite (ip_decode _ k) in Hs; [|reflexivity|exact Hk|apply z_bits_length|cbn; rewrite Ej; unfold INT_MIN, INT_MAX; lia].
  cbn [ip_min ip_set_value ip_max ip_size] in Hs. rewrite Z.add_0_r, Ej in Hs. injection Hs as <-.
  assert (OK : forall (A : Type) (a b : A), Ok a = Ok b -> a = b) by (intros A a b e; injection e; auto). apply OK in Hg. rewrite <- Hg in Ux. exact Ux.
Qed.
Lemma enc k j old : (k <= 30)%nat -> length old = k -> (0 <= j < 2 ^ Z.of_nat k)%Z -> dp_set_chromosome FNum (st k j) old = Ok (z_bits k j).
Proof.
  intros Hk Hl Hj. unfold dp_set_chromosome, st. cbn [dp_base]. pose proof (pow2_30 k Hk).
  rewrite (ip_encode _ k); [cbn [ip_value ip_min]; rewrite Z.sub_0_r; reflexivity|reflexivity|exact Hk|exact Hl|cbn; unfold INT_MIN, INT_MAX; lia].
Qed.
Lemma dec k i j : (k <= 30)%nat -> (0 <= j < 2 ^ Z.of_nat k)%Z -> dp_set_from FNum (st k i) (z_bits k j) = (st k j, Ok tt).
Proof.
  intros Hk Hj. unfold dp_set_from, st. cbn [dp_base]. pose proof (pow2_30 k Hk). assert (Ej : bits_val (z_bits k j) = j) by (rewrite z_bits_val; apply Z.mod_small; lia).
  rewrite (ip_decode _ k); [|reflexivity|exact Hk|apply z_bits_length|cbn; rewrite Ej; unfold INT_MIN, INT_MAX; lia].
  cbn [ip_min ip_set_value ip_max ip_size]. rewrite Z.add_0_r, Ej. reflexivity.
Qed.
Lemma through k i0 : s0 = st k i0 -> (k <= 30)%nat -> forall vs, Forall in_range vs -> forall i old, length old = (k * length vs)%nat ->
  exists c vs', da_encode_loop FNum (st k i) k vs old = Ok c /\ length c = length old /\
    (forall i', da_decode_loop FNum (st k i') k (length vs) c = Ok vs') /\ Forall2 (fun w x => keeps mn mx (dp_prec FNum s0) w x /\ V x <= V mx) vs vs'.
Proof.
  intros E Hk vs F. induction F as [|w r Hr _ IH]; intros i old Hl.
  - exists [], []. cbn [da_encode_loop da_decode_loop length] in *. rewrite Nat.mul_0_r in Hl. destruct old; [|discriminate]. auto.
  - cbn [length] in Hl. rewrite Nat.mul_succ_r in Hl. destruct (elem k i0 E Hk w Hr) as (j & Rj & Hs & Hx).
    assert (Lf : length (firstn k old) = k) by (rewrite firstn_length; lia).
    destruct (IH j (skipn k old)) as (c & vs' & He & Lc & Hd & Fx); [rewrite skipn_length; lia|].
    exists (z_bits k j ++ c), (val k j :: vs'). cbn [da_encode_loop length]. rewrite Hs. cbn [bind]. rewrite (enc k j _ Hk Lf Rj). cbn [bind]. rewrite He. cbn [bind].
    split; [reflexivity|]. split; [rewrite app_length, z_bits_length, Lc, skipn_length; lia|]. split; [|constructor; assumption].
    intro i'. cbn [da_decode_loop]. rewrite <- (z_bits_length k j) at 2. rewrite firstn_app, Nat.sub_diag, firstn_all. cbn [firstn]. rewrite app_nil_r, dec by assumption. cbn [bind].
    change (dp_get_value FNum (st k j)) with (Ok (val k j)). cbn [bind]. rewrite <- (z_bits_length k j) at 3. rewrite skipn_app, Nat.sub_diag, skipn_all. cbn [skipn app]. rewrite Hd. reflexivity.
Qed.
End Through.

(** Values put into an array, written to a chromosome and read from it into any array with the same bounds: every one comes back within its precision. *)
Theorem C06_binary64 : forall mn mx p n a, da_make FNum mn mx p n = Ok a -> fin p ->
  Rabs (V mn) <= bpow radix2 1022 -> Rabs (V mx) <= bpow radix2 1022 -> bpow radix2 (-992) <= V mx - V mn ->
  exists k, dp_size FNum (da_sample FNum a) = Some k /\
  forall vs sender us receiver old,
    length vs = n -> Forall (fun w => fin w /\ V mn <= V w < V mx - 4 * bpow radix2 (-53) * (V mx - V mn)) vs ->
    da_set_values FNum a vs = (sender, Ok tt) -> da_set_values FNum a us = (receiver, Ok tt) -> length old = (k * n)%nat ->
    exists c r', da_set_chromosome FNum sender old = Ok c /\ da_set_from FNum receiver c = (r', Ok tt) /\
      Forall2 (fun w x => keeps mn mx (dp_prec FNum (da_sample FNum a)) w x /\ V x <= V mx) vs (da_values FNum r').
Proof.
  intros mn mx p n a H Fp Bmn Bmx Hw. unfold da_make in H. apply bind_ok in H as (s & Hs & H). apply bind_ok in H as (k & Hk' & H).
  destruct (st_of mn mx p s Hs) as (k1 & i0 & Hk & E). rewrite E in Hk'. cbn in Hk'. injection Hk' as <-. injection H as <-. cbn [da_sample].
  exists k1. split; [rewrite E; reflexivity|]. intros vs sender us receiver old Ln F Hsd Hrc Lo.
  destruct (through mn mx p s Hs Bmn Bmx Hw k1 i0 E Hk vs F i0 old) as (c & vs' & He & Lc & Hd & Fx); [exact (eq_trans Lo (f_equal (Nat.mul k1) (eq_sym Ln)))|].
  assert (WV : forall ws x, da_set_values FNum {| da_sample := s; da_values := repeat (n_ofZ FNum 0) n; da_size := Some (k1 * n)%nat |} ws = (x, Ok tt) -> length ws = n /\ x = {| da_sample := s; da_values := ws; da_size := Some (k1 * n)%nat |}).
  { intros ws x. unfold da_set_values. destruct (Nat.eqb (length ws) _) eqn:Q; cbn [negb]; [|discriminate]. apply Nat.eqb_eq in Q. cbn [da_values] in Q. rewrite repeat_length in Q.
    unfold da_with_values. cbn [da_sample da_size]. destruct (da_check _ _) as [[]| |]; intro X; inversion X. auto. }
  destruct (WV _ _ Hsd) as [_ ->]. destruct (WV _ _ Hrc) as [Lu ->]. exists c. eexists. 
  unfold da_set_chromosome, da_set_from. cbn [da_sample da_size da_values]. rewrite E. cbn [dp_size st cs_get]. unfold cs_check. rewrite Lo, Nat.eqb_refl. cbn [bind].
  split; [exact He|]. rewrite Lc, Lo, Nat.eqb_refl. cbn [bind]. assert (LL : length us = length vs) by exact (eq_trans Lu (eq_sym Ln)). rewrite LL, Hd. split; [reflexivity|]. cbn [da_values da_with_values]. rewrite <- E. exact Fx.
Qed.
Print Assumptions C06_binary64.

(** ** The maximum may be rejected: DoubleParameter(0.2, -0.1, 0.2, 0.01), and an array of one element with the same bounds, given 0.2. *)
Definition d01 : dbl := d_of 3602879701896397 (-55).
Definition d02 : dbl := d_of 3602879701896397 (-54).
Definition dm01 : dbl := d_of (-3602879701896397) (-55).
Definition d001 : dbl := d_of 5764607523034235 (-59).
Definition max_check : outcome bool := let! d := dp_make FNum d02 dm01 d02 d001 in dp_check FNum d.
Definition max_array : outcome unit := let! a := da_make FNum dm01 d02 d001 1 in snd (da_set_values FNum a [d02]).
Theorem C04_binary64_maximum_refuted : max_check = Ok false /\ max_array = Throw InvalidArgument.
Proof. split; vm_compute; reflexivity. Qed.
Print Assumptions C04_binary64_maximum_refuted.
(** ** A case that meets the hypotheses: the interval from -5.12 to 5.12 with precision 0.01. *)
Definition d512 : dbl := d_of 5764607523034235 (-50).
Definition dm512 : dbl := d_of (-5764607523034235) (-50).
Example C04_binary64_meets : exists d, dp_make FNum (d_ofZ 3) dm512 d512 d001 = Ok d /\ 3 * slack (V dm512) (V d512) < V (dp_prec FNum d) /\
  Rabs (V dm512) <= bpow radix2 1022 /\ Rabs (V d512) <= bpow radix2 1022 /\ bpow radix2 (-992) <= V d512 - V dm512.
Proof.
  assert (A : exists d, dp_make FNum (d_ofZ 3) dm512 d512 d001 = Ok d).
  { destruct (dp_make FNum (d_ofZ 3) dm512 d512 d001) as [d|e|b] eqn:E; [eauto|exfalso|exfalso].
    all: assert (X : match dp_make FNum (d_ofZ 3) dm512 d512 d001 with Ok _ => true | _ => false end = true) by (vm_compute; reflexivity); rewrite E in X; discriminate. }
  assert (Hd : forall m e, (Z.abs m < 2 ^ 53)%Z -> (-1000 <= e <= 0)%Z -> fin (d_of m e) /\ V (d_of m e) = IZR m * bpow radix2 e).
  { intros m e A1 A2. apply PropExamples.d_of_exact; lia. }
  destruct (Hd 5764607523034235%Z (-50)%Z) as [F1 E1]; [cbn; lia|lia|]. destruct (Hd (-5764607523034235)%Z (-50)%Z) as [F2 E2]; [cbn; lia|lia|]. destruct (Hd 5764607523034235%Z (-59)%Z) as [F3 E3]; [cbn; lia|lia|].
  fold d512 in *. fold dm512 in *. fold d001 in *. destruct A as [d Hd']. exists d. split; [exact Hd'|].
  assert (B50 : bpow radix2 (-50) = / 1125899906842624) by (cbn; lra). rewrite B50 in *.
  assert (Big : 8 <= bpow radix2 1022) by (change 8 with (bpow radix2 3); apply bpow_le; lia).
  assert (Sm : bpow radix2 (-992) <= 1) by (change 1 with (bpow radix2 0); apply bpow_le; lia).
  assert (G1 : Rabs (V dm512) <= bpow radix2 1022) by (rewrite E2; apply Rabs_le; lra). assert (G2 : Rabs (V d512) <= bpow radix2 1022) by (rewrite E1; apply Rabs_le; lra).
  assert (G3 : bpow radix2 (-992) <= V d512 - V dm512) by (rewrite E1, E2; lra). split; [|auto].
  destruct (C04_binary64 _ _ _ _ _ Hd' F3 G1 G2 G3) as (k & prec & Hk & Hk30 & _ & _ & -> & _ & [_ Hup] & [->|Hlow] & _); [exfalso|].
  - assert (X : match dp_make FNum (d_ofZ 3) dm512 d512 d001 with Ok d => match dp_size FNum d with Some 0%nat => true | _ => false end | _ => false end = false) by (vm_compute; reflexivity). rewrite Hd', Hk in X. discriminate.
  - assert (Z0 : IZR 5764607523034235 * bpow radix2 (-59) > / 1000) by (replace (bpow radix2 (-59)) with (/ 576460752303423488) by (cbn; lra); lra). rewrite E3 in Hlow.
    assert (S : slack (V dm512) (V d512) <= / 1000000).
    { unfold slack. assert (Rmax (Rabs (V dm512)) (Rabs (V d512)) <= 8) by (apply Rmax_lub; [rewrite E2|rewrite E1]; apply Rabs_le; lra).
      revert H. generalize (Rmax (Rabs (V dm512)) (Rabs (V d512))). intros rm Hrm. apply Rle_trans with (bpow radix2 (-53) * 100); [apply Rmult_le_compat_l; [apply bpow_ge_0|rewrite E1, E2; lra]|]. replace (bpow radix2 (-53)) with (/ 9007199254740992) by (cbn; lra). lra. }
    lra.
Qed.
