(** Lemmas about DoubleParameter and DoubleParametersArray in exact real arithmetic. *)
From Coq Require Import Reals Psatz.
From Flocq Require Import Core.Zaux Core.Raux.
From Verif Require Import Base Num Params ParamsSpec IntProofs.

(** Number of steps the constructor asks for, and the actual precision (double_parameter.cpp:33-36). *)
Lemma best_max_loop_spec fuel : forall initial p,
  (p <= 30)%nat -> (fuel + p >= 32)%nat ->
  (p = 0%nat \/ (2 ^ Z.of_nat (p - 1) < initial)%Z) ->
  ((initial <= 2 ^ 30)%Z -> exists k, best_max_loop fuel initial (2 ^ Z.of_nat p) = Ok (2 ^ Z.of_nat k)%Z /\
      (k <= 30)%nat /\ least_pow2_exp initial k) /\
  ((2 ^ 30 < initial)%Z -> best_max_loop fuel initial (2 ^ Z.of_nat p) = UB IntOverflow).
Proof.
  induction fuel as [|f IH]; intros initial p Hp Hf Hlow; [lia|].
  cbn [best_max_loop]. rewrite Z.gtb_ltb.
  destruct (Z.ltb_spec (2 ^ Z.of_nat p) initial) as [Hlt|Hge].
  - destruct (Nat.eq_dec p 30) as [->|Hne].
    + split; intro Ht; [change (2 ^ Z.of_nat 30)%Z with (2 ^ 30)%Z in Hlt; lia|].
      rewrite chk_int_bad; [reflexivity|]. right. unfold INT_MAX. cbn. lia.
    + assert (H30 : (2 ^ Z.of_nat (S p) <= 2 ^ 30)%Z).
      { change (2 ^ 30)%Z with (2 ^ Z.of_nat 30)%Z. apply pow2_le; lia. }
      pose proof (pow2_pos (S p)).
      assert (Hc : chk_int (2 ^ Z.of_nat p * 2) = Ok (2 ^ Z.of_nat (S p))%Z).
      { rewrite pow2_S. rewrite pow2_S in H30, H. rewrite Z.mul_comm.
        apply chk_int_ok. unfold INT_MIN, INT_MAX. lia. }
      rewrite Hc; cbn [bind].
      destruct (IH initial (S p)) as [IH1 IH2]; [lia|lia| |split; assumption].
      right. rewrite Nat.sub_succ, Nat.sub_0_r. exact Hlt.
  - split.
    + intros _. exists p. split; [reflexivity|]. split; [lia|]. apply least_from_strict; [lia|exact Hlow].
    + intro Ht. assert (2 ^ Z.of_nat p <= 2 ^ Z.of_nat 30)%Z by (apply pow2_le; lia).
      change (2 ^ Z.of_nat 30)%Z with (2 ^ 30)%Z in *. lia.
Qed.

Lemma count_best_ok m : (m <= 2 ^ 30)%Z ->
  exists k, count_best_max_int m = Ok (2 ^ Z.of_nat k)%Z /\ (k <= 30)%nat /\ least_pow2_exp m k.
Proof.
  intro H. unfold count_best_max_int. destruct (best_max_loop_spec 33 m 0) as [HA _]; try lia.
  change (2 ^ Z.of_nat 0)%Z with 1%Z in HA. auto.
Qed.
Lemma count_best_ub m : (2 ^ 30 < m)%Z -> count_best_max_int m = UB IntOverflow.
Proof.
  intro H. unfold count_best_max_int. destruct (best_max_loop_spec 33 m 0) as [_ HB]; try lia.
  change (2 ^ Z.of_nat 0)%Z with 1%Z in HB. auto.
Qed.

Lemma ip_make2_pow2 k : (k <= 30)%nat ->
  ip_make2 0 (2 ^ Z.of_nat k) = Ok (MkInt 0 0 (2 ^ Z.of_nat k) (Some k)).
Proof.
  intro Hk. unfold ip_make2, ip_make.
  assert (2 ^ Z.of_nat k <= 2 ^ Z.of_nat 30)%Z by (apply pow2_le; lia).
  pose proof (pow2_pos k).
  destruct (count_size_ok 0 (2 ^ Z.of_nat k)) as (j & Hj & _ & Hl).
  { change (2 ^ Z.of_nat 30)%Z with (2 ^ 30)%Z in *. unfold INT_MIN. lia. }
  rewrite Hj. cbn [bind]. repeat f_equal.
  rewrite Z.sub_0_r in Hl. eapply least_pow2_exp_unique; [exact Hl|].
  split; [lia|]. intros i Hi. destruct (Nat.le_gt_cases k i); auto.
  exfalso. assert (2 ^ Z.of_nat (S i) <= 2 ^ Z.of_nat k)%Z by (apply pow2_le; lia).
  rewrite pow2_S in *. pose proof (pow2_pos i). lia.
Qed.

Open Scope R_scope.

Lemma IZR_pow2 k : IZR (2 ^ Z.of_nat k) = 2 ^ k.
Proof. rewrite pow_IZR. f_equal. Qed.
Lemma pow2R_pos k : 0 < 2 ^ k.
Proof. apply pow_lt; lra. Qed.

Lemma Zceil_le_pow x (n : Z) : (Zceil x <= n)%Z -> x <= IZR n.
Proof. intro H. apply Rle_trans with (IZR (Zceil x)); [apply Zceil_ub|apply IZR_le; exact H]. Qed.

(** Ztrunc of a real in [0, n] *)
Lemma Ztrunc_range x (n : Z) : 0 <= x <= IZR n ->
  (0 <= Ztrunc x <= n)%Z /\ IZR (Ztrunc x) <= x < IZR (Ztrunc x) + 1.
Proof.
  intros [H1 H2]. rewrite Ztrunc_floor by exact H1.
  assert (0 <= Zfloor x)%Z by (apply Zfloor_lub; exact H1).
  assert (Zfloor x <= n)%Z.
  { apply le_IZR. apply Rle_trans with x; [apply Zfloor_lb|exact H2]. }
  split; [lia|]. split; [apply Zfloor_lb|apply Zfloor_ub].
Qed.

(** The state of a successfully built DoubleParameter: 2^k steps over [mn, mx]. *)
Definition dp_good (d : DoubleParam RNum) (mn mx : R) (k : nat) : Prop :=
  dp_min _ d = mn /\ dp_max _ d = mx /\ dp_prec _ d = (mx - mn) / 2 ^ k /\ dp_size _ d = Some k /\
  (k <= 30)%nat /\ mn < mx /\
  exists i, dp_base _ d = Some (MkInt i 0 (2 ^ Z.of_nat k) (Some k)).

Lemma dp_prec_pos d mn mx k : dp_good d mn mx k -> 0 < dp_prec _ d.
Proof.
  intros (_ & _ & -> & _ & _ & Hlt & _). apply Rdiv_lt_0_compat; [lra|apply pow2R_pos].
Qed.

Lemma pow2_30 k : (k <= 30)%nat -> (2 ^ Z.of_nat k <= 1073741824)%Z.
Proof. intro H. apply pow2_le in H. exact H. Qed.

Lemma quantise_range mn mx k v : mn < mx -> (k <= 30)%nat -> mn <= v <= mx ->
  exists i, dp_quantise RNum mn ((mx - mn) / 2 ^ k) v = Ok i /\ (0 <= i <= 2 ^ Z.of_nat k)%Z /\
    mn + IZR i * ((mx - mn) / 2 ^ k) <= v < mn + IZR i * ((mx - mn) / 2 ^ k) + (mx - mn) / 2 ^ k.
Proof.
  intros Hlt Hk Hv. unfold dp_quantise. cbn [n_toint n_div n_sub RNum].
  set (pr := (mx - mn) / 2 ^ k). pose proof (pow2R_pos k) as Hp2.
  assert (Hpr : 0 < pr) by (apply Rdiv_lt_0_compat; lra).
  assert (Hw : pr * 2 ^ k = mx - mn) by (unfold pr; field; lra).
  assert (Hq : (v - mn) / pr * pr = v - mn) by (field; lra).
  assert (Hrange : 0 <= (v - mn) / pr <= IZR (2 ^ Z.of_nat k)).
  { rewrite IZR_pow2. split.
    - apply Rmult_le_reg_r with pr; [exact Hpr|]. rewrite Hq. lra.
    - apply Rmult_le_reg_r with pr; [exact Hpr|]. rewrite Hq. lra. }
  destruct (Ztrunc_range _ _ Hrange) as [Hz Hb]. cbv zeta.
  exists (Ztrunc ((v - mn) / pr)).
  assert (in_int (Ztrunc ((v - mn) / pr)) = true).
  { apply in_int_true. pose proof (pow2_30 k Hk). unfold INT_MIN, INT_MAX. lia. }
  rewrite H. split; [reflexivity|]. split; [exact Hz|].
  destruct Hb as [Hb1 Hb2].
  apply (Rmult_le_compat_r pr) in Hb1; [|lra]. apply (Rmult_lt_compat_r pr) in Hb2; [|lra].
  rewrite Hq in *. lra.
Qed.

Lemma dp_make_bad_interval v mn mx p : mx <= mn -> dp_make RNum v mn mx p = Throw InvalidArgument.
Proof.
  intro H. unfold dp_make. cbn [n_leb RNum]. apply R_leb_true in H. rewrite H. reflexivity.
Qed.
Lemma dp_make_bad_value v mn mx p : v < mn \/ mx < v -> dp_make RNum v mn mx p = Throw InvalidArgument.
Proof.
  intro H. unfold dp_make. cbn [n_leb RNum]. destruct (R_leb mx mn); [reflexivity|].
  unfold dp_check_bounds. cbn [n_leb RNum].
  destruct H as [H|H]; apply R_leb_false in H; rewrite H; [reflexivity|].
  rewrite andb_false_r. reflexivity.
Qed.

Lemma dp_make_ok v mn mx p : mn < mx -> mn <= v <= mx -> 0 < p ->
  (Zceil ((mx - mn) / p) <= 2 ^ 30)%Z ->
  exists d k, dp_make RNum v mn mx p = Ok d /\ least_pow2_exp (Zceil ((mx - mn) / p)) k /\
    dp_good d mn mx k /\ dp_prec _ d <= p /\
    exists i, dp_base _ d = Some (MkInt i 0 (2 ^ Z.of_nat k) (Some k)) /\ (0 <= i <= 2 ^ Z.of_nat k)%Z /\
      mn + IZR i * dp_prec _ d <= v < mn + IZR i * dp_prec _ d + dp_prec _ d.
Proof.
  intros Hlt Hv Hp HM. unfold dp_make. cbn [n_leb RNum].
  replace (R_leb mx mn) with false by (symmetry; apply R_leb_false; exact Hlt).
  unfold dp_check_bounds. cbn [n_leb RNum].
  replace (R_leb mn v) with true by (symmetry; apply R_leb_true; lra).
  replace (R_leb v mx) with true by (symmetry; apply R_leb_true; lra). cbn [andb negb].
  assert (Hpos : 0 < (mx - mn) / p) by (apply Rdiv_lt_0_compat; lra).
  assert (HM1 : (1 <= Zceil ((mx - mn) / p))%Z).
  { assert (0 < Zceil ((mx - mn) / p))%Z; [|lia].
    apply lt_IZR. apply Rlt_le_trans with ((mx - mn) / p); [lra|apply Zceil_ub]. }
  assert (HG : get_max_int RNum mn mx p = Ok (Zceil ((mx - mn) / p))).
  { unfold get_max_int. cbn [n_toint n_ceil n_div n_sub RNum]. rewrite Ztrunc_IZR.
    replace (in_int (Zceil ((mx - mn) / p))) with true
      by (symmetry; apply in_int_true; unfold INT_MIN, INT_MAX; lia).
    cbn [bind]. destruct (Z.ltb_spec (Zceil ((mx - mn) / p)) 1); [lia|reflexivity]. }
  rewrite HG. cbn [bind].
  destruct (count_best_ok _ HM) as (k & Hk & Hk30 & Hleast). rewrite Hk. cbn [bind].
  rewrite ip_make2_pow2 by exact Hk30. cbn [bind n_div n_sub n_ofZ RNum]. rewrite IZR_pow2.
  destruct (quantise_range mn mx k v Hlt Hk30 Hv) as (i & Hi & Hir & Hib). rewrite Hi. cbn [bind].
  eexists. exists k. split; [reflexivity|]. split; [exact Hleast|]. split.
  { unfold dp_good. cbn. repeat (split; [auto|]). exists i. reflexivity. }
  cbn [dp_prec dp_base]. split.
  - destruct Hleast as [Hup _]. apply Zceil_le_pow in Hup. rewrite IZR_pow2 in Hup.
    pose proof (pow2R_pos k). apply Rmult_le_reg_r with (2 ^ k); [lra|].
    replace ((mx - mn) / 2 ^ k * 2 ^ k) with (mx - mn) by (field; lra).
    apply (Rmult_le_compat_r p) in Hup; [|lra].
    replace ((mx - mn) / p * p) with (mx - mn) in Hup by (field; lra). lra.
  - exists i. split; [reflexivity|]. split; [exact Hir|exact Hib].
Qed.

Lemma dp_make_overflow v mn mx p : mn < mx -> mn <= v <= mx -> 0 < p ->
  (2 ^ 30 < Zceil ((mx - mn) / p))%Z -> exists u, dp_make RNum v mn mx p = UB u.
Proof.
  intros Hlt Hv Hp HM. unfold dp_make. cbn [n_leb RNum].
  replace (R_leb mx mn) with false by (symmetry; apply R_leb_false; exact Hlt).
  unfold dp_check_bounds. cbn [n_leb RNum].
  replace (R_leb mn v) with true by (symmetry; apply R_leb_true; lra).
  replace (R_leb v mx) with true by (symmetry; apply R_leb_true; lra). cbn [andb negb].
  unfold get_max_int. cbn [n_toint n_ceil n_div n_sub RNum]. rewrite Ztrunc_IZR.
  destruct (in_int (Zceil ((mx - mn) / p))) eqn:E; cbn [bind]; [|eauto].
  destruct (Z.ltb_spec (Zceil ((mx - mn) / p)) 1); [lia|]. cbn [bind].
  rewrite count_best_ub by exact HM. cbn [bind]. eauto.
Qed.

Lemma dp_make_neg_precision v mn mx p : mn < mx -> mn <= v <= mx -> p < 0 ->
  (INT_MIN <= Zceil ((mx - mn) / p))%Z -> dp_make RNum v mn mx p = Throw InvalidArgument.
Proof.
  intros Hlt Hv Hp HM. unfold dp_make. cbn [n_leb RNum].
  replace (R_leb mx mn) with false by (symmetry; apply R_leb_false; exact Hlt).
  unfold dp_check_bounds. cbn [n_leb RNum].
  replace (R_leb mn v) with true by (symmetry; apply R_leb_true; lra).
  replace (R_leb v mx) with true by (symmetry; apply R_leb_true; lra). cbn [andb negb].
  assert (Hneg : (mx - mn) / p <= 0).
  { unfold Rdiv. apply Rmult_le_reg_r with (- p); [lra|].
    replace ((mx - mn) * / p * - p) with (-(mx - mn)) by (field; lra). lra. }
  assert (Hc : (Zceil ((mx - mn) / p) <= 0)%Z) by (apply Zceil_glb; exact Hneg).
  unfold get_max_int. cbn [n_toint n_ceil n_div n_sub RNum]. rewrite Ztrunc_IZR.
  replace (in_int (Zceil ((mx - mn) / p))) with true
    by (symmetry; apply in_int_true; unfold INT_MIN, INT_MAX in *; lia).
  cbn [bind]. destruct (Z.ltb_spec (Zceil ((mx - mn) / p)) 1); [reflexivity|lia].
Qed.

(** ** Decoding and re-encoding *)

Lemma dp_decode d mn mx k bits : dp_good d mn mx k -> length bits = k ->
  exists d', dp_set_from RNum d bits = (d', Ok tt) /\ dp_good d' mn mx k /\ dp_prec _ d' = dp_prec _ d /\
    dp_base _ d' = Some (MkInt (bits_val bits) 0 (2 ^ Z.of_nat k) (Some k)) /\
    dp_get_value RNum d' = Ok (mn + IZR (bits_val bits) * dp_prec _ d) /\
    dp_check RNum d' = Ok true /\
    mn <= mn + IZR (bits_val bits) * dp_prec _ d < mx.
Proof.
  intros Hg Hl. pose proof (dp_prec_pos _ _ _ _ Hg) as Hpr.
  destruct Hg as (Hmn & Hmx & Hprec & Hs & Hk & Hlt & i & Hb).
  pose proof (bits_val_range bits) as Hr. rewrite Hl in Hr.
  pose proof (pow2_30 k Hk) as H30.
  unfold dp_set_from. rewrite Hb.
  rewrite (ip_decode _ k); [|reflexivity|exact Hk|exact Hl|cbn; unfold INT_MIN, INT_MAX; lia].
  cbn [ip_min ip_set_value ip_max ip_size]. rewrite Z.add_0_r.
  eexists. split; [reflexivity|].
  assert (Hupper : mn <= mn + IZR (bits_val bits) * dp_prec _ d < mx).
  { pose proof (pow2R_pos k) as Hp2.
    assert (0 <= IZR (bits_val bits)) by (apply IZR_le; lia).
    assert (IZR (bits_val bits) < 2 ^ k) by (rewrite <- IZR_pow2; apply IZR_lt; lia).
    split; [nra|].
    assert (IZR (bits_val bits) * dp_prec _ d < 2 ^ k * dp_prec _ d) by (apply Rmult_lt_compat_r; lra).
    assert (2 ^ k * dp_prec _ d = mx - mn); [rewrite Hprec; field; lra|lra]. }
  split. { unfold dp_good, dp_with_base. cbn. repeat (split; [auto|]). eexists; reflexivity. }
  split; [reflexivity|]. split; [reflexivity|].
  assert (Hval : dp_get_value RNum
     (dp_with_base RNum d (MkInt (bits_val bits) 0 (2 ^ Z.of_nat k) (Some k)))
     = Ok (mn + IZR (bits_val bits) * dp_prec _ d)).
  { unfold dp_get_value, dp_with_base, dp_value_of. cbn. rewrite Hmn. f_equal. ring. }
  split; [exact Hval|]. split; [|exact Hupper].
  unfold dp_check. change (ip_set_value _ _) with (MkInt (bits_val bits) 0 (2 ^ Z.of_nat k) (Some k)).
  rewrite Hval. cbn [bind]. unfold dp_check_bounds, dp_with_base. cbn [dp_min dp_max n_leb RNum].
  rewrite Hmn, Hmx.
  replace (R_leb mn (mn + IZR (bits_val bits) * dp_prec RNum d)) with true by (symmetry; apply R_leb_true; tauto).
  replace (R_leb (mn + IZR (bits_val bits) * dp_prec RNum d) mx) with true by (symmetry; apply R_leb_true; lra).
  reflexivity.
Qed.

Lemma dp_set_value_grid d mn mx k j : dp_good d mn mx k -> (0 <= j <= 2 ^ Z.of_nat k)%Z ->
  dp_set_value RNum d (mn + IZR j * dp_prec _ d) =
  Ok (dp_with_base RNum d (MkInt j 0 (2 ^ Z.of_nat k) (Some k))).
Proof.
  intros Hg Hj. pose proof (dp_prec_pos _ _ _ _ Hg) as Hpr.
  destruct Hg as (Hmn & Hmx & Hprec & Hs & Hk & Hlt & i & Hb).
  unfold dp_set_value, dp_quantise. cbn [n_toint n_div n_sub RNum]. rewrite Hmn.
  replace ((mn + IZR j * dp_prec RNum d - mn) / dp_prec RNum d) with (IZR j) by (field; lra).
  rewrite Ztrunc_IZR. pose proof (pow2_30 k Hk).
  replace (in_int j) with true by (symmetry; apply in_int_true; unfold INT_MIN, INT_MAX; lia).
  cbn [bind]. rewrite Hb. reflexivity.
Qed.

Lemma dp_encode d mn mx k j old : dp_good d mn mx k -> length old = k -> (0 <= j <= 2 ^ Z.of_nat k)%Z ->
  dp_set_chromosome RNum (dp_with_base RNum d (MkInt j 0 (2 ^ Z.of_nat k) (Some k))) old = Ok (z_bits k j).
Proof.
  intros (Hmn & Hmx & Hprec & Hs & Hk & Hlt & i & Hb) Hl Hj.
  unfold dp_set_chromosome, dp_with_base. cbn [dp_base]. pose proof (pow2_30 k Hk).
  rewrite (ip_encode _ k); cbn; auto; [rewrite Z.sub_0_r; reflexivity|unfold INT_MIN, INT_MAX; lia].
Qed.

Lemma dp_good_with d mn mx k j : dp_good d mn mx k ->
  dp_good (dp_with_base RNum d (MkInt j 0 (2 ^ Z.of_nat k) (Some k))) mn mx k.
Proof.
  intros (Hmn & Hmx & Hprec & Hs & Hk & Hlt & i & Hb). unfold dp_good, dp_with_base; cbn.
  repeat (split; [auto|]). eexists; reflexivity.
Qed.

Lemma dp_reencode d mn mx k bits d' x old : dp_good d mn mx k -> length bits = k -> length old = k ->
  dp_set_from RNum d bits = (d', Ok tt) -> dp_get_value RNum d' = Ok x ->
  exists d'', dp_set_value RNum d x = Ok d'' /\ dp_set_chromosome RNum d'' old = Ok bits.
Proof.
  intros Hg Hl Ho Hf Hx. destruct (dp_decode d mn mx k bits Hg Hl) as (e & He & _ & _ & _ & Hv & _).
  rewrite He in Hf. inversion Hf; subst e. rewrite Hv in Hx. inversion Hx; subst x.
  pose proof (bits_val_range bits) as Hr. rewrite Hl in Hr.
  rewrite (dp_set_value_grid d mn mx k) by (auto; lia). eexists. split; [reflexivity|].
  rewrite (dp_encode d mn mx k) by (auto; lia). f_equal. rewrite <- Hl. apply bits_val_z_bits.
Qed.
