(** DoubleParameter in binary64: every chromosome decodes to a value within the bounds. *)
From Coq Require Import Reals Psatz.
From Flocq Require Import Core.Core IEEE754.BinarySingleNaN.
From Flocq Require Import Mult_error.
From Verif Require Import Base Num DblOrder Params ParamsSpec IntProofs DoubleProofs FloatLemmas.
Open Scope R_scope.

Lemma toint_finite (x : dbl) z : d_toint x = Ok z -> is_finite x = true.
Proof. unfold d_toint. destruct (is_finite x); [auto|discriminate]. Qed.

Lemma nearbyint_finite_inv md (x : dbl) : is_finite (Bnearbyint md x) = true -> is_finite x = true.
Proof. destruct x; cbn; auto. Qed.

Lemma div_finite_inv (x y : dbl) : is_finite (d_div x y) = true -> is_finite x = true.
Proof. destruct x; auto; destruct y; cbn; discriminate. Qed.

Lemma sub_finite_inv (x y : dbl) : is_finite (d_sub x y) = true -> is_finite x = true /\ is_finite y = true.
Proof.
  destruct x; destruct y; cbn; auto; try discriminate;
  repeat match goal with s : bool |- _ => destruct s end; cbn; try discriminate; auto.
Qed.

Lemma dp_make_F_inv v mn mx p d : dp_make FNum v mn mx p = Ok d ->
  exists k i, (k <= 30)%nat /\
    is_finite mn = true /\ is_finite mx = true /\ B2R mn < B2R mx /\ is_finite (d_sub mx mn) = true /\
    d = {| dp_base := Some (MkInt i 0 (2 ^ Z.of_nat k) (Some k)); dp_min := mn; dp_max := mx;
           dp_prec := d_div (d_sub mx mn) (d_ofZ (2 ^ Z.of_nat k)); dp_size := Some k |}.
Proof.
  unfold dp_make. cbn [n_leb FNum]. destruct (d_leb mx mn) eqn:E1; [discriminate|].
  destruct (negb (dp_check_bounds FNum mn mx v)) eqn:E2; [discriminate|].
  intro H. apply bind_ok in H as (m & Hm & H). apply bind_ok in H as (best & Hbest & H).
  apply bind_ok in H as (base & Hbase & H). apply bind_ok in H as (i & Hi & H).
  unfold get_max_int in Hm. apply bind_ok in Hm as (z & Hz & Hm). cbn [n_toint n_ceil n_div n_sub FNum] in Hz.
  apply toint_finite in Hz. apply nearbyint_finite_inv in Hz. apply div_finite_inv in Hz.
  destruct (sub_finite_inv _ _ Hz) as [Fmx Fmn].
  assert (Hlt : B2R mn < B2R mx).
  { destruct (Rle_or_lt (B2R mx) (B2R mn)) as [L|L]; [|exact L].
    apply (proj2 (d_leb_R mx mn Fmx Fmn)) in L. congruence. }
  assert (Hk : exists k, (k <= 30)%nat /\ best = (2 ^ Z.of_nat k)%Z).
  { destruct (Z_le_dec m (2 ^ 30)) as [L|L].
    - destruct (count_best_ok m L) as (k & Hk & Hk30 & _). rewrite Hk in Hbest. inversion Hbest. eauto.
    - rewrite count_best_ub in Hbest by lia. discriminate. }
  destruct Hk as (k & Hk30 & ->). rewrite ip_make2_pow2 in Hbase by exact Hk30.
  inversion Hbase; subst base; clear Hbase.
  cbn [n_div n_sub n_ofZ FNum ip_set_value ip_min ip_max ip_size] in H. inversion H; subst d.
  exists k, i. repeat (split; [assumption|]). reflexivity.
Qed.

Lemma bpow_pow2 k : bpow radix2 (Z.of_nat k) = 2 ^ k.
Proof.
  induction k as [|k IH]; [reflexivity|].
  rewrite Nat2Z.inj_succ. unfold Z.succ. rewrite bpow_plus, IH. cbn. ring.
Qed.

(** dividing by 2^k is exact unless the result would be subnormal *)
Lemma fmt_div_pow2 x k : fmt64 x -> bpow radix2 (-992) <= x -> (k <= 30)%nat -> fmt64 (x / 2 ^ k).
Proof.
  intros F Hx Hk. unfold Rdiv. rewrite <- bpow_pow2, <- bpow_opp.
  apply (mult_bpow_exact_FLT radix2 (-1074) 53); [exact F|].
  assert (-991 <= mag radix2 x)%Z; [|lia].
  apply mag_ge_bpow. replace (-991 - 1)%Z with (-992)%Z by lia. 
  rewrite Rabs_pos_eq; [exact Hx|]. apply Rle_trans with (2 := Hx). apply bpow_ge_0.
Qed.

Lemma pow2_le_30 k : (k <= 30)%nat -> 2 ^ k <= 1073741824.
Proof. intro H. replace 1073741824 with (2 ^ 30) by ring. apply Rle_pow; [lra|exact H]. Qed.

Lemma tiny_u : / 2 * bpow radix2 (-52) <= / 9007199254740992.
Proof. cbn. lra. Qed.

Lemma F_decode v mn mx p d k bits :
  dp_make FNum v mn mx p = Ok d -> bpow radix2 (-992) <= B2R mx - B2R mn ->
  dp_size FNum d = Some k -> length bits = k ->
  exists d', dp_set_from FNum d bits = (d', Ok tt) /\ dp_check FNum d' = Ok true /\
    exists x, dp_get_value FNum d' = Ok x /\ is_finite x = true /\ B2R mn <= B2R x <= B2R mx.
Proof.
  intros Hmake Hw Hs Hl.
  destruct (dp_make_F_inv _ _ _ _ _ Hmake) as (k' & i & Hk & Fmn & Fmx & Hlt & Fw & ->).
  cbn in Hs. inversion Hs; subst k'; clear Hs.
  pose proof (bits_val_range bits) as Hr. rewrite Hl in Hr.
  pose proof (pow2_30 k Hk) as H30.
  unfold dp_set_from. cbn [dp_base].
  rewrite (ip_decode _ k); [|reflexivity|exact Hk|exact Hl|cbn; unfold INT_MIN, INT_MAX; lia].
  cbn [ip_min ip_set_value ip_max ip_size]. rewrite Z.add_0_r.
  eexists. split; [reflexivity|].
  set (b := bits_val bits) in *. set (W := d_sub mx mn) in *. set (P := d_div W (d_ofZ (2 ^ Z.of_nat k))).
  (* the width *)
  assert (HW : B2R W = rnd64 (B2R mx - B2R mn)) by (apply d_sub_finite_inv; assumption).
  assert (HWlo : bpow radix2 (-992) <= B2R W).
  { rewrite HW. apply rnd_ge_fmt; [exact Hw|]. apply generic_format_bpow'; [typeclasses eauto|]. unfold FLT_exp; lia. }
  pose proof (bpow_gt_0 radix2 (-992)) as Hb992.
  assert (HWhi : B2R W <= (B2R mx - B2R mn) * (1 + / 9007199254740992)).
  { pose proof (rnd_rel_error (B2R mx - B2R mn)) as He. rewrite <- HW in He.
    assert (Hp : 0 < B2R mx - B2R mn) by lra. rewrite (Rabs_pos_eq (B2R mx - B2R mn)) in He by lra.
    assert (Hb : bpow radix2 (-1022) <= B2R mx - B2R mn)
      by (apply Rle_trans with (2 := Hw); apply bpow_le; lia).
    apply He in Hb. apply Rabs_le_inv in Hb. pose proof tiny_u as Ht.
    assert (/ 2 * bpow radix2 (-52) * (B2R mx - B2R mn) <= / 9007199254740992 * (B2R mx - B2R mn))
      by (apply Rmult_le_compat_r; lra). lra. }
  (* the step is exactly W / 2^k *)
  destruct (d_ofZ_exact (2 ^ Z.of_nat k)) as [F2 B2]; [rewrite Z.abs_eq; [|pose proof (pow2_pos k)]; lia|].
  rewrite IZR_pow2 in B2. pose proof (pow2R_pos k) as Hp2. pose proof (pow2_le_30 k Hk) as Hp30.
  assert (Hexact : fmt64 (B2R W / 2 ^ k)) by (apply fmt_div_pow2; [apply fmt_dbl|exact HWlo|exact Hk]).
  assert (Hge1 : 1 <= 2 ^ k) by (apply pow_R1_Rle; lra).
  assert (HPR : is_finite P = true /\ B2R P = B2R W / 2 ^ k).
  { destruct (d_div_finite W (d_ofZ (2 ^ Z.of_nat k)) Fw) as [FP BP].
    - rewrite B2. lra.
    - rewrite B2, rnd_id by exact Hexact. apply Rle_lt_trans with (2 := dbl_lt_max W).
      rewrite Rabs_pos_eq; [rewrite Rabs_pos_eq by lra|apply Rle_mult_inv_pos; lra].
      apply Rmult_le_reg_r with (2 ^ k); [exact Hp2|].
      replace (B2R W / 2 ^ k * 2 ^ k) with (B2R W) by (field; lra). nra.
    - split; [exact FP|]. unfold P. rewrite BP, B2, rnd_id by exact Hexact. reflexivity. }
  destruct HPR as [FP BP].
  (* the integer *)
  destruct (d_ofZ_exact b) as [Fb Bb]; [lia|].
  assert (Hb0 : 0 <= IZR b) by (apply IZR_le; lia).
  assert (Hb1 : IZR b <= 2 ^ k - 1).
  { rewrite <- IZR_pow2. replace (IZR (2 ^ Z.of_nat k) - 1) with (IZR (2 ^ Z.of_nat k - 1)) by (rewrite minus_IZR; ring).
    apply IZR_le; lia. }
  assert (HPpos : 0 < B2R P) by (rewrite BP; apply Rdiv_lt_0_compat; lra).
  assert (HPW : B2R P * 2 ^ k = B2R W) by (rewrite BP; field; lra).
  assert (Hprod0 : 0 <= IZR b * B2R P) by (apply Rmult_le_pos; lra).
  assert (Hprod1 : IZR b * B2R P <= B2R W).
  { rewrite <- HPW. rewrite Rmult_comm. apply Rmult_le_compat_l; lra. }
  assert (Hm : is_finite (d_mul (d_ofZ b) P) = true /\ B2R (d_mul (d_ofZ b) P) = rnd64 (IZR b * B2R P)).
  { rewrite <- Bb. apply d_mul_finite; [exact Fb|exact FP|]. rewrite Bb.
    apply Rle_lt_trans with (2 := dbl_lt_max W). rewrite (Rabs_pos_eq (B2R W)) by lra.
    rewrite Rabs_pos_eq; [apply rnd_le_fmt; [exact Hprod1|apply fmt_dbl]|].
    rewrite <- rnd_0. apply rnd_le. exact Hprod0. }
  destruct Hm as [Fm Bm]. set (Mu := d_mul (d_ofZ b) P) in *.
  assert (HMu0 : 0 <= B2R Mu) by (rewrite Bm, <- rnd_0; apply rnd_le; exact Hprod0).
  assert (HMu1 : B2R Mu <= B2R mx - B2R mn).
  { destruct (Z.eq_dec b 0) as [Eb|Eb].
    - rewrite Bm, Eb, Rmult_0_l, rnd_0. lra.
    - assert (1 <= IZR b) by (apply IZR_le; lia).
      assert (Hnorm : bpow radix2 (-1022) <= IZR b * B2R P).
      { apply Rle_trans with (B2R P); [|nra]. rewrite BP.
        apply Rmult_le_reg_r with (2 ^ k); [exact Hp2|].
        replace (B2R W / 2 ^ k * 2 ^ k) with (B2R W) by (field; lra).
        apply Rle_trans with (2 := HWlo).
        apply Rle_trans with (bpow radix2 (-1022) * bpow radix2 30).
        - apply Rmult_le_compat_l; [apply bpow_ge_0|]. change (bpow radix2 30) with 1073741824. exact Hp30.
        - rewrite <- bpow_plus. apply bpow_le. lia. }
      pose proof (rnd_rel_error (IZR b * B2R P)) as He.
      rewrite (Rabs_pos_eq (IZR b * B2R P)) in He by exact Hprod0.
      apply He in Hnorm. rewrite <- Bm in Hnorm. apply Rabs_le_inv in Hnorm. pose proof tiny_u as Ht.
      assert (Hu : / 2 * bpow radix2 (-52) * (IZR b * B2R P) <= / 9007199254740992 * (IZR b * B2R P))
        by (apply Rmult_le_compat_r; lra).
      assert (Hle : IZR b * B2R P <= B2R W * (1 - / 1073741824)).
      { rewrite <- HPW. apply Rle_trans with ((2 ^ k - 1) * B2R P); [apply Rmult_le_compat_r; lra|].
        assert (B2R P >= B2R P * (2 ^ k * / 1073741824)) by nra. nra. }
      assert (Hfin : (1 + / 9007199254740992) * (1 + / 9007199254740992) * (1 - / 1073741824) <= 1) by lra.
      assert (B2R Mu <= (1 + / 9007199254740992) * (B2R W * (1 - / 1073741824))) by nra.
      assert (B2R W * (1 - / 1073741824) <= (B2R mx - B2R mn) * (1 + / 9007199254740992) * (1 - / 1073741824)) by nra.
      nra. }
  assert (Hx : is_finite (d_add Mu mn) = true /\ B2R mn <= B2R (d_add Mu mn) <= B2R mx).
  { assert (Hlo : B2R mn <= rnd64 (B2R Mu + B2R mn)) by (apply rnd_ge_fmt; [lra|apply fmt_dbl]).
    assert (Hhi : rnd64 (B2R Mu + B2R mn) <= B2R mx) by (apply rnd_le_fmt; [lra|apply fmt_dbl]).
    destruct (d_add_finite Mu mn Fm Fmn) as [Fa Ba].
    - pose proof (dbl_lt_max mn) as L1. pose proof (dbl_lt_max mx) as L2.
      apply Rabs_def2 in L1, L2. apply Rabs_def1; lra.
    - split; [exact Fa|]. rewrite Ba. lra. }
  assert (Hget : dp_get_value FNum (dp_with_base FNum
       {| dp_base := Some (MkInt i 0 (2 ^ Z.of_nat k) (Some k)); dp_min := mn; dp_max := mx; dp_prec := P;
          dp_size := Some k |} (MkInt b 0 (2 ^ Z.of_nat k) (Some k))) = Ok (d_add Mu mn)) by reflexivity.
  split.
  - unfold dp_check. change (ip_set_value _ b) with (MkInt b 0 (2 ^ Z.of_nat k) (Some k)).
    rewrite Hget. cbn [bind]. unfold dp_check_bounds, dp_with_base. cbn [dp_min dp_max n_leb FNum].
    destruct Hx as [Fx [X1 X2]].
    apply (proj2 (d_leb_R mn _ Fmn Fx)) in X1. apply (proj2 (d_leb_R _ mx Fx Fmx)) in X2.
    rewrite X1, X2. reflexivity.
  - exists (d_add Mu mn). split; [exact Hget|]. exact Hx.
Qed.
