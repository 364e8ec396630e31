(** Lemmas about IntParameter. *)
From Coq Require Import Btauto.
From Verif Require Import Base Num Params ParamsSpec.
Local Open Scope Z_scope.

Lemma in_int_true z : in_int z = true <-> INT_MIN <= z <= INT_MAX.
Proof. unfold in_int. rewrite andb_true_iff, !Z.leb_le. tauto. Qed.
Lemma in_int_false z : in_int z = false <-> (z < INT_MIN \/ INT_MAX < z).
Proof. unfold in_int. rewrite andb_false_iff, !Z.leb_gt. tauto. Qed.
Lemma chk_int_ok z : INT_MIN <= z <= INT_MAX -> chk_int z = Ok z.
Proof. intro H. unfold chk_int. apply in_int_true in H. rewrite H. reflexivity. Qed.
Lemma chk_int_bad z : z < INT_MIN \/ INT_MAX < z -> chk_int z = UB IntOverflow.
Proof. intro H. unfold chk_int. apply in_int_false in H. rewrite H. reflexivity. Qed.
Lemma chk_int_inv z r : chk_int z = Ok r -> r = z /\ INT_MIN <= z <= INT_MAX.
Proof.
  unfold chk_int. destruct (in_int z) eqn:E; intro H; inversion H; subst.
  split; auto. apply in_int_true; exact E.
Qed.

Lemma pow2_le (a b : nat) : (a <= b)%nat -> 2 ^ Z.of_nat a <= 2 ^ Z.of_nat b.
Proof. intro. apply Z.pow_le_mono_r; lia. Qed.
Lemma pow2_pos (a : nat) : 0 < 2 ^ Z.of_nat a.
Proof. apply Z.pow_pos_nonneg; lia. Qed.
Lemma pow2_S (a : nat) : 2 ^ Z.of_nat (S a) = 2 * 2 ^ Z.of_nat a.
Proof. rewrite Nat2Z.inj_succ, Z.pow_succ_r by lia. reflexivity. Qed.
Lemma pow2_lt_inv (a b : nat) : 2 ^ Z.of_nat a < 2 ^ Z.of_nat b -> (a < b)%nat.
Proof. intro H. destruct (Nat.lt_ge_cases a b); auto. apply pow2_le in H0. lia. Qed.

Lemma count_size_loop_spec fuel : forall target p,
  (p <= 30)%nat -> (fuel + p >= 32)%nat ->
  (p = 0%nat \/ 2 ^ Z.of_nat (p - 1) < target) ->
  (target <= 2 ^ 30 -> exists k, count_size_loop fuel target (2 ^ Z.of_nat p) p = Ok k /\
      (p <= k <= 30)%nat /\ target <= 2 ^ Z.of_nat k /\ (k = 0%nat \/ 2 ^ Z.of_nat (k - 1) < target)) /\
  (2 ^ 30 < target -> count_size_loop fuel target (2 ^ Z.of_nat p) p = UB IntOverflow).
Proof.
  induction fuel as [|f IH]; intros target p Hp Hf Hlow; [lia|].
  cbn [count_size_loop]. rewrite Z.gtb_ltb.
  destruct (Z.ltb_spec (2 ^ Z.of_nat p) target) as [Hlt|Hge].
  - destruct (Nat.eq_dec p 30) as [->|Hne].
    + split; intro Ht; [change (2 ^ Z.of_nat 30) with (2 ^ 30) in Hlt; lia|].
      rewrite chk_int_bad; [reflexivity|]. right. unfold INT_MAX. cbn. lia.
    + assert (H30 : 2 ^ Z.of_nat (S p) <= 2 ^ 30).
      { change (2 ^ 30) with (2 ^ Z.of_nat 30). apply pow2_le; lia. }
      pose proof (pow2_pos (S p)).
      assert (Hc : chk_int (2 ^ Z.of_nat p * 2) = Ok (2 ^ Z.of_nat (S p))).
      { rewrite pow2_S. rewrite pow2_S in H30, H. rewrite Z.mul_comm.
        apply chk_int_ok. unfold INT_MIN, INT_MAX. lia. }
      rewrite Hc; cbn [bind].
      destruct (IH target (S p)) as [IH1 IH2]; [lia|lia| |].
      { right. rewrite Nat.sub_succ, Nat.sub_0_r. exact Hlt. }
      split; [|exact IH2]. intro Ht. destruct (IH1 Ht) as (k & Hk & Hr & Hrest).
      exists k. split; [exact Hk|]. split; [lia|exact Hrest].
  - split.
    + intros _. exists p. split; [reflexivity|]. split; [lia|]. split; [lia|exact Hlow].
    + intro Ht. assert (2 ^ Z.of_nat p <= 2 ^ Z.of_nat 30) by (apply pow2_le; lia).
      change (2 ^ Z.of_nat 30) with (2 ^ 30) in *. lia.
Qed.

Lemma least_from_strict d k :
  d <= 2 ^ Z.of_nat k -> (k = 0%nat \/ 2 ^ Z.of_nat (k - 1) < d) -> least_pow2_exp d k.
Proof.
  intros H1 H2. split; [exact H1|]. intros j Hj.
  destruct H2 as [->|H2]; [lia|]. assert (2 ^ Z.of_nat (k - 1) < 2 ^ Z.of_nat j) by lia.
  apply pow2_lt_inv in H. lia.
Qed.

Lemma count_size_ok mn mx : INT_MIN <= mx - mn <= 2 ^ 30 ->
  exists k, count_chromosome_size mn mx = Ok k /\ (k <= 30)%nat /\ least_pow2_exp (mx - mn) k.
Proof.
  intros [H1 H2]. unfold count_chromosome_size.
  rewrite chk_int_ok by (unfold INT_MAX; lia). cbn [bind].
  destruct (count_size_loop_spec 33 (mx - mn) 0) as [HA _]; try lia.
  destruct (HA H2) as (k & Hk & Hr & Hu & Hl).
  exists k. change (2 ^ Z.of_nat 0) with 1 in Hk. split; [exact Hk|]. split; [lia|].
  apply least_from_strict; assumption.
Qed.

Lemma count_size_ub mn mx : ~ (INT_MIN <= mx - mn <= 2 ^ 30) ->
  count_chromosome_size mn mx = UB IntOverflow.
Proof.
  intro H. unfold count_chromosome_size.
  destruct (in_int (mx - mn)) eqn:E.
  - apply in_int_true in E. rewrite chk_int_ok by exact E. cbn [bind].
    destruct (count_size_loop_spec 33 (mx - mn) 0) as [_ HB]; try lia.
    change (2 ^ Z.of_nat 0) with 1 in HB. apply HB. lia.
  - apply in_int_false in E. rewrite chk_int_bad by lia. reflexivity.
Qed.

Lemma ip_make_inv v mn mx p : ip_make v mn mx = Ok p ->
  INT_MIN <= mx - mn <= 2 ^ 30 /\
  exists k, p = {| ip_value := v; ip_min := mn; ip_max := mx; ip_size := Some k |} /\
            (k <= 30)%nat /\ least_pow2_exp (mx - mn) k.
Proof.
  unfold ip_make. intro H. apply bind_ok in H as (k & Hk & H). inversion H; subst; clear H.
  assert (Hd : INT_MIN <= mx - mn <= 2 ^ 30).
  { destruct (Z_le_dec INT_MIN (mx - mn)); [destruct (Z_le_dec (mx - mn) (2 ^ 30)); [lia|]|];
      rewrite count_size_ub in Hk by lia; discriminate. }
  split; [exact Hd|]. destruct (count_size_ok mn mx Hd) as (k' & Hk' & Hl).
  rewrite Hk in Hk'. inversion Hk'; subst. exists k'. auto.
Qed.

(** ** Bits *)

Fixpoint z_bits (n : nat) (v : Z) : list bool :=
  match n with O => [] | S m => Z.odd v :: z_bits m (Z.div2 v) end.

Lemma z_bits_length n v : length (z_bits n v) = n.
Proof. revert v; induction n; simpl; auto. Qed.

Lemma z_bits_val n v : bits_val (z_bits n v) = v mod 2 ^ Z.of_nat n.
Proof.
  revert v; induction n as [|n IH]; intro v; cbn [z_bits bits_val].
  - change (2 ^ Z.of_nat 0) with 1. rewrite Z.mod_1_r. reflexivity.
  - rewrite IH, pow2_S. pose proof (pow2_pos n).
    rewrite Z.rem_mul_r by lia. rewrite <- Z.div2_div, Zmod_odd. destruct (Z.odd v); lia.
Qed.

Lemma bits_from_int_spec old : forall b v,
  (b + length old <= 32)%nat ->
  bits_from_int old b v = Ok (z_bits (length old) (Z.shiftr v (Z.of_nat b))).
Proof.
  induction old as [|x r IH]; intros b v Hb; cbn [bits_from_int z_bits length]; [reflexivity|].
  simpl length in Hb. destruct (Nat.ltb_spec b 32) as [H|H]; [|lia].
  rewrite IH by lia. cbn [bind]. f_equal. f_equal.
  - rewrite <- Z.bit0_odd, Z.shiftr_spec by lia. reflexivity.
  - f_equal. rewrite Z.div2_spec, Z.shiftr_shiftr by lia. f_equal. lia.
Qed.

Lemma bits_val_z_bits bits : z_bits (length bits) (bits_val bits) = bits.
Proof.
  apply bits_val_inj; [apply z_bits_length|]. rewrite z_bits_val.
  apply Z.mod_small. apply bits_val_range.
Qed.

Lemma int_from_bits_spec bits : forall b acc,
  (b + length bits <= 31)%nat -> 0 <= acc < 2 ^ Z.of_nat b ->
  int_from_bits bits b acc = Ok (acc + 2 ^ Z.of_nat b * bits_val bits).
Proof.
  induction bits as [|g r IH]; intros b acc Hb Hacc; cbn [int_from_bits bits_val].
  - f_equal. lia.
  - simpl length in Hb. destruct (Nat.ltb_spec b 31) as [H|H]; [|lia].
    rewrite Z.shiftl_1_l.
    pose proof (pow2_pos b). 
    assert (Htest : Z.testbit acc (Z.of_nat b) = false).
    { destruct (Z.eq_dec acc 0) as [->|Hnz]; [apply Z.bits_0|].
      apply Z.bits_above_log2; [lia|]. apply Z.log2_lt_pow2; lia. }
    assert (Hland : Z.land acc (2 ^ Z.of_nat b) = 0).
    { apply Z.bits_inj_0. intro i. rewrite Z.land_spec.
      destruct (Z.lt_ge_cases i 0); [rewrite Z.testbit_neg_r by lia; reflexivity|].
      rewrite Z.pow2_bits_eqb by lia. destruct (Z.eqb_spec (Z.of_nat b) i); [subst; rewrite Htest; reflexivity|btauto]. }
    destruct g.
    + assert (Hlor : Z.lor acc (2 ^ Z.of_nat b) = acc + 2 ^ Z.of_nat b).
      { rewrite <- Z.lxor_lor by exact Hland. rewrite <- Z.add_nocarry_lxor by exact Hland. reflexivity. }
      rewrite Hlor. rewrite IH; [|lia|rewrite pow2_S; lia]. f_equal. rewrite pow2_S. ring.
    + assert (Hld : Z.ldiff acc (2 ^ Z.of_nat b) = acc).
      { apply Z.bits_inj'. intros i Hi. rewrite Z.ldiff_spec, Z.pow2_bits_eqb by lia.
        destruct (Z.eqb_spec (Z.of_nat b) i); [subst; rewrite Htest; reflexivity|btauto]. }
      rewrite Hld. rewrite IH; [|lia|rewrite pow2_S; lia]. f_equal. rewrite pow2_S. ring.
Qed.

Lemma int_from_bits_0 bits : (length bits <= 31)%nat -> int_from_bits bits 0 0 = Ok (bits_val bits).
Proof.
  intro H. rewrite int_from_bits_spec; [|lia|simpl; lia].
  f_equal. change (2 ^ Z.of_nat 0) with 1. lia.
Qed.

(** ** Encoding and decoding *)

Lemma ip_encode p k old : ip_size p = Some k -> (k <= 30)%nat -> length old = k ->
  INT_MIN <= ip_value p - ip_min p <= INT_MAX ->
  ip_set_chromosome p old = Ok (z_bits k (ip_value p - ip_min p)).
Proof.
  intros Hs Hk Hl Hd. unfold ip_set_chromosome, cs_check. rewrite Hs, Hl, Nat.eqb_refl. cbn [bind].
  rewrite chk_int_ok by exact Hd. cbn [bind]. rewrite bits_from_int_spec by lia.
  rewrite Hl. reflexivity.
Qed.

Lemma ip_decode p k bits : ip_size p = Some k -> (k <= 30)%nat -> length bits = k ->
  INT_MIN <= bits_val bits + ip_min p <= INT_MAX ->
  ip_set_from p bits = (ip_set_value p (bits_val bits + ip_min p), Ok tt).
Proof.
  intros Hs Hk Hl Hd. unfold ip_set_from, cs_check. rewrite Hs, Hl, Nat.eqb_refl.
  rewrite int_from_bits_0 by lia. cbn [bind]. rewrite chk_int_ok by exact Hd. reflexivity.
Qed.

Lemma ip_wrong_size p k bits : ip_size p = Some k -> length bits <> k ->
  ip_set_from p bits = (p, Throw InvalidArgument) /\ ip_set_chromosome p bits = Throw InvalidArgument.
Proof.
  intros Hs Hl. unfold ip_set_from, ip_set_chromosome, cs_check. rewrite Hs.
  apply Nat.eqb_neq in Hl. rewrite Hl. auto.
Qed.

(** ** The property-level lemmas *)

Lemma int_roundtrip v w mn mx p q k old :
  ip_make v mn mx = Ok p -> ip_make w mn mx = Ok q ->
  INT_MIN <= mn -> mx <= INT_MAX -> mn <= v <= mx ->
  ip_size p = Some k -> length old = k ->
  exists bits q',
    ip_set_chromosome p old = Ok bits /\ length bits = k /\
    ip_set_from q bits = (q', Ok tt) /\ ip_min q' = mn /\ ip_max q' = mx /\
    (ip_value q' = v <-> v < mn + 2 ^ Z.of_nat k) /\
    (ip_value q' = v <-> ~ (v = mx /\ mx - mn = 2 ^ Z.of_nat k)) /\
    (v = mx -> mx - mn = 2 ^ Z.of_nat k -> ip_value q' = mn).
Proof.
  intros Hp Hq Hmn Hmx Hv Hs Hl.
  apply ip_make_inv in Hp as (Hd & kp & -> & Hk30 & Hleast).
  apply ip_make_inv in Hq as (_ & kq & -> & _ & Hleast').
  assert (kq = kp) by (eapply least_pow2_exp_unique; eauto). subst kq.
  cbn in Hs. inversion Hs; subst kp; clear Hs.
  exists (z_bits k (v - mn)).
  assert (Hval : bits_val (z_bits k (v - mn)) = (v - mn) mod 2 ^ Z.of_nat k) by apply z_bits_val.
  pose proof (pow2_pos k) as Hpos.
  assert (Hle : v - mn <= 2 ^ Z.of_nat k) by (destruct Hleast; lia).
  assert (Hmodcase : (v - mn < 2 ^ Z.of_nat k /\ (v - mn) mod 2 ^ Z.of_nat k = v - mn) \/
                     (v - mn = 2 ^ Z.of_nat k /\ (v - mn) mod 2 ^ Z.of_nat k = 0)).
  { destruct (Z.lt_ge_cases (v - mn) (2 ^ Z.of_nat k)).
    - left; split; auto. apply Z.mod_small; lia.
    - right. assert (v - mn = 2 ^ Z.of_nat k) by lia. split; auto. rewrite H0. apply Z.mod_same; lia. }
  eexists. split.
  { rewrite (ip_encode _ k); cbn; auto. unfold INT_MIN, INT_MAX; lia. }
  split; [apply z_bits_length|]. split.
  { rewrite (ip_decode _ k); cbn; auto; [apply z_bits_length|]. rewrite Hval. lia. }
  cbn [ip_value ip_min ip_max ip_set_value]. rewrite Hval. destruct Hleast as [Hup _].
  repeat split; intros; lia.
Qed.

Lemma int_decode v mn mx p k bits :
  ip_make v mn mx = Ok p -> INT_MIN <= mn -> ip_size p = Some k -> length bits = k ->
  (mn + bits_val bits <= INT_MAX ->
   exists p', ip_set_from p bits = (p', Ok tt) /\
     ip_value p' = mn + bits_val bits /\ ip_min p' = mn /\ ip_max p' = mx /\ ip_size p' = Some k /\
     mn <= ip_value p' <= mn + 2 ^ Z.of_nat k - 1 /\
     (ip_check p' = true <-> ip_value p' <= mx) /\
     (forall old, length old = k -> ip_set_chromosome p' old = Ok bits)) /\
  (INT_MAX < mn + bits_val bits -> ip_set_from p bits = (p, UB IntOverflow)).
Proof.
  intros Hp Hmn Hs Hl.
  apply ip_make_inv in Hp as (Hd & kp & -> & Hk30 & Hleast).
  cbn in Hs. inversion Hs; subst kp; clear Hs.
  pose proof (bits_val_range bits) as Hr. rewrite Hl in Hr.
  split; intro Hfit.
  - eexists. split.
    { rewrite (ip_decode _ k); cbn; auto. lia. }
    cbn [ip_value ip_min ip_max ip_size ip_set_value].
    split; [lia|]. split; [reflexivity|]. split; [reflexivity|]. split; [reflexivity|].
    split; [lia|]. split.
    { unfold ip_check; cbn [ip_value ip_min ip_max ip_set_value].
      rewrite andb_true_iff, !Z.leb_le. lia. }
    intros old Hold. rewrite (ip_encode _ k); cbn; auto.
    + f_equal. replace (bits_val bits + mn - mn) with (bits_val bits) by lia.
      rewrite <- Hl. apply bits_val_z_bits.
    + assert (2 ^ Z.of_nat k <= 2 ^ Z.of_nat 30) by (apply pow2_le; lia).
      change (2 ^ Z.of_nat 30) with 1073741824 in H. unfold INT_MIN, INT_MAX. lia.
  - unfold ip_set_from, cs_check. cbn [ip_size]. rewrite Hl, Nat.eqb_refl.
    rewrite int_from_bits_0 by lia. cbn [bind ip_min]. rewrite chk_int_bad by lia. reflexivity.
Qed.
