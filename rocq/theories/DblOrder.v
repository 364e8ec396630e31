(** The comparison operators of binary64 as an order: on non-NaN doubles [<] is the order of an
    integer key, with NaN unordered. Axiom-free. *)
From Flocq Require Import IEEE754.BinarySingleNaN.
From Coq Require Import Floats.SpecFloat.
From Verif Require Import Base Num.
Local Open Scope Z_scope.

(** Integer whose order is the order of doubles (zeros share the key 0). *)
Definition d_key (x : dbl) : Z :=
  match x with
  | B754_zero _ => 0
  | B754_nan => 0
  | B754_infinity s => if s then - 2 ^ 80 else 2 ^ 80
  | B754_finite s m e _ =>
      let k := (e + 1075) * 2 ^ 53 + Z.pos m in if s then - k else k
  end.

Lemma bounded_range m e : bounded dprec demax m e = true ->
  0 < Z.pos m < 2 ^ 53 /\ -1074 <= e <= 971.
Proof.
  unfold bounded, canonical_mantissa, fexp, emin, dprec, demax.
  intro H. apply andb_prop in H as [H1 H2]. apply Zeq_bool_eq in H1. apply Zle_bool_imp_le in H2.
  assert (Hm : Z.pos m < 2 ^ Z.pos (digits2_pos m)).
  { clear. induction m as [m IH|m IH|]; simpl digits2_pos.
    - rewrite Pos2Z.inj_succ, Z.pow_succ_r by lia. rewrite Pos2Z.inj_xI. lia.
    - rewrite Pos2Z.inj_succ, Z.pow_succ_r by lia. rewrite Pos2Z.inj_xO. lia.
    - reflexivity. }
  assert (Hd : Z.pos (digits2_pos m) <= 53) by lia.
  assert (2 ^ Z.pos (digits2_pos m) <= 2 ^ 53) by (apply Z.pow_le_mono_r; lia).
  lia.
Qed.

Lemma d_key_finite_pos m e : bounded dprec demax m e = true ->
  0 < (e + 1075) * 2 ^ 53 + Z.pos m < 2 ^ 80.
Proof. intro H; apply bounded_range in H. lia. Qed.

Lemma key_cmp m1 e1 m2 e2 :
  bounded dprec demax m1 e1 = true -> bounded dprec demax m2 e2 = true ->
  match e1 ?= e2 with Lt => Lt | Gt => Gt | Eq => Pos.compare_cont Eq m1 m2 end
  = ((e1 + 1075) * 2 ^ 53 + Z.pos m1 ?= (e2 + 1075) * 2 ^ 53 + Z.pos m2).
Proof.
  intros H1 H2. apply bounded_range in H1. apply bounded_range in H2.
  destruct (Z.compare_spec e1 e2) as [->|Hlt|Hgt].
  - change (Pos.compare_cont Eq m1 m2) with (Z.pos m1 ?= Z.pos m2).
    symmetry. destruct (Z.compare_spec (Z.pos m1) (Z.pos m2)) as [E|L|L].
    + rewrite E. apply Z.compare_refl.
    + apply Z.compare_lt_iff; lia.
    + apply Z.compare_gt_iff; lia.
  - symmetry; apply Z.compare_lt_iff; lia.
  - symmetry; apply Z.compare_gt_iff; lia.
Qed.

Lemma d_compare_key (x y : dbl) : is_nan x = false -> is_nan y = false ->
  Bcompare x y = Some (d_key x ?= d_key y).
Proof.
  unfold Bcompare.
  destruct x as [sx|sx| |sx mx ex Hx]; destruct y as [sy|sy| |sy my ey Hy];
    simpl is_nan; intros; try discriminate; simpl B2SF; unfold SFcompare, d_key;
    try (pose proof (d_key_finite_pos _ _ Hx) as Bx);
    try (pose proof (d_key_finite_pos _ _ Hy) as By);
    try (destruct sx; destruct sy; reflexivity);
    try (destruct sx; reflexivity); try (destruct sy; reflexivity).
  - destruct sy; f_equal; symmetry; cbv zeta; [apply Z.compare_gt_iff|apply Z.compare_lt_iff]; lia.
  - destruct sx, sy; f_equal; symmetry; cbv zeta;
      first [apply Z.compare_gt_iff; lia | apply Z.compare_lt_iff; lia].
  - destruct sx; f_equal; symmetry; cbv zeta; [apply Z.compare_lt_iff|apply Z.compare_gt_iff]; lia.
  - destruct sx, sy; f_equal; symmetry; cbv zeta;
      first [apply Z.compare_gt_iff; lia | apply Z.compare_lt_iff; lia].
  - destruct sx, sy; cbv zeta.
    + f_equal. rewrite Z.compare_opp.
      rewrite <- (key_cmp my ey mx ex Hy Hx).
      rewrite (Z.compare_antisym ex ey).
      replace (Pos.compare_cont Eq my mx) with (CompOpp (Pos.compare_cont Eq mx my))
        by (rewrite Pos.compare_cont_antisym; reflexivity).
      destruct (ex ?= ey); reflexivity.
    + f_equal; symmetry; apply Z.compare_lt_iff; lia.
    + f_equal; symmetry; apply Z.compare_gt_iff; lia.
    + f_equal. rewrite <- (key_cmp mx ex my ey Hx Hy). destruct (ex ?= ey); reflexivity.
Qed.

Lemma d_ltb_key x y : d_ltb x y = true <-> (is_nan x = false /\ is_nan y = false /\ d_key x < d_key y).
Proof.
  unfold d_ltb, Bltb, SFltb. change (SFcompare (B2SF x) (B2SF y)) with (Bcompare x y).
  destruct (is_nan x) eqn:Ex;
    [destruct x; try discriminate; split; [intro; discriminate|intros (H1 & H2 & _); discriminate]|].
  destruct (is_nan y) eqn:Ey.
  { destruct y; try discriminate. destruct x; simpl; (split; [intro; discriminate|intros (H1 & H2 & _); discriminate]). }
  rewrite (d_compare_key x y Ex Ey).
  destruct (Z.compare_spec (d_key x) (d_key y)); split; intros; try discriminate; auto; lia.
Qed.

Lemma d_leb_key x y : d_leb x y = true <-> (is_nan x = false /\ is_nan y = false /\ d_key x <= d_key y).
Proof.
  unfold d_leb, Bleb, SFleb. change (SFcompare (B2SF x) (B2SF y)) with (Bcompare x y).
  destruct (is_nan x) eqn:Ex;
    [destruct x; try discriminate; split; [intro; discriminate|intros (H1 & H2 & _); discriminate]|].
  destruct (is_nan y) eqn:Ey.
  { destruct y; try discriminate. destruct x; simpl; (split; [intro; discriminate|intros (H1 & H2 & _); discriminate]). }
  rewrite (d_compare_key x y Ex Ey).
  destruct (Z.compare_spec (d_key x) (d_key y)); split; intros; try discriminate; auto; lia.
Qed.

Lemma d_eqb_key x y : d_eqb x y = true <-> (is_nan x = false /\ is_nan y = false /\ d_key x = d_key y).
Proof.
  unfold d_eqb, Beqb, SFeqb. change (SFcompare (B2SF x) (B2SF y)) with (Bcompare x y).
  destruct (is_nan x) eqn:Ex;
    [destruct x; try discriminate; split; [intro; discriminate|intros (H1 & H2 & _); discriminate]|].
  destruct (is_nan y) eqn:Ey.
  { destruct y; try discriminate. destruct x; simpl; (split; [intro; discriminate|intros (H1 & H2 & _); discriminate]). }
  rewrite (d_compare_key x y Ex Ey).
  destruct (Z.compare_spec (d_key x) (d_key y)); split; intros; try discriminate; auto; lia.
Qed.

Lemma d_ltb_nkey x y : is_nan x = false -> is_nan y = false -> d_ltb x y = (d_key x <? d_key y).
Proof.
  intros Hx Hy. destruct (d_ltb x y) eqn:E.
  - apply d_ltb_key in E. symmetry; apply Z.ltb_lt; tauto.
  - symmetry. apply Z.ltb_ge. destruct (Z.lt_ge_cases (d_key x) (d_key y)); auto.
    assert (d_ltb x y = true) by (apply d_ltb_key; auto). congruence.
Qed.

Lemma d_leb_nkey x y : is_nan x = false -> is_nan y = false -> d_leb x y = (d_key x <=? d_key y).
Proof.
  intros Hx Hy. destruct (d_leb x y) eqn:E.
  - apply d_leb_key in E. symmetry; apply Z.leb_le; tauto.
  - symmetry. apply Z.leb_gt. destruct (Z.lt_ge_cases (d_key y) (d_key x)); auto.
    assert (d_leb x y = true) by (apply d_leb_key; auto). congruence.
Qed.

Lemma d_ltb_nan_l y : d_ltb d_nan y = false.
Proof. reflexivity. Qed.
Lemma d_ltb_nan_r x : d_ltb x d_nan = false.
Proof. destruct x; reflexivity. Qed.
Lemma d_ltb_irrefl x : d_ltb x x = false.
Proof. destruct (d_ltb x x) eqn:E; auto. apply d_ltb_key in E; lia. Qed.
Lemma d_ltb_trans x y z : d_ltb x y = true -> d_ltb y z = true -> d_ltb x z = true.
Proof. rewrite !d_ltb_key. intuition lia. Qed.
