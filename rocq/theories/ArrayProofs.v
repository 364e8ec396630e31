(** Lemmas about DoubleParametersArray. *)
From Coq Require Import Reals Psatz.
From Flocq Require Import Core.Zaux Core.Raux.
From Verif Require Import Base Num Params ParamsSpec IntProofs DoubleProofs.

Section AnyArithmetic.
Context (N : Num).

Lemma set_value_shape s v s' : dp_set_value N s v = Ok s' ->
  exists b i, dp_base N s = Some b /\ s' = dp_with_base N s (ip_set_value b i).
Proof.
  unfold dp_set_value. intro H. apply bind_ok in H as (i & _ & H).
  destruct (dp_base N s) as [b|]; inversion H; subst. eauto.
Qed.

Lemma set_value_with s b i w : dp_base N s = Some b ->
  dp_set_value N (dp_with_base N s (ip_set_value b i)) w = dp_set_value N s w.
Proof.
  intro Hb. unfold dp_set_value, dp_with_base. cbn. rewrite Hb.
  destruct (dp_quantise N (dp_min N s) (dp_prec N s) w); reflexivity.
Qed.

Lemma set_chromosome_length s old c : dp_set_chromosome N s old = Ok c -> length c = length old.
Proof.
  unfold dp_set_chromosome. destruct (dp_base N s) as [b|]; [|discriminate].
  unfold ip_set_chromosome. intro H. apply bind_ok in H as ([] & _ & H). apply bind_ok in H as (d & _ & H).
  revert c H. generalize 0%nat. induction old as [|x r IH]; intros n c; cbn [bits_from_int].
  - intro H; inversion H; reflexivity.
  - destruct (Nat.ltb n 32); [|discriminate]. intro H. apply bind_ok in H as (t & Ht & H).
    inversion H; subst; simpl. f_equal. eapply IH; eauto.
Qed.

Lemma skipn_add {A} a b (l : list A) : skipn a (skipn b l) = skipn (b + a) l.
Proof. revert l; induction b as [|b IH]; intros [|x l]; simpl; auto. destruct a; reflexivity. Qed.
Lemma slice_S {A} k i (l : list A) : slice k (S i) l = slice k i (skipn k l).
Proof. unfold slice. rewrite skipn_add. reflexivity. Qed.
Lemma slice_app_0 {A} k (c cs : list A) : length c = k -> slice k 0 (c ++ cs) = c.
Proof. intro H. unfold slice. simpl. rewrite <- H, firstn_app, Nat.sub_diag, firstn_all. simpl. apply app_nil_r. Qed.
Lemma slice_app_S {A} k i (c cs : list A) : length c = k -> slice k (S i) (c ++ cs) = slice k i cs.
Proof.
  intro H. rewrite slice_S. f_equal. rewrite <- H, skipn_app, Nat.sub_diag, skipn_all. reflexivity.
Qed.

Lemma encode_loop_spec k vs : forall s rest c,
  length rest = (k * length vs)%nat ->
  da_encode_loop N s k vs rest = Ok c ->
  length c = length rest /\
  forall i v, nth_error vs i = Some v ->
    exists s', dp_set_value N s v = Ok s' /\ dp_set_chromosome N s' (slice k i rest) = Ok (slice k i c).
Proof.
  induction vs as [|v vs IH]; intros s rest c Hl H; cbn [da_encode_loop] in H.
  - inversion H; subst. split; [reflexivity|]. intros [|i] w Hw; discriminate.
  - apply bind_ok in H as (s1 & Hs1 & H). apply bind_ok in H as (c1 & Hc1 & H).
    apply bind_ok in H as (c2 & Hc2 & H). inversion H; subst; clear H.
    simpl length in Hl. rewrite Nat.mul_succ_r in Hl.
    assert (Hfst : length (firstn k rest) = k) by (rewrite firstn_length; lia).
    assert (Hc1l : length c1 = k) by (rewrite (set_chromosome_length _ _ _ Hc1); exact Hfst).
    assert (Hsk : length (skipn k rest) = (k * length vs)%nat) by (rewrite skipn_length; lia).
    destruct (IH s1 (skipn k rest) c2 Hsk Hc2) as [IHl IHn].
    split; [rewrite app_length, IHl, Hsk, Hc1l; lia|].
    intros [|i] w Hw; cbn [nth_error] in Hw.
    + injection Hw as <-. exists s1. split; [exact Hs1|].
      rewrite slice_app_0 by exact Hc1l. unfold slice; simpl. exact Hc1.
    + destruct (IHn i w Hw) as (s' & Hs' & Hcs). exists s'. split.
      * destruct (set_value_shape _ _ _ Hs1) as (b & j & Hb & ->).
        rewrite (set_value_with s b j w Hb) in Hs'. exact Hs'.
      * rewrite slice_S, slice_app_S by exact Hc1l. exact Hcs.
Qed.

Lemma set_from_shape s bits s' : dp_set_from N s bits = (s', Ok tt) ->
  exists b i, dp_base N s = Some b /\ s' = dp_with_base N s (ip_set_value b i).
Proof.
  unfold dp_set_from. destruct (dp_base N s) as [b|]; [|discriminate].
  destruct (ip_set_from b bits) as [b' o] eqn:E. intro H; inversion H; subst.
  unfold ip_set_from in E. destruct (cs_check (ip_size b) (length bits)); try discriminate.
  destruct (let! r := int_from_bits bits 0 0 in chk_int (r + ip_min b)) as [v| |]; inversion E; subst. eauto.
Qed.

Lemma set_from_with s b i bits s' : dp_base N s = Some b ->
  dp_set_from N (dp_with_base N s (ip_set_value b i)) bits = (s', Ok tt) ->
  dp_set_from N s bits = (s', Ok tt).
Proof.
  intros Hb. unfold dp_set_from, dp_with_base. cbn [dp_base]. rewrite Hb.
  unfold ip_set_from. cbn [ip_size ip_min ip_set_value].
  destruct (cs_check (ip_size b) (length bits)); try discriminate.
  destruct (let! r := int_from_bits bits 0 0 in chk_int (r + ip_min b)) as [v| |]; try discriminate.
  intro H; inversion H; subst. reflexivity.
Qed.

Lemma decode_loop_spec k n : forall s bits vs,
  da_decode_loop N s k n bits = Ok vs ->
  length vs = n /\
  forall i, (i < n)%nat ->
    exists s' x, dp_set_from N s (slice k i bits) = (s', Ok tt) /\ dp_get_value N s' = Ok x /\
                 nth_error vs i = Some x.
Proof.
  induction n as [|n IH]; intros s bits vs H; cbn [da_decode_loop] in H.
  - inversion H; subst. split; [reflexivity|]. intros; lia.
  - destruct (dp_set_from N s (firstn k bits)) as [s1 o] eqn:E.
    apply bind_ok in H as ([] & Ho & H). subst o. apply bind_ok in H as (x & Hx & H).
    apply bind_ok in H as (r & Hr & H). inversion H; subst; clear H.
    destruct (IH s1 (skipn k bits) r Hr) as [IHl IHn]. split; [simpl; congruence|].
    intros [|i] Hi.
    + exists s1, x. unfold slice; simpl. auto.
    + destruct (IHn i ltac:(lia)) as (s' & y & Hs' & Hy & Hn). exists s', y.
      split; [|split; [exact Hy|exact Hn]].
      destruct (set_from_shape _ _ _ E) as (b & j & Hb & ->).
      rewrite slice_S. eapply set_from_with; eauto.
Qed.

Lemma da_encode_spec a k old c :
  dp_size N (da_sample N a) = Some k -> da_size N a = Some (k * length (da_values N a))%nat ->
  da_set_chromosome N a old = Ok c ->
  length old = (k * length (da_values N a))%nat /\ length c = length old /\
  forall i v, nth_error (da_values N a) i = Some v ->
    exists s', dp_set_value N (da_sample N a) v = Ok s' /\
               dp_set_chromosome N s' (slice k i old) = Ok (slice k i c).
Proof.
  intros Hk Hs H. unfold da_set_chromosome, cs_check in H. rewrite Hs in H.
  destruct (Nat.eqb_spec (length old) (k * length (da_values N a))) as [E|E]; [|discriminate].
  rewrite Hk in H. cbn in H. split; [exact E|]. apply encode_loop_spec; assumption.
Qed.

Lemma da_decode_spec a k bits a' :
  dp_size N (da_sample N a) = Some k -> da_size N a = Some (k * length (da_values N a))%nat ->
  da_set_from N a bits = (a', Ok tt) ->
  length bits = (k * length (da_values N a))%nat /\
  length (da_values N a') = length (da_values N a) /\ da_sample N a' = da_sample N a /\ da_size N a' = da_size N a /\
  forall i, (i < length (da_values N a))%nat ->
    exists s' x, dp_set_from N (da_sample N a) (slice k i bits) = (s', Ok tt) /\
                 dp_get_value N s' = Ok x /\ nth_error (da_values N a') i = Some x.
Proof.
  intros Hk Hs H. unfold da_set_from, cs_check in H. rewrite Hs in H.
  destruct (Nat.eqb_spec (length bits) (k * length (da_values N a))) as [E|E]; [|discriminate].
  rewrite Hk in H. cbn [bind cs_get] in H.
  destruct (da_decode_loop N (da_sample N a) k (length (da_values N a)) bits) as [vs| |] eqn:D; inversion H; subst.
  apply decode_loop_spec in D as [D1 D2].
  split; [exact E|]. cbn [da_values da_sample da_size da_with_values].
  split; [exact D1|]. split; [reflexivity|]. split; [reflexivity|]. exact D2.
Qed.

Lemma da_wrong_size a m bits : da_size N a = Some m -> length bits <> m ->
  da_set_from N a bits = (a, Throw InvalidArgument) /\ da_set_chromosome N a bits = Throw InvalidArgument.
Proof.
  intros Hs Hl. apply Nat.eqb_neq in Hl. unfold da_set_from, da_set_chromosome, cs_check.
  rewrite Hs, Hl. auto.
Qed.

Lemma da_set_values_wrong a vs : length vs <> length (da_values N a) ->
  da_set_values N a vs = (a, Throw InvalidArgument).
Proof. intro H. unfold da_set_values. apply Nat.eqb_neq in H. rewrite H. reflexivity. Qed.

Lemma da_set_values_stores a vs : length vs = length (da_values N a) ->
  da_values N (fst (da_set_values N a vs)) = vs.
Proof.
  intro H. unfold da_set_values. rewrite H, Nat.eqb_refl. cbn [negb].
  destruct (da_check N (da_with_values N a vs)) as [[]| |]; reflexivity.
Qed.
End AnyArithmetic.

(** ** Exact arithmetic *)
Open Scope R_scope.

Definition da_good (a : DoubleArr RNum) (mn mx : R) (k : nat) : Prop :=
  dp_good (da_sample _ a) mn mx k /\ da_size _ a = Some (k * length (da_values _ a))%nat.

Lemma da_make_good mn mx p n : mn < mx -> 0 < p -> (Zceil ((mx - mn) / p) <= 2 ^ 30)%Z ->
  exists a k, da_make RNum mn mx p n = Ok a /\ da_good a mn mx k /\ length (da_values _ a) = n /\
    least_pow2_exp (Zceil ((mx - mn) / p)) k /\ dp_prec _ (da_sample _ a) <= p.
Proof.
  intros Hlt Hp HM. unfold da_make.
  destruct (dp_make_ok mn mn mx p Hlt ltac:(lra) Hp HM) as (d & k & Hd & Hl & Hg & Hpr & _).
  rewrite Hd. cbn [bind]. pose proof Hg as (_ & _ & _ & Hs & _). rewrite Hs. cbn [cs_get bind].
  eexists. exists k. split; [reflexivity|]. unfold da_good. cbn [da_sample da_size da_values].
  rewrite repeat_length. auto.
Qed.

Lemma decode_loop_total k mn mx n : forall s bits, dp_good s mn mx k -> length bits = (k * n)%nat ->
  exists vs, da_decode_loop RNum s k n bits = Ok vs /\ length vs = n /\
    da_encode_loop RNum s k vs bits = Ok bits /\
    (forall old, length old = (k * n)%nat -> da_encode_loop RNum s k vs old = Ok bits) /\
    Forall (fun v => mn <= v < mx) vs.
Proof.
  induction n as [|n IH]; intros s bits Hg Hl; cbn [da_decode_loop].
  - exists []. rewrite Nat.mul_0_r in Hl. destruct bits; [|discriminate].
    split; [reflexivity|]. split; [reflexivity|]. split; [reflexivity|]. split; [|constructor].
    intros [|o old] Ho; [reflexivity|rewrite Nat.mul_0_r in Ho; discriminate].
  - rewrite Nat.mul_succ_r in Hl.
    assert (Hfl : length (firstn k bits) = k) by (rewrite firstn_length; lia).
    assert (Hsl : length (skipn k bits) = (k * n)%nat) by (rewrite skipn_length; lia).
    destruct (dp_decode s mn mx k (firstn k bits) Hg Hfl) as (s1 & Hs1 & Hg1 & Hp1 & Hb1 & Hv1 & _ & Hr1).
    rewrite Hs1. cbn [bind]. rewrite Hv1. cbn [bind].
    destruct (IH s1 (skipn k bits) Hg1 Hsl) as (vs & Hvs & Hvl & _ & Henc & Hall).
    rewrite Hvs. cbn [bind]. eexists. split; [reflexivity|]. split; [simpl; f_equal; exact Hvl|].
    assert (Hgen : forall old, length old = (k * S n)%nat ->
       da_encode_loop RNum s k (mn + IZR (bits_val (firstn k bits)) * dp_prec RNum s :: vs) old = Ok bits).
    { intros old Ho. rewrite Nat.mul_succ_r in Ho. cbn [da_encode_loop].
      pose proof (bits_val_range (firstn k bits)) as Hbr. rewrite Hfl in Hbr.
      rewrite (dp_set_value_grid s mn mx k) by (auto; lia). cbn [bind].
      rewrite (dp_encode s mn mx k _ _ Hg); [|rewrite firstn_length; lia|lia]. cbn [bind].
      assert (He : dp_with_base RNum s (MkInt (bits_val (firstn k bits)) 0 (2 ^ Z.of_nat k) (Some k)) = s1).
      { destruct (dp_decode s mn mx k (firstn k bits) Hg Hfl) as (s2 & Hs2 & _).
        unfold dp_set_from in Hs1. destruct Hg as (_ & _ & _ & _ & Hk & _ & i & Hb). rewrite Hb in Hs1.
        rewrite (ip_decode _ k) in Hs1; [|reflexivity|exact Hk|exact Hfl|cbn; pose proof (pow2_30 k Hk); unfold INT_MIN, INT_MAX; lia].
        cbn [ip_min ip_set_value] in Hs1. rewrite Z.add_0_r in Hs1. inversion Hs1. reflexivity. }
      rewrite He, Henc by (rewrite skipn_length; lia). cbn [bind]. f_equal.
      pose proof (bits_val_z_bits (firstn k bits)) as Hz. rewrite Hfl in Hz. rewrite Hz.
      apply firstn_skipn. }
    split; [apply Hgen; lia|]. split; [exact Hgen|]. constructor; [exact Hr1|exact Hall].
Qed.

Lemma da_roundtrip a mn mx k bits : da_good a mn mx k -> length bits = (k * length (da_values _ a))%nat ->
  exists a', da_set_from RNum a bits = (a', Ok tt) /\ da_good a' mn mx k /\
    length (da_values _ a') = length (da_values _ a) /\
    (forall old, length old = length bits -> da_set_chromosome RNum a' old = Ok bits) /\
    Forall (fun v => mn <= v < mx) (da_values _ a').
Proof.
  intros [Hg Hs] Hl. destruct (decode_loop_total k mn mx _ _ bits Hg Hl) as (vs & Hvs & Hvl & _ & Henc & Hall).
  unfold da_set_from, cs_check. rewrite Hs, Hl, Nat.eqb_refl. cbn [bind].
  pose proof Hg as (_ & _ & _ & Hds & _). rewrite Hds. cbn [cs_get bind]. rewrite Hvs.
  eexists. split; [reflexivity|]. unfold da_good. cbn [da_sample da_size da_values da_with_values].
  rewrite Hvl. split; [split; assumption|]. split; [reflexivity|]. split; [|exact Hall].
  intros old Ho. unfold da_set_chromosome, cs_check. cbn [da_size da_with_values da_sample da_values].
  rewrite Hs, Ho, Nat.eqb_refl. cbn [bind]. rewrite Hds. cbn [cs_get bind]. apply Henc. lia.
Qed.

(** *** SetValues *)

Lemma Ztrunc_in x (n : Z) : (0 <= n)%Z -> ((0 <= Ztrunc x <= n)%Z <-> -1 < x < IZR n + 1).
Proof.
  intro Hn. destruct (Rle_or_lt 0 x) as [H|H].
  - rewrite Ztrunc_floor by exact H. split.
    + intros [_ H2]. split; [lra|]. apply Rlt_le_trans with (IZR (Zfloor x) + 1); [apply Zfloor_ub|].
      apply IZR_le in H2. lra.
    + intros [_ H2]. split; [apply Zfloor_lub; exact H|].
      assert (Zfloor x < n + 1)%Z; [|lia]. apply lt_IZR. rewrite plus_IZR.
      apply Rle_lt_trans with x; [apply Zfloor_lb|exact H2].
  - rewrite Ztrunc_ceil by lra. split.
    + intros [H1 _]. split; [|apply IZR_le in Hn; lra].
      apply IZR_le in H1. pose proof (Zceil_lb x). lra.
    + intros [H1 _]. split.
      * assert (-1 < Zceil x)%Z; [|lia]. apply lt_IZR. apply Rlt_le_trans with x; [exact H1|apply Zceil_ub].
      * assert (Zceil x <= 0)%Z; [|lia]. apply Zceil_glb. lra.
Qed.

(** the per-element test made by CheckConstraints *)
Lemma element_check s mn mx k v : dp_good s mn mx k ->
  match (let! s' := dp_set_value RNum s v in let! b := dp_check RNum s' in Ok (s', b)) with
  | Ok (s', b) => dp_good s' mn mx k /\ dp_prec _ s' = dp_prec _ s /\
                  (b = true <-> mn - dp_prec _ s < v < mx + dp_prec _ s)
  | Throw _ => False
  | UB u => in_int (Ztrunc ((v - mn) / dp_prec _ s)) = false /\ ~ (mn - dp_prec _ s < v < mx + dp_prec _ s)
  end.
Proof.
  intro Hg. pose proof (dp_prec_pos _ _ _ _ Hg) as Hpr. pose proof Hg as (Hmn & Hmx & Hprec & Hs & Hk & Hlt & i & Hb).
  pose proof (pow2R_pos k) as Hp2. pose proof (pow2_30 k Hk) as H30. pose proof (pow2_pos k) as Hpz.
  assert (Hw : dp_prec _ s * 2 ^ k = mx - mn) by (rewrite Hprec; field; lra).
  assert (Hq : (v - mn) / dp_prec _ s * dp_prec _ s = v - mn) by (field; lra).
  assert (Hiff : (0 <= Ztrunc ((v - mn) / dp_prec _ s) <= 2 ^ Z.of_nat k)%Z <->
                 mn - dp_prec _ s < v < mx + dp_prec _ s).
  { rewrite Ztrunc_in by lia. rewrite IZR_pow2. split; intros [H1 H2].
    - apply (Rmult_lt_compat_r (dp_prec _ s)) in H1; [|exact Hpr].
      apply (Rmult_lt_compat_r (dp_prec _ s)) in H2; [|exact Hpr]. rewrite Hq in *. lra.
    - split; apply (Rmult_lt_reg_r (dp_prec _ s)); try exact Hpr; rewrite Hq; lra. }
  unfold dp_set_value, dp_quantise. cbn [n_toint n_div n_sub RNum]. rewrite Hmn.
  destruct (in_int (Ztrunc ((v - mn) / dp_prec RNum s))) eqn:E; cbn [bind].
  - rewrite Hb. cbn [bind]. unfold dp_check, dp_get_value, dp_with_base, dp_value_of.
    cbn [dp_base bind dp_min dp_max dp_prec ip_value ip_set_value n_add n_mul n_ofZ RNum].
    split; [apply dp_good_with; exact Hg|]. split; [reflexivity|].
    rewrite <- Hiff. unfold dp_check_bounds. cbn [n_leb RNum]. rewrite Hmn, Hmx, andb_true_iff, !R_leb_true.
    set (z := Ztrunc ((v - mn) / dp_prec RNum s)) in *. split.
    + intros [H1 H2]. split.
      * apply le_IZR. apply Rmult_le_reg_r with (dp_prec RNum s); [exact Hpr|]. lra.
      * apply le_IZR. rewrite IZR_pow2. apply Rmult_le_reg_r with (dp_prec RNum s); [exact Hpr|]. lra.
    + intros [H1 H2]. apply IZR_le in H1, H2. rewrite IZR_pow2 in H2.
      assert (0 * dp_prec RNum s <= IZR z * dp_prec RNum s) by (apply Rmult_le_compat_r; lra).
      assert (IZR z * dp_prec RNum s <= 2 ^ k * dp_prec RNum s) by (apply Rmult_le_compat_r; lra).
      lra.
  - split; [reflexivity|]. rewrite <- Hiff. apply in_int_false in E. unfold INT_MIN, INT_MAX in E. lia.
Qed.

Lemma check_loop_spec mn mx k vs : forall s, dp_good s mn mx k ->
  (da_check_loop RNum s vs = Ok true <-> Forall (fun v => mn - dp_prec _ s < v < mx + dp_prec _ s) vs) /\
  ((forall v, In v vs -> in_int (Ztrunc ((v - mn) / dp_prec _ s)) = true) ->
     exists b, da_check_loop RNum s vs = Ok b) /\
  (forall e, da_check_loop RNum s vs <> Throw e).
Proof.
  induction vs as [|v vs IH]; intros s Hg; cbn [da_check_loop].
  - split; [split; [constructor|reflexivity]|]. split; [eauto|discriminate].
  - pose proof (element_check s mn mx k v Hg) as He.
    destruct (dp_set_value RNum s v) as [s1|e|u]; cbn [bind] in *; [|tauto|].
    + destruct (dp_check RNum s1) as [b|e|u]; cbn [bind] in *; [|tauto|].
      * destruct He as (Hg1 & Hp1 & Hb). destruct (IH s1 Hg1) as (IH1 & IH2 & IH3). rewrite Hp1 in *.
        destruct b.
        -- split; [rewrite IH1, Forall_cons_iff; tauto|]. split; [|exact IH3].
           intro H. apply IH2. intros w Hw. apply H. right; exact Hw.
        -- split; [|split; [eauto|discriminate]]. split; [discriminate|].
           intro H. apply Forall_inv in H. apply Hb in H. discriminate.
      * destruct He as [He1 He2]. split.
        -- split; [discriminate|]. intro H. apply Forall_inv in H. tauto.
        -- split; [|discriminate]. intro H. rewrite (H v) in He1 by (left; reflexivity). discriminate.
    + destruct He as [He1 He2]. split.
      * split; [discriminate|]. intro H. apply Forall_inv in H. tauto.
      * split; [|discriminate]. intro H. rewrite (H v) in He1 by (left; reflexivity). discriminate.
Qed.

Lemma set_values_spec a mn mx k vs : da_good a mn mx k -> length vs = length (da_values _ a) ->
  let prec := dp_prec _ (da_sample _ a) in
  (snd (da_set_values RNum a vs) = Ok tt <-> Forall (fun v => mn - prec < v < mx + prec) vs) /\
  ((forall v, In v vs -> in_int (Ztrunc ((v - mn) / prec)) = true) ->
     ~ Forall (fun v => mn - prec < v < mx + prec) vs ->
     snd (da_set_values RNum a vs) = Throw InvalidArgument).
Proof.
  intros [Hg Hs] Hl prec. unfold da_set_values. rewrite Hl, Nat.eqb_refl. cbn [negb].
  unfold da_check. cbn [da_sample da_values da_with_values].
  destruct (check_loop_spec mn mx k vs (da_sample _ a) Hg) as (H1 & H2 & H3). fold prec in H1, H2.
  destruct (da_check_loop RNum (da_sample RNum a) vs) as [[]|e|u] eqn:E; cbn [snd].
  - split; [tauto|]. intros _ Hn. exfalso. apply Hn, H1. reflexivity.
  - split; [|reflexivity]. rewrite <- H1. split; discriminate.
  - exfalso. apply (H3 e). reflexivity.
  - split; [rewrite <- H1; split; discriminate|]. intro H. destruct (H2 H) as [b Hb]. discriminate.
Qed.
