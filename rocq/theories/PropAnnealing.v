(** C44: simulated annealing. *)
From Coq Require Import Reals Psatz.
From Flocq Require Import Core.Zaux Core.Raux Core.Defs Core.Generic_fmt IEEE754.BinarySingleNaN.
From Verif Require Import Base Num DblOrder FloatLemmas Random PropRandom Misc Optim PropOptim Hooke PropHooke Annealing.
Local Open Scope Z_scope.
Local Open Scope list_scope.

(** What std::exp must satisfy for the search to complete: on arguments that are not positive (or NaN) its value is
    neither negative nor greater than 1 (it may be NaN). *)
Definition exp_like (xexp : dbl -> dbl) : Prop :=
  forall x, d_ltb (d_ofZ 0) x = false -> d_ltb (xexp x) (d_ofZ 0) = false /\ d_ltb (d_ofZ 1) (xexp x) = false.

(** [nonpos x]: not greater than zero (or NaN) *)
Notation nonpos x := (d_ltb (d_ofZ 0) x = false).

Lemma zero_lt_sign (x : dbl) : Bsign x = true -> nonpos x.
Proof. intro H. apply Bool.not_true_is_false. intro K. apply d_ltb_key in K as (_ & N & K).
  assert (Z0 : d_key (d_ofZ 0) = 0) by (vm_compute; reflexivity). rewrite Z0 in K.
  destruct x as [s|s| |s m e B]; cbn [Bsign] in H; subst; try (vm_compute in K; discriminate); try discriminate.
  pose proof (d_key_finite_pos m e B) as P. cbn [d_key] in K. cbv zeta in K. lia. Qed.
Lemma zero_lt_R (x : dbl) : is_finite x = true -> (B2R x <= 0)%R -> nonpos x.
Proof. intros F H. apply Bool.not_true_is_false. intro K. destruct (d_ofZ_exact 0 ltac:(lia)) as [F0 R0]. apply d_ltb_R in K; auto. rewrite R0 in K. lra. Qed.
Lemma nonpos_R (x : dbl) : is_finite x = true -> nonpos x -> (B2R x <= 0)%R.
Proof. intros F H. destruct (d_ofZ_exact 0 ltac:(lia)) as [F0 R0]. apply Rnot_lt_le. intro K. assert (d_ltb (d_ofZ 0) x = true) by (apply d_ltb_R; auto; rewrite R0; exact K). congruence. Qed.

(** a - b is not positive when a <= b *)
Lemma sub_nonpos (a b : dbl) : is_num a = true -> is_num b = true -> d_ltb b a = false -> nonpos (d_sub a b).
Proof.
  intros Na Nb H. destruct (is_finite a) eqn:Fa; destruct (is_finite b) eqn:Fb.
  - assert (L : (B2R a <= B2R b)%R).
    { apply Rnot_lt_le. intro K. assert (d_ltb b a = true) by (apply d_ltb_R; auto). congruence. }
    pose proof (Bminus_correct dprec demax _ _ mode_NE a b Fa Fb) as C.
    destruct (Rlt_bool_spec (Rabs (round radix2 (SpecFloat.fexp dprec demax) (round_mode mode_NE) (B2R a - B2R b))) (bpow radix2 demax)) as [Lt|Ge].
    + destruct C as (C1 & C2 & _). apply zero_lt_R; [exact C2|]. unfold d_sub. rewrite C1. change (rnd64 (B2R a - B2R b) <= 0)%R.
      apply rnd_le_fmt; [lra|]. apply (fmt_IZR 0). lia.
    + destruct C as (C1 & C2). assert (Sa : Bsign a = true).
      { destruct (Bsign a) eqn:Sa; [reflexivity|exfalso]. symmetry in C2. apply negb_false_iff in C2.
        assert (B2R a = B2R b).
        { assert (0 <= B2R a)%R by (destruct a as [s|s| |s m e Hb]; cbn in *; try discriminate; try lra; subst s; left; apply Float_prop.F2R_gt_0; reflexivity).
          assert (B2R b <= 0)%R by (destruct b as [s|s| |s m e Hb]; cbn in *; try discriminate; try lra; subst s; left; apply Float_prop.F2R_lt_0; reflexivity).
          lra. }
        rewrite H0, Rminus_diag_eq in Ge by reflexivity. rewrite round_0 in Ge by auto with typeclass_instances. rewrite Rabs_R0 in Ge.
        pose proof (bpow_gt_0 radix2 demax). lra. }
      apply zero_lt_sign. unfold d_sub. rewrite Sa in C1. unfold binary_overflow in C1. cbn in C1.
      destruct (Bminus mode_NE a b) as [s|s| |s m e B]; cbn in C1 |- *; congruence.
  - destruct b as [s|s| |s m e B]; cbn in Fb, Nb; try discriminate. destruct s.
    + exfalso. assert (d_ltb (B754_infinity true) a = true); [|congruence]. destruct a as [s|s| |s m e B]; cbn in *; try discriminate; reflexivity.
    + destruct a as [s|s| |s m e B]; cbn in Fa; try discriminate; vm_compute; reflexivity.
  - destruct a as [s|s| |s m e B]; cbn in Fa, Na; try discriminate. destruct s.
    + destruct b as [s|s| |s m e B]; cbn in Fb; try discriminate; vm_compute; reflexivity.
    + exfalso. assert (d_ltb b (B754_infinity false) = true); [|congruence]. destruct b as [s|s| |s m e B]; cbn in *; try discriminate; reflexivity.
  - destruct a as [s|s| |s m e B]; cbn in Fa, Na; try discriminate. destruct b as [s'|s'| |s' m e B]; cbn in Fb, Nb; try discriminate.
    destruct s, s'; try (vm_compute; reflexivity). vm_compute in H. discriminate.
Qed.

(** dividing a non-positive value by a non-negative finite one of positive sign *)
Lemma div_nonpos (x t : dbl) : nonpos x -> is_finite t = true -> Bsign t = false -> nonpos (d_div x t).
Proof.
  intros H Ft St. destruct t as [st|st| |st mt et Bt]; cbn in Ft, St; try discriminate; subst st.
  - destruct x as [s|s| |s m e B]; try reflexivity.
    + destruct s; [reflexivity|]. vm_compute in H. discriminate.
    + destruct s; [reflexivity|]. exfalso. pose proof (nonpos_R (B754_finite false m e B : dbl) eq_refl H) as K. cbn in K.
      assert (0 < Defs.F2R (Defs.Float radix2 (Z.pos m) e))%R by (apply Float_prop.F2R_gt_0; reflexivity). cbn in *. lra.
  - destruct x as [s|s| |s m e B]; [destruct s; reflexivity|destruct s; [reflexivity|vm_compute in H; discriminate]|reflexivity|].
    assert (s = true).
    { destruct s; [reflexivity|]. exfalso. pose proof (nonpos_R (B754_finite false m e B : dbl) eq_refl H) as K. cbn in K.
      assert (0 < Defs.F2R (Defs.Float radix2 (Z.pos m) e))%R by (apply Float_prop.F2R_gt_0; reflexivity). cbn in *. lra. }
    subst s. set (x := B754_finite true m e B) in *. set (t := B754_finite false mt et Bt) in *.
    assert (Tp : (0 < B2R t)%R) by (cbn; apply Float_prop.F2R_gt_0; reflexivity).
    assert (NZ : B2R t <> 0%R) by lra.
    assert (Xn : (B2R x <= 0)%R) by (apply nonpos_R; auto).
    pose proof (Bdiv_correct dprec demax _ _ mode_NE x t NZ) as C.
    destruct (Rlt_bool _ _).
    + destruct C as (C1 & C2 & _). apply zero_lt_R; [unfold d_div; rewrite C2; reflexivity|]. unfold d_div. rewrite C1. change (rnd64 (B2R x / B2R t) <= 0)%R.
      apply rnd_le_fmt; [|apply (fmt_IZR 0); lia]. unfold Rdiv. assert (0 < / B2R t)%R by (apply Rinv_0_lt_compat; exact Tp). nra.
    + apply zero_lt_sign. unfold d_div. change (xorb (Bsign x) (Bsign t)) with true in C. unfold binary_overflow in C. revert C. generalize (Bdiv mode_NE x t). intros z C. cbn in C. destruct z as [s|s| |s m' e' B']; cbn in C |- *; congruence.
Qed.

Lemma temperature_ok max i : 0 < max <= 2 ^ 53 -> 1 <= i <= max ->
  is_finite (temperature max i) = true /\ Bsign (temperature max i) = false /\ d_ltb (temperature max i) (d_ofZ 0) = false.
Proof.
  intros Hm Hi. unfold temperature. destruct (d_ofZ_exact (max - i) ltac:(lia)) as [F1 R1]. destruct (d_ofZ_exact max ltac:(lia)) as [F2 R2].
  assert (M0 : (0 < IZR max)%R) by (apply IZR_lt; lia).
  assert (A0 : (0 <= IZR (max - i) <= IZR max)%R) by (split; apply IZR_le; lia).
  assert (Sg : forall z, 0 <= z <= 2 ^ 53 -> Bsign (d_ofZ z) = false).
  { intros z Hz. unfold d_ofZ, d_of. pose proof (binary_normalize_correct dprec demax _ _ mode_NE z 0 false) as C. cbv zeta in C.
    destruct (Rlt_bool_spec (Rabs (round radix2 (SpecFloat.fexp dprec demax) (round_mode mode_NE) (Defs.F2R (Defs.Float radix2 z 0)))) (bpow radix2 demax)) as [L|G].
    - destruct C as (_ & _ & C). rewrite C. replace (Defs.F2R (Defs.Float radix2 z 0)) with (IZR z) by (unfold Defs.F2R; cbn; lra).
      destruct (Rcompare_spec (IZR z) 0); auto. apply lt_IZR in H. lia.
    - exfalso. replace (Defs.F2R (Defs.Float radix2 z 0)) with (IZR z) in G by (unfold Defs.F2R; cbn [Defs.Fnum Defs.Fexp bpow]; rewrite Rmult_1_r; reflexivity).
      change (bpow radix2 demax <= Rabs (rnd64 (IZR z)))%R in G. rewrite rnd_id in G by (apply fmt_IZR; lia).
      rewrite <- (proj2 (d_ofZ_exact z ltac:(lia))) in G. pose proof (dbl_lt_max (d_ofZ z)) as K. exact (Rlt_not_le _ _ K G). }
  assert (Q : (0 <= IZR (max - i) / IZR max <= 1)%R).
  { split; [apply Rmult_le_pos; [lra|left; apply Rinv_0_lt_compat; lra]|]. apply Rmult_le_reg_r with (IZR max); [lra|]. unfold Rdiv. rewrite Rmult_assoc, Rinv_l by lra. lra. }
  assert (RQ : (0 <= rnd64 (IZR (max - i) / IZR max) <= 1)%R).
  { split; [apply rnd_ge_fmt; [lra|apply (fmt_IZR 0); lia]|apply rnd_le_fmt; [lra|apply (fmt_IZR 1); lia]]. }
  destruct (d_div_finite (d_ofZ (max - i)) (d_ofZ max) F1) as [F V]; [rewrite R2; lra| |].
  { rewrite R1, R2, Rabs_pos_eq by lra. apply Rle_lt_trans with 1%R; [lra|]. apply (bpow_lt radix2 0 1024). lia. }
  rewrite R1, R2 in V. split; [exact F|]. split.
  - unfold d_div. pose proof (Bdiv_correct dprec demax _ _ mode_NE (d_ofZ (max - i)) (d_ofZ max) ltac:(rewrite R2; lra)) as C.
    destruct (Rlt_bool _ _).
    + destruct C as (_ & _ & C). rewrite C; [rewrite !Sg by lia; reflexivity|]. unfold d_div in F. destruct (Bdiv mode_NE _ _); cbn in *; auto; discriminate.
    + rewrite !Sg in C by lia. unfold binary_overflow in C. cbn in C. destruct (Bdiv mode_NE _ _); cbn in *; congruence.
  - apply Bool.not_true_is_false. intro K. destruct (d_ofZ_exact 0 ltac:(lia)) as [F0 R0]. apply d_ltb_R in K; auto. rewrite V, R0 in K. lra.
Qed.

(** The meaning of one iteration from current vector [a] to current vector [b]: a neighbour of [a] is formed by giving one
    coordinate a random value between the bounds; [b] is [a] or that neighbour, and it is the neighbour whenever the
    neighbour is strictly better. *)
Definition anneal_step (RM : Z) (lo hi : dbl) (f : list dbl -> dbl) (a b : list dbl) : Prop :=
  exists j r nb, (j < length a)%nat /\ 0 <= r <= RM /\ nb = upd a j (continuous_of FNum RM r lo hi) /\
    (b = a \/ b = nb) /\ (d_ltb (f nb) (f a) = true -> b = nb).
Fixpoint chain {A} (R : A -> A -> Prop) (a : A) (l : list A) : Prop :=
  match l with [] => True | b :: r => R a b /\ chain R b r end.

Section SA.
Variable xexp : dbl -> dbl.
Variable RM : Z.
Hypothesis HRM : 0 < RM <= INT_MAX.
Variable f : list dbl -> dbl.
Notation run := (pure FNum (fun v => Ok (f v))).

Lemma rvalid_shift g : rvalid RM g -> rvalid RM (fun n => g (S n)).
Proof. intros H n. apply H. Qed.

Lemma neighbour_ok lo hi v g : rvalid RM g -> (0 < length v)%nat -> Z.of_nat (length v) <= INT_MAX ->
  exists j r, (j < length v)%nat /\ 0 <= r <= RM /\ fst (neighbour RM lo hi v g) = Ok (upd v j (continuous_of FNum RM r lo hi)) /\
    rvalid RM (snd (neighbour RM lo hi v g)).
Proof.
  intros Hg Hl Hm. unfold neighbour, get_discrete, get_continuous, draw. cbn [fst snd].
  pose proof (Hg 0%nat) as H0. pose proof (Hg 1%nat) as H1.
  destruct (C11_in_range (g 0%nat) 0 (Z.of_nat (length v) - 1)) as (z & Hz & Rz); try (unfold INT_MIN, INT_MAX in *; lia).
  rewrite Hz. cbn [bind]. exists (Z.to_nat z), (g 1%nat). split; [lia|]. split; [exact H1|]. split.
  - destruct (Nat.ltb_spec (Z.to_nat z) (length v)); [|lia]. destruct (Z.leb_spec 0 z); [reflexivity|lia].
  - intros k. apply (Hg (S (S k))).
Qed.

Lemma sa_loop_spec lo hi max : exp_like xexp -> (forall v, is_num (f v) = true) -> 0 < max <= 2 ^ 53 ->
  forall left i cur g, rvalid RM g -> (0 < length cur)%nat -> Z.of_nat (length cur) <= INT_MAX -> 1 <= i -> i + Z.of_nat left = max + 1 ->
  exists tr, run (sa_loop xexp RM lo hi max left i cur g) = Ok tr /\ length tr = left /\ chain (anneal_step RM lo hi f) cur tr.
Proof.
  intros HE NF Hmax. induction left as [|k IH]; intros i cur g Hg Hl Hm Hi He; [exists []; repeat split|].
  cbn [sa_loop]. destruct (neighbour_ok lo hi cur g Hg Hl Hm) as (j & r & Hj & Hr & Hn & Hg1).
  destruct (neighbour RM lo hi cur g) as [onb g1]. cbn [fst snd] in Hn, Hg1. subst onb.
  set (nb := upd cur j (continuous_of FNum RM r lo hi)) in *.
  rewrite pure_bind. cbn [lift pure bind]. rewrite pure_bind, pure_ask. cbn [bind]. rewrite pure_bind, pure_ask. cbn [bind].
  destruct (temperature_ok max i Hmax ltac:(lia)) as (T1 & T2 & T3).
  assert (AP : exists p, acceptance xexp (f cur) (f nb) (temperature max i) = Ok p /\ validate_probability FNum p = Ok tt /\
             (d_ltb (f nb) (f cur) = true -> p = d_ofZ 1)).
  { unfold acceptance. rewrite T3. destruct (d_ltb (f nb) (f cur)) eqn:L.
    - exists (d_ofZ 1). split; [reflexivity|]. split; [vm_compute; reflexivity|reflexivity].
    - eexists. split; [reflexivity|]. split; [|discriminate].
      destruct (HE (d_div (d_sub (f cur) (f nb)) (temperature max i))) as [E1 E2].
      { apply div_nonpos; auto. apply sub_nonpos; auto. }
      unfold validate_probability. cbn [n_ltb n_ofZ FNum]. rewrite E1, E2. reflexivity. }
  destruct AP as (p & Ap & Vp & Pp). rewrite Ap. rewrite pure_bind. cbn [lift pure bind].
  unfold check_event. rewrite Vp. unfold get_base, draw. rewrite pure_bind. cbn [lift pure bind].
  set (b := n_leb FNum (base_of FNum RM (g1 0%nat)) p).
  set (cur' := if b then nb else cur).
  assert (Lc : length cur' = length cur) by (unfold cur', nb; destruct b; [apply upd_length|reflexivity]).
  destruct (IH (i + 1) cur' (fun n => g1 (S n)) (rvalid_shift _ Hg1)) as (tr & R & Lt & Ch); try lia.
  exists (cur' :: tr). rewrite pure_bind, R. cbn [bind pure]. split; [reflexivity|]. split; [cbn; congruence|].
  cbn [chain]. split; [|exact Ch]. exists j, r, nb. split; [exact Hj|]. split; [exact Hr|]. split; [reflexivity|].
  split; [unfold cur'; destruct b; auto|]. intro L. unfold cur'. replace b with true; [reflexivity|].
  symmetry. unfold b. rewrite (Pp L). cbn [n_leb FNum]. destruct (F_base RM (g1 0%nat) HRM (Hg1 0%nat)) as (Fb & _ & Rb).
  destruct (d_ofZ_exact 1 ltac:(lia)) as [F1 R1]. apply d_leb_R; auto. rewrite R1. lra.
Qed.
End SA.

(** ** C44 For every objective function free of NaN, every random stream, bounds, non-empty starting vector and number of
    iterations (at most 2^53), and every exp: the run completes; it makes exactly [max] iterations, each of which is an
    [anneal_step] as described above; the vector returned is the last one accepted. *)
Theorem C44_run : forall xexp RM lo hi f max g init,
  exp_like xexp -> 0 < RM <= INT_MAX -> rvalid RM g -> (forall v, is_num (f v) = true) -> Z.of_nat max <= 2 ^ 53 ->
  (0 < length init)%nat -> Z.of_nat (length init) <= INT_MAX ->
  exists path, length path = max /\ chain (anneal_step RM lo hi f) init path /\
    pure FNum (fun v => Ok (f v)) (sa_find xexp RM max lo hi g init) = Ok (last path init).
Proof.
  intros xexp RM lo hi f max g init HE HRM Hg NF Hmax Hl Hm. unfold sa_find, sa_trace.
  destruct max as [|k].
  - exists []. repeat split.
  - destruct (sa_loop_spec xexp RM HRM f lo hi (Z.of_nat (S k)) HE NF ltac:(lia) (S k) 1 init g Hg Hl Hm ltac:(lia) ltac:(lia)) as (tr & R & L & C).
    exists tr. split; [exact L|]. split; [exact C|]. rewrite pure_bind, pure_bind, R. cbn [bind pure]. f_equal.
    destruct tr; [discriminate|reflexivity].
Qed.

(** Consequently the coordinates of every visited vector are coordinates of the starting vector or random values between
    the bounds (C12 gives the range of such values). *)
Theorem C44_coordinates : forall RM lo hi f path init, chain (anneal_step RM lo hi f) init path ->
  forall v, In v path -> length v = length init /\
    forall x, In x v -> In x init \/ exists r, 0 <= r <= RM /\ x = continuous_of FNum RM r lo hi.
Proof.
  induction path as [|b path IH]; intros init C v Hv; [destruct Hv|]. cbn [chain] in C. destruct C as [(j & r & nb & Hj & Hr & En & Hb & _) C].
  assert (Hb' : length b = length init /\ forall x, In x b -> In x init \/ exists r, 0 <= r <= RM /\ x = continuous_of FNum RM r lo hi).
  { destruct Hb as [->| ->]; [split; auto|]. subst nb. split; [apply upd_length|]. intros x Hx.
    apply In_nth_error in Hx as (i & Hi). rewrite nth_error_upd in Hi. destruct (Nat.eqb j i).
    - destruct (i <? length init)%nat; [|discriminate]. injection Hi as <-. right. eauto.
    - left. eapply nth_error_In; exact Hi. }
  destruct Hv as [->|Hv]; [exact Hb'|]. destruct (IH b C v Hv) as [L H]. split; [destruct Hb'; congruence|].
  intros x Hx. destruct (H x Hx) as [K|K]; [apply (proj2 Hb'); exact K|right; exact K].
Qed.

(** ** C44 The best vector met can be lost (refutation of "the result is at least as good as the start"): one iteration,
    objective f(x) = x, bounds 0 and 1, start 0, draws 0, RAND_MAX, 0: the neighbour 1 is strictly worse, its acceptance
    probability is exp(-1/0) = exp(-inf) = 0, and it is accepted because rand() = 0. *)
Definition C44_draws : rstream := fun i => match i with 1%nat => 7 | _ => 0 end.
Theorem C44_may_lose_best_refuted : forall xexp, d_eqb (xexp (B754_infinity true)) (d_ofZ 0) = true ->
  exists q, pure FNum (fun v => Ok (hd d_nan v)) (sa_find xexp 7 1 (d_ofZ 0) (d_ofZ 1) C44_draws [d_ofZ 0]) = Ok q /\
    rvalid 7 C44_draws /\ d_ltb (hd d_nan [d_ofZ 0]) (hd d_nan q) = true.
Proof.
  intros xexp HX. exists [continuous_of FNum 7 7 (d_ofZ 0) (d_ofZ 1)]. split; [|split].
  2:{ intros [|[|i]]; cbn; lia. }
  2:{ vm_compute. reflexivity. }
  unfold sa_find, sa_trace. cbn [sa_loop].
  assert (En : neighbour 7 (d_ofZ 0) (d_ofZ 1) [d_ofZ 0] C44_draws = (Ok [continuous_of FNum 7 7 (d_ofZ 0) (d_ofZ 1)], fun n => C44_draws (S (S n)))) by reflexivity.
  rewrite En. unfold ask_d, ask_min. cbn [lift sbind pure bind hd].
  set (nv := continuous_of FNum 7 7 (d_ofZ 0) (d_ofZ 1)).
  assert (A : acceptance xexp (d_ofZ 0) nv (temperature (Z.of_nat 1) 1) = Ok (xexp (B754_infinity true))).
  { unfold acceptance. assert (T : d_ltb (temperature (Z.of_nat 1) 1) (d_ofZ 0) = false) by (vm_compute; reflexivity). rewrite T.
    assert (U : d_ltb nv (d_ofZ 0) = false) by (vm_compute; reflexivity). rewrite U.
    assert (I : d_div (d_sub (d_ofZ 0) nv) (temperature (Z.of_nat 1) 1) = B754_infinity true) by (vm_compute; reflexivity). rewrite I. reflexivity. }
  rewrite A. cbn [lift sbind pure bind].
  apply d_eqb_key in HX as (X1 & X2 & X3).
  assert (V : validate_probability FNum (xexp (B754_infinity true)) = Ok tt).
  { unfold validate_probability. cbn [n_ltb n_ofZ FNum]. rewrite !d_ltb_nkey by auto. rewrite X3. vm_compute. reflexivity. }
  unfold check_event. rewrite V. unfold get_base, draw.
  assert (B : n_leb FNum (base_of FNum 7 (C44_draws 2%nat)) (xexp (B754_infinity true)) = true).
  { cbn [n_leb FNum]. apply d_leb_key. split; [vm_compute; reflexivity|]. split; [exact X1|]. rewrite X3. vm_compute. discriminate. }
  rewrite B. reflexivity.
Qed.

(** concrete instances: an exp that satisfies the hypotheses of both theorems *)
Example C44_example_exp : exp_like (fun x => if d_eqb x (B754_infinity true) then d_ofZ 0 else d_of 1 (-1)) /\
  d_eqb ((fun x => if d_eqb x (B754_infinity true) then d_ofZ 0 else d_of 1 (-1)) (B754_infinity true)) (d_ofZ 0) = true.
Proof. split; [intros x _; destruct (d_eqb x (B754_infinity true)); vm_compute; auto|vm_compute; reflexivity]. Qed.
Print Assumptions C44_run. Print Assumptions C44_coordinates. Print Assumptions C44_may_lose_best_refuted.
