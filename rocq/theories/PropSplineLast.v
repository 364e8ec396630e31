(** C52 in double precision at the last training point. *)
From Coq Require Import Reals Psatz.
From Flocq Require Import Core.Core IEEE754.BinarySingleNaN Relative Plus_error.
From Verif Require Import Base Num IntProofs FloatLemmas Optim Hooke PropHooke DblOrder Dsp Spline PropSpline RoundError PropSplineFloat.
Local Open Scope list_scope.
Local Open Scope R_scope.

(** ** The last training point *)
Lemma wstep (w x X k M d : R) : 0 < w -> 0 <= k <= 100 -> 0 <= d -> Rabs X <= M -> Rabs (x * w - X) <= k * u * M + d ->
  Rabs (rnd64 x * w - X) <= (k + 11 / 10) * u * M + 11 / 10 * d + eta * w.
Proof.
  intros Hw Hk Hd HX H. pose proof (rnd_error x) as E. pose proof u_pos as U0. pose proof u_small as U1. pose proof (Rabs_pos X) as PX.
  assert (E' : Rabs (rnd64 x * w - x * w) <= u * Rabs (x * w) + eta * w).
  { replace (rnd64 x * w - x * w) with ((rnd64 x - x) * w) by ring. rewrite !Rabs_mult, (Rabs_pos_eq w) by lra.
    apply Rle_trans with ((u * Rabs x + eta) * w); [apply Rmult_le_compat_r; lra|lra]. }
  assert (B : Rabs (x * w) <= M + (k * u * M + d)).
  { replace (x * w) with ((x * w - X) + X) by ring. eapply Rle_trans; [apply Rabs_triang|]. lra. }
  assert (UM : 0 <= u * M) by (apply Rmult_le_pos; lra).
  assert (K1 : k * u <= 1 / 10) by (apply Rle_trans with (100 * (/ 1024)); [apply Rmult_le_compat; lra|lra]).
  assert (K2 : u * (k * u * M) <= 1 / 10 * (u * M)) by (replace (u * (k * u * M)) with ((k * u) * (u * M)) by ring; apply Rmult_le_compat_r; lra).
  assert (K3 : u * d <= 1 / 10 * d) by (apply Rmult_le_compat_r; lra).
  assert (C : u * Rabs (x * w) <= u * M + 1 / 10 * (u * M) + 1 / 10 * d) by (eapply Rle_trans; [apply Rmult_le_compat_l; [lra|exact B]|]; lra).
  replace (rnd64 x * w - X) with ((rnd64 x * w - x * w) + (x * w - X)) by ring. eapply Rle_trans; [apply Rabs_triang|]. lra.
Qed.
Lemma near_sum a A b B ka kb M da db : Rabs (a - A) <= ka * u * M + da -> Rabs (b - B) <= kb * u * M + db ->
  Rabs ((a + b) - (A + B)) <= (ka + kb) * u * M + (da + db) /\ Rabs ((a - b) - (A - B)) <= (ka + kb) * u * M + (da + db).
Proof.
  intros H1 H2. split.
  - replace (a + b - (A + B)) with ((a - A) + (b - B)) by ring. eapply Rle_trans; [apply Rabs_triang|]. lra.
  - replace (a - b - (A - B)) with ((a - A) + - (b - B)) by ring. eapply Rle_trans; [apply Rabs_triang|]. rewrite Rabs_Ropp. lra.
Qed.
(** replacing a factor by one that is relatively close *)
Lemma near_factor p w t X k M d r : 0 <= k <= 50 -> 0 <= d -> 0 <= r <= 5 -> 0 < w -> Rabs X <= M -> Rabs (p * w - X) <= k * u * M + d -> Rabs (t - w) <= r * u * w ->
  Rabs (p * t - X) <= (k + 11 / 10 * r) * u * M + 11 / 10 * d.
Proof.
  intros Hk Hd Hr Hw HX H Ht. pose proof u_pos as U0. pose proof u_small as U1. pose proof (Rabs_pos X) as PX. assert (UM : 0 <= u * M) by (apply Rmult_le_pos; lra).
  assert (K1 : k * u <= 1 / 10) by (apply Rle_trans with (50 * (/ 1024)); [apply Rmult_le_compat; lra|lra]).
  assert (B : Rabs p * w <= 11 / 10 * M + d).
  { rewrite <- (Rabs_pos_eq w) by lra. rewrite <- Rabs_mult. replace (p * w) with ((p * w - X) + X) by ring. eapply Rle_trans; [apply Rabs_triang|].
    assert (k * u * M <= 1 / 10 * M) by (apply Rmult_le_compat_r; lra). lra. }
  assert (Q : Rabs (p * (t - w)) <= (11 / 10 * r) * (u * M) + 1 / 10 * d).
  { rewrite Rabs_mult. apply Rle_trans with (Rabs p * (r * u * w)); [apply Rmult_le_compat_l; [apply Rabs_pos|exact Ht]|].
    replace (Rabs p * (r * u * w)) with ((r * u) * (Rabs p * w)) by ring. assert (ru : 0 <= r * u) by (apply Rmult_le_pos; lra).
    apply Rle_trans with ((r * u) * (11 / 10 * M + d)); [apply Rmult_le_compat_l; assumption|].
    assert (r * u * d <= 1 / 10 * d). { apply Rmult_le_compat_r; [exact Hd|]. apply Rle_trans with (5 * (/ 1024)); [apply Rmult_le_compat; lra|lra]. }
    lra. }
  replace (p * t - X) with (p * (t - w) + (p * w - X)) by ring. eapply Rle_trans; [apply Rabs_triang|]. lra.
Qed.

Lemma eta_rel x e : (-400 <= e)%Z -> pow2 e <= x -> eta <= 1 / 100 * (u * x).
Proof.
  intros He Hx. apply Rle_trans with (u * (pow2 (-10) * pow2 e)).
  - unfold eta, u. rewrite <- !bpow_plus. apply bpow_le. lia.
  - replace (1 / 100 * (u * x)) with (u * (1 / 100 * x)) by field. apply Rmult_le_compat_l; [apply bpow_ge_0|]. apply Rmult_le_compat; [apply bpow_ge_0|apply bpow_ge_0| |exact Hx].
    change (pow2 (-10)) with (/ 1024). lra.
Qed.
Lemma abs_lin2 a b c p q r : Rabs p + Rabs q <= r - Rabs c -> 0 <= a <= 3 -> 0 <= b <= 3 -> forall z, Rabs z <= 3 -> Rabs (z * c + a * p) <= 3 * r /\ Rabs (z * c + a * p + b * q) <= 3 * r /\ Rabs (z * c - a * p) <= 3 * r /\ Rabs (z * c - a * p - b * q) <= 3 * r.
Proof.
  intros Hr Ha Hb z Hz.
  assert (Z : Rabs (z * c) <= 3 * Rabs c) by (rewrite Rabs_mult; apply Rmult_le_compat_r; [apply Rabs_pos|exact Hz]).
  assert (P : Rabs (a * p) <= 3 * Rabs p) by (rewrite Rabs_mult, (Rabs_pos_eq a) by lra; apply Rmult_le_compat_r; [apply Rabs_pos|lra]).
  assert (Q : Rabs (b * q) <= 3 * Rabs q) by (rewrite Rabs_mult, (Rabs_pos_eq b) by lra; apply Rmult_le_compat_r; [apply Rabs_pos|lra]).
  pose proof (Rabs_pos q). apply Rabs_le_inv in Z. apply Rabs_le_inv in P. apply Rabs_le_inv in Q. repeat split; apply Rabs_le; lra.
Qed.
Lemma zero_err X k : 0 <= k -> Rabs (X - X) <= 0 * u * k + 0.
Proof. intros. rewrite Rminus_diag_eq, Rabs_R0 by reflexivity. lra. Qed.

Section Last.
Variables y0 s0 s1 d h : dbl.
Let Y := V y0. Let S0 := V s0. Let S1 := V s1. Let D := V d. Let H := V h.
Let A := Rabs D + H * (Rabs S0 + Rabs S1).
Hypothesis Hh : pow2 (-100) <= H <= pow2 101.
Let tt := rnd64 (H * H).
Let ttt := rnd64 (tt * H).
Let a2 := rnd64 (rnd64 (3 * D) / H).
Let cq2 := rnd64 (rnd64 (rnd64 (a2 - rnd64 (2 * S0)) - S1) / H).
Let cq3 := rnd64 (rnd64 (rnd64 (S1 + S0) - rnd64 (rnd64 (2 * D) / H)) / tt).
Let result := rnd64 (rnd64 (rnd64 (Y + rnd64 (S0 * H)) + rnd64 (cq2 * tt)) + rnd64 (cq3 * ttt)).
Let ep := eta * pow2 303.

Lemma H_pos : 0 < H. Proof. pose proof (bpow_gt_0 radix2 (-100)). lra. Qed.
Lemma ep_facts : eta <= ep /\ eta * H <= ep /\ eta * (H * H) <= ep /\ eta * (H * H * H) <= ep /\ 0 <= ep.
Proof.
  pose proof H_pos as PH. pose proof eta_pos as PE. assert (B1 : 1 <= pow2 303) by (change 1 with (pow2 0); apply bpow_le; lia).
  assert (B2 : H <= pow2 303) by (eapply Rle_trans; [apply Hh|apply bpow_le; lia]).
  assert (B3 : H * H <= pow2 202) by (change 202%Z with (101 + 101)%Z; rewrite bpow_plus; apply Rmult_le_compat; lra).
  assert (B4 : H * H * H <= pow2 303) by (change 303%Z with (202 + 101)%Z; rewrite (bpow_plus radix2 202 101); apply Rmult_le_compat; try lra; apply Rmult_le_pos; lra).
  assert (B5 : pow2 202 <= pow2 303) by (apply bpow_le; lia). unfold ep.
  split; [rewrite <- (Rmult_1_r eta) at 1; apply Rmult_le_compat_l; lra|]. split; [apply Rmult_le_compat_l; lra|]. split; [apply Rmult_le_compat_l; lra|]. split; [apply Rmult_le_compat_l; lra|].
  apply Rmult_le_pos; lra.
Qed.
Lemma tt_rel : Rabs (tt - H * H) <= 102 / 100 * u * (H * H).
Proof.
  unfold tt. pose proof (rnd_error (H * H)) as E. pose proof H_pos as PH. assert (P : 0 < H * H) by (apply Rmult_lt_0_compat; exact PH). rewrite (Rabs_pos_eq (H * H)) in E by lra.
  assert (L : pow2 (-200) <= H * H) by (change (-200)%Z with (-100 + -100)%Z; rewrite bpow_plus; apply Rmult_le_compat; try apply bpow_ge_0; lra).
  pose proof (eta_rel (H * H) (-200) ltac:(vm_compute; discriminate) L). assert (0 <= u * (H * H)) by (apply Rmult_le_pos; [pose proof u_pos|]; lra). lra.
Qed.
Lemma ttt_rel : Rabs (ttt - H * H * H) <= 22 / 10 * u * (H * H * H).
Proof.
  pose proof tt_rel as T. pose proof H_pos as PH. assert (P : 0 < H * H) by (apply Rmult_lt_0_compat; exact PH). assert (P3 : 0 < H * H * H) by (apply Rmult_lt_0_compat; assumption).
  pose proof u_pos as U0. pose proof u_small as U1.
  assert (T' : Rabs (tt * H - H * H * H) <= 102 / 100 * u * (H * H * H)).
  { replace (tt * H - H * H * H) with ((tt - H * H) * H) by ring. rewrite Rabs_mult, (Rabs_pos_eq H) by lra. replace (102 / 100 * u * (H * H * H)) with (102 / 100 * u * (H * H) * H) by ring. apply Rmult_le_compat_r; lra. }
  assert (L : pow2 (-300) <= H * H * H).
  { change (-300)%Z with (-100 + -100 + -100)%Z. rewrite !bpow_plus. apply Rmult_le_compat; try apply bpow_ge_0; [apply Rmult_le_pos; apply bpow_ge_0| |lra]. apply Rmult_le_compat; try apply bpow_ge_0; lra. }
  pose proof (eta_rel (H * H * H) (-300) ltac:(vm_compute; discriminate) L) as Le. unfold ttt. pose proof (rnd_error (tt * H)) as E.
  set (c := H * H * H) in *. assert (uc : 0 <= u * c) by (apply Rmult_le_pos; lra).
  assert (B : Rabs (tt * H) <= 101 / 100 * c).
  { replace (tt * H) with ((tt * H - c) + c) by ring. eapply Rle_trans; [apply Rabs_triang|]. rewrite (Rabs_pos_eq c) by lra.
    assert (u * c <= / 1024 * c) by (apply Rmult_le_compat_r; lra). lra. }
  assert (B' : u * Rabs (tt * H) <= 101 / 100 * (u * c)) by (eapply Rle_trans; [apply Rmult_le_compat_l; [lra|exact B]|]; lra).
  replace (rnd64 (tt * H) - c) with ((rnd64 (tt * H) - tt * H) + (tt * H - c)) by ring. eapply Rle_trans; [apply Rabs_triang|]. lra.
Qed.
Let M := 3 * A.
Lemma A_parts : Rabs D <= A /\ Rabs (S0 * H) + Rabs (S1 * H) <= A - Rabs D /\ 0 <= M.
Proof.
  pose proof H_pos. pose proof (Rabs_pos D). unfold M, A. rewrite !Rabs_mult, (Rabs_pos_eq H) by lra. pose proof (Rabs_pos S0). pose proof (Rabs_pos S1).
  assert (0 <= H * (Rabs S0 + Rabs S1)) by (apply Rmult_le_pos; lra). split; [lra|]. split; lra.
Qed.
Ltac lin := repeat match goal with |- context [Rabs ?x] => unfold Rabs; destruct (Rcase_abs x) end; lra.

(** the quadratic term *)
Lemma quad_term : Rabs (rnd64 (cq2 * tt) - (3 * D - 2 * (S0 * H) - 1 * (S1 * H))) <= 9 * u * M + 12 * ep.
Proof.
  pose proof H_pos as PH. destruct ep_facts as (E1 & E2 & E3 & E4 & E0). destruct A_parts as (AD & AS & AM). pose proof eta_pos as PE.
  destruct (abs_lin2 2 1 D (S0 * H) (S1 * H) A AS ltac:(lra) ltac:(lra) 3 ltac:(rewrite Rabs_pos_eq; lra)) as (_ & _ & B2 & B3). fold M in B2, B3.
  assert (B1 : Rabs (3 * D) <= M) by (unfold M; rewrite Rabs_mult, (Rabs_pos_eq 3) by lra; lra).
  assert (B0 : Rabs (2 * (S0 * H)) <= M) by (unfold M; rewrite Rabs_mult, (Rabs_pos_eq 2) by lra; pose proof (Rabs_pos (S1 * H)); pose proof (Rabs_pos D); lra).
  assert (K1 : Rabs (rnd64 (3 * D) * 1 - 3 * D) <= (0 + 11 / 10) * u * M + 11 / 10 * 0 + eta * 1) by (apply wstep; try lra; rewrite Rmult_1_r; apply zero_err; lra).
  assert (K2 : Rabs (a2 * H - 3 * D) <= (11 / 10 + 11 / 10) * u * M + 11 / 10 * ep + eta * H).
  { unfold a2. apply wstep; try lra. replace (rnd64 (3 * D) / H * H) with (rnd64 (3 * D) * 1) by (field; lra). eapply Rle_trans; [exact K1|]. lra. }
  assert (K3 : Rabs (rnd64 (2 * S0) * H - 2 * (S0 * H)) <= (0 + 11 / 10) * u * M + 11 / 10 * 0 + eta * H) by (apply wstep; try lra; rewrite Rmult_assoc; apply zero_err; lra).
  assert (K4 : Rabs (rnd64 (a2 - rnd64 (2 * S0)) * H - (3 * D - 2 * (S0 * H))) <= (33 / 10 + 11 / 10) * u * M + 11 / 10 * (32 / 10 * ep) + eta * H).
  { apply wstep; try lra. destruct (near_sum _ _ _ _ (22 / 10) (11 / 10) M (21 / 10 * ep) (11 / 10 * ep) ltac:(eapply Rle_trans; [exact K2|lra]) ltac:(eapply Rle_trans; [exact K3|lra])) as [_ N].
    rewrite Rmult_minus_distr_r. eapply Rle_trans; [exact N|]. lra. }
  assert (K5 : Rabs (rnd64 (rnd64 (a2 - rnd64 (2 * S0)) - S1) * H - (3 * D - 2 * (S0 * H) - 1 * (S1 * H))) <= (44 / 10 + 11 / 10) * u * M + 11 / 10 * (46 / 10 * ep) + eta * H).
  { apply wstep; try lra.
    replace ((rnd64 (a2 - rnd64 (2 * S0)) - S1) * H - (3 * D - 2 * (S0 * H) - 1 * (S1 * H))) with (rnd64 (a2 - rnd64 (2 * S0)) * H - (3 * D - 2 * (S0 * H))) by ring. eapply Rle_trans; [exact K4|]. lra. }
  assert (HH : 0 < H * H) by (apply Rmult_lt_0_compat; exact PH).
  assert (K6 : Rabs (cq2 * (H * H) - (3 * D - 2 * (S0 * H) - 1 * (S1 * H))) <= (55 / 10 + 11 / 10) * u * M + 11 / 10 * (61 / 10 * ep) + eta * (H * H)).
  { unfold cq2. apply wstep; try lra.
    match goal with |- Rabs (?p / H * (H * H) - _) <= _ => replace (p / H * (H * H)) with (p * H) by (field; lra) end. eapply Rle_trans; [exact K5|]. lra. }
  pose proof (near_factor cq2 (H * H) tt _ (66 / 10) M (78 / 10 * ep) (102 / 100) ltac:(lra) ltac:(lra) ltac:(lra) HH B3 ltac:(eapply Rle_trans; [exact K6|lra]) tt_rel) as K7.
  pose proof u_pos as U0. assert (UM : 0 <= u * M) by (apply Rmult_le_pos; lra).
  assert (K8 : Rabs (rnd64 (cq2 * tt) * 1 - (3 * D - 2 * (S0 * H) - 1 * (S1 * H))) <= (78 / 10 + 11 / 10) * u * M + 11 / 10 * (9 * ep) + eta * 1).
  { apply wstep; try lra. rewrite Rmult_1_r. eapply Rle_trans; [exact K7|]. lra. }
  rewrite Rmult_1_r in K8. eapply Rle_trans; [exact K8|]. lra.
Qed.
(** the cubic term *)
Lemma inv_rel : Rabs (H * H * H / tt - H) <= 12 / 10 * u * H.
Proof.
  pose proof H_pos as PH. assert (HH : 0 < H * H) by (apply Rmult_lt_0_compat; exact PH). pose proof tt_rel as T. pose proof u_pos as U0. pose proof u_small as U1.
  assert (Su : u * (H * H) <= / 1024 * (H * H)) by (apply Rmult_le_compat_r; lra). apply Rabs_le_inv in T. assert (P : 99 / 100 * (H * H) <= tt) by lra.
  replace (H * H * H / tt - H) with (H * ((H * H - tt) / tt)) by (field; lra). rewrite Rabs_mult, (Rabs_pos_eq H) by lra. replace (12 / 10 * u * H) with (H * (12 / 10 * u)) by ring. apply Rmult_le_compat_l; [lra|].
  unfold Rdiv. rewrite Rabs_mult, Rabs_inv, (Rabs_pos_eq tt) by lra. apply (Rmult_le_reg_r tt); [lra|]. rewrite Rmult_assoc, Rinv_l, Rmult_1_r by lra.
  apply Rle_trans with (102 / 100 * (u * (H * H))); [apply Rabs_le; lra|]. apply Rle_trans with (12 / 10 * u * (99 / 100 * (H * H))); [|apply Rmult_le_compat_l; lra].
  assert (0 <= u * (H * H)) by (apply Rmult_le_pos; lra). lra.
Qed.
Lemma cubic_term : Rabs (rnd64 (cq3 * ttt) - (-2 * D + 1 * (S1 * H) + 1 * (S0 * H))) <= 11 * u * M + 12 * ep.
Proof.
  pose proof H_pos as PH. destruct ep_facts as (E1 & E2 & E3 & E4 & E0). destruct A_parts as (AD & AS & AM). pose proof eta_pos as PE.
  rewrite Rplus_comm in AS. destruct (abs_lin2 1 1 D (S1 * H) (S0 * H) A AS ltac:(lra) ltac:(lra) (-2) ltac:(rewrite Rabs_left; lra)) as (_ & B3 & _ & _). fold M in B3.
  assert (B1 : Rabs (2 * D) <= M) by (unfold M; rewrite Rabs_mult, (Rabs_pos_eq 2) by lra; pose proof (Rabs_pos D); lra).
  assert (B0 : Rabs (S1 * H + S0 * H) <= M) by (unfold M; eapply Rle_trans; [apply Rabs_triang|]; pose proof (Rabs_pos D); lra).
  assert (K1 : Rabs (rnd64 (S1 + S0) * H - (S1 * H + S0 * H)) <= (0 + 11 / 10) * u * M + 11 / 10 * 0 + eta * H) by (apply wstep; try lra; rewrite Rmult_plus_distr_r; apply zero_err; lra).
  assert (K2 : Rabs (rnd64 (2 * D) * 1 - 2 * D) <= (0 + 11 / 10) * u * M + 11 / 10 * 0 + eta * 1) by (apply wstep; try lra; rewrite Rmult_1_r; apply zero_err; lra).
  assert (K3 : Rabs (rnd64 (rnd64 (2 * D) / H) * H - 2 * D) <= (11 / 10 + 11 / 10) * u * M + 11 / 10 * ep + eta * H).
  { apply wstep; try lra. replace (rnd64 (2 * D) / H * H) with (rnd64 (2 * D) * 1) by (field; lra). eapply Rle_trans; [exact K2|]. lra. }
  assert (K4 : Rabs (rnd64 (rnd64 (S1 + S0) - rnd64 (rnd64 (2 * D) / H)) * H - (-2 * D + 1 * (S1 * H) + 1 * (S0 * H))) <= (33 / 10 + 11 / 10) * u * M + 11 / 10 * (31 / 10 * ep) + eta * H).
  { apply wstep; try lra. destruct (near_sum _ _ _ _ (11 / 10) (22 / 10) M ep (21 / 10 * ep) ltac:(eapply Rle_trans; [exact K1|lra]) ltac:(eapply Rle_trans; [exact K3|lra])) as [_ N].
    rewrite Rmult_minus_distr_r. replace (-2 * D + 1 * (S1 * H) + 1 * (S0 * H)) with (S1 * H + S0 * H - 2 * D) by ring. eapply Rle_trans; [exact N|]. lra. }
  assert (H3 : 0 < H * H * H) by (repeat apply Rmult_lt_0_compat; exact PH).
  set (e4 := rnd64 (rnd64 (S1 + S0) - rnd64 (rnd64 (2 * D) / H))) in *.
  pose proof (near_factor e4 H (H * H * H / tt) _ (44 / 10) M (45 / 10 * ep) (12 / 10) ltac:(lra) ltac:(lra) ltac:(lra) PH B3 ltac:(eapply Rle_trans; [exact K4|lra]) inv_rel) as K5.
  pose proof u_pos as U0. assert (UM : 0 <= u * M) by (apply Rmult_le_pos; lra).
  assert (Tn : tt <> 0).
  { assert (HH : 0 < H * H) by (apply Rmult_lt_0_compat; exact PH). pose proof tt_rel as T. pose proof u_small as U1. assert (Su : u * (H * H) <= / 1024 * (H * H)) by (apply Rmult_le_compat_r; lra). apply Rabs_le_inv in T. lra. }
  assert (K6 : Rabs (cq3 * (H * H * H) - (-2 * D + 1 * (S1 * H) + 1 * (S0 * H))) <= (58 / 10 + 11 / 10) * u * M + 11 / 10 * (5 * ep) + eta * (H * H * H)).
  { unfold cq3. fold e4. apply wstep; try lra. replace (e4 / tt * (H * H * H)) with (e4 * (H * H * H / tt)) by (field; exact Tn). eapply Rle_trans; [exact K5|]. lra. }
  pose proof (near_factor cq3 (H * H * H) ttt _ (69 / 10) M (65 / 10 * ep) (22 / 10) ltac:(lra) ltac:(lra) ltac:(lra) H3 B3 ltac:(eapply Rle_trans; [exact K6|lra]) ttt_rel) as K7.
  assert (K8 : Rabs (rnd64 (cq3 * ttt) * 1 - (-2 * D + 1 * (S1 * H) + 1 * (S0 * H))) <= (94 / 10 + 11 / 10) * u * M + 11 / 10 * (75 / 10 * ep) + eta * 1).
  { apply wstep; try lra. rewrite Rmult_1_r. eapply Rle_trans; [exact K7|]. lra. }
  rewrite Rmult_1_r in K8. eapply Rle_trans; [exact K8|]. lra.
Qed.
Lemma result_error : Rabs (result - (Y + D)) <= 25 * u * (Rabs Y + M) + 40 * ep.
Proof.
  pose proof H_pos as PH. destruct ep_facts as (E1 & E2 & E3 & E4 & E0). destruct A_parts as (AD & AS & AM). pose proof eta_pos as PE.
  destruct (abs_lin2 1 1 D (S0 * H) (S1 * H) A AS ltac:(lra) ltac:(lra) 3 ltac:(rewrite Rabs_pos_eq; lra)) as (_ & _ & _ & B3). fold M in B3.
  pose proof quad_term as Q. pose proof cubic_term as C. pose proof u_pos as U0. set (B := Rabs Y + M). pose proof (Rabs_pos Y) as PY. assert (MB : M <= B) by (unfold B; lra).
  assert (UM : u * M <= u * B) by (apply Rmult_le_compat_l; lra). assert (U0' : 0 <= u * M) by (apply Rmult_le_pos; lra).
  assert (BS : Rabs (S0 * H) <= M) by (unfold M; pose proof (Rabs_pos (S1 * H)); pose proof (Rabs_pos D); lra).
  assert (K1 : Rabs (rnd64 (S0 * H) * 1 - S0 * H) <= (0 + 11 / 10) * u * M + 11 / 10 * 0 + eta * 1) by (apply wstep; try lra; rewrite Rmult_1_r; apply zero_err; lra).
  rewrite Rmult_1_r in K1.
  assert (K2 : Rabs (rnd64 (Y + rnd64 (S0 * H)) * 1 - (Y + S0 * H)) <= (11 / 10 + 11 / 10) * u * B + 11 / 10 * ep + eta * 1).
  { apply wstep; try lra; [unfold B; eapply Rle_trans; [apply Rabs_triang|]; lra|]. rewrite Rmult_1_r. replace (Y + rnd64 (S0 * H) - (Y + S0 * H)) with (rnd64 (S0 * H) - S0 * H) by ring. eapply Rle_trans; [exact K1|]. lra. }
  rewrite Rmult_1_r in K2.
  assert (K3 : Rabs (rnd64 (rnd64 (Y + rnd64 (S0 * H)) + rnd64 (cq2 * tt)) * 1 - (Y + (3 * D - 1 * (S0 * H) - 1 * (S1 * H)))) <= (112 / 10 + 11 / 10) * u * B + 11 / 10 * (141 / 10 * ep) + eta * 1).
  { apply wstep; try lra; [unfold B; eapply Rle_trans; [apply Rabs_triang|]; lra|]. rewrite Rmult_1_r.
    destruct (near_sum _ _ _ _ (22 / 10) 9 B (21 / 10 * ep) (12 * ep) ltac:(eapply Rle_trans; [exact K2|lra]) ltac:(eapply Rle_trans; [exact Q|lra])) as [N _].
    replace (Y + (3 * D - 1 * (S0 * H) - 1 * (S1 * H))) with (Y + S0 * H + (3 * D - 2 * (S0 * H) - 1 * (S1 * H))) by ring. eapply Rle_trans; [exact N|]. lra. }
  rewrite Rmult_1_r in K3.
  assert (K4 : Rabs (result * 1 - (Y + D)) <= (233 / 10 + 11 / 10) * u * B + 11 / 10 * (29 * ep) + eta * 1).
  { unfold result. apply wstep; try lra; [unfold B; eapply Rle_trans; [apply Rabs_triang|]; assert (Rabs D <= M) by (unfold M; pose proof (Rabs_pos D); lra); lra|]. rewrite Rmult_1_r.
    destruct (near_sum _ _ _ _ (123 / 10) 11 B (17 * ep) (12 * ep) ltac:(eapply Rle_trans; [exact K3|lra]) ltac:(eapply Rle_trans; [exact C|lra])) as [N _].
    replace (Y + D) with (Y + (3 * D - 1 * (S0 * H) - 1 * (S1 * H)) + (-2 * D + 1 * (S1 * H) + 1 * (S0 * H))) by ring. eapply Rle_trans; [exact N|]. lra. }
  rewrite Rmult_1_r in K4. assert (0 <= u * B) by (apply Rmult_le_pos; lra). eapply Rle_trans; [exact K4|]. lra.
Qed.
End Last.

(** *** The operations, from a finite result *)
Lemma add_inv x y : fin (d_add x y) -> fin x /\ fin y /\ V (d_add x y) = rnd64 (V x + V y).
Proof.
  intro F. assert (G : fin x /\ fin y).
  { unfold fin, d_add in *. destruct x as [[]|[]| |], y as [[]|[]| |]; cbn in F |- *; try discriminate F; auto. }
  destruct G as [Hx Hy]. split; [exact Hx|]. split; [exact Hy|].
  pose proof (Bplus_correct dprec demax dprec_gt_0 dprec_lt_emax mode_NE x y Hx Hy) as H.
  destruct (Rlt_bool_spec (Rabs (rnd64 (V x + V y))) (bpow radix2 1024)) as [L|L].
  - rewrite Rlt_bool_true in H by exact L. unfold d_add. tauto.
  - rewrite Rlt_bool_false in H by exact L. destruct H as [H _]. unfold fin, d_add in F. destruct (Bplus mode_NE x y); try discriminate F; unfold binary_overflow in H; cbn in H; discriminate.
Qed.
Lemma sub_inv x y : fin (d_sub x y) -> fin x /\ fin y /\ V (d_sub x y) = rnd64 (V x - V y).
Proof.
  intro F. assert (G : fin x /\ fin y).
  { unfold fin, d_sub in *. destruct x as [[]|[]| |], y as [[]|[]| |]; cbn in F |- *; try discriminate F; auto. }
  destruct G as [Hx Hy]. split; [exact Hx|]. split; [exact Hy|]. apply d_sub_finite_inv; assumption.
Qed.
Lemma mul_inv x y : fin (d_mul x y) -> fin x /\ fin y /\ V (d_mul x y) = rnd64 (V x * V y).
Proof.
  intro F. assert (G : fin x /\ fin y).
  { unfold fin, d_mul in *. destruct x as [[]|[]| |], y as [[]|[]| |]; cbn in F |- *; try discriminate F; auto. }
  destruct G as [Hx Hy]. split; [exact Hx|]. split; [exact Hy|].
  pose proof (Bmult_correct dprec demax dprec_gt_0 dprec_lt_emax mode_NE x y) as H.
  destruct (Rlt_bool_spec (Rabs (rnd64 (V x * V y))) (bpow radix2 1024)) as [L|L].
  - rewrite Rlt_bool_true in H by exact L. unfold d_mul. tauto.
  - rewrite Rlt_bool_false in H by exact L. unfold fin, d_mul in F. destruct (Bmult mode_NE x y); try discriminate F; unfold binary_overflow in H; cbn in H; discriminate.
Qed.
Lemma div_inv x y : V y <> 0 -> fin (d_div x y) -> fin x /\ V (d_div x y) = rnd64 (V x / V y).
Proof.
  intros N F. assert (Fx : fin x).
  { unfold fin, d_div in *. destruct x as [[]|[]| |], y as [[]|[]| |]; cbn in F |- *; try discriminate F; auto. }
  split; [exact Fx|]. pose proof (Bdiv_correct dprec demax dprec_gt_0 dprec_lt_emax mode_NE x y N) as H.
  destruct (Rlt_bool_spec (Rabs (rnd64 (V x / V y))) (bpow radix2 1024)) as [L|L].
  - rewrite Rlt_bool_true in H by exact L. unfold d_div. tauto.
  - rewrite Rlt_bool_false in H by exact L. unfold fin, d_div in F. destruct (Bdiv mode_NE x y); try discriminate F; unfold binary_overflow in H; cbn in H; discriminate.
Qed.
(** rounding to nearest at most doubles, because zero is a double *)
Lemma rnd_double z : Rabs (rnd64 z) <= 2 * Rabs z.
Proof.
  destruct (round_N_pt radix2 (FLT_exp (-1074) 53) (fun z => negb (Z.even z)) z) as [_ H]. specialize (H 0 (generic_format_0 _ _)).
  replace (0 - z) with (- z) in H by ring. rewrite Rabs_Ropp in H. replace (rnd64 z) with ((rnd64 z - z) + z) by ring.
  eapply Rle_trans; [apply Rabs_triang|]. unfold rnd64 in *. cbn [round_mode] in *. lra.
Qed.
Lemma sum_bound x y : fmt64 x -> fmt64 y -> Rabs (rnd64 (x + y)) <= 101 / 100 * Rabs (x + y) /\ Rabs (rnd64 (x - y)) <= 101 / 100 * Rabs (x - y).
Proof.
  intros Fx Fy. pose proof u_pos as U0. pose proof u_small as U1.
  assert (G : forall y, fmt64 y -> Rabs (rnd64 (x + y)) <= 101 / 100 * Rabs (x + y)).
  { intros w Fw. pose proof (rnd_error_add x w Fx Fw) as E. replace (rnd64 (x + w)) with ((rnd64 (x + w) - (x + w)) + (x + w)) by ring. eapply Rle_trans; [apply Rabs_triang|].
    assert (u * Rabs (x + w) <= / 1024 * Rabs (x + w)) by (apply Rmult_le_compat_r; [apply Rabs_pos|exact U1]). pose proof (Rabs_pos (x + w)). lra. }
  split; [apply G; exact Fy|]. apply (G (- y)). apply generic_format_opp. exact Fy.
Qed.
Lemma twice_fmt x : fmt64 x -> fmt64 (2 * x).
Proof. intro F. rewrite Rmult_comm. apply (scale_fmt x 1); [lia|exact F]. Qed.
Lemma rnd_thrice x : fmt64 x -> Rabs (rnd64 (3 * x)) <= 101 / 100 * (3 * Rabs x).
Proof.
  intro F. replace (3 * x) with (x + 2 * x) by ring. destruct (sum_bound x (2 * x) F (twice_fmt x F)) as [H _]. eapply Rle_trans; [exact H|].
  replace (x + 2 * x) with (3 * x) by ring. rewrite Rabs_mult, (Rabs_pos_eq 3) by lra. lra.
Qed.
Lemma ofZ_V z : (Z.abs z <= 2 ^ 53)%Z -> V (d_ofZ z) = IZR z.
Proof. intro H. apply (d_ofZ_exact z H). Qed.

Section LastPoint.
Variables xs ys : list dbl.
Hypothesis Ht : tame xs ys.
Hypothesis Hlen : (5 <= length xs)%nat.
Hypothesis Hys : length ys = length xs.
(** a bound on the slopes of the training data *)
Variable Q : R.
Hypothesis HQ : forall i x0 x1 y0 y1, nth_error xs i = Some x0 -> nth_error xs (S i) = Some x1 -> nth_error ys i = Some y0 -> nth_error ys (S i) = Some y1 ->
  Rabs (V y1 - V y0) <= Q * (V x1 - V x0).

Lemma Q_pos : 0 <= Q.
Proof.
  destruct (nth_error xs 0) as [x0|] eqn:X0; [|apply nth_error_None in X0; lia]. destruct (nth_error xs 1) as [x1|] eqn:X1; [|apply nth_error_None in X1; lia].
  destruct (nth_error ys 0) as [y0|] eqn:Y0; [|apply nth_error_None in Y0; lia]. destruct (nth_error ys 1) as [y1|] eqn:Y1; [|apply nth_error_None in Y1; lia].
  pose proof (HQ 0 x0 x1 y0 y1 X0 X1 Y0 Y1) as H. destruct Ht as (_ & _ & S). pose proof (S 0%nat x0 x1 X0 X1) as P. pose proof (bpow_gt_0 radix2 (-100)) as B.
  pose proof (Rabs_pos (V y1 - V y0)). destruct (Rle_lt_dec 0 Q) as [L|L]; [exact L|]. exfalso.
  assert (0 < (- Q) * (V x1 - V x0)) by (apply Rmult_lt_0_compat; lra). lra.
Qed.
(** the computed step and difference *)
Lemma step_near i x0 x1 : nth_error xs i = Some x0 -> nth_error xs (S i) = Some x1 ->
  0 < V x1 - V x0 /\ fin (d_sub x1 x0) /\ 99 / 100 * (V x1 - V x0) <= V (d_sub x1 x0) <= 101 / 100 * (V x1 - V x0) /\ pow2 (-100) <= V (d_sub x1 x0) <= pow2 101.
Proof.
  intros X0 X1. destruct (step_bnd xs ys Ht i x0 x1 X0 X1) as [[F B] L]. destruct Ht as (_ & _ & S). pose proof (S i x0 x1 X0 X1) as P. pose proof (bpow_gt_0 radix2 (-100)) as B0.
  destruct (sub_inv _ _ F) as (F1 & F0 & E). pose proof (rnd_error_add (V x1) (- V x0) (fmt_dbl x1) (generic_format_opp _ _ _ (fmt_dbl x0))) as Er.
  fold (V x1 - V x0) in Er. rewrite <- E in Er. rewrite (Rabs_pos_eq (V x1 - V x0)) in Er by lra. pose proof u_small as U1. pose proof u_pos as U0.
  assert (u * (V x1 - V x0) <= / 1024 * (V x1 - V x0)) by (apply Rmult_le_compat_r; lra). apply Rabs_le_inv in Er. apply Rabs_le_inv in B.
  split; [lra|]. split; [exact F|]. lra.
Qed.
Lemma diff_bound i x0 x1 y0 y1 : nth_error xs i = Some x0 -> nth_error xs (S i) = Some x1 -> nth_error ys i = Some y0 -> nth_error ys (S i) = Some y1 ->
  fin (d_sub y1 y0) /\ Rabs (V (d_sub y1 y0)) <= 101 / 100 * (Q * (V x1 - V x0)) /\ Rabs (V (d_sub y1 y0) - (V y1 - V y0)) <= u * (Q * (V x1 - V x0)).
Proof.
  intros X0 X1 Y0 Y1. pose proof (bnd_sub 100 y1 y0 (y_bnd xs ys Ht _ _ Y1) (y_bnd xs ys Ht _ _ Y0) ltac:(lia)) as [F _]. split; [exact F|].
  destruct (sub_inv _ _ F) as (F1 & F0 & E). pose proof (HQ i x0 x1 y0 y1 X0 X1 Y0 Y1) as H. pose proof u_pos as U0.
  rewrite E. split; [destruct (sum_bound (V y1) (V y0) (fmt_dbl y1) (fmt_dbl y0)) as [_ G]; lra|].
  pose proof (rnd_error_add (V y1) (- V y0) (fmt_dbl y1) (generic_format_opp _ _ _ (fmt_dbl y0))) as Er. fold (V y1 - V y0) in Er. eapply Rle_trans; [exact Er|]. apply Rmult_le_compat_l; lra.
Qed.
Lemma quotient_Q i q : quotient FMath xs ys i = Ok q -> Rabs (V q) <= 206 / 100 * Q.
Proof.
  intro H0. pose proof (quotient_bnd xs ys Ht i q H0) as [Fq _]. revert H0 Fq.
  unfold quotient, at_. change (num FMath) with dbl. destruct (nth_error ys (S i)) as [y1|] eqn:Y1; [|discriminate]. destruct (nth_error ys i) as [y0|] eqn:Y0; [|discriminate].
  destruct (nth_error xs (S i)) as [x1|] eqn:X1; [|discriminate]. destruct (nth_error xs i) as [x0|] eqn:X0; [|discriminate]. cbn [bind].
  intro H. injection H as <-. change (fin (d_div (d_sub y1 y0) (d_sub x1 x0)) -> Rabs (V (d_div (d_sub y1 y0) (d_sub x1 x0))) <= 206 / 100 * Q). intro Fq.
  destruct (step_near i x0 x1 X0 X1) as (P & _ & [S1 S2] & _). destruct (diff_bound i x0 x1 y0 y1 X0 X1 Y0 Y1) as (_ & D & _). pose proof Q_pos as PQ.
  assert (N0 : V (d_sub x1 x0) <> 0) by lra. destruct (div_inv _ _ N0 Fq) as [_ E]. rewrite E. eapply Rle_trans; [apply rnd_double|]. set (h := V (d_sub x1 x0)) in *.
  replace (206 / 100 * Q) with (2 * (103 / 100 * Q)) by field. apply Rmult_le_compat_l; [lra|]. unfold Rdiv. rewrite Rabs_mult, Rabs_inv, (Rabs_pos_eq h) by lra.
  apply (Rmult_le_reg_r h); [lra|]. rewrite Rmult_assoc, Rinv_l, Rmult_1_r by lra. eapply Rle_trans; [exact D|].
  apply Rle_trans with (103 * / 100 * Q * (99 / 100 * (V x1 - V x0))); [|apply Rmult_le_compat_l; lra]. pose proof (Rmult_le_pos _ _ PQ (Rlt_le _ _ P)). lra.
Qed.
Lemma m_Q (m : list dbl) : calculate_m FMath xs ys = Ok m -> forall i (v : dbl), nth_error m i = Some v -> Rabs (V v) <= 11 * Q.
Proof.
  intros E i v Hv. pose proof (m_bnd xs ys Ht Hlen Hys m E i v Hv) as [Fv _]. pose proof Q_pos as PQ. revert Fv.
  destruct (calculate_m_ok FMath xs ys Hys Hlen) as (mid & m2 & m3 & e & e' & Em & Lm & N2 & N3 & Ne & Ne' & E').
  assert (G : forall i q, nth_error mid i = Some q -> Rabs (V q) <= 206 / 100 * Q) by (intros j q Hq; apply (mapM_seq_nth _ _ _ _ _ Em) in Hq as [_ Hq]; exact (quotient_Q _ _ Hq)).
  pose proof (eq_trans (eq_sym E) E') as EE. injection EE as ->. apply G in N2, N3, Ne, Ne'.
  assert (T3 : forall x y : dbl, Rabs (V x) <= 206 / 100 * Q -> Rabs (V y) <= 206 / 100 * Q -> fin (d_sub (d_mul (d_ofZ 3) x) (d_mul (d_ofZ 2) y)) -> Rabs (V (d_sub (d_mul (d_ofZ 3) x) (d_mul (d_ofZ 2) y))) <= 11 * Q).
  { intros x y Bx By F. destruct (sub_inv _ _ F) as (F1 & F2 & ->). destruct (mul_inv _ _ F1) as (_ & _ & E1). destruct (mul_inv _ _ F2) as (_ & _ & E2).
    destruct (sum_bound _ _ (fmt_dbl (d_mul (d_ofZ 3) x)) (fmt_dbl (d_mul (d_ofZ 2) y))) as [_ S]. eapply Rle_trans; [exact S|].
    rewrite E1, E2, !ofZ_V by (cbn; lia). rewrite (rnd_id _ (twice_fmt _ (fmt_dbl y))). pose proof (rnd_thrice _ (fmt_dbl x)) as R3.
    assert (Rabs (rnd64 (3 * V x) - 2 * V y) <= 101 / 100 * (3 * Rabs (V x)) + 2 * Rabs (V y)).
    { unfold Rminus. eapply Rle_trans; [apply Rabs_triang|]. rewrite Rabs_Ropp, (Rabs_mult 2), (Rabs_pos_eq 2) by lra. lra. }
    lra. }
  assert (T2 : forall x y : dbl, Rabs (V x) <= 206 / 100 * Q -> Rabs (V y) <= 206 / 100 * Q -> fin (d_sub (d_mul (d_ofZ 2) x) y) -> Rabs (V (d_sub (d_mul (d_ofZ 2) x) y)) <= 11 * Q).
  { intros x y Bx By F. destruct (sub_inv _ _ F) as (F1 & F2 & ->). destruct (mul_inv _ _ F1) as (_ & _ & E1).
    destruct (sum_bound _ _ (fmt_dbl (d_mul (d_ofZ 2) x)) (fmt_dbl y)) as [_ S]. eapply Rle_trans; [exact S|].
    rewrite E1, !ofZ_V by (cbn; lia). rewrite (rnd_id _ (twice_fmt _ (fmt_dbl x))).
    assert (Rabs (2 * V x - V y) <= 2 * Rabs (V x) + Rabs (V y)).
    { unfold Rminus. eapply Rle_trans; [apply Rabs_triang|]. rewrite Rabs_Ropp, (Rabs_mult 2), (Rabs_pos_eq 2) by lra. lra. }
    lra. }
  apply nth_error_In in Hv. cbn [In] in Hv. rewrite in_app_iff in Hv. cbn [In] in Hv.
  destruct Hv as [<-|[<-|[Hv|[<-|[<-|[]]]]]]; try (apply T3; assumption); try (apply T2; assumption).
  intros _. apply In_nth_error in Hv as (j & Hj). apply G in Hj. lra.
Qed.
Lemma slope_Q (m : list dbl) i (v : dbl) : calculate_m FMath xs ys = Ok m -> slope FMath m i = Ok v -> Rabs (V v) <= 46 * Q.
Proof.
  intros Em H0. pose proof (slope_bnd xs ys Ht Hlen Hys m i v Em H0) as [Fv _]. pose proof (m_bnd xs ys Ht Hlen Hys m Em) as B. pose proof (m_Q m Em) as G. pose proof Q_pos as PQ. revert H0.
  unfold slope, at_. change (num FMath) with dbl.
  destruct (nth_error m i) as [m0|] eqn:E0; [|discriminate]. destruct (nth_error m (i + 1)) as [m1|] eqn:E1; [|discriminate].
  destruct (nth_error m (i + 2)) as [m2|] eqn:E2; [|discriminate]. destruct (nth_error m (i + 3)) as [m3|] eqn:E3; [|discriminate]. cbn [bind].
  pose proof (G _ _ E1) as G1. pose proof (G _ _ E2) as G2. apply B in E0, E1, E2, E3. intro H.
  assert (H' : v = (if d_eqb (d_add (Babs (d_sub m3 m2)) (Babs (d_sub m1 m0))) (d_ofZ 0) then d_mul (d_div (d_ofZ 1) (d_ofZ 2)) (d_add m1 m2)
                    else d_div (d_add (d_mul m1 (Babs (d_sub m3 m2))) (d_mul m2 (Babs (d_sub m1 m0)))) (d_add (Babs (d_sub m3 m2)) (Babs (d_sub m1 m0))))).
  { apply (f_equal (fun o : outcome dbl => match o with Ok w => w | _ => v end)) in H. symmetry. exact H. }
  clear H.
  pose proof (bnd_sub 204 m3 m2 E3 E2 ltac:(lia)) as D32. pose proof (bnd_sub 204 m1 m0 E1 E0 ltac:(lia)) as D10.
  change (204 + 1)%Z with 205%Z in *. destruct D32 as [F32 B32], D10 as [F10 B10]. destruct (abs_fin _ F32) as [G32 A32]. destruct (abs_fin _ F10) as [G10 A10].
  assert (C32 : bnd 205 (Babs (d_sub m3 m2))) by (split; [exact G32|rewrite A32, Rabs_Rabsolu; exact B32]).
  assert (C10 : bnd 205 (Babs (d_sub m1 m0))) by (split; [exact G10|rewrite A10, Rabs_Rabsolu; exact B10]).
  assert (Pa : 0 <= V (Babs (d_sub m3 m2))) by (rewrite A32; apply Rabs_pos). assert (Pb : 0 <= V (Babs (d_sub m1 m0))) by (rewrite A10; apply Rabs_pos).
  set (a := Babs (d_sub m3 m2)) in *. set (b := Babs (d_sub m1 m0)) in *. clear A32 A10.
  destruct (d_eqb (d_add a b) (d_ofZ 0)) eqn:Z; rewrite H' in Fv |- *; clear H'.
  - destruct (mul_inv _ _ Fv) as (Fh & Fs & ->). destruct (add_inv _ _ Fs) as (_ & _ & Es). destruct (div_inv (d_ofZ 1) (d_ofZ 2)) as (_ & Eh); [rewrite ofZ_V by (cbn; lia); lra|exact Fh|].
    eapply Rle_trans; [apply rnd_double|]. rewrite Eh, Es, !ofZ_V by (cbn; lia). rewrite Rabs_mult.
    assert (Hh : Rabs (rnd64 (1 / 2)) <= 1) by (eapply Rle_trans; [apply rnd_double|]; rewrite Rabs_pos_eq; lra).
    destruct (sum_bound _ _ (fmt_dbl m1) (fmt_dbl m2)) as [S _]. assert (Rabs (V m1 + V m2) <= 22 * Q) by (eapply Rle_trans; [apply Rabs_triang|]; lra).
    apply Rle_trans with (2 * (1 * (2223 / 100 * Q))); [|lra]. apply Rmult_le_compat_l; [lra|]. apply Rmult_le_compat; auto using Rabs_pos. lra.
  - pose proof (bnd_add 205 a b C32 C10 ltac:(lia)) as [Fs _]. destruct (add_inv _ _ Fs) as (_ & _ & Es).
    assert (N : V (d_add a b) <> 0).
    { intro E. destruct (d_ofZ_exact 0 ltac:(cbn; lia)) as [F0 V0].
      assert (T : d_eqb (d_add a b) (d_ofZ 0) = true); [|congruence]. unfold d_eqb. rewrite (Beqb_correct dprec demax _ _ Fs F0), E, V0. apply Req_bool_true. reflexivity. }
    destruct (div_inv _ _ N Fv) as (Fn & ->). destruct (add_inv _ _ Fn) as (Fp & Fq & En). destruct (mul_inv _ _ Fp) as (_ & _ & Ep). destruct (mul_inv _ _ Fq) as (_ & _ & Eq).
    pose proof (rnd_error_add (V a) (V b) (fmt_dbl a) (fmt_dbl b)) as Ed. rewrite <- Es in Ed. rewrite (Rabs_pos_eq (V a + V b)) in Ed by lra. apply Rabs_le_inv in Ed.
    pose proof u_pos as U0. pose proof u_small as U1. set (t := V a + V b) in *.
    assert (ab : 0 < t). { destruct (Rle_lt_dec t 0) as [K|K]; [|exact K]. exfalso. apply N. assert (t = 0) by (unfold t in *; lra). rewrite H in Ed. lra. }
    assert (Hu : u * t <= / 1024 * t) by (apply Rmult_le_compat_r; lra). assert (D : 1023 / 1024 * t <= V (d_add a b)) by lra.
    assert (Pp : Rabs (V (d_mul m1 a)) <= 22 * Q * V a). { rewrite Ep. eapply Rle_trans; [apply rnd_double|]. rewrite Rabs_mult, (Rabs_pos_eq (V a)) by exact Pa. pose proof (Rmult_le_compat_r (V a) _ _ Pa G1). lra. }
    assert (Pq : Rabs (V (d_mul m2 b)) <= 22 * Q * V b). { rewrite Eq. eapply Rle_trans; [apply rnd_double|]. rewrite Rabs_mult, (Rabs_pos_eq (V b)) by exact Pb. pose proof (Rmult_le_compat_r (V b) _ _ Pb G2). lra. }
    assert (Nm : Rabs (V (d_add (d_mul m1 a) (d_mul m2 b))) <= 101 / 100 * (22 * Q * t)).
    { rewrite En. destruct (sum_bound _ _ (fmt_dbl (d_mul m1 a)) (fmt_dbl (d_mul m2 b))) as [S _]. eapply Rle_trans; [exact S|]. apply Rmult_le_compat_l; [lra|]. eapply Rle_trans; [apply Rabs_triang|]. unfold t. lra. }
    eapply Rle_trans; [apply rnd_double|]. replace (46 * Q) with (2 * (23 * Q)) by ring. apply Rmult_le_compat_l; [lra|].
    unfold Rdiv. rewrite Rabs_mult, Rabs_inv, (Rabs_pos_eq (V (d_add a b))) by lra. apply (Rmult_le_reg_r (V (d_add a b))); [lra|].
    rewrite Rmult_assoc, Rinv_l, Rmult_1_r by lra. eapply Rle_trans; [exact Nm|]. apply Rle_trans with (23 * Q * (1023 / 1024 * t)); [|apply Rmult_le_compat_l; lra].
    pose proof (Rmult_le_pos _ _ PQ (Rlt_le _ _ ab)). lra.
Qed.
End LastPoint.

(** ** C52 at the last training point in double precision. If [Q] bounds the slopes between neighbouring training points, the value at
    the last point differs from the training value by at most 2^-40 (|y_(n-2)| + Q h) + 2^-700, [h] the length of the last interval. *)
Theorem C52_last_binary64 : forall (old s : spline FMath) (xs ys : list dbl) (Q : R), (5 <= length xs)%nat -> length ys = length xs -> tame xs ys ->
  initialize FMath old xs ys = (s, Ok tt) ->
  (forall i x0 x1 y0 y1, nth_error xs i = Some x0 -> nth_error xs (S i) = Some x1 -> nth_error ys i = Some y0 -> nth_error ys (S i) = Some y1 ->
     Rabs (V y1 - V y0) <= Q * (V x1 - V x0)) ->
  forall i x0 x1 y0 y1, S (S i) = length xs -> nth_error xs i = Some x0 -> nth_error xs (S i) = Some x1 -> nth_error ys i = Some y0 -> nth_error ys (S i) = Some y1 ->
  exists v : dbl, value FMath s x1 = Ok v /\ is_finite v = true /\
    Rabs (V v - V y1) <= pow2 (-40) * (Rabs (V y0) + Q * (V x1 - V x0)) + pow2 (-700).
Proof.
  intros old s xs ys Q Hlen Hys Ht Hinit HQ i x0 x1 y0 y1 Hi X0 X1 Y0 Y1.
  destruct (f_fields xs ys Ht Hlen Hys old s Hinit) as (Ex & m & sl & Em & Es & Ls & Co). destruct (Co i ltac:(lia)) as (c & Nc & Pc & Bc).
  pose proof (x_bnd xs ys Ht _ _ X1) as [Fx1 _]. pose proof (V_increasing xs ys Ht) as Inc. assert (Lm : length (map V xs) = length xs) by apply map_length.
  assert (L : (5 <= length (map V xs))%nat) by (rewrite Lm; exact Hlen).
  assert (Vx : forall j y, nth_error xs j = Some y -> nth j (map V xs) 0 = V y) by (intros j y Hy; apply nth_error_nth; apply map_nth_error; exact Hy).
  assert (Rs : resolve_interval FMath xs x1 = Ok i).
  { rewrite (resolve_V xs ys Ht x1 Fx1). assert (Nl : (length (map V xs) - 1)%nat = S i) by (rewrite Lm; lia).
    destruct (resolve_in (map V xs) (map V xs) L eq_refl Inc (V x1)) as (j & Rj & Hj & _ & Hx).
    { cbv beta. rewrite Nl, (Vx _ _ X1). split; [|apply Rle_refl]. rewrite <- (Vx _ _ X1). apply (X_le (map V xs) (map V xs) L eq_refl Inc 0 (S i)); rewrite ?Lm; lia. }
    rewrite Rj. f_equal. rewrite Nl in Hj. destruct (Nat.eq_dec j i) as [E|E]; [exact E|exfalso].
    pose proof (X_le (map V xs) (map V xs) L eq_refl Inc (S j) i ltac:(lia) ltac:(rewrite Lm; lia)) as K. pose proof (X_step (map V xs) (map V xs) L eq_refl Inc i ltac:(rewrite Lm; lia)) as K'.
    cbv beta in K, K', Hx. rewrite (Vx _ _ X1) in K'. lra. }
  unfold value. rewrite Ex, Rs. cbn [bind]. unfold at_. change (num FMath) with dbl. rewrite X0, Nc. cbn [bind]. exists (eval FMath c (d_sub x1 x0)). split; [reflexivity|].
  destruct (step_near xs ys Ht i x0 x1 X0 X1) as (Ph & Fh & [h1 h2] & Hh). destruct (diff_bound xs ys Ht Hlen Hys Q HQ i x0 x1 y0 y1 X0 X1 Y0 Y1) as (Fd & Bd & Ed).
  assert (Fe : is_finite (eval FMath c (d_sub x1 x0)) = true) by (apply eval_fin; [exact Bc|split; [exact Fh|apply Rabs_le; pose proof (bpow_gt_0 radix2 (-100)); lra]]).
  split; [exact Fe|].
  unfold piece, at_ in Pc. change (num FMath) with dbl in Pc. rewrite X0, X1, Y0, Y1 in Pc. cbn [bind] in Pc.
  destruct (nth_error sl i) as [s0|] eqn:S0; [|discriminate]. destruct (nth_error sl (S i)) as [s1|] eqn:S1; [|discriminate]. cbn [bind] in Pc.
  apply (mapM_seq_nth _ _ _ _ _ Es) in S0 as [_ S0]. apply (mapM_seq_nth _ _ _ _ _ Es) in S1 as [_ S1].
  pose proof (slope_Q xs ys Ht Hlen Hys Q HQ m _ _ Em S0) as B0. pose proof (slope_Q xs ys Ht Hlen Hys Q HQ m _ _ Em S1) as B1.
  assert (Ec : c = Cubic FMath y0 s0 (d_div (d_sub (d_sub (d_div (d_mul (d_ofZ 3) (d_sub y1 y0)) (d_sub x1 x0)) (d_mul (d_ofZ 2) s0)) s1) (d_sub x1 x0))
    (d_div (d_sub (d_add s1 s0) (d_div (d_mul (d_ofZ 2) (d_sub y1 y0)) (d_sub x1 x0))) (d_mul (d_sub x1 x0) (d_sub x1 x0)))).
  { apply (f_equal (fun o => match o with Ok w => w | _ => c end)) in Pc. symmetry. exact Pc. }
  clear Pc Co Es Nc. pose proof (Q_pos xs ys Ht Hlen Hys Q HQ) as PQ.
  set (h := d_sub x1 x0) in *. set (d := d_sub y1 y0) in *.
  pose proof (bpow_gt_0 radix2 (-100)) as P100. assert (Nh : V h <> 0) by lra.
  assert (Ev : eval FMath c h = d_add (d_add (d_add (q0 FMath c) (d_mul (q1 FMath c) h)) (d_mul (q2 FMath c) (d_mul h h))) (d_mul (q3 FMath c) (d_mul (d_mul h h) h))) by reflexivity.
  rewrite Ev in Fe |- *. clear Ev Bc. rewrite Ec in Fe |- *. clear Ec. cbn [q0 q1 q2 q3] in Fe |- *.
  destruct (add_inv _ _ Fe) as (Fa & F3 & E). destruct (add_inv _ _ Fa) as (Fb & F2 & Ea). destruct (add_inv _ _ Fb) as (_ & F1 & Eb).
  destruct (mul_inv _ _ F1) as (_ & _ & E1). destruct (mul_inv _ _ F2) as (Fq2 & Fhh & E2). destruct (mul_inv _ _ F3) as (Fq3 & Fhhh & E3).
  destruct (mul_inv _ _ Fhh) as (_ & _ & Ehh). destruct (mul_inv _ _ Fhhh) as (_ & _ & Ehhh).
  assert (Nhh : V (d_mul h h) <> 0).
  { rewrite Ehh. intro Z. pose proof (rnd_ge_fmt (pow2 (-200)) (V h * V h)) as K. pose proof (bpow_gt_0 radix2 (-200)). rewrite Z in K.
    assert (pow2 (-200) <= 0); [|lra]. apply K; [|apply generic_format_bpow'; [typeclasses eauto|unfold FLT_exp; lia]].
    change (-200)%Z with (-100 + -100)%Z. rewrite bpow_plus. apply Rmult_le_compat; try apply bpow_ge_0; lra. }
  destruct (div_inv _ _ Nh Fq2) as (Fq2n & Eq2). destruct (sub_inv _ _ Fq2n) as (Fq2a & _ & Eq2a). destruct (sub_inv _ _ Fq2a) as (Fq2b & F2s & Eq2b).
  destruct (div_inv _ _ Nh Fq2b) as (F3d & Eq2c). destruct (mul_inv _ _ F3d) as (_ & _ & E3d). destruct (mul_inv _ _ F2s) as (_ & _ & E2s).
  destruct (div_inv _ _ Nhh Fq3) as (Fq3n & Eq3). destruct (sub_inv _ _ Fq3n) as (Fss & Fq3b & Eq3a). destruct (add_inv _ _ Fss) as (_ & _ & Ess).
  destruct (div_inv _ _ Nh Fq3b) as (F2d & Eq3c). destruct (mul_inv _ _ F2d) as (_ & _ & E2d).
  pose proof (result_error y0 s0 s1 d h Hh) as RE. cbv zeta in RE.
  rewrite ofZ_V in E3d, E2s, E2d by (cbn; lia).
  rewrite <- Ehh, <- Ehhh, <- E3d, <- E2d, <- E2s, <- Eq2c, <- Eq3c, <- Ess, <- Eq3a, <- Eq2b, <- Eq2a, <- Eq2, <- Eq3, <- E1, <- E2, <- E3, <- Eb, <- Ea, <- E in RE.
  match type of RE with Rabs (?r - _) <= _ => set (v := r) in * end.
  set (w := V x1 - V x0) in *. assert (PQw : 0 <= Q * w) by (apply Rmult_le_pos; lra).
  assert (Bs : V h * (Rabs (V s0) + Rabs (V s1)) <= 93 * (Q * w)).
  { apply Rle_trans with (101 / 100 * w * (92 * Q)); [apply Rmult_le_compat; try lra; pose proof (Rabs_pos (V s0)); pose proof (Rabs_pos (V s1)); lra|]. lra. }
  pose proof u_pos as U0. set (mm := Rabs (V d) + V h * (Rabs (V s0) + Rabs (V s1))) in *.
  assert (Bm : mm <= 95 * (Q * w)) by (unfold mm; lra).
  assert (K : 25 * u * (Rabs (V y0) + 3 * mm) <= 8000 * u * (Rabs (V y0) + Q * w)).
  { pose proof (Rabs_pos (V y0)) as PY. apply Rle_trans with (u * (25 * Rabs (V y0) + 75 * 95 * (Q * w))); [|assert (u * (25 * Rabs (V y0) + 75 * 95 * (Q * w)) <= u * (8000 * (Rabs (V y0) + Q * w))) by (apply Rmult_le_compat_l; lra); lra].
    replace (25 * u * (Rabs (V y0) + 3 * mm)) with (u * (25 * Rabs (V y0) + 75 * mm)) by ring. apply Rmult_le_compat_l; lra. }
  assert (U : 8192 * u = pow2 (-40)) by (unfold u; change 8192 with (pow2 13); rewrite <- bpow_plus; reflexivity).
  assert (EP : 40 * (eta * pow2 303) <= pow2 (-700)).
  { apply Rle_trans with (pow2 6 * (eta * pow2 303)); [apply Rmult_le_compat_r; [apply Rmult_le_pos; [unfold eta|]; apply bpow_ge_0|change (pow2 6) with 64; lra]|]. unfold eta. rewrite <- !bpow_plus. apply bpow_le. lia. }
  replace (v - V y1) with ((v - (V y0 + V d)) + (V d - (V y1 - V y0))) by ring. eapply Rle_trans; [apply Rabs_triang|].
  assert (Pz : 0 <= u * (Rabs (V y0) + Q * w)) by (apply Rmult_le_pos; [lra|]; pose proof (Rabs_pos (V y0)); lra).
  rewrite <- U. assert (u * (Q * w) <= u * (Rabs (V y0) + Q * w)) by (apply Rmult_le_compat_l; [lra|]; pose proof (Rabs_pos (V y0)); lra). lra.
Qed.

(** ** The last training value is missed, and training values near the largest double give NaN *)
Definition ex_x : list dbl := map d_ofZ [0; 1; 2; 3; 6]%Z.
Definition ex_y : list dbl := map d_ofZ [0; 0; 0; 0; 1]%Z.
Definition big (neg : bool) : dbl := let b := d_ofZ (17 * 10 ^ 307) in if neg then d_sub (d_ofZ 0) b else b.
Definition ex_big : list dbl := map big [true; false; true; false; true].
Definition ex_x5 : list dbl := map d_ofZ [0; 1; 2; 3; 4]%Z.
(** the object after Initialize *)
Definition trained (xs ys : list dbl) : spline FMath := fst (initialize FMath (new_spline FMath) xs ys).
Definition test (xs ys : list dbl) (x : dbl) (p : dbl -> bool) : bool :=
  (match initialize FMath (new_spline FMath) xs ys with (_, Ok _) => true | _ => false end &&
   match value FMath (trained xs ys) x with Ok v => p v | _ => false end)%bool.
Lemma test_ok xs ys x p : test xs ys x p = true -> initialize FMath (new_spline FMath) xs ys = (trained xs ys, Ok tt) /\ exists v : dbl, value FMath (trained xs ys) x = Ok v /\ p v = true.
Proof.
  unfold test, trained. intro H. apply andb_prop in H as [H1 H2]. destruct (initialize FMath (new_spline FMath) xs ys) as [s o]. cbn [fst] in *.
  destruct o as [[]| |]; try discriminate H1. split; [reflexivity|]. destruct (value FMath s x) as [v| |]; try discriminate H2. eauto.
Qed.
Lemma ex_last : test ex_x ex_y (d_ofZ 6) (fun v => d_ltb v (d_ofZ 1) && is_finite v)%bool = true. Proof. vm_compute. reflexivity. Qed.
Lemma ex_over : test ex_x5 ex_big (d_ofZ 0) (fun v => negb (d_eqb v v))%bool = true. Proof. vm_compute. reflexivity. Qed.
Lemma ex_over_fin : forallb (fun v : dbl => is_finite v) (ex_x5 ++ ex_big) = true. Proof. vm_compute. reflexivity. Qed.

Lemma ex_nth {A} (f : Z -> A) l i v : nth_error (map f l) i = Some v -> exists z, nth_error l i = Some z /\ v = f z.
Proof. intro H. destruct (nth_map f l i v H) as (z & Hz & E). exists z. split; [exact Hz|]. symmetry. exact E. Qed.
Lemma ex_tame : tame ex_x ex_y.
Proof.
  assert (B : forall z, (Z.abs z <= 6)%Z -> is_finite (d_ofZ z) = true /\ Rabs (V (d_ofZ z)) <= pow2 100).
  { intros z Hz. destruct (d_ofZ_exact z ltac:(lia)) as [F E]. split; [exact F|]. rewrite E, <- abs_IZR. apply Rle_trans with (pow2 3); [|apply bpow_le; lia].
    change (pow2 3) with 8. apply IZR_le. lia. }
  split; [|split].
  - intros x Hx. apply in_map_iff in Hx as (z & <- & Hz). apply B. cbn in Hz. lia.
  - intros x Hx. apply in_map_iff in Hx as (z & <- & Hz). apply B. cbn in Hz. lia.
  - assert (G : forall a b, (Z.abs a <= 6)%Z -> (Z.abs b <= 6)%Z -> (a + 1 <= b)%Z -> V (d_ofZ a) + pow2 (-100) <= V (d_ofZ b)).
    { intros a b Ha Hb L. rewrite !ofZ_V by lia. assert (pow2 (-100) <= 1) by (change 1 with (pow2 0); apply bpow_le; lia). apply IZR_le in L. rewrite plus_IZR in L. lra. }
    intros i a b Ha Hb. apply ex_nth in Ha as (p & Hp & ->). apply ex_nth in Hb as (q & Hq & ->).
    do 5 (destruct i as [|i]; [cbn in Hp, Hq; try discriminate Hq; injection Hp as <-; injection Hq as <-; apply G; lia|]). destruct i; discriminate Hp.
Qed.

(** The spline of the points (0,0), (1,0), (2,0), (3,0), (6,1) is below 1 at 6: the bound of C52_last_binary64 is not zero. *)
Theorem C52_last_refuted : exists (s : spline FMath) (xs ys : list dbl) (x y v : dbl), (5 <= length xs)%nat /\ length ys = length xs /\ tame xs ys /\
  initialize FMath (new_spline FMath) xs ys = (s, Ok tt) /\ nth_error xs (length xs - 1) = Some x /\ nth_error ys (length xs - 1) = Some y /\
  value FMath s x = Ok v /\ is_finite v = true /\ V v < V y.
Proof.
  destruct (test_ok _ _ _ _ ex_last) as (I & v & E & P). apply andb_prop in P as [P F].
  exists (trained ex_x ex_y), ex_x, ex_y, (d_ofZ 6), (d_ofZ 1), v. split; [cbn; lia|]. split; [reflexivity|]. split; [exact ex_tame|]. split; [exact I|].
  split; [reflexivity|]. split; [reflexivity|]. split; [exact E|]. split; [exact F|]. apply d_ltb_R; [exact F|apply (d_ofZ_exact 1); cbn; lia|exact P].
Qed.
(** Finite training values of alternating sign near the largest double: the spline is NaN at its first training point. *)
Theorem C52_overflow_refuted : exists (s : spline FMath) (xs ys : list dbl) (x v : dbl), (5 <= length xs)%nat /\ length ys = length xs /\
  (forall t, In t (xs ++ ys) -> is_finite t = true) /\ increasing (map V xs) /\
  initialize FMath (new_spline FMath) xs ys = (s, Ok tt) /\ nth_error xs 0 = Some x /\ value FMath s x = Ok v /\ is_nan v = true.
Proof.
  destruct (test_ok _ _ _ _ ex_over) as (I & v & E & P). exists (trained ex_x5 ex_big), ex_x5, ex_big, (d_ofZ 0), v. split; [cbn; lia|]. split; [reflexivity|].
  split; [apply forallb_forall; exact ex_over_fin|]. split.
  { intros i a b Ha Hb. apply nth_map in Ha as (p & P' & <-). apply nth_map in Hb as (q & Q & <-). apply ex_nth in P' as (z & Hz & ->). apply ex_nth in Q as (w & Hw & ->).
    assert (W : (Z.abs z <= 4 /\ Z.abs w <= 4 /\ z < w)%Z).
    { do 5 (destruct i as [|i]; [cbn in Hz, Hw; try discriminate Hw; injection Hz as <-; injection Hw as <-; lia|]). destruct i; discriminate Hz. }
    rewrite !ofZ_V by lia. apply IZR_lt. lia. }
  split; [exact I|]. split; [reflexivity|]. split; [exact E|].
  destruct (is_nan v) eqn:N; [reflexivity|exfalso]. unfold d_eqb in P. apply negb_true_iff in P. 
  destruct v as [sg|sg| |sg mm e bb]; try discriminate N; [destruct sg; discriminate P|destruct sg; discriminate P|].
  rewrite (Beqb_correct dprec demax (B754_finite sg mm e bb) (B754_finite sg mm e bb) eq_refl eq_refl), Req_bool_true in P by reflexivity. discriminate P.
Qed.

(** A case of C52_last_binary64: the data above, with Q = 1. *)
Lemma last_example : exists v : dbl, value FMath (trained ex_x ex_y) (d_ofZ 6) = Ok v /\ is_finite v = true /\ Rabs (V v - 1) <= pow2 (-40) * 3 + pow2 (-700).
Proof.
  destruct (test_ok _ _ _ _ ex_last) as (I & _).
  destruct (C52_last_binary64 (new_spline FMath) _ ex_x ex_y 1 ltac:(cbn; lia) eq_refl ex_tame I) with (i := 3%nat) (x0 := d_ofZ 3) (x1 := d_ofZ 6) (y0 := d_ofZ 0) (y1 := d_ofZ 1) as (v & E & F & B); try reflexivity.
  - intros i x0 x1 y0 y1 X0 X1 Y0 Y1. apply ex_nth in X0 as (a & X0 & ->). apply ex_nth in X1 as (b & X1 & ->). apply ex_nth in Y0 as (c & Y0 & ->). apply ex_nth in Y1 as (d & Y1 & ->).
    assert (W : (Z.abs a <= 6 /\ Z.abs b <= 6 /\ Z.abs c <= 1 /\ Z.abs d <= 1 /\ Z.abs (d - c) <= b - a)%Z).
    { do 5 (destruct i as [|i]; [cbn in X0, X1, Y0, Y1; try discriminate X1; injection X0 as <-; injection X1 as <-; injection Y0 as <-; injection Y1 as <-; lia|]). destruct i; discriminate X0. }
    destruct W as (W1 & W2 & W3 & W4 & W5). rewrite !ofZ_V by lia. rewrite <- !minus_IZR, <- abs_IZR, Rmult_1_l. apply IZR_le. exact W5.
  - exists v. split; [exact E|]. split; [exact F|]. rewrite !ofZ_V in B by (cbn; lia). rewrite Rabs_R0 in B. eapply Rle_trans; [exact B|]. lra.
Qed.
Print Assumptions C52_last_binary64. Print Assumptions C52_last_refuted. Print Assumptions C52_overflow_refuted.
