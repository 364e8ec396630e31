(** C19, C42 and C51 in binary64: what the formulas proved in exact arithmetic give in doubles. *)
From Coq Require Import Reals Psatz.
From Flocq Require Import Core.Core IEEE754.BinarySingleNaN.
From Verif Require Import Base Num DblOrder IntProofs FloatLemmas RoundError PropQuantise Random Mutators Scales Searches CounterProofs.
Local Open Scope R_scope.

Lemma u_tiny : u <= / 1048576. Proof. unfold u. change (/ 1048576) with (bpow radix2 (-20)). apply bpow_le. lia. Qed.
Lemma Rabs_pos_id x : 0 <= x -> Rabs x = x. Proof. apply Rabs_pos_eq. Qed.
Lemma uu x : 0 <= x -> u * x <= / 1048576 * x.
Proof. intro H. apply Rmult_le_compat_r; [exact H|exact u_tiny]. Qed.
Lemma up x : 0 <= x -> 0 <= u * x.
Proof. intro H. apply Rmult_le_pos; [left; apply u_pos|exact H]. Qed.
Lemma abs_split x y : Rabs (x - y) <= Rabs x + Rabs y.
Proof. unfold Rminus. eapply Rle_trans; [apply Rabs_triang|]. rewrite Rabs_Ropp. lra. Qed.
Lemma pow_mono a b : (a <= b)%Z -> bpow radix2 a <= bpow radix2 b. Proof. apply bpow_le. Qed.
Lemma rnd_nonneg x : 0 <= x -> 0 <= rnd64 x.
Proof. intro H. rewrite <- rnd_0. apply rnd_le. exact H. Qed.
Lemma fin_sub (x y : dbl) : fin x -> fin y -> Rabs (V x - V y) <= bpow radix2 1023 -> fin (d_sub x y) /\ V (d_sub x y) = rnd64 (V x - V y).
Proof. intros. apply d_sub_finite; auto. apply no_overflow; auto. Qed.
Lemma fin_add (x y : dbl) : fin x -> fin y -> Rabs (V x + V y) <= bpow radix2 1023 -> fin (d_add x y) /\ V (d_add x y) = rnd64 (V x + V y).
Proof. intros. apply d_add_finite; auto. apply no_overflow; auto. Qed.
Lemma fin_mul (x y : dbl) : fin x -> fin y -> Rabs (V x * V y) <= bpow radix2 1023 -> fin (d_mul x y) /\ V (d_mul x y) = rnd64 (V x * V y).
Proof. intros. apply d_mul_finite; auto. apply no_overflow; auto. Qed.
Lemma fin_div (x y : dbl) : fin x -> V y <> 0 -> Rabs (V x / V y) <= bpow radix2 1023 -> fin (d_div x y) /\ V (d_div x y) = rnd64 (V x / V y).
Proof. intros. apply d_div_finite; auto. apply no_overflow; auto. Qed.

(** ** C19: the linear mutator's probability *)
Section Linear.
Variables (s e : dbl) (maxgen : Z).
Hypothesis Fs : fin s. Hypothesis Fe : fin e.
Hypothesis Rs : 0 <= V s <= 1. Hypothesis Re : 0 <= V e <= 1.
Hypothesis Rm : (2 <= maxgen <= 2 ^ 31)%Z.
Let n : R := IZR (maxgen - 1).
Let P (cur : Z) : dbl := lin_probability FNum (MkLin FNum s e cur maxgen).
Let A : R := rnd64 (V e - V s).
Let T (cur : Z) : R := rnd64 (rnd64 (rnd64 (A * IZR cur) / n) + V s).
Lemma n_pos : 1 <= n. Proof. unfold n. apply IZR_le. lia. Qed.
Lemma A_err : Rabs (A - (V e - V s)) <= u.
Proof.
  assert (H : Rabs (V e - V s) <= 1) by (apply Rabs_le; lra).
  assert (H0 : Rabs (rnd64 (V e + - V s) - (V e + - V s)) <= u * Rabs (V e + - V s)) by (apply rnd_error_add; [apply fmt_dbl|apply generic_format_opp, fmt_dbl]).
  unfold A, Rminus in *. eapply Rle_trans; [exact H0|]. rewrite <- (Rmult_1_r u) at 2. apply Rmult_le_compat_l; [left; apply u_pos|exact H].
Qed.
Lemma A_abs : Rabs A <= 1.
Proof. change 1 with (bpow radix2 0). apply rnd_bound; [lia|]. change (bpow radix2 0) with 1. apply Rabs_le. lra. Qed.
Lemma ratio cur : (0 <= cur <= maxgen - 1)%Z -> 0 <= IZR cur <= n /\ 0 <= IZR cur / n <= 1.
Proof.
  intro H. assert (0 <= IZR cur <= n) by (unfold n; split; apply IZR_le; lia). pose proof n_pos. split; [assumption|].
  split; [apply Rmult_le_pos; [lra|left; apply Rinv_0_lt_compat; lra]|].
  apply Rmult_le_reg_r with n; [lra|]. unfold Rdiv. rewrite Rmult_assoc, Rinv_l by lra. lra.
Qed.
Lemma n_le : n <= bpow radix2 31.
Proof. unfold n. change (bpow radix2 31) with (IZR (2 ^ 31)). apply IZR_le. lia. Qed.

Lemma steps cur : (0 <= cur <= maxgen - 1)%Z ->
  Rabs (rnd64 (A * IZR cur) - A * IZR cur) <= u * n + eta /\ Rabs (rnd64 (A * IZR cur)) <= bpow radix2 31 /\
  Rabs (rnd64 (A * IZR cur) / n - A * IZR cur / n) <= u + eta /\ Rabs (rnd64 (A * IZR cur) / n) <= 2 /\
  Rabs (rnd64 (rnd64 (A * IZR cur) / n) - rnd64 (A * IZR cur) / n) <= 2 * u + eta /\ Rabs (rnd64 (rnd64 (A * IZR cur) / n)) <= 2.
Proof.
  intro H. destruct (ratio cur H) as [Hc Hq]. pose proof n_pos as Hn. pose proof u_pos. pose proof eta_pos. pose proof u_small. pose proof eta_small.
  assert (HA : Rabs (A * IZR cur) <= n).
  { rewrite Rabs_mult, (Rabs_pos_eq (IZR cur)) by lra. apply Rle_trans with (1 * IZR cur); [apply Rmult_le_compat_r; [lra|exact A_abs]|lra]. }
  assert (E1 : Rabs (rnd64 (A * IZR cur) - A * IZR cur) <= u * n + eta).
  { eapply Rle_trans; [apply rnd_error|]. apply Rplus_le_compat_r, Rmult_le_compat_l; [lra|exact HA]. }
  assert (B1 : Rabs (rnd64 (A * IZR cur)) <= bpow radix2 31).
  { apply rnd_bound; [lia|]. apply Rle_trans with n; [exact HA|exact n_le]. }
  assert (In : 0 < / n <= 1).
  { split; [apply Rinv_0_lt_compat; lra|]. rewrite <- Rinv_1. apply Rinv_le_contravar; lra. }
  assert (E2 : Rabs (rnd64 (A * IZR cur) / n - A * IZR cur / n) <= u + eta).
  { unfold Rdiv. rewrite <- Rmult_minus_distr_r, Rabs_mult, (Rabs_pos_eq (/ n)) by lra.
    apply Rle_trans with ((u * n + eta) * / n); [apply Rmult_le_compat_r; [lra|exact E1]|].
    rewrite Rmult_plus_distr_r, Rmult_assoc, Rinv_r by lra. assert (eta * / n <= eta * 1) by (apply Rmult_le_compat_l; lra). lra. }
  assert (Q : Rabs (A * IZR cur / n) <= 1).
  { unfold Rdiv. rewrite Rabs_mult, (Rabs_pos_eq (/ n)) by lra. apply Rle_trans with (n * / n); [apply Rmult_le_compat_r; [lra|exact HA]|rewrite Rinv_r; lra]. }
  assert (B2 : Rabs (rnd64 (A * IZR cur) / n) <= 2).
  { apply Rabs_le_inv in E2. apply Rabs_le_inv in Q. apply Rabs_le. lra. }
  assert (E3 : Rabs (rnd64 (rnd64 (A * IZR cur) / n) - rnd64 (A * IZR cur) / n) <= 2 * u + eta).
  { eapply Rle_trans; [apply rnd_error|]. apply Rplus_le_compat_r. rewrite (Rmult_comm 2). apply Rmult_le_compat_l; [lra|exact B2]. }
  split; [exact E1|]. split; [exact B1|]. split; [exact E2|]. split; [exact B2|]. split; [exact E3|].
  change 2 with (bpow radix2 1). apply rnd_bound; [lia|exact B2].
Qed.

Lemma P_val_lin cur : (0 <= cur <= maxgen - 1)%Z -> fin (P cur) /\ V (P cur) = T cur.
Proof.
  intro H. destruct (steps cur H) as (_ & B1 & _ & B2 & _ & B3). pose proof n_pos as Hn. destruct (ratio cur H) as [Hc _].
  assert (L : forall k, (0 <= k <= 1020)%Z -> bpow radix2 k <= bpow radix2 1023) by (intros; apply bpow_le; lia).
  unfold P, lin_probability. cbn [li_end li_start li_cur li_maxgen n_add n_div n_mul n_sub n_ofZ FNum].
  change (2 ^ 31)%Z with 2147483648%Z in Rm.
  destruct (d_ofZ_exact cur ltac:(change (2 ^ 53)%Z with 9007199254740992%Z; lia)) as [Fc Vc].
  destruct (d_ofZ_exact (maxgen - 1) ltac:(change (2 ^ 53)%Z with 9007199254740992%Z; lia)) as [Fn Vn].
  destruct (fin_sub e s Fe Fs) as [F1 V1].
  { apply Rle_trans with (bpow radix2 0); [change (bpow radix2 0) with 1; apply Rabs_le; lra|apply L; lia]. }
  change (rnd64 (V e - V s)) with A in V1.
  assert (HA : Rabs (A * IZR cur) <= bpow radix2 1023).
  { apply Rle_trans with n; [|apply Rle_trans with (bpow radix2 31); [exact n_le|apply L; lia]].
    rewrite Rabs_mult, (Rabs_pos_eq (IZR cur)) by lra. apply Rle_trans with (1 * IZR cur); [apply Rmult_le_compat_r; [lra|exact A_abs]|lra]. }
  destruct (fin_mul (d_sub e s) (d_ofZ cur) F1 Fc) as [F2 V2]; [rewrite V1, Vc; exact HA|]. rewrite V1, Vc in V2.
  change (IZR (maxgen - 1)) with n in Vn.
  destruct (fin_div (d_mul (d_sub e s) (d_ofZ cur)) (d_ofZ (maxgen - 1)) F2) as [F3 V3]; [rewrite Vn; lra| |].
  { rewrite V2, Vn. apply Rle_trans with (bpow radix2 1); [exact B2|apply L; lia]. }
  rewrite V2, Vn in V3.
  destruct (fin_add (d_div (d_mul (d_sub e s) (d_ofZ cur)) (d_ofZ (maxgen - 1))) s F3 Fs) as [F4 V4].
  { rewrite V3. apply Rle_trans with (bpow radix2 2); [|apply L; lia]. change (bpow radix2 2) with 4. apply Rabs_le_inv in B3. apply Rabs_le. lra. }
  rewrite V3 in V4. split; [exact F4|exact V4].
Qed.

Lemma P_error cur : (0 <= cur <= maxgen - 1)%Z -> Rabs (V (P cur) - (V s + (V e - V s) * (IZR cur / n))) <= 6 * u.
Proof.
  intro H. destruct (P_val_lin cur H) as [_ E]. rewrite E. clear E. destruct (steps cur H) as (_ & _ & E2 & B2 & E3 & B3).
  pose proof n_pos as Hn. destruct (ratio cur H) as [Hc Hq]. pose proof A_err as EA.
  assert (EU : eta <= u / 1024).
  { eapply Rle_trans; [apply eta_u|]. unfold Rdiv. apply Rmult_le_compat_l; [left; apply u_pos|]. change (/ 1024) with (bpow radix2 (-10)). apply bpow_le. lia. }
  assert (E4 : Rabs (A * IZR cur / n - (V e - V s) * (IZR cur / n)) <= u).
  { replace (A * IZR cur / n - (V e - V s) * (IZR cur / n)) with ((A - (V e - V s)) * (IZR cur / n)) by (unfold Rdiv; ring).
    rewrite Rabs_mult, (Rabs_pos_eq (IZR cur / n)) by lra. apply Rle_trans with (u * 1); [|lra].
    apply Rmult_le_compat; [apply Rabs_pos|lra|exact EA|lra]. }
  assert (X : 0 <= V s + (V e - V s) * (IZR cur / n) <= 1).
  { clear -Rs Re Hq. split; nra. }
  unfold T. set (c := rnd64 (rnd64 (A * IZR cur) / n)) in *. set (b := rnd64 (A * IZR cur) / n) in *.
  set (a := A * IZR cur / n) in *. set (x := (V e - V s) * (IZR cur / n)) in *.
  assert (E5 : Rabs (rnd64 (c + V s) - (c + V s)) <= u * Rabs (c + V s)) by (apply rnd_error_add; [apply rnd_fmt|apply fmt_dbl]).
  pose proof u_tiny. pose proof u_pos. apply Rabs_le_inv in E2, E3, E4.
  assert (B5 : Rabs (c + V s) <= 1 + / 1024) by (apply Rabs_le; lra).
  assert (E6 : u * Rabs (c + V s) <= u * (1 + / 1024)) by (apply Rmult_le_compat_l; lra).
  apply Rabs_le_inv in E5. apply Rabs_le. lra.
Qed.

Lemma P_first : V (P 0) = V s.
Proof.
  destruct (P_val_lin 0) as [_ E]; [lia|]. rewrite E. unfold T. rewrite Rmult_0_r, rnd_0. unfold Rdiv. rewrite Rmult_0_l, rnd_0, Rplus_0_l. apply rnd_id, fmt_dbl.
Qed.

Lemma P_mono a b : (0 <= a <= b)%Z -> (b <= maxgen - 1)%Z ->
  (V s <= V e -> V (P a) <= V (P b)) /\ (V e <= V s -> V (P b) <= V (P a)).
Proof.
  intros H1 H2. destruct (P_val_lin a ltac:(lia)) as [_ Ea]. destruct (P_val_lin b ltac:(lia)) as [_ Eb]. rewrite Ea, Eb. clear Ea Eb.
  pose proof n_pos as Hn. assert (Hi : IZR a <= IZR b) by (apply IZR_le; lia).
  assert (In : 0 <= / n) by (left; apply Rinv_0_lt_compat; lra).
  unfold T. split; intro L; apply rnd_le, Rplus_le_compat_r, rnd_le; unfold Rdiv; apply Rmult_le_compat_r; try exact In; apply rnd_le.
  - apply Rmult_le_compat_l; [apply rnd_nonneg; lra|exact Hi].
  - assert (A <= 0) by (unfold A; rewrite <- rnd_0; apply rnd_le; lra). 
    rewrite (Rmult_comm A), (Rmult_comm A). apply Ropp_le_cancel. rewrite <- !Ropp_mult_distr_r_reverse. apply Rmult_le_compat_r; lra.
Qed.
End Linear.

(** In doubles, for every pair of finite probabilities and every generation of a run with at least two generations: the
    probability is a finite number within 6*2^-53 of the straight line from the start to the end probability, it equals
    the start probability in generation 0, and it never moves away from the end probability. *)
Theorem C19_binary64 : forall (s e : dbl) (maxgen : Z), fin s -> fin e -> 0 <= V s <= 1 -> 0 <= V e <= 1 -> (2 <= maxgen <= 2 ^ 31)%Z ->
  let P (cur : Z) : dbl := lin_probability FNum (MkLin FNum s e cur maxgen) in
  (forall cur, (0 <= cur <= maxgen - 1)%Z -> fin (P cur) /\
     Rabs (V (P cur) - (V s + (V e - V s) * (IZR cur / IZR (maxgen - 1)))) <= 6 * bpow radix2 (-53)) /\
  V (P 0%Z) = V s /\
  (forall a b, (0 <= a <= b)%Z -> (b <= maxgen - 1)%Z ->
     (V s <= V e -> V (P a) <= V (P b)) /\ (V e <= V s -> V (P b) <= V (P a))).
Proof.
  intros s e maxgen Fs Fe Rs Re Rm P. split; [|split].
  - intros cur H. split; [exact (proj1 (P_val_lin s e maxgen Fs Fe Rs Re Rm cur H))|]. exact (P_error s e maxgen Fs Fe Rs Re Rm cur H).
  - exact (P_first s e maxgen Fs Fe Rs Re Rm).
  - intros a b. exact (P_mono s e maxgen Fs Fe Rs Re Rm a b).
Qed.
Print Assumptions C19_binary64.

(** C19_binary64_range_refuted: a probability may leave [0, 1] and then mutation throws. That needs an end probability
    within 6*2^-53 of 0 or 1: otherwise mutating a chromosome succeeds for every random stream, in every generation. *)
Theorem C19_binary64_no_throw : forall (s e : dbl) (cur maxgen : Z), fin s -> fin e -> 0 <= V s <= 1 -> 
  6 * bpow radix2 (-53) <= V e <= 1 - 6 * bpow radix2 (-53) -> (2 <= maxgen <= 2 ^ 31)%Z -> (0 <= cur <= maxgen - 1)%Z ->
  forall RM chromosome g, exists mutated g', 
    mutate_chromosome (linear FNum RM) chromosome (MkLin FNum s e cur maxgen) g = (Ok (mutated, MkLin FNum s e cur maxgen), g') /\
    length mutated = length chromosome.
Proof.
  intros s e cur maxgen Fs Fe Rs Re Rm Hc RM.
  assert (Re' : 0 <= V e <= 1) by (pose proof u_pos; unfold u in *; lra).
  set (m := MkLin FNum s e cur maxgen).
  destruct (P_val_lin s e maxgen Fs Fe Rs Re' Rm cur Hc) as [F _]. pose proof (P_error s e maxgen Fs Fe Rs Re' Rm cur Hc) as E. cbn beta zeta in E, F.
  pose proof (P_first s e maxgen Fs Fe Rs Re' Rm) as H0. destruct (P_mono s e maxgen Fs Fe Rs Re' Rm 0 cur ltac:(lia) ltac:(lia)) as [M1 M2].
  cbn beta zeta in H0, M1, M2. rewrite H0 in M1, M2. change (lin_probability FNum (MkLin FNum s e cur maxgen)) with (lin_probability FNum m) in *.
  destruct (ratio maxgen Rm cur Hc) as [_ Hq]. set (q := IZR cur / IZR (maxgen - 1)) in *. 
  assert (B : 0 <= V (lin_probability FNum m) <= 1).
  { apply Rabs_le_inv in E. unfold u in E. destruct (Rle_or_lt (V s) (V e)) as [L|L].
    - specialize (M1 L). assert ((V e - V s) * q <= (V e - V s) * 1) by (apply Rmult_le_compat_l; lra). lra.
    - specialize (M2 (Rlt_le _ _ L)). assert ((V s - V e) * q <= (V s - V e) * 1) by (apply Rmult_le_compat_l; lra). lra. }
  destruct (d_ofZ_exact 0 ltac:(lia)) as [Z0 Z1]. destruct (d_ofZ_exact 1 ltac:(lia)) as [O0 O1].
  assert (W : validate_probability FNum (lin_probability FNum m) = Ok tt).
  { unfold validate_probability. cbn [n_ltb n_ofZ FNum]. clearbody m. 
    destruct (d_ltb (lin_probability FNum m) (d_ofZ 0)) eqn:L1.
    { apply (d_ltb_R _ _ F Z0) in L1. rewrite Z1 in L1. lra. }
    destruct (d_ltb (d_ofZ 1) (lin_probability FNum m)) eqn:L2; [|reflexivity].
    apply (d_ltb_R _ _ O0 F) in L2. rewrite O1 in L2. lra. }
  clearbody m. clear -W. intro chromosome. induction chromosome as [|b c IH]; intro g; [exists [], g; split; reflexivity|].
  cbn [mutate_chromosome linear gm_should gm_after]. unfold check_event. rewrite W. unfold get_base. destruct (draw g) as [r g1] eqn:Dr.
  destruct (IH g1) as (c' & g' & E & L). rewrite E. cbn [bind fst snd]. eexists _, g'. split; [reflexivity|]. cbn [length]. rewrite L. reflexivity.
Qed.
Print Assumptions C19_binary64_no_throw.

(** The hypotheses are met: LinearMutator(1/2, 1/4) in generation 2 of 4. *)
Example C19_binary64_meets : forall RM c g, exists c' g',
  mutate_chromosome (linear FNum RM) c (MkLin FNum (d_of 1 (-1)) (d_of 1 (-2)) 2 4) g = (Ok (c', MkLin FNum (d_of 1 (-1)) (d_of 1 (-2)) 2 4), g') /\ length c' = length c.
Proof.
  destruct (PropExamples.d_of_exact 1 (-1)) as [F1 V1]; [lia|lia|]. destruct (PropExamples.d_of_exact 1 (-2)) as [F2 V2]; [lia|lia|].
  apply C19_binary64_no_throw; try assumption; try lia.
  - rewrite V1. change (bpow radix2 (-1)) with (/ 2). lra.
  - rewrite V2. change (bpow radix2 (-2)) with (/ 4). pose proof u_tiny. unfold u in *. lra.
Qed.

(** ** C51: the linear scale *)
Section LinScale.
Variables (mn mx : dbl) (count : nat).
Hypothesis Fn : fin mn. Hypothesis Fx : fin mx.
Hypothesis Ln : bpow radix2 (-900) <= V mn. Hypothesis Lt : V mn < V mx. Hypothesis Lx : V mx <= bpow radix2 1000.
Hypothesis Cn : (2 <= count)%nat. Hypothesis Cx : (Z.of_nat count <= 2 ^ 53)%Z.
Let n : R := IZR (Z.of_nat count - 1).
Let D : R := V mx - V mn.
Let W : R := rnd64 D.
Let S : R := rnd64 (W / n).
Let T (i : nat) : R := rnd64 (V mn + rnd64 (S * INR i)).
Let item (i : nat) : dbl := d_add mn (d_mul (d_div (d_sub mx mn) (d_ofZ (Z.of_nat count - 1))) (d_ofZ (Z.of_nat i))).
Lemma sn_pos : 1 <= n. Proof. unfold n. apply IZR_le. lia. Qed.
Lemma sn_max : n <= bpow radix2 53.
Proof. unfold n. change (bpow radix2 53) with (IZR (2 ^ 53)). apply IZR_le. lia. Qed.
Lemma mn_pos : 0 < V mn. Proof. pose proof (bpow_gt_0 radix2 (-900)). lra. Qed.
Lemma W_s : 0 <= W /\ Rabs (W - D) <= u * D /\ W <= bpow radix2 1000.
Proof.
  pose proof mn_pos. assert (HD : 0 < D <= bpow radix2 1000) by (unfold D; lra). split; [apply rnd_nonneg; lra|]. split.
  - rewrite <- (Rabs_pos_eq D) at 2 by lra. unfold W, D, Rminus. apply rnd_error_add; [apply fmt_dbl|apply generic_format_opp, fmt_dbl].
  - pose proof (rnd_bound 1000 D ltac:(lia)) as B. rewrite (Rabs_pos_eq D) in B by lra. apply Rabs_le_inv in B; [unfold W; lra|lra].
Qed.
Lemma S_s : 0 <= S /\ Rabs (S - W / n) <= u * (W / n) + eta /\ S <= bpow radix2 1000.
Proof.
  destruct W_s as (W0 & _ & W2). pose proof sn_pos. 
  assert (In : 0 < / n <= 1) by (split; [apply Rinv_0_lt_compat; lra|]; rewrite <- Rinv_1; apply Rinv_le_contravar; lra).
  assert (Q : 0 <= W / n <= bpow radix2 1000).
  { unfold Rdiv. split; [apply Rmult_le_pos; lra|]. apply Rle_trans with (W * 1); [apply Rmult_le_compat_l; lra|lra]. }
  split; [apply rnd_nonneg; lra|]. split; [rewrite <- (Rabs_pos_eq (W / n)) at 2 by lra; apply rnd_error|].
  pose proof (rnd_bound 1000 (W / n) ltac:(lia)) as B. rewrite (Rabs_pos_eq (W / n)) in B by lra. apply Rabs_le_inv in B; [unfold S; lra|lra].
Qed.
Lemma eta_a : eta * bpow radix2 53 <= u * V mn /\ eta <= u * V mn.
Proof.
  unfold eta, u. assert (H : bpow radix2 (-1075) * bpow radix2 53 <= bpow radix2 (-53) * V mn).
  { apply Rle_trans with (bpow radix2 (-53) * bpow radix2 (-900)); [rewrite <- !bpow_plus; apply bpow_le; lia|apply Rmult_le_compat_l; [apply bpow_ge_0|exact Ln]]. }
  split; [exact H|]. eapply Rle_trans; [|exact H]. rewrite <- bpow_plus. apply bpow_le. lia.
Qed.
Lemma prod_s i : (i < count)%nat -> 0 <= INR i <= n /\ 0 <= S * INR i <= bpow radix2 1001 /\ 
  Rabs (S * INR i - D / n * INR i) <= 2 * u * D + u * u * D + u * V mn.
Proof.
  intro H. destruct W_s as (W0 & W1 & W2). destruct S_s as (S0 & S1 & S2). pose proof sn_pos as Hn. pose proof mn_pos. pose proof u_pos as Up. pose proof u_small.
  assert (Hi : 0 <= INR i <= n) by (split; [apply pos_INR|unfold n; rewrite INR_IZR_INZ; apply IZR_le; lia]).
  assert (HD : 0 < D <= bpow radix2 1000) by (unfold D; lra).
  assert (In : 0 < / n <= 1) by (split; [apply Rinv_0_lt_compat; lra|]; rewrite <- Rinv_1; apply Rinv_le_contravar; lra).
  assert (Q : 0 <= INR i * / n <= 1).
  { split; [apply Rmult_le_pos; lra|]. apply Rle_trans with (n * / n); [apply Rmult_le_compat_r; lra|rewrite Rinv_r; lra]. }
  assert (E1 : Rabs (S * INR i - W / n * INR i) <= u * W + u * V mn).
  { rewrite <- Rmult_minus_distr_r, Rabs_mult, (Rabs_pos_eq (INR i)) by lra.
    apply Rle_trans with ((u * (W / n) + eta) * INR i); [apply Rmult_le_compat_r; [lra|exact S1]|].
    replace ((u * (W / n) + eta) * INR i) with (u * (W * (INR i * / n)) + eta * INR i) by (unfold Rdiv; ring).
    apply Rplus_le_compat.
    - apply Rmult_le_compat_l; [lra|]. apply Rle_trans with (W * 1); [apply Rmult_le_compat_l; lra|lra].
    - apply Rle_trans with (eta * bpow radix2 53); [|exact (proj1 eta_a)]. apply Rmult_le_compat_l; [left; apply eta_pos|]. pose proof sn_max. lra. }
  assert (E2 : Rabs (W / n * INR i - D / n * INR i) <= u * D).
  { replace (W / n * INR i - D / n * INR i) with ((W - D) * (INR i * / n)) by (unfold Rdiv; ring).
    rewrite Rabs_mult, (Rabs_pos_eq (INR i * / n)) by lra. apply Rle_trans with (u * D * 1); [|lra].
    apply Rmult_le_compat; [apply Rabs_pos|lra|exact W1|lra]. }
  assert (E3 : u * W <= u * D + u * u * D).
  { apply Rabs_le_inv in W1. rewrite Rmult_assoc, <- Rmult_plus_distr_l. apply Rmult_le_compat_l; lra. }
  assert (E4 : Rabs (S * INR i - D / n * INR i) <= 2 * u * D + u * u * D + u * V mn).
  { apply Rabs_le_inv in E1, E2. apply Rabs_le. lra. }
  split; [exact Hi|]. split; [|exact E4]. split; [apply Rmult_le_pos; lra|].
  assert (X : 0 <= D / n * INR i <= D).
  { replace (D / n * INR i) with (D * (INR i * / n)) by (unfold Rdiv; ring). split; [apply Rmult_le_pos; lra|].
    apply Rle_trans with (D * 1); [apply Rmult_le_compat_l; lra|lra]. }
  replace (bpow radix2 1001) with (2 * bpow radix2 1000) by (change 1001%Z with (1000 + 1)%Z; rewrite bpow_plus; change (bpow radix2 1) with 2; ring).
  assert (u * D <= / 1024 * D) by (apply Rmult_le_compat_r; lra). assert (u * V mn <= / 1024 * V mn) by (apply Rmult_le_compat_r; lra).
  assert (u * u * D <= / 1024 * D). { rewrite Rmult_assoc. apply Rle_trans with (u * (1 * D)); [apply Rmult_le_compat_l; [lra|apply Rmult_le_compat_r; lra]|lra]. }
  apply Rabs_le_inv in E4. lra.
Qed.
Lemma item_val i : (i < count)%nat -> fin (item i) /\ V (item i) = T i.
Proof.
  intro H. destruct W_s as (W0 & _ & W2). destruct S_s as (S0 & _ & S2). destruct (prod_s i H) as (Hi & Hp & _). pose proof sn_pos. pose proof mn_pos.
  assert (L : forall k, (k <= 1023)%Z -> bpow radix2 k <= bpow radix2 1023) by (intros; apply bpow_le; lia).
  unfold item. destruct (d_ofZ_exact (Z.of_nat count - 1) ltac:(lia)) as [F1 V1]. destruct (d_ofZ_exact (Z.of_nat i) ltac:(lia)) as [F2 V2].
  rewrite <- INR_IZR_INZ in V2. change (IZR (Z.of_nat count - 1)) with n in V1.
  destruct (fin_sub mx mn Fx Fn) as [F3 V3].
  { rewrite Rabs_pos_eq by lra. apply Rle_trans with (bpow radix2 1000); [lra|apply L; lia]. }
  change (rnd64 (V mx - V mn)) with W in V3.
  destruct (fin_div (d_sub mx mn) (d_ofZ (Z.of_nat count - 1)) F3) as [F4 V4]; [rewrite V1; lra| |].
  { rewrite V3, V1. assert (In : 0 < / n <= 1) by (split; [apply Rinv_0_lt_compat; lra|]; rewrite <- Rinv_1; apply Rinv_le_contravar; lra).
    unfold Rdiv. rewrite Rabs_pos_eq by (apply Rmult_le_pos; lra). apply Rle_trans with (W * 1); [apply Rmult_le_compat_l; lra|].
    apply Rle_trans with (bpow radix2 1000); [lra|apply L; lia]. }
  rewrite V3, V1 in V4. change (rnd64 (W / n)) with S in V4.
  destruct (fin_mul (d_div (d_sub mx mn) (d_ofZ (Z.of_nat count - 1))) (d_ofZ (Z.of_nat i)) F4 F2) as [F5 V5].
  { rewrite V4, V2, Rabs_pos_eq by lra. apply Rle_trans with (bpow radix2 1001); [lra|apply L; lia]. }
  rewrite V4, V2 in V5.
  destruct (fin_add mn (d_mul (d_div (d_sub mx mn) (d_ofZ (Z.of_nat count - 1))) (d_ofZ (Z.of_nat i))) Fn F5) as [F6 V6].
  { rewrite V5. pose proof (rnd_bound 1001 (S * INR i) ltac:(lia)) as B. rewrite (Rabs_pos_eq (S * INR i)) in B by lra. specialize (B (proj2 Hp)).
    apply Rabs_le_inv in B. pose proof (rnd_nonneg (S * INR i) (proj1 Hp)). rewrite Rabs_pos_eq by lra.
    replace (bpow radix2 1023) with (4 * bpow radix2 1021) by (change 1023%Z with (1021 + 2)%Z; rewrite bpow_plus; change (bpow radix2 2) with 4; ring).
    assert (bpow radix2 1001 <= bpow radix2 1021) by (apply bpow_le; lia). assert (bpow radix2 1000 <= bpow radix2 1021) by (apply bpow_le; lia). 
    pose proof (bpow_gt_0 radix2 1021). lra. }
  rewrite V5 in V6. split; [exact F6|exact V6].
Qed.
Lemma item_err i : (i < count)%nat -> Rabs (V (item i) - (V mn + D * (INR i / n))) <= 5 * u * V mx.
Proof.
  intro H. destruct (item_val i H) as [_ E]. rewrite E. clear E. destruct (prod_s i H) as (Hi & Hp & Ep). pose proof sn_pos. pose proof mn_pos as Mp. pose proof u_pos. pose proof u_small as Us.
  assert (HD : 0 < D) by (unfold D; lra). assert (HB : V mx = D + V mn) by (unfold D; ring).
  replace (D * (INR i / n)) with (D / n * INR i) by (unfold Rdiv; ring).
  assert (X : 0 <= D / n * INR i <= D).
  { assert (In : 0 < / n <= 1) by (split; [apply Rinv_0_lt_compat; lra|]; rewrite <- Rinv_1; apply Rinv_le_contravar; lra).
    assert (Q : 0 <= INR i * / n <= 1). { split; [apply Rmult_le_pos; lra|]. apply Rle_trans with (n * / n); [apply Rmult_le_compat_r; lra|rewrite Rinv_r; lra]. }
    replace (D / n * INR i) with (D * (INR i * / n)) by (unfold Rdiv; ring). split; [apply Rmult_le_pos; lra|].
    apply Rle_trans with (D * 1); [apply Rmult_le_compat_l; lra|lra]. }
  assert (UD : 0 <= u * D) by (apply Rmult_le_pos; lra). assert (UM : 0 <= u * V mn) by (apply Rmult_le_pos; lra).
  assert (UUD : u * u * D <= / 1024 * (u * D)) by (rewrite Rmult_assoc; apply Rmult_le_compat_r; lra).
  assert (UUM : u * (u * V mn) <= / 1024 * (u * V mn)) by (apply Rmult_le_compat_r; lra).
  pose proof (rnd_error (S * INR i)) as E1. rewrite (Rabs_pos_eq (S * INR i)) in E1 by lra. pose proof (proj2 eta_a) as Ea.
  apply Rabs_le_inv in Ep.
  assert (E2 : u * (S * INR i) <= u * D + / 100 * (u * D) + / 100 * (u * V mn)).
  { apply Rle_trans with (u * (D + (2 * u * D + u * u * D + u * V mn))); [apply Rmult_le_compat_l; lra|].
    assert (u * (u * D) <= / 1024 * (u * D)) by (apply Rmult_le_compat_r; lra).
    assert (u * (u * u * D) <= / 1024 * (u * D)).
    { replace (u * (u * u * D)) with (u * (u * (u * D))) by ring. apply Rle_trans with (u * (1 * (u * D))); [apply Rmult_le_compat_l; [lra|apply Rmult_le_compat_r; lra]|lra]. }
    replace (u * (D + (2 * u * D + u * u * D + u * V mn))) with (u * D + 2 * (u * (u * D)) + u * (u * u * D) + u * (u * V mn)) by ring. lra. }
  assert (E3 : Rabs (rnd64 (S * INR i) - D / n * INR i) <= 31 / 10 * (u * D) + 21 / 10 * (u * V mn)).
  { apply Rabs_le_inv in E1. apply Rabs_le. lra. }
  pose proof (rnd_nonneg _ (proj1 Hp)) as Pp. set (p := rnd64 (S * INR i)) in *.
  assert (E4 : Rabs (T i - (V mn + p)) <= u * (V mn + p)).
  { rewrite <- (Rabs_pos_eq (V mn + p)) at 2 by lra. apply rnd_error_add; [apply fmt_dbl|apply rnd_fmt]. }
  apply Rabs_le_inv in E3.
  assert (E5 : u * (V mn + p) <= 11 / 10 * (u * D) + 11 / 10 * (u * V mn)).
  { apply Rle_trans with (u * (V mn + (D + (31 / 10 * (u * D) + 21 / 10 * (u * V mn))))); [apply Rmult_le_compat_l; lra|].
    assert (u * (u * D) <= / 1024 * (u * D)) by (apply Rmult_le_compat_r; lra).
    replace (u * (V mn + (D + (31 / 10 * (u * D) + 21 / 10 * (u * V mn))))) with (u * V mn + u * D + 31 / 10 * (u * (u * D)) + 21 / 10 * (u * (u * V mn))) by ring. lra. }
  rewrite HB. rewrite Rmult_plus_distr_l. apply Rabs_le_inv in E4. apply Rabs_le. lra.
Qed.
Lemma item_mono i j : (i <= j)%nat -> (j < count)%nat -> V (item i) <= V (item j).
Proof.
  intros H1 H2. destruct (item_val i ltac:(lia)) as [_ E1]. destruct (item_val j H2) as [_ E2]. rewrite E1, E2. unfold T.
  apply rnd_le, Rplus_le_compat_l, rnd_le, Rmult_le_compat_l; [exact (proj1 S_s)|apply le_INR; exact H1].
Qed.
Lemma item_first : V (item 0) = V mn.
Proof. destruct (item_val 0 ltac:(lia)) as [_ E]. rewrite E. unfold T. cbn [INR]. rewrite Rmult_0_r, rnd_0, Rplus_0_r. apply rnd_id, fmt_dbl. Qed.
End LinScale.

(** For every minimum and maximum with 2^-900 <= min < max <= 2^1000 and every count from 2 to 2^53 the linear scale is
    accepted and has [count] finite positive values in non-decreasing order, the first equal to min and value number i
    within 5*2^-53*max of min + (max-min)*i/(count-1). *)
Theorem C51_linear_binary64 : forall (mn mx : dbl) (count : nat), fin mn -> fin mx ->
  bpow radix2 (-900) <= V mn -> V mn < V mx -> V mx <= bpow radix2 1000 -> (2 <= count)%nat -> (Z.of_nat count <= 2 ^ 53)%Z ->
  exists s : list dbl, linear_scale FNum mn mx count = Ok s /\ length s = count /\
    (forall i x, nth_error s i = Some x -> fin x /\ V mn <= V x /\
       Rabs (V x - (V mn + (V mx - V mn) * (INR i / (INR count - 1)))) <= 5 * bpow radix2 (-53) * V mx) /\
    (forall x, nth_error s 0 = Some x -> V x = V mn) /\
    (forall i j x y, (i <= j)%nat -> nth_error s i = Some x -> nth_error s j = Some y -> V x <= V y).
Proof.
  intros mn mx count Fn Fx Ln Lt Lx Cn Cx. pose proof (mn_pos mn Ln) as Mp.
  set (item := fun i : nat => d_add mn (d_mul (d_div (d_sub mx mn) (d_ofZ (Z.of_nat count - 1))) (d_ofZ (Z.of_nat i)))).
  assert (K : forall i x, nth_error (map item (seq 0 count)) i = Some x -> (i < count)%nat /\ x = item i).
  { intros i x Hx. rewrite nth_error_map in Hx. destruct (nth_error (seq 0 count) i) as [j|] eqn:Ej; [|discriminate].
    assert (L : (i < count)%nat) by (rewrite <- (seq_length count 0); apply nth_error_Some; congruence).
    rewrite (nth_error_nth' _ 0%nat) in Ej by (rewrite seq_length; exact L). rewrite seq_nth in Ej by exact L. injection Ej as <-.
    cbn [option_map Nat.add] in Hx. split; [exact L|]. inversion Hx. reflexivity. }
  exists (map item (seq 0 count)). split; [|split; [|split; [|split]]].
  - unfold linear_scale. cbn [n_leb n_ofZ FNum]. destruct (d_ofZ_exact 0 ltac:(lia)) as [Z0 Z1].
    destruct (d_leb mn (d_ofZ 0)) eqn:L1; [apply (d_leb_R _ _ Fn Z0) in L1; rewrite Z1 in L1; lra|].
    destruct (d_leb mx (d_ofZ 0)) eqn:L2; [apply (d_leb_R _ _ Fx Z0) in L2; rewrite Z1 in L2; lra|].
    destruct (d_leb mx mn) eqn:L3; [apply (d_leb_R _ _ Fx Fn) in L3; lra|].
    destruct (Nat.ltb_spec count 2); [lia|]. reflexivity.
  - rewrite map_length. apply seq_length.
  - intros i x Hx. apply K in Hx. destruct Hx as [Hi ->].
    split; [exact (proj1 (item_val mn mx count Fn Fx Ln Lt Lx Cn Cx i Hi))|]. split.
    + rewrite <- (item_first mn mx count Fn Fx Ln Lt Lx Cn Cx) at 1. apply (item_mono mn mx count Fn Fx Ln Lt Lx Cn Cx 0 i); [lia|exact Hi].
    + assert (Ec : INR count - 1 = IZR (Z.of_nat count - 1)) by (rewrite minus_IZR, <- INR_IZR_INZ; reflexivity).
      rewrite Ec. exact (item_err mn mx count Fn Fx Ln Lt Lx Cn Cx i Hi).
  - intros x Hx. apply K in Hx. destruct Hx as [_ ->]. exact (item_first mn mx count Fn Fx Ln Lt Lx Cn Cx).
  - intros i j x y Hij Hx Hy. apply K in Hx. apply K in Hy. destruct Hx as [_ ->]. destruct Hy as [Hj ->].
    exact (item_mono mn mx count Fn Fx Ln Lt Lx Cn Cx i j Hij Hj).
Qed.
Print Assumptions C51_linear_binary64.
Example C51_linear_binary64_meets : exists s : list dbl, linear_scale FNum (d_of 1 (-1)) (d_of 3 0) 7 = Ok s /\ length s = 7%nat.
Proof.
  destruct (PropExamples.d_of_exact 1 (-1)) as [F1 V1]; [lia|lia|]. destruct (PropExamples.d_of_exact 3 0) as [F2 V2]; [lia|lia|].
  change (bpow radix2 (-1)) with (/ 2) in V1. change (bpow radix2 0) with 1 in V2.
  assert (B1 : bpow radix2 (-900) <= / 4) by (change (/ 4) with (bpow radix2 (-2)); apply bpow_le; lia).
  assert (B2 : 4 <= bpow radix2 1000) by (change 4 with (bpow radix2 2); apply bpow_le; lia).
  destruct (C51_linear_binary64 (d_of 1 (-1)) (d_of 3 0) 7 F1 F2) as (s & A & B & _); try lia; try (rewrite ?V1, ?V2; lra). eauto.
Qed.

(** ** C42: the grid *)
Definition grid_slack (lower upper : R) : R := bpow radix2 (-53) * (6 * (upper - lower) + Rmax (Rabs lower) (Rabs upper)).
Section Grid.
Variables (p lo hi : dbl) (k : Z).
Hypothesis Fp : fin p. Hypothesis Fl : fin lo. Hypothesis Fh : fin hi.
Hypothesis Lp : bpow radix2 (-1022) <= V p. Hypothesis LU : V lo <= V hi.
Hypothesis Bl : Rabs (V lo) <= bpow radix2 1000. Hypothesis Bh : Rabs (V hi) <= bpow radix2 1000.
Let D : R := V hi - V lo.
Let W : R := rnd64 D.
Let Q : R := rnd64 (W / V p).
Hypothesis Hk0 : (0 <= k < 2 ^ 31)%Z. Hypothesis Hk : IZR k <= Q < IZR k + 1.
Let x (d : Z) : dbl := d_add (d_mul (d_ofZ d) p) lo.
Lemma p_pos : 0 < V p. Proof. pose proof (bpow_gt_0 radix2 (-1022)). lra. Qed.
Lemma D_g : 0 <= D <= bpow radix2 1001.
Proof.
  apply Rabs_le_inv in Bl, Bh. unfold D.
  replace (bpow radix2 1001) with (2 * bpow radix2 1000) by (change 1001%Z with (1000 + 1)%Z; rewrite bpow_plus; change (bpow radix2 1) with 2; ring). lra.
Qed.
Lemma W_g : 0 <= W /\ Rabs (W - D) <= u * D.
Proof.
  pose proof D_g. split; [apply rnd_nonneg; lra|].
  rewrite <- (Rabs_pos_eq D) at 2 by lra. unfold W, D, Rminus. apply rnd_error_add; [apply fmt_dbl|apply generic_format_opp, fmt_dbl].
Qed.
Lemma uD : 0 <= u * D /\ u * (u * D) <= / 1024 * (u * D) /\ u * D <= / 1024 * D.
Proof.
  pose proof u_pos. pose proof u_small. pose proof D_g. assert (0 <= u * D) by (apply Rmult_le_pos; lra).
  split; [assumption|]. split; apply Rmult_le_compat_r; lra.
Qed.
Lemma Q_g : Rabs (Q * V p - W) <= u * W + eta * V p /\ u * W <= 11 / 10 * (u * D) /\ 0 <= W / V p.
Proof.
  pose proof p_pos. destruct W_g as [W0 W1]. destruct uD as (U1 & U2 & U3). pose proof u_pos.
  assert (P0 : 0 <= W / V p) by (unfold Rdiv; apply Rmult_le_pos; [lra|left; apply Rinv_0_lt_compat; lra]).
  split; [|split; [|exact P0]].
  - pose proof (rnd_error (W / V p)) as E. rewrite (Rabs_pos_eq (W / V p)) in E by exact P0. change (rnd64 (W / V p)) with Q in E.
    assert (X : W = W / V p * V p) by (field; lra). rewrite X at 1. rewrite <- Rmult_minus_distr_r, Rabs_mult, (Rabs_pos_eq (V p)) by lra.
    apply Rle_trans with ((u * (W / V p) + eta) * V p); [apply Rmult_le_compat_r; lra|]. right. rewrite X at 2. ring.
  - apply Rabs_le_inv in W1. apply Rle_trans with (u * (D + u * D)); [apply Rmult_le_compat_l; lra|]. rewrite Rmult_plus_distr_l. lra.
Qed.
Lemma eta_d y : 0 <= y -> y <= 4 * D -> eta * y <= / 2 * (u * D).
Proof.
  intros H1 H2. pose proof eta_pos. pose proof u_pos. pose proof D_g.
  assert (E : eta <= u * / 8). { eapply Rle_trans; [apply eta_u|]. apply Rmult_le_compat_l; [lra|]. change (/ 8) with (bpow radix2 (-3)). apply bpow_le. lia. }
  apply Rle_trans with (eta * (4 * D)); [apply Rmult_le_compat_l; lra|]. apply Rle_trans with (u * / 8 * (4 * D)); [apply Rmult_le_compat_r; lra|]. right. field.
Qed.
Lemma kp d : (0 <= d <= k)%Z -> 0 <= IZR d * V p <= D + 31 / 10 * (u * D).
Proof.
  intro Hd. pose proof p_pos as Pp. assert (D0 : 0 <= IZR d) by (apply IZR_le; lia). split; [apply Rmult_le_pos; lra|].
  destruct uD as (U1 & U2 & U3). pose proof D_g as HD. destruct (Z.eq_dec d 0) as [->|Nz]; [lra|].
  destruct Q_g as (Q1 & Q2 & Q3). destruct W_g as [W0 W1]. apply Rabs_le_inv in W1.
  assert (K1 : IZR d <= IZR k) by (apply IZR_le; lia). assert (K2 : 1 <= IZR d) by (apply IZR_le; lia).
  assert (P4 : V p <= 4 * D).
  { pose proof eta_small. pose proof eta_pos. assert (eta * V p <= / 1024 * V p) by (apply Rmult_le_compat_r; lra).
    assert (1 * V p <= Q * V p) by (apply Rmult_le_compat_r; lra). apply Rabs_le_inv in Q1. lra. }
  pose proof (eta_d (V p) ltac:(lra) P4) as E. apply Rle_trans with (Q * V p); [apply Rmult_le_compat_r; lra|]. apply Rabs_le_inv in Q1. lra.
Qed.
Lemma k_last : D - V p - 3 * (u * D) <= IZR k * V p.
Proof.
  pose proof p_pos as Pp. destruct uD as (U1 & U2 & U3). pose proof D_g as HD. destruct Q_g as (Q1 & Q2 & Q3). destruct W_g as [W0 W1]. apply Rabs_le_inv in W1.
  assert (K0 : 0 <= IZR k) by (apply IZR_le; lia). assert (0 <= IZR k * V p) by (apply Rmult_le_pos; lra).
  destruct (Rle_or_lt (V p) (4 * D)) as [L|L]; [|lra]. pose proof (eta_d (V p) ltac:(lra) L) as E. apply Rabs_le_inv in Q1.
  assert (Q * V p <= (IZR k + 1) * V p) by (apply Rmult_le_compat_r; lra). lra.
Qed.
Lemma slack_eq : grid_slack (V lo) (V hi) = 6 * (u * D) + u * Rmax (Rabs (V lo)) (Rabs (V hi)).
Proof. unfold grid_slack, u, D. ring. Qed.
Lemma x_val d : (0 <= d <= k)%Z -> fin (x d) /\ V (x d) = rnd64 (rnd64 (IZR d * V p) + V lo).
Proof.
  intro Hd. pose proof (kp d Hd) as Kp. destruct uD as (U1 & U2 & U3). pose proof D_g as HD.
  assert (E2 : bpow radix2 1002 = 2 * bpow radix2 1001) by (change 1002%Z with (1001 + 1)%Z; rewrite bpow_plus; change (bpow radix2 1) with 2; ring).
  assert (E1 : bpow radix2 1001 = 2 * bpow radix2 1000) by (change 1001%Z with (1000 + 1)%Z; rewrite bpow_plus; change (bpow radix2 1) with 2; ring).
  assert (E3 : bpow radix2 1003 = 2 * bpow radix2 1002) by (change 1003%Z with (1002 + 1)%Z; rewrite bpow_plus; change (bpow radix2 1) with 2; ring).
  assert (L : forall z, (z <= 1023)%Z -> bpow radix2 z <= bpow radix2 1023) by (intros; apply bpow_le; lia).
  change (2 ^ 31)%Z with 2147483648%Z in Hk0.
  destruct (d_ofZ_exact d ltac:(change (2 ^ 53)%Z with 9007199254740992%Z; lia)) as [F1 V1].
  assert (B : Rabs (IZR d * V p) <= bpow radix2 1002) by (rewrite Rabs_pos_eq; lra).
  unfold x. destruct (fin_mul (d_ofZ d) p F1 Fp) as [F2 V2]; [rewrite V1; apply Rle_trans with (bpow radix2 1002); [exact B|apply L; lia]|]. rewrite V1 in V2.
  pose proof (rnd_bound 1002 _ ltac:(lia) B) as B2.
  destruct (fin_add (d_mul (d_ofZ d) p) lo F2 Fl) as [F3 V3].
  { rewrite V2. apply Rle_trans with (bpow radix2 1003); [|apply L; lia]. apply Rabs_le_inv in B2, Bl. apply Rabs_le. lra. }
  rewrite V2 in V3. split; [exact F3|exact V3].
Qed.
Lemma x_zero : V (x 0) = V lo.
Proof. destruct (x_val 0 ltac:(lia)) as [_ E]. rewrite E, Rmult_0_l, rnd_0, Rplus_0_l. apply rnd_id, fmt_dbl. Qed.
Lemma x_mono a b : (0 <= a <= b)%Z -> (b <= k)%Z -> V (x a) <= V (x b).
Proof.
  intros H1 H2. destruct (x_val a ltac:(lia)) as [_ E1]. destruct (x_val b ltac:(lia)) as [_ E2]. rewrite E1, E2.
  apply rnd_le, Rplus_le_compat_r, rnd_le, Rmult_le_compat_r; [left; exact p_pos|apply IZR_le; lia].
Qed.
Lemma x_err d : (0 <= d <= k)%Z -> Rabs (V (x d) - (V lo + IZR d * V p)) <= 22 / 10 * (u * D) + u * Rmax (Rabs (V lo)) (Rabs (V hi)).
Proof.
  intro Hd. destruct uD as (U1 & U2 & U3). pose proof D_g as HD. pose proof p_pos as Pp. pose proof u_pos.
  set (M := Rmax (Rabs (V lo)) (Rabs (V hi))). assert (M1 : Rabs (V lo) <= M) by apply Rmax_l. assert (M2 : Rabs (V hi) <= M) by apply Rmax_r.
  assert (M0 : 0 <= M) by (eapply Rle_trans; [apply Rabs_pos|exact M1]). assert (UM : 0 <= u * M) by (apply Rmult_le_pos; lra).
  destruct (Z.eq_dec d 0) as [->|Nz]. { rewrite x_zero, Rmult_0_l, Rplus_0_r, Rminus_diag_eq, Rabs_R0 by reflexivity. lra. }
  destruct (x_val d Hd) as [_ E]. rewrite E. clear E. pose proof (kp d Hd) as Kp.
  assert (K2 : 1 <= IZR d) by (apply IZR_le; lia).
  assert (Et : eta <= u * (IZR d * V p)).
  { eapply Rle_trans; [apply eta_u|]. apply Rmult_le_compat_l; [lra|]. assert (1 * V p <= IZR d * V p) by (apply Rmult_le_compat_r; lra). lra. }
  pose proof (rnd_error (IZR d * V p)) as E1. rewrite (Rabs_pos_eq (IZR d * V p)) in E1 by lra.
  pose proof (rnd_nonneg _ (proj1 Kp)) as Mp. set (m := rnd64 (IZR d * V p)) in *.
  assert (E2 : u * (IZR d * V p) <= 101 / 100 * (u * D)).
  { apply Rle_trans with (u * (D + 31 / 10 * (u * D))); [apply Rmult_le_compat_l; lra|]. rewrite Rmult_plus_distr_l. lra. }
  apply Rabs_le_inv in E1.
  assert (E3 : Rabs (rnd64 (m + V lo) - (m + V lo)) <= u * Rabs (m + V lo)) by (apply rnd_error_add; [apply rnd_fmt|apply fmt_dbl]).
  assert (E4 : Rabs (m + V lo) <= M + 6 * (u * D)).
  { apply Rabs_le_inv in M1, M2. apply Rabs_le. unfold D in *. lra. }
  assert (E5 : u * Rabs (m + V lo) <= u * M + 1 / 10 * (u * D)).
  { apply Rle_trans with (u * (M + 6 * (u * D))); [apply Rmult_le_compat_l; lra|]. rewrite Rmult_plus_distr_l. lra. }
  apply Rabs_le_inv in E3. apply Rabs_le. lra.
Qed.
End Grid.

Lemma grid_size_F p lo hi size : fin p -> fin lo -> fin hi -> bpow radix2 (-1022) <= V p -> V lo <= V hi -> Rabs (V lo) <= bpow radix2 1000 -> Rabs (V hi) <= bpow radix2 1000 ->
  grid_size FNum p lo hi = Ok size -> (1 <= size <= 2 ^ 31)%Z /\ IZR (size - 1) <= rnd64 (rnd64 (V hi - V lo) / V p) < IZR (size - 1) + 1.
Proof.
  intros Fp Fl Fh Lp LU Bl Bh H. unfold grid_size in H. apply bind_ok in H as (k & Hk & H). cbn [n_toint n_floor n_div n_sub FNum] in Hk.
  unfold chk_int in H. destruct (in_int (k + 1)) eqn:I; [|discriminate]. injection H as <-. replace (k + 1 - 1)%Z with k by lia.
  pose proof (p_pos p Lp) as Pp. pose proof (W_g lo hi LU Bl Bh) as [W0 _]. pose proof (D_g lo hi LU Bl Bh) as HD.
  destruct (fin_sub hi lo Fh Fl) as [F1 V1].
  { rewrite Rabs_pos_eq by lra. apply Rle_trans with (bpow radix2 1001); [lra|apply bpow_le; lia]. }
  change (d_toint (Bnearbyint mode_DN (d_div (d_sub hi lo) p)) = Ok k) in Hk. pose proof (toint_val _ _ Hk) as Tk. unfold d_toint in Hk.
  assert (F2 : fin (d_div (d_sub hi lo) p)).
  { change (is_finite (d_div (d_sub hi lo) p) = true). destruct (is_finite (Bnearbyint mode_DN (d_div (d_sub hi lo) p))) eqn:X in Hk; [|discriminate].
    destruct (Bnearbyint_correct dprec demax dprec_lt_emax mode_DN (d_div (d_sub hi lo) p)) as (_ & F & _). rewrite F in X. exact X. }
  pose proof (div_finite_val _ _ F1 Fp ltac:(lra) F2) as V2. rewrite V1 in V2.
  destruct (Bnearbyint_correct dprec demax dprec_lt_emax mode_DN (d_div (d_sub hi lo) p)) as (E & _ & _). rewrite round_FIX_IZR, V2 in E.
  cbn [round_mode] in E. rewrite E, Ztrunc_IZR in Tk. apply in_int_true in I. unfold INT_MIN, INT_MAX in I.
  assert (Q0 : 0 <= rnd64 (rnd64 (V hi - V lo) / V p)).
  { apply rnd_nonneg. unfold Rdiv. apply Rmult_le_pos; [exact W0|left; apply Rinv_0_lt_compat; lra]. }
  pose proof (Zfloor_lb (rnd64 (rnd64 (V hi - V lo) / V p))) as Z1. pose proof (Zfloor_ub (rnd64 (rnd64 (V hi - V lo) / V p))) as Z2. 
  pose proof (Zfloor_lub 0 _ Q0) as Z3. subst k. change (2 ^ 31)%Z with 2147483648%Z in *. split; [lia|]. lra.
Qed.

(** For every step of at least 2^-1022 and every lower bound <= upper bound of magnitude up to 2^1000: whenever the number
    of grid values per coordinate is an int, it is positive, and grid value number d is a finite double not below the
    lower bound, within [grid_slack] of lower + d*step and at most the upper bound plus [grid_slack]; value 0 is the
    lower bound, the values do not decrease, and the last one is within one step plus [grid_slack] of the upper bound. *)
Theorem C42_binary64 : forall (p lo hi : dbl) size, fin p -> fin lo -> fin hi -> bpow radix2 (-1022) <= V p -> V lo <= V hi ->
  Rabs (V lo) <= bpow radix2 1000 -> Rabs (V hi) <= bpow radix2 1000 -> grid_size FNum p lo hi = Ok size ->
  (1 <= size)%Z /\
  let x (d : Z) : dbl := d_add (d_mul (d_ofZ d) p) lo in
  (forall d, (0 <= d < size)%Z -> fin (x d) /\ V lo <= V (x d) <= V hi + grid_slack (V lo) (V hi) /\
     Rabs (V (x d) - (V lo + IZR d * V p)) <= grid_slack (V lo) (V hi)) /\
  V (x 0%Z) = V lo /\ (forall a b, (0 <= a <= b)%Z -> (b < size)%Z -> V (x a) <= V (x b)) /\
  V hi - V p - grid_slack (V lo) (V hi) <= V (x (size - 1)%Z) /\
  (forall n pts point v, grid_points FNum p lo size n = Ok pts -> In point pts -> In v point -> exists d, (0 <= d < size)%Z /\ v = x d).
Proof.
  intros p lo hi size Fp Fl Fh Lp LU Bl Bh H. destruct (grid_size_F p lo hi size Fp Fl Fh Lp LU Bl Bh H) as [S1 S2].
  split; [lia|]. intro x. set (k := (size - 1)%Z) in *. assert (Hk : (0 <= k < 2 ^ 31)%Z) by (unfold k; lia).
  pose proof (slack_eq lo hi) as SE. pose proof (uD lo hi LU Bl Bh) as (U1 & U2 & U3). cbv beta zeta in *.
  set (M := Rmax (Rabs (V lo)) (Rabs (V hi))) in *.
  assert (M0 : 0 <= u * M) by (apply up; eapply Rle_trans; [apply Rabs_pos|apply Rmax_l]).
  assert (Z0 : V (x 0%Z) = V lo) by exact (x_zero p lo hi k Fp Fl Lp LU Bl Bh Hk S2).
  assert (Mo : forall a b, (0 <= a <= b)%Z -> (b < size)%Z -> V (x a) <= V (x b)).
  { intros a b A B. apply (x_mono p lo hi k Fp Fl Lp LU Bl Bh Hk S2 a b A). unfold k. lia. }
  split; [|split; [exact Z0|split; [exact Mo|split]]].
  - intros d Hd. assert (Hd' : (0 <= d <= k)%Z) by (unfold k; lia).
    pose proof (x_err p lo hi k Fp Fl Lp LU Bl Bh Hk S2 d Hd') as E. pose proof (kp p lo hi k Lp LU Bl Bh S2 d Hd') as K. cbv beta zeta in *.
    change (d_add (d_mul (d_ofZ d) p) lo) with (x d) in E. fold M in E.
    split; [exact (proj1 (x_val p lo hi k Fp Fl Lp LU Bl Bh Hk S2 d Hd'))|]. rewrite SE. apply Rabs_le_inv in E. split; [split|].
    + rewrite <- Z0. apply Mo; lia.
    + lra.
    + apply Rabs_le. lra.
  - assert (Hk' : (0 <= k <= k)%Z) by lia. pose proof (x_err p lo hi k Fp Fl Lp LU Bl Bh Hk S2 k Hk') as E. pose proof (k_last p lo hi k Lp LU Bl Bh Hk S2) as K. cbv beta zeta in *.
    change (d_add (d_mul (d_ofZ k) p) lo) with (x k) in E. fold M in E. rewrite SE. apply Rabs_le_inv in E. lra.
  - intros n pts point v Hp Hi Hv. unfold grid_points in Hp. apply (mapM_in_r _ _ _ _ Hp) in Hi. destruct Hi as (i & _ & Hi).
    unfold grid_point in Hi. apply (mapM_in_r _ _ _ _ Hi) in Hv. destruct Hv as (j & _ & Hj). unfold grid_coordinate in Hj.
    destruct (integer_pow size j =? 0)%Z; [discriminate|]. exists ((Z.of_nat i / integer_pow size j) mod size)%Z.
    split; [apply Z.mod_pos_bound; lia|]. inversion Hj. reflexivity.
Qed.
Print Assumptions C42_binary64.

(** In exact arithmetic the grid is exactly the multiples inside the bounds (C42_grid_values_exact). Not in doubles: the
    grid from 0 to 0.3 with step 0.1 has 3 values, none of them 0.3; the grid from -1 to 0.1 with step 0.01 has 111
    values, and the last one exceeds the upper bound 0.1. *)
Definition g_step1 : dbl := d_of 3602879701896397 (-55).
Definition g_hi : dbl := d_of 5404319552844595 (-54).
Definition g_step2 : dbl := d_of 5764607523034235 (-59).
Theorem C42_binary64_bounds_refuted :
  (grid_size FNum g_step1 (d_ofZ 0) g_hi = Ok 3%Z /\
   forall d, (0 <= d < 3)%Z -> d_eqb (d_add (d_mul (d_ofZ d) g_step1) (d_ofZ 0)) g_hi = false) /\
  (grid_size FNum g_step2 (d_ofZ (-1)) g_step1 = Ok 111%Z /\ d_ltb g_step1 (d_add (d_mul (d_ofZ 110) g_step2) (d_ofZ (-1))) = true).
Proof.
  split; split; [vm_compute; reflexivity| |vm_compute; reflexivity|vm_compute; reflexivity]. intros d Hd. assert (E : (d = 0 \/ d = 1 \/ d = 2)%Z) by lia.
  destruct E as [-> | [-> | ->]]; vm_compute; reflexivity.
Qed.
Print Assumptions C42_binary64_bounds_refuted.
(** The hypotheses are met: the second grid above. *)
Example C42_binary64_meets : V (d_ofZ (-1)) <= V g_step1 /\ bpow radix2 (-1022) <= V g_step2 /\ fin g_step1 /\ fin g_step2 /\ fin (d_ofZ (-1)) /\
  Rabs (V (d_ofZ (-1))) <= bpow radix2 1000 /\ Rabs (V g_step1) <= bpow radix2 1000.
Proof.
  destruct (PropExamples.d_of_exact 3602879701896397 (-55)) as [F1 V1]; [lia|lia|]. destruct (PropExamples.d_of_exact 5764607523034235 (-59)) as [F2 V2]; [lia|lia|].
  destruct (d_ofZ_exact (-1) ltac:(lia)) as [F3 V3]. change (d_of 3602879701896397 (-55)) with g_step1 in *. change (d_of 5764607523034235 (-59)) with g_step2 in *.
  assert (B1 : bpow radix2 (-1022) <= bpow radix2 (-59)) by (apply bpow_le; lia). assert (B2 : bpow radix2 0 <= bpow radix2 1000) by (apply bpow_le; lia). change (bpow radix2 0) with 1 in B2.
  pose proof (bpow_gt_0 radix2 (-59)). pose proof (bpow_gt_0 radix2 (-55)). 
  assert (B3 : 3602879701896397 * bpow radix2 (-55) <= 1).
  { apply Rle_trans with (bpow radix2 55 * bpow radix2 (-55)); [apply Rmult_le_compat_r; [lra|]|rewrite <- bpow_plus; change (bpow radix2 (55 + -55)) with 1; lra].
    change (bpow radix2 55) with (IZR (2 ^ 55)). apply IZR_le. lia. }
  rewrite V1, V2, V3. assert (0 <= 3602879701896397 * bpow radix2 (-55)) by (apply Rmult_le_pos; lra).
  split; [lra|]. split; [lra|]. split; [exact F1|]. split; [exact F2|]. split; [exact F3|]. split; [rewrite Rabs_left; lra|]. rewrite Rabs_pos_eq; lra.
Qed.
