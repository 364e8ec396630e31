(** C72: the fast wavelet transform in double precision. *)
From Coq Require Import Reals Psatz.
From Flocq Require Import Core.Core IEEE754.BinarySingleNaN.
From Coquelicot Require Import Coquelicot.
From Verif Require Import Base Num IntProofs FloatLemmas Optim PropHooke Dsp PropDsp Cache FastWavelet PropFastWavelet RoundError PropRounding Analytic PropAnalytic.
Local Open Scope list_scope.
Local Open Scope R_scope.

(** The sample index used by the convolution, and the representative of a shift. *)
Lemma index_wrapped (size n m : nat) : (n < size)%nat -> (m < size)%nat ->
  - (INR (((n + size / 2) mod size + size - m) mod size) - INR size / 2) = - IZR (wrapped size (Z.of_nat n - Z.of_nat m)) + (if Nat.even size then 0 else 1 / 2).
Proof.
  intros Hn Hm. pose proof (Nat.mod_upper_bound (n + size / 2) size ltac:(lia)) as Hmod.
  set (j := (((n + size / 2) mod size + size - m) mod size)%nat). unfold wrapped.
  assert (Ej : (Z.of_nat j = (Z.of_nat n - Z.of_nat m + Z.of_nat (size / 2)) mod Z.of_nat size)%Z).
  { unfold j. rewrite Nat2Z.inj_mod, Nat2Z.inj_sub, Nat2Z.inj_add, Nat2Z.inj_mod, Nat2Z.inj_add by lia.
    replace ((Z.of_nat n + Z.of_nat (size / 2)) mod Z.of_nat size + Z.of_nat size - Z.of_nat m)%Z with ((Z.of_nat n + Z.of_nat (size / 2)) mod Z.of_nat size - Z.of_nat m + 1 * Z.of_nat size)%Z by ring.
    rewrite Z_mod_plus_full. rewrite Zminus_mod_idemp_l. f_equal. ring. }
  rewrite <- Ej, minus_IZR, <- !INR_IZR_INZ. clearbody j. clear Ej.
  destruct (Nat.even size) eqn:Ev.
  - apply Nat.even_spec in Ev as [q ->]. rewrite (Nat.mul_comm 2 q), Nat.div_mul, mult_INR by lia. cbn [INR]. lra.
  - assert (Od : Nat.odd size = true) by (rewrite <- Nat.negb_even, Ev; reflexivity). apply Nat.odd_spec in Od as [q ->].
    replace ((2 * q + 1) / 2)%nat with q by (rewrite Nat.add_comm, Nat.mul_comm, Nat.div_add by lia; reflexivity). rewrite plus_INR, mult_INR. cbn [INR]. lra.
Qed.
Lemma fmt_half z : (Z.abs z < 2 ^ 53)%Z -> fmt64 (IZR z / 2).
Proof.
  intro H. replace (IZR z / 2) with (IZR z * bpow radix2 (-1)) by reflexivity.
  apply generic_format_FLT. exists (Float radix2 z (-1)); cbn [Fnum Fexp]; [reflexivity|change (Zpower radix2 53) with (2 ^ 53)%Z; lia|lia].
Qed.

(** A wavelet computed in double precision: for finite arguments up to [B] the call returns finite numbers, within [ep] of [Psi]. *)
Definition computes (f : dbl -> outcome (dbl * dbl)) (Psi : R -> C) (B ep : R) : Prop :=
  forall t, fin t -> Rabs (V t) <= B -> exists z, f t = Ok z /\ cfin z /\ Cmod (Cminus (cval z) (Psi (V t))) <= ep.
Definition lipschitz (Psi : R -> C) (L : R) : Prop := forall a b, Cmod (Cminus (Psi a) (Psi b)) <= L * Rabs (a - b).
Definition bounded (Psi : R -> C) (M : R) : Prop := forall t, Cmod (Psi t) <= M.
(** The error of one sample of the stretched wavelet at scale [s], for signals of length [N]. *)
Definition sample_error (M L ep s : R) (N : nat) : R := (3 * u * M + 2 * (ep + L * (u * (INR N / (2 * s)) + eta))) / sqrt s + 2 * eta.

Section Fwt.
Variables f1 f2 f3 f4 f5 : dbl -> dbl.
Notation T := (MkTNum FMath f1 f2 f3 f4 f5).
Notation z0 := (c_zero T).

(** the sampling points are exact *)
Definition point (n N : nat) : dbl := d_mul (d_ofZ (-1)) (d_sub (nat_num T n) (d_div (nat_num T N) (d_ofZ 2))).
Lemma point_exact n N : small N -> (n < N)%nat -> fin (point n N) /\ V (point n N) = - (INR n - INR N / 2) /\ Rabs (V (point n N)) <= INR N / 2.
Proof.
  intros HN Hn. assert (Sn : small n) by (unfold small in *; lia). destruct (nat_dbl f1 f2 f3 f4 f5 n Sn) as (Fn & Vn & Bn). destruct (nat_dbl f1 f2 f3 f4 f5 N HN) as (FN & VN & BN).
  destruct (dZ 2 ltac:(cbn; lia)) as [F2 V2]. destruct (dZ (-1) ltac:(cbn; lia)) as [Fm Vm]. pose proof (pos_INR n). pose proof (pos_INR N). assert (Nn : INR n <= INR N) by (apply le_INR; lia).
  assert (BIG : 1099511627776 <= bpow radix2 1023) by (change 1099511627776 with (bpow radix2 40); apply bpow_le; lia).
  assert (HZ : (Z.of_nat N <= 2 ^ 40)%Z) by exact HN. change (2 ^ 40)%Z with 1099511627776%Z in HZ.
  assert (A : fin (d_div (nat_num T N) (d_ofZ 2)) /\ V (d_div (nat_num T N) (d_ofZ 2)) = INR N / 2).
  { assert (E : V (nat_num T N) / V (d_ofZ 2) = INR N / 2) by (rewrite VN, V2; reflexivity).
    destruct (d_div_finite (nat_num T N) (d_ofZ 2) FN) as [F W]; [rewrite V2; lra|apply no_overflow; rewrite E; apply Rabs_le; lra|]. split; [exact F|]. rewrite W, E. apply rnd_id. rewrite INR_IZR_INZ. apply fmt_half. change (2 ^ 53)%Z with 9007199254740992%Z. lia. }
  destruct A as [FA VA].
  assert (FS : fmt64 (INR n - INR N / 2)).
  { replace (INR n - INR N / 2) with (IZR (2 * Z.of_nat n - Z.of_nat N) / 2) by (rewrite minus_IZR, mult_IZR, <- !INR_IZR_INZ; lra). apply fmt_half. change (2 ^ 53)%Z with 9007199254740992%Z. lia. }
  assert (B : fin (d_sub (nat_num T n) (d_div (nat_num T N) (d_ofZ 2))) /\ V (d_sub (nat_num T n) (d_div (nat_num T N) (d_ofZ 2))) = INR n - INR N / 2).
  { assert (E : V (nat_num T n) - V (d_div (nat_num T N) (d_ofZ 2)) = INR n - INR N / 2) by (rewrite Vn, VA; reflexivity).
    destruct (d_sub_finite (nat_num T n) (d_div (nat_num T N) (d_ofZ 2)) Fn FA) as [F W]; [apply no_overflow; rewrite E; apply Rabs_le; lra|]. split; [exact F|]. rewrite W, E. apply rnd_id. exact FS. }
  destruct B as [FB VB]. unfold point. set (d := d_sub _ _) in *. assert (E : V (d_ofZ (-1)) * V d = - (INR n - INR N / 2)) by (rewrite Vm, VB; ring).
  destruct (mul_exact (d_ofZ (-1)) d Fm FB) as [F W]; [rewrite E; apply generic_format_opp; exact FS|rewrite E; apply Rabs_le; lra|]. split; [exact F|]. rewrite W, E. split; [reflexivity|]. apply Rabs_le. lra.
Qed.

(** division of a complex number by a positive double *)
Lemma div_real z d : cfin z -> 0 < V d -> Cmod (cval z) / V d <= bpow radix2 1000 ->
  cfin (c_div_r T z d) /\ Cmod (Cminus (cval (c_div_r T z d)) (Cmult (RtoC (/ V d)) (cval z))) <= 142 / 100 * (u * (Cmod (cval z) / V d) + eta).
Proof.
  intros [F1 F2] Hd B. pose proof u_pos. assert (iD : 0 < / V d) by (apply Rinv_0_lt_compat; exact Hd). assert (BB : bpow radix2 1000 <= bpow radix2 1023) by (apply bpow_le; lia).
  assert (D : forall x, fin x -> Rabs (V x) <= Cmod (cval z) -> fin (d_div x d) /\ Rabs (V (d_div x d) - / V d * V x) <= u * (Cmod (cval z) / V d) + eta).
  { intros x Fx Hx. assert (E : Rabs (V x / V d) <= Cmod (cval z) / V d) by (unfold Rdiv; rewrite Rabs_mult, (Rabs_pos_eq (/ V d)) by lra; apply Rmult_le_compat_r; lra).
    destruct (div_error x d Fx) as [G W]; [lra|lra|]. split; [exact G|]. replace (/ V d * V x) with (V x / V d) by (unfold Rdiv; ring).
    eapply Rle_trans; [exact W|]. apply Rplus_le_compat_r, Rmult_le_compat_l; lra. }
  destruct (D (fst z) F1 (cmod_re (cval z))) as [G1 W1]. destruct (D (snd z) F2 (cmod_im (cval z))) as [G2 W2]. split; [split; assumption|].
  apply cmod_comp.
  - replace (fst (Cminus (cval (c_div_r T z d)) (Cmult (RtoC (/ V d)) (cval z)))) with (V (d_div (fst z) d) - / V d * V (fst z)); [exact W1|].
    change (fst (Cminus (cval (c_div_r T z d)) (Cmult (RtoC (/ V d)) (cval z)))) with (V (d_div (fst z) d) + - (/ V d * V (fst z) - 0 * V (snd z))). ring.
  - replace (snd (Cminus (cval (c_div_r T z d)) (Cmult (RtoC (/ V d)) (cval z)))) with (V (d_div (snd z) d) - / V d * V (snd z)); [exact W2|].
    change (snd (Cminus (cval (c_div_r T z d)) (Cmult (RtoC (/ V d)) (cval z)))) with (V (d_div (snd z) d) + - (/ V d * V (snd z) + 0 * V (fst z))). ring.
Qed.
(** std::sqrt of a positive double *)
Lemma sqrt_error s : fin s -> 0 < V s -> fin (Bsqrt mode_NE s) /\ V (Bsqrt mode_NE s) = rnd64 (sqrt (V s)) /\ Rabs (V (Bsqrt mode_NE s) - sqrt (V s)) <= u * sqrt (V s).
Proof.
  intros Fs Hs. destruct (Bsqrt_correct dprec demax _ _ mode_NE s) as (E & F & _).
  assert (S0 : 0 < sqrt (V s)) by (apply sqrt_lt_R0; exact Hs).
  assert (L : bpow radix2 (-537) <= sqrt (V s)).
  { rewrite <- (sqrt_Rsqr (bpow radix2 (-537))) by apply bpow_ge_0. apply sqrt_le_1_alt. unfold Rsqr. rewrite <- bpow_plus.
    pose proof (fmt_dbl s) as G. apply FLT_format_generic in G; [|reflexivity]. destruct G as [[m e] W _ He]. cbn [Fnum Fexp] in *.
    rewrite W in *. assert (0 < m)%Z by (apply (gt_0_F2R radix2 m e); exact Hs). apply Rle_trans with (bpow radix2 e); [apply bpow_le; exact He|].
    unfold F2R. cbn [Fnum Fexp]. rewrite <- (Rmult_1_l (bpow radix2 e)) at 1. apply Rmult_le_compat_r; [apply bpow_ge_0|]. apply IZR_le. lia. }
  split.
  - refine (eq_trans F _). clear E F L S0. destruct s as [[]|[]| |[] m e B]; try reflexivity; try discriminate Fs. exfalso.
    assert (F2R (Float radix2 (Zneg m) e) < 0) by (apply F2R_lt_0; reflexivity). change (0 < F2R (Float radix2 (Zneg m) e)) in Hs. lra.
  - split; [exact E|]. replace (V (Bsqrt mode_NE s)) with (rnd64 (sqrt (V s))) by (symmetry; exact E). rewrite <- (Rabs_pos_eq (sqrt (V s))) at 3 by lra. apply rnd_error_norm. right. rewrite Rabs_pos_eq by lra.
    eapply Rle_trans; [|exact L]. apply bpow_le. lia.
Qed.

Section Samples.
Variable psi : nat -> dbl -> outcome (dbl * dbl).
Variable w : nat.
Variable Psi : R -> C.
Variables B ep L M : R.
Hypothesis psi_ok : computes (psi w) Psi B ep.
Hypothesis psi_lip : lipschitz Psi L.
Hypothesis psi_bound : bounded Psi M.
Hypothesis B_range : 1 <= B <= bpow radix2 1000.
Hypothesis L_pos : 0 <= L.
Variable s : dbl.
Variable N : nat.
Hypothesis N_small : small N.
Hypothesis s_fin : fin s.
Hypothesis s_pos : 0 < V s.
Hypothesis reach : INR N / V s <= B.
Notation es := (sample_error M L ep (V s) N).
Hypothesis room : INR N * (M / sqrt (V s) + es) <= bpow radix2 450.

Lemma sample n : (n < N)%nat -> exists z, (let! z := scaled_value T psi w s (point n N) in Ok (c_conj T z)) = Ok z /\ cfin z /\
  Cmod (Cminus (cval z) (Cconj (stretched Psi (V s) (- (INR n - INR N / 2))))) <= es.
Proof.
  intro Hn. destruct (point_exact n N N_small Hn) as (Fp & Vp & Bp). set (p := - (INR n - INR N / 2)) in *.
  pose proof u_pos as U0. pose proof u_small as U1. pose proof eta_pos as H0. pose proof eta_small as H1.
  assert (iS : 0 < / V s) by (apply Rinv_0_lt_compat; exact s_pos). assert (N1 : 1 <= INR N) by (apply (le_INR 1); lia).
  assert (EQ : INR N / (2 * V s) = INR N / V s / 2) by (field; lra). set (q := INR N / (2 * V s)) in *.
  assert (Q0 : 0 <= q) by (rewrite EQ; apply Rmult_le_pos; [apply Rmult_le_pos; lra|lra]).
  assert (BP : Rabs (V (point n N) / V s) <= q).
  { unfold Rdiv. rewrite Rabs_mult, (Rabs_pos_eq (/ V s)) by lra. rewrite EQ. unfold Rdiv. rewrite (Rmult_comm (INR N) (/ V s)), Rmult_assoc, (Rmult_comm (/ V s)). apply Rmult_le_compat_r; [lra|]. exact Bp. }
  assert (B3 : bpow radix2 1000 <= bpow radix2 1023) by (apply bpow_le; lia).
  destruct (div_error (point n N) s Fp) as [Ft Wt]; [lra|lra|].
  set (t := d_div (point n N) s) in *. rewrite Vp in Wt, BP.
  assert (dT : Rabs (V t - p / V s) <= u * q + eta) by (eapply Rle_trans; [exact Wt|]; apply Rplus_le_compat_r, Rmult_le_compat_l; lra).
  assert (UQ : u * q <= / 1024 * q) by (apply Rmult_le_compat_r; lra).
  assert (Bt : Rabs (V t) <= B). { replace (V t) with ((V t - p / V s) + p / V s) by ring. eapply Rle_trans; [apply Rabs_triang|]. lra. }
  destruct (psi_ok t Ft Bt) as (z & Ez & Fz & Wz). set (e1 := ep + L * (u * q + eta)).
  assert (Wz1 : Cmod (Cminus (cval z) (Psi (p / V s))) <= e1).
  { replace (Cminus (cval z) (Psi (p / V s))) with (Cplus (Cminus (cval z) (Psi (V t))) (Cminus (Psi (V t)) (Psi (p / V s)))) by ring.
    eapply Rle_trans; [apply Cmod_triangle|]. unfold e1. apply Rplus_le_compat; [exact Wz|]. eapply Rle_trans; [apply psi_lip|]. apply Rmult_le_compat_l; assumption. }
  assert (E1 : 0 <= e1) by (eapply Rle_trans; [apply Cmod_ge_0|exact Wz1]).
  assert (M0 : 0 <= M) by (eapply Rle_trans; [apply Cmod_ge_0|exact (psi_bound 0)]).
  assert (Bz : Cmod (cval z) <= M + e1) by (eapply Rle_trans; [apply (cmod_sub_le (cval z) (Psi (p / V s)))|]; pose proof (psi_bound (p / V s)); lra).
  destruct (sqrt_error s s_fin s_pos) as (Fq & _ & Wq). set (r := sqrt (V s)) in *. assert (R0 : 0 < r) by (apply sqrt_lt_R0; exact s_pos). set (g := Bsqrt mode_NE s) in *.
  apply Rabs_le_inv in Wq. assert (Ur : u * r <= / 1024 * r) by (apply Rmult_le_compat_r; lra). assert (G0 : 0 < V g) by lra.
  assert (iR : 0 < / r) by (apply Rinv_0_lt_compat; exact R0).
  assert (IG : Rabs (/ V g - / r) <= 101 / 100 * u * / r /\ / V g <= 101 / 100 * / r).
  { assert (HB : / V g <= 101 / 100 * / r). { replace (101 / 100 * / r) with (/ (100 / 101 * r)) by (field; lra). apply Rinv_le_contravar; lra. }
    split; [|exact HB]. replace (/ V g - / r) with ((r - V g) * / r * / V g) by (field; lra). rewrite !Rabs_mult, (Rabs_pos_eq (/ r)), (Rabs_pos_eq (/ V g)) by (try (left; apply Rinv_0_lt_compat); lra).
    assert (A : Rabs (r - V g) <= u * r) by (apply Rabs_le; lra).
    apply Rle_trans with (u * r * / r * (101 / 100 * / r)); [|right; field; lra]. apply Rmult_le_compat; [apply Rmult_le_pos; [apply Rabs_pos|lra]|left; apply Rinv_0_lt_compat; exact G0| |exact HB].
    apply Rmult_le_compat_r; [lra|exact A]. }
  destruct IG as [IG1 IG2]. assert (iG : 0 < / V g) by (apply Rinv_0_lt_compat; exact G0).
  assert (ES : es = 3 * u * (M * / r) + 2 * (e1 * / r) + 2 * eta).
  { unfold sample_error. fold q r. fold e1. unfold Rdiv. ring. }
  assert (MR : 0 <= M * / r) by (apply Rmult_le_pos; lra). assert (ER : 0 <= e1 * / r) by (apply Rmult_le_pos; lra).
  assert (UM : 0 <= u * (M * / r) <= / 1024 * (M * / r)) by (split; [apply Rmult_le_pos; lra|apply Rmult_le_compat_r; lra]).
  assert (UE : 0 <= u * (e1 * / r) <= / 1024 * (e1 * / r)) by (split; [apply Rmult_le_pos; lra|apply Rmult_le_compat_r; lra]).
  assert (B45 : bpow radix2 1000 = 2 * bpow radix2 999) by (change 1000%Z with (1 + 999)%Z; rewrite bpow_plus; reflexivity).
  assert (B46 : bpow radix2 450 <= bpow radix2 999) by (apply bpow_le; lia).
  assert (RM : M * / r + es <= bpow radix2 450).
  { eapply Rle_trans; [|exact room]. fold r. unfold Rdiv. rewrite <- (Rmult_1_l (M * / r + es)) at 1. apply Rmult_le_compat_r; [|exact N1]. rewrite ES. lra. }
  assert (ZG : Cmod (cval z) / V g <= 101 / 100 * (M * / r + e1 * / r)).
  { unfold Rdiv. apply Rle_trans with ((M + e1) * (101 / 100 * / r)); [|right; field; lra]. apply Rmult_le_compat; [apply Cmod_ge_0|lra|exact Bz|exact IG2]. }
  destruct (div_real z g Fz G0) as [Fd Wd]; [rewrite ES in RM; lra|]. set (d := c_div_r T z g) in *.
  destruct (conj_exact f1 f2 f3 f4 f5 d Fd) as [Fc Vc]. exists (c_conj T d). split.
  { unfold scaled_value. change (n_div T (point n N) s) with t. rewrite Ez. reflexivity. }
  split; [exact Fc|]. rewrite Vc. unfold stretched. fold r.
  replace (Cminus (Cconj (cval d)) (Cconj (Cmult (RtoC (/ r)) (Psi (p / V s))))) with (Cconj (Cminus (cval d) (Cmult (RtoC (/ r)) (Psi (p / V s))))).
  2:{ unfold Cconj, Cminus, Cplus, Copp. apply injective_projections; cbn; ring. }
  rewrite cmod_conj. set (P := Psi (p / V s)) in *. clearbody P d.
  replace (Cminus (cval d) (Cmult (RtoC (/ r)) P)) with (Cplus (Cplus (Cminus (cval d) (Cmult (RtoC (/ V g)) (cval z))) (Cmult (RtoC (/ V g - / r)) (cval z))) (Cmult (RtoC (/ r)) (Cminus (cval z) P))).
  2:{ rewrite RtoC_minus. ring. }
  eapply Rle_trans; [apply Cmod_triangle|]. rewrite Cmod_mult, Cmod_R, (Rabs_pos_eq (/ r)) by lra.
  assert (X1 : Cmod (Cplus (Cminus (cval d) (Cmult (RtoC (/ V g)) (cval z))) (Cmult (RtoC (/ V g - / r)) (cval z))) <= 142 / 100 * (u * (101 / 100 * (M * / r + e1 * / r)) + eta) + 101 / 100 * (u * (M * / r) + u * (e1 * / r))).
  { eapply Rle_trans; [apply Cmod_triangle|]. apply Rplus_le_compat.
    - eapply Rle_trans; [exact Wd|]. apply Rmult_le_compat_l; [lra|]. apply Rplus_le_compat_r, Rmult_le_compat_l; lra.
    - rewrite Cmod_mult, Cmod_R. apply Rle_trans with (101 / 100 * u * / r * (M + e1)); [|right; ring]. apply Rmult_le_compat; [apply Rabs_pos|apply Cmod_ge_0|exact IG1|exact Bz]. }
  assert (X2 : / r * Cmod (Cminus (cval z) P) <= e1 * / r) by (rewrite (Rmult_comm e1); apply Rmult_le_compat_l; lra).
  rewrite ES. lra.
Qed.

Lemma es_pos : (0 < N)%nat -> 0 <= es.
Proof. intro H. destruct (sample 0 H) as (z & _ & _ & W). eapply Rle_trans; [apply Cmod_ge_0|exact W]. Qed.
Lemma samples : (0 < N)%nat -> exists h : list (dbl * dbl), calc_samples T psi w s N = Ok h /\ length h = N /\ Forall cfin h /\
  (forall j, (j < N)%nat -> Cmod (Cminus (val h j) (Cconj (stretched Psi (V s) (- (INR j - INR N / 2))))) <= es) /\
  total h <= INR N * (M / sqrt (V s) + es).
Proof.
  intro HN. unfold calc_samples.
  assert (X : forall m a, (a + m <= N)%nat -> exists h, mapM (fun n => let! z := scaled_value T psi w s (point n N) in Ok (c_conj T z)) (seq a m) = Ok h /\ length h = m /\ Forall cfin h /\
    forall j, (j < m)%nat -> Cmod (Cminus (val h j) (Cconj (stretched Psi (V s) (- (INR (a + j) - INR N / 2))))) <= es).
  { induction m as [|m IH]; intros a Ha; [exists []; split; [reflexivity|]; split; [reflexivity|]; split; [constructor|]; intros j Hj; lia|].
    destruct (IH (S a) ltac:(lia)) as (h & E & Lh & Fh & W). destruct (sample a ltac:(lia)) as (z & Ez & Fz & Wz). exists (z :: h). cbn [seq mapM].
    rewrite Ez. cbn [bind]. unfold cplx in *. cbn [num] in *. rewrite E. cbn [bind]. split; [reflexivity|]. split; [exact (f_equal S Lh)|]. split; [constructor; assumption|].
    intros [|j] Hj; [rewrite Nat.add_0_r; exact Wz|]. rewrite <- Nat.add_succ_comm. apply (W j). lia. }
  destruct (X N 0%nat ltac:(lia)) as (h & E & Lh & Fh & W). exists h. split; [exact E|]. split; [exact Lh|]. split; [exact Fh|]. split; [exact W|].
  rewrite <- Lh at 1. apply total_nth. intros k Hk. apply (lt_to Lh) in Hk. eapply Rle_trans; [apply (cmod_sub_le _ (Cconj (stretched Psi (V s) (- (INR (0 + k) - INR N / 2)))))|].
  specialize (W k Hk). rewrite cmod_conj. change (0 + k)%nat with k in W |- *. enough (Cmod (stretched Psi (V s) (- (INR k - INR N / 2))) <= M / sqrt (V s)) by lra.
  unfold stretched. assert (R0 : 0 < sqrt (V s)) by (apply sqrt_lt_R0; exact s_pos). assert (iR : 0 < / sqrt (V s)) by (apply Rinv_0_lt_compat; exact R0).
  rewrite Cmod_mult, Cmod_R, Rabs_pos_eq by lra. unfold Rdiv. rewrite (Rmult_comm M). apply Rmult_le_compat_l; [lra|apply psi_bound].
Qed.

Variable engine : list (dbl * dbl) -> list (dbl * dbl).
Variable D : R.
Hypothesis D_range : 0 <= D <= / 4.
Hypothesis engine_ok : accurate N D (fft_transform T (Some engine) N).
Lemma rotate_val (c : list (dbl * dbl)) k n : length c = k -> (n < k)%nat -> val (rotate_half c) n = val c ((n + k / 2) mod k).
Proof.
  intros <- H. unfold val. replace (map cval (rotate_half c)) with (rotate_half (map cval c)) by (unfold rotate_half; rewrite map_app, firstn_map, skipn_map, map_length; reflexivity).
  rewrite rotate_nth by (rewrite map_length; exact H). rewrite map_length. reflexivity.
Qed.
Lemma row (x : list (dbl * dbl)) (o : fwt T) : (0 < N)%nat -> f_size T o = N -> length x = N -> Forall cfin x -> total x <= bpow radix2 450 ->
  let H := INR N * (M / sqrt (V s) + es) in
  exists c : list (dbl * dbl), snd (transform_one T psi (Some engine) o x w s None) = Ok c /\ length c = N /\ Forall cfin (rotate_half c) /\
    forall n, (n < N)%nat -> Cmod (Cminus (val (rotate_half c) n) (correlation Psi (V s) (map cval x) n))
      <= (4 * D + 9 * u) * (total x * H) + 9 * (INR N + 1) * eta * (1 + total x + H) + total x * es.
Proof.
  intros HN Ho Lx Fx Bx H. destruct (samples HN) as (h & Eh & Lh & Fh & Wh & Th). fold H in Th.
  destruct (C69_fourier_convolution_error f1 f2 f3 f4 f5 (fft_transform T (Some engine) N) N D N_small D_range engine_ok x h Lx Lh Fx Fh Bx) as (c & Ec & Lc & Fc & Wc); [eapply Rle_trans; [exact Th|exact room]|].
  exists c. split.
  { unfold transform_one. replace (n_leb T s (n_ofZ T 0)) with false.
    2:{ symmetry. change (d_leb s (d_ofZ 0) = false). destruct (dZ 0 ltac:(cbn; lia)) as [F0 V0]. destruct (d_leb s (d_ofZ 0)) eqn:El; [|reflexivity]. apply (d_leb_R s (d_ofZ 0) s_fin F0) in El. rewrite V0 in El. lra. }
    unfold get_samples. cbn [snd]. rewrite Ho.
    refine (eq_trans (f_equal (fun r => let! h := r in fourier_convolution T (fft_transform T (Some engine) N) x h) (eq_trans (f_equal (calc_samples T psi w s) Lx) Eh)) _). exact Ec. }
  split; [exact Lc|]. split.
  { unfold rotate_half. apply Forall_app. rewrite <- (firstn_skipn (length c / 2) c) in Fc at 1. apply Forall_app in Fc as [A1 A2]. split; assumption. }
  intros n Hn. rewrite (rotate_val c N n Lc Hn). set (n' := ((n + N / 2) mod N)%nat). assert (Hn' : (n' < N)%nat) by (apply Nat.mod_upper_bound; lia).
  specialize (Wc n' Hn'). unfold correlation. rewrite map_length. replace (length x) with N by (symmetry; exact Lx).
  set (A := csum N (fun m => Cmult (val x m) (val h ((n' + N - m) mod N)))) in *.
  match goal with |- Cmod (Cminus _ ?y) <= _ => set (Y := y) end.
  assert (AY : Cmod (Cminus A Y) <= total x * es).
  { unfold A, Y. rewrite <- csum_diff. eapply Rle_trans; [apply cmod_csum|]. unfold total. replace (length x) with N by (symmetry; exact Lx). rewrite Rmult_comm, <- rsum_scale. apply rsum_le. intros m Hm. rewrite Cmod_mult, Rmult_comm. apply Rmult_le_compat_r; [apply Cmod_ge_0|].
    rewrite <- index_wrapped by assumption. apply Wh. apply Nat.mod_upper_bound. lia. }
  apply Rle_trans with (Cmod (Cplus (Cminus (val c n') A) (Cminus A Y))); [right; f_equal; ring|]. eapply Rle_trans; [apply Cmod_triangle|]. apply Rplus_le_compat; [|exact AY].
  eapply Rle_trans; [exact Wc|]. pose proof (total_pos x) as X0. pose proof (total_pos h) as H0. pose proof u_pos. pose proof eta_pos. pose proof (pos_INR N).
  apply Rplus_le_compat.
  - apply Rmult_le_compat_l; [lra|]. apply Rmult_le_compat_l; [exact X0|exact Th].
  - apply Rmult_le_compat_l; [|lra]. apply Rmult_le_pos; [lra|]. lra.
Qed.
End Samples.
End Fwt.

(** What a scale must satisfy for the samples to stay in range: positive, and neither the arguments of the wavelet nor the samples overflow. *)
Definition usable (M L ep B : R) (N : nat) (s : dbl) : Prop :=
  fin s /\ 0 < V s /\ INR N / V s <= B /\ INR N * (M / sqrt (V s) + sample_error M L ep (V s) N) <= bpow radix2 450.
(** The error of one coefficient, for a signal of total size [S] and a Fourier engine of accuracy [D]. *)
Definition row_error (M L ep D S s : R) (N : nat) : R :=
  let H := INR N * (M / sqrt s + sample_error M L ep s N) in
  (4 * D + 9 * u) * (S * H) + 9 * (INR N + 1) * eta * (1 + S + H) + S * sample_error M L ep s N.

Theorem C72_transform : forall f1 f2 f3 f4 f5 (psi : nat -> dbl -> outcome (dbl * dbl)) w Psi B ep L M (engine : list (dbl * dbl) -> list (dbl * dbl)) D N,
  let T := MkTNum FMath f1 f2 f3 f4 f5 in
  computes (psi w) Psi B ep -> lipschitz Psi L -> bounded Psi M -> 1 <= B <= bpow radix2 1000 -> 0 <= L ->
  (0 < N)%nat -> small N -> 0 <= D <= / 4 -> accurate N D (fft_transform T (Some engine) N) ->
  forall bytes scales limit o ca h (x : list (dbl * dbl)),
  Forall (usable M L ep B N) scales -> length x = N -> Forall cfin x -> total x <= bpow radix2 450 ->
  fwt_create T (Some engine) bytes scales N limit = Ok (o, ca) ->
  let result := snd (transform T psi (Some engine) o x w (wafter T psi (Some engine) o ca h)) in
  (d_ltb (d_ofZ 0) limit = true /\ result = Throw RuntimeError) \/
  exists rows : list (list (dbl * dbl)), result = Ok rows /\ length rows = length scales /\
    forall i s row, nth_error scales i = Some s -> nth_error rows i = Some row ->
      length row = N /\ Forall cfin row /\
      forall n, (n < N)%nat -> Cmod (Cminus (val row n) (correlation Psi (V s) (map cval x) n)) <= row_error M L ep D (total x) (V s) N.
Proof.
  intros f1 f2 f3 f4 f5 psi w Psi B ep L M engine D N T HP HL HM HB HL0 HN SN HD HA bytes scales limit o ca h x Hs Lx Fx Bx Hc result.
  assert (Hn : exists rows : list (list (dbl * dbl)), snd (transform T psi (Some engine) o x w None) = Ok rows /\ length rows = length scales /\
    forall i s row, nth_error scales i = Some s -> nth_error rows i = Some row ->
      length row = N /\ Forall cfin row /\
      forall n, (n < N)%nat -> Cmod (Cminus (val row n) (correlation Psi (V s) (map cval x) n)) <= row_error M L ep D (total x) (V s) N).
  { unfold fwt_create, fft_create in Hc. destruct (Nat.eqb_spec N 0); [lia|]. cbn [bind] in Hc. injection Hc as <- _. unfold transform. cbn [f_scales].
    clear result h ca. set (o := MkFwt T scales N). assert (Ho : f_size T o = N) by reflexivity. clearbody o. induction Hs as [|s r Hs Hr IH].
    - exists []. split; [reflexivity|]. split; [reflexivity|]. intros i s row Hi. destruct i; discriminate.
    - destruct IH as (rows & E & Lr & F). destruct Hs as (Fs & Ps & Rs & Os).
      destruct (row f1 f2 f3 f4 f5 psi w Psi B ep L M HP HL HM HB HL0 s N SN Fs Ps Rs Os engine D HD HA x o HN Ho Lx Fx Bx) as (c & Er & Lc & Fc & Wc).
      cbn [transform_scales]. pose proof (transform_one_none T psi (Some engine) o x w s) as N0.
      change (MkTNum FMath f1 f2 f3 f4 f5) with T in Er. change (num T) with dbl in *. destruct (transform_one T psi (Some engine) o x w s None) as [ca0 r0]. cbn [fst snd] in *. subst ca0 r0.
      destruct (transform_scales T psi (Some engine) o x w r None) as [ca0 r0]. cbn [fst snd] in *. subst r0. cbn [bind].
      exists (rotate_half c :: rows). split; [reflexivity|]. split; [exact (f_equal S Lr)|]. intros [|i] s' row' Hi Hrow; cbn in Hi, Hrow; [|eapply F; eassumption].
      injection Hi as <-. injection Hrow as <-. split; [exact (eq_trans (rotate_length _) Lc)|]. split; [exact Fc|exact Wc]. }
  destruct Hn as (rows & E & R). destruct (d_ltb (d_ofZ 0) limit) eqn:Lm.
  - assert (Hc' : exists ca', fwt_create T (Some engine) bytes scales N (d_ofZ 0) = Ok (o, ca') /\ ca' = None).
    { unfold fwt_create in *. destruct (fft_create T (Some engine) N); try discriminate. cbn [bind] in *. injection Hc as <- _. eexists. split; reflexivity. }
    destruct Hc' as (ca' & Hc' & ->).
    destruct (C53_cache_transparent T psi (Some engine) (proj2 C53_scales_exact f1 f2 f3 f4 f5) bytes scales N limit (d_ofZ 0) o ca o None h Hc Hc' eq_refl) as [H _].
    destruct (H x w) as [Q|Q]; [right; exists rows; split; [exact (eq_trans Q E)|exact R]|left; auto].
  - right. exists rows. split; [|exact R]. destruct (C53_no_cache T psi (Some engine) bytes scales N limit o ca h Hc Lm) as [H _].
    unfold result. rewrite H. unfold fwt_create in Hc. destruct (fft_create T (Some engine) N); try discriminate. cbn [bind] in Hc. injection Hc as <- <-.
    unfold c_create. rewrite Lm. exact E.
Qed.

(** ** The Morlet wavelet in double precision *)
(** What is assumed of std::exp, std::cos and std::sin: absolute errors of at most [eps], exp for arguments up to 0. *)
Record wmath (eps : R) (fexp fcos fsin : dbl -> dbl) : Prop := MkWmath {
  wm_exp : forall x, fin x -> V x <= 0 -> fin (fexp x) /\ Rabs (V (fexp x) - exp (V x)) <= eps;
  wm_cos : forall x, fin x -> fin (fcos x) /\ Rabs (V (fcos x) - cos (V x)) <= eps;
  wm_sin : forall x, fin x -> fin (fsin x) /\ Rabs (V (fsin x) - sin (V x)) <= eps;
}.
Lemma exp_neg_1 x : 0 <= x -> 0 < exp (- x) <= 1.
Proof. intro H. split; [apply exp_pos|]. rewrite <- exp_0. destruct (Req_dec x 0) as [->|]; [rewrite Ropp_0; lra|]. left. apply exp_increasing. lra. Qed.
Lemma xexp x : x * exp (- x) <= 1.
Proof.
  rewrite exp_Ropp. pose proof (exp_ineq1_le x) as E. pose proof (exp_pos x) as P. apply (Rmult_le_reg_r (exp x)); [exact P|]. rewrite Rmult_assoc, Rinv_l, Rmult_1_r, Rmult_1_l by lra. lra.
Qed.
Lemma texp t : Rabs t * exp (- (t * t / 2)) <= 1.
Proof.
  apply Rle_trans with ((1 + t * t / 2) * exp (- (t * t / 2))).
  - apply Rmult_le_compat_r; [left; apply exp_pos|]. apply Rabs_le. nra.
  - rewrite exp_Ropp. pose proof (exp_ineq1_le (t * t / 2)) as E. pose proof (exp_pos (t * t / 2)) as P. apply (Rmult_le_reg_r (exp (t * t / 2))); [exact P|]. rewrite Rmult_assoc, Rinv_l, Rmult_1_r, Rmult_1_l by lra. exact E.
Qed.
Lemma exp_step p q : 0 <= p <= q -> 0 <= exp (- p) - exp (- q) <= exp (- p) * (q - p).
Proof.
  intros [H0 H]. replace (- q) with (- p + - (q - p)) by ring. rewrite exp_plus. destruct (exp_neg_1 (q - p) ltac:(lra)) as [_ E1]. pose proof (exp_ineq1_le (- (q - p))) as E2. pose proof (exp_pos (- p)) as P.
  split; [|apply Rle_trans with (exp (- p) * (1 - exp (- (q - p)))); [right; ring|apply Rmult_le_compat_l; lra]].
  replace (exp (- p) - exp (- p) * exp (- (q - p))) with (exp (- p) * (1 - exp (- (q - p)))) by ring. apply Rmult_le_pos; lra.
Qed.
Lemma exp_close v x X d : 0 <= v <= / 256 -> 0 <= x -> 0 <= X -> 0 <= d -> Rabs (X - x) <= v * x + d -> Rabs (exp (- X) - exp (- x)) <= 101 / 100 * v + 2 * d.
Proof.
  intros [U0 U1] H0 H1 Hd H. apply Rabs_le_inv in H. destruct (Rle_lt_dec x X) as [L|L].
  - rewrite Rabs_minus_sym. destruct (exp_step x X ltac:(lra)) as [A B]. rewrite Rabs_pos_eq by lra. eapply Rle_trans; [exact B|]. destruct (exp_neg_1 x H0) as [P Q]. pose proof (xexp x) as R0.
    apply Rle_trans with (exp (- x) * (v * x + d)); [apply Rmult_le_compat_l; lra|]. replace (exp (- x) * (v * x + d)) with (v * (x * exp (- x)) + exp (- x) * d) by ring.
    assert (v * (x * exp (- x)) <= v * 1) by (apply Rmult_le_compat_l; lra). assert (exp (- x) * d <= 1 * d) by (apply Rmult_le_compat_r; lra). lra.
  - destruct (exp_step X x ltac:(lra)) as [A B]. rewrite Rabs_pos_eq by lra. eapply Rle_trans; [exact B|]. destruct (exp_neg_1 X H1) as [P Q]. pose proof (xexp X) as R0.
    assert (UX : v * x <= / 256 * x) by (apply Rmult_le_compat_r; lra). assert (W : x <= 101 / 100 * X + 101 / 100 * d) by lra.
    assert (UW : v * x <= v * (101 / 100 * X + 101 / 100 * d)) by (apply Rmult_le_compat_l; lra). assert (UD : 0 <= v * d <= / 256 * d) by (split; [apply Rmult_le_pos; lra|apply Rmult_le_compat_r; lra]).
    apply Rle_trans with (exp (- X) * (101 / 100 * v * X + 2 * d)); [apply Rmult_le_compat_l; lra|].
    replace (exp (- X) * (101 / 100 * v * X + 2 * d)) with (101 / 100 * (v * (X * exp (- X))) + exp (- X) * (2 * d)) by ring.
    assert (v * (X * exp (- X)) <= v * 1) by (apply Rmult_le_compat_l; lra). assert (exp (- X) * (2 * d) <= 1 * (2 * d)) by (apply Rmult_le_compat_r; lra). lra.
Qed.
Lemma gauss_lip a b : Rabs (exp (- (a * a / 2)) - exp (- (b * b / 2))) <= Rabs (a - b).
Proof.
  destruct (MVT_abs (fun t => exp (- (t * t / 2))) (fun t => - t * exp (- (t * t / 2))) b a) as (c & E & _).
  { intros c _. apply is_derive_Reals. cbv beta. auto_derive; [exact I|]. match goal with |- ?a = ?b => change (@eq R a b) end. unfold Rdiv. field. }
  cbn beta in E. rewrite E. rewrite <- (Rmult_1_l (Rabs (a - b))) at 2. apply Rmult_le_compat_r; [apply Rabs_pos|]. rewrite Rabs_mult, Rabs_Ropp, (Rabs_pos_eq (exp _)) by (left; apply exp_pos). apply texp.
Qed.
Lemma morlet_form t : morlet t = Cmult (RtoC (exp (- (t * t / 2)))) (cis (5 * t)).
Proof. destruct (C65_morlet t) as (E & _). rewrite E. unfold cis, Cmult, RtoC. cbn [fst snd]. replace (t ^ 2) with (t * t) by ring. apply injective_projections; cbn [fst snd]; ring. Qed.
Lemma morlet_bounded : bounded morlet 1.
Proof. intro t. destruct (C65_morlet t) as (_ & E & _). rewrite E. apply exp_neg_1. nra. Qed.
Lemma morlet_lipschitz : lipschitz morlet 6.
Proof.
  intros a b. rewrite !morlet_form. set (p := exp (- (a * a / 2))). set (q := exp (- (b * b / 2))).
  replace (Cminus (Cmult (RtoC p) (cis (5 * a))) (Cmult (RtoC q) (cis (5 * b)))) with (Cplus (Cmult (RtoC (p - q)) (cis (5 * a))) (Cmult (RtoC q) (Cminus (cis (5 * a)) (cis (5 * b))))) by (rewrite RtoC_minus; ring).
  eapply Rle_trans; [apply Cmod_triangle|]. rewrite !Cmod_mult, !Cmod_R, cmod_cis, Rmult_1_r.
  assert (A : Rabs (p - q) <= Rabs (a - b)) by apply gauss_lip. assert (Q : 0 < q <= 1) by (apply exp_neg_1; nra). rewrite (Rabs_pos_eq q) by lra.
  assert (B : Cmod (Cminus (cis (5 * a)) (cis (5 * b))) <= 5 * Rabs (a - b)).
  { eapply Rle_trans; [apply cis_lip|]. replace (5 * a - 5 * b) with (5 * (a - b)) by ring. rewrite Rabs_mult, (Rabs_pos_eq 5) by lra. lra. }
  assert (q * Cmod (Cminus (cis (5 * a)) (cis (5 * b))) <= 1 * (5 * Rabs (a - b))) by (apply Rmult_le_compat; [lra|apply Cmod_ge_0|lra|exact B]). lra.
Qed.

Lemma eta_u : eta <= u / 1024.
Proof. replace (u / 1024) with (bpow radix2 (-63)). 2:{ unfold u. replace (-63)%Z with (-53 + -10)%Z by lia. rewrite bpow_plus. reflexivity. } apply bpow_le. lia. Qed.

Theorem C72_morlet : forall eps fexp fcos fsin f4 f5, wmath eps fexp fcos fsin -> 0 <= eps <= / 32 ->
  let T := MkTNum FMath fexp fcos fsin f4 f5 in
  computes (fun t => Ok (morlet_value T t)) morlet (bpow radix2 500) (3 * eps + 13 * u).
Proof.
  intros eps fexp fcos fsin f4 f5 [WE WC WS] [He0 He1] T t Ft Bt. pose proof u_pos as U0. pose proof u_small as U1. pose proof eta_pos as H0. pose proof eta_u as H1.
  set (r := V t) in *. exists (morlet_value T t). split; [reflexivity|].
  destruct (dZ 0 ltac:(cbn; lia)) as [F0 V0]. destruct (dZ 1 ltac:(cbn; lia)) as [F1 V1]. destruct (dZ 2 ltac:(cbn; lia)) as [F2 V2]. destruct (dZ 5 ltac:(cbn; lia)) as [F5 V5].
  assert (B500 : bpow radix2 1001 = 2 * (bpow radix2 500 * bpow radix2 500)) by (rewrite <- bpow_plus; change 1001%Z with (1 + (500 + 500))%Z; rewrite bpow_plus; reflexivity).
  assert (B1023 : bpow radix2 1001 <= bpow radix2 1023) by (apply bpow_le; lia). pose proof (bpow_big 500 ltac:(lia)) as Bb.
  assert (Br : bpow radix2 500 * 16 <= bpow radix2 500 * bpow radix2 500) by (apply Rmult_le_compat_l; lra).
  assert (R2 : 0 <= r * r <= bpow radix2 500 * bpow radix2 500).
  { split; [apply Rle_0_sqr|]. rewrite <- (Rabs_pos_eq (r * r)) by apply Rle_0_sqr. rewrite Rabs_mult. apply Rmult_le_compat; try apply Rabs_pos; exact Bt. }
  (* 5 * t *)
  set (b0 := d_mul (d_ofZ 5) t). assert (A5 : Rabs (V (d_ofZ 5) * V t) <= 5 * bpow radix2 500) by (rewrite V5, Rabs_mult, (Rabs_pos_eq 5) by lra; apply Rmult_le_compat_l; [lra|exact Bt]).
  destruct (mul_error (d_ofZ 5) t F5 Ft) as [Fb0 Wb0]; [lra|]. fold b0 in Fb0, Wb0. fold r in Wb0. rewrite V5, Rabs_mult, (Rabs_pos_eq 5) in Wb0 by lra.
  destruct (mul_exact b0 (d_ofZ 0) Fb0 F0) as [Fz Vz]; [rewrite V0, Rmult_0_r; apply generic_format_0|rewrite V0, Rmult_0_r, Rabs_R0; apply bpow_ge_0|].
  destruct (mul_exact b0 (d_ofZ 1) Fb0 F1) as [Fb Vb]; [rewrite V1, Rmult_1_r; apply fmt_dbl|rewrite V1, Rmult_1_r|].
  { apply Rabs_le_inv in Wb0. fold r in A5. rewrite V5, Rabs_mult, (Rabs_pos_eq 5) in A5 by lra. assert (u * (5 * Rabs r) <= / 1024 * (5 * bpow radix2 500)) by (apply Rmult_le_compat; lra || apply Rmult_le_pos; lra || apply Rabs_pos).
    pose proof (Rabs_def2). assert (- Rabs r <= r <= Rabs r) by (apply Rabs_le_inv, Rle_refl). apply Rabs_le. lra. }
  rewrite V0, Rmult_0_r in Vz. rewrite V1, Rmult_1_r in Vb. set (z1 := d_mul b0 (d_ofZ 0)) in *. set (b := d_mul b0 (d_ofZ 1)) in *.
  (* t * t / 2 *)
  set (q0 := d_mul t t). destruct (d_mul_finite t t Ft Ft) as [Fq0 Vq0]; [apply no_overflow; fold r; rewrite Rabs_pos_eq by lra; lra|]. fold q0 r in Fq0, Vq0.
  pose proof (rnd_error (r * r)) as Wq0. rewrite <- Vq0, (Rabs_pos_eq (r * r)) in Wq0 by lra. assert (P0 : 0 <= V q0) by (rewrite Vq0; apply rnd_ge_fmt; [lra|apply generic_format_0]).
  assert (UR : 0 <= u * (r * r) <= / 1024 * (r * r)) by (split; [apply Rmult_le_pos; lra|apply Rmult_le_compat_r; lra]). apply Rabs_le_inv in Wq0.
  assert (Bq0 : Rabs (V q0 / V (d_ofZ 2)) <= bpow radix2 1023) by (rewrite V2, Rabs_pos_eq by lra; lra).
  set (q := d_div q0 (d_ofZ 2)). destruct (d_div_finite q0 (d_ofZ 2) Fq0) as [Fq Vq]; [rewrite V2; lra|apply no_overflow; exact Bq0|]. fold q in Fq, Vq.
  pose proof (rnd_error (V q0 / V (d_ofZ 2))) as Wq. rewrite <- Vq in Wq. rewrite V2, (Rabs_pos_eq (V q0 / 2)) in Wq by lra. assert (P1 : 0 <= V q) by (rewrite Vq; apply rnd_ge_fmt; [rewrite V2; lra|apply generic_format_0]).
  set (x := r * r / 2). assert (CQ : Rabs (V q - x) <= 21 / 10 * u * x + 2 * eta).
  { assert (u * (V q0 / 2) <= u * ((1 + u) * (r * r) / 2 + eta / 2)) by (apply Rmult_le_compat_l; lra).
    assert (u * (u * (r * r)) <= / 1024 * (u * (r * r))) by (apply Rmult_le_compat_r; lra). assert (u * eta <= / 1024 * eta) by (apply Rmult_le_compat_r; lra).
    apply Rabs_le_inv in Wq. unfold x. apply Rabs_le. lra. }
  (* 0 - t * t / 2 *)
  assert (EA : V z1 - V q = - V q) by (rewrite Vz; ring). assert (Bq : Rabs (V q) < bpow radix2 1024) by apply dbl_lt_max.
  set (a := d_sub z1 q). destruct (d_sub_finite z1 q Fz Fq) as [Fa Va]; [rewrite EA, round_NE_opp, rnd_id by apply fmt_dbl; rewrite Rabs_Ropp; exact Bq|].
  fold a in Fa, Va. rewrite EA, rnd_id in Va by (apply generic_format_opp, fmt_dbl).
  (* exp *)
  destruct (WE a Fa) as [Fm Wm]; [rewrite Va; lra|]. rewrite Va in Wm. set (m := fexp a) in *. set (E := exp (- x)).
  assert (X0 : 0 <= x) by (unfold x; lra). destruct (exp_neg_1 x X0) as [E0 E1]. fold E in E0, E1.
  pose proof (exp_close (21 / 10 * u) x (V q) (2 * eta) ltac:(lra) X0 P1 ltac:(lra) CQ) as CE. fold E in CE.
  assert (ME : Rabs (V m - E) <= eps + 23 / 10 * u) by (apply Rabs_le_inv in Wm; apply Rabs_le_inv in CE; apply Rabs_le; lra).
  pose proof (texp r) as TE. fold x in TE. fold E in TE.
  assert (AB : Rabs (V b - 5 * r) <= 5 * (u * Rabs r) + eta) by (rewrite Vb; lra).
  assert (AE : E * Rabs (V b - 5 * r) <= 5 * u + eta).
  { apply Rle_trans with (E * (5 * (u * Rabs r) + eta)); [apply Rmult_le_compat_l; lra|]. replace (E * (5 * (u * Rabs r) + eta)) with (5 * (u * (Rabs r * E)) + E * eta) by ring.
    assert (u * (Rabs r * E) <= u * 1) by (apply Rmult_le_compat_l; lra). assert (E * eta <= 1 * eta) by (apply Rmult_le_compat_r; lra). lra. }
  assert (PART : forall (f : dbl) g g5, fin f -> Rabs (V f - g) <= eps -> Rabs g <= 1 -> Rabs (g - g5) <= Rabs (V b - 5 * r) ->
    fin (d_mul m f) /\ Rabs (V (d_mul m f) - E * g5) <= 205 / 100 * eps + 9 * u).
  { intros f g g5 Ff Wf Bg Dg.
    assert (Bf : Rabs (V f) <= 1 + eps). { replace (V f) with (V f - g + g) by ring. eapply Rle_trans; [apply Rabs_triang|]. lra. }
    assert (Bm : Rabs (V m) <= 104 / 100). { replace (V m) with (V m - E + E) by ring. eapply Rle_trans; [apply Rabs_triang|]. rewrite (Rabs_pos_eq E) by lra. lra. }
    assert (Bmf : Rabs (V m * V f) <= 11 / 10) by (rewrite Rabs_mult; apply Rle_trans with (104 / 100 * (1 + / 32)); [apply Rmult_le_compat; try apply Rabs_pos; lra|lra]).
    destruct (mul_error m f Fm Ff) as [Fp Wp]; [lra|]. split; [exact Fp|].
    assert (UB : u * Rabs (V m * V f) <= u * (11 / 10)) by (apply Rmult_le_compat_l; lra).
    assert (T1 : Rabs ((V m - E) * V f) <= (eps + 23 / 10 * u) * (1 + / 32)) by (rewrite Rabs_mult; apply Rmult_le_compat; try apply Rabs_pos; lra).
    assert (T2 : Rabs (E * (V f - g)) <= eps) by (rewrite Rabs_mult, (Rabs_pos_eq E) by lra; apply Rle_trans with (1 * eps); [apply Rmult_le_compat; try apply Rabs_pos; lra|lra]).
    assert (T3 : Rabs (E * (g - g5)) <= 5 * u + eta) by (rewrite Rabs_mult, (Rabs_pos_eq E) by lra; eapply Rle_trans; [apply Rmult_le_compat_l; [lra|exact Dg]|exact AE]).
    replace (V (d_mul m f) - E * g5) with ((V (d_mul m f) - V m * V f) + ((V m - E) * V f + (E * (V f - g) + E * (g - g5)))) by ring.
    eapply Rle_trans; [apply Rabs_triang|]. eapply Rle_trans; [apply Rplus_le_compat_l, Rabs_triang|]. eapply Rle_trans; [apply Rplus_le_compat_l, Rplus_le_compat_l, Rabs_triang|]. lra. }
  assert (CL : Cmod (Cminus (cis (V b)) (cis (5 * r))) <= Rabs (V b - 5 * r)) by apply cis_lip.
  destruct (WC b Fb) as [Fc Wc]. destruct (WS b Fb) as [Fs Ws]. pose proof (COS_bound (V b)). pose proof (SIN_bound (V b)).
  destruct (PART (fcos b) (cos (V b)) (cos (5 * r)) Fc Wc) as [G1 W1]; [apply Rabs_le; lra|eapply Rle_trans; [apply (cmod_re (Cminus (cis (V b)) (cis (5 * r))))|exact CL]|].
  destruct (PART (fsin b) (sin (V b)) (sin (5 * r)) Fs Ws) as [G2 W2]; [apply Rabs_le; lra|eapply Rle_trans; [apply (cmod_im (Cminus (cis (V b)) (cis (5 * r))))|exact CL]|].
  split; [split; [exact G1|exact G2]|]. rewrite morlet_form. fold x. fold E.
  apply Rle_trans with (142 / 100 * (205 / 100 * eps + 9 * u)); [|lra].
  apply cmod_comp.
  - replace (fst (Cminus (cval (morlet_value T t)) (Cmult (RtoC E) (cis (5 * r))))) with (V (d_mul m (fcos b)) - E * cos (5 * r)); [exact W1|].
    change (V (d_mul m (fcos b)) - E * cos (5 * r) = V (d_mul m (fcos b)) + - (E * cos (5 * r) - 0 * sin (5 * r))). ring.
  - replace (snd (Cminus (cval (morlet_value T t)) (Cmult (RtoC E) (cis (5 * r))))) with (V (d_mul m (fsin b)) - E * sin (5 * r)); [exact W2|].
    change (V (d_mul m (fsin b)) - E * sin (5 * r) = V (d_mul m (fsin b)) + - (E * sin (5 * r) + 0 * cos (5 * r))). ring.
Qed.

Theorem C72_morlet_regular : lipschitz morlet 6 /\ bounded morlet 1.
Proof. split; [exact morlet_lipschitz|exact morlet_bounded]. Qed.

(** ** The Mexican hat in double precision *)
(** What is assumed of std::exp here: a relative error of at most [eps], up to two quanta, for arguments between -2^1000 and 0. *)
Definition relative_exp (eps : R) (fexp : dbl -> dbl) : Prop :=
  forall x, fin x -> - bpow radix2 1000 <= V x <= 0 -> fin (fexp x) /\ Rabs (V (fexp x) - exp (V x)) <= eps * exp (V x) + 2 * eta.

Lemma exp_ge2 x : 0 <= x -> 1 + x + x * x / 4 <= exp x.
Proof.
  intro H. replace x with (x / 2 + x / 2) at 4 by field. rewrite exp_plus. pose proof (exp_ineq1_le (x / 2)) as E. apply Rle_trans with ((1 + x / 2) * (1 + x / 2)); [right; field|]. apply Rmult_le_compat; lra.
Qed.
Lemma by_exp a x : a <= exp x -> a * exp (- x) <= 1.
Proof. intro H. rewrite exp_Ropp. pose proof (exp_pos x) as P. apply (Rmult_le_reg_r (exp x)); [exact P|]. rewrite Rmult_assoc, Rinv_l, Rmult_1_r, Rmult_1_l by lra. exact H. Qed.
Lemma wexp x : 0 <= x -> (1 + 2 * x) * exp (- x) <= 2.
Proof. intro H. pose proof (by_exp ((1 + 2 * x) / 2) x). pose proof (exp_ineq1_le x). lra. Qed.
Lemma wwexp x : 0 <= x -> x * (1 + 2 * x) * exp (- x) <= 8.
Proof. intro H. pose proof (by_exp (x * (1 + 2 * x) / 8) x) as A. pose proof (exp_ge2 x H). pose proof (Rle_0_sqr x) as S. unfold Rsqr in S. lra. Qed.
Lemma exp_close_weighted v x X d : 0 <= v <= / 256 -> 0 <= d <= / 256 -> 0 <= x -> 0 <= X -> Rabs (X - x) <= v * x + d -> (1 + 2 * x) * Rabs (exp (- X) - exp (- x)) <= 9 * v + 5 * d.
Proof.
  intros [U0 U1] [D0 D1] H0 H1 H. apply Rabs_le_inv in H. destruct (Rle_lt_dec x X) as [L|L].
  - rewrite Rabs_minus_sym. destruct (exp_step x X ltac:(lra)) as [A B]. rewrite Rabs_pos_eq by lra. pose proof (exp_pos (- x)) as P. pose proof (wexp x H0) as R0. pose proof (wwexp x H0) as R1.
    apply Rle_trans with ((1 + 2 * x) * (exp (- x) * (v * x + d))); [apply Rmult_le_compat_l; [lra|]; eapply Rle_trans; [exact B|]; apply Rmult_le_compat_l; lra|].
    replace ((1 + 2 * x) * (exp (- x) * (v * x + d))) with (v * (x * (1 + 2 * x) * exp (- x)) + d * ((1 + 2 * x) * exp (- x))) by ring.
    assert (v * (x * (1 + 2 * x) * exp (- x)) <= v * 8) by (apply Rmult_le_compat_l; lra). assert (d * ((1 + 2 * x) * exp (- x)) <= d * 2) by (apply Rmult_le_compat_l; lra). lra.
  - destruct (exp_step X x ltac:(lra)) as [A B]. rewrite Rabs_pos_eq by lra. pose proof (exp_pos (- X)) as P. pose proof (wexp X H1) as R0. pose proof (wwexp X H1) as R1.
    assert (UX : v * x <= / 256 * x) by (apply Rmult_le_compat_r; lra). assert (W : x <= 101 / 100 * X + 101 / 100 * d) by lra.
    assert (UW : v * x <= v * (101 / 100 * X + 101 / 100 * d)) by (apply Rmult_le_compat_l; lra). assert (UD : 0 <= v * d <= / 256 * d) by (split; [apply Rmult_le_pos; lra|apply Rmult_le_compat_r; lra]).
    assert (VX : 0 <= v * X) by (apply Rmult_le_pos; lra).
    apply Rle_trans with (102 / 100 * (1 + 2 * X) * (exp (- X) * (101 / 100 * (v * X) + 2 * d))).
    { apply Rmult_le_compat; [lra|lra|lra|]. eapply Rle_trans; [exact B|]. apply Rmult_le_compat_l; lra. }
    replace (102 / 100 * (1 + 2 * X) * (exp (- X) * (101 / 100 * (v * X) + 2 * d))) with (102 / 100 * (101 / 100 * (v * (X * (1 + 2 * X) * exp (- X))) + 2 * (d * ((1 + 2 * X) * exp (- X))))) by ring.
    assert (v * (X * (1 + 2 * X) * exp (- X)) <= v * 8) by (apply Rmult_le_compat_l; lra). assert (d * ((1 + 2 * X) * exp (- X)) <= d * 2) by (apply Rmult_le_compat_l; lra). lra.
Qed.
Lemma root4_bound : 0 < root4pi <= 3 / 2.
Proof.
  pose proof root4 as E. assert (P : 0 < root4pi) by apply exp_pos. split; [exact P|]. pose proof PI_4. pose proof PI_RGT_0. assert (S : sqrt PI <= 2) by (replace 2 with (sqrt (2 * 2)) by (apply sqrt_square; lra); apply sqrt_le_1_alt; lra).
  destruct (Rle_lt_dec root4pi (3 / 2)) as [|G]; [assumption|]. exfalso. assert (3 / 2 * (3 / 2) < root4pi * root4pi) by (apply Rmult_gt_0_lt_compat; lra). lra.
Qed.
Lemma mhat_bounded : bounded mhat 1.
Proof.
  intro t. destruct (C65_mhat t) as (_ & _ & _ & H). eapply Rle_trans; [exact H|]. destruct (C65_mhat 0) as (E & _). rewrite E, Cmod_R. replace (0 / 3) with 0 by field. replace (- 0 ^ 2 / 2) with 0 by field. rewrite exp_0. pose proof root4_bound. rewrite Rabs_pos_eq by lra. lra.
Qed.
Lemma mhat_lipschitz : lipschitz mhat 4.
Proof.
  intros a b. destruct (C65_mhat a) as (-> & _). destruct (C65_mhat b) as (-> & _). rewrite <- RtoC_minus, Cmod_R. pose proof root4_bound as RB. set (K := 2 / 3 * root4pi) in *. assert (KB : 0 < K <= 1) by (unfold K; lra).
  destruct (MVT_abs (fun t => K * (1 - (t / 3) ^ 2) * exp (- (t / 3) ^ 2 / 2)) (fun t => K / 3 * ((- 3 * (t / 3) + (t / 3) ^ 3) * exp (- (t / 3) ^ 2 / 2))) b a) as (c & E & _).
  { intros c _. apply is_derive_Reals. cbv beta. auto_derive; [exact I|]. match goal with |- ?p = ?q => change (@eq R p q) end. replace (- (c * / 3 * (c * / 3 * 1)) * / 2) with (- (c / 3) ^ 2 / 2) by field. field. }
  cbn beta in E. rewrite E. apply Rmult_le_compat_r; [apply Rabs_pos|]. set (k := c / 3). set (x := k * k / 2). replace (- k ^ 2 / 2) with (- x) by (unfold x; field). pose proof (exp_pos (- x)) as P.
  assert (X0 : 0 <= x) by (unfold x; pose proof (Rle_0_sqr k) as S; unfold Rsqr in S; lra).
  rewrite Rabs_mult, Rabs_mult, (Rabs_pos_eq (K / 3)), (Rabs_pos_eq (exp (- x))) by lra.
  assert (T1 : Rabs (- 3 * k + k ^ 3) <= 3 * Rabs k + x * (1 + 2 * x)).
  { eapply Rle_trans; [apply Rabs_triang|]. rewrite Rabs_mult. replace (Rabs (- 3)) with 3 by (rewrite Rabs_left; lra). apply Rplus_le_compat_l. replace (k ^ 3) with (k * k * k) by ring. rewrite !Rabs_mult.
    replace (x * (1 + 2 * x)) with (Rabs k * Rabs k * ((1 + Rabs k * Rabs k) / 2)). 2:{ rewrite <- Rabs_mult, Rabs_pos_eq by apply Rle_0_sqr. unfold x. field. }
    apply Rmult_le_compat_l; [apply Rmult_le_pos; apply Rabs_pos|]. pose proof (Rle_0_sqr (Rabs k - 1)) as S. unfold Rsqr in S. lra. }
  pose proof (texp k) as T2. fold x in T2. pose proof (wwexp x X0) as T3.
  assert (T4 : Rabs (- 3 * k + k ^ 3) * exp (- x) <= 11).
  { apply Rle_trans with ((3 * Rabs k + x * (1 + 2 * x)) * exp (- x)); [apply Rmult_le_compat_r; lra|]. lra. }
  assert (0 <= Rabs (- 3 * k + k ^ 3) * exp (- x)) by (apply Rmult_le_pos; [apply Rabs_pos|lra]).
  apply Rle_trans with (1 / 3 * 11); [apply Rmult_le_compat; lra|lra].
Qed.
Theorem C72_mhat_regular : lipschitz mhat 4 /\ bounded mhat 1.
Proof. split; [exact mhat_lipschitz|exact mhat_bounded]. Qed.

Lemma eta_tiny : 2 * eta * (1 + bpow radix2 1000) <= u / 1024.
Proof.
  pose proof (bpow_big 1000 ltac:(lia)). pose proof eta_pos. assert (E : eta * bpow radix2 1000 = bpow radix2 (-75)) by (unfold eta; rewrite <- bpow_plus; reflexivity).
  assert (U : u / 1024 = 4096 * bpow radix2 (-75)) by (unfold u; replace (-53)%Z with (22 + -75)%Z by lia; rewrite bpow_plus; change (bpow radix2 22) with 4194304; field).
  assert (eta <= eta * bpow radix2 1000) by (rewrite <- (Rmult_1_r eta) at 1; apply Rmult_le_compat_l; lra). pose proof (bpow_gt_0 radix2 (-75)). lra.
Qed.
Section Mhat.
Variables f1 f2 f3 f4 f5 : dbl -> dbl.
Notation T := (MkTNum FMath f1 f2 f3 f4 f5).
(** the constant of the constructor *)
Lemma mhat_k_error eps (root : dbl) : 0 <= eps <= / 32 -> fin root -> Rabs (V root - root4pi) <= eps ->
  fin (mhat_k T root) /\ Rabs (V (mhat_k T root) - 2 / 3 * root4pi) <= eps + 3 * u.
Proof.
  intros He Fr Wr. pose proof u_pos as U0. pose proof u_small as U1. pose proof eta_pos as H0. pose proof eta_u as H1. pose proof root4_bound as RB. pose proof (bpow_big 1023 ltac:(lia)) as BB.
  destruct (dZ 2 ltac:(cbn; lia)) as [F2 V2]. destruct (dZ 3 ltac:(cbn; lia)) as [F3 V3]. unfold mhat_k, mhat_sigma. cbn [n_mul n_div n_ofZ m_sqrt t_math m_num FMath FNum].
  assert (E9 : V (d_ofZ 3) * V (d_ofZ 3) = 9) by (rewrite V3; ring). destruct (mul_exact (d_ofZ 3) (d_ofZ 3) F3 F3) as [F9 V9]; [rewrite E9; apply (fmt_IZR 9); cbn; lia|rewrite E9, Rabs_pos_eq by lra; lra|]. rewrite E9 in V9. set (n9 := d_mul (d_ofZ 3) (d_ofZ 3)) in *.
  destruct (sqrt_error n9 F9 ltac:(lra)) as (Fs & Vs & _). rewrite V9 in Vs. replace (sqrt 9) with 3 in Vs by (replace 9 with (3 * 3) by ring; symmetry; apply sqrt_square; lra). rewrite rnd_id in Vs by (apply (fmt_IZR 3); cbn; lia).
  set (s := Bsqrt mode_NE n9) in *. destruct (div_error (d_ofZ 2) s F2) as [Fg Wg]; [lra|rewrite V2, Vs, Rabs_pos_eq by lra; lra|]. rewrite V2, Vs, (Rabs_pos_eq (2 / 3)) in Wg by lra. set (g := d_div (d_ofZ 2) s) in *.
  assert (Bg : Rabs (V g) <= 1) by (apply Rabs_le_inv in Wg; apply Rabs_le; lra). assert (Br : Rabs (V root) <= 16 / 10) by (apply Rabs_le_inv in Wr; apply Rabs_le; lra).
  assert (Bp : Rabs (V g * V root) <= 16 / 10) by (rewrite Rabs_mult; apply Rle_trans with (1 * (16 / 10)); [apply Rmult_le_compat; try apply Rabs_pos; assumption|lra]).
  destruct (mul_error g root Fg Fr) as [Fk Wk]; [lra|]. split; [exact Fk|]. assert (u * Rabs (V g * V root) <= u * (16 / 10)) by (apply Rmult_le_compat_l; lra).
  assert (T1 : Rabs ((V g - 2 / 3) * V root) <= (u * (2 / 3) + eta) * (16 / 10)) by (rewrite Rabs_mult; apply Rmult_le_compat; try apply Rabs_pos; assumption).
  assert (T2 : Rabs (2 / 3 * (V root - root4pi)) <= eps) by (rewrite Rabs_mult, (Rabs_pos_eq (2 / 3)) by lra; lra).
  replace (V (d_mul g root) - 2 / 3 * root4pi) with ((V (d_mul g root) - V g * V root) + ((V g - 2 / 3) * V root + 2 / 3 * (V root - root4pi))) by ring.
  eapply Rle_trans; [apply Rabs_triang|]. eapply Rle_trans; [apply Rplus_le_compat_l, Rabs_triang|]. lra.
Qed.
(** k * k, for k = value / 3 *)
Lemma mhat_square (t : dbl) : fin t -> Rabs (V t) <= bpow radix2 500 ->
  let k := d_div t (d_ofZ 3) in let c := V t / 3 in
  fin (d_mul k k) /\ 0 <= V (d_mul k k) /\ Rabs (V (d_mul k k) - c * c) <= 31 / 10 * u * (c * c) + 4 * eta /\ 0 <= c * c <= bpow radix2 999.
Proof.
  intros Ft Bt k c. pose proof u_pos as U0. pose proof u_small as U1. pose proof eta_pos as H0. pose proof eta_u as H1.
  destruct (dZ 3 ltac:(cbn; lia)) as [F3 V3]. pose proof (bpow_big 500 ltac:(lia)) as Bb.
  assert (B3 : bpow radix2 1000 <= bpow radix2 1023) by (apply bpow_le; lia). assert (B2 : bpow radix2 500 * bpow radix2 500 = bpow radix2 1000) by (rewrite <- bpow_plus; reflexivity).
  assert (B9 : bpow radix2 1000 = 2 * bpow radix2 999) by (change 1000%Z with (1 + 999)%Z; rewrite bpow_plus; reflexivity).
  assert (Bc : Rabs c <= bpow radix2 500 / 3) by (unfold c, Rdiv; rewrite Rabs_mult, (Rabs_pos_eq (/ 3)) by lra; lra).
  assert (C2 : c * c = Rabs c * Rabs c) by (rewrite <- Rabs_mult, Rabs_pos_eq by apply Rle_0_sqr; reflexivity). pose proof (Rabs_pos c) as C0.
  assert (CC : 0 <= c * c <= bpow radix2 1000 / 9) by (split; [apply Rle_0_sqr|rewrite C2; apply Rle_trans with (bpow radix2 500 / 3 * (bpow radix2 500 / 3)); [apply Rmult_le_compat; lra|lra]]).
  assert (B500 : bpow radix2 500 * 16 <= bpow radix2 1000) by (rewrite <- B2; apply Rmult_le_compat_l; lra).
  destruct (div_error t (d_ofZ 3) Ft) as [Fk Wk]; [lra|rewrite V3; fold c; lra|]. fold k in Fk, Wk. rewrite V3 in Wk. fold c in Wk.
  set (a := Rabs c) in *. assert (Uc : u * a <= / 1024 * a) by (apply Rmult_le_compat_r; lra).
  assert (A1 : Rabs (V k) <= 1001 / 1000 * a + eta). { replace (V k) with ((V k - c) + c) by ring. eapply Rle_trans; [apply Rabs_triang|]. fold a. lra. }
  assert (EA : eta * a <= eta * (1 + c * c)). { apply Rmult_le_compat_l; [lra|]. rewrite C2. pose proof (Rle_0_sqr (a - 1)) as S. unfold Rsqr in S. lra. }
  assert (EC : eta * (c * c) <= u / 1024 * (c * c)) by (apply Rmult_le_compat_r; lra). assert (EE : eta * eta <= / 1024 * eta) by (apply Rmult_le_compat_r; [lra|]; unfold Rdiv in H1; lra).
  assert (UE : u * (eta * a) <= / 1024 * (eta * a)) by (apply Rmult_le_compat_r; [apply Rmult_le_pos; lra|lra]). assert (UC0 : 0 <= u * (c * c)) by (apply Rmult_le_pos; lra).
  assert (K2 : Rabs (V k * V k - c * c) <= 201 / 100 * (u * (c * c)) + 5 / 2 * eta).
  { replace (V k * V k - c * c) with ((V k - c) * (V k + c)) by ring. rewrite Rabs_mult. apply Rle_trans with ((u * a + eta) * (2001 / 1000 * a + eta)).
    { apply Rmult_le_compat; try apply Rabs_pos; [exact Wk|]. eapply Rle_trans; [apply Rabs_triang|]. fold a. lra. }
    replace ((u * a + eta) * (2001 / 1000 * a + eta)) with (2001 / 1000 * (u * (a * a)) + u * (eta * a) + 2001 / 1000 * (eta * a) + eta * eta) by ring. rewrite <- C2. lra. }
  assert (S0 : 0 <= V k * V k) by apply Rle_0_sqr. apply Rabs_le_inv in K2.
  assert (UC : u * (c * c) <= / 1024 * (c * c)) by (apply Rmult_le_compat_r; lra).
  destruct (d_mul_finite k k Fk Fk) as [Fp Vp]; [apply no_overflow; rewrite Rabs_pos_eq by exact S0; lra|]. split; [exact Fp|].
  split; [rewrite Vp; apply rnd_ge_fmt; [exact S0|apply generic_format_0]|]. split; [|lra].
  pose proof (rnd_error (V k * V k)) as W. rewrite <- Vp, (Rabs_pos_eq (V k * V k)) in W by exact S0. apply Rabs_le_inv in W.
  assert (u * (V k * V k) <= u * (1002 / 1000 * (c * c) + 3 * eta)) by (apply Rmult_le_compat_l; lra). assert (u * eta <= / 1024 * eta) by (apply Rmult_le_compat_r; lra). apply Rabs_le. lra.
Qed.
End Mhat.
Theorem C72_mhat : forall eps fexp f2 f3 f4 f5 (root : dbl), relative_exp eps fexp -> 0 <= eps <= / 32 -> fin root -> Rabs (V root - root4pi) <= eps ->
  let T := MkTNum FMath fexp f2 f3 f4 f5 in
  computes (fun t => Ok (mhat_value T root t)) mhat (bpow radix2 500) (5 * eps + 70 * u).
Proof.
  intros eps fexp f2 f3 f4 f5 root WE He Fr Wr T t Ft Bt. pose proof u_pos as U0. pose proof u_small as U1. pose proof eta_pos as H0. pose proof eta_u as H1.
  exists (mhat_value T root t). split; [reflexivity|]. destruct (dZ 0 ltac:(cbn; lia)) as [F0 V0]. destruct (dZ 1 ltac:(cbn; lia)) as [F1 V1]. destruct (dZ (-1) ltac:(cbn; lia)) as [Fn Vn]. destruct (dZ 2 ltac:(cbn; lia)) as [F2 V2].
  destruct (mhat_k_error fexp f2 f3 f4 f5 eps root He Fr Wr) as [FK WK]. fold T in FK, WK. set (K := 2 / 3 * root4pi) in *. assert (KB : 0 < K <= 1) by (pose proof root4_bound; unfold K; lra).
  destruct (mhat_square t Ft Bt) as (FP & P0 & WP & CB). set (k := d_div t (d_ofZ 3)) in *. set (c := V t / 3) in *. set (P := d_mul k k) in *.
  assert (B9 : bpow radix2 1000 = 2 * bpow radix2 999) by (change 1000%Z with (1 + 999)%Z; rewrite bpow_plus; reflexivity). pose proof (bpow_big 999 ltac:(lia)) as Bb. assert (B3 : bpow radix2 1010 <= bpow radix2 1023) by (apply bpow_le; lia).
  assert (B10 : bpow radix2 1010 = 1024 * bpow radix2 1000) by (change 1010%Z with (10 + 1000)%Z; rewrite bpow_plus; reflexivity).
  set (y := c * c) in *. assert (UY : 0 <= u * y <= / 1024 * y) by (split; [apply Rmult_le_pos; lra|apply Rmult_le_compat_r; lra]). apply Rabs_le_inv in WP. set (w := 1 + y).
  (* 1 - k * k *)
  assert (B1 : Rabs (V (d_ofZ 1) - V P) <= 1005 / 1000 * w) by (rewrite V1; unfold w; apply Rabs_le; lra).
  destruct (sub_error (d_ofZ 1) P F1 FP) as [FW WW]; [unfold w in B1; lra|]. set (W := d_sub (d_ofZ 1) P) in *.
  assert (UB : u * Rabs (V (d_ofZ 1) - V P) <= u * (1005 / 1000 * w)) by (apply Rmult_le_compat_l; lra).
  assert (WW1 : Rabs (V W - (1 - y)) <= 42 / 10 * (u * w)) by (rewrite V1 in *; apply Rabs_le_inv in WW; unfold w in *; apply Rabs_le; lra).
  assert (Uw : 0 <= u * w <= / 1024 * w) by (unfold w; split; [apply Rmult_le_pos; lra|apply Rmult_le_compat_r; lra]). assert (w0 : 1 <= w <= bpow radix2 1000) by (unfold w; lra).
  assert (BW : Rabs (V W) <= 101 / 100 * w) by (apply Rabs_le_inv in WW1; unfold w in *; apply Rabs_le; lra).
  (* times the constant *)
  assert (BK : Rabs (V (mhat_k T root)) <= 104 / 100) by (apply Rabs_le_inv in WK; apply Rabs_le; lra). set (Kf := mhat_k T root) in *.
  assert (BKW : Rabs (V Kf * V W) <= 11 / 10 * w). { rewrite Rabs_mult. apply Rle_trans with (104 / 100 * (101 / 100 * w)); [apply Rmult_le_compat; try apply Rabs_pos; assumption|lra]. }
  destruct (mul_error Kf W FK FW) as [FA WA]; [lra|]. set (A := d_mul Kf W) in *. assert (UKW : u * Rabs (V Kf * V W) <= u * (11 / 10 * w)) by (apply Rmult_le_compat_l; lra).
  assert (WA1 : Rabs (V A - K * (1 - y)) <= (101 / 100 * eps + 9 * u) * w).
  { assert (T1 : Rabs ((V Kf - K) * V W) <= (eps + 3 * u) * (101 / 100 * w)) by (rewrite Rabs_mult; apply Rmult_le_compat; try apply Rabs_pos; assumption).
    assert (T2 : Rabs (K * (V W - (1 - y))) <= 1 * (42 / 10 * (u * w))) by (rewrite Rabs_mult, (Rabs_pos_eq K) by lra; apply Rmult_le_compat; try apply Rabs_pos; lra).
    replace (V A - K * (1 - y)) with ((V A - V Kf * V W) + ((V Kf - K) * V W + K * (V W - (1 - y)))) by ring. eapply Rle_trans; [apply Rabs_triang|]. eapply Rle_trans; [apply Rplus_le_compat_l, Rabs_triang|].
    assert (eta <= u / 1024 * w). { apply Rle_trans with (u / 1024 * 1); [lra|]. apply Rmult_le_compat_l; lra. } lra. }
  (* the argument of exp *)
  assert (Fh : fin (d_div (d_ofZ (-1)) (d_ofZ 2)) /\ V (d_div (d_ofZ (-1)) (d_ofZ 2)) = - (1 / 2)).
  { assert (E : V (d_ofZ (-1)) / V (d_ofZ 2) = - (1 / 2)) by (rewrite Vn, V2; field). destruct (d_div_finite (d_ofZ (-1)) (d_ofZ 2) Fn) as [F W']; [rewrite V2; lra|apply no_overflow; rewrite E; apply Rabs_le; lra|].
    split; [exact F|]. rewrite W', E. apply rnd_id. replace (- (1 / 2)) with (IZR (-1) / 2) by (cbn; field). apply fmt_half. cbn; lia. }
  destruct Fh as [Fh Vh]. set (hf := d_div (d_ofZ (-1)) (d_ofZ 2)) in *.
  assert (EX : V hf * V P = - (V P / 2)) by (rewrite Vh; field). destruct (d_mul_finite hf P Fh FP) as [Fa Va]; [apply no_overflow; rewrite EX; apply Rabs_le; lra|]. set (a := d_mul hf P) in *.
  rewrite EX, round_NE_opp in Va. set (X := rnd64 (V P / 2)) in *. assert (X0 : 0 <= X) by (apply rnd_ge_fmt; [lra|apply generic_format_0]).
  pose proof (rnd_error (V P / 2)) as WX. fold X in WX. rewrite (Rabs_pos_eq (V P / 2)) in WX by lra. apply Rabs_le_inv in WX. set (x := y / 2). assert (x0 : 0 <= x) by (unfold x; lra).
  assert (CX : Rabs (X - x) <= 42 / 10 * u * x + 4 * eta).
  { assert (u * (V P / 2) <= u * (1005 / 1000 * (y / 2) + 2 * eta)) by (apply Rmult_le_compat_l; lra). assert (u * eta <= / 1024 * eta) by (apply Rmult_le_compat_r; lra). unfold x. apply Rabs_le. lra. }
  destruct (WE a Fa) as [Fm Wm]. { rewrite Va. apply Rabs_le_inv in CX. assert (u * x <= / 1024 * x) by (apply Rmult_le_compat_r; lra). unfold x in *. lra. }
  rewrite Va in Wm. set (m := fexp a) in *.
  assert (U2 : u <= / 1048576) by (unfold u; change (/ 1048576) with (bpow radix2 (-20)); apply bpow_le; lia).
  pose proof (exp_close_weighted (42 / 10 * u) x X (4 * eta) ltac:(lra) ltac:(lra) x0 X0 CX) as CE. replace (1 + 2 * x) with w in CE by (unfold w, x; field).
  pose proof (wexp x x0) as E2. replace (1 + 2 * x) with w in E2 by (unfold w, x; field). set (E := exp (- x)) in *. assert (E0 : 0 < E) by apply exp_pos.
  assert (WEX : 0 < w * exp (- X) <= 21 / 10). { split; [apply Rmult_lt_0_compat; [lra|apply exp_pos]|]. replace (w * exp (- X)) with (w * E + w * (exp (- X) - E)) by ring. assert (w * (exp (- X) - E) <= w * Rabs (exp (- X) - E)) by (apply Rmult_le_compat_l; [lra|apply Rle_abs]). lra. }
  assert (TW : 2 * eta * w <= u / 1024). { eapply Rle_trans; [|exact eta_tiny]. apply Rmult_le_compat_l; lra. }
  assert (WM : w * Rabs (V m - E) <= 21 / 10 * eps + 39 * u).
  { apply Rle_trans with (w * (eps * exp (- X) + 2 * eta) + w * Rabs (exp (- X) - E)).
    - rewrite <- Rmult_plus_distr_l. apply Rmult_le_compat_l; [lra|]. replace (V m - E) with ((V m - exp (- X)) + (exp (- X) - E)) by ring. eapply Rle_trans; [apply Rabs_triang|]. apply Rplus_le_compat_r. exact Wm.
    - replace (w * (eps * exp (- X) + 2 * eta)) with (eps * (w * exp (- X)) + 2 * eta * w) by ring. assert (eps * (w * exp (- X)) <= eps * (21 / 10)) by (apply Rmult_le_compat_l; lra). lra. }
  assert (WM2 : w * Rabs (V m) <= 22 / 10).
  { apply Rle_trans with (w * Rabs (V m - E) + w * E); [|lra]. rewrite <- Rmult_plus_distr_l. apply Rmult_le_compat_l; [lra|]. replace (V m) with ((V m - E) + E) at 1 by ring. eapply Rle_trans; [apply Rabs_triang|]. rewrite (Rabs_pos_eq E) by lra. lra. }
  (* the product *)
  pose proof (Rabs_pos (V m)) as M0. pose proof (Rabs_pos (V m - E)) as M1.
  assert (BA : Rabs (V A) <= 12 / 10 * w). { apply Rabs_le_inv in WA. apply Rabs_le_inv in BKW. assert (eta <= w / 1024) by (unfold Rdiv in *; lra). apply Rabs_le. lra. }
  assert (BAM : Rabs (V A * V m) <= 27 / 10). { rewrite Rabs_mult. apply Rle_trans with (12 / 10 * w * Rabs (V m)); [apply Rmult_le_compat_r; assumption|lra]. }
  assert (BB : 27 / 10 <= bpow radix2 1023) by (pose proof (bpow_big 1023 ltac:(lia)); lra).
  destruct (mul_error A m FA Fm) as [FR WR]; [lra|]. assert (UAM : u * Rabs (V A * V m) <= u * (27 / 10)) by (apply Rmult_le_compat_l; lra).
  assert (T1 : Rabs ((V A - K * (1 - y)) * V m) <= (101 / 100 * eps + 9 * u) * (22 / 10)).
  { rewrite Rabs_mult. apply Rle_trans with ((101 / 100 * eps + 9 * u) * w * Rabs (V m)); [apply Rmult_le_compat_r; assumption|]. rewrite Rmult_assoc. apply Rmult_le_compat_l; [lra|exact WM2]. }
  assert (T2 : Rabs (K * (1 - y) * (V m - E)) <= 21 / 10 * eps + 39 * u).
  { rewrite !Rabs_mult, (Rabs_pos_eq K) by lra. apply Rle_trans with (1 * w * Rabs (V m - E)); [|lra]. apply Rmult_le_compat_r; [exact M1|]. apply Rmult_le_compat; [lra|apply Rabs_pos|lra|]. unfold w. apply Rabs_le. lra. }
  assert (FIN : Rabs (V (d_mul A m) - K * (1 - y) * E) <= 5 * eps + 70 * u).
  { replace (V (d_mul A m) - K * (1 - y) * E) with ((V (d_mul A m) - V A * V m) + ((V A - K * (1 - y)) * V m + K * (1 - y) * (V m - E))) by ring.
    eapply Rle_trans; [apply Rabs_triang|]. eapply Rle_trans; [apply Rplus_le_compat_l, Rabs_triang|]. lra. }
  split; [split; [exact FR|exact F0]|]. destruct (C65_mhat (V t)) as (-> & _). fold c. replace (c ^ 2) with y by (unfold y; ring). replace (- y / 2) with (- x) by (unfold x; field). fold K E.
  replace (Cminus (cval (mhat_value T root t)) (RtoC (K * (1 - y) * E))) with (RtoC (V (d_mul A m) - K * (1 - y) * E)); [rewrite Cmod_R; exact FIN|].
  apply injective_projections.
  - change (V (d_mul A m) - K * (1 - y) * E = V (d_mul A m) + - (K * (1 - y) * E)). ring.
  - change (0 = V (d_ofZ 0) + - 0). rewrite V0. ring.
Qed.

(** Far from the origin the Mexican hat is not a number: (t/3)^2 is infinite, 1 minus it too, and infinity times exp(-infinity) = 0 is NaN, where the function is 0 up to rounding. *)
Theorem C72_mhat_far_refuted : forall fexp f2 f3 f4 f5 (root t : dbl), fexp (B754_infinity true) = B754_zero false ->
  fin root -> Rabs (V root - root4pi) <= / 32 -> fin t -> bpow radix2 514 <= Rabs (V t) ->
  let T := MkTNum FMath fexp f2 f3 f4 f5 in
  is_nan (fst (mhat_value T root t) : dbl) = true /\ Cmod (mhat (V t)) <= / 2 ^ 100.
Proof.
  intros fexp f2 f3 f4 f5 root t HX Fr Wr Ft Bt T. pose proof u_pos as U0. pose proof u_small as U1. pose proof root4_bound as RB.
  assert (R1 : 1 <= root4pi).
  { destruct (Rle_lt_dec 1 root4pi) as [|G]; [assumption|]. exfalso. pose proof root4 as E. pose proof PI_3. assert (1 <= sqrt PI) by (rewrite <- sqrt_1; apply sqrt_le_1_alt; lra).
    assert (root4pi * root4pi < 1 * 1) by (apply Rmult_gt_0_lt_compat; lra). lra. }
  assert (B514 : bpow radix2 514 = 4 * bpow radix2 512) by (change 514%Z with (2 + 512)%Z; rewrite bpow_plus; reflexivity). pose proof (bpow_gt_0 radix2 512) as B0.
  set (c := V t / 3). assert (Bc : bpow radix2 512 <= Rabs c) by (unfold c, Rdiv; rewrite Rabs_mult, (Rabs_pos_eq (/ 3)) by lra; lra).
  assert (B1024 : bpow radix2 512 * bpow radix2 512 = bpow radix2 1024) by (rewrite <- bpow_plus; reflexivity).
  assert (SQ : forall r, bpow radix2 512 <= Rabs r -> bpow radix2 1024 <= r * r).
  { intros r Hr. rewrite <- B1024. rewrite <- (Rabs_pos_eq (r * r)) by apply Rle_0_sqr. rewrite Rabs_mult. apply Rmult_le_compat; lra. }
  split.
  - destruct (dZ 1 ltac:(cbn; lia)) as [F1 V1]. destruct (dZ (-1) ltac:(cbn; lia)) as [Fn Vn]. destruct (dZ 2 ltac:(cbn; lia)) as [F2 V2]. destruct (dZ 3 ltac:(cbn; lia)) as [F3 V3].
    destruct (mhat_k_error fexp f2 f3 f4 f5 (/ 32) root ltac:(lra) Fr Wr) as [FK WK]. fold T in FK, WK.
    assert (KP : 0 < V (mhat_k T root)) by (apply Rabs_le_inv in WK; lra).
    change (fst (mhat_value T root t)) with (d_mul (d_mul (mhat_k T root) (d_sub (d_ofZ 1) (d_mul (d_div t (d_ofZ 3)) (d_div t (d_ofZ 3))))) (fexp (d_mul (d_div (d_ofZ (-1)) (d_ofZ 2)) (d_mul (d_div t (d_ofZ 3)) (d_div t (d_ofZ 3)))))).
    set (k := d_div t (d_ofZ 3)).
    assert (B23 : bpow radix2 1024 = 2 * bpow radix2 1023) by (change 1024%Z with (1 + 1023)%Z; rewrite bpow_plus; reflexivity). pose proof (bpow_gt_0 radix2 1023) as B230.
    assert (Fk : fin k /\ V k = rnd64 c).
    { assert (E : V t / V (d_ofZ 3) = c) by (rewrite V3; reflexivity). rewrite <- E. apply d_div_finite; [exact Ft|lra|]. apply no_overflow. rewrite E. unfold c, Rdiv. rewrite Rabs_mult, (Rabs_pos_eq (/ 3)) by lra. pose proof (dbl_lt_max t). lra. }
    destruct Fk as [Fk Vk]. assert (G512 : fmt64 (bpow radix2 512)) by (apply generic_format_bpow'; [typeclasses eauto|unfold FLT_exp; lia]).
    assert (G1024 : fmt64 (bpow radix2 1024)) by (apply generic_format_bpow'; [typeclasses eauto|unfold FLT_exp; lia]).
    assert (Bk : bpow radix2 512 <= Rabs (V k)) by (rewrite Vk; apply abs_round_ge_generic; [typeclasses eauto|typeclasses eauto|exact G512|exact Bc]).
    assert (PI : d_mul k k = B754_infinity false).
    { pose proof (Bmult_correct dprec demax _ _ mode_NE k k) as M. rewrite Rlt_bool_false in M.
      - rewrite xorb_nilpotent in M. change (B2SF (d_mul k k) = SpecFloat.S754_infinity false) in M. destruct (d_mul k k) as [b|b| |b m e p]; cbn in M; try discriminate M. injection M as ->. reflexivity.
      - change (bpow radix2 1024 <= Rabs (rnd64 (V k * V k))). apply abs_round_ge_generic; [typeclasses eauto|typeclasses eauto|exact G1024|]. rewrite Rabs_pos_eq by apply Rle_0_sqr. apply SQ. exact Bk. }
    rewrite PI.
    assert (MU : forall x : dbl, fin x -> V x <> 0 -> forall s, d_mul x (B754_infinity s) = B754_infinity (xorb (Bsign x) s)).
    { intros x Fx Nx s. destruct x as [b|b| |b m e p]; try discriminate Fx; [contradiction Nx; reflexivity|reflexivity]. }
    assert (SG : forall x : dbl, fin x -> V x <> 0 -> Bsign x = Rlt_bool (V x) 0).
    { intros x Fx Nx. destruct x as [b|b| |b m e p]; try discriminate Fx; [contradiction Nx; reflexivity|]. cbn [Bsign]. symmetry. destruct b.
      - apply Rlt_bool_true. apply F2R_lt_0. reflexivity.
      - apply Rlt_bool_false. apply F2R_ge_0. discriminate. }
    assert (S1 : d_sub (d_ofZ 1) (B754_infinity false) = B754_infinity true) by (destruct (d_ofZ 1) as [b|b| |b m e p]; try discriminate F1; reflexivity). rewrite S1.
    assert (Fh : fin (d_div (d_ofZ (-1)) (d_ofZ 2)) /\ V (d_div (d_ofZ (-1)) (d_ofZ 2)) = - (1 / 2)).
    { assert (E : V (d_ofZ (-1)) / V (d_ofZ 2) = - (1 / 2)) by (rewrite Vn, V2; field). pose proof (bpow_big 1023 ltac:(lia)). destruct (d_div_finite (d_ofZ (-1)) (d_ofZ 2) Fn) as [F W']; [rewrite V2; lra|apply no_overflow; rewrite E; apply Rabs_le; lra|].
      split; [exact F|]. rewrite W', E. apply rnd_id. replace (- (1 / 2)) with (IZR (-1) / 2) by (cbn; field). apply fmt_half. cbn; lia. }
    destruct Fh as [Fh Vh]. rewrite (MU _ FK) by lra. rewrite (MU _ Fh) by lra. rewrite (SG _ FK), (SG _ Fh) by lra. rewrite Rlt_bool_false by lra. rewrite (Rlt_bool_true (V (d_div (d_ofZ (-1)) (d_ofZ 2)))) by lra. cbn [xorb].
    rewrite HX. reflexivity.
  - destruct (C65_mhat (V t)) as (-> & _). fold c. set (x := c * c / 2). replace (- c ^ 2 / 2) with (- x) by (unfold x; field). replace (c ^ 2) with (2 * x) by (unfold x; field). pose proof (SQ c Bc) as C2.
    assert (B1 : bpow radix2 1024 = 2 ^ 100 * 16 * bpow radix2 920) by (change 1024%Z with (104 + 920)%Z; rewrite bpow_plus; change (bpow radix2 104) with 20282409603651670423947251286016; lra). assert (B2 : 1 <= bpow radix2 920) by (pose proof (bpow_big 920 ltac:(lia)); lra).
    assert (P100 : 0 < 2 ^ 100) by (apply pow_lt; lra). assert (X8 : 8 * 2 ^ 100 <= x).
    { unfold x. apply Rle_trans with (2 ^ 100 * 16 * bpow radix2 920 / 2); [|lra]. assert (2 ^ 100 * 16 * 1 <= 2 ^ 100 * 16 * bpow radix2 920) by (apply Rmult_le_compat_l; lra). lra. }
    assert (X0 : 0 < x) by lra. pose proof (wwexp x ltac:(lra)) as W. pose proof (exp_pos (- x)) as EP.
    assert (WX : (1 + 2 * x) * exp (- x) <= / 2 ^ 100).
    { apply (Rmult_le_reg_l x); [exact X0|]. rewrite <- Rmult_assoc. eapply Rle_trans; [exact W|]. apply (Rmult_le_reg_r (2 ^ 100)); [exact P100|]. rewrite Rmult_assoc, Rinv_l by lra. lra. }
    rewrite Cmod_R, !Rabs_mult, (Rabs_pos_eq (exp (- x))), (Rabs_pos_eq root4pi), (Rabs_pos_eq (2 / 3)) by lra. eapply Rle_trans; [|exact WX]. apply Rmult_le_compat_r; [lra|].
    apply Rle_trans with (1 * Rabs (1 - 2 * x)); [apply Rmult_le_compat_r; [apply Rabs_pos|lra]|]. rewrite Rmult_1_l. apply Rabs_le. lra.
Qed.

(** ** The hypotheses can be met: a <cmath> correct up to 2^-52, FourierTransform as the engine, the Morlet wavelet, signals of three samples, scales 1 and 2. *)
Definition ex_exp (x : dbl) : dbl := if Req_EM_T (V x) 0 then d_ofZ 1 else near (exp (Rmin 0 (V x))).
Definition ex_cos (x : dbl) : dbl := near (cos (V x)).
Definition ex_sin (x : dbl) : dbl := near (sin (V x)).
Definition ex_asin (_ : dbl) : dbl := near (PI / 2).
Definition ex_T : TNum := MkTNum FMath ex_exp ex_cos ex_sin ex_asin (fun x => x).
Definition ex_engine (x : list (dbl * dbl)) : list (dbl * dbl) := match fourier_transform ex_T x with Ok y => y | _ => [] end.
Lemma ex_libm : libm (2 * u) ex_exp ex_cos ex_sin ex_asin.
Proof.
  destruct C69_libm as [A B C D]. constructor; [|exact B|exact C|exact D]. intros x Fx Hx. unfold ex_exp. destruct (Req_EM_T (V x) 0); [apply (dZ 1); cbn; lia|contradiction].
Qed.
Lemma ex_wmath : wmath (2 * u) ex_exp ex_cos ex_sin.
Proof.
  destruct C69_libm as [A B C D]. pose proof u_pos. constructor; [|exact B|exact C]. intros x Fx Hx. unfold ex_exp. destruct (Req_EM_T (V x) 0) as [E|_].
  - destruct (dZ 1 ltac:(cbn; lia)) as [F W]. split; [exact F|]. rewrite W, E, exp_0. replace (1 - 1) with 0 by ring. rewrite Rabs_R0. lra.
  - rewrite Rmin_right by exact Hx. destruct (exp_neg_1 (- V x) ltac:(lra)) as [P Q]. rewrite Ropp_involutive in P, Q. destruct (near_error (exp (V x)) ltac:(apply Rabs_le; lra)) as [F W]. split; [exact F|lra].
Qed.
Example C72_example : exists o ca,
  computes ((fun _ t => Ok (morlet_value ex_T t)) 0%nat) morlet (bpow radix2 500) (19 * u) /\ lipschitz morlet 6 /\ bounded morlet 1 /\
  accurate 3 (139 * u) (fft_transform ex_T (Some ex_engine) 3) /\ Forall (usable 1 6 (19 * u) (bpow radix2 500) 3) [d_ofZ 1; d_ofZ 2] /\
  length ones = 3%nat /\ Forall cfin ones /\ total ones <= bpow radix2 450 /\
  fwt_create ex_T (Some ex_engine) 56 [d_ofZ 1; d_ofZ 2] 3 (d_ofZ 0) = Ok (o, ca).
Proof.
  do 2 eexists. pose proof u_pos as U0. pose proof u_small as U1. assert (U2 : u <= / 9007199254740992) by apply Rle_refl. pose proof eta_pos as H0. pose proof eta_u as H1.
  split; [|split; [exact morlet_lipschitz|split; [exact morlet_bounded|split; [|split; [|split; [|split; [|split; [|reflexivity]]]]]]]].
  - replace (19 * u) with (3 * (2 * u) + 13 * u) by ring. apply C72_morlet; [exact ex_wmath|lra].
  - assert (E139 : 34 * (INR 3 + 1) * u + 3 / 2 * (2 * u) = 139 * u) by (cbn [INR]; lra). rewrite <- E139. intros x Lx Fx Bx.
    destruct (C69_fourier_error ex_exp ex_cos ex_sin ex_asin (fun x => x) (2 * u) ex_libm ltac:(lra) 3 ltac:(unfold small; cbn; lia) x Lx Fx Bx) as (y & E & R).
    exists y. split; [|exact R]. unfold fft_transform. change (cplx ex_T) with (dbl * dbl)%type. rewrite Lx. cbn [Nat.eqb]. f_equal. unfold ex_engine. change (fourier_transform ex_T x = Ok y) in E. rewrite E. reflexivity.
  - assert (Z : forall z, (1 <= z <= 2)%Z -> usable 1 6 (19 * u) (bpow radix2 500) 3 (d_ofZ z)).
    { intros z Hz. destruct (dZ z ltac:(cbn; lia)) as [F W]. pose proof (bpow_big 500 ltac:(lia)). pose proof (bpow_big 450 ltac:(lia)). split; [exact F|]. unfold usable. rewrite W. assert (1 <= IZR z <= 2) by (split; apply IZR_le; lia).
      assert (I1 : 0 < / IZR z <= 1) by (split; [apply Rinv_0_lt_compat; lra|rewrite <- Rinv_1; apply Rinv_le_contravar; lra]).
      assert (S1 : 1 <= sqrt (IZR z)) by (rewrite <- sqrt_1 at 1; apply sqrt_le_1_alt; lra). assert (I2 : 0 < / sqrt (IZR z) <= 1) by (split; [apply Rinv_0_lt_compat; lra|rewrite <- Rinv_1; apply Rinv_le_contravar; lra]).
      split; [lra|]. cbn [INR]. split; [unfold Rdiv; lra|]. unfold sample_error. cbn [INR].
      assert (I3 : 0 <= (1 + 1 + 1) / (2 * IZR z) <= 2) by (replace ((1 + 1 + 1) / (2 * IZR z)) with (3 / 2 * / IZR z) by (field; lra); lra). set (q := (1 + 1 + 1) / (2 * IZR z)) in *.
      assert (0 <= u * q <= / 1024 * 2) by (split; [apply Rmult_le_pos; lra|apply Rmult_le_compat; lra]).
      assert (G : forall a b, 0 <= a <= b -> a / sqrt (IZR z) <= b) by (intros a b Hab; unfold Rdiv; apply Rle_trans with (a * 1); [apply Rmult_le_compat_l; lra|lra]).
      pose proof (G 1 1 ltac:(lra)). pose proof (G (3 * u * 1 + 2 * (19 * u + 6 * (u * q + eta))) 1 ltac:(lra)). lra. }
    constructor; [apply Z; lia|]. constructor; [apply Z; lia|]. constructor.
  - reflexivity.
  - exact (proj1 (proj2 C69_example)).
  - exact (proj1 (proj2 (proj2 (proj2 C69_example)))).
Qed.
(** A correctly rounded exp and the correctly rounded fourth root of pi meet the hypotheses of the Mexican hat. *)
Definition nearest (r : R) : dbl := d_of (ZnearestE (scaled_mantissa radix2 (FLT_exp (-1074) 53) r)) (cexp radix2 (FLT_exp (-1074) 53) r).
Lemma nearest_rnd r : Rabs r <= bpow radix2 1023 -> fin (nearest r) /\ V (nearest r) = rnd64 r.
Proof.
  intro H. unfold nearest, d_of. pose proof (binary_normalize_correct dprec demax dprec_gt_0 dprec_lt_emax mode_NE (ZnearestE (scaled_mantissa radix2 (FLT_exp (-1074) 53) r)) (cexp radix2 (FLT_exp (-1074) 53) r) false) as C. cbv zeta in C.
  change (F2R (Float radix2 (ZnearestE (scaled_mantissa radix2 (FLT_exp (-1074) 53) r)) (cexp radix2 (FLT_exp (-1074) 53) r))) with (rnd64 r) in C.
  change (round radix2 (SpecFloat.fexp dprec demax) (round_mode mode_NE) (rnd64 r)) with (rnd64 (rnd64 r)) in C. rewrite (rnd_id (rnd64 r) (rnd_fmt r)) in C.
  rewrite Rlt_bool_true in C by (apply no_overflow; exact H). destruct C as (A & B & _). split; [exact B|exact A].
Qed.
Example C72_mhat_example : relative_exp u (fun x => nearest (exp (V x))) /\ fin (nearest root4pi) /\ Rabs (V (nearest root4pi) - root4pi) <= 2 * u.
Proof.
  pose proof u_pos. pose proof eta_pos. pose proof eta_u. pose proof (bpow_big 1023 ltac:(lia)). split; [|pose proof root4_bound as RB; destruct (nearest_rnd root4pi) as [F W]; [apply Rabs_le; lra|]].
  - intros x Fx [_ Hx]. destruct (exp_neg_1 (- V x) ltac:(lra)) as [P Q]. rewrite Ropp_involutive in P, Q. destruct (nearest_rnd (exp (V x))) as [F W]; [apply Rabs_le; lra|]. split; [exact F|]. rewrite W. pose proof (rnd_error (exp (V x))) as E. rewrite (Rabs_pos_eq (exp (V x))) in E by lra. lra.
  - split; [exact F|]. rewrite W. pose proof (rnd_error root4pi) as E. rewrite (Rabs_pos_eq root4pi) in E by lra. assert (u * root4pi <= u * (3 / 2)) by (apply Rmult_le_compat_l; lra). lra.
Qed.
Print Assumptions C72_transform. Print Assumptions C72_morlet. Print Assumptions C72_mhat. Print Assumptions C72_morlet_regular. Print Assumptions C72_mhat_regular.
