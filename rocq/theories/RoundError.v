(** Rounding errors of sums of complex products in binary64. *)
From Coq Require Import Reals Psatz.
From Flocq Require Import Core.Core IEEE754.BinarySingleNaN Relative Plus_error.
From Coquelicot Require Import Complex.
From Verif Require Import Base Num IntProofs FloatLemmas Optim Dsp PropDsp.
Local Open Scope R_scope.

#[local] Instance prec53' : Prec_gt_0 53.
Proof. reflexivity. Qed.

(** Half a unit in the last place of 1, and half the smallest positive double. *)
Definition u : R := bpow radix2 (-53).
Definition eta : R := bpow radix2 (-1075).
Lemma u_pos : 0 < u. Proof. apply bpow_gt_0. Qed.
Lemma eta_pos : 0 < eta. Proof. apply bpow_gt_0. Qed.

(** no overflow *)
Lemma rnd_bound e x : (-1000 <= e <= 1023)%Z -> Rabs x <= bpow radix2 e -> Rabs (rnd64 x) <= bpow radix2 e.
Proof.
  intros He H. assert (F : fmt64 (bpow radix2 e)) by (apply generic_format_bpow'; [typeclasses eauto|unfold FLT_exp; lia]).
  apply Rabs_le_inv in H. apply Rabs_le. split; [|apply rnd_le_fmt; [lra|exact F]].
  apply rnd_ge_fmt; [lra|]. apply generic_format_opp. exact F.
Qed.
Lemma no_overflow x : Rabs x <= bpow radix2 1023 -> Rabs (rnd64 x) < bpow radix2 1024.
Proof. intro H. apply Rle_lt_trans with (bpow radix2 1023); [apply rnd_bound; [lia|exact H]|apply bpow_lt; lia]. Qed.

(** one rounding *)
Lemma rnd_error x : Rabs (rnd64 x - x) <= u * Rabs x + eta.
Proof.
  destruct (error_N_FLT radix2 (-1074) 53 ltac:(lia) (fun z => negb (Z.even z)) x) as (e & h & He & Hh & _ & E).
  replace (rnd64 x - x) with (x * e + h) by (rewrite E; ring).
  eapply Rle_trans; [apply Rabs_triang|]. rewrite Rabs_mult. apply Rplus_le_compat.
  - rewrite Rmult_comm. apply Rmult_le_compat_r; [apply Rabs_pos|]. eapply Rle_trans; [exact He|]. unfold u. change (bpow radix2 (- (53) + 1)) with (bpow radix2 (-53 + 1)).
    replace (bpow radix2 (-53 + 1)) with (2 * bpow radix2 (-53)) by (rewrite bpow_plus; change (bpow radix2 1) with 2; ring). lra.
  - eapply Rle_trans; [exact Hh|]. unfold eta. replace (bpow radix2 (-1074)) with (2 * bpow radix2 (-1075)) by (change (-1074)%Z with (-1075 + 1)%Z; rewrite bpow_plus; change (bpow radix2 1) with 2; ring). lra.
Qed.
Lemma rnd_error_add x y : fmt64 x -> fmt64 y -> Rabs (rnd64 (x + y) - (x + y)) <= u * Rabs (x + y).
Proof.
  intros Fx Fy. destruct (FLT_plus_error_N_ex radix2 (-1074) 53 (fun z => negb (Z.even z)) x y Fx Fy) as (e & He & E).
  replace (rnd64 (x + y) - (x + y)) with (e * (x + y)) by (rewrite E; ring). rewrite Rabs_mult. apply Rmult_le_compat_r; [apply Rabs_pos|].
  eapply Rle_trans; [exact He|]. change (u_ro radix2 53) with (/2 * bpow radix2 (-53 + 1)). replace (/ 2 * bpow radix2 (-53 + 1)) with u by (unfold u; rewrite bpow_plus; change (bpow radix2 1) with 2; field).
  pose proof u_pos. apply Rmult_le_reg_r with (1 + u); [lra|]. unfold Rdiv. rewrite Rmult_assoc, Rinv_l by lra. nra.
Qed.

Definition fin (x : dbl) : Prop := is_finite x = true.
Notation V := (@B2R dprec demax).
Lemma mul_error x y : fin x -> fin y -> Rabs (V x * V y) <= bpow radix2 1023 ->
  fin (d_mul x y) /\ Rabs (V (d_mul x y) - V x * V y) <= u * Rabs (V x * V y) + eta.
Proof. intros Fx Fy B. destruct (d_mul_finite x y Fx Fy (no_overflow _ B)) as [F E]. split; [exact F|]. rewrite E. apply rnd_error. Qed.
Lemma div_error x y : fin x -> V y <> 0 -> Rabs (V x / V y) <= bpow radix2 1023 ->
  fin (d_div x y) /\ Rabs (V (d_div x y) - V x / V y) <= u * Rabs (V x / V y) + eta.
Proof. intros Fx Fy B. destruct (d_div_finite x y Fx Fy (no_overflow _ B)) as [F E]. split; [exact F|]. rewrite E. apply rnd_error. Qed.
Lemma add_error x y : fin x -> fin y -> Rabs (V x + V y) <= bpow radix2 1023 ->
  fin (d_add x y) /\ Rabs (V (d_add x y) - (V x + V y)) <= u * Rabs (V x + V y).
Proof. intros Fx Fy B. destruct (d_add_finite x y Fx Fy (no_overflow _ B)) as [F E]. split; [exact F|]. rewrite E. apply rnd_error_add; apply fmt_dbl. Qed.
Lemma sub_error x y : fin x -> fin y -> Rabs (V x - V y) <= bpow radix2 1023 ->
  fin (d_sub x y) /\ Rabs (V (d_sub x y) - (V x - V y)) <= u * Rabs (V x - V y).
Proof.
  intros Fx Fy B. destruct (d_sub_finite x y Fx Fy (no_overflow _ B)) as [F E]. split; [exact F|]. rewrite E. unfold Rminus at 1 2 4. 
  apply (rnd_error_add (V x) (- V y)); [apply fmt_dbl|apply generic_format_opp, fmt_dbl].
Qed.

(** x*y -/+ z*t, each operation rounded; [P]: a bound of |x*y| + |z*t|. *)
Lemma u_small : u <= / 1024. Proof. unfold u. change (/ 1024) with (bpow radix2 (-10)). apply bpow_le. lia. Qed.
Lemma eta_small : eta <= / 1024. Proof. unfold eta. change (/ 1024) with (bpow radix2 (-10)). apply bpow_le. lia. Qed.
Lemma bpow_1023 : bpow radix2 1023 = 8 * bpow radix2 1020.
Proof. change 1023%Z with (3 + 1020)%Z. rewrite bpow_plus. f_equal. Qed.
Lemma one_le_1020 : 1 <= bpow radix2 1020. Proof. change 1 with (bpow radix2 0). apply bpow_le. lia. Qed.
Lemma pm_core p q pf qf P : Rabs p + Rabs q <= P -> Rabs (pf - p) <= u * Rabs p + eta -> Rabs (qf - q) <= u * Rabs q + eta ->
  Rabs (pf + qf - (p + q)) <= u * P + 2 * eta /\ Rabs (pf + qf) <= (1 + u) * P + 2 * eta.
Proof.
  intros HP Hp Hq. pose proof u_pos. pose proof (Rabs_pos p). pose proof (Rabs_pos q).
  assert (D : Rabs (pf + qf - (p + q)) <= u * P + 2 * eta).
  { replace (pf + qf - (p + q)) with ((pf - p) + (qf - q)) by ring. eapply Rle_trans; [apply Rabs_triang|]. nra. }
  split; [exact D|]. replace (pf + qf) with ((pf + qf - (p + q)) + (p + q)) by ring. eapply Rle_trans; [apply Rabs_triang|].
  pose proof (Rabs_triang p q). nra.
Qed.
Lemma prod_sub x y z t P : fin x -> fin y -> fin z -> fin t -> Rabs (V x * V y) + Rabs (V z * V t) <= P -> P <= bpow radix2 1020 ->
  fin (d_sub (d_mul x y) (d_mul z t)) /\ Rabs (V (d_sub (d_mul x y) (d_mul z t)) - (V x * V y - V z * V t)) <= ((1 + u) ^ 2 - 1) * P + 2 * eta * (1 + u).
Proof.
  intros Fx Fy Fz Ft HP HB. pose proof (Rabs_pos (V x * V y)). pose proof (Rabs_pos (V z * V t)). pose proof bpow_1023. pose proof one_le_1020.
  pose proof u_small. pose proof eta_small. pose proof u_pos. pose proof eta_pos.
  destruct (mul_error x y Fx Fy ltac:(lra)) as [F1 E1]. destruct (mul_error z t Fz Ft ltac:(lra)) as [F2 E2].
  assert (E2' : Rabs (- V (d_mul z t) - - (V z * V t)) <= u * Rabs (- (V z * V t)) + eta) by (rewrite Rabs_Ropp; replace (- V (d_mul z t) - - (V z * V t)) with (- (V (d_mul z t) - V z * V t)) by ring; rewrite Rabs_Ropp; exact E2).
  destruct (pm_core (V x * V y) (- (V z * V t)) _ _ P ltac:(rewrite Rabs_Ropp; exact HP) E1 E2') as [A B].
  destruct (sub_error _ _ F1 F2) as [F3 E3]; [unfold Rminus; nra|]. split; [exact F3|].
  unfold Rminus in E3 at 3.
  match goal with |- Rabs ?g <= _ => replace g with ((V (d_sub (d_mul x y) (d_mul z t)) - (V (d_mul x y) - V (d_mul z t))) + ((V (d_mul x y) + - V (d_mul z t)) - (V x * V y + - (V z * V t)))) by ring end.
  eapply Rle_trans; [apply Rabs_triang|]. nra.
Qed.
Lemma prod_add x y z t P : fin x -> fin y -> fin z -> fin t -> Rabs (V x * V y) + Rabs (V z * V t) <= P -> P <= bpow radix2 1020 ->
  fin (d_add (d_mul x y) (d_mul z t)) /\ Rabs (V (d_add (d_mul x y) (d_mul z t)) - (V x * V y + V z * V t)) <= ((1 + u) ^ 2 - 1) * P + 2 * eta * (1 + u).
Proof.
  intros Fx Fy Fz Ft HP HB. pose proof (Rabs_pos (V x * V y)). pose proof (Rabs_pos (V z * V t)). pose proof bpow_1023. pose proof one_le_1020.
  pose proof u_small. pose proof eta_small. pose proof u_pos. pose proof eta_pos.
  destruct (mul_error x y Fx Fy ltac:(lra)) as [F1 E1]. destruct (mul_error z t Fz Ft ltac:(lra)) as [F2 E2].
  destruct (pm_core (V x * V y) (V z * V t) _ _ P HP E1 E2) as [A B].
  destruct (add_error _ _ F1 F2) as [F3 E3]; [nra|]. split; [exact F3|].
  match goal with |- Rabs ?g <= _ => replace g with ((V (d_add (d_mul x y) (d_mul z t)) - (V (d_mul x y) + V (d_mul z t))) + ((V (d_mul x y) + V (d_mul z t)) - (V x * V y + V z * V t))) by ring end.
  eapply Rle_trans; [apply Rabs_triang|]. nra.
Qed.

(** one more term: [s] is exact, [S] bounds it, [k] roundings so far *)
Lemma step_core k s S p P sf pf (E : R) : 0 <= S -> 0 <= P -> Rabs s <= S -> Rabs p <= P -> (2 <= k)%nat ->
  Rabs (sf - s) <= ((1 + u) ^ k - 1) * S + E -> 0 <= E -> Rabs (pf - p) <= ((1 + u) ^ 2 - 1) * P + 2 * eta * (1 + u) ->
  Rabs (sf + pf - (s + p)) <= ((1 + u) ^ k - 1) * (S + P) + E + 2 * eta * (1 + u) /\
  Rabs (sf + pf) <= (1 + u) ^ k * (S + P) + E + 2 * eta * (1 + u).
Proof.
  intros HS HP Hs Hp Hk Es HE Ep. pose proof u_pos.
  assert (M : (1 + u) ^ 2 <= (1 + u) ^ k) by (apply Rle_pow; [lra|exact Hk]).
  assert (A : Rabs (sf + pf - (s + p)) <= ((1 + u) ^ k - 1) * (S + P) + E + 2 * eta * (1 + u)).
  { replace (sf + pf - (s + p)) with ((sf - s) + (pf - p)) by ring. eapply Rle_trans; [apply Rabs_triang|]. nra. }
  split; [exact A|]. replace (sf + pf) with ((sf + pf - (s + p)) + (s + p)) by ring. eapply Rle_trans; [apply Rabs_triang|].
  pose proof (Rabs_triang s p). nra.
Qed.
Lemma step_error k s S p P (sf pf : dbl) (E : R) : 0 <= S -> 0 <= P -> Rabs s <= S -> Rabs p <= P -> (2 <= k)%nat ->
  fin sf -> fin pf -> (1 + u) ^ k * (S + P) + E + 2 * eta * (1 + u) <= bpow radix2 1023 ->
  Rabs (V sf - s) <= ((1 + u) ^ k - 1) * S + E -> 0 <= E -> Rabs (V pf - p) <= ((1 + u) ^ 2 - 1) * P + 2 * eta * (1 + u) ->
  fin (d_add sf pf) /\ Rabs (V (d_add sf pf) - (s + p)) <= ((1 + u) ^ (Datatypes.S k) - 1) * (S + P) + (E + 2 * eta * (1 + u)) * (1 + u).
Proof.
  intros HS HP Hs Hp Hk Fs Fp B Es HE Ep. pose proof u_pos. destruct (step_core k s S p P _ _ E HS HP Hs Hp Hk Es HE Ep) as [A C].
  destruct (add_error sf pf Fs Fp ltac:(lra)) as [F G]. split; [exact F|].
  replace (V (d_add sf pf) - (s + p)) with ((V (d_add sf pf) - (V sf + V pf)) + (V sf + V pf - (s + p))) by ring.
  eapply Rle_trans; [apply Rabs_triang|]. cbn [pow]. nra.
Qed.

(** *** Sums of complex products *)
Lemma cmod_sqr (z : C) : Cmod z * Cmod z = fst z * fst z + snd z * snd z.
Proof. unfold Cmod. rewrite sqrt_sqrt by nra. cbn. ring. Qed.
Lemma cmod_le (z : C) M : 0 <= M -> fst z * fst z + snd z * snd z <= M * M -> Cmod z <= M.
Proof. intros HM H. apply Rsqr_incr_0_var; [unfold Rsqr; rewrite cmod_sqr; exact H|exact HM]. Qed.
Lemma cmod_comp (z : C) M : Rabs (fst z) <= M -> Rabs (snd z) <= M -> Cmod z <= 142 / 100 * M.
Proof.
  intros H1 H2. pose proof (Rabs_pos (fst z)). apply cmod_le; [nra|]. apply Rabs_le_inv in H1. apply Rabs_le_inv in H2. nra.
Qed.
Lemma cmod_re (z : C) : Rabs (fst z) <= Cmod z.
Proof. eapply Rle_trans; [apply Rmax_l|apply Rmax_Cmod]. Qed.
Lemma cmod_im (z : C) : Rabs (snd z) <= Cmod z.
Proof. eapply Rle_trans; [apply Rmax_r|apply Rmax_Cmod]. Qed.
Lemma cauchy p q r s : (Rabs (p * r) + Rabs (q * s)) * (Rabs (p * r) + Rabs (q * s)) <= (p * p + q * q) * (r * r + s * s).
Proof.
  rewrite !Rabs_mult. set (a := Rabs p). set (b := Rabs q). set (c := Rabs r). set (d := Rabs s).
  assert (Ha : p * p = a * a) by (unfold a; rewrite <- Rabs_mult; symmetry; apply Rabs_pos_eq; nra).
  assert (Hb : q * q = b * b) by (unfold b; rewrite <- Rabs_mult; symmetry; apply Rabs_pos_eq; nra).
  assert (Hc : r * r = c * c) by (unfold c; rewrite <- Rabs_mult; symmetry; apply Rabs_pos_eq; nra).
  assert (Hd : s * s = d * d) by (unfold d; rewrite <- Rabs_mult; symmetry; apply Rabs_pos_eq; nra).
  rewrite Ha, Hb, Hc, Hd. pose proof (Rle_0_sqr (a * d - b * c)) as Q. unfold Rsqr in Q. nra.
Qed.
Lemma prod_le (z w : C) : Rabs (fst z * fst w) + Rabs (snd z * snd w) <= Cmod z * Cmod w /\ Rabs (fst z * snd w) + Rabs (snd z * fst w) <= Cmod z * Cmod w.
Proof.
  pose proof (Cmod_ge_0 z). pose proof (Cmod_ge_0 w).
  split; (apply Rsqr_incr_0_var; [|nra]); unfold Rsqr; (eapply Rle_trans; [apply cauchy|]);
    replace (Cmod z * Cmod w * (Cmod z * Cmod w)) with ((Cmod z * Cmod z) * (Cmod w * Cmod w)) by ring; rewrite !cmod_sqr; nra.
Qed.

Section Sum.
Variables f1 f2 f3 f4 f5 : dbl -> dbl.
Let T : TNum := MkTNum FMath f1 f2 f3 f4 f5.
(** the complex number a pair of doubles stands for *)
Definition cval (z : dbl * dbl) : C := (V (fst z), V (snd z)).
Definition cfin (z : dbl * dbl) : Prop := fin (fst z) /\ fin (snd z).
Definition fdot (l : list ((dbl * dbl) * (dbl * dbl))) (acc : dbl * dbl) : dbl * dbl := fold_left (fun s p => c_add T s (c_mul T (fst p) (snd p))) l acc.
Definition lsum (l : list ((dbl * dbl) * (dbl * dbl))) : C := fold_right (fun p s => Cplus (Cmult (cval (fst p)) (cval (snd p))) s) (RtoC 0) l.
Definition labs (l : list ((dbl * dbl) * (dbl * dbl))) : R := fold_right (fun p s => Cmod (cval (fst p)) * Cmod (cval (snd p)) + s) 0 l.
Lemma labs_pos l : 0 <= labs l.
Proof. induction l as [|p l IH]; cbn; [lra|]. pose proof (Cmod_ge_0 (cval (fst p))). pose proof (Cmod_ge_0 (cval (snd p))). fold (labs l). nra. Qed.

Lemma c_mul_error z w P : cfin z -> cfin w -> Cmod (cval z) * Cmod (cval w) <= P -> P <= bpow radix2 1020 ->
  cfin (c_mul T z w) /\ Rabs (fst (cval (c_mul T z w)) - fst (Cmult (cval z) (cval w))) <= ((1 + u) ^ 2 - 1) * P + 2 * eta * (1 + u) /\
  Rabs (snd (cval (c_mul T z w)) - snd (Cmult (cval z) (cval w))) <= ((1 + u) ^ 2 - 1) * P + 2 * eta * (1 + u).
Proof.
  intros [Fz1 Fz2] [Fw1 Fw2] HP HB. destruct (prod_le (cval z) (cval w)) as [A B]. cbn [cval fst snd] in A, B.
  destruct (prod_sub (fst z) (fst w) (snd z) (snd w) P Fz1 Fw1 Fz2 Fw2 ltac:(lra) HB) as [G1 E1].
  destruct (prod_add (fst z) (snd w) (snd z) (fst w) P Fz1 Fw2 Fz2 Fw1 ltac:(lra) HB) as [G2 E2].
  split; [split; assumption|]. split; [exact E1|exact E2].
Qed.
Lemma pow_ge_1 n : 1 <= (1 + u) ^ n.
Proof. apply pow_R1_Rle. pose proof u_pos. lra. Qed.
Lemma fdot_error : forall l k acc (s : C) S E, Forall (fun p => cfin (fst p) /\ cfin (snd p)) l -> cfin acc -> (2 <= k)%nat -> 0 <= S -> 0 <= E ->
  Rabs (fst s) <= S -> Rabs (snd s) <= S ->
  Rabs (fst (cval acc) - fst s) <= ((1 + u) ^ k - 1) * S + E -> Rabs (snd (cval acc) - snd s) <= ((1 + u) ^ k - 1) * S + E ->
  (1 + u) ^ (k + length l) * (S + labs l) + (E + INR (length l) * (2 * eta * (1 + u))) * (1 + u) ^ length l <= bpow radix2 1020 ->
  cfin (fdot l acc) /\
  Rabs (fst (cval (fdot l acc)) - (fst s + fst (lsum l))) <= ((1 + u) ^ (k + length l) - 1) * (S + labs l) + (E + INR (length l) * (2 * eta * (1 + u))) * (1 + u) ^ length l /\
  Rabs (snd (cval (fdot l acc)) - (snd s + snd (lsum l))) <= ((1 + u) ^ (k + length l) - 1) * (S + labs l) + (E + INR (length l) * (2 * eta * (1 + u))) * (1 + u) ^ length l.
Proof.
  induction l as [|p l IH]; intros k acc s S E Fl Fa Hk HS HE Hs1 Hs2 E1 E2 HB.
  - cbn [fdot fold_left lsum labs fold_right length]. rewrite Nat.add_0_r. cbn [INR pow RtoC fst snd]. rewrite !Rplus_0_r, Rmult_0_l, Rplus_0_r, Rmult_1_r. auto.
  - pose proof (Forall_inv Fl) as [Fp1 Fp2]. apply Forall_inv_tail in Fl.
    set (P := Cmod (cval (fst p)) * Cmod (cval (snd p))).
    assert (HP : 0 <= P) by (unfold P; pose proof (Cmod_ge_0 (cval (fst p))); pose proof (Cmod_ge_0 (cval (snd p))); nra).
    pose proof (labs_pos l) as HL. change (labs (p :: l)) with (P + labs l) in *. pose proof u_pos as Hu. pose proof eta_pos as Ht.
    cbn [length] in *. rewrite S_INR in *. rewrite Nat.add_succ_r in *. set (n := length l) in *.
    pose proof (pow_ge_1 n) as Q1. pose proof (pow_ge_1 k) as Q2. pose proof (pos_INR n) as Q3.
    assert (QM : (1 + u) ^ k <= (1 + u) ^ Datatypes.S (k + n)) by (apply Rle_pow; [lra|lia]).
    assert (QN : 1 <= (1 + u) ^ Datatypes.S n) by apply pow_ge_1.
    assert (T1 : (1 + u) ^ k * (S + P) + E + 2 * eta * (1 + u) <= bpow radix2 1020).
    { eapply Rle_trans; [|exact HB]. assert (0 <= INR n * (2 * eta * (1 + u))) by (apply Rmult_le_pos; [exact Q3|nra]).
      assert ((1 + u) ^ k * (S + P) <= (1 + u) ^ Datatypes.S (k + n) * (S + (P + labs l))) by (apply Rmult_le_compat; lra).
      assert (E + 2 * eta * (1 + u) <= (E + (INR n + 1) * (2 * eta * (1 + u))) * (1 + u) ^ Datatypes.S n).
      { assert (0 <= 2 * eta * (1 + u)) by nra. rewrite <- (Rmult_1_r (E + 2 * eta * (1 + u))). apply Rmult_le_compat; nra. }
      lra. }
    assert (PB : P <= bpow radix2 1020) by nra.
    destruct (c_mul_error (fst p) (snd p) P Fp1 Fp2 (Rle_refl _) PB) as ((G1 & G2) & D1 & D2).
    assert (A1 : Rabs (fst (Cmult (cval (fst p)) (cval (snd p)))) <= P) by (unfold P; rewrite <- Cmod_mult; apply cmod_re).
    assert (A2 : Rabs (snd (Cmult (cval (fst p)) (cval (snd p)))) <= P) by (unfold P; rewrite <- Cmod_mult; apply cmod_im).
    assert (B23 : bpow radix2 1020 <= bpow radix2 1023) by (apply bpow_le; lia).
    destruct Fa as [Fa1 Fa2].
    destruct (step_error k (fst s) S _ P (fst acc) (fst (c_mul T (fst p) (snd p))) E HS HP Hs1 A1 Hk Fa1 G1 ltac:(lra) E1 HE D1) as [H1 K1].
    destruct (step_error k (snd s) S _ P (snd acc) (snd (c_mul T (fst p) (snd p))) E HS HP Hs2 A2 Hk Fa2 G2 ltac:(lra) E2 HE D2) as [H2 K2].
    set (E' := (E + 2 * eta * (1 + u)) * (1 + u)) in *.
    assert (HE' : 0 <= E') by (unfold E'; nra).
    set (s' := Cplus s (Cmult (cval (fst p)) (cval (snd p)))).
    assert (EE : (E' + INR n * (2 * eta * (1 + u))) * (1 + u) ^ n <= (E + (INR n + 1) * (2 * eta * (1 + u))) * (1 + u) ^ Datatypes.S n).
    { cbn [pow]. replace ((E + (INR n + 1) * (2 * eta * (1 + u))) * ((1 + u) * (1 + u) ^ n)) with ((E + (INR n + 1) * (2 * eta * (1 + u))) * (1 + u) * (1 + u) ^ n) by ring. apply Rmult_le_compat_r; [lra|]. unfold E'.
      assert (0 <= INR n * (2 * eta * (1 + u))) by (apply Rmult_le_pos; [exact Q3|nra]). nra. }
    assert (S1 : Rabs (fst s') <= S + P) by (cbn [s' Cplus fst]; eapply Rle_trans; [apply Rabs_triang|]; lra).
    assert (S2 : Rabs (snd s') <= S + P) by (cbn [s' Cplus snd]; eapply Rle_trans; [apply Rabs_triang|]; lra).
    destruct (IH (Datatypes.S k) (c_add T acc (c_mul T (fst p) (snd p))) s' (S + P) E' Fl (conj H1 H2) ltac:(lia) ltac:(lra) HE' S1 S2 K1 K2) as (R0 & R1 & R2).
    { fold n. cbn [Nat.add]. rewrite Rplus_assoc. lra. }
    fold n in R1, R2. cbn [Nat.add] in R1, R2. rewrite Rplus_assoc in R1, R2.
    assert (L1 : fst s' + fst (lsum l) = fst s + fst (lsum (p :: l))) by (cbn [s' lsum fold_right Cplus fst]; fold (lsum l); ring).
    assert (L2 : snd s' + snd (lsum l) = snd s + snd (lsum (p :: l))) by (cbn [s' lsum fold_right Cplus snd]; fold (lsum l); ring).
    rewrite L1 in R1. rewrite L2 in R2. change (fdot (p :: l) acc) with (fdot l (c_add T acc (c_mul T (fst p) (snd p)))).
    split; [exact R0|]. split; (eapply Rle_trans; [eassumption|]); lra.
Qed.

Lemma pow_bound n : INR n * u <= 1 -> (1 + u) ^ n <= 1 + INR n * u + (INR n * u) * (INR n * u).
Proof.
  pose proof u_pos as Hu. induction n as [|n IH]; intro H; [cbn; lra|]. rewrite S_INR in *. cbn [pow]. pose proof (pos_INR n).
  specialize (IH ltac:(nra)). eapply Rle_trans; [apply Rmult_le_compat_l; [lra|exact IH]|].
  set (x := INR n * u) in *. assert (x <= 1) by (unfold x; nra). assert (0 <= x) by (unfold x; nra).
  replace ((INR n + 1) * u) with (x + u) by (unfold x; ring). assert (0 <= u * x) by nra. assert (u * x * x <= u * x) by nra. nra.
Qed.
Definition small (n : nat) : Prop := (Z.of_nat n <= 2 ^ 40)%Z.
Lemma small_u n : small n -> (INR n + 2) * u <= / 4096.
Proof.
  intro H. unfold small in H. rewrite INR_IZR_INZ. apply IZR_le in H. replace (/ 4096) with (IZR (2 ^ 41) * u).
  - apply Rmult_le_compat_r; [apply Rlt_le, u_pos|]. change (IZR (2 ^ 40)) with (1099511627776) in H. change (IZR (2 ^ 41)) with (2199023255552). lra.
  - unfold u. change (bpow radix2 (-53)) with (/ 9007199254740992). change (IZR (2 ^ 41)) with 2199023255552. lra.
Qed.
(** The whole sum. *)
Lemma sum_error l : Forall (fun p => cfin (fst p) /\ cfin (snd p)) l -> small (length l) -> labs l <= bpow radix2 1010 ->
  cfin (fdot l (c_zero T)) /\ Cmod (Cminus (cval (fdot l (c_zero T))) (lsum l)) <= 3 / 2 * (INR (length l) + 2) * u * labs l + 3 * INR (length l) * eta.
Proof.
  intros Fl Hn HB. pose proof (labs_pos l) as HL. set (n := length l) in *. pose proof (small_u n Hn) as Hu. pose proof u_pos as U0. pose proof u_small as U1. pose proof eta_pos as T0. pose proof eta_small as T1. pose proof (pos_INR n) as N0.
  assert (P2 : (1 + u) ^ (2 + n) <= 1 + (INR n + 2) * u * (4097 / 4096)).
  { eapply Rle_trans; [apply pow_bound; rewrite plus_INR; cbn [INR]; lra|]. rewrite plus_INR. replace (INR 2) with 2 by (cbn; lra). set (x := (INR n + 2) * u) in *. assert (0 <= x) by (unfold x; nra). replace ((2 + INR n) * u) with x by (unfold x; ring). nra. }
  assert (Z0 : V (n_ofZ T 0) = 0) by (apply (d_ofZ_exact 0); cbn; lia). assert (ZF : fin (n_ofZ T 0)) by (apply (d_ofZ_exact 0); cbn; lia).
  assert (P1 : (1 + u) ^ n <= (1 + u) ^ (2 + n)) by (apply Rle_pow; [lra|lia]).
  assert (P3 : (1 + u) ^ n * (1 + u) <= 1 + (INR n + 2) * u * (4097 / 4096)).
  { eapply Rle_trans; [|exact P2]. cbn [Nat.add pow]. pose proof (pow_ge_1 n). nra. }
  assert (P4 : (1 + u) ^ n * (1 + u) <= 1025 / 1024) by lra.
  assert (NB : INR n * eta <= 1).
  { unfold small in Hn. rewrite INR_IZR_INZ. apply IZR_le in Hn. apply Rle_trans with (IZR (2 ^ 40) * bpow radix2 (-40)).
    - apply Rmult_le_compat; try lra; [rewrite <- INR_IZR_INZ; exact N0|apply bpow_le; lia].
    - change (bpow radix2 (-40)) with (/ IZR (2 ^ 40)). rewrite Rinv_r; [lra|]. change (IZR (2 ^ 40)) with 1099511627776. lra. }
  pose proof (fdot_error l 2 (c_zero T) (RtoC 0) 0 0 Fl (conj ZF ZF) (le_n _) (Rle_refl _) (Rle_refl _)) as H.
  cbn [RtoC fst snd] in H. rewrite Rabs_R0 in H. unfold cval at 1 2 in H. cbn [c_zero fst snd] in H. rewrite Z0, Rminus_0_r, Rabs_R0, Rmult_0_r, !Rplus_0_l in H.
  assert (B10 : bpow radix2 1020 = 1024 * bpow radix2 1010) by (change 1020%Z with (10 + 1010)%Z; rewrite bpow_plus; reflexivity).
  assert (B1 : 1 <= bpow radix2 1010) by (change 1 with (bpow radix2 0); apply bpow_le; lia).
  fold n in H. destruct H as (F & H1 & H2); try lra.
  { assert (Y : INR n * (2 * eta * (1 + u)) * (1 + u) ^ n = 2 * (INR n * eta) * ((1 + u) ^ n * (1 + u))) by ring. rewrite Y. assert (0 <= INR n * eta) by nra. assert ((1 + u) ^ (2 + n) <= 2) by lra.
    assert ((1 + u) ^ (2 + n) * labs l <= 2 * labs l) by (apply Rmult_le_compat_r; lra). assert (2 * (INR n * eta) * ((1 + u) ^ n * (1 + u)) <= 2 * (INR n * eta) * 2) by (apply Rmult_le_compat_l; lra). lra. }
  split; [exact F|].
  assert (G : forall x, x <= ((1 + u) ^ (2 + n) - 1) * labs l + INR n * (2 * eta * (1 + u)) * (1 + u) ^ n -> x <= (INR n + 2) * u * (4097 / 4096) * labs l + 2 * (INR n * eta) * (1025 / 1024)).
  { intros x Hx. assert (0 <= INR n * eta) by nra. assert (INR n * (2 * eta * (1 + u)) * (1 + u) ^ n = 2 * (INR n * eta) * ((1 + u) ^ n * (1 + u))) by ring. assert (2 * (INR n * eta) * ((1 + u) ^ n * (1 + u)) <= 2 * (INR n * eta) * (1025 / 1024)) by (apply Rmult_le_compat_l; lra). assert (((1 + u) ^ (2 + n) - 1) * labs l <= (INR n + 2) * u * (4097 / 4096) * labs l) by (apply Rmult_le_compat_r; lra). lra. }
  apply G in H1. apply G in H2.
  eapply Rle_trans; [apply cmod_comp with (M := (INR n + 2) * u * (4097 / 4096) * labs l + 2 * (INR n * eta) * (1025 / 1024)); [exact H1|exact H2]|].
  assert (0 <= (INR n + 2) * u * labs l) by (apply Rmult_le_pos; nra). assert (0 <= INR n * eta) by nra. nra.
Qed.
End Sum.
