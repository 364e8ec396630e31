(** C52 in double precision: the Akima spline at and between its training points. *)
From Coq Require Import Reals Psatz.
From Flocq Require Import Core.Core IEEE754.BinarySingleNaN Relative Plus_error.
From Verif Require Import Base Num IntProofs FloatLemmas Optim Hooke PropHooke DblOrder Dsp Spline PropSpline RoundError.
Local Open Scope list_scope.
Local Open Scope R_scope.
Notation V := (@B2R dprec demax).
Notation pow2 e := (bpow radix2 e).

#[local] Instance prec53s : Prec_gt_0 53.
Proof. reflexivity. Qed.

(** ** Ranges *)
Definition bnd (e : Z) (x : dbl) : Prop := fin x /\ Rabs (V x) <= pow2 e.
Lemma bnd_weak a b x : bnd a x -> (a <= b)%Z -> bnd b x.
Proof. intros [F H] L. split; [exact F|]. eapply Rle_trans; [exact H|apply bpow_le; exact L]. Qed.
Lemma pow2_S e : pow2 (e + 1) = pow2 e + pow2 e.
Proof. rewrite bpow_plus. replace (pow2 1) with 2 by reflexivity. ring. Qed.
Lemma bnd_rnd e r : (-1000 <= e <= 1022)%Z -> Rabs r <= pow2 e -> Rabs (rnd64 r) < pow2 1024 /\ Rabs (rnd64 r) <= pow2 e.
Proof.
  intros He H. assert (B : Rabs (rnd64 r) <= pow2 e) by (apply rnd_bound; [lia|exact H]). split; [|exact B]. eapply Rle_lt_trans; [exact B|apply bpow_lt; lia].
Qed.
Lemma bnd_mul a b x y : bnd a x -> bnd b y -> (-1000 <= a + b <= 1022)%Z -> bnd (a + b) (d_mul x y).
Proof.
  intros [Fx Hx] [Fy Hy] L. assert (P : Rabs (V x * V y) <= pow2 (a + b)) by (rewrite Rabs_mult, bpow_plus; apply Rmult_le_compat; auto using Rabs_pos).
  destruct (bnd_rnd _ _ L P) as [A B]. destruct (d_mul_finite x y Fx Fy A) as [F E]. split; [exact F|]. rewrite E. exact B.
Qed.
Lemma bnd_add e x y : bnd e x -> bnd e y -> (-1001 <= e <= 1021)%Z -> bnd (e + 1) (d_add x y).
Proof.
  intros [Fx Hx] [Fy Hy] L. assert (P : Rabs (V x + V y) <= pow2 (e + 1)) by (rewrite pow2_S; eapply Rle_trans; [apply Rabs_triang|lra]).
  destruct (bnd_rnd (e + 1) _ ltac:(lia) P) as [A B]. destruct (d_add_finite x y Fx Fy A) as [F E]. split; [exact F|]. rewrite E. exact B.
Qed.
Lemma bnd_sub e x y : bnd e x -> bnd e y -> (-1001 <= e <= 1021)%Z -> bnd (e + 1) (d_sub x y).
Proof.
  intros [Fx Hx] [Fy Hy] L.
  assert (P : Rabs (V x - V y) <= pow2 (e + 1)) by (rewrite pow2_S; unfold Rminus; eapply Rle_trans; [apply Rabs_triang|rewrite Rabs_Ropp; lra]).
  destruct (bnd_rnd (e + 1) _ ltac:(lia) P) as [A B]. destruct (d_sub_finite x y Fx Fy A) as [F E]. split; [exact F|]. rewrite E. exact B.
Qed.
Lemma bnd_div a b x y : bnd a x -> pow2 b <= Rabs (V y) -> (-1000 <= a - b <= 1022)%Z -> bnd (a - b) (d_div x y).
Proof.
  intros [Fx Hx] Hy L. pose proof (bpow_gt_0 radix2 b) as Pb. assert (Ny : V y <> 0) by (intro E; rewrite E, Rabs_R0 in Hy; lra).
  assert (P : Rabs (V x / V y) <= pow2 (a - b)).
  { unfold Rdiv, Zminus. rewrite Rabs_mult, bpow_plus, Rabs_inv, bpow_opp. apply Rmult_le_compat; auto using Rabs_pos.
    - left. apply Rinv_0_lt_compat. apply Rabs_pos_lt. exact Ny.
    - apply Rinv_le_contravar; assumption. }
  destruct (bnd_rnd _ _ L P) as [A B]. destruct (d_div_finite x y Fx Ny A) as [F E]. split; [exact F|]. rewrite E. exact B.
Qed.
Lemma bnd_Z z e : (Z.abs z <= 2 ^ 53)%Z -> IZR (Z.abs z) <= pow2 e -> bnd e (d_ofZ z).
Proof. intros H B. destruct (d_ofZ_exact z H) as [F E]. split; [exact F|]. rewrite E, <- abs_IZR. exact B. Qed.
Lemma abs_fin x : fin x -> fin (Babs x) /\ V (Babs x) = Rabs (V x).
Proof. intro F. unfold fin. rewrite is_finite_Babs, B2R_Babs. auto. Qed.

(** *** The weighted mean of CalculateSlopes stays between -2K and 2K when the quotients are between -K and K *)
Lemma scale_fmt x k : (0 <= k)%Z -> fmt64 x -> fmt64 (x * pow2 k).
Proof.
  intros Hk F. destruct (Req_dec x 0) as [->|N]; [rewrite Rmult_0_l; apply generic_format_0|].
  apply generic_format_FLT. apply FLT_format_generic in F; [|exact prec53s]. destruct F as [f E M0 M1].
  exists (Float radix2 (Fnum f) (Fexp f + k)); cbn [Fnum Fexp]; [|exact M0|lia].
  rewrite E. unfold F2R. cbn [Fnum Fexp]. rewrite bpow_plus. ring.
Qed.
Lemma weighted k (m1 m2 a b : dbl) : (0 <= k <= 400)%Z -> bnd k m1 -> bnd k m2 -> bnd 600 a -> bnd 600 b -> 0 <= V a -> 0 <= V b ->
  V (d_add a b) <> 0 -> bnd (k + 1) (d_div (d_add (d_mul m1 a) (d_mul m2 b)) (d_add a b)).
Proof.
  intros Hk B1 B2 Ba Bb Pa Pb N.
  assert (Pr : forall m x, bnd k m -> bnd 600 x -> 0 <= V x -> fin (d_mul m x) /\ Rabs (V (d_mul m x)) <= V x * pow2 k).
  { intros m x [Fm Hm] Bx Px. pose proof (bnd_mul k 600 m x (conj Fm Hm) Bx ltac:(lia)) as [F _]. split; [exact F|].
    destruct Bx as [Fx Hx]. assert (Q : Rabs (V m * V x) <= V x * pow2 k) by (rewrite Rabs_mult, (Rabs_pos_eq (V x)), Rmult_comm by exact Px; apply Rmult_le_compat_l; assumption).
    assert (E : V (d_mul m x) = rnd64 (V m * V x)).
    { apply d_mul_finite; try assumption. apply (bnd_rnd (k + 600)); [lia|]. rewrite Rabs_mult, bpow_plus. apply Rmult_le_compat; auto using Rabs_pos. }
    rewrite E. assert (G : fmt64 (V x * pow2 k)) by (apply scale_fmt; [lia|apply fmt_dbl]).
    apply Rabs_le. apply Rabs_le_inv in Q. split; [apply rnd_ge_fmt; [lra|apply generic_format_opp; exact G]|apply rnd_le_fmt; [lra|exact G]]. }
  destruct (Pr m1 a B1 Ba Pa) as [F1 H1]. destruct (Pr m2 b B2 Bb Pb) as [F2 H2].
  pose proof (bnd_mul k 600 m1 a B1 Ba ltac:(lia)) as C1. pose proof (bnd_mul k 600 m2 b B2 Bb ltac:(lia)) as C2.
  pose proof (bnd_add (k + 600) _ _ C1 C2 ltac:(lia)) as [Fn _].
  pose proof (bnd_add 600 a b Ba Bb ltac:(lia)) as [Fd _].
  assert (En : Rabs (V (d_add (d_mul m1 a) (d_mul m2 b)) - (V (d_mul m1 a) + V (d_mul m2 b))) <= u * Rabs (V (d_mul m1 a) + V (d_mul m2 b))).
  { apply add_error; try assumption. destruct C1 as [_ C1], C2 as [_ C2]. eapply Rle_trans; [apply Rabs_triang|]. eapply Rle_trans; [apply Rplus_le_compat; eassumption|]. rewrite <- pow2_S. apply bpow_le. lia. }
  assert (Ed : Rabs (V (d_add a b) - (V a + V b)) <= u * Rabs (V a + V b)).
  { destruct Ba as [Fa Ba], Bb as [Fb Bb]. apply add_error; try assumption. eapply Rle_trans; [apply Rabs_triang|]. eapply Rle_trans; [apply Rplus_le_compat; eassumption|]. rewrite <- pow2_S. apply bpow_le. lia. }
  set (nm := d_add (d_mul m1 a) (d_mul m2 b)) in *. set (d := d_add a b) in *. set (p := V (d_mul m1 a)) in *. set (q := V (d_mul m2 b)) in *.
  pose proof u_pos as U0. pose proof u_small as U1. pose proof (bpow_gt_0 radix2 k) as K. set (kk := pow2 k) in *.
  assert (S : Rabs (p + q) <= (V a + V b) * kk) by (eapply Rle_trans; [apply Rabs_triang|]; lra).
  rewrite (Rabs_pos_eq (V a + V b)) in Ed by lra. apply Rabs_le_inv in Ed.
  assert (ab : 0 < V a + V b). { destruct (Rle_lt_dec (V a + V b) 0) as [Z|Z]; [|exact Z]. exfalso. apply N. assert (V a + V b = 0) by lra. rewrite H in Ed. lra. }
  set (t := V a + V b) in *. assert (Hu : u * t <= t / 1024) by (unfold Rdiv; rewrite (Rmult_comm t); apply Rmult_le_compat_r; lra).
  assert (D : 1023 / 1024 * t <= V d) by lra.
  assert (Nm : Rabs (V nm) <= 1025 / 1024 * (t * kk)).
  { replace (V nm) with ((V nm - (p + q)) + (p + q)) by ring. eapply Rle_trans; [apply Rabs_triang|].
    assert (u * Rabs (p + q) <= / 1024 * (t * kk)) by (apply Rmult_le_compat; auto using Rabs_pos; lra). lra. }
  assert (Q : Rabs (V nm / V d) <= pow2 (k + 1)).
  { rewrite pow2_S. fold kk. unfold Rdiv. rewrite Rabs_mult, Rabs_inv, (Rabs_pos_eq (V d)) by lra. apply (Rmult_le_reg_r (V d)); [lra|].
    rewrite Rmult_assoc, Rinv_l, Rmult_1_r by lra. eapply Rle_trans; [exact Nm|]. apply Rle_trans with ((kk + kk) * (1023 / 1024 * t)); [|apply Rmult_le_compat_l; lra].
    pose proof (Rmult_lt_0_compat _ _ ab K). lra. }
  destruct (bnd_rnd (k + 1) _ ltac:(lia) Q) as [A B]. destruct (d_div_finite nm d Fn ltac:(lra) A) as [F E]. split; [exact F|]. rewrite E. exact B.
Qed.

(** ** Training data *)
(** Points and values of moderate size, the points increasing by at least 2^-100. *)
Definition tame (xs ys : list dbl) : Prop :=
  (forall x, In x xs -> is_finite x = true /\ Rabs (V x) <= pow2 100) /\ (forall y, In y ys -> is_finite y = true /\ Rabs (V y) <= pow2 100) /\
  forall i a b, nth_error xs i = Some a -> nth_error xs (S i) = Some b -> V a + pow2 (-100) <= V b.

Lemma two_bnd : bnd 1 (d_ofZ 2). Proof. apply bnd_Z; [cbn; lia|]. cbn. lra. Qed.
Lemma three_bnd : bnd 2 (d_ofZ 3). Proof. apply bnd_Z; [cbn; lia|]. cbn. lra. Qed.
Definition cubic_bnd (c : cubic FMath) : Prop := bnd 100 (q0 FMath c) /\ bnd 205 (q1 FMath c) /\ bnd 308 (q2 FMath c) /\ bnd 407 (q3 FMath c).
Lemma square_bnd h : bnd 101 h -> pow2 (-100) <= V h -> pow2 (-200) <= Rabs (V (d_mul h h)).
Proof.
  intros B L. pose proof (bnd_mul 101 101 h h B B ltac:(lia)) as [F _]. destruct B as [Fh Bh].
  assert (E : V (d_mul h h) = rnd64 (V h * V h)).
  { apply d_mul_finite; try assumption. apply (bnd_rnd (101 + 101)); [lia|]. rewrite Rabs_mult, bpow_plus. apply Rmult_le_compat; auto using Rabs_pos. }
  rewrite E. eapply Rle_trans; [|apply Rle_abs]. apply rnd_ge_fmt; [|apply generic_format_bpow'; [typeclasses eauto|unfold FLT_exp; lia]].
  change (-200)%Z with (-100 + -100)%Z. rewrite bpow_plus. apply Rmult_le_compat; auto; apply bpow_ge_0.
Qed.
Lemma bounds_V (x : dbl) : is_finite x = true -> forall l : list dbl, (forall t, In t l -> is_finite t = true) ->
  upper_bound FMath x l = upper_bound RMath (V x) (map V l) /\ lower_bound FMath x l = lower_bound RMath (V x) (map V l).
Proof.
  intros Fx. assert (L : forall a b : dbl, is_finite a = true -> is_finite b = true -> d_ltb a b = R_ltb (V a) (V b)).
  { intros a b Fa Fb. pose proof (d_ltb_R a b Fa Fb) as K. pose proof (R_ltb_true (V a) (V b)) as K'. destruct (d_ltb a b), (R_ltb (V a) (V b)); try reflexivity; [symmetry; apply K', K; reflexivity|apply K, K'; reflexivity]. }
  induction l as [|t r IH]; intro H; [split; reflexivity|]. destruct IH as [A B]; [intros; apply H; right; assumption|].
  cbn [upper_bound lower_bound map]. change (n_ltb FMath x t) with (d_ltb x t). change (n_ltb FMath t x) with (d_ltb t x).
  change (n_ltb RMath (V x) (V t)) with (R_ltb (V x) (V t)). change (n_ltb RMath (V t) (V x)) with (R_ltb (V t) (V x)).
  rewrite !L by (try exact Fx; apply H; left; reflexivity). rewrite A, B. split; reflexivity.
Qed.
Lemma nth_map {A B} (f : A -> B) l i b : nth_error (map f l) i = Some b -> exists a, nth_error l i = Some a /\ f a = b.
Proof. rewrite nth_error_map. destruct (nth_error l i) as [a|]; [|discriminate]. intro H. injection H as <-. eauto. Qed.
Lemma eval_fin c t : cubic_bnd c -> bnd 101 t -> is_finite (eval FMath c t) = true.
Proof.
  intros (A & B & C & D) T. unfold eval. cbn [n_add n_mul FMath m_num FNum].
  pose proof (bnd_mul 101 101 t t T T ltac:(lia)) as T2. pose proof (bnd_mul _ 101 _ t T2 T ltac:(lia)) as T3.
  pose proof (bnd_mul 205 101 _ t B T ltac:(lia)) as P1. pose proof (bnd_mul 308 _ _ _ C T2 ltac:(lia)) as P2. pose proof (bnd_mul 407 _ _ _ D T3 ltac:(lia)) as P3.
  apply (bnd_weak _ 800) in A; [|lia]. apply (bnd_weak _ 800) in P1; [|lia]. apply (bnd_weak _ 801) in P2; [|lia]. apply (bnd_weak _ 802) in P3; [|lia].
  pose proof (bnd_add 800 _ _ A P1 ltac:(lia)) as S1. pose proof (bnd_add 801 _ _ S1 P2 ltac:(lia)) as S2. pose proof (bnd_add 802 _ _ S2 P3 ltac:(lia)) as S3. apply S3.
Qed.
Lemma eval_0 c t : cubic_bnd c -> is_finite t = true -> V t = 0 -> is_finite (eval FMath c t) = true /\ V (eval FMath c t) = V (q0 FMath c).
Proof.
  intros Hc Ft Zt. assert (T : bnd 101 t) by (split; [exact Ft|rewrite Zt, Rabs_R0; apply bpow_ge_0]). split; [apply eval_fin; assumption|].
  destruct Hc as (A & B & C & D). unfold eval. cbn [n_add n_mul FMath m_num FNum].
  assert (M : forall x y e, bnd e x -> is_finite y = true -> V y = 0 -> is_finite (d_mul x y) = true /\ V (d_mul x y) = 0).
  { intros x y e [Fx _] Fy Zy. destruct (d_mul_finite x y Fx Fy) as [F E]; [rewrite Zy, Rmult_0_r, rnd_0, Rabs_R0; apply bpow_gt_0|]. split; [exact F|]. rewrite E, Zy, Rmult_0_r. apply rnd_0. }
  assert (S : forall x y, is_finite x = true -> is_finite y = true -> V y = 0 -> is_finite (d_add x y) = true /\ V (d_add x y) = V x).
  { intros x y Fx Fy Zy. destruct (d_add_finite x y Fx Fy) as [F E]; [rewrite Zy, Rplus_0_r, (rnd_id _ (fmt_dbl x)); apply dbl_lt_max|]. split; [exact F|]. rewrite E, Zy, Rplus_0_r. apply rnd_id, fmt_dbl. }
  destruct (M t t 101%Z T Ft Zt) as [F2 Z2]. assert (T2 : bnd 0 (d_mul t t)) by (split; [exact F2|rewrite Z2, Rabs_R0; apply bpow_ge_0]).
  destruct (M _ t 0%Z T2 Ft Zt) as [F3 Z3]. destruct (M _ _ _ B Ft Zt) as [G1 Y1]. destruct (M _ _ _ C F2 Z2) as [G2 Y2]. destruct (M _ _ _ D F3 Z3) as [G3 Y3].
  destruct (S _ _ (proj1 A) G1 Y1) as [H1 E1]. destruct (S _ _ H1 G2 Y2) as [H2 E2]. destruct (S _ _ H2 G3 Y3) as [H3 E3]. rewrite E3, E2, E1. reflexivity.
Qed.
Lemma self_sub x : is_finite x = true -> is_finite (d_sub x x) = true /\ V (d_sub x x) = 0.
Proof.
  intro F. destruct (d_sub_finite x x F F) as [G E]; [replace (V x - V x) with 0 by ring; rewrite rnd_0, Rabs_R0; apply bpow_gt_0|].
  split; [exact G|]. rewrite E. replace (V x - V x) with 0 by ring. apply rnd_0.
Qed.

Section Data.
Variables xs ys : list dbl.
Hypothesis Ht : tame xs ys.

Lemma x_bnd i x : nth_error xs i = Some x -> bnd 100 x.
Proof. intro H. destruct Ht as (A & _ & _). destruct (A x (nth_error_In _ _ H)). split; assumption. Qed.
Lemma y_bnd i x : nth_error ys i = Some x -> bnd 100 x.
Proof. intro H. destruct Ht as (_ & A & _). destruct (A x (nth_error_In _ _ H)). split; assumption. Qed.
Lemma step_bnd i a b : nth_error xs i = Some a -> nth_error xs (S i) = Some b -> bnd 101 (d_sub b a) /\ pow2 (-100) <= V (d_sub b a).
Proof.
  intros Ha Hb. pose proof (bnd_sub 100 b a (x_bnd _ _ Hb) (x_bnd _ _ Ha) ltac:(lia)) as B. split; [exact B|].
  destruct Ht as (_ & _ & S). specialize (S i a b Ha Hb). rewrite (d_sub_finite_inv b a); [|apply (x_bnd _ _ Hb)|apply (x_bnd _ _ Ha)|apply B].
  apply rnd_ge_fmt; [lra|]. apply generic_format_bpow'; [typeclasses eauto|]. unfold FLT_exp. lia.
Qed.
Lemma quotient_bnd i q : quotient FMath xs ys i = Ok q -> bnd 201 q.
Proof.
  unfold quotient, at_. change (num FMath) with dbl. destruct (nth_error ys (S i)) as [y1|] eqn:Y1; [|discriminate]. destruct (nth_error ys i) as [y0|] eqn:Y0; [|discriminate].
  destruct (nth_error xs (S i)) as [x1|] eqn:X1; [|discriminate]. destruct (nth_error xs i) as [x0|] eqn:X0; [|discriminate]. cbn [bind].
  intro H. injection H as <-. destruct (step_bnd i x0 x1 X0 X1) as [_ L]. change (bnd (101 - (-100)) (d_div (d_sub y1 y0) (d_sub x1 x0))).
  apply bnd_div; [apply (bnd_sub 100); [apply (y_bnd _ _ Y1)|apply (y_bnd _ _ Y0)|lia]| |lia]. eapply Rle_trans; [exact L|apply Rle_abs].
Qed.
Lemma resolve_V (x : dbl) : is_finite x = true -> resolve_interval FMath xs x = resolve_interval RMath (map V xs) (V x).
Proof.
  intro Fx. unfold resolve_interval. destruct (bounds_V x Fx xs) as [A B]; [intros t Hi; destruct Ht as (K & _); apply (K t Hi)|].
  rewrite map_length. rewrite <- A, <- B. reflexivity.
Qed.
Lemma V_increasing : increasing (map V xs).
Proof.
  intros i a b Ha Hb. apply nth_map in Ha as (p & P & <-). apply nth_map in Hb as (q & Q & <-).
  destruct Ht as (_ & _ & S). pose proof (S i p q P Q). pose proof (bpow_gt_0 radix2 (-100)). lra.
Qed.
Hypothesis Hlen : (5 <= length xs)%nat.
Hypothesis Hys : length ys = length xs.
Lemma m_bnd (m : list dbl) : calculate_m FMath xs ys = Ok m -> forall i (v : dbl), nth_error m i = Some v -> bnd 204 v.
Proof.
  intros E. destruct (calculate_m_ok FMath xs ys Hys Hlen) as (mid & m2 & m3 & e & e' & Em & Lm & N2 & N3 & Ne & Ne' & E').
  assert (Q : forall i q, nth_error mid i = Some q -> bnd 201 q) by (intros i q Hq; apply (mapM_seq_nth _ _ _ _ _ Em) in Hq as [_ Hq]; exact (quotient_bnd _ _ Hq)).
  pose proof (eq_trans (eq_sym E) E') as EE. injection EE as ->. apply Q in N2, N3, Ne, Ne'. pose proof two_bnd as B2. pose proof three_bnd as B3.
  assert (T : forall x, bnd 201 x -> bnd 203 (d_mul (d_ofZ 3) x)) by (intros x Bx; apply (bnd_mul 2 201); [exact B3|exact Bx|lia]).
  assert (D : forall x, bnd 201 x -> bnd 203 (d_mul (d_ofZ 2) x)) by (intros x Bx; apply (bnd_weak (1 + 201)); [apply bnd_mul; [exact B2|exact Bx|lia]|lia]).
  assert (W : forall x, bnd 201 x -> bnd 203 x) by (intros x Bx; apply (bnd_weak 201); [exact Bx|lia]).
  assert (G : forall x y, bnd 203 x -> bnd 203 y -> bnd 204 (d_sub x y)) by (intros x y Bx By; apply (bnd_sub 203); [exact Bx|exact By|lia]).
  intros i v Hv. apply nth_error_In in Hv. cbn [In] in Hv. rewrite in_app_iff in Hv. cbn [In] in Hv.
  destruct Hv as [<-|[<-|[Hv|[<-|[<-|[]]]]]]; try (apply G; first [apply T; assumption|apply D; assumption|apply W; assumption]).
  apply In_nth_error in Hv as (j & Hj). apply Q in Hj. apply (bnd_weak 201); [exact Hj|lia].
Qed.
Lemma slope_bnd (m : list dbl) i (v : dbl) : calculate_m FMath xs ys = Ok m -> slope FMath m i = Ok v -> bnd 205 v.
Proof.
  intros Em. pose proof (m_bnd m Em) as B. unfold slope, at_. change (num FMath) with dbl.
  destruct (nth_error m i) as [m0|] eqn:E0; [|discriminate]. destruct (nth_error m (i + 1)) as [m1|] eqn:E1; [|discriminate].
  destruct (nth_error m (i + 2)) as [m2|] eqn:E2; [|discriminate]. destruct (nth_error m (i + 3)) as [m3|] eqn:E3; [|discriminate]. cbn [bind].
  apply B in E0, E1, E2, E3. intro H.
  assert (H' : v = (if d_eqb (d_add (Babs (d_sub m3 m2)) (Babs (d_sub m1 m0))) (d_ofZ 0) then d_mul (d_div (d_ofZ 1) (d_ofZ 2)) (d_add m1 m2)
                    else d_div (d_add (d_mul m1 (Babs (d_sub m3 m2))) (d_mul m2 (Babs (d_sub m1 m0)))) (d_add (Babs (d_sub m3 m2)) (Babs (d_sub m1 m0))))).
  { apply (f_equal (fun o : outcome dbl => match o with Ok w => w | _ => v end)) in H. symmetry. exact H. }
  clear H. rewrite H'. clear H'.
  pose proof (bnd_sub 204 m3 m2 E3 E2 ltac:(lia)) as D32. pose proof (bnd_sub 204 m1 m0 E1 E0 ltac:(lia)) as D10.
  change (204 + 1)%Z with 205%Z in *. destruct D32 as [F32 B32], D10 as [F10 B10]. destruct (abs_fin _ F32) as [G32 A32]. destruct (abs_fin _ F10) as [G10 A10].
  assert (C32 : bnd 205 (Babs (d_sub m3 m2))) by (split; [exact G32|rewrite A32, Rabs_Rabsolu; exact B32]).
  assert (C10 : bnd 205 (Babs (d_sub m1 m0))) by (split; [exact G10|rewrite A10, Rabs_Rabsolu; exact B10]).
  set (a := Babs (d_sub m3 m2)) in *. set (b := Babs (d_sub m1 m0)) in *.
  destruct (d_eqb (d_add a b) (d_ofZ 0)) eqn:Z.
  - assert (H1 : bnd 0 (d_div (d_ofZ 1) (d_ofZ 2))).
    { apply (bnd_weak (0 - 1)); [|lia]. apply bnd_div; [apply bnd_Z; [cbn; lia|cbn; lra]| |lia]. destruct (d_ofZ_exact 2 ltac:(cbn; lia)) as [_ ->]. cbn. rewrite Rabs_pos_eq; lra. }
    apply (bnd_mul 0 205); [exact H1| |lia]. apply (bnd_add 204); [exact E1|exact E2|lia].
  - apply (weighted 204); [lia|exact E1|exact E2|apply (bnd_weak 205); [exact C32|lia]|apply (bnd_weak 205); [exact C10|lia]|rewrite A32; apply Rabs_pos|rewrite A10; apply Rabs_pos|].
    intro E. pose proof (bnd_add 205 a b C32 C10 ltac:(lia)) as [Fs _]. destruct (d_ofZ_exact 0 ltac:(cbn; lia)) as [F0 V0].
    assert (T : d_eqb (d_add a b) (d_ofZ 0) = true); [|congruence]. unfold d_eqb. rewrite (Beqb_correct dprec demax _ _ Fs F0), E, V0. apply Req_bool_true. reflexivity.
Qed.
Lemma piece_bnd (m s : list dbl) i c : calculate_m FMath xs ys = Ok m -> calculate_slopes FMath (length xs) m = Ok s -> piece FMath xs ys s i = Ok c -> cubic_bnd c.
Proof.
  intros Em Es. assert (SB : forall k v, nth_error s k = Some v -> bnd 205 v) by (intros k v Hv; apply (mapM_seq_nth _ _ _ _ _ Es) in Hv as [_ Hv]; exact (slope_bnd m k v Em Hv)).
  unfold piece, at_. change (num FMath) with dbl. destruct (nth_error ys i) as [y0|] eqn:Y0; [|discriminate]. destruct (nth_error ys (S i)) as [y1|] eqn:Y1; [|discriminate].
  destruct (nth_error xs i) as [x0|] eqn:X0; [|discriminate]. destruct (nth_error xs (S i)) as [x1|] eqn:X1; [|discriminate].
  destruct (nth_error s i) as [s0|] eqn:S0; [|discriminate]. destruct (nth_error s (S i)) as [s1|] eqn:S1; [|discriminate]. cbn [bind]. intro H.
  assert (H' : c = Cubic FMath y0 s0 (d_div (d_sub (d_sub (d_div (d_mul (d_ofZ 3) (d_sub y1 y0)) (d_sub x1 x0)) (d_mul (d_ofZ 2) s0)) s1) (d_sub x1 x0))
    (d_div (d_sub (d_add s1 s0) (d_div (d_mul (d_ofZ 2) (d_sub y1 y0)) (d_sub x1 x0))) (d_mul (d_sub x1 x0) (d_sub x1 x0)))).
  { apply (f_equal (fun o => match o with Ok w => w | _ => c end)) in H. symmetry. exact H. }
  clear H. rewrite H'. clear H'. unfold cubic_bnd. cbn [q0 q1 q2 q3].
  apply SB in S0, S1. destruct (step_bnd i x0 x1 X0 X1) as [Bh Lh]. apply y_bnd in Y0, Y1.
  set (h := d_sub x1 x0) in *. assert (Lh' : pow2 (-100) <= Rabs (V h)) by (eapply Rle_trans; [exact Lh|apply Rle_abs]).
  pose proof (square_bnd h Bh Lh) as Lhh. pose proof (bnd_sub 100 y1 y0 Y1 Y0 ltac:(lia)) as Bd. change (100 + 1)%Z with 101%Z in Bd. set (d := d_sub y1 y0) in *.
  pose proof two_bnd as B2. pose proof three_bnd as B3.
  split; [exact Y0|]. split; [exact S0|]. split.
  - change 308%Z with (208 - (-100))%Z. apply bnd_div; [|exact Lh'|lia]. change 208%Z with (207 + 1)%Z. apply bnd_sub; [|apply (bnd_weak 205); [exact S1|lia]|lia].
    change 207%Z with (206 + 1)%Z. apply bnd_sub; [|change 206%Z with (1 + 205)%Z; apply bnd_mul; [exact B2|exact S0|lia]|lia].
    apply (bnd_weak (103 - (-100))); [|lia]. apply bnd_div; [|exact Lh'|lia]. change 103%Z with (2 + 101)%Z. apply bnd_mul; [exact B3|exact Bd|lia].
  - change 407%Z with (207 - (-200))%Z. apply bnd_div; [|exact Lhh|lia]. change 207%Z with (206 + 1)%Z. apply bnd_sub; [| |lia].
    + change 206%Z with (205 + 1)%Z. apply bnd_add; [exact S1|exact S0|lia].
    + apply (bnd_weak (102 - (-100))); [|lia]. apply bnd_div; [|exact Lh'|lia]. change 102%Z with (1 + 101)%Z. apply bnd_mul; [exact B2|exact Bd|lia].
Qed.

(** *** The object *)
Variables old s : spline FMath.
Hypothesis Hinit : initialize FMath old xs ys = (s, Ok tt).
Lemma f_fields : s_x FMath s = xs /\ exists m sl : list dbl, calculate_m FMath xs ys = Ok m /\ calculate_slopes FMath (length xs) m = Ok sl /\ length sl = length xs /\
  forall i, (i < length xs - 1)%nat -> exists c, nth_error (s_coeffs FMath s) i = Some c /\ piece FMath xs ys sl i = Ok c /\ cubic_bnd c.
Proof.
  destruct (reestimate_ok FMath xs ys Hys Hlen) as (m & sl & c & Em & Lm & Es & Ls & Er & Ec & Lc).
  unfold initialize in Hinit. change (num FMath) with dbl in *.
  destruct (Nat.ltb_spec (length xs) 5); [lia|]. destruct (Nat.ltb_spec (length ys) 5); [lia|]. cbn [orb] in Hinit. rewrite Hys, Nat.eqb_refl in Hinit. cbn [negb] in Hinit.
  rewrite Er in Hinit. injection Hinit as <-. cbn [s_x s_coeffs]. split; [reflexivity|]. exists m, sl. split; [exact Em|]. split; [exact Es|]. split; [exact Ls|].
  intros i Hi. destruct (nth_error c i) as [q|] eqn:Q; [|apply nth_error_None in Q; lia]. exists q. split; [reflexivity|].
  apply (mapM_seq_nth _ _ _ _ _ Ec) in Q as [_ Q]. split; [exact Q|]. exact (piece_bnd m sl i q Em Es Q).
Qed.
Lemma knot_resolved i : (i < length xs - 1)%nat -> forall x, nth_error xs i = Some x -> resolve_interval FMath xs x = Ok i.
Proof.
  intros Hi x Hx. pose proof (x_bnd _ _ Hx) as [Fx _]. rewrite (resolve_V x Fx).
  assert (Vx : forall j y, nth_error xs j = Some y -> nth j (map V xs) 0 = V y) by (intros j y Hy; apply nth_error_nth; apply map_nth_error; exact Hy).
  pose proof V_increasing as Inc. assert (Lm : length (map V xs) = length xs) by apply map_length.
  assert (L : (5 <= length (map V xs))%nat) by (rewrite Lm; exact Hlen).
  unfold resolve_interval. change (num RMath) with R. destruct (upper_spec (map V xs) (map V xs) L eq_refl (V x) (map V xs)) as (U1 & U2 & U3). set (k := upper_bound RMath (V x) (map V xs)) in *.
  assert (K : k = S i).
  { destruct (Nat.lt_trichotomy k (S i)) as [T|[T|T]]; [|exact T|]; exfalso.
    - specialize (U3 ltac:(rewrite Lm; lia)). pose proof (X_le (map V xs) (map V xs) L eq_refl Inc k i ltac:(lia) ltac:(rewrite Lm; lia)) as Q. cbv beta in Q. rewrite (Vx i x Hx) in Q. lra.
    - specialize (U1 (S i) T). pose proof (X_step (map V xs) (map V xs) L eq_refl Inc i ltac:(rewrite Lm; lia)) as Q. cbv beta in Q. rewrite (Vx i x Hx) in Q. lra. }
  rewrite K, Lm. destruct (Nat.eqb_spec (S i) (length xs)); [lia|]. reflexivity.
Qed.
End Data.

(** ** C52 in double precision. For moderate training data, whatever the object held before: at every training point but the last one the
    spline takes the training value, exactly; everywhere between the first and the last point its value is a finite double; outside it throws
    out_of_range. *)
Theorem C52_binary64 : forall (old s : spline FMath) (xs ys : list dbl), (5 <= length xs)%nat -> length ys = length xs -> tame xs ys ->
  initialize FMath old xs ys = (s, Ok tt) ->
  (forall i x y, (S i < length xs)%nat -> nth_error xs i = Some x -> nth_error ys i = Some y ->
     exists v : dbl, value FMath s x = Ok v /\ is_finite v = true /\ V v = V y) /\
  (forall x : dbl, is_finite x = true -> V (nth 0 xs d_nan) <= V x <= V (nth (length xs - 1) xs d_nan) ->
     exists v : dbl, value FMath s x = Ok v /\ is_finite v = true) /\
  (forall x : dbl, is_finite x = true -> V x < V (nth 0 xs d_nan) \/ V (nth (length xs - 1) xs d_nan) < V x -> value FMath s x = Throw OutOfRange).
Proof.
  intros old s xs ys Hlen Hys Ht Hinit. destruct (f_fields xs ys Ht Hlen Hys old s Hinit) as (Ex & m & sl & Em & Es & Ls & Co).
  assert (Vx : forall j, (j < length xs)%nat -> nth j (map V xs) 0 = V (nth j xs d_nan)).
  { intros j Hj. rewrite (nth_indep _ 0 (V d_nan)) by (rewrite map_length; exact Hj). apply map_nth. }
  pose proof (V_increasing xs ys Ht) as Inc. assert (Lm : length (map V xs) = length xs) by apply map_length.
  assert (L : (5 <= length (map V xs))%nat) by (rewrite Lm; exact Hlen).
  split; [|split].
  - intros i x y Hi Hx Hy. destruct (Co i ltac:(lia)) as (c & Nc & Pc & Bc). unfold value. rewrite Ex.
    rewrite (knot_resolved xs ys Ht Hlen Hys i ltac:(lia) x Hx). cbn [bind]. unfold at_. change (num FMath) with dbl. rewrite Hx, Nc. cbn [bind].
    destruct (self_sub x) as [F0 Z0]; [apply (x_bnd xs ys Ht _ _ Hx)|]. destruct (eval_0 c (d_sub x x) Bc F0 Z0) as [F E].
    exists (eval FMath c (d_sub x x)). split; [reflexivity|]. split; [exact F|]. rewrite E. f_equal.
    unfold piece, at_ in Pc. change (num FMath) with dbl in Pc. rewrite Hy in Pc. cbn [bind] in Pc.
    destruct (nth_error ys (S i)); [|discriminate]. destruct (nth_error xs i); [|discriminate]. destruct (nth_error xs (S i)); [|discriminate].
    destruct (nth_error sl i); [|discriminate]. destruct (nth_error sl (S i)); [|discriminate]. cbn [bind] in Pc. injection Pc as <-. reflexivity.
  - intros x Fx Hx. rewrite <- !Vx in Hx by lia. rewrite <- Lm in Hx.
    destruct (resolve_in (map V xs) (map V xs) L eq_refl Inc (V x) Hx) as (i & Ri & Hi & I). rewrite Lm in Hi. destruct (Co i Hi) as (c & Nc & Pc & Bc).
    unfold value. rewrite Ex, (resolve_V xs ys Ht x Fx), Ri. cbn [bind]. unfold at_. change (num FMath) with dbl.
    destruct (nth_error xs i) as [t|] eqn:Nt; [|apply nth_error_None in Nt; lia]. rewrite Nc. cbn [bind]. eexists. split; [reflexivity|]. apply eval_fin; [exact Bc|].
    destruct (nth_error xs (S i)) as [t1|] eqn:N1; [|apply nth_error_None in N1; lia].
    assert (B : bnd 100 x).
    { split; [exact Fx|]. rewrite !Vx in I by lia. rewrite (nth_error_nth _ _ _ Nt), (nth_error_nth _ _ _ N1) in I.
      destruct (x_bnd xs ys Ht _ _ Nt) as [_ K0]. destruct (x_bnd xs ys Ht _ _ N1) as [_ K1]. apply Rabs_le_inv in K0. apply Rabs_le_inv in K1. apply Rabs_le. lra. }
    apply (bnd_sub 100); [exact B|apply (x_bnd xs ys Ht _ _ Nt)|lia].
  - intros x Fx Hx. rewrite <- !Vx in Hx by lia. rewrite <- Lm in Hx.
    unfold value. rewrite Ex, (resolve_V xs ys Ht x Fx), (resolve_out (map V xs) (map V xs) L eq_refl Inc (V x) Hx). reflexivity.
Qed.
Print Assumptions C52_binary64.
