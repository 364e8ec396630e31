(** C65: the analytic wavelet functions. *)
From Coq Require Import Reals Lra Psatz Ratan.
From Coquelicot Require Import Coquelicot.
From Verif Require Import Base Num Optim Dsp Spline Analytic Gauss.
Local Open Scope R_scope.

(** ** Specification: the functions written as formulas of analysis *)
(** pow(M_PI, 0.25) without rounding *)
Definition root4pi : R := Rpower PI (1 / 4).
(** the value of MhatWaveletFunction at [t] *)
Definition mhat (t : R) : C := mhat_value RTrig root4pi t.
Definition morlet (t : R) : C := morlet_value RTrig t.
Definition haar (t : R) : C := haar_value RMath t.
(** [f] has the integral [l] over the whole line *)
Definition line (f : R -> R) (l : R) : Prop := is_RInt_gen f (Rbar_locally m_infty) (Rbar_locally p_infty) l.
Definition energy (psi : R -> C) (l : R) : Prop := line (fun t => Cmod (psi t) * Cmod (psi t)) l.

Lemma root4 : root4pi * root4pi = sqrt PI.
Proof. unfold root4pi. rewrite <- Rpower_plus. replace (1 / 4 + 1 / 4) with (/ 2) by field. apply Rpower_sqrt, PI_RGT_0. Qed.
Lemma sqrt9 : sqrt (3 * 3) = 3.
Proof. apply sqrt_square. lra. Qed.

Lemma mhat_form (r t : R) : mhat_value RTrig r t = RtoC (2 / 3 * r * (1 - (t / 3) ^ 2) * exp (- (t / 3) ^ 2 / 2)).
Proof.
  unfold mhat_value, RtoC. f_equal. unfold mhat_real, mhat_k, mhat_sigma. cbn [n_div n_ofZ n_add n_mul n_sub m_sqrt t_exp RTrig t_math RMath m_num RNum].
  match goal with |- ?a = ?b => change (@eq R a b) end. rewrite sqrt9. replace (-1 / 2 * (t / 3 * (t / 3))) with (- (t / 3) ^ 2 / 2) by field. field.
Qed.
(** C65, the Mexican hat: the function computed, its symmetry, its zeros and its bound. *)
Theorem C65_mhat : forall t,
  mhat t = RtoC (2 / 3 * root4pi * (1 - (t / 3) ^ 2) * exp (- (t / 3) ^ 2 / 2)) /\
  mhat (- t) = mhat t /\ (mhat t = RtoC 0 <-> t = 3 \/ t = - 3) /\ Cmod (mhat t) <= Cmod (mhat 0).
Proof.
  assert (F : forall t, mhat t = RtoC (2 / 3 * root4pi * (1 - (t / 3) ^ 2) * exp (- (t / 3) ^ 2 / 2))).
  { intro t. apply mhat_form. }
  assert (P : 0 < root4pi) by apply exp_pos.
  intro t. split; [apply F|]. split; [|split].
  - rewrite !F. f_equal. replace ((- t / 3) ^ 2) with ((t / 3) ^ 2) by field. reflexivity.
  - rewrite F. split.
    + intro Z. apply (f_equal fst) in Z. cbn [RtoC fst] in Z. pose proof (exp_pos (- (t / 3) ^ 2 / 2)) as Q. assert (E : 1 - (t / 3) ^ 2 = 0).
      { apply Rmult_integral in Z. destruct Z as [Z|Z]; [|lra]. apply Rmult_integral in Z. destruct Z as [Z|Z]; [|exact Z]. exfalso. assert (0 < 2 / 3 * root4pi) by (apply Rmult_lt_0_compat; lra). lra. }
      assert (E2 : (t - 3) * (t + 3) = 0) by (replace ((t - 3) * (t + 3)) with (- 9 * (1 - (t / 3) ^ 2)) by field; rewrite E; ring).
      apply Rmult_integral in E2. destruct E2; [left|right]; lra.
    + intros [->| ->]; f_equal; field_simplify; lra.
  - rewrite !F, !Cmod_R. replace (0 / 3) with 0 by field. set (v := (t / 3) ^ 2). assert (V : 0 <= v) by apply pow2_ge_0.
    rewrite !Rabs_mult, !(Rabs_pos_eq (exp _)), (Rabs_pos_eq (2 / 3)), (Rabs_pos_eq root4pi) by (try apply Rlt_le, exp_pos; lra).
    assert (B : Rabs (1 - v) * exp (- v / 2) <= 1).
    { pose proof (exp_ineq1_le (v / 4)) as E. assert (E2 : (1 + v / 4) * (1 + v / 4) <= exp (v / 2)) by (replace (v / 2) with (v / 4 + v / 4) by field; rewrite exp_plus; nra).
      replace (- v / 2) with (- (v / 2)) by field. rewrite exp_Ropp. apply (Rmult_le_reg_r (exp (v / 2))); [apply exp_pos|]. rewrite Rmult_assoc, Rinv_l, Rmult_1_r, Rmult_1_l by apply Rgt_not_eq, exp_pos.
      apply Rle_trans with ((1 + v / 4) * (1 + v / 4)); [|exact E2]. apply Rabs_le. split; nra. }
    apply Rle_trans with (2 / 3 * root4pi * 1); [rewrite (Rmult_assoc (2 / 3 * root4pi)); apply Rmult_le_compat_l; [apply Rmult_le_pos; lra|exact B]|].
    right. replace (- 0 ^ 2 / 2) with 0 by field. rewrite exp_0, (Rabs_pos_eq (1 - 0 ^ 2)) by lra. ring.
Qed.

Lemma mhat_eq t : mhat t = RtoC (2 / 3 * root4pi * (1 - (t / 3) ^ 2) * exp (- (t / 3) ^ 2 / 2)).
Proof. apply C65_mhat. Qed.

(** t^n times a Gaussian vanishes at infinity: from exp y > y^4/... only what is needed. *)
Lemma lim_poly_gauss c : 0 < c -> is_lim (fun x => x * x * x * exp (- (c * (x * x)))) p_infty 0.
Proof.
  intro Pc. assert (B : forall x, 0 < x -> 0 <= x * x * x * exp (- (c * (x * x))) <= (4 / (c * c)) * / x).
  { intros x Px. split; [apply Rmult_le_pos; [nra|apply Rlt_le, exp_pos]|]. set (y := c * (x * x)). assert (Py : 0 < y) by (unfold y; apply Rmult_lt_0_compat; nra).
    pose proof (exp_below (y / 2) ltac:(lra)) as E. assert (E2 : exp (- y) <= 4 / (y * y)).
    { replace (- y) with (- (y / 2) + - (y / 2)) by field. rewrite exp_plus. pose proof (exp_pos (- (y / 2))). replace (4 / (y * y)) with (/ (y / 2) * / (y / 2)) by (field; lra). nra. }
    apply Rle_trans with (x * x * x * (4 / (y * y))); [apply Rmult_le_compat_l; [nra|exact E2]|]. unfold y. right. field. split; lra. }
  apply (is_lim_le_le_loc (fun _ => 0) (fun x => (4 / (c * c)) * / x)).
  - exists 0. intros x Hx. apply B. exact Hx.
  - apply is_lim_const.
  - replace (Finite 0) with (Rbar_mult (4 / (c * c)) (Rbar_inv p_infty)) by (cbn; f_equal; ring). apply (is_lim_scal_l (fun x => / x)). apply is_lim_inv; [apply is_lim_id|discriminate].
Qed.
Lemma lim_lin_gauss c : 0 < c -> is_lim (fun x => x * exp (- (c * (x * x)))) p_infty 0.
Proof.
  intro Pc. apply (is_lim_le_le_loc (fun _ => 0) (fun x => x * x * x * exp (- (c * (x * x))))).
  - exists 1. intros x Hx. pose proof (exp_pos (- (c * (x * x)))) as P. split; [apply Rmult_le_pos; lra|]. apply Rmult_le_compat_r; [lra|nra].
  - apply is_lim_const.
  - apply lim_poly_gauss. exact Pc.
Qed.

(** C65: the Mexican hat has mean zero. *)
Theorem C65_mhat_mean : line (fun t => fst (mhat t)) 0.
Proof.
  set (k := 2 / 3 * root4pi). apply (is_RInt_gen_ext (fun t => k * (1 - (t / 3) ^ 2) * exp (- (t / 3) ^ 2 / 2))).
  { apply filter_forall. intros ab x _. rewrite mhat_eq. reflexivity. }
  set (F := fun t => k * (t * exp (- (1 / 18 * (t * t))))).
  assert (O : forall x, F (- x) = - F x) by (intro x; unfold F; replace (- x * - x) with (x * x) by ring; ring).
  assert (L : is_lim F p_infty 0).
  { unfold F. replace (Finite 0) with (Rbar_mult k 0) by (cbn; f_equal; ring). apply (is_lim_scal_l (fun t => t * exp (- (1 / 18 * (t * t))))). apply lim_lin_gauss. lra. }
  replace 0 with (0 - - 0) by ring. apply (line_integral _ F (- 0) 0).
  - intro x. unfold F. auto_derive; [exact I|]. replace (- (x / 3) ^ 2 / 2) with (- (1 / 18 * (x * x))) by field. unfold Rdiv. field.
  - intro x. apply (ex_derive_continuous (V := R_NormedModule)). auto_derive. exact I.
  - apply is_lim_odd; assumption.
  - exact L.
Qed.

(** Its energy, for any value of the root: (4/3) sqrt(pi) root^2. *)
Lemma mhat_energy_gen (r : R) : line (fun t => Cmod (mhat_value RTrig r t) * Cmod (mhat_value RTrig r t)) (r * r * sqrt PI).
Proof.
  set (f := fun t => 4 / 9 * (r * r) * ((1 - (t / 3) ^ 2) ^ 2 * exp (- ((t / 3) * (t / 3))))). apply (is_RInt_gen_ext f).
  { apply filter_forall. intros ab x _. unfold f.
    pose proof (mhat_form r x) as E.
    change (Cmod (mhat_value RTrig r x)) with (Cmod (mhat_value RTrig r x : C)). rewrite E, Cmod_R, <- Rabs_mult. 
    replace (- (x / 3 * (x / 3))) with (- (x / 3) ^ 2 / 2 + - (x / 3) ^ 2 / 2) by field. rewrite exp_plus. rewrite Rabs_pos_eq; [match goal with |- ?a = ?b => change (@eq R a b) end; field|]. apply Rle_0_sqr. }
  (* a primitive *)
  set (F := fun t => 4 / 9 * (r * r) * (3 * (1 / 4 * ((t / 3) * exp (- (1 * ((t / 3) * (t / 3))))) + - (1 / 2) * ((t / 3) * (t / 3) * (t / 3) * exp (- (1 * ((t / 3) * (t / 3))))) + 3 / 4 * G (t / 3)))).
  assert (O : forall x, F (- x) = - F x) by (intro x; unfold F; replace (- x / 3) with (- (x / 3)) by field; rewrite G_odd; replace (- (x / 3) * - (x / 3)) with (x / 3 * (x / 3)) by ring; ring).
  assert (L : is_lim F p_infty (r * r * sqrt PI / 2)).
  { unfold F.
    assert (L1 : is_lim (fun t => t / 3 * exp (- (1 * (t / 3 * (t / 3))))) p_infty 0) by (apply (lim_scaled (fun t => t * exp (- (1 * (t * t)))) 0 3); [lra|apply lim_lin_gauss; lra]).
    assert (L3 : is_lim (fun t => t / 3 * (t / 3) * (t / 3) * exp (- (1 * (t / 3 * (t / 3))))) p_infty 0) by (apply (lim_scaled (fun t => t * t * t * exp (- (1 * (t * t)))) 0 3); [lra|apply lim_poly_gauss; lra]).
    assert (LG : is_lim (fun t => G (t / 3)) p_infty (sqrt PI / 2)) by (apply (lim_scaled G _ 3); [lra|apply lim_G]).
    replace (Finite (r * r * sqrt PI / 2)) with (Rbar_mult (4 / 9 * (r * r)) (Rbar_mult 3 (1 / 4 * 0 + - (1 / 2) * 0 + 3 / 4 * (sqrt PI / 2)))) by (cbn; f_equal; field).
    apply (is_lim_scal_l (fun t => 3 * (1 / 4 * (t / 3 * exp (- (1 * (t / 3 * (t / 3))))) + - (1 / 2) * (t / 3 * (t / 3) * (t / 3) * exp (- (1 * (t / 3 * (t / 3))))) + 3 / 4 * G (t / 3)))).
    apply (is_lim_scal_l (fun t => 1 / 4 * (t / 3 * exp (- (1 * (t / 3 * (t / 3))))) + - (1 / 2) * (t / 3 * (t / 3) * (t / 3) * exp (- (1 * (t / 3 * (t / 3))))) + 3 / 4 * G (t / 3))).
    apply is_lim_plus'; [apply is_lim_plus'|].
    - exact (is_lim_scal_l _ (1 / 4) p_infty 0 L1).
    - exact (is_lim_scal_l _ (- (1 / 2)) p_infty 0 L3).
    - exact (is_lim_scal_l _ (3 / 4) p_infty (sqrt PI / 2) LG). }
  replace (r * r * sqrt PI) with (r * r * sqrt PI / 2 - - (r * r * sqrt PI / 2)) by field. apply (line_integral f F).
  - intro x. unfold F, f.
    assert (DG : is_derive (fun t => G (t / 3)) x (1 / 3 * g (x / 3))).
    { apply (is_derive_comp G (fun t => t / 3) x (g (x / 3)) (1 / 3)); [apply G_derive|auto_derive; [exact I|field]]. }
    set (P := fun t => 1 / 4 * (t / 3 * exp (- (1 * (t / 3 * (t / 3))))) + - (1 / 2) * (t / 3 * (t / 3) * (t / 3) * exp (- (1 * (t / 3 * (t / 3)))))).
    assert (DP : is_derive P x ((1 / 4 - 2 * (x / 3) ^ 2 + (x / 3) ^ 4) / 3 * exp (- (x / 3 * (x / 3))))).
    { unfold P. auto_derive; [exact I|]. unfold Rdiv. rewrite !Rmult_1_l. field. }
    evar (l : R). replace (4 / 9 * (r * r) * ((1 - (x / 3) ^ 2) ^ 2 * exp (- (x / 3 * (x / 3))))) with l.
    + apply (is_derive_scal (fun t => 3 * (P t + 3 / 4 * G (t / 3))) x (4 / 9 * (r * r))). apply (is_derive_scal (fun t => P t + 3 / 4 * G (t / 3)) x 3).
      apply (is_derive_plus P (fun t => 3 / 4 * G (t / 3)) x); [exact DP|]. apply (is_derive_scal (fun t => G (t / 3)) x (3 / 4)). exact DG.
    + subst l. unfold plus, g. cbn [Hierarchy.AbelianGroup.plus]. cbn. field.
  - intro x. apply (ex_derive_continuous (V := R_NormedModule)). unfold f. auto_derive. exact I.
  - apply is_lim_odd; assumption.
  - exact L.
Qed.
(** C65: and energy pi, *)
Theorem C65_mhat_energy : energy mhat PI.
Proof. unfold energy, mhat. replace PI with (root4pi * root4pi * sqrt PI) at 1; [apply mhat_energy_gen|]. rewrite root4. apply sqrt_sqrt, Rlt_le, PI_RGT_0. Qed.
Lemma line_unique f a b : line f a -> line f b -> a = b.
Proof.
  intros A B. pose proof (is_RInt_gen_unique (V := R_CompleteNormedModule) _ _ A) as E1. pose proof (is_RInt_gen_unique (V := R_CompleteNormedModule) _ _ B) as E2.
  rewrite <- E1. exact E2.
Qed.
(** so it is not normalised: the constructor multiplies by pi^(1/4) where the normalisation divides by it; with the division the energy would be 1. *)
Theorem C65_mhat_unit_energy_refuted : ~ energy mhat 1 /\ energy (fun t => mhat_value RTrig (/ root4pi) t) 1.
Proof.
  assert (P : 0 < root4pi) by apply exp_pos. split.
  - intro A. pose proof (line_unique _ _ _ A C65_mhat_energy) as E. pose proof PI2_1. lra.
  - unfold energy. replace 1 with (/ root4pi * / root4pi * sqrt PI); [apply mhat_energy_gen|]. rewrite <- root4. field. lra.
Qed.

(** C65, the Morlet function: the function computed, its modulus, its symmetry. *)
Theorem C65_morlet : forall t, morlet t = (exp (- (t ^ 2 / 2)) * cos (5 * t), exp (- (t ^ 2 / 2)) * sin (5 * t)) /\
  Cmod (morlet t) = exp (- (t ^ 2 / 2)) /\ morlet (- t) = Cconj (morlet t).
Proof.
  assert (F : forall t, morlet t = (exp (- (t ^ 2 / 2)) * cos (5 * t), exp (- (t ^ 2 / 2)) * sin (5 * t))).
  { intro t. unfold morlet, morlet_value, c_exp, c_scale, imaginary_unit. cbn [fst snd n_div n_ofZ n_add n_mul n_sub t_exp t_cos t_sin RTrig t_math RMath m_num RNum].
    replace (5 * t * 0 - t * t / 2) with (- (t ^ 2 / 2)) by field. replace (5 * t * 1) with (5 * t) by ring. reflexivity. }
  intro t. split; [apply F|]. split.
  - rewrite F. unfold Cmod. cbn [fst snd]. replace ((exp (- (t ^ 2 / 2)) * cos (5 * t)) ^ 2 + (exp (- (t ^ 2 / 2)) * sin (5 * t)) ^ 2) with ((exp (- (t ^ 2 / 2)))² * ((sin (5 * t))² + (cos (5 * t))²)) by (unfold Rsqr; ring).
    rewrite sin2_cos2, Rmult_1_r. apply sqrt_Rsqr, Rlt_le, exp_pos.
  - rewrite !F. unfold Cconj. cbn [fst snd]. replace ((- t) ^ 2) with (t ^ 2) by ring. replace (5 * - t) with (- (5 * t)) by ring. rewrite cos_neg, sin_neg. f_equal. ring.
Qed.
(** C65: its energy is sqrt(pi); *)
Theorem C65_morlet_energy : energy morlet (sqrt PI).
Proof.
  unfold energy. apply (is_RInt_gen_ext g).
  - apply filter_forall. intros ab x _. destruct (C65_morlet x) as (_ & E & _). rewrite E, <- exp_plus. unfold g. f_equal. field.
  - replace (sqrt PI) with (sqrt PI / 2 - - (sqrt PI / 2)) by field. apply (line_integral g G); [apply G_derive|apply g_cont|apply is_lim_odd; [apply G_odd|apply lim_G]|apply lim_G].
Qed.
(** C65: its mean is small, real and not zero. *)
Theorem C65_morlet_mean : line (fun t => fst (morlet t)) (sqrt (2 * PI) * exp (- (25 / 2))) /\ (forall A, is_RInt (fun t => snd (morlet t)) (- A) A 0).
Proof.
  split.
  - apply (is_RInt_gen_ext (gc 5)).
    + apply filter_forall. intros ab x _. destruct (C65_morlet x) as (E & _). rewrite E. cbn [fst]. unfold gc. f_equal. f_equal. field.
    + replace (sqrt (2 * PI) * exp (- (25 / 2))) with (sqrt (2 * PI) / 2 * exp (- (5 * 5 / 2)) - - (sqrt (2 * PI) / 2 * exp (- (5 * 5 / 2)))) by (replace (5 * 5 / 2) with (25 / 2) by field; field).
      apply (line_integral (gc 5) (fun x => K x 5)); [apply K_derive_x|apply gc_cont|apply is_lim_odd; [apply K_odd|apply lim_K]|apply lim_K].
  - intro A. set (f := fun t => exp (- (t ^ 2 / 2)) * sin (5 * t)). apply (is_RInt_ext f).
    { intros x _. destruct (C65_morlet x) as (E & _). rewrite E. reflexivity. }
    assert (C : forall a b, ex_RInt f a b).
    { intros a b. apply (ex_RInt_continuous (V := R_CompleteNormedModule)). intros x _. apply (ex_derive_continuous (V := R_NormedModule)). unfold f. auto_derive. exact I. }
    pose proof (RInt_mirror f A C) as M. assert (M2 : RInt f 0 (- A) = RInt f 0 A).
    { rewrite M. rewrite <- (RInt_opp (V := R_CompleteNormedModule)).
      - apply RInt_ext. intros t _. unfold f, opp. cbn [Hierarchy.opp]. replace ((- t) ^ 2) with (t ^ 2) by ring. replace (5 * - t) with (- (5 * t)) by ring. rewrite sin_neg. cbn. ring.
      - apply (ex_RInt_continuous (V := R_CompleteNormedModule)). intros x _. apply (ex_derive_continuous (V := R_NormedModule)). unfold f. auto_derive. exact I. }
    assert (Z : RInt f (- A) A = 0).
    { rewrite <- (RInt_Chasles (V := R_CompleteNormedModule) f (- A) 0 A) by apply C. rewrite <- (opp_RInt_swap (V := R_CompleteNormedModule) f 0 (- A)) by apply C. rewrite M2. apply (plus_opp_l (RInt f 0 A : R_AbelianGroup)). }
    rewrite <- Z. apply (RInt_correct f), C.
Qed.
Theorem C65_morlet_zero_mean_refuted : ~ line (fun t => fst (morlet t)) 0.
Proof.
  intro A. pose proof (line_unique _ _ _ A (proj1 C65_morlet_mean)) as E. assert (P : 0 < sqrt (2 * PI)) by (apply sqrt_lt_R0; pose proof PI_RGT_0; lra). pose proof (exp_pos (- (25 / 2))). nra.
Qed.

(** C65, the Haar function: both parts have mean zero and energy one, over every interval that contains their supports. *)
Lemma pieces (f : R -> R) a c d e b (v w l : R) : (d - c) * v + (e - d) * w = l -> a <= c <= d -> d <= e <= b -> (forall x, a < x < c -> f x = 0) -> (forall x, c < x < d -> f x = v) -> (forall x, d < x < e -> f x = w) ->
  (forall x, e < x < b -> f x = 0) -> is_RInt f a b l.
Proof.
  intros <- [L1 L2] [L3 L4] F1 F2 F3 F4.
  assert (P : forall p q u, p <= q -> (forall x, p < x < q -> f x = u) -> is_RInt f p q ((q - p) * u)).
  { intros p q u L E. apply (is_RInt_ext (fun _ => u)); [|apply (is_RInt_const p q u)]. intros x Hx. rewrite Rmin_left, Rmax_right in Hx by lra. symmetry. apply E. exact Hx. }
  replace ((d - c) * v + (e - d) * w) with (plus (plus (plus ((c - a) * 0) ((d - c) * v)) ((e - d) * w)) ((b - e) * 0)) by (unfold plus; cbn; ring).
  apply (is_RInt_Chasles f a e b); [apply (is_RInt_Chasles f a d e); [apply (is_RInt_Chasles f a c d)|]|]; apply P; assumption.
Qed.
Lemma haar_re x : (x < -1/2 -> fst (haar x) = 0) /\ (-1/2 < x < 0 -> fst (haar x) = -1) /\ (0 < x < 1/2 -> fst (haar x) = 1) /\ (1/2 < x -> fst (haar x) = 0).
Proof.
  unfold haar, haar_value, haar_real. cbn [fst n_ltb n_leb n_eqb n_div n_ofZ RMath m_num RNum]. unfold R_ltb, R_leb, R_eqb.
  repeat split; intros; repeat match goal with |- context [Rlt_dec ?a ?b] => destruct (Rlt_dec a b); try lra | |- context [Rle_dec ?a ?b] => destruct (Rle_dec a b); try lra | |- context [Req_EM_T ?a ?b] => destruct (Req_EM_T a b); try lra end; cbn; try lra; try reflexivity.
Qed.
Lemma haar_im x : (x < -1/4 -> snd (haar x) = 0) /\ (-1/4 < x < 1/4 -> snd (haar x) = -1) /\ (1/4 < x < 3/4 -> snd (haar x) = 1) /\ (3/4 < x -> snd (haar x) = 0).
Proof.
  unfold haar, haar_value, haar_imag. cbn [snd n_ltb n_leb n_eqb n_div n_ofZ RMath m_num RNum]. unfold R_ltb, R_leb, R_eqb.
  repeat split; intros; repeat match goal with |- context [Rlt_dec ?a ?b] => destruct (Rlt_dec a b); try lra | |- context [Rle_dec ?a ?b] => destruct (Rle_dec a b); try lra | |- context [Req_EM_T ?a ?b] => destruct (Req_EM_T a b); try lra end; cbn; try lra; try reflexivity.
Qed.
Theorem C65_haar : forall a b, a <= - (1/2) -> 3/4 <= b ->
  is_RInt (fun t => fst (haar t)) a b 0 /\ is_RInt (fun t => snd (haar t)) a b 0 /\ is_RInt (fun t => fst (haar t) ^ 2) a b 1 /\ is_RInt (fun t => snd (haar t) ^ 2) a b 1.
Proof.
  intros a b La Lb.
  assert (R1 : forall x, a < x < -1/2 -> fst (haar x) = 0) by (intros x Hx; destruct (haar_re x) as (Q1 & Q2 & Q3 & Q4); first [apply Q1; lra|apply Q2; lra|apply Q3; lra|apply Q4; lra]). assert (R2 : forall x, -1/2 < x < 0 -> fst (haar x) = -1) by (intros x Hx; destruct (haar_re x) as (Q1 & Q2 & Q3 & Q4); first [apply Q1; lra|apply Q2; lra|apply Q3; lra|apply Q4; lra]).
  assert (R3 : forall x, 0 < x < 1/2 -> fst (haar x) = 1) by (intros x Hx; destruct (haar_re x) as (Q1 & Q2 & Q3 & Q4); first [apply Q1; lra|apply Q2; lra|apply Q3; lra|apply Q4; lra]). assert (R4 : forall x, 1/2 < x < b -> fst (haar x) = 0) by (intros x Hx; destruct (haar_re x) as (Q1 & Q2 & Q3 & Q4); first [apply Q1; lra|apply Q2; lra|apply Q3; lra|apply Q4; lra]).
  assert (I1 : forall x, a < x < -1/4 -> snd (haar x) = 0) by (intros x Hx; destruct (haar_im x) as (Q1 & Q2 & Q3 & Q4); first [apply Q1; lra|apply Q2; lra|apply Q3; lra|apply Q4; lra]). assert (I2 : forall x, -1/4 < x < 1/4 -> snd (haar x) = -1) by (intros x Hx; destruct (haar_im x) as (Q1 & Q2 & Q3 & Q4); first [apply Q1; lra|apply Q2; lra|apply Q3; lra|apply Q4; lra]).
  assert (I3 : forall x, 1/4 < x < 3/4 -> snd (haar x) = 1) by (intros x Hx; destruct (haar_im x) as (Q1 & Q2 & Q3 & Q4); first [apply Q1; lra|apply Q2; lra|apply Q3; lra|apply Q4; lra]). assert (I4 : forall x, 3/4 < x < b -> snd (haar x) = 0) by (intros x Hx; destruct (haar_im x) as (Q1 & Q2 & Q3 & Q4); first [apply Q1; lra|apply Q2; lra|apply Q3; lra|apply Q4; lra]).
  split; [|split; [|split]].
  - apply (pieces _ a (-1/2) 0 (1/2) b (-1) 1); try lra; assumption.
  - apply (pieces _ a (-1/4) (1/4) (3/4) b (-1) 1); try lra; assumption.
  - apply (pieces _ a (-1/2) 0 (1/2) b 1 1); try lra; intros x Hx; [rewrite R1|rewrite R2|rewrite R3|rewrite R4]; try exact Hx; ring.
  - apply (pieces _ a (-1/4) (1/4) (3/4) b 1 1); try lra; intros x Hx; [rewrite I1|rewrite I2|rewrite I3|rewrite I4]; try exact Hx; ring.
Qed.
Print Assumptions C65_mhat. Print Assumptions C65_mhat_mean. Print Assumptions C65_mhat_energy. Print Assumptions C65_mhat_unit_energy_refuted.
Print Assumptions C65_morlet. Print Assumptions C65_morlet_energy. Print Assumptions C65_morlet_mean. Print Assumptions C65_morlet_zero_mean_refuted. Print Assumptions C65_haar.
