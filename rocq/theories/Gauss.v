(** Mathematics used by PropWaveletMean.v: the integral of exp(-t^2) over the real line, and of exp(-t^2/2) cos(wt). No part of /repo is modelled here. *)
From Coq Require Import Reals Lra Psatz.
From Coquelicot Require Import Coquelicot.
Local Open Scope R_scope.

Definition g (t : R) : R := exp (- (t * t)).
Lemma g_cont x : continuous g x.
Proof. apply (ex_derive_continuous (V := R_NormedModule)). unfold g. auto_derive. exact I. Qed.
Lemma g_int a b : ex_RInt g a b.
Proof. apply (ex_RInt_continuous (V := R_CompleteNormedModule)). intros x _. apply g_cont. Qed.
Definition G (x : R) : R := RInt g 0 x.
Lemma G_derive x : is_derive G x (g x).
Proof. apply (is_derive_RInt g G 0 x); [exists (mkposreal 1 Rlt_0_1); intros y _; apply (RInt_correct g), g_int|apply g_cont]. Qed.

(** h x t = exp(-x^2(1+t^2))/(1+t^2) *)
Definition h (x t : R) : R := exp (- (x * x * (1 + t * t))) / (1 + t * t).
Lemma den t : 1 + t * t <> 0.
Proof. nra. Qed.
Lemma h_derive x t : is_derive (fun u => h u t) x (- 2 * x * exp (- (x * x * (1 + t * t)))).
Proof. unfold h. auto_derive; [exact I|]. field. apply den. Qed.
Lemma h_Derive x t : Derive (fun u => h u t) x = - 2 * x * exp (- (x * x * (1 + t * t))).
Proof. apply is_derive_unique, h_derive. Qed.
Lemma h_cont x t : continuous (h x) t.
Proof. apply (ex_derive_continuous (V := R_NormedModule)). unfold h. auto_derive. apply den. Qed.
Lemma h_int x a b : ex_RInt (h x) a b.
Proof. apply (ex_RInt_continuous (V := R_CompleteNormedModule)). intros t _. apply h_cont. Qed.
Definition H (x : R) : R := RInt (h x) 0 1.

Lemma exp_cont x : continuity_pt exp x.
Proof. apply derivable_continuous_pt, derivable_pt_exp. Qed.
Lemma H_derive0 x : is_derive H x (RInt (fun t => Derive (fun u => h u t) x) 0 1).
Proof.
  apply (is_derive_RInt_param h 0 1 x).
  - exists (mkposreal 1 Rlt_0_1). intros y _ t _. eexists. apply h_derive.
  - intros t _. apply (continuity_2d_pt_ext (fun u v => (- 2 * u) * exp (- (u * u * (1 + v * v))))); [intros u v; symmetry; apply h_Derive|].
    apply continuity_2d_pt_mult; [apply continuity_2d_pt_mult; [apply continuity_2d_pt_const|apply continuity_2d_pt_id1]|].
    apply (continuity_1d_2d_pt_comp exp); [apply exp_cont|]. apply continuity_2d_pt_opp, continuity_2d_pt_mult;
      [apply continuity_2d_pt_mult; apply continuity_2d_pt_id1|apply continuity_2d_pt_plus; [apply continuity_2d_pt_const|apply continuity_2d_pt_mult; apply continuity_2d_pt_id2]].
  - exists (mkposreal 1 Rlt_0_1). intros y _. apply h_int.
Qed.
Lemma G_scaled x : G x = RInt (fun t => x * g (x * t + 0)) 0 1.
Proof.
  unfold G. pose proof (RInt_comp_lin g x 0 0 1) as E. replace (x * 0 + 0) with 0 in E by ring. replace (x * 1 + 0) with x in E by ring.
  symmetry. exact (E (g_int 0 x)).
Qed.
Lemma H_derive x : is_derive H x (- 2 * g x * G x).
Proof.
  assert (E : RInt (fun t => Derive (fun u => h u t) x) 0 1 = - 2 * g x * G x); [|rewrite <- E; apply H_derive0].
  rewrite G_scaled.
  transitivity (RInt (fun t => scal (- 2 * g x) (x * g (x * t + 0))) 0 1).
  - apply RInt_ext. intros t _. rewrite h_Derive. unfold g, scal. cbn. unfold mult. cbn.
    replace (- (x * x * (1 + t * t))) with (- (x * x) + - ((x * t + 0) * (x * t + 0))) by ring. rewrite exp_plus. ring.
  - rewrite (RInt_scal (V := R_CompleteNormedModule)); [reflexivity|]. apply (ex_RInt_continuous (V := R_CompleteNormedModule)). intros t _.
    apply (ex_derive_continuous (V := R_NormedModule)). unfold g. auto_derive. exact I.
Qed.

Lemma constant (f : R -> R) : (forall x, is_derive f x 0) -> forall x, f x = f 0.
Proof.
  intros D x. pose proof (is_RInt_derive f (fun _ => 0) 0 x (fun y _ => D y) (fun y _ => continuous_const 0 y)) as A. 
  pose proof (is_RInt_const 0 x 0) as B. pose proof (is_RInt_unique _ _ _ _ A) as E1. pose proof (is_RInt_unique _ _ _ _ B) as E2.
  rewrite E1 in E2. unfold minus, plus, opp, scal, mult in E2. cbn in E2. unfold mult in E2. cbn in E2. lra.
Qed.
Lemma H_zero : H 0 = PI / 4.
Proof.
  unfold H. rewrite <- atan_1. replace (atan 1) with (minus (atan 1) (atan 0)) by (unfold minus, plus, opp; cbn; rewrite atan_0; ring).
  apply is_RInt_unique. apply (is_RInt_derive atan).
  - intros x _. unfold h. replace (- (0 * 0 * (1 + x * x))) with 0 by ring. rewrite exp_0. apply is_derive_Reals.
    replace (1 / (1 + x * x)) with (/ (1 + x ^ 2)) by (replace (1 + x ^ 2) with (1 + x * x) by ring; field; apply den). apply derivable_pt_lim_atan.
  - intros x _. apply h_cont.
Qed.
Lemma G_H x : G x * G x + H x = PI / 4.
Proof.
  rewrite <- H_zero. transitivity (G 0 * G 0 + H 0); [|unfold G at 1 2; rewrite RInt_point; unfold zero; cbn; ring].
  apply (constant (fun x => G x * G x + H x)). intro y. evar (l : R). replace 0 with l.
  - apply (is_derive_plus (fun x => G x * G x) H y); [|apply H_derive]. apply (is_derive_mult G G y); [apply G_derive|apply G_derive|]. intros; apply Rmult_comm.
  - subst l. unfold plus, mult. cbn. ring.
Qed.
Lemma H_bound x : 0 <= H x <= exp (- (x * x)).
Proof.
  split.
  - apply RInt_ge_0; [lra|apply h_int|]. intros t _. unfold h. apply Rlt_le, Rmult_lt_0_compat; [apply exp_pos|apply Rinv_0_lt_compat; nra].
  - assert (E : exp (- (x * x)) = RInt (fun _ => exp (- (x * x))) 0 1) by (rewrite RInt_const; unfold scal; cbn; unfold mult; cbn; ring). rewrite E. unfold H.
    apply RInt_le; [lra|apply h_int|apply ex_RInt_const|]. intros t _. unfold h.
    apply Rle_trans with (exp (- (x * x * (1 + t * t))) / 1).
    + apply Rmult_le_compat_l; [apply Rlt_le, exp_pos|]. apply Rinv_le_contravar; [lra|nra].
    + unfold Rdiv. rewrite Rinv_1, Rmult_1_r. destruct (Rle_lt_or_eq_dec (- (x * x * (1 + t * t))) (- (x * x))) as [L|L]; [nra|apply Rlt_le, exp_increasing; exact L|rewrite L; lra].
Qed.

(** exp decays. *)
Lemma exp_below y : 0 < y -> exp (- y) < / y.
Proof. intro P. rewrite exp_Ropp. apply Rinv_lt_contravar; [apply Rmult_lt_0_compat; [exact P|apply exp_pos]|]. pose proof (exp_ineq1 y ltac:(lra)). lra. Qed.
Lemma lim_gauss : is_lim (fun x => exp (- (x * x))) p_infty 0.
Proof.
  apply (is_lim_le_le_loc (fun _ => 0) (fun x => / x)).
  - exists 1. intros x Hx. split; [apply Rlt_le, exp_pos|]. apply Rlt_le, Rlt_le_trans with (/ (x * x)); [apply exp_below; nra|]. apply Rinv_le_contravar; nra.
  - apply is_lim_const.
  - replace (Finite 0) with (Rbar_inv p_infty) by reflexivity. apply is_lim_inv; [apply is_lim_id|discriminate].
Qed.
Lemma G_nonneg x : 0 <= x -> 0 <= G x.
Proof. intro L. apply RInt_ge_0; [exact L|apply g_int|]. intros t _. apply Rlt_le, exp_pos. Qed.
Lemma lim_G : is_lim G p_infty (sqrt PI / 2).
Proof.
  assert (E : sqrt PI / 2 = sqrt (PI / 4)).
  { unfold Rdiv. rewrite sqrt_mult by (pose proof PI_RGT_0; lra). f_equal. replace (/ 4) with ((/ 2) * (/ 2)) by field. rewrite sqrt_square; lra. }
  rewrite E. apply (is_lim_ext_loc (fun x => sqrt (PI / 4 - H x))).
  - exists 0. intros x Hx. rewrite <- (G_H x). replace (G x * G x + H x - H x) with (G x * G x) by ring. apply sqrt_square, G_nonneg. lra.
  - apply (is_lim_comp_continuous (fun x => PI / 4 - H x) sqrt p_infty (PI / 4)).
    + replace (Finite (PI / 4)) with (Finite (PI / 4 - 0)) by (f_equal; ring). apply (is_lim_minus' (fun _ => PI / 4) H); [apply is_lim_const|].
      apply (is_lim_le_le_loc (fun _ => 0) (fun x => exp (- (x * x)))); [exists 0; intros x _; apply H_bound|apply is_lim_const|apply lim_gauss].
    + apply continuous_sqrt.
Qed.
Lemma RInt_mirror (f : R -> R) x : (forall a b, ex_RInt f a b) -> RInt f 0 (- x) = - RInt (fun t => f (- t)) 0 x.
Proof.
  intro C. pose proof (RInt_comp_lin (V := R_CompleteNormedModule) f (-1) 0 0 x (C _ _)) as E. replace (-1 * 0 + 0) with 0 in E by ring. replace (-1 * x + 0) with (- x) in E by ring.
  rewrite <- E. rewrite <- (RInt_opp (V := R_CompleteNormedModule)).
  - apply RInt_ext. intros t _. unfold scal, opp. cbn. unfold mult. cbn. replace (-1 * t + 0) with (- t) by ring. ring.
  - apply (ex_RInt_ext (fun t => scal (-1) (scal (-1) (f (-1 * t + 0))))).
    + intros t _. unfold scal. cbn. unfold mult. cbn. replace (-1 * t + 0) with (- t) by ring. ring.
    + apply (ex_RInt_scal (V := R_NormedModule)). apply (ex_RInt_comp_lin (V := R_NormedModule) f (-1) 0 0 x). apply C.
Qed.
Lemma G_odd x : G (- x) = - G x.
Proof. unfold G. rewrite (RInt_mirror g x g_int). f_equal. apply RInt_ext. intros t _. unfold g. f_equal. ring. Qed.

(** ** The cosine transform *)
Definition gc (w t : R) : R := exp (- (t * t / 2)) * cos (w * t).
Lemma gc_cont w x : continuous (gc w) x.
Proof. apply (ex_derive_continuous (V := R_NormedModule)). unfold gc. auto_derive. exact I. Qed.
Lemma gc_int w a b : ex_RInt (gc w) a b.
Proof. apply (ex_RInt_continuous (V := R_CompleteNormedModule)). intros x _. apply gc_cont. Qed.
Definition K (x w : R) : R := RInt (gc w) 0 x.
Definition gs (w t : R) : R := - t * exp (- (t * t / 2)) * sin (w * t).
Lemma gs_int w a b : ex_RInt (gs w) a b.
Proof. apply (ex_RInt_continuous (V := R_CompleteNormedModule)). intros x _. apply (ex_derive_continuous (V := R_NormedModule)). unfold gs. auto_derive. exact I. Qed.
Lemma gc_Derive w t : Derive (fun u => gc u t) w = gs w t.
Proof. apply is_derive_unique. unfold gc, gs. auto_derive; [exact I|]. ring. Qed.
Lemma K_derive0 x w : is_derive (K x) w (RInt (gs w) 0 x).
Proof.
  assert (E : RInt (fun t => Derive (fun u => gc u t) w) 0 x = RInt (gs w) 0 x) by (apply RInt_ext; intros t _; apply gc_Derive). rewrite <- E.
  apply (is_derive_RInt_param gc 0 x w).
  - exists (mkposreal 1 Rlt_0_1). intros y _ t _. unfold gc. auto_derive. exact I.
  - intros t _. apply (continuity_2d_pt_ext (fun u v => (- v * exp (- (v * v * / 2))) * sin (u * v))); [intros u v; rewrite gc_Derive; reflexivity|].
    apply continuity_2d_pt_mult; [apply continuity_2d_pt_mult; [apply continuity_2d_pt_opp, continuity_2d_pt_id2|]|].
    + apply (continuity_1d_2d_pt_comp exp); [apply exp_cont|]. apply continuity_2d_pt_opp, continuity_2d_pt_mult; [apply continuity_2d_pt_mult; apply continuity_2d_pt_id2|apply continuity_2d_pt_const].
    + apply (continuity_1d_2d_pt_comp sin); [apply continuity_sin|]. apply continuity_2d_pt_mult; [apply continuity_2d_pt_id1|apply continuity_2d_pt_id2].
  - exists (mkposreal 1 Rlt_0_1). intros y _. apply gc_int.
Qed.
Lemma K_derive x w : is_derive (K x) w (exp (- (x * x / 2)) * sin (w * x) - w * K x w).
Proof.
  assert (E : RInt (gs w) 0 x = exp (- (x * x / 2)) * sin (w * x) - w * K x w); [|rewrite <- E; apply K_derive0].
  assert (P : is_RInt (fun t => plus (gs w t) (scal w (gc w t))) 0 x (minus (exp (- (x * x / 2)) * sin (w * x)) (exp (- (0 * 0 / 2)) * sin (w * 0)))).
  { apply (is_RInt_derive (fun t => exp (- (t * t / 2)) * sin (w * t))).
    - intros t _. unfold gs, gc, plus, scal. cbn. unfold mult. cbn. auto_derive; [exact I|]. unfold Rdiv. field.
    - intros t _. apply (ex_derive_continuous (V := R_NormedModule)). unfold gs, gc, plus, scal. cbn. unfold mult. cbn. auto_derive. exact I. }
  apply (is_RInt_unique (V := R_CompleteNormedModule)) in P. rewrite (RInt_plus (V := R_CompleteNormedModule)), (RInt_scal (V := R_CompleteNormedModule)) in P;
    [|apply gc_int|apply gs_int|apply (ex_RInt_scal (V := R_NormedModule)), gc_int].
  change (RInt (gs w) 0 x + w * RInt (gc w) 0 x = exp (- (x * x / 2)) * sin (w * x) + - (exp (- (0 * 0 / 2)) * sin (w * 0))) in P. rewrite (Rmult_0_r w), sin_0 in P. unfold K. lra.
Qed.
Lemma K_close x w : Rabs (K x w * exp (w * w / 2) - K x 0) <= Rabs w * exp (w * w / 2) * exp (- (x * x / 2)).
Proof.
  set (E := fun u => K x u * exp (u * u / 2)). set (E' := fun u => exp (- (x * x / 2)) * sin (u * x) * exp (u * u / 2)).
  assert (D : forall u, is_derive E u (E' u)).
  { intro u. unfold E, E'. evar (l : R). replace (exp (- (x * x / 2)) * sin (u * x) * exp (u * u / 2)) with l.
    - apply (is_derive_mult (K x) (fun u => exp (u * u / 2)) u); [apply K_derive| |intros; apply Rmult_comm].
      instantiate (1 := u * exp (u * u / 2)). auto_derive; [exact I|]. unfold Rdiv. field.
    - subst l. unfold plus, mult. cbn. ring. }
  destruct (MVT_gen E 0 w E') as (c & Hc & Ec).
  - intros u _. apply D.
  - intros u _. apply continuity_pt_filterlim. apply (ex_derive_continuous (V := R_NormedModule)). eexists. apply D.
  - replace (K x 0) with (E 0) by (unfold E; replace (0 * 0 / 2) with 0 by field; rewrite exp_0; ring). change (K x w * exp (w * w / 2)) with (E w). rewrite Ec, Rabs_mult, Rminus_0_r.
    unfold E'. rewrite !Rabs_mult, !(Rabs_pos_eq (exp _)) by apply Rlt_le, exp_pos.
    assert (S : Rabs (sin (c * x)) <= 1) by (apply Rabs_le; apply SIN_bound).
    assert (M : exp (c * c / 2) <= exp (w * w / 2)).
    { assert (L : c * c / 2 <= w * w / 2) by (unfold Rmin, Rmax in Hc; destruct (Rle_dec 0 w); nra).
      destruct (Rle_lt_or_eq_dec _ _ L) as [L'|L']; [apply Rlt_le, exp_increasing; exact L'|rewrite L'; lra]. }
    pose proof (Rabs_pos w) as Pw. pose proof (Rabs_pos (sin (c * x))) as Ps. pose proof (exp_pos (- (x * x / 2))) as P1. pose proof (exp_pos (c * c / 2)) as P2.
    replace (Rabs w * exp (w * w / 2) * exp (- (x * x / 2))) with (exp (- (x * x / 2)) * 1 * exp (w * w / 2) * Rabs w) by ring.
    apply Rmult_le_compat_r; [exact Pw|]. apply Rmult_le_compat; [nra|lra| |exact M]. apply Rmult_le_compat_l; lra.
Qed.
(** Scaling: the integral of exp(-t^2/2) is that of exp(-t^2) up to sqrt 2. *)
Lemma sqrt2_pos : 0 < sqrt 2.
Proof. apply sqrt_lt_R0. lra. Qed.
Lemma K_zero x : K x 0 = sqrt 2 * G (x / sqrt 2).
Proof.
  pose proof sqrt2_pos as P. assert (Q : sqrt 2 * sqrt 2 = 2) by (apply sqrt_sqrt; lra).
  pose proof (RInt_comp_lin (V := R_CompleteNormedModule) g (/ sqrt 2) 0 0 x (g_int _ _)) as E. replace (/ sqrt 2 * 0 + 0) with 0 in E by ring. replace (/ sqrt 2 * x + 0) with (x / sqrt 2) in E by (unfold Rdiv; ring).
  unfold G. change (sqrt 2 * RInt g 0 (x / sqrt 2)) with (scal (sqrt 2) (RInt g 0 (x / sqrt 2))). rewrite <- E. rewrite <- (RInt_scal (V := R_CompleteNormedModule)).
  - unfold K. apply RInt_ext. intros t _. unfold gc, g, scal. cbn. unfold mult. cbn. rewrite Rmult_0_l, cos_0, Rmult_1_r, <- Rmult_assoc, Rinv_r, Rmult_1_l by lra. f_equal.
    replace ((/ sqrt 2 * t + 0) * (/ sqrt 2 * t + 0)) with (t * t * / (sqrt 2 * sqrt 2)) by (field; lra). rewrite Q. field.
  - apply (ex_RInt_comp_lin (V := R_NormedModule) g (/ sqrt 2) 0 0 x). apply g_int.
Qed.
Lemma lim_scaled (F : R -> R) (l : Rbar) c : 0 < c -> is_lim F p_infty l -> is_lim (fun x => F (x / c)) p_infty l.
Proof.
  intros P L. apply (is_lim_comp F (fun x => x / c) p_infty l p_infty); [exact L| |exists 0; intros y _; discriminate].
  unfold Rdiv. pose proof (is_lim_scal_r (fun x => x) (/ c) p_infty p_infty (is_lim_id p_infty)) as Q. cbn in Q.
  assert (Pi : 0 < / c) by (apply Rinv_0_lt_compat; exact P). destruct (Rle_dec 0 (/ c)) as [A|A]; [|lra]. destruct (Rle_lt_or_eq_dec 0 (/ c) A) as [B|B]; [exact Q|lra].
Qed.
Lemma lim_gauss2 : is_lim (fun x => exp (- (x * x / 2))) p_infty 0.
Proof.
  pose proof sqrt2_pos as P. assert (Q : sqrt 2 * sqrt 2 = 2) by (apply sqrt_sqrt; lra).
  apply (is_lim_ext (fun x => exp (- (x / sqrt 2 * (x / sqrt 2))))); [|apply (lim_scaled (fun x => exp (- (x * x))) 0 (sqrt 2) P lim_gauss)].
  intro x. f_equal. f_equal. replace (x / sqrt 2 * (x / sqrt 2)) with (x * x / (sqrt 2 * sqrt 2)) by (field; lra). rewrite Q. reflexivity.
Qed.
Lemma lim_K w : is_lim (fun x => K x w) p_infty (sqrt (2 * PI) / 2 * exp (- (w * w / 2))).
Proof.
  assert (L0 : is_lim (fun x => K x 0) p_infty (sqrt (2 * PI) / 2)).
  { apply (is_lim_ext (fun x => sqrt 2 * G (x / sqrt 2))); [intro x; symmetry; apply K_zero|].
    replace (Finite (sqrt (2 * PI) / 2)) with (Rbar_mult (sqrt 2) (sqrt PI / 2)).
    - apply (is_lim_scal_l (fun x => G (x / sqrt 2))). apply (lim_scaled G _ _ sqrt2_pos lim_G).
    - cbn. f_equal. rewrite sqrt_mult by (pose proof PI_RGT_0; lra). field. }
  assert (L1 : is_lim (fun x => K x w * exp (w * w / 2)) p_infty (sqrt (2 * PI) / 2)).
  { apply (is_lim_ext (fun x => K x 0 + (K x w * exp (w * w / 2) - K x 0))); [intro x; ring|]. replace (Finite (sqrt (2 * PI) / 2)) with (Finite (sqrt (2 * PI) / 2 + 0)) by (f_equal; ring).
    apply (is_lim_plus' (fun x => K x 0)); [exact L0|]. set (c := Rabs w * exp (w * w / 2)).
    assert (Z : is_lim (fun x => c * exp (- (x * x / 2))) p_infty 0).
    { replace (Finite 0) with (Rbar_mult c 0) by (cbn; f_equal; ring). apply (is_lim_scal_l (fun x => exp (- (x * x / 2)))). apply lim_gauss2. }
    apply (is_lim_le_le_loc (fun x => - (c * exp (- (x * x / 2)))) (fun x => c * exp (- (x * x / 2)))).
    - exists 0. intros x _. pose proof (K_close x w) as B. apply Rabs_le_between in B. unfold c. lra.
    - replace (Finite 0) with (Rbar_opp 0) by (cbn; f_equal; ring). apply (is_lim_opp (fun x => c * exp (- (x * x / 2)))). exact Z.
    - exact Z. }
  apply (is_lim_ext (fun x => exp (- (w * w / 2)) * (K x w * exp (w * w / 2)))).
  - intro x. rewrite exp_Ropp. field. apply Rgt_not_eq, exp_pos.
  - replace (Finite (sqrt (2 * PI) / 2 * exp (- (w * w / 2)))) with (Rbar_mult (exp (- (w * w / 2))) (sqrt (2 * PI) / 2)) by (cbn; f_equal; ring).
    apply (is_lim_scal_l (fun x => K x w * exp (w * w / 2))). exact L1.
Qed.
Lemma K_odd w x : K (- x) w = - K x w.
Proof. unfold K. rewrite (RInt_mirror (gc w) x (gc_int w)). f_equal. apply RInt_ext. intros t _. unfold gc. replace (- t * - t) with (t * t) by ring. replace (w * - t) with (- (w * t)) by ring. rewrite cos_neg. reflexivity. Qed.
Lemma K_derive_x w x : is_derive (fun x => K x w) x (gc w x).
Proof. apply (is_derive_RInt (gc w) (fun x => K x w) 0 x); [exists (mkposreal 1 Rlt_0_1); intros y _; apply (RInt_correct (gc w)), gc_int|apply gc_cont]. Qed.

(** ** From the half line to the line *)
Lemma is_lim_odd (F : R -> R) (l : R) : (forall x, F (- x) = - F x) -> is_lim F p_infty l -> is_lim F m_infty (- l).
Proof.
  intros O L. apply (is_lim_ext (fun x => - F (- x))); [intro x; rewrite O; ring|]. apply (is_lim_opp (fun x => F (- x)) m_infty l).
  apply (is_lim_comp F Ropp m_infty l p_infty); [exact L|apply (is_lim_opp (fun x => x) m_infty m_infty), is_lim_id|]. exists 0. intros y _. discriminate.
Qed.
(** The improper integral over the line, by a primitive. *)
Lemma line_integral (f F : R -> R) (la lb : R) : (forall x, is_derive F x (f x)) -> (forall x, continuous f x) ->
  is_lim F m_infty la -> is_lim F p_infty lb -> is_RInt_gen f (Rbar_locally m_infty) (Rbar_locally p_infty) (lb - la).
Proof.
  intros D C La Lb. apply (is_RInt_gen_ext (Derive F)).
  - apply filter_forall. intros ab x _. apply is_derive_unique, D.
  - apply is_RInt_gen_Derive; [apply filter_forall; intros ab x _; eexists; apply D| |exact La|exact Lb].
    apply filter_forall. intros ab x _. apply (continuous_ext f); [intro y; symmetry; apply is_derive_unique, D|apply C].
Qed.
