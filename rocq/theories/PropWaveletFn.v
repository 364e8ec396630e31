(** C54: the Haar function and the spline based wavelet functions. *)
From Coq Require Import Reals Psatz.
From Flocq Require Import Core IEEE754.BinarySingleNaN.
From Verif Require Import Base Num Optim Searches Hooke PropHooke DblOrder FloatLemmas Spline PropSpline.
Local Open Scope nat_scope.
Local Open Scope list_scope.

(** *** Specification: the Haar function with real part supported by [-1/2,1/2] and imaginary part by [-1/4,3/4]. *)
Definition haar_re_spec (x : R) (v : R) : Prop :=
  ((-1/2 <= x < 0)%R -> v = (-1)%R) /\ ((0 < x <= 1/2)%R -> v = 1%R) /\ (~ (-1/2 <= x <= 1/2)%R \/ x = 0%R -> v = 0%R).
Theorem C54_haar : forall x : R, haar_re_spec x (fst (haar_value RMath x)) /\ haar_re_spec (x - 1/4) (snd (haar_value RMath x)).
Proof.
  intro x. unfold haar_value, haar_real, haar_imag, haar_re_spec. cbn [fst snd n_ltb n_leb n_eqb n_div n_ofZ RMath m_num RNum]. unfold R_ltb, R_leb, R_eqb.
  split; repeat (match goal with |- context [if ?b then true else false] => destruct b end; cbn [orb andb]);
    repeat split; intros; try lra; exfalso; lra.
Qed.
(** the same with doubles: for every finite double the value is exactly -1, 0 or 1 by the same intervals; *)
Lemma d_frac (a b : Z) (q : R) : (Z.abs a <= 2 ^ 53)%Z -> (Z.abs b <= 2 ^ 53)%Z -> (IZR b <> 0)%R -> fmt64 q -> (IZR a / IZR b = q)%R -> (Rabs q < bpow radix2 1024)%R ->
  is_finite (d_div (d_ofZ a) (d_ofZ b)) = true /\ B2R (d_div (d_ofZ a) (d_ofZ b)) = q.
Proof.
  intros Ha Hb Hn F E Hq. destruct (d_ofZ_exact a Ha) as [Fa Ba]. destruct (d_ofZ_exact b Hb) as [Fb Bb].
  destruct (d_div_finite (d_ofZ a) (d_ofZ b) Fa) as [A B]; [rewrite Bb; exact Hn|rewrite Ba, Bb, E, rnd_id by exact F; exact Hq|].
  split; [exact A|]. rewrite B, Ba, Bb, E. apply rnd_id. exact F.
Qed.
Lemma small_lt q : (Rabs q <= 1)%R -> (Rabs q < bpow radix2 1024)%R.
Proof. intro H. apply Rle_lt_trans with (1 := H). change 1%R with (bpow radix2 0). apply bpow_lt. lia. Qed.
Lemma fmt_quarter z : (Z.abs z <= 4)%Z -> fmt64 (IZR z / 4).
Proof.
  intro H. apply generic_format_FLT. exists (Float radix2 z (-2)).
  - unfold F2R. cbn. lra.
  - cbn. lia.
  - cbn. lia.
Qed.
Lemma d_eqb_R (x y : dbl) : is_finite x = true -> is_finite y = true -> d_eqb x y = R_eqb (B2R x) (B2R y).
Proof.
  intros Hx Hy. unfold d_eqb, R_eqb. rewrite (Beqb_correct dprec demax x y Hx Hy). destruct (Req_EM_T (B2R x) (B2R y)); [apply Req_bool_true; assumption|apply Req_bool_false; assumption].
Qed.
Lemma d_ltb_Rb (x y : dbl) : is_finite x = true -> is_finite y = true -> d_ltb x y = R_ltb (B2R x) (B2R y).
Proof. intros Hx Hy. apply eq_true_iff_eq. rewrite R_ltb_true. apply d_ltb_R; assumption. Qed.
Lemma d_leb_Rb (x y : dbl) : is_finite x = true -> is_finite y = true -> d_leb x y = R_leb (B2R x) (B2R y).
Proof. intros Hx Hy. apply eq_true_iff_eq. rewrite R_leb_true. apply d_leb_R; assumption. Qed.
Theorem C54_haar_binary64 : forall x : dbl, is_finite x = true ->
  B2R (fst (haar_value FMath x) : dbl) = fst (haar_value RMath (B2R x)) /\ B2R (snd (haar_value FMath x) : dbl) = snd (haar_value RMath (B2R x)).
Proof.
  intros x F. unfold haar_value, haar_real, haar_imag. cbn [fst snd].
  assert (Q : forall z, (Z.abs z <= 4)%Z -> (Rabs (IZR z / 4) < bpow radix2 1024)%R).
  { intros z Hz. apply small_lt. apply Rabs_le. assert (-4 <= z <= 4)%Z as [H1 H2] by lia. apply IZR_le in H1, H2. lra. }
  destruct (d_frac (-1) 2 (IZR (-2) / 4) ltac:(cbn; lia) ltac:(cbn; lia) ltac:(apply not_0_IZR; discriminate) (fmt_quarter (-2)%Z ltac:(lia)) ltac:(lra) (Q (-2)%Z ltac:(lia))) as [F1 B1].
  destruct (d_frac 1 2 (IZR 2 / 4) ltac:(cbn; lia) ltac:(cbn; lia) ltac:(apply not_0_IZR; discriminate) (fmt_quarter 2%Z ltac:(lia)) ltac:(lra) (Q 2%Z ltac:(lia))) as [F2 B2].
  destruct (d_frac (-1) 4 (IZR (-1) / 4) ltac:(cbn; lia) ltac:(cbn; lia) ltac:(apply not_0_IZR; discriminate) (fmt_quarter (-1)%Z ltac:(lia)) ltac:(lra) (Q (-1)%Z ltac:(lia))) as [F3 B3].
  destruct (d_frac 3 4 (IZR 3 / 4) ltac:(cbn; lia) ltac:(cbn; lia) ltac:(apply not_0_IZR; discriminate) (fmt_quarter 3%Z ltac:(lia)) ltac:(lra) (Q 3%Z ltac:(lia))) as [F4 B4].
  destruct (d_frac 1 4 (IZR 1 / 4) ltac:(cbn; lia) ltac:(cbn; lia) ltac:(apply not_0_IZR; discriminate) (fmt_quarter 1%Z ltac:(lia)) ltac:(lra) (Q 1%Z ltac:(lia))) as [F5 B5].
  destruct (d_ofZ_exact 0 ltac:(cbn; lia)) as [F0 B0]. destruct (d_ofZ_exact 1 ltac:(cbn; lia)) as [Fp Bp]. destruct (d_ofZ_exact (-1) ltac:(cbn; lia)) as [Fm Bm].
  change (n_ltb FMath) with d_ltb. change (n_leb FMath) with d_leb. change (n_eqb FMath) with d_eqb. change (n_div FMath) with d_div. change (n_ofZ FMath) with d_ofZ.
  rewrite !d_ltb_Rb, !d_leb_Rb, !d_eqb_R by assumption. rewrite B0, B1, B2, B3, B4, B5.
  replace (IZR (-2) / 4)%R with (IZR (-1) / 2)%R by lra. replace (IZR 2 / 4)%R with (IZR 1 / 2)%R by lra.
  change (n_ltb RMath) with R_ltb. change (n_leb RMath) with R_leb. change (n_eqb RMath) with R_eqb. change (n_div RMath) with Rdiv. change (n_ofZ RMath) with IZR.
  split; repeat match goal with |- context [if ?b then _ else _] => destruct b end; assumption.
Qed.
(** but NaN gives 1 + 1i (and not 0) *)
Theorem C54_haar_nan_refuted : haar_value FMath d_nan = (d_ofZ 1, d_ofZ 1).
Proof. reflexivity. Qed.

(** ** C54 Spline based wavelet (exact arithmetic). *)
Lemma init_points_exact n : 3 <= n -> exists ps : list R, init_points RMath n = Ok ps /\ length ps = n + 2 /\
  forall i, i < n + 2 -> nth_error ps i = Some (-4 + 8 / INR n * (INR i - 1))%R.
Proof.
  intro Hn. unfold init_points. cbn [n_div n_ofZ n_add n_mul n_sub RMath m_num RNum]. rewrite <- INR_IZR_INZ.
  set (d := (8 / INR n)%R). change (num RNum) with R. change (num RMath) with R.
  set (mid := map (fun i => (-4 + d * IZR (Z.of_nat i))%R) (seq 0 n)).
  assert (Lm : length mid = n) by (unfold mid; rewrite map_length, seq_length; reflexivity).
  assert (Nm : forall i, i < n -> nth_error mid i = Some (-4 + d * INR i)%R).
  { intros i Hi. unfold mid. rewrite nth_error_map, (nth_error_nth' _ 0) by (rewrite seq_length; exact Hi). rewrite seq_nth by exact Hi. cbn. rewrite <- INR_IZR_INZ. reflexivity. }
  set (pts := (0%R :: mid) ++ [0%R]). assert (Lp : length pts = n + 2) by (unfold pts; rewrite app_length; cbn; lia).
  assert (Np : forall i, 1 <= i <= n -> nth_error pts i = Some (-4 + d * (INR i - 1))%R).
  { intros i Hi. unfold pts. rewrite nth_error_app1 by (cbn; lia). destruct i as [|i]; [lia|]. cbn [nth_error]. rewrite Nm by lia. rewrite S_INR. do 2 f_equal. ring. }
  unfold at_ at 1. rewrite Np by lia. cbn [bind]. unfold at_ at 1. rewrite Np by lia. cbn [bind]. unfold set_at at 1. destruct (Nat.ltb_spec 0 (length pts)); [|lia]. cbn [bind].
  set (pts1 := upd pts 0 _). assert (L1 : length pts1 = n + 2) by (unfold pts1; rewrite upd_length; exact Lp).
  assert (N1 : forall i, 1 <= i <= n -> nth_error pts1 i = Some (-4 + d * (INR i - 1))%R).
  { intros i Hi. unfold pts1. rewrite nth_error_upd. destruct (Nat.eqb_spec 0 i); [lia|]. apply Np. exact Hi. }
  unfold at_ at 1. rewrite N1 by lia. cbn [bind]. unfold at_ at 1. rewrite N1 by lia. cbn [bind]. unfold set_at. destruct (Nat.ltb_spec (n + 2 - 1) (length pts1)); [|lia].
  eexists. split; [reflexivity|]. rewrite upd_length. split; [exact L1|]. intros i Hi. rewrite nth_error_upd.
  destruct (Nat.eqb_spec (n + 2 - 1) i) as [<-|Ne].
  - destruct (Nat.ltb_spec (n + 2 - 1) (length pts1)); [|lia]. f_equal.
    replace (n + 2 - 2) with n by lia. replace (n + 2 - 3) with (n - 1) by lia. replace (n + 2 - 1) with (n + 1) by lia. rewrite minus_INR by lia. rewrite plus_INR. cbn [INR]. ring.
  - destruct (Nat.eq_dec i 0) as [->|N0]; [|apply N1; lia]. unfold pts1. rewrite nth_error_upd. cbn [Nat.eqb]. destruct (Nat.ltb_spec 0 (length pts)); [|lia]. f_equal. cbn [INR]. ring.
Qed.

Section Wavelet.
Variable real imaj : list R.
Variable s : spline RMath.
Hypothesis Hn : 3 <= length real.
Hypothesis Hc : create_akima_wavelet RMath real imaj = Ok s.
Lemma wavelet_spline : exists ps : list R, length ps = length real + 2 /\ increasing ps /\ (forall i, i < length real + 2 -> nth_error ps i = Some (-4 + 8 / INR (length real) * (INR i - 1))%R) /\
  initialize RMath (new_spline RMath) ps (init_values RMath real) = (s, Ok tt).
Proof.
  destruct (init_points_exact (length real) Hn) as (ps & E & L & H). exists ps. split; [exact L|]. split; [|split; [exact H|]].
  - intros i a b Ha Hb. assert (Hi : S i < length ps) by (apply nth_error_Some; congruence).
    rewrite H in Ha, Hb by lia.
    assert (Ea : a = (-4 + 8 / INR (length real) * (INR i - 1))%R) by congruence. assert (Eb : b = (-4 + 8 / INR (length real) * (INR (S i) - 1))%R) by congruence. rewrite Ea, Eb, S_INR.
    assert (0 < 8 / INR (length real))%R by (apply Rdiv_lt_0_compat; [lra|apply lt_0_INR; lia]). nra.
  - unfold create_akima_wavelet in Hc. change (num RMath) with R in *. rewrite E in Hc. cbn [bind] in Hc.
    destruct (initialize RMath (new_spline RMath) ps (init_values RMath real)) as [s' [[]|e|u]]; try discriminate. injection Hc as <-. reflexivity.
Qed.
Lemma values_length : length (init_values RMath real) = length real + 2.
Proof. unfold init_values. cbn [length]. rewrite app_length. cbn [length]. change (num RMath) with R. lia. Qed.
Lemma wavelet_inside x : (-4 <= x <= 4)%R -> exists v, wavelet_value RMath s x = Ok (v, 0%R) /\ value RMath s x = Ok v.
Proof.
  intro Hx. destruct wavelet_spline as (ps & L & I & H & E).
  destruct (C52_interpolates _ _ ps (init_values RMath real) ltac:(lia) ltac:(pose proof values_length as VL; change (num RMath) with R in *; lia) I E) as (_ & D & _).
  destruct (D x) as (v & Ev).
  { rewrite (nth_error_nth ps 0 0%R (H 0 ltac:(lia))). rewrite (nth_error_nth ps (length ps - 1) 0%R (H (length ps - 1) ltac:(lia))).
    assert (0 < INR (length real))%R by (apply lt_0_INR; lia). assert (0 < 8 / INR (length real))%R by (apply Rdiv_lt_0_compat; lra).
    replace (INR (length ps - 1)) with (INR (length real) + 1)%R by (rewrite L; replace (length real + 2 - 1) with (S (length real)) by lia; rewrite S_INR; reflexivity).
    replace (-4 + 8 / INR (length real) * (INR (length real) + 1 - 1))%R with 4%R by (field; lra). cbn [INR]. lra. }
  exists v. unfold wavelet_value, wavelet_real. cbn [n_leb n_ofZ RMath m_num RNum].
  destruct (R_leb (-4) x) eqn:A; [|apply R_leb_false in A; lra]. destruct (R_leb x 4) eqn:B; [|apply R_leb_false in B; lra]. cbn [andb]. rewrite Ev. auto.
Qed.
Lemma wavelet_points i v : nth_error real i = Some v -> wavelet_value RMath s (-4 + 8 * INR i / INR (length real))%R = Ok (v, 0%R).
Proof.
  intro Hv. assert (Hi : i < length real) by (apply nth_error_Some; congruence).
  destruct wavelet_spline as (ps & L & I & H & E).
  destruct (C52_interpolates _ _ ps (init_values RMath real) ltac:(lia) ltac:(pose proof values_length as VL; change (num RMath) with R in *; lia) I E) as (K & _ & _).
  assert (0 < INR (length real))%R by (apply lt_0_INR; lia).
  assert (Px : nth_error ps (S i) = Some (-4 + 8 * INR i / INR (length real))%R) by (rewrite H by lia; f_equal; rewrite S_INR; field; lra).
  assert (Pv : nth_error (init_values RMath real) (S i) = Some v).
  { unfold init_values. cbn [nth_error]. change (num RMath) with R. rewrite nth_error_app1 by exact Hi. exact Hv. }
  destruct (wavelet_inside (-4 + 8 * INR i / INR (length real))%R) as (w & Ew & Vw).
  { apply lt_INR in Hi. pose proof (pos_INR i). assert (0 <= INR i / INR (length real) <= 1)%R.
    { split; [unfold Rdiv; apply Rmult_le_pos; [lra|left; apply Rinv_0_lt_compat; lra]|]. apply Rmult_le_reg_r with (INR (length real)); [lra|]. unfold Rdiv. rewrite Rmult_assoc, Rinv_l; lra. }
    unfold Rdiv in *. lra. }
  rewrite Ew. pose proof (eq_trans (eq_sym Vw) (K _ _ _ Px Pv)) as Q. injection Q as ->. reflexivity.
Qed.
Lemma wavelet_end : wavelet_value RMath s 4%R = Ok (0%R, 0%R).
Proof.
  destruct wavelet_spline as (ps & L & I & H & E).
  destruct (C52_interpolates _ _ ps (init_values RMath real) ltac:(lia) ltac:(pose proof values_length as VL; change (num RMath) with R in *; lia) I E) as (K & _ & _).
  assert (0 < INR (length real))%R by (apply lt_0_INR; lia).
  assert (Px : nth_error ps (S (length real)) = Some 4%R) by (rewrite H by lia; f_equal; rewrite S_INR; field; lra).
  assert (Pv : nth_error (init_values RMath real) (S (length real)) = Some 0%R).
  { unfold init_values. cbn [nth_error]. change (num RMath) with R. rewrite nth_error_app2 by lia. rewrite Nat.sub_diag. reflexivity. }
  destruct (wavelet_inside 4%R ltac:(lra)) as (w & Ew & Vw). rewrite Ew. pose proof (eq_trans (eq_sym Vw) (K _ _ _ Px Pv)) as Q. injection Q as ->. reflexivity.
Qed.
Lemma wavelet_outside x : (x < -4 \/ 4 < x)%R -> wavelet_value RMath s x = Ok (0%R, 0%R).
Proof.
  intro Hx. unfold wavelet_value, wavelet_real. cbn [n_leb n_ofZ RMath m_num RNum].
  destruct (R_leb (-4) x) eqn:A; [|reflexivity]. apply R_leb_true in A. destruct (R_leb x 4) eqn:B; [|reflexivity]. apply R_leb_true in B. exfalso. lra.
Qed.
End Wavelet.

(** With at least three control values an Akima wavelet can be created; it has a value everywhere, with imaginary part 0;
    it is 0 at every point outside [-4,4) and takes the control values at -4 + 8*i/n. *)
Theorem C54_spline_based : forall real imaj : list R, 3 <= length real -> exists s, create_akima_wavelet RMath real imaj = Ok s /\
  (forall x, exists v, wavelet_value RMath s x = Ok (v, 0%R)) /\
  (forall x, (x < -4 \/ 4 <= x)%R -> wavelet_value RMath s x = Ok (0%R, 0%R)) /\
  (forall i v, nth_error real i = Some v -> wavelet_value RMath s (-4 + 8 * INR i / INR (length real))%R = Ok (v, 0%R)).
Proof.
  intros real imaj Hn. destruct (init_points_exact (length real) Hn) as (ps & E & L & H).
  destruct (C52_initialize RMath (new_spline RMath) ps (init_values RMath real)) as [C _].
  destruct C as (s & Es & _); [pose proof (values_length real) as VL; change (num RMath) with R in *; lia|].
  assert (Hc : create_akima_wavelet RMath real imaj = Ok s).
  { unfold create_akima_wavelet. change (num RMath) with R in *. rewrite E. cbn [bind]. rewrite Es. reflexivity. }
  exists s. split; [exact Hc|]. split; [|split].
  - intro x. destruct (Rlt_dec x (-4)); [eexists; eapply wavelet_outside; lra|]. destruct (Rlt_dec 4 x); [eexists; eapply wavelet_outside; lra|].
    destruct (wavelet_inside real imaj s Hn Hc x ltac:(lra)) as (v & Ev & _). eauto.
  - intros x Hx. destruct (Req_EM_T x 4) as [->|N]; [apply (wavelet_end real imaj s Hn Hc)|apply wavelet_outside; lra].
  - intros i v. apply (wavelet_points real imaj s Hn Hc).
Qed.
(** Inside [-4,4] it is the Akima spline through the control values and two more zeros, one step before -4 and at 4. *)
Theorem C54_spline_knots : forall (real imaj : list R) s, 3 <= length real -> create_akima_wavelet RMath real imaj = Ok s ->
  initialize RMath (new_spline RMath) (map (fun i => -4 + 8 / INR (length real) * (INR i - 1))%R (seq 0 (length real + 2))) (0%R :: real ++ [0%R]) = (s, Ok tt) /\
  (forall x, (-4 <= x <= 4)%R -> exists v, value RMath s x = Ok v /\ wavelet_value RMath s x = Ok (v, 0%R)).
Proof.
  intros real imaj s Hn Hc. split.
  - destruct (wavelet_spline real imaj s Hn Hc) as (ps & L & _ & H & E). rewrite <- E. f_equal. apply PropHooke.nth_ext_eq. intro i. destruct (Nat.lt_ge_cases i (length real + 2)) as [Hi|Hi].
    + rewrite nth_error_map, H by exact Hi. rewrite (nth_error_nth' _ 0) by (rewrite seq_length; exact Hi). rewrite seq_nth by exact Hi. reflexivity.
    + rewrite (proj2 (nth_error_None ps i)) by lia. apply nth_error_None. rewrite map_length, seq_length. exact Hi.
  - intros x Hx. destruct (wavelet_inside real imaj s Hn Hc x Hx) as (v & A & B). exists v. auto.
Qed.
(** One or two control values are rejected, none is undefined behaviour, in any arithmetic. *)
Theorem C54_few_points : forall (M : MNum) (real imaj : list (num M)),
  (length real = 1 \/ length real = 2 -> create_akima_wavelet M real imaj = Throw InvalidArgument) /\
  (length real = 0 -> create_akima_wavelet M real imaj = UB OutOfBounds).
Proof.
  intros M real imaj. split.
  - intros [H|H]; unfold create_akima_wavelet; rewrite H; destruct real as [|a [|b [|c r]]]; try discriminate; reflexivity.
  - intro H. destruct real; [reflexivity|discriminate].
Qed.
(** With doubles "a value everywhere in [-4,4]" fails: for three control values, whatever they are, the value at 4 throws
    out_of_range (the last training point is 3.9999999999999996). *)
Theorem C54_end_binary64_refuted : forall (a b c : dbl) (imaj : list dbl), exists s,
  create_akima_wavelet FMath [a; b; c] imaj = Ok s /\ wavelet_value FMath s (d_ofZ 4) = Throw OutOfRange.
Proof.
  intros a b c imaj.
  assert (P : exists ps, init_points FMath 3 = Ok ps /\ length ps = 5 /\ forallb (fun t => d_ltb t (d_ofZ 4)) ps = true).
  { destruct (init_points FMath 3) as [ps|e|u] eqn:E.
    - exists ps. split; [reflexivity|].
      assert (Q : match init_points FMath 3 with Ok ps => (Nat.eqb (length ps) 5 && forallb (fun t => d_ltb t (d_ofZ 4)) ps)%bool | _ => false end = true) by (vm_compute; reflexivity).
      rewrite E in Q. apply andb_true_iff in Q as [Q1 Q2]. apply Nat.eqb_eq in Q1. auto.
    - exfalso. assert (Q : match init_points FMath 3 with Ok _ => true | _ => false end = true) by (vm_compute; reflexivity). rewrite E in Q. discriminate.
    - exfalso. assert (Q : match init_points FMath 3 with Ok _ => true | _ => false end = true) by (vm_compute; reflexivity). rewrite E in Q. discriminate. }
  destruct P as (ps & E & L & F). change (num FMath) with dbl in *.
  destruct (C52_initialize FMath (new_spline FMath) ps (init_values FMath [a; b; c])) as [C _].
  destruct C as (s & Es & Ex & _); [change (num FMath) with dbl; rewrite L; cbn; lia|].
  exists s. split.
  - unfold create_akima_wavelet. cbn [length]. change (num FMath) with dbl in *. rewrite E. cbn [bind]. rewrite Es. reflexivity.
  - unfold wavelet_value, wavelet_real.
    replace (n_leb FMath (n_ofZ FMath (-4)) (d_ofZ 4) && n_leb FMath (d_ofZ 4) (n_ofZ FMath 4))%bool with true by (vm_compute; reflexivity).
    unfold value, resolve_interval. rewrite Ex. change (num FMath) with dbl in *. clear - F L.
    assert (U : forall l : list dbl, forallb (fun t => d_ltb t (d_ofZ 4)) l = true -> upper_bound FMath (d_ofZ 4) l = length l /\ lower_bound FMath (d_ofZ 4) l = length l).
    { induction l as [|t r IH]; intro H; [split; reflexivity|]. cbn [forallb] in H. apply andb_true_iff in H as [H1 H2]. destruct (IH H2) as [A B]. cbn [upper_bound lower_bound length].
      change (n_ltb FMath (d_ofZ 4) t) with (d_ltb (d_ofZ 4) t). change (n_ltb FMath t (d_ofZ 4)) with (d_ltb t (d_ofZ 4)). rewrite H1.
      assert (N : d_ltb (d_ofZ 4) t = false).
      { destruct (d_ltb (d_ofZ 4) t) eqn:Q; [|reflexivity]. pose proof (d_ltb_trans _ _ _ H1 Q) as T. rewrite d_ltb_irrefl in T. discriminate. }
      rewrite N, A, B. auto. }
    destruct (U ps F) as [-> ->]. rewrite L. reflexivity.
Qed.
Print Assumptions C54_haar. Print Assumptions C54_haar_binary64. Print Assumptions C54_haar_nan_refuted. Print Assumptions C54_spline_based. Print Assumptions C54_spline_knots.
Print Assumptions C54_few_points. Print Assumptions C54_end_binary64_refuted.
