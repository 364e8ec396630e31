(** C48, C49, C50: circular convolution, the discrete Fourier transform and its inverse, with exact complex arithmetic. *)
From Coq Require Import Reals Ratan Psatz Permutation FunctionalExtensionality.
From Coquelicot Require Import Complex.
From Verif Require Import Base Num Optim Searches Hooke PropHooke PropSearches Dsp.
Local Open Scope nat_scope.
Local Open Scope list_scope.

(** *** Specification vocabulary: finite sums of complex numbers, and e^(i t). C, Cplus, Cmult, Cconj, Cmod are those of
    Coquelicot. *)
Fixpoint csum (n : nat) (f : nat -> C) : C := match n with O => RtoC 0 | S m => Cplus (csum m f) (f m) end.
Definition cis (t : R) : C := (cos t, sin t).

(** *** Sums *)
Lemma csum_ext n f g : (forall i, i < n -> f i = g i) -> csum n f = csum n g.
Proof. induction n; intro H; cbn; [reflexivity|]. rewrite IHn, H by (intros; try apply H; lia). reflexivity. Qed.
Lemma csum_plus n f g : csum n (fun i => Cplus (f i) (g i)) = Cplus (csum n f) (csum n g).
Proof. induction n; cbn; [ring|]. rewrite IHn. ring. Qed.
Lemma csum_scale n c f : csum n (fun i => Cmult c (f i)) = Cmult c (csum n f).
Proof. induction n; cbn; [ring|]. rewrite IHn. ring. Qed.
Lemma csum_scale_r n c f : csum n (fun i => Cmult (f i) c) = Cmult (csum n f) c.
Proof. induction n; cbn; [ring|]. rewrite IHn. ring. Qed.
Lemma csum_zero n : csum n (fun _ => RtoC 0) = RtoC 0.
Proof. induction n; cbn; [reflexivity|]. rewrite IHn. ring. Qed.
Lemma csum_swap n m f : csum n (fun i => csum m (fun j => f i j)) = csum m (fun j => csum n (fun i => f i j)).
Proof.
  induction n as [|n IH]; cbn [csum]; [rewrite csum_zero; reflexivity|]. rewrite IH, <- csum_plus. reflexivity.
Qed.
Lemma csum_delta n k f : k < n -> csum n (fun i => if Nat.eqb i k then f i else RtoC 0) = f k.
Proof.
  induction n; intro H; [lia|]. cbn [csum]. destruct (Nat.eqb_spec n k) as [->|Ne].
  - rewrite (csum_ext _ _ (fun _ => RtoC 0)); [rewrite csum_zero; ring|]. intros i Hi. destruct (Nat.eqb_spec i k); [lia|reflexivity].
  - rewrite IHn by lia. ring.
Qed.
Lemma cconj_conj z : Cconj (Cconj z) = z.
Proof. apply injective_projections; cbn; ring. Qed.
Lemma cmult_conj z w : Cconj (Cmult z w) = Cmult (Cconj z) (Cconj w).
Proof. apply injective_projections; cbn; ring. Qed.
Lemma csum_conj n f : Cconj (csum n f) = csum n (fun i => Cconj (f i)).
Proof. induction n; cbn [csum]; [apply injective_projections; cbn; ring|]. rewrite <- IHn. apply injective_projections; cbn; ring. Qed.
(** a sum does not depend on the order: re-indexing by a map of {0..n-1} to itself without collisions *)
Lemma csum_list n f : csum n f = fold_right (fun i s => Cplus (f i) s) (RtoC 0) (seq 0 n).
Proof.
  assert (G : forall l s, fold_right (fun i s => Cplus (f i) s) s l = Cplus (fold_right (fun i s => Cplus (f i) s) (RtoC 0) l) s).
  { induction l as [|a l IH]; intro s; cbn; [ring|]. rewrite IH. ring. }
  induction n; [reflexivity|]. rewrite seq_S, fold_right_app, G. cbn [csum]. rewrite IHn. cbn [fold_right Nat.add]. ring.
Qed.
Lemma csum_reindex n f g : (forall i, i < n -> g i < n) -> (forall i j, i < n -> j < n -> g i = g j -> i = j) ->
  csum n (fun i => f (g i)) = csum n f.
Proof.
  intros B I. rewrite !csum_list.
  assert (P : Permutation (map g (seq 0 n)) (seq 0 n)).
  { apply NoDup_Permutation_bis.
    - assert (G : forall l, NoDup l -> (forall i, In i l -> i < n) -> NoDup (map g l)).
      { induction l as [|a l IH]; intros N H; [constructor|]. inversion N; subst. cbn. constructor; [|apply IH; auto; intros; apply H; right; auto].
        intro X. apply in_map_iff in X as (y & E & Hy). apply I in E; [subst; contradiction| |]; apply H; cbn; auto. }
      apply G; [apply seq_NoDup|]. intros i Hi. apply in_seq in Hi. lia.
    - rewrite map_length. reflexivity.
    - intros y Hy. apply in_map_iff in Hy as (x & <- & Hx). apply in_seq in Hx. apply in_seq. specialize (B x). lia. }
  assert (Q : forall l l', Permutation l l' -> fold_right (fun i s => Cplus (f i) s) (RtoC 0) l = fold_right (fun i s => Cplus (f i) s) (RtoC 0) l').
  { intros l l' H. induction H; cbn; try reflexivity; [rewrite IHPermutation; reflexivity|ring|congruence]. }
  rewrite <- (Q _ _ P). clear. induction (seq 0 n) as [|a l IH]; cbn; [reflexivity|]. rewrite IH. reflexivity.
Qed.

(** *** e^(i t) *)
Lemma cis_add a b : cis (a + b) = Cmult (cis a) (cis b).
Proof. unfold cis, Cmult. cbn [fst snd]. rewrite cos_plus, sin_plus. apply injective_projections; cbn; ring. Qed.
Lemma cis_0 : cis 0 = RtoC 1.
Proof. unfold cis. rewrite cos_0, sin_0. reflexivity. Qed.
Lemma cis_conj t : Cconj (cis t) = cis (- t).
Proof. unfold cis, Cconj. cbn. rewrite cos_neg, sin_neg. reflexivity. Qed.
Lemma cis_nat n : cis (2 * PI * INR n) = RtoC 1.
Proof.
  induction n as [|n IH]; [cbn; rewrite Rmult_0_r; apply cis_0|]. rewrite S_INR, Rmult_plus_distr_l, cis_add, IH, Rmult_1_r.
  unfold cis. rewrite cos_2PI, sin_2PI. apply injective_projections; cbn; ring.
Qed.
Lemma cis_ne_1 t : (0 < t < 2 * PI)%R -> cis t <> RtoC 1.
Proof.
  intros H E. apply (f_equal fst) in E. cbn in E. replace t with (2 * (t / 2))%R in E by lra. rewrite cos_2a_sin in E.
  pose proof (sin_gt_0 (t / 2) ltac:(lra) ltac:(lra)). nra.
Qed.
(** the root of unity sums *)
Definition angle (N : nat) (k n : nat) : R := (2 * PI * INR k * INR n / INR N)%R.
Lemma angle_sym N k n : angle N k n = angle N n k.
Proof. unfold angle. lra. Qed.
Fixpoint cpow (z : C) (n : nat) : C := match n with O => RtoC 1 | S m => Cmult (cpow z m) z end.
Lemma geometric z n : Cmult (Cminus (RtoC 1) z) (csum n (cpow z)) = Cminus (RtoC 1) (cpow z n).
Proof. induction n; cbn [csum cpow]; [ring|]. rewrite Cmult_plus_distr_l, IHn. ring. Qed.
Lemma cis_pow t n : cpow (cis t) n = cis (t * INR n).
Proof.
  induction n; cbn [cpow]; [cbn; rewrite Rmult_0_r, cis_0; reflexivity|]. rewrite IHn, <- cis_add, S_INR. f_equal. ring.
Qed.
Lemma root_sum_0 N t : cis t <> RtoC 1 -> cis (t * INR N) = RtoC 1 -> csum N (fun k => cis (t * INR k)) = RtoC 0.
Proof.
  intros H1 HN. rewrite (csum_ext _ _ (cpow (cis t))) by (intros; rewrite cis_pow; reflexivity).
  pose proof (geometric (cis t) N) as G. rewrite cis_pow, HN in G.
  assert (Nz : Cminus (RtoC 1) (cis t) <> RtoC 0).
  { intro E. apply H1. replace (cis t) with (Cminus (RtoC 1) (Cminus (RtoC 1) (cis t))) by ring. rewrite E. ring. }
  replace (csum N (cpow (cis t))) with (Cmult (Cinv (Cminus (RtoC 1) (cis t))) (Cmult (Cminus (RtoC 1) (cis t)) (csum N (cpow (cis t))))) by (field; exact Nz).
  rewrite G. ring.
Qed.
Lemma csum_const n c : csum n (fun _ => c) = Cmult (RtoC (INR n)) c.
Proof. induction n; cbn [csum]; [cbn; ring|]. rewrite IHn, S_INR, RtoC_plus. ring. Qed.
(** orthogonality: sum over k of e^(2 pi i k (n-m) / N) is N when n = m and 0 otherwise *)
Lemma orthogonal N n m : n < N -> m < N ->
  csum N (fun k => Cmult (cis (angle N k n)) (cis (- angle N k m))) = if Nat.eqb n m then RtoC (INR N) else RtoC 0.
Proof.
  intros Hn Hm. assert (N0 : (0 < INR N)%R) by (apply lt_0_INR; lia). pose proof PI_RGT_0 as P0.
  rewrite (csum_ext _ _ (fun k => cis ((2 * PI * (INR n - INR m) / INR N) * INR k))).
  2:{ intros k _. rewrite <- cis_add. f_equal. unfold angle. field. lra. }
  destruct (Nat.eqb_spec n m) as [->|Ne].
  - rewrite (csum_ext _ _ (fun _ => RtoC 1)); [rewrite csum_const; ring|]. intros k _. rewrite <- cis_0. f_equal. field. lra.
  - assert (Bn : (INR n < INR N)%R) by (apply lt_INR; exact Hn). assert (Bm : (INR m < INR N)%R) by (apply lt_INR; exact Hm).
    assert (I : forall a b, b < a -> a < N -> csum N (fun k => cis (2 * PI * (INR a - INR b) / INR N * INR k)) = RtoC 0).
    { intros a b Hab Ha. apply root_sum_0.
      - apply cis_ne_1. apply lt_INR in Hab. apply lt_INR in Ha. pose proof (pos_INR b). 
        assert (Q : (0 < (INR a - INR b) / INR N < 1)%R).
        { split; [apply Rdiv_lt_0_compat; lra|]. apply Rmult_lt_reg_r with (INR N); [lra|]. unfold Rdiv. rewrite Rmult_assoc, Rinv_l by lra. lra. }
        replace (2 * PI * (INR a - INR b) / INR N)%R with (2 * PI * ((INR a - INR b) / INR N))%R by (field; lra). nra.
      - replace (2 * PI * (INR a - INR b) / INR N * INR N)%R with (2 * PI * INR (a - b))%R by (rewrite minus_INR by lia; field; lra). apply cis_nat. }
    destruct (Nat.lt_ge_cases m n) as [L|L]; [apply I; auto|].
    assert (E : Cconj (csum N (fun k => cis (2 * PI * (INR n - INR m) / INR N * INR k))) = RtoC 0).
    { rewrite csum_conj. rewrite <- (I m n ltac:(lia) Hm). apply csum_ext. intros k _. rewrite cis_conj. f_equal. field. lra. }
    apply (f_equal Cconj) in E. rewrite cconj_conj in E. rewrite E. apply injective_projections; cbn; ring.
Qed.

(** *** The model with exact arithmetic *)
Lemma dft_loop_sum N k : forall (x : list C) n acc,
  dft_loop RTrig N k n x acc = Cplus acc (csum (length x) (fun i => Cmult (nth i x (RtoC 0)) (twiddle RTrig N k (n + i)))).
Proof.
  induction x as [|v r IH]; intros n acc; [cbn; apply injective_projections; cbn; ring|].
  cbn [dft_loop length]. rewrite IH.
  assert (S1 : forall m f, csum (S m) f = Cplus (f 0) (csum m (fun i => f (S i)))).
  { clear. induction m; intro f; [cbn; ring|]. change (csum (S (S m)) f) with (Cplus (csum (S m) f) (f (S m))). rewrite IHm. cbn [csum]. ring. }
  rewrite S1. cbn [nth]. rewrite Nat.add_0_r.
  change (c_add RTrig acc (c_mul RTrig v (twiddle RTrig N k n))) with (Cplus acc (Cmult v (twiddle RTrig N k n))).
  rewrite <- Cplus_assoc. do 2 f_equal. apply csum_ext. intros i _. do 2 f_equal. lia.
Qed.
Lemma twiddle_cis N k n : 0 < N -> twiddle RTrig N k n = cis (- angle N k n).
Proof.
  intro H. assert (N0 : INR N <> 0%R) by (apply not_0_INR; lia).
  unfold twiddle, c_exp, c_div_r, c_scale_r, c_scale, imaginary_unit, nat_num, t_pi. cbn.
  rewrite asin_1, <- !INR_IZR_INZ. unfold cis, angle.
  replace (-2 * (2 * (PI / 2)) * 0 * INR k * INR n / INR N)%R with 0%R by (field; exact N0). rewrite exp_0, !Rmult_1_l.
  replace (-2 * (2 * (PI / 2)) * 1 * INR k * INR n / INR N)%R with (- (2 * PI * INR k * INR n / INR N))%R by (field; exact N0). reflexivity.
Qed.
Definition dft_value (x : list C) (k : nat) : C :=
  csum (length x) (fun n => Cmult (nth n x (RtoC 0)) (cis (- angle (length x) k n))).
Lemma dft_exact (x : list C) : fourier_transform RTrig x = Ok (map (dft_value x) (seq 0 (length x))).
Proof.
  unfold fourier_transform. f_equal. apply map_ext_in. intros k Hk. apply in_seq in Hk. rewrite dft_loop_sum.
  change (c_zero RTrig) with (RtoC 0). unfold dft_value. rewrite Cplus_0_l. apply csum_ext. intros i Hi. cbn [Nat.add]. rewrite twiddle_cis; [reflexivity|].
  change (num RTrig) with R. change (cplx RTrig) with C in *. lia.
Qed.
Lemma nth_map_seq {A} (f : nat -> A) N i d : i < N -> nth i (map f (seq 0 N)) d = f i.
Proof. intro H. rewrite (nth_indep _ d (f 0)) by (rewrite map_length, seq_length; exact H). rewrite map_nth, seq_nth by exact H. reflexivity. Qed.
Lemma map_nth_seq (x : list C) : map (fun i => nth i x (RtoC 0)) (seq 0 (length x)) = x.
Proof.
  apply nth_ext with (d := RtoC 0) (d' := RtoC 0); [rewrite map_length, seq_length; reflexivity|].
  intros n Hn. rewrite map_length, seq_length in Hn. apply (nth_map_seq (fun i => nth i x (RtoC 0))). exact Hn.
Qed.
Lemma div_first_all d : forall l : list C, div_first RTrig (length l) d l = Ok (map (fun z => c_div_r RTrig z d) l).
Proof. induction l as [|z r IH]; [reflexivity|]. cbn [length div_first map]. rewrite IH. reflexivity. Qed.
Lemma nth_conj : forall (x : list C) k, nth k (map (c_conj RTrig) x) (RtoC 0) = Cconj (nth k x (RtoC 0)).
Proof. induction x as [|z x IH]; intros [|k]; cbn [map nth]; auto; apply injective_projections; cbn; ring. Qed.
Definition idft_value (x : list C) (n : nat) : C :=
  Cmult (RtoC (/ INR (length x))) (csum (length x) (fun k => Cmult (nth k x (RtoC 0)) (cis (angle (length x) k n)))).
Lemma idft_exact (x : list C) : inverse_transform RTrig (fourier_transform RTrig) x = Ok (map (idft_value x) (seq 0 (length x))).
Proof.
  unfold inverse_transform, conjugate. rewrite (dft_exact (map (c_conj RTrig) x)). cbn [bind]. rewrite map_map.
  pose proof (div_first_all (nat_num RTrig (length x)) (map (fun k => c_conj RTrig (dft_value (map (c_conj RTrig) x) k)) (seq 0 (length x)))) as D.
  rewrite map_length, seq_length in D. rewrite map_length. etransitivity; [exact D|]. clear D. set (N := length x). 
  rewrite map_map. f_equal. apply map_ext_in. intros n Hn. apply in_seq in Hn.
  assert (CC : forall z : C, c_conj RTrig z = Cconj z) by (intro z; apply injective_projections; cbn; ring).
  assert (DD : forall z : C, c_div_r RTrig z (nat_num RTrig N) = Cmult (RtoC (/ INR N)) z).
  { intro z. unfold c_div_r, nat_num. cbn. rewrite <- INR_IZR_INZ. apply injective_projections; cbn; unfold Rdiv; ring. }
  rewrite DD, CC. unfold idft_value, dft_value. rewrite map_length. fold N. f_equal. rewrite csum_conj. apply csum_ext. intros k Hk.
  rewrite cmult_conj. etransitivity; [apply f_equal2; [apply f_equal; exact (nth_conj x k)|reflexivity]|].
  rewrite cconj_conj, cis_conj, Ropp_involutive. f_equal. f_equal. apply angle_sym.
Qed.

(** ** C49 *)
(** the transform is the sum of the definition, for every signal, of every length *)
Theorem C49_definition : forall x : list C, exists y, fourier_transform RTrig x = Ok y /\ length y = length x /\
  forall k, k < length x -> nth k y (RtoC 0) =
    csum (length x) (fun n => Cmult (nth n x (RtoC 0)) (cis (- (2 * PI * INR k * INR n / INR (length x))))).
Proof.
  intro x. eexists. split; [apply dft_exact|]. split; [rewrite map_length, seq_length; reflexivity|].
  intros k Hk. rewrite nth_map_seq by exact Hk. reflexivity.
Qed.
(** the inverse transform undoes the transform ... *)
Theorem C49_inverse_left : forall x : list C,
  (let! y := fourier_transform RTrig x in inverse_transform RTrig (fourier_transform RTrig) y) = Ok x.
Proof.
  intro x. rewrite dft_exact. cbn [bind]. rewrite idft_exact, map_length, seq_length.
  transitivity (Ok (map (fun i => nth i x (RtoC 0)) (seq 0 (length x)))); [|rewrite map_nth_seq; reflexivity]. f_equal. apply map_ext_in. intros m Hm. apply in_seq in Hm.
  unfold idft_value. rewrite map_length, seq_length. set (N := length x) in *.
  rewrite (csum_ext _ _ (fun k => csum N (fun n => Cmult (nth n x (RtoC 0)) (Cmult (cis (angle N k m)) (cis (- angle N k n)))))).
  2:{ intros k Hk. rewrite nth_map_seq by exact Hk. unfold dft_value. fold N. rewrite <- csum_scale_r. apply csum_ext. intros; ring. }
  rewrite csum_swap.
  rewrite (csum_ext _ _ (fun n => if Nat.eqb n m then Cmult (nth n x (RtoC 0)) (RtoC (INR N)) else RtoC 0)).
  2:{ intros n Hn. rewrite csum_scale, orthogonal by lia. rewrite Nat.eqb_sym. destruct (Nat.eqb n m); ring. }
  rewrite csum_delta by lia.
  replace (Cmult (RtoC (/ INR N)) (Cmult (nth m x (RtoC 0)) (RtoC (INR N)))) with (Cmult (RtoC (/ INR N * INR N)) (nth m x (RtoC 0))) by (rewrite RtoC_mult; ring).
  rewrite Rinv_l by (apply not_0_INR; lia). ring.
Qed.
(** ... and the transform undoes the inverse transform *)
Theorem C49_inverse_right : forall x : list C,
  (let! y := inverse_transform RTrig (fourier_transform RTrig) x in fourier_transform RTrig y) = Ok x.
Proof.
  intro x. rewrite idft_exact. cbn [bind]. rewrite dft_exact, map_length, seq_length.
  transitivity (Ok (map (fun i => nth i x (RtoC 0)) (seq 0 (length x)))); [|rewrite map_nth_seq; reflexivity]. f_equal. apply map_ext_in. intros m Hm. apply in_seq in Hm.
  unfold dft_value. rewrite map_length, seq_length. set (N := length x) in *.
  rewrite (csum_ext _ _ (fun n => csum N (fun k => Cmult (Cmult (RtoC (/ INR N)) (nth k x (RtoC 0))) (Cmult (cis (angle N n k)) (cis (- angle N n m)))))).
  2:{ intros n Hn. rewrite nth_map_seq by exact Hn. unfold idft_value. fold N. rewrite <- csum_scale, <- csum_scale_r. apply csum_ext. intros k Hk.
      rewrite (angle_sym N k n), (angle_sym N m n). ring. }
  rewrite csum_swap.
  rewrite (csum_ext _ _ (fun k => if Nat.eqb k m then Cmult (Cmult (RtoC (/ INR N)) (nth k x (RtoC 0))) (RtoC (INR N)) else RtoC 0)).
  2:{ intros k Hk. rewrite csum_scale, orthogonal by lia. destruct (Nat.eqb k m); ring. }
  rewrite csum_delta by lia.
  replace (Cmult (Cmult (RtoC (/ INR N)) (nth m x (RtoC 0))) (RtoC (INR N))) with (Cmult (RtoC (/ INR N * INR N)) (nth m x (RtoC 0))) by (rewrite RtoC_mult; ring).
  rewrite Rinv_l by (apply not_0_INR; lia). ring.
Qed.
(** linearity *)
Theorem C49_linear : forall (x y z fx fy fz : list C) (a b : C), length x = length y -> length z = length x ->
  (forall n, n < length x -> nth n z (RtoC 0) = Cplus (Cmult a (nth n x (RtoC 0))) (Cmult b (nth n y (RtoC 0)))) ->
  fourier_transform RTrig x = Ok fx -> fourier_transform RTrig y = Ok fy -> fourier_transform RTrig z = Ok fz ->
  forall k, k < length x -> nth k fz (RtoC 0) = Cplus (Cmult a (nth k fx (RtoC 0))) (Cmult b (nth k fy (RtoC 0))).
Proof.
  intros x y z fx fy fz a b Lxy Lz Hz Fx Fy Fz k Hk. rewrite dft_exact in Fx, Fy, Fz. injection Fx as <-. injection Fy as <-. injection Fz as <-.
  rewrite !nth_map_seq by lia. unfold dft_value. rewrite Lz, <- Lxy, <- !csum_scale, <- csum_plus. apply csum_ext. intros n Hn. rewrite Hz by exact Hn. ring.
Qed.
(** Parseval: the energy of the transform is N times the energy of the signal *)
Theorem C49_parseval : forall x y : list C, fourier_transform RTrig x = Ok y ->
  csum (length x) (fun k => RtoC (Cmod (nth k y (RtoC 0)) ^ 2)) = Cmult (RtoC (INR (length x))) (csum (length x) (fun n => RtoC (Cmod (nth n x (RtoC 0)) ^ 2))).
Proof.
  intros x y H. rewrite dft_exact in H. injection H as <-. set (N := length x).
  assert (M : forall z, RtoC (Cmod z ^ 2) = Cmult z (Cconj z)).
  { intro z. unfold Cmod. rewrite pow2_sqrt by nra. apply injective_projections; cbn; ring. }
  rewrite (csum_ext _ _ (fun k => csum N (fun n => csum N (fun m => Cmult (Cmult (nth n x (RtoC 0)) (Cconj (nth m x (RtoC 0)))) (Cmult (cis (angle N k m)) (cis (- angle N k n))))))).
  2:{ intros k Hk. rewrite nth_map_seq by exact Hk. rewrite M. unfold dft_value at 1. fold N. rewrite <- csum_scale_r. apply csum_ext. intros n Hn.
      unfold dft_value. fold N. rewrite csum_conj, <- csum_scale. apply csum_ext. intros m Hm. rewrite cmult_conj, cis_conj, Ropp_involutive. ring. }
  rewrite csum_swap, <- csum_scale. apply csum_ext. intros n Hn. rewrite csum_swap.
  rewrite (csum_ext _ _ (fun m => if Nat.eqb m n then Cmult (Cmult (nth n x (RtoC 0)) (Cconj (nth m x (RtoC 0)))) (RtoC (INR N)) else RtoC 0)).
  2:{ intros m Hm. rewrite csum_scale, orthogonal by assumption. destruct (Nat.eqb m n); ring. }
  rewrite csum_delta by exact Hn. rewrite M. ring.
Qed.

(** *** Circular convolution with exact arithmetic *)
Definition conv_value (a b : list C) (n : nat) : C :=
  csum (length a) (fun m => Cmult (nth m a (RtoC 0)) (nth ((n + length a - m) mod length a) b (RtoC 0))).
Lemma conv_index N n m : n < N -> m < N -> (if Nat.leb m n then n - m else N + n - m) = (n + N - m) mod N.
Proof.
  intros Hn Hm. destruct (Nat.leb_spec m n) as [L|L].
  - replace (n + N - m) with (n - m + 1 * N) by lia. rewrite Nat.mod_add by lia. symmetry. apply Nat.mod_small. lia.
  - rewrite Nat.mod_small by lia. lia.
Qed.
Lemma conv_loop_sum (a b : list C) n : length a = length b -> n < length a -> forall count m acc, m + count = length a ->
  conv_loop RTrig a b n m count acc =
  Ok (Cplus acc (csum count (fun i => Cmult (nth (m + i) a (RtoC 0)) (nth ((n + length a - (m + i)) mod length a) b (RtoC 0))))).
Proof.
  intros L Hn. induction count as [|c IH]; intros m acc E; [cbn; rewrite Cplus_0_r; reflexivity|].
  cbn [conv_loop]. change (cplx RTrig) with C in *.
  destruct (at_in a m ltac:(lia)) as (x & Ex & Nx). rewrite Ex. cbn [bind].
  rewrite conv_index by lia.
  destruct (at_in b ((n + length a - m) mod length a)) as (y & Ey & Ny); [rewrite <- L; apply Nat.mod_upper_bound; lia|]. rewrite Ey. cbn [bind].
  rewrite IH by lia. f_equal. change (c_add RTrig acc (c_mul RTrig x y)) with (Cplus acc (Cmult x y)). rewrite <- Cplus_assoc. f_equal.
  assert (S1 : forall m f, csum (S m) f = Cplus (f 0) (csum m (fun i => f (S i)))).
  { clear. induction m; intro f; [cbn; ring|]. change (csum (S (S m)) f) with (Cplus (csum (S m) f) (f (S m))). rewrite IHm. cbn [csum]. ring. }
  rewrite S1, Nat.add_0_r, (nth_error_nth _ _ _ Nx), (nth_error_nth _ _ _ Ny). f_equal. apply csum_ext. intros i _. rewrite <- plus_n_Sm. reflexivity.
Qed.
Lemma conv_exact (a b : list C) : length a = length b -> circular_convolution RTrig a b = Ok (map (conv_value a b) (seq 0 (length a))).
Proof.
  intro L. unfold circular_convolution. change (cplx RTrig) with C. rewrite L, Nat.eqb_refl, <- L. cbn [negb].
  apply mapM_ok_nth. split; [rewrite map_length, seq_length; reflexivity|].
  intros i n z Hi Hz. rewrite nth_error_map, Hi in Hz. injection Hz as <-. apply nth_error_In, in_seq in Hi.
  rewrite conv_loop_sum by lia. unfold conv_value. change (c_zero RTrig) with (RtoC 0). rewrite Cplus_0_l. reflexivity.
Qed.

(** ** C48 *)
Theorem C48_definition : forall a b : list C, length a = length b -> exists c, circular_convolution RTrig a b = Ok c /\ length c = length a /\
  forall n, n < length a -> nth n c (RtoC 0) =
    csum (length a) (fun m => Cmult (nth m a (RtoC 0)) (nth ((n + length a - m) mod length a) b (RtoC 0))).
Proof.
  intros a b L. eexists. split; [apply conv_exact; exact L|]. split; [rewrite map_length, seq_length; reflexivity|].
  intros n Hn. rewrite nth_map_seq by exact Hn. reflexivity.
Qed.
Theorem C48_different_lengths : forall (T : TNum) (a b : list (cplx T)), length a <> length b -> circular_convolution T a b = Throw RuntimeError.
Proof. intros T a b H. unfold circular_convolution. destruct (Nat.eqb_spec (length a) (length b)); [contradiction|reflexivity]. Qed.

Lemma mod_cancel N m j : m < N -> j < N -> ((m + j) mod N + N - m) mod N = j.
Proof.
  intros Hm Hj. destruct (Nat.lt_ge_cases (m + j) N) as [L|L].
  - rewrite (Nat.mod_small (m + j)) by exact L. replace (m + j + N - m) with (j + 1 * N) by lia. rewrite Nat.mod_add by lia. apply Nat.mod_small. exact Hj.
  - replace (m + j) with (m + j - N + 1 * N) by lia. rewrite Nat.mod_add by lia. rewrite (Nat.mod_small (m + j - N)) by lia.
    replace (m + j - N + N - m) with j by lia. apply Nat.mod_small. exact Hj.
Qed.
Lemma shift_inj N m i j : m < N -> i < N -> j < N -> (m + i) mod N = (m + j) mod N -> i = j.
Proof. intros Hm Hi Hj E. rewrite <- (mod_cancel N m i Hm Hi), <- (mod_cancel N m j Hm Hj), E. reflexivity. Qed.
Lemma csum_shift N m F : m < N -> csum N (fun j => F ((m + j) mod N)) = csum N F.
Proof.
  intro Hm. apply (csum_reindex N F (fun j => (m + j) mod N)); [intros; apply Nat.mod_upper_bound; lia|]. intros i j Hi Hj. apply shift_inj; assumption.
Qed.
Lemma reflect_twice N n m : n < N -> m < N -> (n + N - (n + N - m) mod N) mod N = m.
Proof.
  intros Hn Hm. destruct (Nat.lt_ge_cases n m) as [L|L].
  - rewrite (Nat.mod_small (n + N - m)) by lia. replace (n + N - (n + N - m)) with m by lia. apply Nat.mod_small. exact Hm.
  - replace (n + N - m) with (n - m + 1 * N) by lia. rewrite Nat.mod_add by lia. rewrite (Nat.mod_small (n - m)) by lia.
    replace (n + N - (n - m)) with (m + 1 * N) by lia. rewrite Nat.mod_add by lia. apply Nat.mod_small. exact Hm.
Qed.
Lemma csum_reflect N n F : n < N -> csum N (fun m => F ((n + N - m) mod N)) = csum N F.
Proof.
  intro Hn. apply (csum_reindex N F (fun m => (n + N - m) mod N)); [intros; apply Nat.mod_upper_bound; lia|].
  intros i j Hi Hj E. rewrite <- (reflect_twice N n i Hn Hi), <- (reflect_twice N n j Hn Hj), E. reflexivity.
Qed.

(** commutative, also in failing *)
Theorem C48_commutative : forall a b : list C, circular_convolution RTrig a b = circular_convolution RTrig b a.
Proof.
  intros a b. destruct (Nat.eq_dec (length a) (length b)) as [L|L].
  - rewrite !conv_exact by congruence. rewrite <- L. f_equal. apply map_ext_in. intros n Hn. apply in_seq in Hn. unfold conv_value. rewrite <- L.
    rewrite <- (csum_reflect (length a) n) by lia. apply csum_ext. intros m Hm. rewrite reflect_twice by lia. ring.
  - rewrite !C48_different_lengths by (change (cplx RTrig) with C; congruence). reflexivity.
Qed.
(** linear in the first signal (hence, by commutativity, in the second) *)
Theorem C48_linear : forall (x y z b cx cy cz : list C) (s t : C), length x = length y -> length z = length x ->
  (forall n, n < length x -> nth n z (RtoC 0) = Cplus (Cmult s (nth n x (RtoC 0))) (Cmult t (nth n y (RtoC 0)))) ->
  circular_convolution RTrig x b = Ok cx -> circular_convolution RTrig y b = Ok cy -> circular_convolution RTrig z b = Ok cz ->
  forall n, n < length x -> nth n cz (RtoC 0) = Cplus (Cmult s (nth n cx (RtoC 0))) (Cmult t (nth n cy (RtoC 0))).
Proof.
  intros x y z b cx cy cz s t Lxy Lz Hz Hx Hy Hc n Hn.
  destruct (Nat.eq_dec (length x) (length b)) as [L|L]; [|rewrite C48_different_lengths in Hx by exact L; discriminate].
  rewrite conv_exact in Hx, Hy, Hc by congruence. injection Hx as <-. injection Hy as <-. injection Hc as <-.
  rewrite !nth_map_seq by lia. unfold conv_value. rewrite Lz, <- Lxy, <- !csum_scale, <- csum_plus. apply csum_ext. intros m Hm. rewrite Hz by exact Hm. ring.
Qed.
(** the unit impulse is the identity *)
Definition impulse (N : nat) : list C := match N with O => [] | S m => RtoC 1 :: repeat (RtoC 0) m end.
Lemma impulse_nth N i : i < N -> nth i (impulse N) (RtoC 0) = if Nat.eqb i 0 then RtoC 1 else RtoC 0.
Proof.
  intro H. destruct N as [|m]; [lia|]. destruct i as [|i]; [reflexivity|]. cbn [impulse nth Nat.eqb].
  destruct (nth_in_or_default i (repeat (RtoC 0) m) (RtoC 0)) as [I|E]; [apply repeat_spec in I; exact I|exact E].
Qed.
Theorem C48_identity : forall a : list C, circular_convolution RTrig a (impulse (length a)) = Ok a /\ circular_convolution RTrig (impulse (length a)) a = Ok a.
Proof.
  intro a. rewrite (C48_commutative (impulse _)).
  enough (E : circular_convolution RTrig a (impulse (length a)) = Ok a) by auto.
  assert (L : length a = length (impulse (length a))) by (destruct (length a); cbn; [|rewrite repeat_length]; reflexivity).
  rewrite conv_exact by exact L.
  transitivity (Ok (map (fun i => nth i a (RtoC 0)) (seq 0 (length a)))); [|rewrite map_nth_seq; reflexivity]. f_equal. apply map_ext_in. intros n Hn. apply in_seq in Hn.
  unfold conv_value. rewrite (csum_ext _ _ (fun m => if Nat.eqb m n then nth m a (RtoC 0) else RtoC 0)); [apply (csum_delta _ _ (fun m => nth m a (RtoC 0))); lia|].
  intros m Hm. rewrite impulse_nth by (apply Nat.mod_upper_bound; lia).
  destruct (Nat.eqb_spec m n) as [->|Ne].
  - replace (n + length a - n) with (0 + 1 * length a) by lia. rewrite Nat.mod_add by lia. rewrite Nat.mod_small by lia. cbn. ring.
  - rewrite <- conv_index by lia. destruct (Nat.leb_spec m n); [destruct (Nat.eqb_spec (n - m) 0)|destruct (Nat.eqb_spec (length a + n - m) 0)]; try lia; ring.
Qed.
(** a circular shift of one signal shifts the result *)
Definition is_shift (d : nat) (x y : list C) : Prop :=
  length y = length x /\ forall n, n < length x -> nth ((n + d) mod length x) y (RtoC 0) = nth n x (RtoC 0).
Theorem C48_shift : forall (d : nat) (a a' b c c' : list C), d < length a -> is_shift d a a' ->
  circular_convolution RTrig a b = Ok c -> circular_convolution RTrig a' b = Ok c' -> is_shift d c c'.
Proof.
  intros d a a' b c c' Hd [La Ha] Hc Hc'.
  destruct (Nat.eq_dec (length a) (length b)) as [L|L]; [|rewrite C48_different_lengths in Hc by exact L; discriminate].
  rewrite conv_exact in Hc, Hc' by congruence. injection Hc as <-. injection Hc' as <-. unfold is_shift. rewrite !map_length, !seq_length, La.
  split; [reflexivity|]. intros n Hn. set (N := length a) in *.
  rewrite !nth_map_seq by (try apply Nat.mod_upper_bound; lia). unfold conv_value. rewrite La. fold N.
  rewrite <- (csum_shift N d) by exact Hd. apply csum_ext. intros m Hm. rewrite (Nat.add_comm d m), Ha by exact Hm. do 2 f_equal.
  (* ((n+d) mod N + N - (m+d) mod N) mod N = (n + N - m) mod N *)
  pose proof (Nat.mod_upper_bound (n + d) N ltac:(lia)). pose proof (Nat.mod_upper_bound (m + d) N ltac:(lia)).
  rewrite <- !conv_index by lia.
  assert (R : forall i, i < N -> (i + d) mod N = if Nat.ltb (i + d) N then i + d else i + d - N).
  { intros i Hi. destruct (Nat.ltb_spec (i + d) N); [apply Nat.mod_small; assumption|]. replace (i + d) with (i + d - N + 1 * N) at 1 by lia. rewrite Nat.mod_add by lia. apply Nat.mod_small. lia. }
  rewrite !R by assumption.
  destruct (Nat.ltb_spec (n + d) N), (Nat.ltb_spec (m + d) N); repeat match goal with |- context [Nat.leb ?u ?v] => destruct (Nat.leb_spec u v) end; lia.
Qed.

(** ** C50 *)
Lemma cis_mod N k n : 0 < N -> cis (- angle N k (n mod N)) = cis (- angle N k n).
Proof.
  intro H. assert (N0 : INR N <> 0%R) by (apply not_0_INR; lia).
  rewrite (Nat.div_mod n N) at 2 by lia.
  replace (- angle N k (N * (n / N) + n mod N))%R with (- (2 * PI * INR (k * (n / N))) + - angle N k (n mod N))%R.
  2:{ unfold angle. rewrite plus_INR, !mult_INR. field. exact N0. }
  rewrite cis_add. rewrite <- (cis_conj (2 * PI * INR _)), cis_nat. apply injective_projections; cbn; ring.
Qed.
(** the transform of a convolution is the product of the transforms *)
Theorem C50_convolution_theorem : forall (a b c fa fb fc : list C),
  circular_convolution RTrig a b = Ok c -> fourier_transform RTrig a = Ok fa -> fourier_transform RTrig b = Ok fb -> fourier_transform RTrig c = Ok fc ->
  length fc = length a /\ forall k, k < length a -> nth k fc (RtoC 0) = Cmult (nth k fa (RtoC 0)) (nth k fb (RtoC 0)).
Proof.
  intros a b c fa fb fc Hc Fa Fb Fc.
  destruct (Nat.eq_dec (length a) (length b)) as [L|L]; [|rewrite C48_different_lengths in Hc by exact L; discriminate].
  rewrite conv_exact in Hc by exact L. injection Hc as <-. rewrite dft_exact in Fa, Fb, Fc. injection Fa as <-. injection Fb as <-. injection Fc as <-.
  rewrite !map_length, !seq_length. split; [reflexivity|]. intros k Hk. rewrite !nth_map_seq by lia.
  unfold dft_value at 1. rewrite map_length, seq_length. set (N := length a) in *.
  rewrite (csum_ext _ _ (fun n => csum N (fun m => Cmult (nth m a (RtoC 0)) (Cmult (nth ((n + N - m) mod N) b (RtoC 0)) (cis (- angle N k n)))))).
  2:{ intros n Hn. rewrite nth_map_seq by exact Hn. unfold conv_value. fold N. rewrite <- csum_scale_r. apply csum_ext. intros; ring. }
  rewrite csum_swap. unfold dft_value at 1. fold N. rewrite <- csum_scale_r. apply csum_ext. intros m Hm.
  rewrite csum_scale. rewrite <- (csum_shift N m) by exact Hm.
  rewrite (csum_ext _ _ (fun j => Cmult (cis (- angle N k m)) (Cmult (nth j b (RtoC 0)) (cis (- angle N k j))))).
  2:{ intros j Hj. rewrite mod_cancel by assumption. rewrite cis_mod by lia.
      replace (- angle N k (m + j))%R with (- angle N k m + - angle N k j)%R by (unfold angle; rewrite plus_INR; field; apply not_0_INR; lia). rewrite cis_add. ring. }
  rewrite csum_scale. unfold dft_value. rewrite <- L. fold N. ring.
Qed.
Theorem C50_same_result : forall a b : list C,
  fourier_convolution RTrig (fourier_transform RTrig) a b = circular_convolution RTrig a b.
Proof.
  intros a b. destruct (Nat.eq_dec (length a) (length b)) as [L|L].
  - unfold fourier_convolution. change (cplx RTrig) with C. rewrite L, Nat.eqb_refl, <- L. cbn [negb]. rewrite (conv_exact a b L).
    rewrite (dft_exact a), (dft_exact b). cbn [bind].
    destruct (C50_convolution_theorem a b _ _ _ _ (conv_exact a b L) (dft_exact a) (dft_exact b) (dft_exact _)) as [_ CT].
    assert (P : mapM (fun k => let! x := at_ (map (dft_value a) (seq 0 (length a))) k in let! y := at_ (map (dft_value b) (seq 0 (length b))) k in Ok (c_mul RTrig x y)) (seq 0 (length a))
      = Ok (map (dft_value (map (conv_value a b) (seq 0 (length a)))) (seq 0 (length a)))).
    { apply mapM_ok_nth. split; [rewrite map_length, seq_length; reflexivity|].
      intros i n z Hi Hz. rewrite nth_error_map, Hi in Hz. injection Hz as <-. apply nth_error_In, in_seq in Hi. specialize (CT n ltac:(lia)).
      rewrite map_length, seq_length in CT. rewrite !nth_map_seq in CT by lia. rewrite CT.
      unfold at_. rewrite !nth_error_map, !(nth_error_nth' (seq _ _) 0) by (rewrite seq_length; lia). rewrite !seq_nth by lia. reflexivity. }
    match goal with |- bind ?m ?k = _ => transitivity (bind (Ok (map (dft_value (map (conv_value a b) (seq 0 (length a)))) (seq 0 (length a)))) k); [apply (f_equal (fun o => bind o k)); exact P|] end. cbn [bind]. pose proof (C49_inverse_left (map (conv_value a b) (seq 0 (length a)))) as I. rewrite dft_exact in I. cbn [bind] in I.
    rewrite map_length, seq_length in I. exact I.
  - unfold fourier_convolution, circular_convolution. change (cplx RTrig) with C. destruct (Nat.eqb_spec (length a) (length b)); [contradiction|reflexivity].
Qed.
(** for any transform object used inside, different lengths throw the same exception *)
Theorem C50_different_lengths : forall (T : TNum) ft (a b : list (cplx T)), length a <> length b -> fourier_convolution T ft a b = Throw RuntimeError.
Proof. intros T ft a b H. unfold fourier_convolution. destruct (Nat.eqb_spec (length a) (length b)); [contradiction|reflexivity]. Qed.
Example C48_example : length [RtoC 1; RtoC 2; RtoC 3] = length [RtoC 4; RtoC 5; RtoC 6] /\ is_shift 1 [RtoC 1; RtoC 2; RtoC 3] [RtoC 3; RtoC 1; RtoC 2].
Proof. split; [reflexivity|]. split; [reflexivity|]. intros [|[|[|n]]] H; cbn in H; try reflexivity; lia. Qed.

Print Assumptions C48_definition. Print Assumptions C48_different_lengths. Print Assumptions C48_commutative. Print Assumptions C48_linear. Print Assumptions C48_identity. Print Assumptions C48_shift.
Print Assumptions C49_definition. Print Assumptions C49_inverse_left. Print Assumptions C49_inverse_right. Print Assumptions C49_linear. Print Assumptions C49_parseval.
Print Assumptions C50_convolution_theorem. Print Assumptions C50_same_result. Print Assumptions C50_different_lengths.
