(** C69: rounding errors of the transforms in binary64. *)
From Coq Require Import Reals Psatz.
From Flocq Require Import Core.Core IEEE754.BinarySingleNaN.
From Coquelicot Require Import Complex.
From Verif Require Import Base Num IntProofs FloatLemmas Optim Searches Hooke PropHooke PropSearches Dsp PropDsp RoundError.
Local Open Scope list_scope.
Local Open Scope R_scope.

(** *** Specification vocabulary. [cval z]: the complex number a std::complex<double> stands for; [cfin z]: no infinity, no NaN. [val x n]: the n-th
    number of a sequence. [u] = 2^-53, [eta] = 2^-1075. *)
Fixpoint rsum (n : nat) (f : nat -> R) : R := match n with O => 0 | S m => rsum m f + f m end.
Definition val (x : list (dbl * dbl)) (n : nat) : C := nth n (map cval x) (RtoC 0).
(** the sum of the absolute values of a sequence *)
Definition total (x : list (dbl * dbl)) : R := rsum (length x) (fun n => Cmod (val x n)).

Lemma rsum_ext n f g : (forall i, (i < n)%nat -> f i = g i) -> rsum n f = rsum n g.
Proof. induction n; intro H; cbn; [reflexivity|]. rewrite IHn, H by (intros; try apply H; lia). reflexivity. Qed.
Lemma rsum_le n f g : (forall i, (i < n)%nat -> f i <= g i) -> rsum n f <= rsum n g.
Proof. induction n; intro H; cbn; [lra|]. apply Rplus_le_compat; [apply IHn; intros; apply H; lia|apply H; lia]. Qed.
Lemma rsum_pos n f : (forall i, (i < n)%nat -> 0 <= f i) -> 0 <= rsum n f.
Proof. induction n; intro H; cbn; [lra|]. pose proof (IHn ltac:(intros; apply H; lia)). pose proof (H n ltac:(lia)). lra. Qed.
Lemma rsum_scale n c f : rsum n (fun i => c * f i) = c * rsum n f.
Proof. induction n; cbn; [ring|]. rewrite IHn. ring. Qed.
Lemma rsum_plus n f g : rsum n (fun i => f i + g i) = rsum n f + rsum n g.
Proof. induction n; cbn; [ring|]. rewrite IHn. ring. Qed.
Lemma rsum_const n c : rsum n (fun _ => c) = INR n * c.
Proof. induction n; [cbn; ring|]. cbn [rsum]. rewrite IHn, S_INR. ring. Qed.
Lemma rsum_S n f : rsum (S n) f = f O + rsum n (fun i => f (S i)).
Proof. induction n; [cbn; ring|]. change (rsum (S (S n)) f) with (rsum (S n) f + f (S n)). rewrite IHn. cbn [rsum]. ring. Qed.
Lemma csum_S n f : csum (S n) f = Cplus (f O) (csum n (fun i => f (S i))).
Proof. induction n; [cbn; ring|]. change (csum (S (S n)) f) with (Cplus (csum (S n) f) (f (S n))). rewrite IHn. cbn [csum]. ring. Qed.
Lemma cmod_csum n f : Cmod (csum n f) <= rsum n (fun i => Cmod (f i)).
Proof. induction n; cbn; [rewrite Cmod_0; lra|]. eapply Rle_trans; [apply Cmod_triangle|]. lra. Qed.
Lemma total_pos x : 0 <= total x.
Proof. apply rsum_pos. intros. apply Cmod_ge_0. Qed.
Lemma rsum_term n f k : (forall i, (i < n)%nat -> 0 <= f i) -> (k < n)%nat -> f k <= rsum n f.
Proof.
  induction n; intros H Hk; [lia|]. cbn [rsum]. pose proof (rsum_pos n f ltac:(intros; apply H; lia)). destruct (Nat.eq_dec k n) as [->|Ne]; [lra|].
  pose proof (IHn ltac:(intros; apply H; lia) ltac:(lia)). pose proof (H n ltac:(lia)). lra.
Qed.
Lemma val_nth x n d : (n < length x)%nat -> val x n = cval (nth n x d).
Proof. intro H. unfold val. rewrite (nth_indep _ (RtoC 0) (cval d)) by (rewrite map_length; exact H). apply map_nth. Qed.

(** pairs taken at positions m, m+1, ... *)
Lemma lsum_seq (g h : nat -> dbl * dbl) : forall count m,
  lsum (map (fun i => (g i, h i)) (seq m count)) = csum count (fun i => Cmult (cval (g (m + i)%nat)) (cval (h (m + i)%nat))) /\
  labs (map (fun i => (g i, h i)) (seq m count)) = rsum count (fun i => Cmod (cval (g (m + i)%nat)) * Cmod (cval (h (m + i)%nat))).
Proof.
  induction count as [|c IH]; intro m; [split; reflexivity|]. rewrite csum_S, rsum_S, Nat.add_0_r. cbn [seq map lsum labs fold_right fst snd].
  destruct (IH (S m)) as [A B]. fold (lsum (map (fun i => (g i, h i)) (seq (S m) c))). fold (labs (map (fun i => (g i, h i)) (seq (S m) c))). rewrite A, B.
  split; f_equal; [apply csum_ext|apply rsum_ext]; intros i _; rewrite <- plus_n_Sm; reflexivity.
Qed.

Section Rounding.
(** whatever the functions of <cmath> compute *)
Variables f1 f2 f3 f4 f5 : dbl -> dbl.
Notation T := (MkTNum FMath f1 f2 f3 f4 f5).
Notation z0 := (c_zero T).

(** ** Circular convolution *)
Lemma conv_loop_fdot (a b : list (dbl * dbl)) n : length a = length b -> (n < length a)%nat -> forall count m acc, (m + count = length a)%nat ->
  conv_loop T a b n m count acc = Ok (fdot f1 f2 f3 f4 f5 (map (fun i => (nth i a z0, nth ((n + length a - i) mod length a) b z0)) (seq m count)) acc).
Proof.
  intros L Hn. induction count as [|c IH]; intros m acc E; [reflexivity|].
  cbn [conv_loop seq map]. change (cplx T) with (dbl * dbl)%type in *.
  destruct (at_in a m ltac:(lia)) as (x & Ex & Nx). rewrite Ex. cbn [bind]. rewrite conv_index by lia.
  destruct (at_in b ((n + length a - m) mod length a)%nat) as (y & Ey & Ny); [rewrite <- L; apply Nat.mod_upper_bound; lia|]. rewrite Ey. cbn [bind].
  rewrite IH by lia. apply (nth_error_nth _ _ z0) in Nx. apply (nth_error_nth _ _ z0) in Ny. subst x y. reflexivity.
Qed.
Lemma conv_list (a b : list (dbl * dbl)) : length a = length b ->
  circular_convolution T a b = Ok (map (fun n => fdot f1 f2 f3 f4 f5 (map (fun i => (nth i a z0, nth ((n + length a - i) mod length a) b z0)) (seq 0 (length a))) z0) (seq 0 (length a))).
Proof.
  intro L. unfold circular_convolution. change (cplx T) with (dbl * dbl)%type. rewrite L, Nat.eqb_refl, <- L. cbn [negb].
  apply mapM_ok_nth. split; [rewrite map_length, seq_length; reflexivity|].
  intros i n z Hi Hz. rewrite nth_error_map, Hi in Hz. injection Hz as <-. apply nth_error_In, in_seq in Hi. apply conv_loop_fdot; [exact L|lia|lia].
Qed.
Lemma all_nth (x : list (dbl * dbl)) n d : Forall cfin x -> (n < length x)%nat -> cfin (nth n x d).
Proof. intros F H. rewrite Forall_forall in F. apply F. apply nth_In. exact H. Qed.

(** The computed circular convolution of N finite numbers is at most 3/2 (N+2) u times the sum of the absolute values of the products away from the
    exact one (plus a term for underflow), component for component of the result, unless such a sum comes near the overflow threshold. *)
Theorem C69_convolution_error : forall a b : list (dbl * dbl), length a = length b -> small (length a) -> Forall cfin a -> Forall cfin b ->
  let N := length a in
  let size n := rsum N (fun m => Cmod (val a m) * Cmod (val b ((n + N - m) mod N))) in
  (forall n, (n < N)%nat -> size n <= bpow radix2 1010) ->
  exists c, circular_convolution T a b = Ok c /\ length c = N /\ Forall cfin c /\
    forall n, (n < N)%nat -> Cmod (Cminus (val c n) (csum N (fun m => Cmult (val a m) (val b ((n + N - m) mod N))))) <= 3 / 2 * (INR N + 2) * u * size n + 3 * INR N * eta.
Proof.
  intros a b L Hs Fa Fb N size Hz. rewrite conv_list by exact L. eexists. split; [reflexivity|]. split; [rewrite map_length, seq_length; reflexivity|].
  assert (K : forall n, (n < N)%nat -> cfin (fdot f1 f2 f3 f4 f5 (map (fun i => (nth i a z0, nth ((n + N - i) mod N) b z0)) (seq 0 N)) z0) /\
    Cmod (Cminus (cval (fdot f1 f2 f3 f4 f5 (map (fun i => (nth i a z0, nth ((n + N - i) mod N) b z0)) (seq 0 N)) z0)) (csum N (fun m => Cmult (val a m) (val b ((n + N - m) mod N))))) <= 3 / 2 * (INR N + 2) * u * size n + 3 * INR N * eta).
  { intros n Hn. set (l := map (fun i => (nth i a z0, nth ((n + N - i) mod N) b z0)) (seq 0 N)).
    assert (M : forall i, ((n + N - i) mod N < length b)%nat) by (intro i; rewrite <- L; apply Nat.mod_upper_bound; lia).
    assert (Ll : length l = N) by (unfold l; rewrite map_length, seq_length; reflexivity).
    destruct (lsum_seq (fun i => nth i a z0) (fun i => nth ((n + N - i) mod N) b z0) N 0) as [A B]. fold l in A, B. cbn [Nat.add] in A, B.
    assert (A' : lsum l = csum N (fun m => Cmult (val a m) (val b ((n + N - m) mod N)))).
    { rewrite A. apply csum_ext. intros i Hi. rewrite (val_nth a i z0 Hi), (val_nth b _ z0 (M i)). reflexivity. }
    assert (B' : labs l = size n).
    { rewrite B. apply rsum_ext. intros i Hi. rewrite (val_nth a i z0 Hi), (val_nth b _ z0 (M i)). reflexivity. }
    destruct (sum_error f1 f2 f3 f4 f5 l) as [F E].
    - apply Forall_forall. intros p Hp. apply in_map_iff in Hp as (i & <- & Hi). apply in_seq in Hi. cbn [fst snd]. split; [apply all_nth; [exact Fa|fold N; lia]|apply all_nth; [exact Fb|apply M]].
    - rewrite Ll. exact Hs.
    - rewrite B'. apply Hz. exact Hn.
    - rewrite Ll, A', B' in E. split; [exact F|exact E]. }
  split.
  - apply Forall_forall. intros z Hzz. apply in_map_iff in Hzz as (n & <- & Hn). apply in_seq in Hn. apply K. lia.
  - intros n Hn. unfold val at 1. rewrite map_map. rewrite nth_map_seq by exact Hn. apply K. exact Hn.
Qed.
(** ** Integers: no rounding at all *)
Definition whole (x : dbl) : Prop := fin x /\ exists p : Z, V x = IZR p.
(** |Re z| + |Im z| *)
Definition norm1 (z : C) : R := Rabs (fst z) + Rabs (snd z).
Lemma exact_int r : Rabs r <= IZR (2 ^ 53) -> (exists p : Z, r = IZR p) -> rnd64 r = r /\ Rabs (rnd64 r) < bpow radix2 1024.
Proof.
  intros B (p & ->). assert (E : rnd64 (IZR p) = IZR p). { apply rnd_id, fmt_IZR. apply le_IZR. rewrite abs_IZR. exact B. }
  split; [exact E|]. rewrite E. eapply Rle_lt_trans; [exact B|]. change (IZR (2 ^ 53)) with (bpow radix2 53). apply bpow_lt. lia.
Qed.
Lemma whole_mul x y : whole x -> whole y -> Rabs (V x * V y) <= IZR (2 ^ 53) -> whole (d_mul x y) /\ V (d_mul x y) = V x * V y.
Proof.
  intros (Fx & p & Ep) (Fy & q & Eq) B. assert (I : exists z, V x * V y = IZR z) by (exists (p * q)%Z; rewrite Ep, Eq, mult_IZR; reflexivity).
  destruct (exact_int _ B I) as [E O]. destruct (d_mul_finite x y Fx Fy O) as [F G]. rewrite E in G. split; [split; [exact F|rewrite G; exact I]|exact G].
Qed.
Lemma whole_add x y : whole x -> whole y -> Rabs (V x + V y) <= IZR (2 ^ 53) -> whole (d_add x y) /\ V (d_add x y) = V x + V y.
Proof.
  intros (Fx & p & Ep) (Fy & q & Eq) B. assert (I : exists z, V x + V y = IZR z) by (exists (p + q)%Z; rewrite Ep, Eq, plus_IZR; reflexivity).
  destruct (exact_int _ B I) as [E O]. destruct (d_add_finite x y Fx Fy O) as [F G]. rewrite E in G. split; [split; [exact F|rewrite G; exact I]|exact G].
Qed.
Lemma whole_sub x y : whole x -> whole y -> Rabs (V x - V y) <= IZR (2 ^ 53) -> whole (d_sub x y) /\ V (d_sub x y) = V x - V y.
Proof.
  intros (Fx & p & Ep) (Fy & q & Eq) B. assert (I : exists z, V x - V y = IZR z) by (exists (p - q)%Z; rewrite Ep, Eq, minus_IZR; reflexivity).
  destruct (exact_int _ B I) as [E O]. destruct (d_sub_finite x y Fx Fy O) as [F G]. rewrite E in G. split; [split; [exact F|rewrite G; exact I]|exact G].
Qed.
Definition cwhole (z : dbl * dbl) : Prop := whole (fst z) /\ whole (snd z).
Definition labs1 (l : list ((dbl * dbl) * (dbl * dbl))) : R := fold_right (fun p s => norm1 (cval (fst p)) * norm1 (cval (snd p)) + s) 0 l.
Lemma norm1_pos z : 0 <= norm1 z.
Proof. unfold norm1. pose proof (Rabs_pos (fst z)). pose proof (Rabs_pos (snd z)). lra. Qed.
Lemma labs1_pos l : 0 <= labs1 l.
Proof. induction l as [|p l IH]; cbn; [lra|]. fold (labs1 l). pose proof (norm1_pos (cval (fst p))). pose proof (norm1_pos (cval (snd p))). nra. Qed.
Lemma c_mul_whole z w P : cwhole z -> cwhole w -> norm1 (cval z) * norm1 (cval w) <= P -> P <= IZR (2 ^ 53) ->
  cwhole (c_mul T z w) /\ cval (c_mul T z w) = Cmult (cval z) (cval w) /\ Rabs (fst (Cmult (cval z) (cval w))) <= P /\ Rabs (snd (Cmult (cval z) (cval w))) <= P.
Proof.
  intros [Wz1 Wz2] [Ww1 Ww2] HP HB. unfold norm1 in HP. cbn [cval fst snd] in HP.
  set (a := V (fst z)) in *. set (b := V (snd z)) in *. set (c := V (fst w)) in *. set (d := V (snd w)) in *.
  pose proof (Rabs_pos a). pose proof (Rabs_pos b). pose proof (Rabs_pos c). pose proof (Rabs_pos d).
  assert (Bac : Rabs (a * c) + Rabs (b * d) <= P) by (rewrite !Rabs_mult; nra). assert (Bad : Rabs (a * d) + Rabs (b * c) <= P) by (rewrite !Rabs_mult; nra).
  pose proof (Rabs_pos (a * c)). pose proof (Rabs_pos (b * d)). pose proof (Rabs_pos (a * d)). pose proof (Rabs_pos (b * c)).
  assert (S1 : Rabs (a * c - b * d) <= P) by (unfold Rminus; eapply Rle_trans; [apply Rabs_triang|]; rewrite Rabs_Ropp; lra).
  assert (S2 : Rabs (a * d + b * c) <= P) by (eapply Rle_trans; [apply Rabs_triang|]; lra).
  destruct (whole_mul (fst z) (fst w) Wz1 Ww1) as [M1 E1]; [fold a c; lra|]. destruct (whole_mul (snd z) (snd w) Wz2 Ww2) as [M2 E2]; [fold b d; lra|].
  destruct (whole_mul (fst z) (snd w) Wz1 Ww2) as [M3 E3]; [fold a d; lra|]. destruct (whole_mul (snd z) (fst w) Wz2 Ww1) as [M4 E4]; [fold b c; lra|].
  destruct (whole_sub _ _ M1 M2) as [M5 E5]; [rewrite E1, E2; fold a b c d; lra|]. destruct (whole_add _ _ M3 M4) as [M6 E6]; [rewrite E3, E4; fold a b c d; lra|].
  split; [split; assumption|]. split; [|split; assumption]. apply injective_projections; cbn [cval fst snd].
  - change (fst (c_mul T z w)) with (d_sub (d_mul (fst z) (fst w)) (d_mul (snd z) (snd w))). rewrite E5, E1, E2. reflexivity.
  - change (snd (c_mul T z w)) with (d_add (d_mul (fst z) (snd w)) (d_mul (snd z) (fst w))). rewrite E6, E3, E4. reflexivity.
Qed.
Lemma fdot_exact : forall l acc S, Forall (fun p => cwhole (fst p) /\ cwhole (snd p)) l -> cwhole acc -> Rabs (fst (cval acc)) <= S -> Rabs (snd (cval acc)) <= S ->
  S + labs1 l <= IZR (2 ^ 53) -> cwhole (fdot f1 f2 f3 f4 f5 l acc) /\ cval (fdot f1 f2 f3 f4 f5 l acc) = Cplus (cval acc) (lsum l).
Proof.
  induction l as [|p l IH]; intros acc S Fl Wa A1 A2 HB; [split; [exact Wa|cbn; rewrite Cplus_0_r; reflexivity]|].
  pose proof (Forall_inv Fl) as [W1 W2]. apply Forall_inv_tail in Fl. pose proof (labs1_pos l) as HL. set (P := norm1 (cval (fst p)) * norm1 (cval (snd p))).
  change (labs1 (p :: l)) with (P + labs1 l) in HB. pose proof (Rabs_pos (fst (cval acc))).
  destruct (c_mul_whole (fst p) (snd p) P W1 W2 (Rle_refl _)) as (W & E & B1 & B2); [unfold P in *; lra|].
  destruct Wa as [Wa1 Wa2]. destruct W as [W3 W4]. rewrite <- E in B1, B2. cbn [cval fst snd] in A1, A2, B1, B2.
  destruct (whole_add _ _ Wa1 W3) as [M1 G1]; [eapply Rle_trans; [apply Rabs_triang|]; lra|]. destruct (whole_add _ _ Wa2 W4) as [M2 G2]; [eapply Rle_trans; [apply Rabs_triang|]; lra|].
  assert (E' : cval (c_add T acc (c_mul T (fst p) (snd p))) = Cplus (cval acc) (Cmult (cval (fst p)) (cval (snd p)))).
  { rewrite <- E. apply injective_projections; cbn [cval fst snd Cplus]; [exact G1|exact G2]. }
  destruct (IH (c_add T acc (c_mul T (fst p) (snd p))) (S + P) Fl (conj M1 M2)) as [H1 H2].
  - cbn [cval fst]. eapply Rle_trans; [apply Req_le, f_equal; exact G1|]. eapply Rle_trans; [apply Rabs_triang|]. lra.
  - cbn [cval snd]. eapply Rle_trans; [apply Req_le, f_equal; exact G2|]. eapply Rle_trans; [apply Rabs_triang|]. lra.
  - lra.
  - change (fdot f1 f2 f3 f4 f5 (p :: l) acc) with (fdot f1 f2 f3 f4 f5 l (c_add T acc (c_mul T (fst p) (snd p)))). split; [exact H1|].
    rewrite H2, E'. cbn [lsum fold_right]. fold (lsum l). ring.
Qed.
(** The convolution of sequences of (complex) integers is exact as long as the sums stay within 2^53. *)
Theorem C69_convolution_integers : forall a b : list (dbl * dbl), length a = length b -> Forall cwhole a -> Forall cwhole b ->
  let N := length a in
  (forall n, (n < N)%nat -> rsum N (fun m => norm1 (val a m) * norm1 (val b ((n + N - m) mod N))) <= IZR (2 ^ 53)) ->
  exists c, circular_convolution T a b = Ok c /\ length c = N /\ Forall cwhole c /\
    forall n, (n < N)%nat -> val c n = csum N (fun m => Cmult (val a m) (val b ((n + N - m) mod N))).
Proof.
  intros a b L Fa Fb N Hz. rewrite conv_list by exact L. eexists. split; [reflexivity|]. split; [rewrite map_length, seq_length; reflexivity|].
  assert (K : forall n, (n < N)%nat -> cwhole (fdot f1 f2 f3 f4 f5 (map (fun i => (nth i a z0, nth ((n + N - i) mod N) b z0)) (seq 0 N)) z0) /\
    cval (fdot f1 f2 f3 f4 f5 (map (fun i => (nth i a z0, nth ((n + N - i) mod N) b z0)) (seq 0 N)) z0) = csum N (fun m => Cmult (val a m) (val b ((n + N - m) mod N)))).
  { intros n Hn. set (l := map (fun i => (nth i a z0, nth ((n + N - i) mod N) b z0)) (seq 0 N)).
    assert (M : forall i, ((n + N - i) mod N < length b)%nat) by (intro i; rewrite <- L; apply Nat.mod_upper_bound; lia).
    destruct (lsum_seq (fun i => nth i a z0) (fun i => nth ((n + N - i) mod N) b z0) N 0) as [A _]. fold l in A. cbn [Nat.add] in A.
    assert (A' : lsum l = csum N (fun m => Cmult (val a m) (val b ((n + N - m) mod N)))).
    { rewrite A. apply csum_ext. intros i Hi. rewrite (val_nth a i z0 Hi), (val_nth b _ z0 (M i)). reflexivity. }
    assert (B' : labs1 l = rsum N (fun m => norm1 (val a m) * norm1 (val b ((n + N - m) mod N)))).
    { assert (G : forall c m, (m + c <= N)%nat -> labs1 (map (fun i => (nth i a z0, nth ((n + N - i) mod N) b z0)) (seq m c)) = rsum c (fun i => norm1 (val a (m + i)) * norm1 (val b ((n + N - (m + i)) mod N)))).
      { induction c as [|c IH]; intros m Hm; [reflexivity|]. rewrite rsum_S, Nat.add_0_r. cbn [seq map labs1 fold_right fst snd]. fold (labs1 (map (fun i => (nth i a z0, nth ((n + N - i) mod N) b z0)) (seq (S m) c))).
        rewrite IH by lia. rewrite (val_nth a m z0) by (fold N; lia). rewrite (val_nth b _ z0 (M m)). f_equal. apply rsum_ext. intros i _. rewrite <- plus_n_Sm. reflexivity. }
      exact (G N O ltac:(lia)). }
    assert (Z0 : cwhole z0 /\ cval z0 = RtoC 0).
    { destruct (d_ofZ_exact 0 ltac:(cbn; lia)) as [F0 V0]. assert (W0 : whole (d_ofZ 0)) by (split; [exact F0|exists 0%Z; exact V0]). split; [split; exact W0|]. unfold cval. cbn [c_zero fst snd]. apply injective_projections; exact V0. }
    destruct Z0 as [W0 V0]. destruct (fdot_exact l z0 0) as [F E].
    - apply Forall_forall. intros p Hp. apply in_map_iff in Hp as (i & <- & Hi). apply in_seq in Hi. cbn [fst snd]. rewrite Forall_forall in Fa, Fb. split; [apply Fa|apply Fb]; apply nth_In; [fold N; lia|apply M].
    - exact W0.
    - rewrite V0. cbn. rewrite Rabs_R0. lra.
    - rewrite V0. cbn. rewrite Rabs_R0. lra.
    - rewrite B', Rplus_0_l. apply Hz. exact Hn.
    - split; [exact F|]. rewrite E, V0, A', Cplus_0_l. reflexivity. }
  split.
  - apply Forall_forall. intros z Hzz. apply in_map_iff in Hzz as (n & <- & Hn). apply in_seq in Hn. apply K. lia.
  - intros n Hn. unfold val at 1. rewrite map_map. rewrite nth_map_seq by exact Hn. apply K. exact Hn.
Qed.
End Rounding.

(** ** The Fourier transform *)
(** What is asked of <cmath>: exp(0) = 1; cos and sin are off by at most [eps] (one unit in the last place is at most 2^-53); asin(1) is the
    double next to pi/2, up to 2^-53. *)
Record libm (eps : R) (fexp fcos fsin fasin : dbl -> dbl) : Prop := MkLibm {
  lm_exp : forall x, fin x -> V x = 0 -> fin (fexp x) /\ V (fexp x) = 1;
  lm_cos : forall x, fin x -> fin (fcos x) /\ Rabs (V (fcos x) - cos (V x)) <= eps;
  lm_sin : forall x, fin x -> fin (fsin x) /\ Rabs (V (fsin x) - sin (V x)) <= eps;
  lm_asin : fin (fasin (d_ofZ 1)) /\ Rabs (V (fasin (d_ofZ 1)) - PI / 2) <= u;
}.

#[local] Instance prec53'' : Prec_gt_0 53.
Proof. reflexivity. Qed.
Lemma fmt_double x : fmt64 x -> fmt64 (2 * x).
Proof.
  intro F. apply (FLT_format_generic radix2 (-1074) 53) in F. destruct F as [f E1 E2 E3]. apply generic_format_FLT.
  exists (Float radix2 (Fnum f) (Fexp f + 1)); cbn [Fnum Fexp]; [|exact E2|lia]. rewrite E1. unfold F2R. cbn [Fnum Fexp]. rewrite bpow_plus. change (bpow radix2 1) with 2. ring.
Qed.
Lemma bpow_big k : (4 <= k)%Z -> 16 <= bpow radix2 k.
Proof. intro H. change 16 with (bpow radix2 4). apply bpow_le. exact H. Qed.
(** multiplication by +-2, by 1 and by 0 is exact *)
Lemma mul_exact x y : fin x -> fin y -> fmt64 (V x * V y) -> Rabs (V x * V y) <= bpow radix2 1023 -> fin (d_mul x y) /\ V (d_mul x y) = V x * V y.
Proof. intros Fx Fy F B. destruct (d_mul_finite x y Fx Fy (no_overflow _ B)) as [G E]. split; [exact G|]. rewrite E. apply rnd_id. exact F. Qed.
Lemma dZ z : (Z.abs z <= 2 ^ 53)%Z -> fin (d_ofZ z) /\ V (d_ofZ z) = IZR z.
Proof. apply d_ofZ_exact. Qed.
Lemma PI_3 : 3 < PI. Proof. pose proof PI2_3_2. lra. Qed.
Lemma rnd_error_norm x : x = 0 \/ bpow radix2 (-1022) <= Rabs x -> Rabs (rnd64 x - x) <= u * Rabs x.
Proof.
  intros [->|H].
  - rewrite rnd_0, Rminus_0_r, Rabs_R0. lra.
  - eapply Rle_trans; [apply rnd_rel_error; exact H|]. apply Req_le. f_equal. unfold u. change (-52)%Z with (-53 + 1)%Z. rewrite bpow_plus. change (bpow radix2 1) with 2. field.
Qed.
Lemma tiny r : / 2 ^ 60 <= r -> bpow radix2 (-1022) <= r.
Proof. intro H. eapply Rle_trans; [|exact H]. replace (/ 2 ^ 60) with (bpow radix2 (-60)); [apply bpow_le; lia|]. change (bpow radix2 (-60)) with (/ IZR (2 ^ 60)). f_equal. change (IZR (2 ^ 60)) with 1152921504606846976. lra. Qed.

(** relative errors multiply *)
Lemma rel_step r x y d : Rabs (x - r) <= d * Rabs r -> Rabs (y - x) <= u * Rabs x -> 0 <= d -> Rabs (y - r) <= (d + u * (1 + d)) * Rabs r.
Proof.
  intros H1 H2 Hd. pose proof u_pos. pose proof (Rabs_pos r). assert (X : Rabs x <= (1 + d) * Rabs r).
  { replace x with ((x - r) + r) by ring. eapply Rle_trans; [apply Rabs_triang|]. lra. }
  replace (y - r) with ((y - x) + (x - r)) by ring. eapply Rle_trans; [apply Rabs_triang|]. nra.
Qed.

Lemma mul_ge a b c d : 0 <= a -> 0 <= b -> a <= c -> b <= d -> a * b <= c * d.
Proof. intros. apply Rmult_le_compat; assumption. Qed.

(** [ft] computes the discrete Fourier transform of N finite numbers, off by at most [D] times the sum of their absolute values. *)
Definition accurate (N : nat) (D : R) (ft : list (dbl * dbl) -> outcome (list (dbl * dbl))) : Prop :=
  forall x, length x = N -> Forall cfin x -> total x <= bpow radix2 1000 -> exists y, ft x = Ok y /\ length y = N /\ Forall cfin y /\
    forall k, (k < N)%nat -> Cmod (Cminus (val y k) (csum N (fun n => Cmult (val x n) (cis (- (2 * PI * INR k * INR n / INR N)))))) <= D * total x + 3 * INR N * eta.

Lemma sin_le s : Rabs (sin s) <= Rabs s.
Proof.
  assert (P : forall t, 0 <= t -> Rabs (sin t) <= t).
  { intros t Ht. destruct (Rle_or_lt 1 t) as [H|H]; [pose proof (SIN_bound t); apply Rabs_le; lra|]. destruct (Req_dec t 0) as [->|N]; [rewrite sin_0, Rabs_R0; lra|].
    pose proof (sin_lt_x t ltac:(lra)). pose proof PI_3. pose proof (sin_ge_0 t Ht ltac:(lra)). rewrite Rabs_pos_eq; lra. }
  destruct (Rle_or_lt 0 s) as [H|H]; [rewrite (Rabs_pos_eq s H); apply P; exact H|]. rewrite <- Rabs_Ropp, <- sin_neg, (Rabs_left s H). apply P. lra.
Qed.
Lemma cis_lip a b : Cmod (Cminus (cis a) (cis b)) <= Rabs (a - b).
Proof.
  apply cmod_le; [apply Rabs_pos|]. rewrite <- Rabs_mult, (Rabs_pos_eq ((a - b) * (a - b))) by (apply Rle_0_sqr). cbn [cis Cminus Cplus Copp fst snd].
  assert (E : (cos a + - cos b) * (cos a + - cos b) + (sin a + - sin b) * (sin a + - sin b) = 2 - 2 * cos (a - b)).
  { rewrite cos_minus. pose proof (sin2_cos2 a) as H1. pose proof (sin2_cos2 b) as H2. unfold Rsqr in H1, H2.
    replace ((cos a + - cos b) * (cos a + - cos b) + (sin a + - sin b) * (sin a + - sin b)) with ((sin a * sin a + cos a * cos a) + (sin b * sin b + cos b * cos b) - 2 * (cos a * cos b + sin a * sin b)) by ring. rewrite H1, H2. ring. }
  rewrite E. replace (a - b) with (2 * ((a - b) / 2)) at 1 by field. rewrite cos_2a_sin. pose proof (sin_le ((a - b) / 2)) as S.
  set (s := sin ((a - b) / 2)) in *. set (t := (a - b) / 2) in *. replace (a - b) with (2 * t) by (unfold t; field).
  assert (s * s <= t * t). { assert (Q : Rabs s * Rabs s <= Rabs t * Rabs t) by (apply Rmult_le_compat; try exact S; apply Rabs_pos). rewrite <- !Rabs_mult, (Rabs_pos_eq (s * s)), (Rabs_pos_eq (t * t)) in Q by apply Rle_0_sqr. exact Q. }
  nra.
Qed.
Lemma cmod_sub_le (z w : C) : Cmod z <= Cmod (Cminus z w) + Cmod w.
Proof. replace z with (Cplus (Cminus z w) w) at 1 by ring. apply Cmod_triangle. Qed.
Lemma cmod_cis t : Cmod (cis t) = 1.
Proof. unfold Cmod, cis. cbn [fst snd]. pose proof (sin2_cos2 t) as H. unfold Rsqr in H. replace (cos t ^ 2 + sin t ^ 2) with 1 by lra. apply sqrt_1. Qed.

Lemma csum_diff n (x f g : nat -> C) : csum n (fun m => Cmult (x m) (Cminus (f m) (g m))) = Cminus (csum n (fun m => Cmult (x m) (f m))) (csum n (fun m => Cmult (x m) (g m))).
Proof. induction n; cbn [csum]; [ring|]. rewrite IHn. ring. Qed.
Section Fourier.
Variables fexp fcos fsin fasin f5 : dbl -> dbl.
Variable eps : R.
Hypothesis LM : libm eps fexp fcos fsin fasin.
Hypothesis eps_small : 0 <= eps <= / 32.
Notation T := (MkTNum FMath fexp fcos fsin fasin f5).
Notation z0 := (c_zero T).

(** -2 * Pi, as computed *)
Let q : dbl := d_mul (d_ofZ (-2)) (d_mul (d_ofZ 2) (fasin (d_ofZ 1))).
Lemma q_spec : fin q /\ Rabs (V q + 2 * PI) <= 4 * u /\ 5 <= Rabs (V q) <= 9.
Proof.
  destruct (lm_asin _ _ _ _ _ LM) as [F A]. pose proof u_small as U. pose proof u_pos. pose proof PI_3. pose proof PI_4. apply Rabs_le_inv in A.
  destruct (dZ 2 ltac:(cbn; lia)) as [F2 V2]. destruct (dZ (-2) ltac:(cbn; lia)) as [F3 V3]. pose proof (bpow_big 1023 ltac:(lia)).
  destruct (mul_exact (d_ofZ 2) (fasin (d_ofZ 1)) F2 F) as [G1 E1]; [rewrite V2; apply fmt_double, fmt_dbl|rewrite V2; apply Rabs_le; lra|]. rewrite V2 in E1.
  destruct (mul_exact (d_ofZ (-2)) _ F3 G1) as [G2 E2]; [rewrite V3; replace (-2 * V (d_mul (d_ofZ 2) (fasin (d_ofZ 1)))) with (- (2 * V (d_mul (d_ofZ 2) (fasin (d_ofZ 1))))) by ring; apply generic_format_opp, fmt_double, fmt_dbl|rewrite V3, E1; apply Rabs_le; lra|].
  rewrite V3, E1 in E2. fold q in G2, E2. split; [exact G2|]. rewrite E2. split; [apply Rabs_le; lra|]. rewrite Rabs_left by lra. lra.
Qed.
Lemma nat_dbl n : small n -> fin (nat_num T n) /\ V (nat_num T n) = INR n /\ INR n <= 1099511627776.
Proof.
  intro H. unfold small in H. unfold nat_num. destruct (dZ (Z.of_nat n)) as [F E]; [change (2 ^ 53)%Z with (8192 * 2 ^ 40)%Z; lia|].
  split; [exact F|]. split; [rewrite INR_IZR_INZ; exact E|]. rewrite INR_IZR_INZ. change 1099511627776 with (IZR (2 ^ 40)). apply IZR_le. exact H.
Qed.
(** the argument of exp *)
Lemma argument N k n : small N -> (k < N)%nat -> (n < N)%nat ->
  let a := c_div_r T (c_scale_r T (c_scale_r T (c_scale T (n_mul T (n_ofZ T (-2)) (t_pi T)) (imaginary_unit T)) (nat_num T k)) (nat_num T n)) (nat_num T N) in
  cfin a /\ V (fst a) = 0 /\ Rabs (V (snd a) - - angle N k n) <= 32 * INR N * u.
Proof.
  intros HN Hk Hn a. destruct q_spec as (Fq & Eq & Bq). pose proof u_small as U. pose proof u_pos as U0. pose proof eta_pos.
  destruct (nat_dbl N HN) as (FN & VN & BN). destruct (nat_dbl k ltac:(unfold small in *; lia)) as (Fk & Vk & Bk). destruct (nat_dbl n ltac:(unfold small in *; lia)) as (Fn & Vn & Bn).
  destruct (dZ 0 ltac:(cbn; lia)) as [F0 V0]. destruct (dZ 1 ltac:(cbn; lia)) as [F1 V1].
  assert (N1 : 1 <= INR N) by (change 1 with (INR 1); apply le_INR; lia). pose proof (pos_INR k) as K0. pose proof (pos_INR n) as n0.
  assert (KN : INR k <= INR N) by (apply le_INR; lia). assert (NN : INR n <= INR N) by (apply le_INR; lia).
  assert (BIG : forall r, Rabs r <= 2 ^ 100 -> Rabs r <= bpow radix2 1023).
  { intros r Hr. eapply Rle_trans; [exact Hr|]. replace (2 ^ 100) with (bpow radix2 100) by (change (bpow radix2 100) with (IZR (2 ^ 100)); change (IZR (2 ^ 100)) with 1267650600228229401496703205376; lra). apply bpow_le; lia. }
  assert (H100 : 2 ^ 100 = 1267650600228229401496703205376) by lra.
  (* real part *)
  set (re0 := d_mul q (d_ofZ 0)). set (re1 := d_mul re0 (nat_num T k)). set (re2 := d_mul re1 (nat_num T n)). set (re3 := d_div re2 (nat_num T N)).
  assert (ZM : forall x y, fin x -> fin y -> V x * V y = 0 -> fin (d_mul x y) /\ V (d_mul x y) = 0).
  { intros x y Fx Fy E. assert (B : Rabs (V x * V y) <= bpow radix2 1023) by (apply BIG; rewrite E, Rabs_R0; lra). destruct (d_mul_finite x y Fx Fy (no_overflow _ B)) as [G V']. split; [exact G|]. rewrite V', E. apply rnd_0. }
  destruct (ZM q (d_ofZ 0) Fq F0 ltac:(rewrite V0; ring)) as [G0 W0]. fold re0 in G0, W0.
  destruct (ZM re0 _ G0 Fk ltac:(rewrite W0; ring)) as [G1 W1]. fold re1 in G1, W1.
  destruct (ZM re1 _ G1 Fn ltac:(rewrite W1; ring)) as [G2 W2]. fold re2 in G2, W2.
  assert (G3 : fin re3 /\ V re3 = 0).
  { assert (E : V re2 / V (nat_num T N) = 0) by (rewrite W2; unfold Rdiv; ring). destruct (d_div_finite re2 (nat_num T N) G2) as [A B]; [rewrite VN; lra|apply no_overflow, BIG; rewrite E, Rabs_R0; lra|]. split; [exact A|]. unfold re3. rewrite B, E. apply rnd_0. }
  destruct G3 as [G3 W3].
  (* imaginary part *)
  set (im0 := d_mul q (d_ofZ 1)). set (im1 := d_mul im0 (nat_num T k)). set (im2 := d_mul im1 (nat_num T n)). set (im3 := d_div im2 (nat_num T N)).
  destruct (mul_exact q (d_ofZ 1) Fq F1) as [I0 J0]; [rewrite V1, Rmult_1_r; apply fmt_dbl|rewrite V1, Rmult_1_r; apply BIG; lra|]. fold im0 in I0, J0. rewrite V1, Rmult_1_r in J0.
  set (r1 := V q * INR k). set (r2 := r1 * INR n). set (r3 := r2 / INR N).
  assert (A1 : Rabs r1 = Rabs (V q) * INR k) by (unfold r1; rewrite Rabs_mult, (Rabs_pos_eq (INR k)) by exact K0; reflexivity).
  assert (A2 : Rabs r2 = Rabs r1 * INR n) by (unfold r2; rewrite Rabs_mult, (Rabs_pos_eq (INR n)) by exact n0; reflexivity).
  assert (B1 : Rabs r1 <= 9 * 1099511627776) by (rewrite A1; apply Rmult_le_compat; lra || apply Rabs_pos).
  assert (B2 : Rabs r2 <= 9 * 1099511627776 * 1099511627776) by (rewrite A2; apply Rmult_le_compat; try lra; apply Rabs_pos).
  assert (E1 : fin im1 /\ Rabs (V im1 - r1) <= u * Rabs r1).
  { assert (X : V im0 * V (nat_num T k) = r1) by (rewrite J0, Vk; reflexivity). assert (B : Rabs (V im0 * V (nat_num T k)) <= bpow radix2 1023) by (rewrite X; apply BIG; lra).
    destruct (d_mul_finite _ _ I0 Fk (no_overflow _ B)) as [F E]. split; [exact F|]. unfold im1. rewrite E, X. apply rnd_error_norm.
    destruct k as [|k']; [left; unfold r1; change (INR 0) with 0; apply Rmult_0_r|]. right. apply tiny. rewrite A1. assert (1 <= INR (S k')) by (rewrite S_INR; pose proof (pos_INR k'); lra). assert (/ 2 ^ 60 <= 1) by lra. pose proof (mul_ge 5 1 (Rabs (V q)) (INR (S k')) ltac:(lra) ltac:(lra) ltac:(lra) ltac:(lra)). lra. }
  destruct E1 as [I1 E1].
  assert (L1 : Rabs (V im1) <= 2 * Rabs r1 /\ Rabs r1 / 2 <= Rabs (V im1)).
  { pose proof (Rabs_pos r1). split.
    - replace (V im1) with ((V im1 - r1) + r1) by ring. eapply Rle_trans; [apply Rabs_triang|]. nra.
    - assert (Rabs r1 <= Rabs (V im1 - r1) + Rabs (V im1)) by (rewrite (Rabs_minus_sym (V im1) r1); replace r1 with ((r1 - V im1) + V im1) at 1 by ring; apply Rabs_triang). nra. }
  assert (E2 : fin im2 /\ Rabs (V im2 - V im1 * INR n) <= u * Rabs (V im1 * INR n)).
  { assert (X : V im1 * V (nat_num T n) = V im1 * INR n) by (rewrite Vn; reflexivity).
    assert (Y : Rabs (V im1 * INR n) <= 2 * (9 * 1099511627776) * 1099511627776) by (rewrite Rabs_mult, (Rabs_pos_eq (INR n)) by exact n0; apply Rmult_le_compat; try lra; apply Rabs_pos).
    assert (B : Rabs (V im1 * V (nat_num T n)) <= bpow radix2 1023) by (rewrite X; apply BIG; lra).
    destruct (d_mul_finite _ _ I1 Fn (no_overflow _ B)) as [F E]. split; [exact F|]. unfold im2. rewrite E, X. apply rnd_error_norm.
    destruct n as [|n']; [left; change (INR 0) with 0; apply Rmult_0_r|]. destruct k as [|k'].
    { left. assert (R0 : r1 = 0) by (unfold r1; change (INR 0) with 0; apply Rmult_0_r). rewrite R0, Rabs_R0, Rmult_0_r, Rminus_0_r in E1. pose proof (Rabs_pos (V im1)). assert (V im1 = 0) by (destruct (Req_dec (V im1) 0) as [Q|Q]; [exact Q|apply Rabs_pos_lt in Q; lra]). match goal with H : V im1 = 0 |- _ => rewrite H end. apply Rmult_0_l. }
    right. apply tiny. rewrite Rabs_mult, (Rabs_pos_eq (INR (S n'))) by exact n0. assert (1 <= INR (S k')) by (rewrite S_INR; pose proof (pos_INR k'); lra). assert (1 <= INR (S n')) by (rewrite S_INR; pose proof (pos_INR n'); lra).
    assert (5 <= Rabs r1) by (rewrite A1; pose proof (mul_ge 5 1 (Rabs (V q)) (INR (S k')) ltac:(lra) ltac:(lra) ltac:(lra) ltac:(lra)); lra). assert (/ 2 ^ 60 <= 1) by lra. pose proof (mul_ge 1 1 (Rabs (V im1)) (INR (S n')) ltac:(lra) ltac:(lra) ltac:(lra) ltac:(lra)). lra. }
  destruct E2 as [I2 E2].
  assert (R2 : Rabs (V im2 - r2) <= (u + u * (1 + u)) * Rabs r2).
  { apply rel_step with (x := V im1 * INR n); [|exact E2|lra]. unfold r2. replace (V im1 * INR n - r1 * INR n) with ((V im1 - r1) * INR n) by ring. rewrite !Rabs_mult, (Rabs_pos_eq (INR n)) by exact n0. rewrite <- Rmult_assoc. apply Rmult_le_compat_r; [exact n0|exact E1]. }
  assert (iN : 0 < / INR N) by (apply Rinv_0_lt_compat; lra).
  assert (E3 : fin im3 /\ Rabs (V im3 - V im2 / INR N) <= u * Rabs (V im2 / INR N)).
  { assert (X : V im2 / V (nat_num T N) = V im2 / INR N) by (rewrite VN; reflexivity). pose proof (Rabs_pos r2).
    assert (R2' : Rabs (V im2 - r2) <= 1 / 2 * Rabs r2) by (eapply Rle_trans; [exact R2|]; apply Rmult_le_compat_r; [lra|nra]).
    assert (Y0 : Rabs (V im2) <= 2 * Rabs r2) by (replace (V im2) with ((V im2 - r2) + r2) by ring; eapply Rle_trans; [apply Rabs_triang|]; lra).
    assert (Y1 : Rabs r2 / 2 <= Rabs (V im2)).
    { assert (Rabs r2 <= Rabs (V im2 - r2) + Rabs (V im2)) by (rewrite (Rabs_minus_sym (V im2) r2); replace r2 with ((r2 - V im2) + V im2) at 1 by ring; apply Rabs_triang). lra. }
    assert (iN1 : / INR N <= 1) by (rewrite <- Rinv_1; apply Rinv_le_contravar; lra).
    assert (Y2 : Rabs (V im2 / INR N) = Rabs (V im2) * / INR N) by (unfold Rdiv; rewrite Rabs_mult, (Rabs_pos_eq (/ INR N)) by lra; reflexivity).
    assert (Y : Rabs (V im2 / INR N) <= 2 * (9 * 1099511627776 * 1099511627776)) by (rewrite Y2; pose proof (Rabs_pos (V im2)); nra).
    assert (B : Rabs (V im2 / V (nat_num T N)) <= bpow radix2 1023) by (rewrite X; apply BIG; lra).
    destruct (d_div_finite im2 (nat_num T N) I2 ltac:(rewrite VN; lra) (no_overflow _ B)) as [F E]. split; [exact F|]. unfold im3. rewrite E, X. apply rnd_error_norm.
    assert (Z2 : r2 = 0 -> V im2 = 0).
    { intro R0. rewrite R0, Rabs_R0, Rmult_0_r in Y0. pose proof (Rabs_pos (V im2)). destruct (Req_dec (V im2) 0) as [Q|Q]; [exact Q|apply Rabs_pos_lt in Q; lra]. }
    destruct n as [|n']; [left; rewrite Z2 by (unfold r2; change (INR 0) with 0; apply Rmult_0_r); apply Rmult_0_l|]. destruct k as [|k']; [left; rewrite Z2 by (unfold r2, r1; change (INR 0) with 0; rewrite Rmult_0_r; apply Rmult_0_l); apply Rmult_0_l|].
    right. apply tiny. rewrite Y2. assert (1 <= INR (S k')) by (rewrite S_INR; pose proof (pos_INR k'); lra). assert (1 <= INR (S n')) by (rewrite S_INR; pose proof (pos_INR n'); lra).
    assert (5 <= Rabs r1) by (rewrite A1; pose proof (mul_ge 5 1 (Rabs (V q)) (INR (S k')) ltac:(lra) ltac:(lra) ltac:(lra) ltac:(lra)); lra). assert (5 <= Rabs r2) by (rewrite A2; pose proof (mul_ge 5 1 (Rabs r1) (INR (S n')) ltac:(lra) ltac:(lra) ltac:(lra) ltac:(lra)); lra).
    assert (/ 1099511627776 <= / INR N) by (apply Rinv_le_contravar; lra). assert (/ 2 ^ 60 <= / 1099511627776) by lra. pose proof (mul_ge 1 (/ 2 ^ 60) (Rabs (V im2)) (/ INR N) ltac:(lra) ltac:(lra) ltac:(lra) ltac:(lra)). lra. }
  destruct E3 as [I3 E3].
  assert (A3 : Rabs r3 = Rabs r2 * / INR N) by (unfold r3, Rdiv; rewrite Rabs_mult, (Rabs_pos_eq (/ INR N)) by lra; reflexivity).
  assert (R3 : Rabs (V im3 - r3) <= (u + u * (1 + u) + u * (1 + (u + u * (1 + u)))) * Rabs r3).
  { apply rel_step with (x := V im2 / INR N); [|exact E3|nra]. rewrite A3. unfold r3. replace (V im2 / INR N - r2 / INR N) with ((V im2 - r2) * / INR N) by (unfold Rdiv; ring). rewrite Rabs_mult, (Rabs_pos_eq (/ INR N)) by lra. rewrite <- Rmult_assoc. apply Rmult_le_compat_r; [lra|exact R2]. }
  assert (KNN : INR k * INR n * / INR N <= INR N).
  { apply Rmult_le_reg_r with (INR N); [lra|]. rewrite Rmult_assoc, Rinv_l by lra. nra. }
  assert (KN0 : 0 <= INR k * INR n * / INR N) by (apply Rmult_le_pos; [nra|lra]).
  change a with (re3, im3). cbn [fst snd]. split; [split; [exact G3|exact I3]|]. split; [exact W3|].
  replace (V im3 - - angle N k n) with ((V im3 - r3) + (V q + 2 * PI) * (INR k * INR n * / INR N)) by (unfold r3, r2, r1, angle, Rdiv; ring).
  eapply Rle_trans; [apply Rabs_triang|]. rewrite Rabs_mult, (Rabs_pos_eq (INR k * INR n * / INR N)) by exact KN0.
  assert (A4 : Rabs r3 <= 9 * INR N) by (rewrite A3, A2, A1; replace (Rabs (V q) * INR k * INR n * / INR N) with (Rabs (V q) * (INR k * INR n * / INR N)) by ring; apply Rmult_le_compat; try lra; apply Rabs_pos).
  assert (C1 : u + u * (1 + u) + u * (1 + (u + u * (1 + u))) <= 28 / 9 * u) by nra.
  assert (Rabs (V im3 - r3) <= 28 * INR N * u).
  { eapply Rle_trans; [exact R3|]. apply Rle_trans with (28 / 9 * u * (9 * INR N)); [apply Rmult_le_compat; try lra; [nra|apply Rabs_pos]|]. apply Req_le. field. }
  assert (Rabs (V q + 2 * PI) * (INR k * INR n * / INR N) <= 4 * u * INR N) by (apply Rmult_le_compat; try lra; apply Rabs_pos). lra.
Qed.

Definition tau (N : nat) : R := 142 / 100 * eps + 32 * INR N * u.
Lemma twiddle_error N k n : small N -> (k < N)%nat -> (n < N)%nat -> cfin (twiddle T N k n) /\ Cmod (Cminus (cval (twiddle T N k n)) (cis (- angle N k n))) <= tau N.
Proof.
  intros HN Hk Hn. destruct (argument N k n HN Hk Hn) as ((Fr & Fi) & Vr & Ei). unfold twiddle.
  set (a := c_div_r T (c_scale_r T (c_scale_r T (c_scale T (n_mul T (n_ofZ T (-2)) (t_pi T)) (imaginary_unit T)) (nat_num T k)) (nat_num T n)) (nat_num T N)) in *. clearbody a.
  destruct (lm_exp _ _ _ _ _ LM (fst a) Fr Vr) as [Fe Ve]. destruct (lm_cos _ _ _ _ _ LM (snd a) Fi) as [Fc Ec]. destruct (lm_sin _ _ _ _ _ LM (snd a) Fi) as [Fs Es].
  assert (B : forall x r, Rabs (V x - r) <= eps -> -1 <= r <= 1 -> Rabs (1 * V x) <= bpow radix2 1023).
  { intros x r Hx Hr. pose proof (bpow_big 1023 ltac:(lia)). apply Rabs_le_inv in Hx. rewrite Rmult_1_l. apply Rabs_le. lra. }
  assert (Fx : forall x, fmt64 (1 * V x)) by (intro x; rewrite Rmult_1_l; apply fmt_dbl).
  destruct (mul_exact (fexp (fst a)) (fcos (snd a)) Fe Fc) as [G1 W1]; [rewrite Ve; apply Fx|rewrite Ve; exact (B _ _ Ec (COS_bound _))|].
  destruct (mul_exact (fexp (fst a)) (fsin (snd a)) Fe Fs) as [G2 W2]; [rewrite Ve; apply Fx|rewrite Ve; exact (B _ _ Es (SIN_bound _))|].
  rewrite Ve, Rmult_1_l in W1, W2. split; [split; assumption|].
  change (c_exp T a) with (d_mul (fexp (fst a)) (fcos (snd a)), d_mul (fexp (fst a)) (fsin (snd a))). unfold cval at 1. cbn [fst snd]. rewrite W1, W2.
  replace (Cminus (V (fcos (snd a)), V (fsin (snd a))) (cis (- angle N k n))) with (Cplus (Cminus (V (fcos (snd a)), V (fsin (snd a))) (cis (V (snd a)))) (Cminus (cis (V (snd a))) (cis (- angle N k n)))) by ring.
  eapply Rle_trans; [apply Cmod_triangle|]. apply Rplus_le_compat; [apply cmod_comp; [exact Ec|exact Es]|]. eapply Rle_trans; [apply cis_lip|exact Ei].
Qed.
Lemma dft_fdot N k : forall (x : list (dbl * dbl)) n acc, dft_loop T N k n x acc = fdot fexp fcos fsin fasin f5 (map (fun i => (nth (i - n) x z0, twiddle T N k i)) (seq n (length x))) acc.
Proof.
  induction x as [|v r IH]; intros n acc; [reflexivity|]. cbn [dft_loop length seq map]. rewrite Nat.sub_diag.
  change (fdot fexp fcos fsin fasin f5 (?p :: ?l) acc) with (fdot fexp fcos fsin fasin f5 l (c_add T acc (c_mul T (fst p) (snd p)))). cbn [fst snd nth]. rewrite IH.
  f_equal. apply map_ext_in. intros i Hi. apply in_seq in Hi. replace (i - n)%nat with (S (i - S n)) by lia. reflexivity.
Qed.
Lemma tau_small N : small N -> 0 <= tau N <= 6 / 100.
Proof. intro H. pose proof (small_u N H). pose proof u_pos. pose proof (pos_INR N). unfold tau. assert (0 <= INR N * u) by (apply Rmult_le_pos; lra). assert (INR N * u <= / 4096) by lra. split; lra. Qed.

(** FourierTransform computes the discrete Fourier transform up to (34 (N+1) u + 3/2 eps) times the sum of the absolute values. *)
Theorem C69_fourier_error : forall N, small N -> accurate N (34 * (INR N + 1) * u + 3 / 2 * eps) (fourier_transform T).
Proof.
  intros N HN x Lx Fx Bx. unfold fourier_transform. change (cplx T) with (dbl * dbl)%type in *. rewrite Lx.
  destruct (tau_small N HN) as [T0 T1]. pose proof (total_pos x) as X0. pose proof u_pos as U0. pose proof (pos_INR N) as N0. pose proof eta_pos as H0.
  assert (K : forall k, (k < N)%nat -> cfin (dft_loop T N k 0 x z0) /\
    Cmod (Cminus (cval (dft_loop T N k 0 x z0)) (csum N (fun n => Cmult (val x n) (cis (- angle N k n))))) <= (34 * (INR N + 1) * u + 3 / 2 * eps) * total x + 3 * INR N * eta).
  { intros k Hk. rewrite dft_fdot, Lx. set (l := (map (fun i => (nth (i - 0) x z0, twiddle T N k i)) (seq 0 N)) : list ((dbl * dbl) * (dbl * dbl))).
    assert (Ll : length l = N) by (unfold l; rewrite map_length, seq_length; reflexivity).
    destruct (lsum_seq (fun i => nth (i - 0) x z0) (fun i => twiddle T N k i) N 0) as [A B].
    change (lsum l = csum N (fun i => Cmult (cval (nth (i - 0) x z0)) (cval (twiddle T N k i)))) in A. change (labs l = rsum N (fun i => Cmod (cval (nth (i - 0) x z0)) * Cmod (cval (twiddle T N k i)))) in B.
    assert (A' : lsum l = csum N (fun m => Cmult (val x m) (cval (twiddle T N k m)))).
    { rewrite A. apply csum_ext. intros i Hi. rewrite Nat.sub_0_r, (val_nth x i z0) by lia. reflexivity. }
    assert (B' : labs l <= (1 + tau N) * total x).
    { rewrite B. unfold total. rewrite Lx, <- rsum_scale. apply rsum_le. intros i Hi. rewrite Nat.sub_0_r, (val_nth x i z0) by lia. rewrite (Rmult_comm (1 + tau N)). apply Rmult_le_compat_l; [apply Cmod_ge_0|].
      destruct (twiddle_error N k i HN Hk Hi) as [_ E]. eapply Rle_trans; [apply (cmod_sub_le _ (cis (- angle N k i)))|]. rewrite cmod_cis. lra. }
    assert (G : Rabs (1 + tau N) <= 2) by (apply Rabs_le; lra).
    destruct (sum_error fexp fcos fsin fasin f5 l) as [F E].
    - apply Forall_forall. intros p Hp. apply in_map_iff in Hp as (i & <- & Hi). apply in_seq in Hi. cbn [fst snd]. split; [apply all_nth; [exact Fx|lia]|apply twiddle_error; [exact HN|exact Hk|lia]].
    - rewrite Ll. exact HN.
    - eapply Rle_trans; [exact B'|]. apply Rle_trans with (2 * bpow radix2 1000); [apply mul_ge; lra|]. change 2 with (bpow radix2 1). rewrite <- bpow_plus. apply bpow_le. lia.
    - rewrite Ll, A' in E. split; [exact F|].
      replace (Cminus (cval (fdot fexp fcos fsin fasin f5 l z0)) (csum N (fun n => Cmult (val x n) (cis (- angle N k n))))) with
        (Cplus (Cminus (cval (fdot fexp fcos fsin fasin f5 l z0)) (csum N (fun m => Cmult (val x m) (cval (twiddle T N k m))))) (csum N (fun m => Cmult (val x m) (Cminus (cval (twiddle T N k m)) (cis (- angle N k m)))))).
      2:{ rewrite csum_diff. set (p1 := cval (fdot _ _ _ _ _ l z0)). set (p2 := csum N _). set (p3 := csum N _). ring. }
      eapply Rle_trans; [apply Cmod_triangle|].
      assert (S2 : Cmod (csum N (fun m => Cmult (val x m) (Cminus (cval (twiddle T N k m)) (cis (- angle N k m))))) <= tau N * total x).
      { eapply Rle_trans; [apply cmod_csum|]. unfold total. rewrite Lx, <- rsum_scale. apply rsum_le. intros i Hi. rewrite Cmod_mult, (Rmult_comm (tau N)). apply Rmult_le_compat_l; [apply Cmod_ge_0|]. apply twiddle_error; assumption. }
      assert (S1 : 3 / 2 * (INR N + 2) * u * labs l <= 3 / 2 * (INR N + 2) * u * ((1 + tau N) * total x)) by (apply Rmult_le_compat_l; [nra|exact B']).
      assert (S3 : 3 / 2 * (INR N + 2) * u * (1 + tau N) + tau N <= 34 * (INR N + 1) * u + 3 / 2 * eps).
      { unfold tau at 2. assert (Nu : 0 <= INR N * u) by nra. assert (3 / 2 * (INR N + 2) * u * (1 + tau N) <= 3 / 2 * (INR N + 2) * u * (106 / 100)) by (apply Rmult_le_compat_l; [nra|lra]). lra. }
      pose proof (Rmult_le_compat_r _ _ _ X0 S3) as S4. lra. }
  eexists. split; [reflexivity|]. split; [rewrite map_length, seq_length; reflexivity|]. split.
  - apply Forall_forall. intros z Hz. apply in_map_iff in Hz as (k & <- & Hk). apply in_seq in Hk. apply K. lia.
  - intros k Hk. unfold val at 1. rewrite map_map. rewrite nth_map_seq by exact Hk. apply K. exact Hk.
Qed.
End Fourier.

(** ** The inverse transform and the convolution through the Fourier transform, for any transform object *)
Lemma rsum_bound n f B : (forall i, (i < n)%nat -> f i <= B) -> rsum n f <= INR n * B.
Proof. intro H. rewrite <- rsum_const. apply rsum_le. exact H. Qed.
Lemma csum_rotated n (e : nat -> C) (t : nat -> R) B : (forall i, (i < n)%nat -> Cmod (e i) <= B) -> Cmod (csum n (fun i => Cmult (e i) (cis (t i)))) <= INR n * B.
Proof. intro H. eapply Rle_trans; [apply cmod_csum|]. apply rsum_bound. intros i Hi. rewrite Cmod_mult, cmod_cis, Rmult_1_r. apply H. exact Hi. Qed.
Lemma dft_size (x : list (dbl * dbl)) (t : nat -> R) : Cmod (csum (length x) (fun n => Cmult (val x n) (cis (t n)))) <= total x.
Proof. eapply Rle_trans; [apply cmod_csum|]. apply rsum_le. intros i _. rewrite Cmod_mult, cmod_cis, Rmult_1_r. lra. Qed.
Lemma total_nth (x : list (dbl * dbl)) B : (forall k, (k < length x)%nat -> Cmod (val x k) <= B) -> total x <= INR (length x) * B.
Proof. apply rsum_bound. Qed.
Lemma neta N : small N -> INR N * eta <= / 1024.
Proof.
  intro H. unfold small in H. rewrite INR_IZR_INZ. apply IZR_le in H. apply Rle_trans with (IZR (2 ^ 40) * bpow radix2 (-50)).
  - apply Rmult_le_compat; try exact H; [apply IZR_le; lia|apply Rlt_le, eta_pos|apply bpow_le; lia].
  - change (bpow radix2 (-50)) with (/ IZR (2 ^ 50)). change (IZR (2 ^ 40)) with 1099511627776. change (IZR (2 ^ 50)) with 1125899906842624. lra.
Qed.
Lemma small_INR N : small N -> INR N <= bpow radix2 40.
Proof. intro H. unfold small in H. rewrite INR_IZR_INZ. change (bpow radix2 40) with (IZR (2 ^ 40)). apply IZR_le. exact H. Qed.

Lemma lt_of {a b n : nat} : a = b -> (n < b)%nat -> (n < a)%nat. Proof. intros ->. auto. Qed.
Lemma lt_to {a b n : nat} : a = b -> (n < a)%nat -> (n < b)%nat. Proof. intros ->. auto. Qed.
Section Inverse.
Variables f1 f2 f3 f4 f5 : dbl -> dbl.
Notation T := (MkTNum FMath f1 f2 f3 f4 f5).
Notation z0 := (c_zero T).

Lemma conj_exact z : cfin z -> cfin (c_conj T z) /\ cval (c_conj T z) = Cconj (cval z).
Proof.
  intros [F1 F2]. destruct (dZ (-1) ltac:(cbn; lia)) as [G V1]. pose proof (abs_B2R_lt_emax dprec demax (snd z)) as B.
  assert (E : V (d_ofZ (-1)) * V (snd z) = - V (snd z)) by (rewrite V1; ring).
  assert (R0 : rnd64 (- V (snd z)) = - V (snd z)) by (apply rnd_id, generic_format_opp, fmt_dbl).
  destruct (d_mul_finite (d_ofZ (-1)) (snd z) G F2) as [A W]; [rewrite E, R0, Rabs_Ropp; exact B|]. rewrite E, R0 in W.
  split; [split; [exact F1|exact A]|]. apply injective_projections; [reflexivity|exact W].
Qed.
Lemma conj_list x : Forall cfin x -> Forall cfin (conjugate T x) /\ map cval (conjugate T x) = map Cconj (map cval x).
Proof.
  intro F. unfold conjugate. induction F as [|z x Fz F [IH1 IH2]]; [split; [constructor|reflexivity]|].
  destruct (conj_exact z Fz) as [A B]. cbn [map]. split; [constructor; assumption|]. rewrite B. f_equal. exact IH2.
Qed.
Lemma conj_val x n : Forall cfin x -> val (conjugate T x) n = Cconj (val x n).
Proof.
  intro F. unfold val. destruct (conj_list x F) as [_ E]. etransitivity; [exact (f_equal (fun l => nth n l (RtoC 0)) E)|].
  replace (RtoC 0) with (Cconj (RtoC 0)) at 1 by (apply injective_projections; cbn; ring). apply map_nth.
Qed.
Lemma cmod_conj (z : C) : Cmod (Cconj z) = Cmod z.
Proof. unfold Cmod, Cconj. cbn [fst snd]. f_equal. ring. Qed.
Lemma conj_length x : length (conjugate T x) = length x.
Proof. apply map_length. Qed.
Lemma conj_total x : Forall cfin x -> total (conjugate T x) = total x.
Proof. intro F. unfold total. change (cplx T) with (dbl * dbl)%type in *. rewrite conj_length. apply rsum_ext. intros i _. rewrite conj_val by exact F. apply cmod_conj. Qed.
Lemma div_first_map d : forall l : list (dbl * dbl), div_first T (length l) d l = Ok (map (fun z => c_div_r T z d) l).
Proof. induction l as [|z r IH]; [reflexivity|]. cbn [length div_first map]. change (cplx T) with (dbl * dbl)%type in *. rewrite IH. reflexivity. Qed.
Lemma div_cerror z n : cfin z -> small n -> (0 < n)%nat -> Cmod (cval z) <= bpow radix2 1010 ->
  cfin (c_div_r T z (nat_num T n)) /\ Cmod (Cminus (cval (c_div_r T z (nat_num T n))) (Cmult (RtoC (/ INR n)) (cval z))) <= 142 / 100 * (u * (Cmod (cval z) * / INR n) + eta).
Proof.
  intros [F1 F2] Hn Hp B. destruct (nat_dbl f1 f2 f3 f4 f5 n Hn) as (Fn & Vn & _). pose proof u_pos.
  assert (N1 : 1 <= INR n) by (change 1 with (INR 1); apply le_INR; lia). assert (iN : 0 < / INR n <= 1) by (split; [apply Rinv_0_lt_compat; lra|rewrite <- Rinv_1; apply Rinv_le_contravar; lra]).
  assert (BB : bpow radix2 1010 <= bpow radix2 1023) by (apply bpow_le; lia).
  assert (D : forall x, fin x -> Rabs (V x) <= Cmod (cval z) -> fin (d_div x (nat_num T n)) /\ Rabs (V (d_div x (nat_num T n)) - / INR n * V x) <= u * (Cmod (cval z) * / INR n) + eta).
  { intros x Fx Hx. pose proof (Rabs_pos (V x)). assert (E : Rabs (V x / INR n) <= Cmod (cval z) * / INR n) by (unfold Rdiv; rewrite Rabs_mult, (Rabs_pos_eq (/ INR n)) by lra; apply Rmult_le_compat_r; lra).
    assert (E' : Cmod (cval z) * / INR n <= Cmod (cval z) * 1) by (apply Rmult_le_compat_l; lra).
    destruct (div_error x (nat_num T n) Fx) as [G W]; [rewrite Vn; lra|rewrite Vn; lra|]. split; [exact G|]. rewrite Vn in W. replace (/ INR n * V x) with (V x / INR n) by (unfold Rdiv; ring).
    eapply Rle_trans; [exact W|]. apply Rplus_le_compat_r, Rmult_le_compat_l; lra. }
  destruct (D (fst z) F1 (cmod_re (cval z))) as [G1 W1]. destruct (D (snd z) F2 (cmod_im (cval z))) as [G2 W2]. split; [split; assumption|].
  apply cmod_comp.
  - replace (fst (Cminus (cval (c_div_r T z (nat_num T n))) (Cmult (RtoC (/ INR n)) (cval z)))) with (V (d_div (fst z) (nat_num T n)) - / INR n * V (fst z)); [exact W1|].
    change (fst (Cminus (cval (c_div_r T z (nat_num T n))) (Cmult (RtoC (/ INR n)) (cval z)))) with (V (d_div (fst z) (nat_num T n)) + - (/ INR n * V (fst z) - 0 * V (snd z))). ring.
  - replace (snd (Cminus (cval (c_div_r T z (nat_num T n))) (Cmult (RtoC (/ INR n)) (cval z)))) with (V (d_div (snd z) (nat_num T n)) - / INR n * V (snd z)); [exact W2|].
    change (snd (Cminus (cval (c_div_r T z (nat_num T n))) (Cmult (RtoC (/ INR n)) (cval z)))) with (V (d_div (snd z) (nat_num T n)) + - (/ INR n * V (snd z) + 0 * V (fst z))). ring.
Qed.

(** The inverse transform: off by at most (D + 2u) times the mean of the absolute values. *)
Theorem C69_inverse_error : forall ft N D, small N -> 0 <= D <= / 4 -> accurate N D ft ->
  forall X, length X = N -> Forall cfin X -> total X <= bpow radix2 1000 -> exists y, inverse_transform T ft X = Ok y /\ length y = N /\ Forall cfin y /\
    forall n, (n < N)%nat -> Cmod (Cminus (val y n) (Cmult (RtoC (/ INR N)) (csum N (fun k => Cmult (val X k) (cis (2 * PI * INR k * INR n / INR N)))))) <= (D + 2 * u) * (total X / INR N) + 5 * eta.
Proof.
  intros ft N D HN HD HA X LX FX BX. unfold inverse_transform. destruct (conj_list X FX) as [Fc _]. pose proof (total_pos X) as S0. pose proof u_pos as U0. pose proof u_small as U1. pose proof eta_pos as H0. pose proof eta_small as H1.
  destruct (HA (conjugate T X)) as (d & Ed & Ld & Fd & Hd); [rewrite conj_length; exact LX|exact Fc|change (cplx T) with (dbl * dbl)%type in *; rewrite conj_total by exact FX; exact BX|].
  rewrite Ed. cbn [bind]. destruct (conj_list d Fd) as [Fdc _]. rewrite conj_total in Hd by exact FX.
  assert (DF : div_first T (length X) (nat_num T (length X)) (conjugate T d) = Ok (map (fun z => c_div_r T z (nat_num T N)) (conjugate T d))).
  { rewrite LX. transitivity (div_first T (@length (dbl * dbl) (conjugate T d)) (nat_num T N) (conjugate T d)); [|apply div_first_map].
    apply (f_equal (fun n => div_first T n (nat_num T N) (conjugate T d))). symmetry. etransitivity; [apply conj_length|exact Ld]. }
  assert (LC : length (conjugate T d) = N) by (etransitivity; [apply conj_length|exact Ld]).
  pose proof (neta N HN) as NE. pose proof (pos_INR N) as N0. assert (NE0 : 0 <= INR N * eta) by (apply Rmult_le_pos; lra).
  assert (K : forall n, (n < N)%nat -> let z := c_div_r T (nth n (conjugate T d) z0) (nat_num T N) in cfin z /\
    Cmod (Cminus (cval z) (Cmult (RtoC (/ INR N)) (csum N (fun k => Cmult (val X k) (cis (angle N k n)))))) <= (D + 2 * u) * (total X / INR N) + 5 * eta).
  { intros n Hn. assert (N1 : 1 <= INR N) by (change 1 with (INR 1); apply le_INR; lia). assert (iN : 0 < / INR N) by (apply Rinv_0_lt_compat; lra).
    specialize (Hd n Hn). set (E := csum N (fun m => Cmult (val (conjugate T X) m) (cis (- (2 * PI * INR n * INR m / INR N))))) in Hd.
    assert (EE : E = Cconj (csum N (fun k => Cmult (val X k) (cis (angle N k n))))).
    { rewrite csum_conj. apply csum_ext. intros k Hk. rewrite conj_val by exact FX. rewrite cmult_conj, cis_conj. change (2 * PI * INR n * INR k / INR N) with (angle N n k). rewrite angle_sym. reflexivity. }
    set (G := csum N (fun k => Cmult (val X k) (cis (angle N k n)))) in *.
    assert (Gs : Cmod G <= total X) by (unfold G; rewrite <- LX at 1; apply dft_size).
    set (w := nth n (conjugate T d) z0). assert (W : cval w = Cconj (val d n)).
    { rewrite <- conj_val by exact Fd. symmetry. apply val_nth. exact (lt_of LC Hn). }
    assert (Fw : cfin w) by (apply all_nth; [exact Fdc|exact (lt_of LC Hn)]).
    assert (Ew : Cmod (Cminus (cval w) G) <= D * total X + 3 * INR N * eta).
    { rewrite W. rewrite EE in Hd. rewrite <- cmod_conj. replace (Cconj (Cminus (Cconj (val d n)) G)) with (Cminus (val d n) (Cconj G)) by (apply injective_projections; cbn [Cconj Cminus Cplus Copp fst snd]; ring). exact Hd. }
    assert (Sw : Cmod (cval w) <= (1 + D) * total X + 3 * INR N * eta) by (pose proof (cmod_sub_le (cval w) G); lra).
    assert (B1 : 2 * bpow radix2 1000 <= bpow radix2 1010) by (change 2 with (bpow radix2 1); rewrite <- bpow_plus; apply bpow_le; lia). assert (B0 : 16 <= bpow radix2 1000) by (apply bpow_big; lia).
    assert (Sw' : (1 + D) * total X <= 125 / 100 * total X) by (apply Rmult_le_compat_r; lra).
    destruct (div_cerror w N Fw HN ltac:(lia)) as [Fz Ez]; [lra|]. cbv zeta. split; [exact Fz|].
    replace (Cminus (cval (c_div_r T w (nat_num T N))) (Cmult (RtoC (/ INR N)) G)) with (Cplus (Cminus (cval (c_div_r T w (nat_num T N))) (Cmult (RtoC (/ INR N)) (cval w))) (Cmult (RtoC (/ INR N)) (Cminus (cval w) G))).
    2:{ set (p1 := cval (c_div_r T w (nat_num T N))). set (p2 := RtoC (/ INR N)). set (p3 := cval w). ring. }
    eapply Rle_trans; [apply Cmod_triangle|]. rewrite Cmod_mult, Cmod_R, (Rabs_pos_eq (/ INR N)) by lra.
    assert (Q1 : / INR N * Cmod (Cminus (cval w) G) <= / INR N * (D * total X + 3 * INR N * eta)) by (apply Rmult_le_compat_l; lra).
    assert (Q2 : Cmod (cval w) * / INR N <= (125 / 100 * total X + 3 * INR N * eta) * / INR N) by (apply Rmult_le_compat_r; lra).
    assert (Q3 : / INR N * (D * total X + 3 * INR N * eta) = D * (total X / INR N) + 3 * eta) by (field; lra).
    assert (Q4 : (125 / 100 * total X + 3 * INR N * eta) * / INR N = 125 / 100 * (total X / INR N) + 3 * eta) by (field; lra).
    rewrite Q4 in Q2. assert (Q5 : u * (Cmod (cval w) * / INR N) <= u * (125 / 100 * (total X / INR N) + 3 * eta)) by (apply Rmult_le_compat_l; lra).
    assert (0 <= total X / INR N) by (apply Rmult_le_pos; lra). assert (0 <= u * (total X / INR N)) by (apply Rmult_le_pos; lra). assert (u * eta <= / 1024 * eta) by (apply Rmult_le_compat_r; lra).
    lra. }
  exists (map (fun z => c_div_r T z (nat_num T N)) (conjugate T d)). split; [exact DF|]. split; [etransitivity; [apply map_length|exact LC]|].
  assert (NT : forall n, (n < N)%nat -> nth n (map (fun z => c_div_r T z (nat_num T N)) (conjugate T d)) z0 = c_div_r T (nth n (conjugate T d) z0) (nat_num T N)).
  { intros n Hn. rewrite (nth_indep _ z0 (c_div_r T z0 (nat_num T N))) by (exact (lt_of (eq_trans (map_length _ _) LC) Hn)). apply (map_nth (fun z => c_div_r T z (nat_num T N))). }
  split.
  - apply Forall_forall. intros z Hz. apply (In_nth _ _ z0) in Hz as (n & Hn & <-). apply (lt_to (eq_trans (map_length _ _) LC)) in Hn. rewrite NT by exact Hn. apply K. exact Hn.
  - intros n Hn. rewrite (val_nth _ n z0) by (exact (lt_of (eq_trans (map_length _ _) LC) Hn)). rewrite NT by exact Hn. apply K. exact Hn.
Qed.

(** exact inversion and the convolution theorem, from C49 and C50 *)
Lemma idft_dft (x : list C) n : (n < length x)%nat ->
  Cmult (RtoC (/ INR (length x))) (csum (length x) (fun k => Cmult (dft_value x k) (cis (angle (length x) k n)))) = nth n x (RtoC 0).
Proof.
  intro Hn. pose proof (C49_inverse_left x) as I. rewrite dft_exact in I. cbn [bind] in I. rewrite idft_exact in I. injection I as I. rewrite map_length, seq_length in I.
  apply (f_equal (fun l => nth n l (RtoC 0))) in I. cbv beta in I. rewrite nth_map_seq in I by exact Hn. rewrite <- I. unfold idft_value. rewrite map_length, seq_length. f_equal. apply csum_ext. intros k Hk. rewrite nth_map_seq by exact Hk. reflexivity.
Qed.
Lemma idft_product (a b : list C) n : length a = length b -> (n < length a)%nat ->
  Cmult (RtoC (/ INR (length a))) (csum (length a) (fun k => Cmult (Cmult (dft_value a k) (dft_value b k)) (cis (angle (length a) k n)))) = conv_value a b n.
Proof.
  intros L Hn. destruct (C50_convolution_theorem a b _ _ _ _ (conv_exact a b L) (dft_exact a) (dft_exact b) (dft_exact _)) as [_ CT].
  set (c := map (conv_value a b) (seq 0 (length a))) in *. assert (Lc : length c = length a) by (unfold c; rewrite map_length, seq_length; reflexivity).
  pose proof (idft_dft c n ltac:(lia)) as I. rewrite Lc in I. unfold c in I at 2. rewrite nth_map_seq in I by exact Hn. rewrite <- I. f_equal. apply csum_ext. intros k Hk.
  specialize (CT k Hk). rewrite Lc, !nth_map_seq in CT by lia. rewrite <- CT. reflexivity.
Qed.
Lemma dft_val (x : list (dbl * dbl)) N k : length x = N -> csum N (fun n => Cmult (val x n) (cis (- (2 * PI * INR k * INR n / INR N)))) = dft_value (map cval x) k.
Proof. intro L. unfold dft_value. rewrite map_length, L. reflexivity. Qed.
Lemma dft_val_size (x : list (dbl * dbl)) k : Cmod (dft_value (map cval x) k) <= total x.
Proof. rewrite <- (dft_val x (length x) k eq_refl). apply dft_size. Qed.
Lemma mean_error N (e f : nat -> C) (t : nat -> R) B : (0 < N)%nat -> (forall k, (k < N)%nat -> Cmod (Cminus (e k) (f k)) <= B) ->
  Cmod (Cminus (Cmult (RtoC (/ INR N)) (csum N (fun k => Cmult (e k) (cis (t k))))) (Cmult (RtoC (/ INR N)) (csum N (fun k => Cmult (f k) (cis (t k)))))) <= B.
Proof.
  intros HN H. assert (N1 : 0 < INR N) by (apply lt_0_INR; exact HN). assert (iN : 0 < / INR N) by (apply Rinv_0_lt_compat; exact N1).
  replace (Cminus _ _) with (Cmult (RtoC (/ INR N)) (csum N (fun k => Cmult (Cminus (e k) (f k)) (cis (t k))))).
  - rewrite Cmod_mult, Cmod_R, Rabs_pos_eq by lra. apply Rle_trans with (/ INR N * (INR N * B)); [apply Rmult_le_compat_l; [lra|apply csum_rotated; exact H]|]. rewrite <- Rmult_assoc, Rinv_l by lra. lra.
  - assert (E : csum N (fun k => Cmult (Cminus (e k) (f k)) (cis (t k))) = Cminus (csum N (fun k => Cmult (e k) (cis (t k)))) (csum N (fun k => Cmult (f k) (cis (t k))))).
    { clear. induction N; cbn [csum]; [ring|]. rewrite IHN. ring. }
    rewrite E. ring.
Qed.

(** Transforming and transforming back. *)
Theorem C69_roundtrip : forall ft N D, small N -> 0 <= D <= / 4 -> accurate N D ft ->
  forall x, length x = N -> Forall cfin x -> total x <= bpow radix2 950 ->
  exists z, (let! y := ft x in inverse_transform T ft y) = Ok z /\ length z = N /\ Forall cfin z /\
    forall n, (n < N)%nat -> Cmod (Cminus (val z n) (val x n)) <= (3 * D + 3 * u) * total x + 5 * (INR N + 1) * eta.
Proof.
  intros ft N D HN HD HA x Lx Fx Bx. pose proof (total_pos x) as S0. pose proof u_pos as U0. pose proof u_small as U1. pose proof eta_pos as H0. pose proof eta_small as H1.
  pose proof (neta N HN) as NE. pose proof (pos_INR N) as N0. assert (NE0 : 0 <= INR N * eta) by (apply Rmult_le_pos; lra). pose proof (small_INR N HN) as SN.
  destruct (HA x Lx Fx) as (y & Ey & Ly & Fy & Hy); [eapply Rle_trans; [exact Bx|apply bpow_le; lia]|]. rewrite Ey. cbn [bind].
  assert (Dx : (1 + D) * total x <= 125 / 100 * total x) by (apply Rmult_le_compat_r; lra).
  assert (Dx0 : 0 <= (1 + D) * total x) by (apply Rmult_le_pos; lra).
  assert (Ty : total y <= INR N * ((1 + D) * total x + 3 * INR N * eta)).
  { rewrite <- Ly at 1. apply total_nth. intros k Hk. rewrite Ly in Hk. specialize (Hy k Hk). rewrite (dft_val x N k Lx) in Hy. pose proof (dft_val_size x k). pose proof (cmod_sub_le (val y k) (dft_value (map cval x) k)). lra. }
  assert (By : total y <= bpow radix2 1000).
  { eapply Rle_trans; [exact Ty|]. apply Rle_trans with (bpow radix2 40 * bpow radix2 960); [|rewrite <- bpow_plus; apply bpow_le; lia].
    assert (bpow radix2 960 = 1024 * bpow radix2 950) by (change 960%Z with (10 + 950)%Z; rewrite bpow_plus; reflexivity). pose proof (bpow_big 950 ltac:(lia)). apply Rmult_le_compat; lra. }
  destruct (C69_inverse_error ft N D HN HD HA y Ly Fy By) as (z & Ez & Lz & Fz & Hz). exists z. split; [exact Ez|]. split; [exact Lz|]. split; [exact Fz|].
  intros n Hn. specialize (Hz n Hn). set (I := Cmult (RtoC (/ INR N)) (csum N (fun k => Cmult (val y k) (cis (2 * PI * INR k * INR n / INR N))))) in *.
  assert (N1 : 1 <= INR N) by (change 1 with (INR 1); apply le_INR; lia).
  assert (M : Cmod (Cminus I (val x n)) <= D * total x + 3 * INR N * eta).
  { pose proof (idft_dft (map cval x) n) as V0. rewrite map_length, Lx in V0. specialize (V0 Hn). fold (val x n) in V0. rewrite <- V0. unfold I.
    apply (mean_error N (val y) (dft_value (map cval x)) (fun k => angle N k n)); [lia|]. intros k Hk. rewrite <- (dft_val x N k Lx). apply Hy. exact Hk. }
  assert (R1 : total y / INR N <= 125 / 100 * total x + 3 * INR N * eta).
  { apply Rmult_le_reg_r with (INR N); [lra|]. unfold Rdiv. rewrite Rmult_assoc, Rinv_l, Rmult_1_r by lra. eapply Rle_trans; [exact Ty|]. rewrite Rmult_comm. apply Rmult_le_compat_r; lra. }
  assert (R2 : (D + 2 * u) * (total y / INR N) <= (D + 2 * u) * (125 / 100 * total x + 3 * INR N * eta)) by (apply Rmult_le_compat_l; lra).
  assert (R3 : (D + 2 * u) * (3 * INR N * eta) <= / 3 * (3 * INR N * eta)) by (apply Rmult_le_compat_r; lra).
  replace (Cminus (val z n) (val x n)) with (Cplus (Cminus (val z n) I) (Cminus I (val x n))) by (set (p := val z n); set (p' := val x n); clearbody I p p'; ring).
  eapply Rle_trans; [apply Cmod_triangle|]. assert (0 <= D * total x) by (apply Rmult_le_pos; lra). assert (0 <= u * total x) by (apply Rmult_le_pos; lra). lra.
Qed.

(** The convolution through the transforms. *)
Lemma product_error z w P : cfin z -> cfin w -> Cmod (cval z) * Cmod (cval w) <= P -> P <= bpow radix2 1020 ->
  cfin (c_mul T z w) /\ Cmod (Cminus (cval (c_mul T z w)) (Cmult (cval z) (cval w))) <= 29 / 10 * u * P + 29 / 10 * eta.
Proof.
  intros Fz Fw HP HB. destruct (c_mul_error f1 f2 f3 f4 f5 z w P Fz Fw HP HB) as (F & E1 & E2). split; [exact F|]. pose proof u_pos as U0. pose proof u_small as U1. pose proof eta_pos as H0.
  pose proof (Cmod_ge_0 (cval z)). pose proof (Cmod_ge_0 (cval w)). assert (P0 : 0 <= P) by (eapply Rle_trans; [|exact HP]; apply Rmult_le_pos; assumption).
  set (p := cval (c_mul T z w)) in *. set (q := Cmult (cval z) (cval w)) in *. clearbody p q.
  eapply Rle_trans; [apply (cmod_comp (Cminus p q) (((1 + u) ^ 2 - 1) * P + 2 * eta * (1 + u))); assumption|].
  assert (A : ((1 + u) ^ 2 - 1) * P <= 2001 / 1000 * u * P) by (apply Rmult_le_compat_r; [exact P0|]; cbn [pow]; nra). assert (B : eta * (1 + u) <= eta * (1001 / 1000)) by (apply Rmult_le_compat_l; lra).
  assert (0 <= u * P) by (apply Rmult_le_pos; lra). lra.
Qed.
Lemma product_diff (a a' b b' : C) Da Db Sa Sb : Cmod (Cminus a a') <= Da -> Cmod (Cminus b b') <= Db -> Cmod a' <= Sa -> Cmod b <= Sb ->
  Cmod (Cminus (Cmult a b) (Cmult a' b')) <= Da * Sb + Sa * Db.
Proof.
  intros HA HB HS HT. replace (Cminus (Cmult a b) (Cmult a' b')) with (Cplus (Cmult (Cminus a a') b) (Cmult a' (Cminus b b'))) by ring.
  eapply Rle_trans; [apply Cmod_triangle|]. rewrite !Cmod_mult. apply Rplus_le_compat; apply Rmult_le_compat; try assumption; apply Cmod_ge_0.
Qed.
(** the arithmetic of the bound *)
Lemma product_bound D e Sa Sb : 0 <= D <= / 4 -> 0 <= e <= / 256 -> 0 <= Sa -> 0 <= Sb ->
  let P := ((1 + D) * Sa + e) * ((1 + D) * Sb + e) in
  0 <= P /\ P <= 16 / 10 * (Sa * Sb) + 13 / 10 * e * (1 + Sa + Sb) /\
  29 / 10 * u * P + 29 / 10 * eta + ((D * Sa + e) * ((1 + D) * Sb + e) + Sa * (D * Sb + e)) <= (225 / 100 * D + 5 * u) * (Sa * Sb) + 13 / 10 * e * (1 + Sa + Sb) + 29 / 10 * eta.
Proof.
  intros HD He Ha Hb P. pose proof u_pos as U0. pose proof u_small as U1. unfold P.
  assert (Q : 0 <= Sa * Sb) by (apply Rmult_le_pos; lra). assert (EA : 0 <= e * Sa) by (apply Rmult_le_pos; lra). assert (EB : 0 <= e * Sb) by (apply Rmult_le_pos; lra).
  assert (EE : 0 <= e * e <= e * / 256) by (split; [apply Rmult_le_pos; lra|apply Rmult_le_compat_l; lra]).
  assert (D2 : 0 <= (1 + D) * (1 + D) <= 25 / 16) by (split; [apply Rmult_le_pos; lra|apply Rle_trans with ((5 / 4) * (5 / 4)); [apply Rmult_le_compat; lra|lra]]).
  assert (PE : ((1 + D) * Sa + e) * ((1 + D) * Sb + e) = (1 + D) * (1 + D) * (Sa * Sb) + (1 + D) * (e * Sa + e * Sb) + e * e) by ring.
  assert (P0 : 0 <= ((1 + D) * Sa + e) * ((1 + D) * Sb + e)) by (apply Rmult_le_pos; apply Rplus_le_le_0_compat; try lra; apply Rmult_le_pos; lra).
  assert (X1 : (1 + D) * (1 + D) * (Sa * Sb) <= 25 / 16 * (Sa * Sb)) by (apply Rmult_le_compat_r; lra). assert (X2 : (1 + D) * (e * Sa + e * Sb) <= 5 / 4 * (e * Sa + e * Sb)) by (apply Rmult_le_compat_r; lra).
  assert (PB : ((1 + D) * Sa + e) * ((1 + D) * Sb + e) <= 25 / 16 * (Sa * Sb) + 5 / 4 * (e * Sa + e * Sb) + / 256 * e) by (rewrite PE; lra).
  split; [exact P0|]. split; [lra|].
  assert (Y1 : u * (((1 + D) * Sa + e) * ((1 + D) * Sb + e)) <= u * (25 / 16 * (Sa * Sb)) + / 1024 * (5 / 4 * (e * Sa + e * Sb) + / 256 * e)).
  { apply Rle_trans with (u * (25 / 16 * (Sa * Sb)) + u * (5 / 4 * (e * Sa + e * Sb) + / 256 * e)); [rewrite <- Rmult_plus_distr_l; apply Rmult_le_compat_l; lra|]. apply Rplus_le_compat_l. apply Rmult_le_compat_r; lra. }
  assert (Y2 : (D * Sa + e) * ((1 + D) * Sb + e) + Sa * (D * Sb + e) = (D * (2 + D)) * (Sa * Sb) + (1 + D) * (e * Sa + e * Sb) + e * e) by ring.
  assert (Y3 : D * (2 + D) * (Sa * Sb) <= 225 / 100 * D * (Sa * Sb)) by (apply Rmult_le_compat_r; [lra|]; replace (225 / 100 * D) with (D * (225 / 100)) by ring; apply Rmult_le_compat_l; lra).
  assert (0 <= u * (Sa * Sb)) by (apply Rmult_le_pos; lra). lra.
Qed.
Theorem C69_fourier_convolution_error : forall ft N D, small N -> 0 <= D <= / 4 -> accurate N D ft ->
  forall a b, length a = N -> length b = N -> Forall cfin a -> Forall cfin b -> total a <= bpow radix2 450 -> total b <= bpow radix2 450 ->
  exists c, fourier_convolution T ft a b = Ok c /\ length c = N /\ Forall cfin c /\
    forall n, (n < N)%nat -> Cmod (Cminus (val c n) (csum N (fun m => Cmult (val a m) (val b ((n + N - m) mod N)))))
      <= (4 * D + 9 * u) * (total a * total b) + 9 * (INR N + 1) * eta * (1 + total a + total b).
Proof.
  intros ft N D HN HD HA a b La Lb Fa Fb Ba Bb. pose proof (total_pos a) as A0. pose proof (total_pos b) as B0. pose proof u_pos as U0. pose proof u_small as U1. pose proof eta_pos as H0. pose proof eta_small as H1.
  pose proof (neta N HN) as NE. pose proof (pos_INR N) as N0. assert (NE0 : 0 <= INR N * eta) by (apply Rmult_le_pos; lra). pose proof (small_INR N HN) as SN.
  set (Sa := total a) in *. set (Sb := total b) in *. set (e := 3 * INR N * eta). assert (He : 0 <= e <= / 256) by (unfold e; lra).
  assert (B1000 : bpow radix2 450 <= bpow radix2 1000) by (apply bpow_le; lia).
  destruct (HA a La Fa ltac:(fold Sa; lra)) as (fa & Ea & Lfa & Ffa & Ha). destruct (HA b Lb Fb ltac:(fold Sb; lra)) as (fb & Eb & Lfb & Ffb & Hb).
  fold Sa e in Ha. fold Sb e in Hb. unfold fourier_convolution. change (cplx T) with (dbl * dbl)%type in *. rewrite La, Lb, Nat.eqb_refl. cbn [negb]. rewrite Ea, Eb. cbn [bind].
  set (p := (map (fun k => c_mul T (nth k fa z0) (nth k fb z0)) (seq 0 N)) : list (dbl * dbl)).
  assert (EP : mapM (fun k => let! x := at_ fa k in let! y := at_ fb k in Ok (c_mul T x y)) (seq 0 N) = Ok p).
  { apply mapM_ok_nth. split; [unfold p; rewrite map_length, seq_length; reflexivity|]. intros i k z Hi Hz. unfold p in Hz. rewrite nth_error_map, Hi in Hz. injection Hz as <-. apply nth_error_In, in_seq in Hi.
    destruct (at_in fa k ltac:(lia)) as (x & Ex & Nx). destruct (at_in fb k ltac:(lia)) as (y & Ey & Ny). rewrite Ex. cbn [bind]. rewrite Ey. cbn [bind]. apply (nth_error_nth _ _ z0) in Nx. apply (nth_error_nth _ _ z0) in Ny. subst x y. reflexivity. }
  destruct (product_bound D e Sa Sb HD He A0 B0) as (P0 & PB & DB). set (P := ((1 + D) * Sa + e) * ((1 + D) * Sb + e)) in *.
  set (dl := (225 / 100 * D + 5 * u) * (Sa * Sb) + 13 / 10 * e * (1 + Sa + Sb) + 29 / 10 * eta) in *.
  assert (SS : 0 <= Sa * Sb) by (apply Rmult_le_pos; lra). assert (SB : Sa * Sb <= bpow radix2 900) by (change 900%Z with (450 + 450)%Z; rewrite bpow_plus; apply Rmult_le_compat; lra).
  assert (B910 : bpow radix2 910 = 1024 * bpow radix2 900) by (change 910%Z with (10 + 900)%Z; rewrite bpow_plus; reflexivity). pose proof (bpow_big 900 ltac:(lia)) as B900.
  assert (B450 : bpow radix2 450 <= bpow radix2 900) by (apply bpow_le; lia).
  assert (EW : 0 <= e * (1 + Sa + Sb) <= / 256 * (1 + Sa + Sb)) by (split; [apply Rmult_le_pos; lra|apply Rmult_le_compat_r; lra]).
  assert (PL : P <= bpow radix2 1020) by (apply Rle_trans with (bpow radix2 910); [lra|apply bpow_le; lia]).
  assert (DS : (225 / 100 * D + 5 * u) * (Sa * Sb) <= 1 * (Sa * Sb)) by (apply Rmult_le_compat_r; lra). assert (DS0 : 0 <= (225 / 100 * D + 5 * u) * (Sa * Sb)) by (apply Rmult_le_pos; lra).
  assert (dl0 : 0 <= dl <= Sa * Sb + 13 / 10 * e * (1 + Sa + Sb) + 29 / 10 * eta) by (unfold dl; lra).
  set (A := map cval a) in *. set (B := map cval b) in *.
  assert (Lp : length p = N) by (unfold p; rewrite map_length, seq_length; reflexivity).
  assert (K : forall k, (k < N)%nat -> cfin (nth k p z0) /\ Cmod (Cminus (val p k) (Cmult (dft_value A k) (dft_value B k))) <= dl /\ Cmod (val p k) <= Sa * Sb + dl).
  { intros k Hk. specialize (Ha k Hk). specialize (Hb k Hk). rewrite (dft_val a N k La) in Ha. rewrite (dft_val b N k Lb) in Hb. fold A in Ha. fold B in Hb.
    pose proof (dft_val_size a k) as Za. pose proof (dft_val_size b k) as Zb. fold A Sa in Za. fold B Sb in Zb.
    rewrite (val_nth fa k z0) in Ha by lia. rewrite (val_nth fb k z0) in Hb by lia.
    pose proof (all_nth fa k z0 Ffa ltac:(lia)) as Fx. pose proof (all_nth fb k z0 Ffb ltac:(lia)) as Fy. set (x := nth k fa z0) in *. set (y := nth k fb z0) in *.
    assert (Xs : Cmod (cval x) <= (1 + D) * Sa + e) by (pose proof (cmod_sub_le (cval x) (dft_value A k)); lra).
    assert (Ys : Cmod (cval y) <= (1 + D) * Sb + e) by (pose proof (cmod_sub_le (cval y) (dft_value B k)); lra).
    destruct (product_error x y P Fx Fy) as [Fz Ez]; [apply Rmult_le_compat; try apply Cmod_ge_0; assumption|exact PL|].
    assert (NP : nth k p z0 = c_mul T x y) by (unfold p; exact (nth_map_seq (fun k => c_mul T (nth k fa z0) (nth k fb z0)) N k z0 Hk)).
    pose proof (product_diff _ _ _ _ _ _ Sa _ Ha Hb Za Ys) as PD.
    assert (VP : val p k = cval (c_mul T x y)) by (rewrite (val_nth p k z0 (lt_of Lp Hk)); exact (f_equal cval NP)).
    split; [exact (eq_ind_r cfin Fz NP)|]. rewrite VP.
    assert (E1 : Cmod (Cminus (cval (c_mul T x y)) (Cmult (dft_value A k) (dft_value B k))) <= dl).
    { set (w := cval (c_mul T x y)) in *. set (q := Cmult (dft_value A k) (dft_value B k)) in *. set (r := Cmult (cval x) (cval y)) in *. clearbody w q r.
      replace (Cminus w q) with (Cplus (Cminus w r) (Cminus r q)) by ring. eapply Rle_trans; [apply Cmod_triangle|]. lra. }
    split; [exact E1|]. pose proof (cmod_sub_le (cval (c_mul T x y)) (Cmult (dft_value A k) (dft_value B k))) as M. rewrite Cmod_mult in M.
    assert (Cmod (dft_value A k) * Cmod (dft_value B k) <= Sa * Sb) by (apply Rmult_le_compat; try apply Cmod_ge_0; assumption). lra. }
  assert (Fp : Forall cfin p).
  { apply Forall_forall. intros z Hz. apply (In_nth _ _ z0) in Hz as (k & Hk & <-). apply (lt_to Lp) in Hk. exact (proj1 (K k Hk)). }
  assert (Tp : total p <= INR N * (Sa * Sb + dl)) by (rewrite <- Lp at 1; apply total_nth; intros k Hk; apply (lt_to Lp) in Hk; apply K; exact Hk).
  assert (Bp : total p <= bpow radix2 1000).
  { eapply Rle_trans; [exact Tp|]. apply Rle_trans with (bpow radix2 40 * bpow radix2 910); [|rewrite <- bpow_plus; apply bpow_le; lia]. apply Rmult_le_compat; lra. }
  destruct (C69_inverse_error ft N D HN HD HA p Lp Fp Bp) as (c & Ec & Lc & Fc & Hc). exists c.
  split; [match goal with |- bind ?m ?k = _ => transitivity (bind (Ok p) k); [apply (f_equal (fun o => bind o k)); exact EP|exact Ec] end|]. split; [exact Lc|]. split; [exact Fc|].
  intros n Hn. specialize (Hc n Hn). assert (N1 : 1 <= INR N) by (change 1 with (INR 1); apply le_INR; lia).
  set (I := Cmult (RtoC (/ INR N)) (csum N (fun k => Cmult (val p k) (cis (2 * PI * INR k * INR n / INR N))))) in *.
  assert (CV : csum N (fun m => Cmult (val a m) (val b ((n + N - m) mod N))) = conv_value A B n) by (unfold conv_value, A; rewrite map_length, La; reflexivity).
  rewrite CV.
  assert (M : Cmod (Cminus I (conv_value A B n)) <= dl).
  { rewrite <- (idft_product A B n); [|unfold A, B; rewrite !map_length, La, Lb; reflexivity|unfold A; rewrite map_length, La; exact Hn].
    assert (LA : length A = N) by (unfold A; rewrite map_length; exact La). rewrite LA.
    apply (mean_error N (val p) (fun k => Cmult (dft_value A k) (dft_value B k)) (fun k => angle N k n)); [lia|]. intros k Hk. apply K. exact Hk. }
  assert (R1 : total p / INR N <= Sa * Sb + dl).
  { apply Rmult_le_reg_r with (INR N); [lra|]. unfold Rdiv. rewrite Rmult_assoc, Rinv_l, Rmult_1_r by lra. rewrite (Rmult_comm _ (INR N)). exact Tp. }
  assert (R2 : (D + 2 * u) * (total p / INR N) <= (D + 2 * u) * (Sa * Sb) + 26 / 100 * dl).
  { apply Rle_trans with ((D + 2 * u) * (Sa * Sb + dl)); [apply Rmult_le_compat_l; lra|]. rewrite Rmult_plus_distr_l. apply Rplus_le_compat_l. apply Rmult_le_compat_r; lra. }
  assert (EX : eta * (1 + Sa + Sb) >= eta) by (assert (eta * 1 <= eta * (1 + Sa + Sb)) by (apply Rmult_le_compat_l; lra); lra).
  assert (0 <= D * (Sa * Sb)) by (apply Rmult_le_pos; lra). assert (0 <= u * (Sa * Sb)) by (apply Rmult_le_pos; lra).
  set (v := conv_value A B n) in *. set (w := val c n) in *. clearbody I v w.
  replace (Cminus w v) with (Cplus (Cminus w I) (Cminus I v)) by ring. eapply Rle_trans; [apply Cmod_triangle|].
  assert (EW' : e * (1 + Sa + Sb) = 3 * (INR N * eta * (1 + Sa + Sb))) by (unfold e; ring). assert (0 <= INR N * eta * (1 + Sa + Sb)) by (apply Rmult_le_pos; lra).
  assert (DL : dl = (225 / 100 * D + 5 * u) * (Sa * Sb) + 13 / 10 * (3 * (INR N * eta * (1 + Sa + Sb))) + 29 / 10 * eta) by (unfold dl; rewrite <- EW'; ring).
  clearbody dl e. apply Rle_trans with ((D + 2 * u) * (Sa * Sb) + 126 / 100 * dl + 5 * eta); [lra|]. rewrite DL. clear - H H2 H3 EX H0. 
  replace (9 * (INR N + 1) * eta * (1 + Sa + Sb)) with (9 * (INR N * eta * (1 + Sa + Sb)) + 9 * (eta * (1 + Sa + Sb))) by ring.
  set (q1 := INR N * eta * (1 + Sa + Sb)) in *. set (q2 := eta * (1 + Sa + Sb)) in *. set (q3 := Sa * Sb) in *. clearbody q1 q2 q3. lra.
Qed.
(** Both ways of computing a circular convolution agree up to rounding. *)
Theorem C69_same_result : forall ft N D, small N -> 0 <= D <= / 4 -> accurate N D ft ->
  forall a b, length a = N -> length b = N -> Forall cfin a -> Forall cfin b -> total a <= bpow radix2 450 -> total b <= bpow radix2 450 ->
  exists c c', fourier_convolution T ft a b = Ok c /\ circular_convolution T a b = Ok c' /\ length c = length c' /\
    forall n, (n < N)%nat -> Cmod (Cminus (val c n) (val c' n)) <= (4 * D + 2 * (INR N + 7) * u) * (total a * total b) + 12 * (INR N + 1) * eta * (1 + total a + total b).
Proof.
  intros ft N D HN HD HA a b La Lb Fa Fb Ba Bb. pose proof (total_pos a) as A0. pose proof (total_pos b) as B0. pose proof u_pos as U0. pose proof eta_pos as H0. pose proof (pos_INR N) as N0.
  destruct (C69_fourier_convolution_error ft N D HN HD HA a b La Lb Fa Fb Ba Bb) as (c & Ec & Lc & Fc & Hc).
  assert (SZ : forall n, (n < N)%nat -> rsum N (fun m => Cmod (val a m) * Cmod (val b ((n + N - m) mod N))) <= total a * total b).
  { intros n Hn. unfold total at 1. rewrite La, Rmult_comm, <- rsum_scale. apply rsum_le. intros i Hi. rewrite Rmult_comm. apply Rmult_le_compat_r; [apply Cmod_ge_0|].
    unfold total. rewrite Lb. apply (rsum_term N (fun i => Cmod (val b i))); [intros; apply Cmod_ge_0|apply Nat.mod_upper_bound; lia]. }
  destruct (C69_convolution_error f1 f2 f3 f4 f5 a b) as (c' & Ec' & Lc' & Fc' & Hc'); [congruence|rewrite La; exact HN|exact Fa|exact Fb| |].
  { rewrite La. intros n Hn. eapply Rle_trans; [apply SZ; exact Hn|]. apply Rle_trans with (bpow radix2 450 * bpow radix2 450); [apply Rmult_le_compat; lra|]. rewrite <- bpow_plus. apply bpow_le. lia. }
  rewrite La in Lc', Hc'. exists c, c'. split; [exact Ec|]. split; [exact Ec'|]. split; [congruence|]. intros n Hn. specialize (Hc n Hn). specialize (Hc' n Hn). specialize (SZ n Hn).
  set (v := csum N (fun m => Cmult (val a m) (val b ((n + N - m) mod N)))) in *. set (w := val c n) in *. set (w' := val c' n) in *. set (S := rsum N _) in *. clearbody v w w' S.
  replace (Cminus w w') with (Cplus (Cminus w v) (Copp (Cminus w' v))) by ring. eapply Rle_trans; [apply Cmod_triangle|]. rewrite Cmod_opp.
  assert (X : 3 / 2 * (INR N + 2) * u * S <= 3 / 2 * (INR N + 2) * u * (total a * total b)) by (apply Rmult_le_compat_l; [apply Rmult_le_pos; lra|exact SZ]).
  assert (Q0 : 0 <= u * (total a * total b)) by (apply Rmult_le_pos; [lra|apply Rmult_le_pos; lra]). assert (Q1 : 0 <= INR N * (u * (total a * total b))) by (apply Rmult_le_pos; lra).
  assert (Q2 : 0 <= eta * (1 + total a + total b)) by (apply Rmult_le_pos; lra). assert (Q3 : INR N * eta <= INR N * (eta * (1 + total a + total b))).
  { apply Rmult_le_compat_l; [exact N0|]. rewrite <- (Rmult_1_r eta) at 1. apply Rmult_le_compat_l; lra. }
  lra.
Qed.
End Inverse.

(** FourierTransform, with a <cmath> whose cos and sin are off by at most 2^-52: transforming and transforming back. *)
Theorem C69_library_roundtrip : forall fexp fcos fsin fasin f5, libm (2 * u) fexp fcos fsin fasin ->
  let T := MkTNum FMath fexp fcos fsin fasin f5 in
  forall x : list (dbl * dbl), small (length x) -> Forall cfin x -> total x <= bpow radix2 950 ->
  exists z, (let! y := fourier_transform T x in inverse_transform T (fourier_transform T) y) = Ok z /\ length z = length x /\ Forall cfin z /\
    forall n, (n < length x)%nat -> Cmod (Cminus (val z n) (val x n)) <= (102 * INR (length x) + 114) * u * total x + 5 * (INR (length x) + 1) * eta.
Proof.
  intros fexp fcos fsin fasin f5 LM T x HN Fx Bx. pose proof u_pos as U0. pose proof u_small as U1. pose proof (small_u _ HN) as NU. pose proof (pos_INR (length x)) as N0. assert (0 <= INR (length x) * u) by (apply Rmult_le_pos; lra).
  destruct (C69_roundtrip fexp fcos fsin fasin f5 (fourier_transform T) (length x) (34 * (INR (length x) + 1) * u + 3 / 2 * (2 * u)) HN) with (x := x) as (z & Ez & Lz & Fz & Hz); try assumption; try reflexivity.
  - lra.
  - apply C69_fourier_error; [exact LM|lra|exact HN].
  - exists z. split; [exact Ez|]. split; [exact Lz|]. split; [exact Fz|]. intros n Hn. eapply Rle_trans; [apply Hz; exact Hn|]. apply Rplus_le_compat_r. apply Rmult_le_compat_r; [apply total_pos|]. lra.
Qed.

(** ** The hypotheses can be met *)
(** the multiple of 2^-52 nearest to r *)
Definition near (r : R) : dbl := d_div (d_ofZ (ZnearestE (r * IZR (2 ^ 52)))) (d_ofZ (2 ^ 52)).
Lemma near_error r : Rabs r <= 19 / 10 -> fin (near r) /\ Rabs (V (near r) - r) <= u.
Proof.
  intro H. set (m := ZnearestE (r * IZR (2 ^ 52))). assert (P52 : IZR (2 ^ 52) = 4503599627370496) by reflexivity.
  assert (Hm : Rabs (IZR m - r * IZR (2 ^ 52)) <= / 2). { rewrite Rabs_minus_sym. apply Znearest_half. }
  assert (Bm' : (Z.abs m < 2 ^ 53)%Z).
  { apply lt_IZR. rewrite abs_IZR. change (IZR (2 ^ 53)) with 9007199254740992. rewrite P52 in Hm. apply Rabs_le_inv in H. apply Rabs_le_inv in Hm. apply Rabs_def1; lra. }
  assert (Bm : (Z.abs m <= 2 ^ 53)%Z) by lia. destruct (dZ m Bm) as [Fm Vm]. destruct (dZ (2 ^ 52) ltac:(cbn; lia)) as [Fd Vd].
  assert (FM : fmt64 (V (d_ofZ m) / V (d_ofZ (2 ^ 52)))).
  { rewrite Vm, Vd. replace (IZR m / IZR (2 ^ 52)) with (IZR m * bpow radix2 (-52)) by reflexivity.
    apply generic_format_FLT. exists (Float radix2 m (-52)); cbn [Fnum Fexp]; [reflexivity|change (Zpower radix2 53) with (2 ^ 53)%Z; lia|lia]. }
  assert (E : Rabs (V (d_ofZ m) / V (d_ofZ (2 ^ 52)) - r) <= u).
  { rewrite Vm, Vd. unfold u. change (bpow radix2 (-53)) with (/ 9007199254740992). rewrite P52 in *. apply Rabs_le_inv in Hm. apply Rabs_le. lra. }
  assert (B : Rabs (V (d_ofZ m) / V (d_ofZ (2 ^ 52))) <= bpow radix2 1023).
  { pose proof u_small. pose proof (bpow_big 1023 ltac:(lia)). apply Rabs_le_inv in E. apply Rabs_le_inv in H. apply Rabs_le. lra. }
  destruct (d_div_finite (d_ofZ m) (d_ofZ (2 ^ 52)) Fm) as [F W]; [rewrite Vd, P52; lra|apply no_overflow; exact B|]. rewrite (rnd_id _ FM) in W. unfold near. fold m. rewrite W. split; [exact F|exact E].
Qed.
Example C69_libm : libm (2 * u) (fun _ => d_ofZ 1) (fun x => near (cos (V x))) (fun x => near (sin (V x))) (fun _ => near (PI / 2)).
Proof.
  pose proof u_pos. constructor.
  - intros x _ _. apply (dZ 1). cbn; lia.
  - intros x _. pose proof (COS_bound (V x)). destruct (near_error (cos (V x)) ltac:(apply Rabs_le; lra)) as [F E]. split; [exact F|lra].
  - intros x _. pose proof (SIN_bound (V x)). destruct (near_error (sin (V x)) ltac:(apply Rabs_le; lra)) as [F E]. split; [exact F|lra].
  - pose proof PI_3. assert (PI <= 38 / 10).
    { pose proof (PI_ineq 1) as [_ Q]. cbn [Nat.mul Nat.add sum_f_R0] in Q. unfold tg_alt, PI_tg in Q. cbn [Nat.mul Nat.add INR pow] in Q. lra. }
    apply near_error. apply Rabs_le. lra.
Qed.
(** three complex integers *)
Definition ones : list (dbl * dbl) := [(d_ofZ 1, d_ofZ 0); (d_ofZ 0, d_ofZ 2); (d_ofZ 3, d_ofZ (-1))].
Lemma ones_whole : Forall cwhole ones.
Proof. assert (W : forall z, (Z.abs z <= 2 ^ 53)%Z -> whole (d_ofZ z)) by (intros z H; destruct (dZ z H); split; [assumption|exists z; assumption]). repeat constructor; cbn [fst snd]; apply W; cbn; lia. Qed.
Lemma whole_fin z : cwhole z -> cfin z. Proof. intros [[A _] [B _]]. split; assumption. Qed.
Example C69_example : small (length ones) /\ Forall cfin ones /\ Forall cwhole ones /\ total ones <= bpow radix2 450 /\
  (forall n, (n < 3)%nat -> rsum 3 (fun m => norm1 (val ones m) * norm1 (val ones ((n + 3 - m) mod 3))) <= IZR (2 ^ 53)) /\
  0 <= 34 * (INR 3 + 1) * u + 3 / 2 * (2 * u) <= / 4.
Proof.
  assert (W := ones_whole). assert (Vz : forall z, (Z.abs z <= 2 ^ 53)%Z -> V (d_ofZ z) = IZR z) by (intros z H; apply dZ; exact H).
  assert (N1 : forall k, (k < 3)%nat -> norm1 (val ones k) <= 4).
  { intros [|[|[|k]]] Hk; try lia; unfold norm1, val; cbn [ones map nth cval fst snd]; rewrite !Vz by (cbn; lia); unfold Rabs; repeat destruct Rcase_abs; lra. }
  assert (C1 : forall z, Cmod z <= norm1 z).
  { intro z. apply cmod_le; [apply norm1_pos|]. unfold norm1. pose proof (Rabs_pos (fst z)). pose proof (Rabs_pos (snd z)). assert (Q : forall r, r * r = Rabs r * Rabs r) by (intro r; rewrite <- Rabs_mult; symmetry; apply Rabs_pos_eq; apply Rle_0_sqr). rewrite (Q (fst z)), (Q (snd z)). nra. }
  split; [unfold small; cbn; lia|]. split; [eapply Forall_impl; [apply whole_fin|exact W]|]. split; [exact W|]. split; [|split].
  - apply Rle_trans with (INR 3 * 4); [apply (total_nth ones); intros k Hk; eapply Rle_trans; [apply C1|apply N1; exact Hk]|]. pose proof (bpow_big 450 ltac:(lia)). cbn [INR]. lra.
  - intros n Hn. eapply Rle_trans; [apply (rsum_bound 3 _ 16)|].
    + intros i Hi. replace 16 with (4 * 4) by ring. apply Rmult_le_compat; try apply norm1_pos; apply N1; [exact Hi|apply Nat.mod_upper_bound; lia].
    + change (IZR (2 ^ 53)) with 9007199254740992. cbn [INR]. lra.
  - pose proof u_pos. assert (u <= / 9007199254740992) by (apply Rle_refl). cbn [INR]. lra.
Qed.

Print Assumptions C69_convolution_error.
Print Assumptions C69_convolution_integers.
Print Assumptions C69_fourier_error.
Print Assumptions C69_inverse_error.
Print Assumptions C69_roundtrip.
Print Assumptions C69_fourier_convolution_error.
Print Assumptions C69_same_result.
Print Assumptions C69_library_roundtrip.
