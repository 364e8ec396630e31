(** C53: the fast wavelet transform. *)
From Coq Require Import Reals Psatz.
From Coquelicot Require Import Complex.
From Flocq Require Import Core IEEE754.BinarySingleNaN.
From Verif Require Import Base Num Optim Dsp PropDsp Cache CacheProofs DblOrder FastWavelet.
Local Open Scope nat_scope.
Local Open Scope list_scope.

(** ** A non-positive scale throws, in any arithmetic and whatever the build, the cache and the rest of the scales. *)
Theorem C53_scale : forall (T : TNum) psi b o x w s ca, n_leb T s (n_ofZ T 0) = true ->
  transform_one T psi b o x w s ca = (ca, Throw InvalidArgument).
Proof. intros. unfold transform_one. rewrite H. reflexivity. Qed.

(** ** The cache *)
Section AnyArithmetic.
Variable T : TNum.
Variable psi : nat -> num T -> outcome (cplx T).
Variable b : build T.
Hypothesis eqb_exact : forall s t : num T, n_leb T s (n_ofZ T 0) = false -> n_eqb T s t = true -> s = t.
Notation K := (wkey T). Notation V := (list (cplx T)).

Definition good_entry (e : K * stored V) : Prop :=
  match e with ((w, s, n), sv) => forall v, sv_value V sv = Some v -> calc_samples T psi w s n = Ok v end.
Definition good (ca : wcache T) : Prop := match ca with None => True | Some c => Forall good_entry (c_map K V c) end.

Lemma key_exact w s n k : n_leb T s (n_ofZ T 0) = false -> wkey_eqb T (w, s, n) k = true -> (w, s, n) = k.
Proof.
  destruct k as [[w' s'] n']. cbn. intros Hs H. apply andb_true_iff in H as [H H3]. apply andb_true_iff in H as [H1 H2].
  apply Nat.eqb_eq in H1, H3. rewrite (eqb_exact _ _ Hs H2). congruence.
Qed.
Lemma put_good w s n sv : n_leb T s (n_ofZ T 0) = false -> good_entry ((w, s, n), sv) -> forall m, Forall good_entry m -> Forall good_entry (put K V (wkey_eqb T) (w, s, n) sv m).
Proof.
  intros Hs Hg. induction m as [|[k' s'] m IH]; intro H; [constructor; [exact Hg|constructor]|]. inversion H; subst. cbn [put].
  destruct (wkey_eqb T (w, s, n) k') eqn:E; [|constructor; auto]. apply key_exact in E; [|exact Hs]. subst k'. constructor; assumption.
Qed.
Lemma lookup_good w s n sv : n_leb T s (n_ofZ T 0) = false -> forall m, Forall good_entry m -> lookup K V (wkey_eqb T) (w, s, n) m = Some sv -> good_entry ((w, s, n), sv).
Proof.
  intros Hs. induction m as [|[k' s'] m IH]; intros H L; [discriminate|]. inversion H; subst. cbn [lookup] in L.
  destruct (wkey_eqb T (w, s, n) k') eqn:E; [|auto]. apply key_exact in E; [|exact Hs]. subst k'. injection L as <-; assumption.
Qed.
Lemma touch_good w s n m : n_leb T s (n_ofZ T 0) = false -> Forall good_entry m ->
  good_entry ((w, s, n), fst (touch K V (wkey_eqb T) (w, s, n) m)) /\ Forall good_entry (snd (touch K V (wkey_eqb T) (w, s, n) m)).
Proof.
  intros Hs H. unfold touch. destruct (lookup K V (wkey_eqb T) (w, s, n) m) as [sv|] eqn:L; cbn [fst snd].
  - split; [eapply lookup_good; eassumption|exact H].
  - assert (G : good_entry ((w, s, n), MkStored V None 0)) by (cbn; discriminate). split; [exact G|]. apply put_good; assumption.
Qed.
Lemma filter_good f (m : list (K * stored V)) : Forall good_entry m -> Forall good_entry (filter f m).
Proof. induction 1; cbn; [constructor|]. destruct (f x); [constructor|]; assumption. Qed.

(** GetWaveletSamplesForConvolution returns the samples computed afresh, or throws runtime_error. *)
Lemma get_samples_spec w s N ca : n_leb T s (n_ofZ T 0) = false -> good ca ->
  good (fst (get_samples T psi w s N ca)) /\
  (snd (get_samples T psi w s N ca) = calc_samples T psi w s N \/ snd (get_samples T psi w s N ca) = Throw RuntimeError).
Proof.
  intros Hs G. destruct ca as [c|]; [|cbn; auto]. unfold get_samples. cbn [good] in G.
  unfold is_cached. destruct (touch K V (wkey_eqb T) (w, s, N) (c_map K V c)) as [sv m] eqn:E.
  destruct (touch_good w s N _ Hs G) as [G1 G2]. rewrite E in G1, G2. cbn [fst snd] in G1, G2.
  destruct (sv_value V sv) as [v|] eqn:Ev.
  - unfold get_cached. cbn [c_map with_map]. destruct (touch K V (wkey_eqb T) (w, s, N) m) as [sv' m'] eqn:E'.
    destruct (touch_good w s N _ Hs G2) as [G3 G4]. rewrite E' in G3, G4. cbn [fst snd] in G3, G4.
    destruct (sv_value V sv') as [v'|] eqn:Ev'; cbn [fst snd good c_map with_map].
    + cbn in G3. split; [apply put_good; [exact Hs| |exact G4]; cbn; intros u Hu; injection Hu as <-; auto|]. left. symmetry. auto.
    + split; [exact G4|]. right. reflexivity.
  - destruct (calc_samples T psi w s N) as [v|e|u] eqn:Ec; cbn [fst snd good c_map with_map]; auto.
    unfold add_value, clear_up_to_limit. set (c1 := with_map K V c m).
    assert (G5 : Forall good_entry (c_map K V (clear_unused K V 1 c1))) by (apply filter_good; exact G2).
    destruct (exceeded K V c1); [destruct (exceeded K V (clear_unused K V 1 c1))|destruct (exceeded K V c1)]; cbn [fst snd good c_map with_map bind];
      (split; [first [apply put_good; [exact Hs|cbn; intros u Hu; congruence|assumption]|assumption]|]); auto.
Qed.
Lemma transform_one_spec o x w s ca : good ca ->
  good (fst (transform_one T psi b o x w s ca)) /\
  (snd (transform_one T psi b o x w s ca) = snd (transform_one T psi b o x w s None) \/ snd (transform_one T psi b o x w s ca) = Throw RuntimeError).
Proof.
  intro G. unfold transform_one. destruct (n_leb T s (n_ofZ T 0)) eqn:Hs; [cbn; auto|].
  destruct (get_samples_spec w s (length x) ca Hs G) as [G1 G2]. destruct (get_samples T psi w s (length x) ca) as [ca' r]. cbn [fst snd] in *.
  split; [exact G1|]. unfold get_samples. cbn [snd]. destruct G2 as [-> | ->]; [left; reflexivity|right; reflexivity].
Qed.
Lemma transform_one_none o x w s : fst (transform_one T psi b o x w s None) = None.
Proof. unfold transform_one. destruct (n_leb T s (n_ofZ T 0)); reflexivity. Qed.
Lemma transform_scales_spec o x w : forall scales ca, good ca ->
  good (fst (transform_scales T psi b o x w scales ca)) /\
  (snd (transform_scales T psi b o x w scales ca) = snd (transform_scales T psi b o x w scales None) \/
   snd (transform_scales T psi b o x w scales ca) = Throw RuntimeError).
Proof.
  induction scales as [|s r IH]; intros ca G; [cbn; auto|]. cbn [transform_scales].
  destruct (transform_one_spec o x w s ca G) as [G1 G2]. pose proof (transform_one_none o x w s) as N0.
  destruct (transform_one T psi b o x w s ca) as [ca1 r1]. destruct (transform_one T psi b o x w s None) as [ca0 r0]. cbn [fst snd] in *. subst ca0.
  destruct G2 as [-> | ->]; [|cbn; auto].
  destruct r0 as [row|e|u]; cbn [fst snd]; auto. destruct (IH ca1 G1) as [A B].
  destruct (transform_scales T psi b o x w r ca1) as [ca2 rest]. destruct (transform_scales T psi b o x w r None) as [ca3 rest0]. cbn [fst snd] in *.
  split; [exact A|]. destruct B as [-> | ->]; auto.
Qed.
Lemma wafter_good o h : forall ca, good ca -> good (wafter T psi b o ca h).
Proof.
  induction h as [|c h IH]; intros ca G; [exact G|]. cbn [wafter fold_left]. apply IH. destruct c as [x w|x w s]; cbn [wstep].
  - apply transform_scales_spec. exact G.
  - apply transform_one_spec. exact G.
Qed.
Lemma wafter_none o h : wafter T psi b o None h = None.
Proof.
  induction h as [|c h IH]; [reflexivity|]. cbn [wafter fold_left]. enough (wstep T psi b o None c = None) as -> by exact IH.
  destruct c as [x w|x w s]; cbn [wstep]; [|apply transform_one_none]. unfold transform.
  generalize (f_scales T o). induction l as [|s r IHr]; [reflexivity|]. cbn [transform_scales]. pose proof (transform_one_none o x w s) as N0.
  destruct (transform_one T psi b o x w s None) as [ca [row|e|u]]; cbn [fst] in *; subst ca; try reflexivity.
  destruct (transform_scales T psi b o x w r None) as [ca2 rest]. exact IHr.
Qed.

(** Over any history of calls (transforms with other wavelets, sizes and scales, some of which may have thrown) an object
    with a cache either returns exactly what an object without one does or throws runtime_error. *)
Theorem C53_cache_transparent : forall bytes scales size limit limit' o ca o' ca' h,
  fwt_create T b bytes scales size limit = Ok (o, ca) ->
  fwt_create T b bytes scales size limit' = Ok (o', ca') -> d_ltb (d_ofZ 0) limit' = false ->
  (forall x w, let result := snd (transform T psi b o x w (wafter T psi b o ca h)) in
     result = snd (transform T psi b o' x w ca') \/ result = Throw RuntimeError) /\
  (forall x w s, let result := snd (transform_one T psi b o x w s (wafter T psi b o ca h)) in
     result = snd (transform_one T psi b o' x w s ca') \/ result = Throw RuntimeError).
Proof.
  intros bytes scales size limit limit' o ca o' ca' h H H' L. unfold fwt_create in H, H'. destruct (fft_create T b size); try discriminate. cbn [bind] in *.
  injection H as <- <-. injection H' as <- <-. replace (c_create K V bytes limit') with (@None (cache K V)) by (unfold c_create; rewrite L; reflexivity).
  assert (G : good (wafter T psi b (MkFwt T scales size) (c_create K V bytes limit) h)).
  { apply wafter_good. unfold c_create. destruct (d_ltb (d_ofZ 0) limit); cbn; auto. }
  split; intros; [apply transform_scales_spec|apply transform_one_spec]; exact G.
Qed.
(** Without a cache (limit not positive, the default) every call is independent of the history. *)
Theorem C53_no_cache : forall bytes scales size limit o ca h,
  fwt_create T b bytes scales size limit = Ok (o, ca) -> d_ltb (d_ofZ 0) limit = false ->
  (forall x w, snd (transform T psi b o x w (wafter T psi b o ca h)) = snd (transform T psi b o x w ca)) /\
  (forall x w s, snd (transform_one T psi b o x w s (wafter T psi b o ca h)) = snd (transform_one T psi b o x w s ca)).
Proof.
  intros bytes scales size limit o ca h H L. unfold fwt_create in H. destruct (fft_create T b size); try discriminate. cbn [bind] in H.
  injection H as <- <-. unfold c_create. rewrite L, wafter_none. auto.
Qed.
End AnyArithmetic.
(** The hypothesis of these theorems (equal positive scales are the same number) holds in exact arithmetic and for doubles
    (for which 0 and -0 are equal but not the same, and NaN is not equal to itself). *)
Theorem C53_scales_exact : 
  (forall s t : R, n_leb RTrig s (n_ofZ RTrig 0) = false -> n_eqb RTrig s t = true -> s = t) /\
  (forall f1 f2 f3 f4 f5 (s t : dbl), let T := MkTNum FMath f1 f2 f3 f4 f5 in n_leb T s (n_ofZ T 0) = false -> n_eqb T s t = true -> s = t).
Proof.
  split.
  - intros s t _ H. cbn in H. unfold R_eqb in H. destruct (Req_EM_T s t); [assumption|discriminate].
  - intros f1 f2 f3 f4 f5 s t T. change (n_leb T s (n_ofZ T 0)) with (d_leb s (d_ofZ 0)). change (n_eqb T s t) with (d_eqb s t). clear T. intros H E.
    destruct s as [[]|[]| |[] m e Hm], t as [[]|[]| |[] m' e' Hm']; try discriminate; try reflexivity.
    apply B2R_inj; try reflexivity. unfold d_eqb in E. rewrite Beqb_correct in E by reflexivity.
    destruct (Req_bool_spec (B2R (B754_finite false m e Hm)) (B2R (B754_finite false m' e' Hm'))); [assumption|discriminate].
Qed.

(** ** Building and sizes *)
Theorem C53_sizes : forall (T : TNum) psi (b : build T) bytes scales size limit,
  (b = None -> exists ca, fwt_create T b bytes scales size limit = Ok (MkFwt T scales size, ca) /\
     forall x w s ca', n_leb T s (n_ofZ T 0) = false ->
       forall r, snd (transform_one T psi b (MkFwt T scales size) x w s ca') <> Ok r) /\
  (b <> None -> size = 0 -> fwt_create T b bytes scales size limit = Throw InvalidArgument) /\
  (b <> None -> forall x w s ca' r, length x <> size -> snd (transform_one T psi b (MkFwt T scales size) x w s ca') <> Ok r).
Proof.
  intros T psi b bytes scales size limit. split; [|split].
  - intros ->. eexists. split; [reflexivity|]. intros x w s ca' Hs r. unfold transform_one. rewrite Hs.
    destruct (get_samples T psi w s (length x) ca') as [ca2 [h|e|u]]; cbn [snd bind]; try discriminate.
    unfold fourier_convolution. destruct (negb _); discriminate.
  - intros Hb ->. unfold fwt_create, fft_create. destruct b; [reflexivity|contradiction].
  - intros Hb x w s ca' r Hl. unfold transform_one. destruct (n_leb T s (n_ofZ T 0)); [discriminate|].
    destruct (get_samples T psi w s (length x) ca') as [ca2 [h|e|u]]; cbn [snd bind]; try discriminate.
    unfold fourier_convolution. destruct (negb _); [discriminate|]. unfold fft_transform. destruct b as [f|]; [|contradiction]. cbn [f_size].
    destruct (Nat.eqb_spec size (length x)); [congruence|discriminate].
Qed.

(** ** The value of a transform, exact arithmetic *)
(** Specification. The wavelet stretched by [s]; the representative of d modulo N in [-(N/2), N - N/2); the correlation at
    shift n, with the sampling points half a sample off when N is odd. *)
Definition stretched (psi : R -> C) (s t : R) : C := Cmult (RtoC (/ sqrt s)) (psi (t / s)%R).
Definition wrapped (N : nat) (d : Z) : Z := ((d + Z.of_nat (N / 2)) mod Z.of_nat N - Z.of_nat (N / 2))%Z.
Definition correlation (psi : R -> C) (s : R) (x : list C) (n : nat) : C :=
  csum (length x) (fun m => Cmult (nth m x (RtoC 0))
    (Cconj (stretched psi s (- IZR (wrapped (length x) (Z.of_nat n - Z.of_nat m)) + (if Nat.even (length x) then 0 else 1 / 2))))).

Section Exact.
Variable engine : list C -> list C.
Variable size : nat.
Hypothesis engine_dft : forall x, length x = size -> fourier_transform RTrig x = Ok (engine x).
Variable psi : nat -> R -> C.
Definition psi_ok : nat -> num RTrig -> outcome (cplx RTrig) := fun w t => Ok (psi w t).

Lemma samples_exact w s N : (0 < s)%R -> calc_samples RTrig psi_ok w s N = Ok (map (fun n => Cconj (stretched (psi w) s (- (INR n - INR N / 2)))) (seq 0 N)).
Proof.
  intro Hs. unfold calc_samples. apply mapM_ok_nth. split; [rewrite map_length; reflexivity|]. intros i n z Hi Hz.
  rewrite nth_error_map, Hi in Hz. injection Hz as <-. unfold scaled_value, psi_ok. cbn [bind]. f_equal.
  assert (sqrt s <> 0)%R by (pose proof (sqrt_lt_R0 s Hs); lra).
  unfold nat_num, c_conj, c_div_r. cbn. rewrite <- !INR_IZR_INZ. replace (-1 * (INR n - INR N / 2))%R with (- (INR n - INR N / 2))%R by ring.
  unfold stretched. destruct (psi w (- (INR n - INR N / 2) / s)%R) as [u v]. apply injective_projections; cbn; field; assumption.
Qed.
Lemma fft_conv x h : length x = size -> length h = size -> fourier_convolution RTrig (fft_transform RTrig (Some engine) size) x h = circular_convolution RTrig x h.
Proof.
  intros Lx Lh. rewrite <- C50_same_result. 
  assert (E : forall y : list C, length y = size -> fft_transform RTrig (Some engine) size y = fourier_transform RTrig y).
  { intros y Ly. unfold fft_transform. change (cplx RTrig) with C. rewrite Ly, Nat.eqb_refl. symmetry. apply engine_dft. exact Ly. }
  unfold fourier_convolution. change (cplx RTrig) with C in *. rewrite Lx, Lh, Nat.eqb_refl. cbn [negb]. rewrite !E by assumption. rewrite !dft_exact. cbn [bind].
  match goal with |- bind ?m _ = bind ?m _ => destruct m as [p|e|u] eqn:Em end; try reflexivity. cbn [bind].
  unfold inverse_transform. rewrite E; [reflexivity|]. unfold conjugate. rewrite map_length. apply mapM_ok_length in Em. rewrite seq_length in Em. exact Em.
Qed.
Lemma rotate_nth (l : list C) n : n < length l -> nth n (rotate_half l) (RtoC 0) = nth ((n + length l / 2) mod length l) l (RtoC 0).
Proof.
  intro H. unfold rotate_half. set (k := length l / 2). assert (Hk : k <= length l) by (unfold k; apply Nat.div_le_upper_bound; lia).
  assert (Sk : forall i, nth i (skipn k l) (RtoC 0) = nth (k + i) l (RtoC 0)).
  { intro i. transitivity (nth (k + i) (firstn k l ++ skipn k l) (RtoC 0)); [|rewrite firstn_skipn; reflexivity].
    rewrite app_nth2 by (rewrite firstn_length; lia). rewrite firstn_length, Nat.min_l by exact Hk. f_equal. lia. }
  assert (Fk : forall i, i < k -> nth i (firstn k l) (RtoC 0) = nth i l (RtoC 0)).
  { intros i Hi. transitivity (nth i (firstn k l ++ skipn k l) (RtoC 0)); [|rewrite firstn_skipn; reflexivity].
    rewrite app_nth1 by (rewrite firstn_length; lia). reflexivity. }
  destruct (Nat.lt_ge_cases n (length l - k)) as [L|L].
  - rewrite app_nth1 by (rewrite skipn_length; exact L). rewrite Nat.mod_small by lia. rewrite Sk. f_equal. lia.
  - rewrite app_nth2 by (rewrite skipn_length; exact L). rewrite skipn_length.
    replace (n + k) with (n + k - length l + 1 * length l) by lia. rewrite Nat.mod_add, Nat.mod_small by lia. rewrite Fk by lia. f_equal. lia.
Qed.
Lemma rotate_length {A} (l : list A) : length (rotate_half l) = length l.
Proof. unfold rotate_half. rewrite app_length, skipn_length, firstn_length. pose proof (Nat.div_le_upper_bound (length l) 2 (length l)). lia. Qed.

Lemma row_exact w s x : (0 < s)%R -> length x = size -> 0 < size -> forall o ca, f_size RTrig o = size -> ca = None -> exists row,
  snd (transform_one RTrig psi_ok (Some engine) o x w s ca) = Ok row /\ length row = size /\
  forall n, n < size -> nth n (rotate_half row) (RtoC 0) = correlation (psi w) s x n.
Proof.
  intros Hs Lx H0 o ca Ho ->. unfold transform_one, get_samples. cbn [snd].
  replace (n_leb RTrig s (n_ofZ RTrig 0)) with false.
  2:{ symmetry. change (R_leb s 0 = false). unfold R_leb. destruct (Rle_dec s 0); [lra|reflexivity]. }
  cbn [snd]. rewrite samples_exact by exact Hs. cbn [bind]. rewrite Ho, fft_conv by (try rewrite map_length, seq_length; exact Lx).
  change (cplx RTrig) with C in *. change (num RTrig * num RTrig)%type with C.
  rewrite conv_exact by (rewrite map_length, seq_length; reflexivity). eexists. split; [reflexivity|].
  split; [rewrite map_length, seq_length; exact Lx|]. intros n Hn. rewrite rotate_nth by (rewrite map_length, seq_length; lia). rewrite map_length, seq_length.
  rewrite nth_map_seq by (apply Nat.mod_upper_bound; lia). unfold conv_value, correlation. apply csum_ext. intros m Hm. f_equal.
  rewrite nth_map_seq by (apply Nat.mod_upper_bound; lia). do 2 f_equal. set (N := length x) in *. subst N. rewrite Lx in *. clear - Hn Hm.
  set (j := ((n + size / 2) mod size + size - m) mod size). unfold wrapped.
  assert (Ej : (Z.of_nat j = (Z.of_nat n - Z.of_nat m + Z.of_nat (size / 2)) mod Z.of_nat size)%Z).
  { unfold j. rewrite Nat2Z.inj_mod, Nat2Z.inj_sub, Nat2Z.inj_add, Nat2Z.inj_mod, Nat2Z.inj_add by lia.
    replace ((Z.of_nat n + Z.of_nat (size / 2)) mod Z.of_nat size + Z.of_nat size - Z.of_nat m)%Z with ((Z.of_nat n + Z.of_nat (size / 2)) mod Z.of_nat size - Z.of_nat m + 1 * Z.of_nat size)%Z by ring.
    rewrite Z_mod_plus_full. rewrite Zminus_mod_idemp_l. f_equal. ring. }
  rewrite <- Ej, minus_IZR, <- !INR_IZR_INZ.
  destruct (Nat.even size) eqn:Ev.
  - apply Nat.even_spec in Ev as [q ->]. rewrite (Nat.mul_comm 2 q), Nat.div_mul, mult_INR by lia. cbn [INR]. lra.
  - assert (Od : Nat.odd size = true) by (rewrite <- Nat.negb_even, Ev; reflexivity). apply Nat.odd_spec in Od as [q ->].
    replace ((2 * q + 1) / 2) with q by (rewrite Nat.add_comm, Nat.mul_comm, Nat.div_add by lia; reflexivity). rewrite plus_INR, mult_INR. cbn [INR]. lra.
Qed.

(** With FFTW3, and fftw_execute computing the discrete Fourier transform: an object for a positive size and positive scales,
    without cache, transforms every signal of that size to one row per scale, each the correlation of the signal with the
    stretched wavelet. With a cache the same is returned after any history, or runtime_error is thrown. *)
Theorem C53_transform : forall bytes scales limit o ca h (x : list C) w,
  0 < size -> length x = size -> Forall (fun s => 0 < s)%R scales ->
  fwt_create RTrig (Some engine) bytes scales size limit = Ok (o, ca) ->
  let result := snd (transform RTrig psi_ok (Some engine) o x w (wafter RTrig psi_ok (Some engine) o ca h)) in
  (d_ltb (d_ofZ 0) limit = true /\ result = Throw RuntimeError) \/
  exists rows : list (list C), result = Ok rows /\ length rows = length scales /\
    forall i s row, nth_error scales i = Some s -> nth_error rows i = Some row ->
      length row = size /\ forall n, n < size -> nth n row (RtoC 0) = correlation (psi w) s x n.
Proof.
  intros bytes scales limit o ca h x w H0 Lx Hs Hc result.
  assert (Hn : exists rows : list (list C), snd (transform RTrig psi_ok (Some engine) o x w None) = Ok rows /\ length rows = length scales /\
    forall i s row, nth_error scales i = Some s -> nth_error rows i = Some row ->
      length row = size /\ forall n, n < size -> nth n row (RtoC 0) = correlation (psi w) s x n).
  { unfold fwt_create, fft_create in Hc. destruct (Nat.eqb_spec size 0); [lia|]. cbn [bind] in Hc. injection Hc as <- _. unfold transform. cbn [f_scales].
    clear - Hs H0 Lx engine_dft. change (num RTrig) with R in *. set (o := MkFwt RTrig scales size). assert (Ho : f_size RTrig o = size) by reflexivity. clearbody o. induction Hs as [|s r Hs Hr IH].
    - exists []. split; [reflexivity|]. split; [reflexivity|]. intros i s row Hi. destruct i; discriminate.
    - destruct IH as (rows & E & L & F). destruct (row_exact w s x Hs Lx H0 o None Ho eq_refl) as (row & Er & Lr & Fr).
      cbn [transform_scales]. pose proof (transform_one_none RTrig psi_ok (Some engine) o x w s) as N0.
      destruct (transform_one RTrig psi_ok (Some engine) o x w s None) as [ca0 r0]. cbn [fst snd] in *. subst ca0 r0.
      destruct (transform_scales RTrig psi_ok (Some engine) o x w r None) as [ca0 r0]. cbn [fst snd] in *. subst r0. cbn [bind].
      exists (rotate_half row :: rows). split; [reflexivity|]. split; [cbn; lia|]. intros [|i] s' row' Hi Hrow; cbn in Hi, Hrow; [|eapply F; eassumption].
      injection Hi as <-. injection Hrow as <-. split; [exact (eq_trans (rotate_length _) Lr)|exact Fr]. }
  destruct Hn as (rows & E & R). destruct (d_ltb (d_ofZ 0) limit) eqn:L.
  - assert (Hc' : exists ca', fwt_create RTrig (Some engine) bytes scales size (d_ofZ 0) = Ok (o, ca') /\ ca' = None).
    { unfold fwt_create in *. destruct (fft_create RTrig (Some engine) size); try discriminate. cbn [bind] in *. injection Hc as <- _. eexists. split; reflexivity. }
    destruct Hc' as (ca' & Hc' & ->).
    destruct (C53_cache_transparent RTrig psi_ok (Some engine) (proj1 C53_scales_exact) bytes scales size limit (d_ofZ 0) o ca o None h Hc Hc' eq_refl) as [H _].
    destruct (H x w) as [Q|Q]; [right; exists rows; split; [exact (eq_trans Q E)|exact R]|left; auto].
  - right. exists rows. split; [|exact R]. destruct (C53_no_cache RTrig psi_ok (Some engine) bytes scales size limit o ca h Hc L) as [H _].
    unfold result. rewrite H. unfold fwt_create in Hc. destruct (fft_create RTrig (Some engine) size); try discriminate. cbn [bind] in Hc. injection Hc as <- <-.
    unfold c_create. rewrite L. exact E.
Qed.
End Exact.

(** ** The cache can make a transform throw that succeeds without it: a limit of one byte (records take 56); the samples
    for one scale are computed and then read once; a second scale then fails for every signal. *)
Definition exact_engine (x : list C) : list C := match fourier_transform RTrig x with Ok y => y | _ => [] end.
Lemma exact_engine_dft x : fourier_transform RTrig x = Ok (exact_engine x).
Proof. unfold exact_engine. rewrite dft_exact. reflexivity. Qed.
Definition one_byte : dbl := d_div (d_ofZ 1) (d_ofZ 1048576).
Theorem C53_cache_throws_refuted : forall (psi : nat -> R -> C) (x : list C) w (s1 s2 : R), 0 < length x -> (0 < s1)%R -> (0 < s2)%R -> s1 <> s2 ->
  exists o ca o' ca',
  fwt_create RTrig (Some exact_engine) 56 [s1; s2] (length x) one_byte = Ok (o, ca) /\
  fwt_create RTrig (Some exact_engine) 56 [s1; s2] (length x) (d_ofZ (-1)) = Ok (o', ca') /\
  (exists r, snd (transform_one RTrig (psi_ok psi) (Some exact_engine) o' x w s2 ca') = Ok r) /\
  snd (transform_one RTrig (psi_ok psi) (Some exact_engine) o x w s2
    (wafter RTrig (psi_ok psi) (Some exact_engine) o ca [OneScale RTrig x w s1; OneScale RTrig x w s1])) = Throw RuntimeError.
Proof.
  intros psi x w s1 s2 Hx H1 H2 Hne. set (o := MkFwt RTrig [s1; s2] (length x)).
  exists o, (c_create (wkey RTrig) (list (cplx RTrig)) 56 one_byte), o, (c_create (wkey RTrig) (list (cplx RTrig)) 56 (d_ofZ (-1))).
  assert (Hc : forall l, fwt_create RTrig (Some exact_engine) 56 [s1; s2] (length x) l = Ok (o, c_create (wkey RTrig) (list (cplx RTrig)) 56 l)).
  { intro l. unfold fwt_create, fft_create. destruct (Nat.eqb_spec (length x) 0); [lia|]. reflexivity. }
  split; [apply Hc|]. split; [apply Hc|]. split.
  - destruct (row_exact exact_engine (length x) (fun y _ => exact_engine_dft y) psi w s2 x H2 eq_refl Hx o None eq_refl eq_refl) as (row & E & _). exists row. exact E.
  - assert (P : forall s, (0 < s)%R -> n_leb RTrig s (n_ofZ RTrig 0) = false).
    { intros s Hs. change (R_leb s 0 = false). unfold R_leb. destruct (Rle_dec s 0); [lra|reflexivity]. }
    assert (K1 : forall s n, wkey_eqb RTrig (w, s, n) (w, s, n) = true).
    { intros s n. cbn. rewrite !Nat.eqb_refl. unfold R_eqb. destruct (Req_EM_T s s); [reflexivity|contradiction]. }
    assert (K2 : forall n, wkey_eqb RTrig (w, s2, n) (w, s1, n) = false).
    { intro n. cbn. rewrite Nat.eqb_refl. unfold R_eqb. destruct (Req_EM_T s2 s1); [congruence|reflexivity]. }
    assert (O1 : over one_byte 56 1 = true) by (vm_compute; reflexivity). assert (O2 : over one_byte 56 2 = true) by (vm_compute; reflexivity).
    assert (O0 : over one_byte 56 0 = false) by (vm_compute; reflexivity).
    pose proof (samples_exact psi w s1 (length x) H1) as S1. pose proof (samples_exact psi w s2 (length x) H2) as S2.
    set (v1 := map _ _) in S1. set (v2 := map _ _) in S2. clearbody v1 v2.
    replace (c_create (wkey RTrig) (list (cplx RTrig)) 56 one_byte) with (Some (MkCache (wkey RTrig) (list (cplx RTrig)) [] one_byte 56)) by reflexivity.
    cbn [wafter fold_left wstep].
    assert (E1 : fst (transform_one RTrig (psi_ok psi) (Some exact_engine) o x w s1 (Some (MkCache (wkey RTrig) (list (cplx RTrig)) [] one_byte 56))) =
      Some (MkCache (wkey RTrig) (list (cplx RTrig)) [((w, s1, length x), MkStored _ (Some v1) 0)] one_byte 56)).
    { unfold transform_one. rewrite (P s1 H1). unfold get_samples, is_cached, touch, with_map. cbn [c_map lookup put with_map sv_value c_limit c_bytes].
      change (num RTrig) with R in *. change (cplx RTrig) with C in *. rewrite S1. unfold add_value, clear_up_to_limit, exceeded, with_map. cbn [c_map c_limit c_bytes length]. rewrite O1.
      unfold clear_unused, with_map. cbn [c_map filter snd sv_usage Nat.ltb Nat.leb negb with_map c_limit c_bytes length]. rewrite O0. reflexivity. }
    rewrite E1. clear E1.
    assert (E2 : fst (transform_one RTrig (psi_ok psi) (Some exact_engine) o x w s1 (Some (MkCache (wkey RTrig) (list (cplx RTrig)) [((w, s1, length x), MkStored _ (Some v1) 0)] one_byte 56))) =
      Some (MkCache (wkey RTrig) (list (cplx RTrig)) [((w, s1, length x), MkStored _ (Some v1) 1)] one_byte 56)).
    { unfold transform_one. rewrite (P s1 H1). unfold get_samples, is_cached, touch, with_map. cbn [c_map lookup put with_map sv_value c_limit c_bytes].
      rewrite K1. cbn [sv_value]. unfold get_cached, touch, with_map. cbn [c_map lookup put with_map sv_value c_limit c_bytes]. rewrite K1. cbn [sv_value put sv_usage]. rewrite K1. reflexivity. }
    rewrite E2. clear E2.
    unfold transform_one. rewrite (P s2 H2). unfold get_samples, is_cached, touch, with_map. cbn [c_map lookup put with_map sv_value c_limit c_bytes].
    rewrite K2. cbn [sv_value]. change (num RTrig) with R in *. change (cplx RTrig) with C in *. rewrite S2. unfold add_value, clear_up_to_limit, exceeded, with_map. cbn [c_map c_limit c_bytes length put with_map].
    rewrite O2. unfold clear_unused, with_map. cbn [c_map filter snd sv_usage Nat.ltb Nat.leb negb with_map c_limit c_bytes length]. rewrite O1. reflexivity.
Qed.
Example C53_example : exists o ca, fwt_create RTrig (Some exact_engine) 56 [1%R; 2%R] 4 (d_ofZ (-1)) = Ok (o, ca) /\ Forall (fun s => 0 < s)%R [1%R; 2%R] /\
  forall x, length x = 4 -> fourier_transform RTrig x = Ok (exact_engine x).
Proof. do 2 eexists. split; [reflexivity|]. split; [repeat constructor; lra|]. intros; apply exact_engine_dft. Qed.
Print Assumptions C53_scale. Print Assumptions C53_cache_transparent. Print Assumptions C53_no_cache. Print Assumptions C53_scales_exact.
Print Assumptions C53_sizes. Print Assumptions C53_transform. Print Assumptions C53_cache_throws_refuted.
