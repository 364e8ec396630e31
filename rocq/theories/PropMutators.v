(** C17-C19: gene mutators. *)
From Coq Require Import Reals Psatz.
From Flocq Require Import Core.Core IEEE754.BinarySingleNaN.
From Verif Require Import Base Num DblOrder FloatLemmas Random Mutators PropRandom.
Local Open Scope Z_scope.

(** *** Specification: the sequence of decisions of a mutator over [n] genes (it does not see the genes). *)
Fixpoint decisions (M : genmut) (n : nat) (s : gm_st M) (g : rstream) : outcome (list bool * gm_st M) * rstream :=
  match n with
  | O => (Ok ([], s), g)
  | S k =>
      match gm_should M s g with
      | (Ok m, g1) =>
          match gm_after M s m g1 with
          | (Ok s', g2) => let (o, g3) := decisions M k s' g2 in (let! x := o in Ok (m :: fst x, snd x), g3)
          | (Throw e, g2) => (Throw e, g2)
          | (UB u, g2) => (UB u, g2)
          end
      | (Throw e, g1) => (Throw e, g1)
      | (UB u, g1) => (UB u, g1)
      end
  end.

(** ** C17: for every mutator *)
Theorem C17_flips_exactly : forall (M : genmut) c s g c' s' g',
  mutate_chromosome M c s g = (Ok (c', s'), g') <->
  exists ds, decisions M (length c) s g = (Ok (ds, s'), g') /\ length ds = length c /\ length c' = length c /\
    forall i a d b, nth_error c i = Some a -> nth_error ds i = Some d -> nth_error c' i = Some b -> b = xorb a d.
Proof.
  intros M c. induction c as [|a c IH]; intros s g c' s' g'; cbn [mutate_chromosome decisions length].
  - split.
    + intro H. inversion H; subst. exists []. repeat split; auto. intros [|i]; discriminate.
    + intros (ds & H & Hd & Hc & _). destruct ds; [|discriminate]. destruct c'; [|discriminate]. inversion H; subst. reflexivity.
  - destruct (gm_should M s g) as [[m|e|u] g1]; [|split; [discriminate|intros (ds & H & _); discriminate]..].
    destruct (gm_after M s m g1) as [[s1|e|u] g2]; [|split; [discriminate|intros (ds & H & _); discriminate]..].
    specialize (IH s1 g2).
    destruct (mutate_chromosome M c s1 g2) as [o3 g3]. destruct (decisions M (length c) s1 g2) as [o4 g4].
    split.
    + intro H. destruct o3 as [[c1 s2]|e|u]; cbn in H; try discriminate. inversion H; subst; clear H.
      destruct (proj1 (IH c1 s' g') eq_refl) as (ds & E & Hl & Hl' & Hn). inversion E; subst.
      exists (m :: ds). cbn. split; [reflexivity|]. split; [congruence|]. split; [congruence|].
      intros [|i] a0 d b Ha Hd Hb; cbn in *.
      * inversion Ha; inversion Hd; inversion Hb; subst. destruct a0, d; reflexivity.
      * eapply Hn; eauto.
    + intros (ds & H & Hl & Hl' & Hn). destruct o4 as [[ds1 s2]|e|u]; cbn in H; try discriminate.
      inversion H; subst; clear H. destruct c' as [|b c1]; [discriminate|]. cbn in Hl, Hl'.
      assert (E : (o3, g3) = (Ok (c1, s'), g')).
      { apply IH. exists ds1. split; [reflexivity|]. split; [lia|]. split; [lia|].
        intros i a0 d b0 Ha Hd Hb. apply (Hn (S i)); assumption. }
      inversion E; subst. cbn. do 3 f_equal.
      specialize (Hn 0%nat a m b eq_refl eq_refl eq_refl). subst b. destruct a, m; reflexivity.
Qed.
Print Assumptions C17_flips_exactly.

(** decisions over consecutive chromosomes are one stream: the state carries over *)
Theorem C17_stream : forall (M : genmut) n m s g,
  decisions M (n + m) s g =
  match decisions M n s g with
  | (Ok (ds, s1), g1) => let (o, g2) := decisions M m s1 g1 in (let! x := o in Ok (ds ++ fst x, snd x), g2)
  | (Throw e, g1) => (Throw e, g1)
  | (UB u, g1) => (UB u, g1)
  end.
Proof.
  intros M n m. induction n as [|n IH]; intros s g; cbn [decisions Nat.add].
  - destruct (decisions M m s g) as [[[ds s1]|e|u] g1]; reflexivity.
  - destruct (gm_should M s g) as [[d|e|u] g1]; try reflexivity.
    destruct (gm_after M s d g1) as [[s1|e|u] g2]; try reflexivity.
    rewrite IH. destruct (decisions M n s1 g2) as [[[ds s2]|e|u] g3]; try reflexivity.
    cbn [bind fst snd]. destruct (decisions M m s2 g3) as [[[ds' s3]|e|u] g4]; reflexivity.
Qed.
Print Assumptions C17_stream.

(** ** C18: FlipBitMutator *)

(** *** Specification: the pattern "gap, mutation, gap, mutation, ..." for a sequence of gaps. *)
Fixpoint pattern (gaps : list nat) : list bool :=
  match gaps with [] => [] | k :: r => repeat false k ++ true :: pattern r end.
(** the gaps drawn: the rand() results reduced modulo max+1 *)
Fixpoint drawn_gaps (mx : Z) (g : rstream) (n : nat) : list nat :=
  match n with O => [] | S k => Z.to_nat (g 0%nat mod (mx + 1)) :: drawn_gaps mx (fun i => g (S i)) k end.

Lemma firstn_pattern_more n k gaps : (n <= k)%nat -> firstn n (repeat false k ++ true :: pattern gaps) = repeat false n.
Proof.
  revert k. induction n as [|n IH]; intros k H; [reflexivity|]. destruct k; [lia|]. cbn. f_equal. apply IH. lia.
Qed.

Definition fl_ok (s : flip) : Prop := 1 <= fl_max s < INT_MAX /\ 0 <= fl_cur s <= fl_skip s /\ fl_skip s <= fl_max s.

Lemma flip_set_ok mx g : 1 <= mx < INT_MAX -> 0 <= g 0%nat ->
  flip_set mx g = (Ok (MkFlip mx (g 0%nat mod (mx + 1)) 0), fun n => g (S n)) /\ 0 <= g 0%nat mod (mx + 1) <= mx.
Proof.
  intros Hm Hg. unfold flip_set, get_discrete, draw.
  destruct (C11_in_range (g 0%nat) 0 mx) as (v & Hv & Hr & E); unfold INT_MIN, INT_MAX in *; try lia.
  rewrite Hv. cbn [omap]. rewrite !Z.sub_0_r in E. rewrite <- E. split; [reflexivity|lia].
Qed.

Lemma flip_decisions n : forall s g, fl_ok s -> (forall i, 0 <= g i) ->
  exists ds s' g', decisions flip_bit n s g = (Ok (ds, s'), g') /\ length ds = n /\ fl_ok s' /\
    forall k, (n <= k)%nat -> ds = firstn n (repeat false (Z.to_nat (fl_skip s - fl_cur s)) ++ true :: pattern (drawn_gaps (fl_max s) g k)).
Proof.
  induction n as [|n IH]; intros s g Hs Hg.
  - exists [], s, g. cbn. repeat split; auto; apply Hs.
  - destruct Hs as (Hm & Hc & Hk). cbn [decisions flip_bit gm_should gm_after gm_st].
    destruct (Z.leb_spec (fl_skip s) (fl_cur s)) as [L|L].
    + destruct (flip_set_ok (fl_max s) g Hm (Hg 0%nat)) as [E R]. rewrite E.
      destruct (IH (MkFlip (fl_max s) (g 0%nat mod (fl_max s + 1)) 0) (fun i => g (S i))) as (ds & s' & g' & Hd & Hl & Hok & Hp).
      { split; cbn; [lia|]. split; [lia|]. apply R. }
      { intro i. apply Hg. }
      rewrite Hd. exists (true :: ds), s', g'. cbn [bind fst snd]. split; [reflexivity|]. split; [cbn; congruence|].
      split; [exact Hok|]. intros k Hk1. replace (fl_skip s - fl_cur s) with 0 by lia. cbn [Z.to_nat repeat app firstn].
      f_equal. destruct k as [|k]; [lia|]. cbn [drawn_gaps pattern]. rewrite (Hp k) by lia.
      cbn [fl_skip fl_cur fl_max]. rewrite Z.sub_0_r. reflexivity.
    + rewrite chk_int_ok by (unfold INT_MAX, INT_MIN in *; lia). cbn [omap].
      destruct (IH (MkFlip (fl_max s) (fl_skip s) (fl_cur s + 1)) g) as (ds & s' & g' & Hd & Hl & Hok & Hp).
      { split; cbn; [lia|]. split; lia. }
      { exact Hg. }
      rewrite Hd. exists (false :: ds), s', g'. cbn [bind fst snd]. split; [reflexivity|]. split; [cbn; congruence|].
      split; [exact Hok|]. intros k Hk1.
      replace (Z.to_nat (fl_skip s - fl_cur s)) with (S (Z.to_nat (fl_skip s - (fl_cur s + 1)))) by lia.
      cbn [repeat app firstn]. f_equal. apply (Hp k). lia.
Qed.

(** construction in binary64 (every double) followed by any number of genes: the decisions are exactly the pattern
    of the drawn gaps, where max = floor(1/p) - 1 *)
Theorem C18_gap_pattern : forall p g s g0 n, (forall i, 0 <= g i) ->
  flip_new FNum p g = (Ok s, g0) ->
  exists q ds s' g', n_toint FNum (n_floor FNum (n_div FNum (d_ofZ 1) p)) = Ok q /\ 2 <= q /\
    decisions flip_bit n s g0 = (Ok (ds, s'), g') /\ length ds = n /\
    ds = firstn n (pattern (drawn_gaps (q - 1) g (S n))) /\
    Forall (fun k => (k <= Z.to_nat (q - 1))%nat) (drawn_gaps (q - 1) g (S n)).
Proof.
  intros p g s g0 n Hg H. unfold flip_new in H. cbn [n_ofZ n_toint n_floor n_div FNum] in *.
  change (n_div FNum (d_ofZ 1) p) with (d_div (d_ofZ 1) p) in *.
  destruct (d_toint (Bnearbyint mode_DN (d_div (d_ofZ 1) p))) as [q|e|u] eqn:Eq; cbn [bind] in H; try discriminate.
  unfold chk_int in H. destruct (in_int (q - 1)) eqn:Ei; [|discriminate].
  destruct (Z.leb_spec (q - 1) 0) as [L|L]; [discriminate|].
  assert (Hq : q <= INT_MAX).
  { unfold d_toint in Eq. destruct (is_finite _); [|discriminate]. destruct (in_int (Btrunc _)) eqn:E; [|discriminate].
    injection Eq as <-. unfold in_int in E. apply andb_true_iff in E. destruct E as [_ E]. apply Z.leb_le in E. exact E. }
  destruct (flip_set_ok (q - 1) g ltac:(lia) (Hg 0%nat)) as [E R]. rewrite E in H. inversion H; subst s g0.
  destruct (flip_decisions n (MkFlip (q - 1) (g 0%nat mod (q - 1 + 1)) 0) (fun i => g (S i))) as (ds & s' & g' & Hd & Hl & _ & Hp).
  { split; cbn; [lia|]. split; [lia|]. apply R. }
  { intro i. apply Hg. }
  exists q, ds, s', g'. split; [reflexivity|]. split; [lia|]. split; [exact Hd|]. split; [exact Hl|]. split.
  - rewrite (Hp n) by lia. cbn [fl_skip fl_cur fl_max]. rewrite Z.sub_0_r. cbn [drawn_gaps pattern]. reflexivity.
  - clear - L Hg. revert Hg. generalize (S n) as k. intro k. revert g. induction k as [|k IH]; intros g Hg; constructor.
    + pose proof (Z.mod_pos_bound (g 0%nat) (q - 1 + 1) ltac:(lia)). lia.
    + apply IH. intro i. apply Hg.
Qed.
Print Assumptions C18_gap_pattern.

Lemma pattern_window w : forall gaps, Forall (fun k => (k <= w)%nat) gaps -> forall i, (i + w < length (pattern gaps))%nat ->
  exists j, (i <= j <= i + w)%nat /\ nth_error (pattern gaps) j = Some true.
Proof.
  induction gaps as [|k gaps IH]; intros Hf i Hi; [cbn in Hi; lia|]. inversion Hf as [|? ? Hk Hf']; subst.
  cbn [pattern] in *. rewrite app_length, repeat_length in Hi. cbn [length] in Hi.
  destruct (Nat.le_gt_cases i k) as [L|L].
  - exists k. split; [lia|]. rewrite nth_error_app2 by (rewrite repeat_length; lia). rewrite repeat_length, Nat.sub_diag. reflexivity.
  - destruct (IH Hf' (i - k - 1)%nat) as (j & Hj & Ej); [lia|]. exists (j + k + 1)%nat. split; [lia|].
    rewrite nth_error_app2 by (rewrite repeat_length; lia). rewrite repeat_length.
    replace (j + k + 1 - k)%nat with (S j) by lia. exact Ej.
Qed.

Lemma pattern_length gaps : (length gaps <= length (pattern gaps))%nat.
Proof. induction gaps as [|k gaps IH]; cbn; [lia|]. rewrite app_length. cbn. lia. Qed.
Lemma drawn_length mx n : forall g, length (drawn_gaps mx g n) = n.
Proof. induction n as [|n IH]; intro g; cbn; [reflexivity|]. f_equal. apply IH. Qed.

(** every window of floor(1/p) consecutive genes, across chromosome boundaries, contains a mutation *)
Theorem C18_window : forall p g s g0 n ds s' g', (forall i, 0 <= g i) ->
  flip_new FNum p g = (Ok s, g0) -> decisions flip_bit n s g0 = (Ok (ds, s'), g') ->
  exists q, n_toint FNum (n_floor FNum (n_div FNum (d_ofZ 1) p)) = Ok q /\
    forall i, (i + Z.to_nat q <= n)%nat ->
      exists j, (i <= j < i + Z.to_nat q)%nat /\ nth_error ds j = Some true.
Proof.
  intros p g s g0 n ds s' g' Hg Hs Hd.
  destruct (C18_gap_pattern p g s g0 n Hg Hs) as (q & ds1 & s1 & g1 & Hq & Hq2 & Hd1 & Hl & Hp & Hf).
  rewrite Hd in Hd1. assert (Eds : ds = ds1) by congruence. rewrite <- Eds in Hp. clear Hd1 Eds Hl ds1.
  exists q. split; [exact Hq|]. intros i Hi.
  assert (Hlen : (n < length (pattern (drawn_gaps (q - 1) g (S n))))%nat).
  { pose proof (pattern_length (drawn_gaps (q - 1) g (S n))). rewrite drawn_length in H. lia. }
  destruct (pattern_window (Z.to_nat (q - 1)) _ Hf i) as (j & Hj & Ej); [lia|].
  exists j. split; [lia|]. rewrite Hp.
  rewrite <- Ej. clear - Hj Hi Hq2. assert (j < n)%nat by lia. clear Hj Hi.
  revert j H. generalize (pattern (drawn_gaps (q - 1) g (S n))). clear. induction n as [|n IH]; intros l j H; [lia|].
  destruct l; [destruct j; reflexivity|]. destruct j; [reflexivity|]. cbn. apply IH. lia.
Qed.
Print Assumptions C18_window.

(** exact arithmetic: construction succeeds iff 2 <= floor(1/p) <= INT_MAX, throws for p > 1/2 (and p < 0) *)
Theorem C18_construction_exact : forall p g, (0 < p)%R -> (/ p < IZR INT_MAX)%R -> (forall i, 0 <= g i) ->
  ((p <= 1/2)%R -> exists s, flip_new RNum p g = (Ok s, fun n => g (S n)) /\ fl_max s = Zfloor (/ p) - 1) /\
  ((1/2 < p)%R -> flip_new RNum p g = (Throw InvalidArgument, g)).
Proof.
  intros p g Hp Hmax Hg. unfold flip_new. cbn [n_ofZ n_toint n_floor n_div RNum].
  assert (Hf : 0 <= Zfloor (/ p) < INT_MAX).
  { assert (0 < / p)%R by (apply Rinv_0_lt_compat; lra). split.
    - apply Zfloor_lub. lra.
    - apply lt_IZR. apply Rle_lt_trans with (/ p)%R; [apply Zfloor_lb|exact Hmax]. }
  replace (1 / p)%R with (/ p)%R by (field; lra). rewrite Ztrunc_IZR.
  assert (Ei : in_int (Zfloor (/ p)) = true).
  { unfold in_int, INT_MIN, INT_MAX in *. apply andb_true_iff. rewrite !Z.leb_le. lia. }
  rewrite Ei. cbn [bind]. rewrite chk_int_ok by (unfold INT_MIN, INT_MAX in *; lia). split.
  - intro H. assert (2 <= Zfloor (/ p)).
    { apply Zfloor_lub. replace 2%R with (/ (1/2))%R by field. apply Rinv_le_contravar; lra. }
    destruct (Z.leb_spec (Zfloor (/ p) - 1) 0); [lia|].
    destruct (flip_set_ok (Zfloor (/ p) - 1) g ltac:(lia) (Hg 0%nat)) as [E _]. rewrite E. eexists. split; reflexivity.
  - intro H. assert (Zfloor (/ p) < 2).
    { apply lt_IZR. apply Rle_lt_trans with (/ p)%R; [apply Zfloor_lb|].
      replace (IZR 2) with (/ (1/2))%R by field. apply Rinv_lt_contravar; nra. }
    destruct (Z.leb_spec (Zfloor (/ p) - 1) 0); [reflexivity|lia].
Qed.
Print Assumptions C18_construction_exact.
(** probability 0 is not rejected: the conversion of infinity to int is undefined *)
Theorem C18_zero_probability_undefined : forall g, fst (flip_new FNum (d_ofZ 0) g) = UB BadCast.
Proof. intro g. vm_compute. reflexivity. Qed.
Print Assumptions C18_zero_probability_undefined.
(** p = 1/4, rand() = 7, 2, 5, ...: gaps 3, 2, 1 *)
Example C18_run :
  match flip_new FNum (d_of 1 (-2)) (fun n => match n with O => 7 | S O => 2 | _ => 5 end) with
  | (Ok s, g) => match fst (decisions flip_bit 9 s g) with
                 | Ok (ds, _) => ds = [false; false; false; true; false; false; true; false; true]
                 | _ => False end
  | _ => False
  end.
Proof. vm_compute. reflexivity. Qed.

(** ** C19: LinearMutator *)

Theorem C19_exact : forall s e cur maxgen, (0 <= s <= 1)%R -> (0 <= e <= 1)%R -> 2 <= maxgen -> 0 <= cur <= maxgen - 1 ->
  let P (c : Z) : R := lin_probability RNum (MkLin RNum s e c maxgen) in
  (Rmin s e <= P cur <= Rmax s e)%R /\ P 0 = s /\ P (maxgen - 1) = e /\
  (forall c, cur <= c <= maxgen - 1 -> ((s <= e -> P cur <= P c) /\ (e <= s -> P c <= P cur))%R).
Proof.
  intros s e cur maxgen Hs He Hm Hc P.
  assert (Hpos : (0 < IZR (maxgen - 1))%R) by (apply IZR_lt; lia).
  assert (HP : forall c, P c = ((e - s) * (IZR c / IZR (maxgen - 1)) + s)%R).
  { intro c. unfold P, lin_probability. cbn. unfold Rdiv. ring. }
  assert (Hq : forall c, 0 <= c <= maxgen - 1 -> (0 <= IZR c / IZR (maxgen - 1) <= 1)%R).
  { intros c H. assert (0 <= IZR c <= IZR (maxgen - 1))%R by (split; apply IZR_le; lia). split.
    - apply Rmult_le_pos; [lra|]. left. apply Rinv_0_lt_compat. lra.
    - apply Rmult_le_reg_r with (IZR (maxgen - 1)); [lra|]. unfold Rdiv. rewrite Rmult_assoc, Rinv_l by lra. lra. }
  split.
  - rewrite HP. pose proof (Hq cur Hc). unfold Rmin, Rmax. destruct (Rle_dec s e); nra.
  - split; [rewrite HP; unfold Rdiv; rewrite Rmult_0_l; ring|].
    split; [rewrite HP; unfold Rdiv; rewrite Rinv_r by lra; ring|].
    intros c H. rewrite !HP.
    assert (IZR cur / IZR (maxgen - 1) <= IZR c / IZR (maxgen - 1))%R.
    { apply Rmult_le_compat_r; [left; apply Rinv_0_lt_compat; lra|apply IZR_le; lia]. }
    split; intro; nra.
Qed.
Print Assumptions C19_exact.

(** with one generation the probability is 0/0 and nothing is ever mutated, in binary64 and for every pair of finite
    probabilities *)
Theorem C19_one_generation : forall RM s e g, is_finite s = true -> is_finite e = true -> is_finite (d_sub e s) = true ->
  is_nan (lin_probability FNum (MkLin FNum s e 0 1)) = true /\
  fst (check_event FNum RM (lin_probability FNum (MkLin FNum s e 0 1)) g) = Ok false.
Proof.
  intros RM s e g Hs He Hd.
  assert (Hnan : lin_probability FNum (MkLin FNum s e 0 1) = B754_nan).
  { unfold lin_probability. cbn [li_end li_start li_cur li_maxgen n_add n_div n_mul n_sub n_ofZ FNum].
    change (1 - 1) with 0. change (n_sub FNum e s) with (d_sub e s). generalize dependent (d_sub e s). intros x Hx.
    change (d_ofZ 0) with (B754_zero (prec:=dprec) (emax:=demax) false).
    unfold d_mul. destruct x as [sx|sx| |sx mx ex Bx]; try discriminate; cbn [Bmult];
      unfold d_div; cbn [Bdiv]; unfold d_add; destruct s; try discriminate; reflexivity. }
  rewrite Hnan. split; [reflexivity|].
  unfold check_event, validate_probability. cbn [n_ltb FNum n_ofZ].
  change (@B754_nan dprec demax) with d_nan. rewrite d_ltb_nan_l, d_ltb_nan_r.
  cbn [orb get_base draw n_leb FNum fst]. f_equal.
  destruct (d_leb (base_of FNum RM (g 0%nat)) d_nan) eqn:L; [|reflexivity].
  apply d_leb_key in L. destruct L as (_ & L & _). discriminate.
Qed.
Print Assumptions C19_one_generation.

(** binary64: "the probability stays between start and end" is false. LinearMutator(0.1, 0.0) in the last of 4
    generations computes a negative probability, and mutating any non-empty chromosome throws invalid_argument *)
Definition d01 : dbl := d_of 3602879701896397 (-55).
Theorem C19_binary64_range_refuted :
  (exists m, lin_new FNum d01 (d_ofZ 0) 3 4 = Ok m /\ 
   d_ltb (lin_probability FNum m) (d_ofZ 0) = true /\
   forall RM b c g, fst (mutate_chromosome (linear FNum RM) (b :: c) m g) = Throw InvalidArgument).
Proof.
  exists (MkLin FNum d01 (d_ofZ 0) 3 4). 
  assert (E : d_ltb (lin_probability FNum (MkLin FNum d01 (d_ofZ 0) 3 4)) (d_ofZ 0) = true) by (vm_compute; reflexivity).
  split; [|split].
  - unfold lin_new, validate_probability. cbn [n_ltb n_ofZ FNum].
    replace (d_ltb d01 (d_ofZ 0)) with false by (vm_compute; reflexivity).
    replace (d_ltb (d_ofZ 1) d01) with false by (vm_compute; reflexivity).
    replace (d_ltb (d_ofZ 0) (d_ofZ 0)) with false by (vm_compute; reflexivity).
    replace (d_ltb (d_ofZ 1) (d_ofZ 0)) with false by (vm_compute; reflexivity). reflexivity.
  - exact E.
  - intros RM b c g. cbn [mutate_chromosome linear gm_should]. unfold check_event, validate_probability.
    cbn [n_ltb n_ofZ FNum]. rewrite E. reflexivity.
Qed.
Print Assumptions C19_binary64_range_refuted.

(** construction validates both probabilities *)
Theorem C19_construction : forall s e cur maxgen,
  (exists m, lin_new FNum s e cur maxgen = Ok m) <->
  (d_ltb s (d_ofZ 0) = false /\ d_ltb (d_ofZ 1) s = false /\ d_ltb e (d_ofZ 0) = false /\ d_ltb (d_ofZ 1) e = false).
Proof.
  intros s e cur maxgen. unfold lin_new, validate_probability. cbn [n_ltb n_ofZ FNum].
  destruct (d_ltb s (d_ofZ 0)), (d_ltb (d_ofZ 1) s), (d_ltb e (d_ofZ 0)), (d_ltb (d_ofZ 1) e); cbn;
    split; intro H; try (destruct H; discriminate); try (decompose [and] H; discriminate); eauto.
Qed.
Print Assumptions C19_construction.
Example C19_meets : (0 <= / 10 <= 1)%R /\ (0 <= 0 <= 1)%R /\ 2 <= 4 /\ 0 <= 2 <= 4 - 1.
Proof. repeat split; lra || lia. Qed.
