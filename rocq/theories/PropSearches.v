(** C42 grid search, C43 random search. *)
From Coq Require Import Reals Psatz.
From Flocq Require Import Core.Zaux Core.Raux IEEE754.BinarySingleNaN.
From Verif Require Import Base Num DblOrder FloatLemmas Random PropRandom Misc PropMisc Optim Searches.
Local Open Scope Z_scope.
Local Open Scope list_scope.

(** ** C42 *)

(** The index vectors of the grid: n digits below [size]; in enumeration order the first coordinate varies fastest. *)
Fixpoint digits (size : Z) (n : nat) (i : Z) : list Z :=
  match n with O => [] | S k => i mod size :: digits size k (i / size) end.
Definition index_vectors (size : Z) (n : nat) : list (list Z) :=
  map (fun i => digits size n (Z.of_nat i)) (seq 0 (Z.to_nat (size ^ Z.of_nat n))).

Lemma digits_length size : forall n i, length (digits size n i) = n.
Proof. induction n as [|n IH]; intro i; cbn; auto. Qed.
Lemma digits_range size : 0 < size -> forall n i, Forall (fun d => 0 <= d < size) (digits size n i).
Proof. intros H. induction n as [|n IH]; intro i; cbn; constructor; auto. apply Z.mod_pos_bound; lia. Qed.
Lemma digits_inj size : 0 < size -> forall n i j, 0 <= i < size ^ Z.of_nat n -> 0 <= j < size ^ Z.of_nat n ->
  digits size n i = digits size n j -> i = j.
Proof.
  intros H. induction n as [|n IH]; intros i j Hi Hj E; [cbn in Hi, Hj; lia|].
  cbn [digits] in E. injection E as E1 E2. rewrite Nat2Z.inj_succ, Z.pow_succ_r in Hi, Hj by lia.
  assert (i / size = j / size).
  { apply IH; [| |exact E2]; (split; [apply Z.div_pos; lia|apply Z.div_lt_upper_bound; lia]). }
  rewrite (Z.div_mod i size), (Z.div_mod j size) by lia. congruence.
Qed.
Lemma digits_surj size : 0 < size -> forall n d, length d = n -> Forall (fun x => 0 <= x < size) d ->
  exists i, 0 <= i < size ^ Z.of_nat n /\ digits size n i = d.
Proof.
  intros H. induction n as [|n IH]; intros d L F.
  - destruct d; [|discriminate]. exists 0. cbn. split; [lia|reflexivity].
  - destruct d as [|x d]; [discriminate|]. inversion F as [|? ? Fx Fd]; subst. injection L as L.
    destruct (IH d L Fd) as (i & Hi & E). exists (x + size * i).
    rewrite Nat2Z.inj_succ, Z.pow_succ_r by lia. split; [nia|]. cbn [digits].
    replace (x + size * i) with (x + i * size) by ring.
    rewrite Z.mod_add, Z.mod_small by lia. rewrite Z.div_add, Z.div_small by lia. rewrite Z.add_0_l, E. reflexivity.
Qed.

Lemma index_vectors_all size n d : 0 < size -> In d (index_vectors size n) <-> length d = n /\ Forall (fun x => 0 <= x < size) d.
Proof.
  intros H. unfold index_vectors. rewrite in_map_iff. split.
  - intros (i & <- & _). split; [apply digits_length|apply digits_range; exact H].
  - intros [L F]. destruct (digits_surj size H n d L F) as (i & Hi & E). exists (Z.to_nat i). rewrite Z2Nat.id by lia.
    split; [exact E|]. apply in_seq. split; [lia|]. cbn. apply Z2Nat.inj_lt; lia.
Qed.
Lemma index_vectors_NoDup size n : 0 < size -> NoDup (index_vectors size n).
Proof.
  intros H. unfold index_vectors. set (m := Z.to_nat (size ^ Z.of_nat n)).
  assert (B : forall i, In i (seq 0 m) -> 0 <= Z.of_nat i < size ^ Z.of_nat n).
  { intros i Hi. apply in_seq in Hi as [_ Hi]. cbn in Hi. unfold m in Hi. split; [lia|]. apply Z2Nat.inj_lt in Hi || idtac; lia. }
  assert (G : forall l, NoDup l -> incl l (seq 0 m) -> NoDup (map (fun i => digits size n (Z.of_nat i)) l)).
  { induction l as [|a l IH]; intros ND IN; [constructor|]. cbn [map]. inversion ND; subst. constructor.
    - rewrite in_map_iff. intros (b & E & Ib). apply digits_inj in E; [| exact H | apply B; apply IN; right; exact Ib|apply B; apply IN; left; reflexivity].
      apply Nat2Z.inj in E. subst b. contradiction.
    - apply IH; [assumption|]. intros x Hx. apply IN. right. exact Hx. }
  apply G; [apply seq_NoDup|apply incl_refl].
Qed.

(** *** the powers do not wrap as long as the number of points fits size_t *)
Lemma pow_mono size j n : 0 < size -> (j <= n)%nat -> size ^ Z.of_nat j <= size ^ Z.of_nat n.
Proof. intros. apply Z.pow_le_mono_r; lia. Qed.
Lemma integer_pow_exact size n : 0 < size -> size ^ Z.of_nat n < 2 ^ 64 -> forall j, (j <= n)%nat -> integer_pow size j = size ^ Z.of_nat j.
Proof.
  intros H HB. induction j as [|j IH]; intro Hj; [reflexivity|]. cbn [integer_pow]. rewrite IH by lia.
  rewrite Nat2Z.inj_succ, Z.pow_succ_r by lia. rewrite (Z.mul_comm size). apply Z.mod_small.
  pose proof (pow_mono size (S j) n H Hj) as P. rewrite Nat2Z.inj_succ, Z.pow_succ_r in P by lia.
  assert (0 < size ^ Z.of_nat j) by (apply Z.pow_pos_nonneg; lia). nia.
Qed.
Lemma mapM_map_ok {A B} (f : A -> outcome B) (h : A -> B) : forall l, (forall x, In x l -> f x = Ok (h x)) -> mapM f l = Ok (map h l).
Proof.
  induction l as [|a l IH]; intro H; [reflexivity|]. cbn [mapM map]. rewrite (H a (or_introl eq_refl)). cbn [bind].
  rewrite IH by (intros x Hx; apply H; right; exact Hx). reflexivity.
Qed.
Lemma digits_nth size : 0 < size -> forall n i, digits size n i = map (fun j => (i / size ^ Z.of_nat j) mod size) (seq 0 n).
Proof.
  intros H. induction n as [|n IH]; intro i; [reflexivity|]. cbn [digits seq map]. f_equal; [cbn; rewrite Z.div_1_r; reflexivity|].
  rewrite IH, <- seq_shift, map_map. apply map_ext. intro j. rewrite Nat2Z.inj_succ, Z.pow_succ_r by lia.
  rewrite Z.div_div by lia. reflexivity.
Qed.

Lemma grid_points_spec N precision lower size n : 0 < size -> size ^ Z.of_nat n < 2 ^ 64 ->
  grid_points N precision lower size n =
  Ok (map (map (fun d => n_add N (n_mul N (n_ofZ N d) precision) lower)) (index_vectors size n)).
Proof.
  intros H HB. unfold grid_points, index_vectors. rewrite (integer_pow_exact size n H HB n) by lia. rewrite map_map.
  apply mapM_map_ok. intros i _. unfold grid_point. rewrite (digits_nth size H n), map_map.
  apply mapM_map_ok. intros j Hj. apply in_seq in Hj. unfold grid_coordinate. rewrite (integer_pow_exact size n H HB j) by lia.
  destruct (Z.eqb_spec (size ^ Z.of_nat j) 0) as [E|_]; [|reflexivity].
  assert (0 < size ^ Z.of_nat j) by (apply Z.pow_pos_nonneg; lia). lia.
Qed.

(** The same enumeration in any arithmetic (in particular with exact reals). *)
Theorem C42_points_any_arithmetic : forall N precision lower size n, 0 < size -> size ^ Z.of_nat n < 2 ^ 64 ->
  exists indexes, grid_points N precision lower size n = Ok (map (map (fun d => n_add N (n_mul N (n_ofZ N d) precision) lower)) indexes) /\
    NoDup indexes /\ (forall d, In d indexes <-> length d = n /\ Forall (fun x => 0 <= x < size) d).
Proof.
  intros N pr lo size n H HB. exists (index_vectors size n). split; [apply grid_points_spec; assumption|].
  split; [apply index_vectors_NoDup; exact H|intro d; apply index_vectors_all; exact H].
Qed.

Lemma max_element_pick (vs : list dbl) : vs <> [] -> pick true vs = Ok (max_element FNum vs).
Proof.
  destruct vs as [|v r]; [contradiction|]. intros _. cbn [pick max_element]. f_equal.
  generalize 0%nat at 1 3 as index. generalize 1%nat as i. revert v. induction r as [|u r IH]; intros v i index; [reflexivity|].
  cbn [pick_loop max_loop]. change (n_ltb FNum v u) with (d_ltb v u). destruct (d_ltb v u); apply IH.
Qed.

(** ** C42 For every function (free of NaN), dimension and configuration with at least one value per coordinate and fewer
    than 2^64 points: the points examined are lower + d*precision for exactly the index vectors d with 0 <= d_j < size,
    each once; the vector kept is examined, no examined vector has a greater value, and no earlier one an equal value. *)
Theorem C42_grid : forall (precision lower upper : dbl) (f : list dbl -> dbl) (p : list dbl) size,
  grid_size FNum precision lower upper = Ok size -> 0 < size -> size ^ Z.of_nat (length p) < 2 ^ 64 ->
  (forall v, is_num (f v) = true) ->
  exists (indexes : list (list Z)) (points : list (list dbl)) (q : list dbl) (k : nat),
    grid_optimize FNum precision lower upper (fun v => Ok (f v)) p = Ok (points, q) /\
    points = map (map (fun d => d_add (d_mul (d_ofZ d) precision) lower)) indexes /\
    NoDup indexes /\
    (forall d, In d indexes <-> length d = length p /\ Forall (fun x => 0 <= x < size) d) /\
    nth_error points k = Some q /\
    (forall v, In v points -> d_leb (f v) (f q) = true) /\
    (forall j v, (j < k)%nat -> nth_error points j = Some v -> d_ltb (f v) (f q) = true).
Proof.
  intros precision lower upper f p size Hs Hpos HB NF.
  set (points := map (map (fun d => d_add (d_mul (d_ofZ d) precision) lower)) (index_vectors size (length p))).
  assert (HP : grid_points FNum precision lower size (length p) = Ok points) by (apply grid_points_spec; assumption).
  assert (HM : mapM (fun v => Ok (f v)) points = Ok (map f points)) by (apply mapM_map_ok; reflexivity).
  assert (NE : map f points <> []).
  { intro E. apply map_eq_nil in E. apply map_eq_nil in E.
    assert (I : In (digits size (length p) 0) (index_vectors size (length p))) by (apply index_vectors_all; [exact Hpos|split; [apply digits_length|apply digits_range; exact Hpos]]).
    rewrite E in I. destruct I. }
  destruct (pick_spec true (map f points) NE) as (k & Hk & v & Hv & Hmax & Hfirst).
  { apply Forall_forall. intros x Hx. apply in_map_iff in Hx as (y & <- & _). apply NF. }
  rewrite (max_element_pick _ NE) in Hk. injection Hk as Hk.
  rewrite nth_error_map in Hv. destruct (nth_error points k) as [q|] eqn:Hq; cbn in Hv; [|discriminate]. injection Hv as <-.
  exists (index_vectors size (length p)), points, q, k. split.
  { unfold grid_optimize. rewrite Hs. cbn [bind]. destruct (Z.leb_spec size 0); [lia|].
    change (num FNum) with dbl in *. rewrite HP. cbn [bind]. rewrite HM. cbn [bind]. rewrite Hk. unfold at_. rewrite Hq. cbn [bind].
    assert (Lq : length q = length p).
    { apply nth_error_In in Hq. unfold points in Hq. apply in_map_iff in Hq as (d & <- & Hd). rewrite map_length.
      apply index_vectors_all in Hd as [Hd _]; assumption. }
    rewrite Lq, Nat.eqb_refl. reflexivity. }
  split; [reflexivity|]. split; [apply index_vectors_NoDup; exact Hpos|]. split; [intro d; apply index_vectors_all; exact Hpos|].
  split; [exact Hq|]. split.
  - intros w Hw. apply In_nth_error in Hw as (j & Hj). apply (Hmax j). rewrite nth_error_map, Hj. reflexivity.
  - intros j w Hj Hn. apply (Hfirst j); [|exact Hj]. rewrite nth_error_map, Hn. reflexivity.
Qed.

(** With exact arithmetic the number of values per coordinate is floor((upper-lower)/precision)+1, and the coordinates
    lower + d*precision are exactly the grid values that lie in [lower, upper]. *)
Theorem C42_grid_values_exact : forall precision lower upper size, (0 < precision)%R ->
  grid_size RNum precision lower upper = Ok size ->
  size = Zfloor ((upper - lower) / precision) + 1 /\
  forall d, 0 <= d -> ((d < size)%Z <-> (lower + IZR d * precision <= upper)%R).
Proof.
  intros pr lo up size Hp H. unfold grid_size in H. cbn [n_toint n_floor n_div n_sub RNum] in H.
  rewrite Ztrunc_IZR in H. destruct (in_int (Zfloor ((up - lo) / pr))); [|discriminate]. cbn [bind] in H.
  unfold chk_int in H. destruct (in_int _); [|discriminate]. injection H as <-. split; [reflexivity|].
  intros d Hd. assert (E : (((up - lo) / pr) * pr = up - lo)%R) by (field; lra).
  split; intro L.
  - assert (IZR d <= (up - lo) / pr)%R by (eapply Rle_trans; [apply IZR_le|apply Zfloor_lb]; lia). nra.
  - apply Z.lt_succ_r. apply Zfloor_lub. apply Rmult_le_reg_r with pr; [exact Hp|]. lra.
Qed.
(** Distinct index vectors give distinct points (exact arithmetic). *)
Theorem C42_points_distinct_exact : forall precision lower indexes, precision <> 0%R -> NoDup indexes ->
  NoDup (map (map (fun d => IZR d * precision + lower)%R) indexes).
Proof.
  intros pr lo l Hp ND. induction ND as [|a l Ha ND IH]; [constructor|]. cbn [map]. constructor; [|exact IH].
  rewrite in_map_iff. intros (b & E & Hb). apply Ha. replace a with b; [exact Hb|].
  clear -E Hp. revert a E. induction b as [|x b IH]; intros [|y a] E; try discriminate; [reflexivity|].
  cbn in E. injection E as E1 E2. f_equal; [apply eq_IZR; nra|auto].
Qed.

(** An empty range throws std::invalid_argument before anything is evaluated. *)
Theorem C42_invalid : forall N precision lower upper f p size, grid_size N precision lower upper = Ok size -> size <= 0 ->
  grid_optimize N precision lower upper f p = Throw InvalidArgument.
Proof. intros * Hs H. unfold grid_optimize. rewrite Hs. cbn [bind]. destruct (Z.leb_spec size 0); [reflexivity|lia]. Qed.

(** When the number of points reaches a multiple of 2^64 the enumeration is empty and the result undefined: 65536 values
    in dimension 4. *)
Theorem C42_overflow_refuted : forall N precision lower upper f p, grid_size N precision lower upper = Ok 65536 -> length p = 4%nat ->
  grid_optimize N precision lower upper f p = UB OutOfBounds.
Proof.
  intros * Hs L. unfold grid_optimize. rewrite Hs. cbn [bind]. change (65536 <=? 0) with false. cbn iota. rewrite L.
  unfold grid_points. change (Z.to_nat (integer_pow 65536 4)) with 0%nat. cbn. reflexivity.
Qed.

(** concrete instances: 0, 0.5, 1 in dimension 2 *)
Definition C42_f (v : list dbl) : dbl := d_ofZ 3.
Example C42_example : grid_size FNum (d_of 1 (-1)) (d_ofZ 0) (d_ofZ 1) = Ok 3 /\ (forall v, is_num (C42_f v) = true) /\
  match grid_optimize FNum (d_of 1 (-1)) (d_ofZ 0) (d_ofZ 1) (fun v => Ok (nth 1 v d_nan)) [d_ofZ 0; d_ofZ 0] with
  | Ok (pts, [x; y]) => (Nat.eqb (length pts) 9 && d_eqb x (d_ofZ 0) && d_eqb y (d_ofZ 1))%bool | _ => false end = true.
Proof. split; [vm_compute; reflexivity|]. split; [intro; vm_compute; reflexivity|vm_compute; reflexivity]. Qed.
Example C42_example_overflow : grid_size FNum (d_ofZ 1) (d_ofZ 0) (d_ofZ 65535) = Ok 65536.
Proof. vm_compute. reflexivity. Qed.
Example C42_example_invalid : grid_size FNum (d_ofZ 1) (d_ofZ 2) (d_ofZ 0) = Ok (-1).
Proof. vm_compute. reflexivity. Qed.
Print Assumptions C42_grid. Print Assumptions C42_grid_values_exact. Print Assumptions C42_points_distinct_exact.
Print Assumptions C42_invalid. Print Assumptions C42_overflow_refuted.

(** ** C43 *)

(** The sampled vectors: exactly [count], coordinate j of vector i is the continuous quantity of draw i*n+j. *)
Lemma random_points_spec N RM n lo hi : forall count g,
  length (fst (random_points N RM count n lo hi g)) = count /\
  forall i, (i < count)%nat -> exists v, nth_error (fst (random_points N RM count n lo hi g)) i = Some v /\ length v = n /\
     forall j, (j < n)%nat -> nth_error v j = Some (continuous_of N RM (g (i * n + j)%nat) lo hi).
Proof.
  induction count as [|c IH]; intro g; [split; [reflexivity|intros; lia]|].
  cbn [random_points]. pose proof (C12_vector N RM n lo hi g) as (V1 & V2 & V3).
  destruct (random_vector N RM n lo hi g) as [v g1]. cbn [fst snd] in V1, V2, V3. specialize (IH g1) as [L H].
  destruct (random_points N RM c n lo hi g1) as [vs g2]. cbn [fst] in *. split; [cbn; congruence|].
  intros [|i] Hi.
  - exists v. split; [reflexivity|]. split; [exact V1|]. intros j Hj. rewrite V2 by exact Hj. reflexivity.
  - destruct (H i ltac:(lia)) as (w & W1 & W2 & W3). exists w. split; [exact W1|]. split; [exact W2|].
    intros j Hj. rewrite W3 by exact Hj. rewrite V3. do 3 f_equal. cbn. lia.
Qed.

(** For every function free of NaN, every stream of random numbers and at least one point: exactly [count] vectors of the
    right dimension are sampled, each coordinate a draw between the bounds, and the vector returned is a sample such
    that no sample has a strictly better value. *)
Theorem C43_best_sample : forall RM count (lo hi : dbl) (f : list dbl -> dbl) maximize (p : list dbl) g, (0 < count)%nat -> (forall v, is_num (f v) = true) ->
  exists (samples : list (list dbl)) (q : list dbl),
    random_search RM count lo hi (fun v => Ok (f v)) maximize p g = Ok q /\
    length samples = count /\
    (forall i, (i < count)%nat -> exists v, nth_error samples i = Some v /\ length v = length p /\
        forall j, (j < length p)%nat -> nth_error v j = Some (continuous_of FNum RM (g (i * length p + j)%nat) lo hi)) /\
    In q samples /\
    forall v, In v samples -> (if maximize then d_ltb (f q) (f v) else d_ltb (f v) (f q)) = false.
Proof.
  intros RM count lo hi f mx p g Hc NF. set (samples := fst (random_points FNum RM count (length p) lo hi g) : list (list dbl)).
  destruct (random_points_spec FNum RM (length p) lo hi count g) as [L H]. fold samples in L, H.
  assert (NE : samples <> []) by (intro E; rewrite E in L; cbn in L; lia).
  assert (HM : mapM (fun v => Ok (f v)) samples = Ok (map f samples)) by (apply mapM_map_ok; reflexivity).
  destruct (C29_simple (list dbl) (fun v => Ok (f v)) samples (map f samples) mx NE HM) as (i & q & R & Hq & v & Hv & Hb & _).
  { apply Forall_forall. intros x Hx. apply in_map_iff in Hx as (y & <- & _). apply NF. }
  exists samples, q. split; [exact R|]. split; [exact L|]. split; [exact H|]. split; [eapply nth_error_In; exact Hq|].
  intros w Hw. apply In_nth_error in Hw as (j & Hj). rewrite nth_error_map, Hq in Hv. cbn in Hv. injection Hv as <-.
  specialize (Hb j (f w)). rewrite nth_error_map, Hj in Hb. specialize (Hb eq_refl).
  destruct mx; apply d_leb_key in Hb as (A & B & C); apply Bool.not_true_is_false; intro D; apply d_ltb_key in D as (_ & _ & D); lia.
Qed.

(** With exact arithmetic every coordinate of every sample lies within the bounds; in binary64 it can exceed the upper
    bound by rounding (C12_binary64, C12_binary64_upper_refuted). *)
Theorem C43_bounds_exact : forall RM count n lo hi g, 0 < RM -> rvalid RM g -> (lo <= hi)%R ->
  Forall (Forall (fun x => lo <= x <= hi)%R) (fst (random_points RNum RM count n lo hi g)).
Proof.
  intros RM count n lo hi g HR Hg Hle. destruct (random_points_spec RNum RM n lo hi count g) as [L H]. change (num RNum) with R in *.
  apply Forall_forall. intros v Hv. apply In_nth_error in Hv as (i & Hi).
  assert (Li : (i < count)%nat) by (rewrite <- L; apply nth_error_Some; congruence).
  destruct (H i Li) as (w & W1 & W2 & W3). rewrite W1 in Hi. injection Hi as ->.
  apply Forall_forall. intros x Hx. apply In_nth_error in Hx as (j & Hj).
  assert (Lj : (j < n)%nat) by (rewrite <- W2; apply nth_error_Some; congruence).
  rewrite (W3 j Lj) in Hj. injection Hj as <-. apply C12_exact; auto.
Qed.
Theorem C43_bounds_binary64 : forall RM count n (lo hi : dbl) g, 0 < RM <= INT_MAX -> rvalid RM g ->
  is_finite lo = true -> is_finite hi = true -> (B2R lo <= B2R hi)%R -> is_finite (d_sub hi lo) = true -> is_finite (d_add (d_sub hi lo) lo) = true ->
  Forall (Forall (fun x : dbl => is_finite x = true /\ (B2R lo <= B2R x <= B2R (d_add (d_sub hi lo) lo))%R)) (fst (random_points FNum RM count n lo hi g)).
Proof.
  intros RM count n lo hi g HR Hg F1 F2 Hle F3 F4. destruct (random_points_spec FNum RM n lo hi count g) as [L H]. change (num FNum) with dbl in *.
  apply Forall_forall. intros v Hv. apply In_nth_error in Hv as (i & Hi).
  assert (Li : (i < count)%nat) by (rewrite <- L; apply nth_error_Some; congruence).
  destruct (H i Li) as (w & W1 & W2 & W3). rewrite W1 in Hi. injection Hi as ->.
  apply Forall_forall. intros x Hx. apply In_nth_error in Hx as (j & Hj).
  assert (Lj : (j < n)%nat) by (rewrite <- W2; apply nth_error_Some; congruence).
  rewrite (W3 j Lj) in Hj. injection Hj as <-. apply C12_binary64; auto.
Qed.

(** No points: std::invalid_argument; undefined behaviour when a nested optimiser is used. *)
Theorem C43_no_points : forall RM lo hi f opt maximize p g,
  random_search RM 0 lo hi f maximize p g = Throw InvalidArgument /\
  random_search_with RM 0 lo hi f opt maximize p g = UB OutOfBounds.
Proof. intros. split; reflexivity. Qed.

(** With a nested optimiser that always succeeds the result is a best one among the optimised samples. *)
Theorem C43_nested : forall RM count (lo hi : dbl) (f : list dbl -> dbl) (opt : list dbl -> list dbl) maximize (p : list dbl) g, (0 < count)%nat -> (forall v, is_num (f v) = true) ->
  exists (samples : list (list dbl)) (q : list dbl),
    random_search_with RM count lo hi (fun v => Ok (f v)) (fun v _ => Ok (opt v)) maximize p g = Ok q /\
    length samples = count /\ In q (map opt samples) /\
    forall v, In v (map opt samples) -> (if maximize then d_ltb (f q) (f v) else d_ltb (f v) (f q)) = false.
Proof.
  intros RM count lo hi f opt mx p g Hc NF. set (samples := fst (random_points FNum RM count (length p) lo hi g) : list (list dbl)).
  destruct (random_points_spec FNum RM (length p) lo hi count g) as [L _]. fold samples in L.
  assert (NE : samples <> []) by (intro E; rewrite E in L; cbn in L; lia).
  assert (HR : mapM (fun v => let! q := Ok v in let! r := Ok (opt q) in Ok r) samples = Ok (map opt samples)) by (apply mapM_map_ok; reflexivity).
  assert (HM : mapM (fun v => Ok (f v)) (map opt samples) = Ok (map f (map opt samples))) by (apply mapM_map_ok; reflexivity).
  destruct (C29_optimization (list dbl) (fun v => Ok (f v)) (fun v => Ok v) (fun v _ => Ok (opt v)) samples (map opt samples) _ mx NE HR HM) as (i & q & R & Hq & v & Hv & Hb & _).
  { apply Forall_forall. intros x Hx. apply in_map_iff in Hx as (y & <- & _). apply NF. }
  exists samples, q. split; [exact R|]. split; [exact L|]. split; [eapply nth_error_In; exact Hq|].
  intros w Hw. apply In_nth_error in Hw as (j & Hj). rewrite nth_error_map, Hq in Hv. cbn in Hv. injection Hv as <-.
  specialize (Hb j (f w)). rewrite nth_error_map, Hj in Hb. specialize (Hb eq_refl).
  destruct mx; apply d_leb_key in Hb as (A & B & C); apply Bool.not_true_is_false; intro D; apply d_ltb_key in D as (_ & _ & D); lia.
Qed.

Example C43_example : match random_search 7 2 (d_ofZ 0) (d_ofZ 7) (fun v => Ok (nth 0 v d_nan)) true [d_ofZ 0] (fun i => Z.of_nat i + 3) with
  | Ok [x] => d_eqb x (d_ofZ 4) | _ => false end = true.
Proof. vm_compute. reflexivity. Qed.
Print Assumptions C43_best_sample. Print Assumptions C43_bounds_exact. Print Assumptions C43_bounds_binary64. Print Assumptions C43_no_points. Print Assumptions C43_nested.
