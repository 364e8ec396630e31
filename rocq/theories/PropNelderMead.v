(** C46: the bounded Nelder-Mead method. *)
From Coq Require Import Reals Psatz.
From Flocq Require Import IEEE754.BinarySingleNaN.
From Verif Require Import Base Num DblOrder Misc PropMisc Optim PropOptim Hooke PropHooke Searches PropSearches NelderMead.
Local Open Scope Z_scope.
Local Open Scope list_scope.

(** ** Structure: every run is well formed and ends *)
Section Shape.
Variable M : MNum.
Notation num := (num M).
Variable eps : num.
Variable f : list num -> num.
Variable n : nat.
Hypothesis Hn : (1 <= n)%nat.
Notation run := (pure M (fun v => Ok (f v))).

(** a simplex of n+1 vertices in dimension n *)
Definition simplex_shape (polygon : list (list num)) : Prop := length polygon = S n /\ Forall (fun v => length v = n) polygon.

Lemma shape_nth polygon k : simplex_shape polygon -> (k < S n)%nat -> exists v, nth_error polygon k = Some v /\ length v = n.
Proof.
  intros [L F] H. destruct (nth_error polygon k) as [v|] eqn:E; [|apply nth_error_None in E; lia].
  exists v. split; [reflexivity|]. rewrite Forall_forall in F. apply F. eapply nth_error_In; exact E.
Qed.
Lemma zip_length op : forall a b : list num, length a = length b -> length (zip_with M op a b) = length a.
Proof. induction a as [|x a IH]; intros [|y b] H; cbn in *; try discriminate; auto. Qed.
Lemma upd_shape polygon k v : simplex_shape polygon -> length v = n -> simplex_shape (upd polygon k v).
Proof.
  intros [L F] H. split; [rewrite upd_length; exact L|]. rewrite Forall_forall in *. intros w Hw. apply In_nth_error in Hw as (i & Hi).
  rewrite nth_error_upd in Hi. destruct (Nat.eqb k i).
  - destruct (i <? length polygon)%nat; [injection Hi as <-; exact H|discriminate].
  - apply F. eapply nth_error_In; exact Hi.
Qed.

Lemma indexes_loop_ok (values : list num) : forall rest i fm sm mn, (i + length rest = length values)%nat ->
  (fm < length values)%nat -> (sm < length values)%nat -> (mn < length values)%nat ->
  exists fm' sm' mn', indexes_loop M values i rest fm sm mn = Ok (fm', sm', mn') /\
    (fm' < length values)%nat /\ (sm' < length values)%nat /\ (mn' < length values)%nat.
Proof.
  induction rest as [|v r IH]; intros i fm sm mn Hi H1 H2 H3; [exists fm, sm, mn; auto|].
  cbn [indexes_loop]. destruct (at_in values fm H1) as (vf & -> & _). destruct (at_in values sm H2) as (vs & -> & _).
  destruct (at_in values mn H3) as (vm & -> & _). cbn [bind]. cbn in Hi.
  destruct (n_ltb M vf v); [|destruct (n_ltb M vs v)]; apply IH; try lia; destruct (n_ltb M v vm); lia.
Qed.
Lemma get_indexes_ok (values : list num) : (2 <= length values)%nat ->
  exists fm sm mn, get_indexes M values = Ok (fm, sm, mn) /\ (fm < length values)%nat /\ (sm < length values)%nat /\ (mn < length values)%nat.
Proof.
  intros H. unfold get_indexes. destruct values as [|v0 [|v1 r]]; cbn in H; try lia.
  destruct (n_ltb M v1 v0); apply indexes_loop_ok; cbn; lia.
Qed.

Lemma sum_without_ok i k : (i < n)%nat -> forall polygon j s, Forall (fun v => length v = n) polygon -> exists x, sum_without M k j s polygon i = Ok x.
Proof.
  intros Hi. induction polygon as [|v r IH]; intros j s F; [eexists; reflexivity|]. cbn [sum_without]. inversion F; subst.
  destruct (Nat.eqb j k); [apply IH; assumption|]. destruct (at_in v i) as (x & -> & _); [lia|]. cbn [bind]. apply IH. assumption.
Qed.
Lemma mapM_ok_exists {A B} (h : A -> outcome B) : forall l, (forall x, In x l -> exists y, h x = Ok y) -> exists ys, mapM h l = Ok ys /\ length ys = length l.
Proof.
  induction l as [|a l IH]; intro H; [exists []; auto|]. cbn [mapM]. destruct (H a (or_introl eq_refl)) as (y & ->).
  destruct IH as (ys & E & L); [intros x Hx; apply H; right; exact Hx|]. cbn [bind]. rewrite E. cbn. eexists. split; [reflexivity|]. cbn. congruence.
Qed.
Lemma center_ok polygon k : simplex_shape polygon -> (k < S n)%nat -> exists c, center_of_mass M polygon k = Ok c /\ length c = n.
Proof.
  intros [L F] Hk. unfold center_of_mass. destruct polygon as [|v0 r]; [discriminate|].
  destruct (Nat.leb_spec (length (v0 :: r)) k); [rewrite L in *; lia|]. inversion F as [|x l F0 Fr]; subst x l.
  destruct (mapM_ok_exists (fun i => let! s := sum_without M k 0 (n_ofZ M 0) (firstn (S (length v0)) (v0 :: r)) i in Ok (n_div M s (n_ofZ M (Z.of_nat (length v0))))) (seq 0 (length v0))) as (ys & E & Ly).
  - intros i Hi. apply in_seq in Hi. destruct (sum_without_ok i k ltac:(lia) (firstn (S (length v0)) (v0 :: r)) 0%nat (n_ofZ M 0)) as (s & ->).
    + rewrite Forall_forall in *. intros w Hw. apply F. rewrite <- (firstn_skipn (S (length v0)) (v0 :: r)). apply in_or_app. left. exact Hw.
    + eexists; reflexivity.
  - rewrite E. exists ys. split; [reflexivity|]. rewrite Ly, seq_length. exact F0.
Qed.
Lemma project_length c v : length (project M c v) = length v.
Proof. apply map_length. Qed.

Lemma combine_seq_nth {A} (l : list A) : forall i0 i, nth_error (combine (seq i0 (length l)) l) i = option_map (fun v => ((i0 + i)%nat, v)) (nth_error l i).
Proof.
  induction l as [|x l IH]; intros i0 [|i]; cbn; try reflexivity.
  - rewrite Nat.add_0_r. reflexivity.
  - rewrite IH. destruct (nth_error l i); cbn; [|reflexivity]. do 2 f_equal. lia.
Qed.
Lemma reduction_ok polygon k : simplex_shape polygon -> (k < S n)%nat -> exists q, reduction M polygon k = Ok q /\ simplex_shape q.
Proof.
  intros S0 Hk. destruct (shape_nth polygon k S0 Hk) as (p & E & Lp). unfold reduction. rewrite E. eexists. split; [reflexivity|].
  destruct S0 as [L F]. split.
  - rewrite map_length, combine_length, seq_length. lia.
  - rewrite Forall_forall in *. intros w Hw. apply in_map_iff in Hw as ([i v] & <- & Hv). cbn [fst snd].
    assert (length v = n) by (apply F; eapply in_combine_r; exact Hv).
    destruct (Nat.eqb i k); [assumption|]. rewrite zip_length; congruence.
Qed.

(** recorded values are the values at the vertices *)
Definition recorded (polygon : list (list num)) (values : list num) : Prop := values = map f polygon.
Lemma recorded_upd polygon values k v : recorded polygon values -> recorded (upd polygon k v) (upd values k (f v)).
Proof. unfold recorded. intros ->. revert k. induction polygon as [|x p IH]; intros [|k]; cbn; auto. rewrite IH. reflexivity. Qed.

Lemma nm_body_ok c polygon values : simplex_shape polygon -> length values = S n ->
  exists polygon' values' red, run (nm_body M c polygon values) = Ok (polygon', values', red) /\
    simplex_shape polygon' /\ length values' = S n /\ (recorded polygon values -> red = false -> recorded polygon' values').
Proof.
  intros S0 Lv. unfold nm_body. destruct (get_indexes_ok values) as (fm & sm & mn & Ei & H1 & H2 & H3); [lia|].
  rewrite pure_bind, pure_lift, Ei. cbn [bind].
  destruct (at_in values fm H1) as (hv & Eh & _). destruct (at_in values sm H2) as (sv & Es & _). destruct (at_in values mn H3) as (lv & El & _).
  rewrite pure_bind, pure_lift, Eh. cbn [bind]. rewrite pure_bind, pure_lift, Es. cbn [bind]. rewrite pure_bind, pure_lift, El. cbn [bind].
  destruct (center_ok polygon fm S0 ltac:(lia)) as (c0 & Ec & Lc). rewrite pure_bind, pure_lift, Ec. cbn [bind].
  destruct (shape_nth polygon fm S0 ltac:(lia)) as (w & Ew & Lw). rewrite pure_bind, pure_lift. unfold at_ at 1. rewrite Ew. cbn [bind].
  set (refl := project M c (reflexion M c0 w)).
  assert (Lr : length refl = n) by (unfold refl, reflexion; rewrite project_length, zip_length; congruence).
  rewrite pure_bind. unfold ask_min at 1. cbn [pure bind].
  destruct (n_ltb M (f refl) lv).
  { set (ex := project M c (expansion M c0 refl)).
    assert (Le : length ex = n) by (unfold ex, expansion; rewrite project_length, zip_length; congruence).
    rewrite pure_bind. unfold ask_min at 1. cbn [pure bind]. destruct (n_ltb M (f ex) (f refl)); cbn [pure].
    - do 3 eexists. split; [reflexivity|]. split; [apply upd_shape; auto|]. split; [rewrite upd_length; exact Lv|]. intros R _. apply recorded_upd; exact R.
    - do 3 eexists. split; [reflexivity|]. split; [apply upd_shape; auto|]. split; [rewrite upd_length; exact Lv|]. intros R _. apply recorded_upd; exact R. }
  destruct (n_leb M (f refl) sv).
  { cbn [pure]. do 3 eexists. split; [reflexivity|]. split; [apply upd_shape; auto|]. split; [rewrite upd_length; exact Lv|]. intros R _. apply recorded_upd; exact R. }
  set (bt := n_ltb M (f refl) hv). set (p1 := if bt then upd polygon fm refl else polygon). set (v1 := if bt then upd values fm (f refl) else values).
  assert (S1 : simplex_shape p1) by (unfold p1; destruct bt; [apply upd_shape; auto|exact S0]).
  assert (L1 : length v1 = S n) by (unfold v1; destruct bt; [rewrite upd_length|]; exact Lv).
  assert (R1 : recorded polygon values -> recorded p1 v1) by (unfold p1, v1; destruct bt; [apply recorded_upd|auto]).
  destruct (shape_nth p1 fm S1 ltac:(lia)) as (t & Et & Lt). rewrite pure_bind, pure_lift. unfold at_ at 1. rewrite Et. cbn [bind].
  set (ct := contraction M c0 t). assert (Lct : length ct = n) by (unfold ct, contraction; rewrite zip_length; congruence).
  rewrite pure_bind. unfold ask_min at 1. cbn [pure bind].
  destruct (n_ltb M (if bt then f refl else hv) (f ct)).
  - destruct (reduction_ok p1 mn S1 ltac:(lia)) as (q & Eq & Sq). rewrite pure_bind, pure_lift, Eq. cbn [bind pure].
    do 3 eexists. split; [reflexivity|]. split; [exact Sq|]. split; [exact L1|]. discriminate.
  - cbn [pure]. do 3 eexists. split; [reflexivity|]. split; [apply upd_shape; auto|]. split; [rewrite upd_length; exact L1|].
    intros R _. apply recorded_upd. auto.
Qed.

Lemma vector_difference_ok : forall v w s, length v = length w -> exists x, vector_difference M s v w = Ok x.
Proof. induction v as [|x v IH]; intros [|y w] s H; cbn in *; try discriminate; eauto. Qed.
Lemma polygon_difference_ok : forall p q s, length p = length q -> Forall (fun v => length v = n) p -> Forall (fun v => length v = n) q ->
  exists x, polygon_difference M s p q = Ok x.
Proof.
  induction p as [|v p IH]; intros [|w q] s L F G; cbn in L |- *; try discriminate; eauto. inversion F; inversion G; subst.
  destruct (vector_difference_ok v w s) as (x & ->); [congruence|]. cbn [bind].
  assert (E : exists x0, polygon_difference M x p q = Ok x0) by (apply IH; auto). destruct v; exact E.
Qed.
Lemma same_before_ok polygon : simplex_shape polygon -> forall prev, Forall simplex_shape prev -> exists b, same_before M eps polygon prev = Ok b.
Proof.
  intros [L F]. induction prev as [|q r IH]; intro H; cbn [same_before]; [eauto|]. inversion H as [|? ? Hq Hr]; subst. destruct Hq as [Lq Fq].
  destruct (polygon_difference_ok polygon q (n_ofZ M 0)) as (d & ->); [congruence|assumption|assumption|]. cbn [bind].
  destruct (n_ltb M d eps); [eauto|]. apply IH. exact Hr.
Qed.
Lemma remember_ok polygon prev : simplex_shape polygon -> Forall simplex_shape prev -> (length prev <= 10)%nat ->
  Forall simplex_shape (remember M polygon prev) /\ (length (remember M polygon prev) <= 10)%nat.
Proof.
  intros S0 F L. unfold remember. destruct (Nat.leb_spec 10 (length prev)).
  - destruct prev as [|q r]; cbn [tl] in *; [cbn in *; lia|]. inversion F; subst. split; [apply Forall_app; auto|]. rewrite app_length. cbn in *. lia.
  - split; [apply Forall_app; auto|]. rewrite app_length. cbn. lia.
Qed.
Lemma go_on_ok c r values polygon prev : simplex_shape polygon -> Forall simplex_shape prev -> (length prev <= 10)%nat ->
  exists b prev', go_on M eps c r values polygon prev = Ok (b, prev') /\ Forall simplex_shape prev' /\ (length prev' <= 10)%nat /\
    (b = true -> r <= 1000 * Z.of_nat n).
Proof.
  intros S0 F L. unfold go_on. destruct (shape_nth polygon 0 S0 ltac:(lia)) as (v & Ev & Lv). unfold at_ at 1. rewrite Ev. cbn [bind]. rewrite Lv.
  destruct (Z.ltb_spec (1000 * Z.of_nat n) r).
  - exists false, prev. repeat split; auto. discriminate.
  - destruct (same_before_ok polygon S0 prev F) as (b & ->). cbn [bind]. destruct (remember_ok polygon prev S0 F L) as [F' L'].
    destruct b; do 2 eexists; (split; [reflexivity|]); repeat split; auto; discriminate.
Qed.

Lemma nm_loop_ok c : forall fuel r polygon values prev red, simplex_shape polygon -> length values = S n -> Forall simplex_shape prev -> (length prev <= 10)%nat ->
  (red = false -> recorded polygon values) -> (r < 0 -> False) -> (1000 * Z.of_nat n + 1 - r <= Z.of_nat fuel) -> (r <= 1000 * Z.of_nat n) ->
  exists polygon' values' prev' red', run (nm_loop M eps fuel c r polygon values prev red) = Ok (polygon', values', prev', red') /\
    simplex_shape polygon' /\ length values' = S n /\ Forall simplex_shape prev' /\ (length prev' <= 10)%nat /\ (red' = false -> recorded polygon' values').
Proof.
  induction fuel as [|fu IH]; intros r polygon values prev red S0 Lv Fp Lp R Hr Hf Hb; [lia|].
  cbn [nm_loop]. destruct (nm_body_ok c polygon values S0 Lv) as (p' & v' & rd & E & S1 & L1 & R1).
  rewrite pure_bind, E. cbn [bind]. destruct (go_on_ok c (r + 1) v' p' prev S1 Fp Lp) as (b & prev' & G & F2 & L2 & B).
  rewrite pure_bind, pure_lift, G. cbn [bind].
  assert (R2 : (red || rd)%bool = false -> recorded p' v').
  { intro H. apply orb_false_iff in H as [-> ->]. apply R1; auto. }
  destruct b.
  - apply IH; auto; try lia.
  - cbn [pure]. do 4 eexists. split; [reflexivity|]. auto.
Qed.

Lemma vertex_length r1 r2 i : forall base j, length (vertex M r1 r2 i j base) = length base.
Proof. induction base as [|b r IH]; intro j; cbn; auto. Qed.
Lemma regular_simplex_shape base l : length base = n -> simplex_shape (regular_simplex M base l).
Proof.
  intros H. unfold regular_simplex. split; [cbn [length]; rewrite map_length, seq_length, H; reflexivity|].
  constructor; [exact H|]. apply Forall_forall. intros v Hv. apply in_map_iff in Hv as (i & <- & _). rewrite vertex_length. exact H.
Qed.
Lemma ask_all_ok vs : run (ask_all M vs) = Ok (map f vs).
Proof.
  induction vs as [|v r IH]; [reflexivity|]. cbn [ask_all map]. rewrite pure_bind. unfold ask_min. cbn [pure bind]. rewrite pure_bind, IH. reflexivity.
Qed.
Lemma nm_run_ok c prev init : length init = n -> Forall simplex_shape prev -> (length prev <= 10)%nat ->
  exists polygon values prev' red, run (nm_run M eps c prev init) = Ok (polygon, values, prev', red) /\
    simplex_shape polygon /\ length values = S n /\ Forall simplex_shape prev' /\ (length prev' <= 10)%nat /\ (red = false -> values = map f polygon).
Proof.
  intros L F Lp. unfold nm_run. rewrite pure_bind, ask_all_ok. cbn [bind]. rewrite L.
  pose proof (regular_simplex_shape init (nm_l M c) L) as S0.
  apply nm_loop_ok; auto; try lia; [rewrite map_length; apply S0|reflexivity].
Qed.
End Shape.

(** ** C46 Whatever the objective function, the starting vector (dimension n >= 1) and the configuration, in any arithmetic:
    the search completes (a new optimiser object, or one whose remembered simplices have the same dimension), and the
    vector it returns is a vertex of its final simplex. *)
Theorem C46_completes : forall (M : MNum) eps (f : list (num M) -> num M) c prev init, (1 <= length init)%nat ->
  Forall (simplex_shape M (length init)) prev -> (length prev <= 10)%nat ->
  exists polygon values prev' reduced v,
    pure M (fun v => Ok (f v)) (nm_run M eps c prev init) = Ok (polygon, values, prev', reduced) /\
    pure M (fun v => Ok (f v)) (nm_find M eps c prev init) = Ok v /\
    In v polygon /\ length v = length init /\ length polygon = S (length init) /\ (length prev' <= 10)%nat /\ Forall (simplex_shape M (length init)) prev'.
Proof.
  intros M eps f c prev init Hn F L.
  destruct (nm_run_ok M eps f (length init) Hn c prev init eq_refl F L) as (polygon & values & prev' & red & R & [S1 S2] & Lv & F' & L' & _).
  unfold nm_find. rewrite pure_bind, R. cbn [bind]. rewrite pure_lift.
  assert (Mx : forall i rest (v : num M) ix, (ix < i)%nat -> (max_loop M v ix i rest < i + length rest)%nat).
  { clear. intros i rest. revert i. induction rest as [|u r IH]; intros i v ix H; cbn [max_loop length]; [lia|].
    destruct (n_ltb M v u); [specialize (IH (S i) u i ltac:(lia))|specialize (IH (S i) v ix ltac:(lia))]; lia. }
  assert (K : (max_element M values < length polygon)%nat).
  { rewrite S1, <- Lv. unfold max_element. destruct values as [|v r]; [cbn in Lv; lia|]. specialize (Mx 1%nat r v 0%nat ltac:(lia)). cbn [length]. lia. }
  destruct (at_in polygon _ K) as (v & Ev & Nv). exists polygon, values, prev', red, v.
  split; [reflexivity|]. split; [exact Ev|]. split; [eapply nth_error_In; exact Nv|].
  split; [rewrite Forall_forall in S2; apply S2; eapply nth_error_In; exact Nv|]. auto.
Qed.

Lemma nm_find_of_run : forall (M : MNum) eps g c prev init polygon values prev' red,
  pure M g (nm_run M eps c prev init) = Ok (polygon, values, prev', red) ->
  pure M g (nm_find M eps c prev init) = at_ polygon (max_element M values).
Proof. intros M eps g c prev init polygon values prev' red R. unfold nm_find. rewrite pure_bind, R. cbn [bind]. apply pure_lift. Qed.

(** ** C46 The vertex returned is a WORST vertex of the final simplex (the value is minimised): for NaN-free functions its
    recorded value is the greatest; when no reduction took place the recorded values are the function values. *)
Theorem C46_returns_worst_vertex : forall eps (f : list dbl -> dbl) c init polygon values prev' v,
  (forall v, is_num (f v) = true) -> (1 <= length init)%nat ->
  pure FMath (fun v => Ok (f v)) (nm_run FMath eps c [] init) = Ok (polygon, values, prev', false) ->
  pure FMath (fun v => Ok (f v)) (nm_find FMath eps c [] init) = Ok v ->
  In v polygon /\ forall w, In w polygon -> d_leb (f w) (f v) = true.
Proof.
  intros eps f c init polygon values prev' v NF Hn R Fv.
  destruct (nm_run_ok FMath eps f (length init) Hn c [] init eq_refl (Forall_nil _) ltac:(cbn; lia)) as (p & vs & pr & red & R' & [S1 S2] & Lv & _ & _ & Rec).
  pose proof (eq_trans (eq_sym R) R') as R2. injection R2 as <- <- <- <-. specialize (Rec eq_refl).
  pose proof (eq_trans (eq_sym (nm_find_of_run FMath eps _ c [] init _ _ _ _ R)) Fv) as Fv2. clear Fv. rename Fv2 into Fv.
  change (num FMath) with dbl in *. change (m_num FMath) with FNum in *.
  assert (NE : values <> []) by (intro E; rewrite E in Lv; cbn in Lv; lia).
  destruct (pick_spec true values NE) as (k & Hk & x & Hx & Hmax & _).
  { rewrite Rec. apply Forall_forall. intros y Hy. apply in_map_iff in Hy as (z & <- & _). apply NF. }
  rewrite (max_element_pick _ NE) in Hk. injection Hk as Hk. rewrite Hk in Fv. apply at_ok in Fv.
  split; [eapply nth_error_In; exact Fv|]. intros w Hw. apply In_nth_error in Hw as (j & Hj).
  rewrite Rec, nth_error_map, Fv in Hx. cbn in Hx. injection Hx as <-.
  apply (Hmax j). rewrite Rec, nth_error_map, Hj. reflexivity.
Qed.

(** ... and it can be strictly worse than the starting vector: minimising x*x from 0 with edge 1, bounds -5 and 5 and
    precision 10 stores 0.5. *)
Definition C46_cfg : nm_cfg FMath := MkNM FMath (d_ofZ 1) (d_ofZ 10) (d_ofZ (-5)) (d_ofZ 5).
Definition C46_square (v : list dbl) : dbl := match v with x :: _ => d_mul x x | [] => d_ofZ 0 end.
Theorem C46_worse_than_start_refuted :
  match optimize FNum (list dbl) (arr_set FNum) (arr_get FNum) (arr_check FNum) (fun v => Ok (C46_square v)) false (nm_find FMath d_eps C46_cfg []) [d_ofZ 0] with
  | (Ok tt, q, _) => d_ltb (C46_square [d_ofZ 0]) (C46_square q) | _ => false end = true.
Proof. vm_compute. reflexivity. Qed.
(** the hypotheses of C46_returns_worst_vertex hold in this run: no reduction takes place *)
Example C46_example_no_reduction :
  match pure FMath (fun v => Ok (C45_f v)) (nm_run FMath d_eps C46_cfg [] [d_ofZ 0]) with Ok (_, _, _, red) => negb red | _ => false end = true.
Proof. vm_compute. reflexivity. Qed.

(** ** C46 An optimiser object remembers simplices of earlier calls: using it again in a higher dimension reads outside the
    remembered vectors (undefined behaviour) as soon as the first loop test is reached, whatever the function. *)
Theorem C46_reuse_refuted : forall (M : MNum) eps (f : list (num M) -> num M) c init old prev, (2 <= length init)%nat ->
  simplex_shape M 1 old ->
  pure M (fun v => Ok (f v)) (nm_find M eps c (old :: prev) init) = UB OutOfBounds.
Proof.
  intros M eps f c init old prev Hn [So1 So2].
  unfold nm_find, nm_run. rewrite !pure_bind, ask_all_ok. cbn [bind].
  pose proof (regular_simplex_shape M (length init) init (nm_l M c) eq_refl) as S0.
  change (1000 * length init)%nat with (Nat.mul 1000 (length init)). cbn [nm_loop].
  destruct (nm_body_ok M f (length init) ltac:(lia) c _ (map f (regular_simplex M init (nm_l M c))) S0) as (p' & v' & rd & E & S1 & L1 & _); [rewrite map_length; apply S0|].
  rewrite pure_bind, E. cbn [bind]. rewrite pure_bind, pure_lift. unfold go_on.
  destruct (shape_nth M (length init) ltac:(lia) p' 0 S1 ltac:(lia)) as (v & Ev & Lv). unfold at_ at 1. rewrite Ev. cbn [bind]. rewrite Lv.
  destruct (Z.ltb_spec (1000 * Z.of_nat (length init)) (0 + 1)); [lia|].
  assert (U : same_before M eps p' (old :: prev) = UB OutOfBounds).
  { cbn [same_before]. destruct p' as [|w p']; [discriminate|]. cbn in Ev. injection Ev as ->.
    destruct old as [|o old]; [discriminate|]. inversion So2 as [|? ? Lo _]; subst. cbn [polygon_difference].
    destruct v as [|a [|b v]]; cbn in Lv; try lia. destruct o as [|d [|]]; try discriminate. cbn [vector_difference]. reflexivity. }
  rewrite U. reflexivity.
Qed.

(** ** C46 GetIndexes: for at least two values free of NaN the three positions are those of a greatest value, of a greatest
    among the others, and of a least value; for fewer values it throws. *)
Section Indexes.
Variable values : list dbl.
Hypothesis NF : Forall (fun v => is_num v = true) values.
Definition index_inv (i fm sm mn : nat) : Prop :=
  (fm < i)%nat /\ (sm < i)%nat /\ (mn < i)%nat /\ fm <> sm /\
  exists vf vs vm, nth_error values fm = Some vf /\ nth_error values sm = Some vs /\ nth_error values mn = Some vm /\
  forall j u, (j < i)%nat -> nth_error values j = Some u ->
    d_key u <= d_key vf /\ (j <> fm -> d_key u <= d_key vs) /\ d_key vm <= d_key u.

Lemma key_lt x y : In x values -> In y values -> d_ltb x y = (d_key x <? d_key y).
Proof. intros A B. rewrite Forall_forall in NF. apply d_ltb_nkey; apply is_num_nan; auto. Qed.

Lemma indexes_loop_inv : forall rest pre i fm sm mn, values = pre ++ rest -> i = length pre -> index_inv i fm sm mn ->
  exists fm' sm' mn', indexes_loop FMath values i rest fm sm mn = Ok (fm', sm', mn') /\ index_inv (length values) fm' sm' mn'.
Proof.
  induction rest as [|v r IH]; intros pre i fm sm mn E Hi I.
  - exists fm, sm, mn. split; [reflexivity|]. rewrite E, app_nil_r, <- Hi. exact I.
  - destruct I as (A & B & C & D & vf & vs & vm & Nf & Ns & Nm & H). cbn [indexes_loop].
    change (num FMath) with dbl.     rewrite (proj2 (at_ok values fm vf) Nf), (proj2 (at_ok values sm vs) Ns), (proj2 (at_ok values mn vm) Nm). cbn [bind].
    assert (Nv : nth_error values i = Some v) by (rewrite E, Hi, nth_error_app2, Nat.sub_diag by lia; reflexivity).
    pose proof (nth_error_In _ _ Nf) as If. pose proof (nth_error_In _ _ Ns) as Is. pose proof (nth_error_In _ _ Nm) as Im. pose proof (nth_error_In _ _ Nv) as Iv.
    change (n_ltb FMath vf v) with (d_ltb vf v). change (n_ltb FMath vs v) with (d_ltb vs v). change (n_ltb FMath v vm) with (d_ltb v vm).
    rewrite !key_lt by assumption.
    pose proof (H fm vf A Nf) as Hf. pose proof (H sm vs B Ns) as Hs.
    assert (K : forall fm' sm' mn', index_inv (S i) fm' sm' mn' -> exists fm'' sm'' mn'', indexes_loop FMath values (S i) r fm' sm' mn' = Ok (fm'', sm'', mn'') /\ index_inv (length values) fm'' sm'' mn'').
    { intros fm' sm' mn' I'. apply (IH (pre ++ [v])); [rewrite <- app_assoc; exact E|rewrite app_length; cbn; lia|exact I']. }
    destruct (Z.ltb_spec (d_key vf) (d_key v)) as [L1|L1]; [|destruct (Z.ltb_spec (d_key vs) (d_key v)) as [L2|L2]];
      destruct (Z.ltb_spec (d_key v) (d_key vm)) as [L3|L3]; apply K; unfold index_inv; (repeat split; try lia);
      do 3 eexists; (split; [eassumption|]); (split; [eassumption|]); (split; [eassumption|]);
      intros j u Hj Nu; (destruct (Nat.eq_dec j i) as [->|Nj]; [replace u with v by congruence; repeat split; intros; try lia|
         specialize (H j u ltac:(lia) Nu); repeat split; intros; try lia; destruct (Nat.eq_dec j fm) as [->|]; try (replace u with vf by congruence); lia]).
Qed.
End Indexes.

Theorem C46_indexes : forall values : list dbl, (2 <= length values)%nat -> Forall (fun v => is_num v = true) values ->
  exists fm sm mn vf vs vm, get_indexes FMath values = Ok (fm, sm, mn) /\ fm <> sm /\
    nth_error values fm = Some vf /\ nth_error values sm = Some vs /\ nth_error values mn = Some vm /\
    forall j u, nth_error values j = Some u ->
      d_leb u vf = true /\ (j <> fm -> d_leb u vs = true) /\ d_leb vm u = true.
Proof.
  intros values L NF. unfold get_indexes. destruct values as [|v0 [|v1 r]] eqn:E; cbn in L; try lia.
  assert (I0 : In v0 (v0 :: v1 :: r)) by (left; reflexivity). assert (I1 : In v1 (v0 :: v1 :: r)) by (right; left; reflexivity).
  change (n_ltb FMath v1 v0) with (d_ltb v1 v0). rewrite (key_lt _ NF _ _ I1 I0).
  assert (G : exists fm sm mn, (if d_key v1 <? d_key v0 then indexes_loop FMath (v0 :: v1 :: r) 2 r 0 1 1 else indexes_loop FMath (v0 :: v1 :: r) 2 r 1 0 0) = Ok (fm, sm, mn) /\
     index_inv (v0 :: v1 :: r) (length (v0 :: v1 :: r)) fm sm mn).
  { destruct (Z.ltb_spec (d_key v1) (d_key v0)); apply (indexes_loop_inv _ NF r [v0; v1]); auto; unfold index_inv; (repeat split; try lia);
      do 3 eexists; (split; [reflexivity|]); (split; [reflexivity|]); (split; [reflexivity|]); intros [|[|j]] u Hj Nu; cbn in Nu; try lia; injection Nu as <-; repeat split; intros; lia. }
  destruct G as (fm & sm & mn & G & (A & B & C & D & vf & vs & vm & Nf & Ns & Nm & H)).
  exists fm, sm, mn, vf, vs, vm. split; [exact G|]. split; [exact D|]. split; [exact Nf|]. split; [exact Ns|]. split; [exact Nm|].
  intros j u Nu. assert (Hj : (j < length (v0 :: v1 :: r))%nat) by (apply nth_error_Some; congruence).
  destruct (H j u Hj Nu) as (H1 & H2 & H3). rewrite Forall_forall in NF.
  assert (X : forall x, In x (v0 :: v1 :: r) -> is_nan x = false) by (intros x Hx; apply is_num_nan; auto).
  pose proof (X _ (nth_error_In _ _ Nf)). pose proof (X _ (nth_error_In _ _ Ns)). pose proof (X _ (nth_error_In _ _ Nm)). pose proof (X _ (nth_error_In _ _ Nu)).
  repeat split; intros; rewrite d_leb_nkey by assumption; apply Z.leb_le; auto.
Qed.
Theorem C46_indexes_too_few : forall M (values : list (num (m_num M))), (length values < 2)%nat -> get_indexes M values = Throw InvalidArgument.
Proof. intros M [|a [|b r]] H; cbn in H; try reflexivity; lia. Qed.
Example C46_example_indexes : get_indexes FMath [d_ofZ 3; d_ofZ 7; d_ofZ 1; d_ofZ 7] = Ok (1, 3, 2)%nat.
Proof. vm_compute. reflexivity. Qed.

(** ** C46 The initial simplex (exact arithmetic): n+1 vertices, the first one the given point, all edges of length |l|. *)
Fixpoint squared_distance (a b : list R) : R :=
  match a, b with x :: r, y :: s => ((x - y) ^ 2 + squared_distance r s)%R | _, _ => 0%R end.
Lemma dist_base r1 r2 i : forall base j,
  squared_distance base (vertex RMath r1 r2 i j base) =
  (if ((j <=? i) && (i <? j + length base))%nat then r1 ^ 2 + (INR (length base) - 1) * r2 ^ 2 else INR (length base) * r2 ^ 2)%R.
Proof.
  induction base as [|b r IH]; intro j.
  - cbn [squared_distance vertex length INR]. destruct (Nat.leb_spec j i); cbn [andb]; [|ring]. destruct (Nat.ltb_spec i (j + 0)); [lia|ring].
  - cbn [vertex squared_distance length]. rewrite IH. change (n_add RMath) with Rplus. rewrite S_INR.
    destruct (Nat.eqb_spec j i) as [->|N].
    + destruct (Nat.leb_spec (S i) i); [lia|]. destruct (Nat.leb_spec i i); [|lia]. destruct (Nat.ltb_spec i (i + S (length r))); [|lia]. cbn [andb]. ring.
    + destruct (Nat.leb_spec (S j) i), (Nat.leb_spec j i); try lia; cbn [andb]; try ring.
      destruct (Nat.ltb_spec i (S j + length r)), (Nat.ltb_spec i (j + S (length r))); try lia; ring.
Qed.
Lemma dist_vertices r1 r2 i i' : i <> i' -> forall base j,
  squared_distance (vertex RMath r1 r2 i j base) (vertex RMath r1 r2 i' j base) =
  ((if ((j <=? i) && (i <? j + length base))%nat then (r1 - r2) ^ 2 else 0) + (if ((j <=? i') && (i' <? j + length base))%nat then (r1 - r2) ^ 2 else 0))%R.
Proof.
  intros Ne. induction base as [|b r IH]; intro j.
  - cbn [squared_distance vertex length]. destruct (Nat.leb_spec j i), (Nat.leb_spec j i'); cbn [andb]; destruct (Nat.ltb_spec i (j + 0)), (Nat.ltb_spec i' (j + 0)); try lia; ring.
  - cbn [vertex squared_distance length]. rewrite IH. change (n_add RMath) with Rplus.
    assert (P : forall i0, j <> i0 -> ((S j <=? i0) && (i0 <? S j + length r))%nat = ((j <=? i0) && (i0 <? j + S (length r)))%nat).
    { intros i0 N. destruct (Nat.leb_spec (S j) i0), (Nat.leb_spec j i0); try lia; cbn [andb]; auto.
      destruct (Nat.ltb_spec i0 (S j + length r)), (Nat.ltb_spec i0 (j + S (length r))); auto; lia. }
    assert (Q : ((S j <=? j) && (j <? S j + length r))%nat = false /\ ((j <=? j) && (j <? j + S (length r)))%nat = true).
    { destruct (Nat.leb_spec (S j) j), (Nat.leb_spec j j), (Nat.ltb_spec j (j + S (length r))); try lia; auto. }
    destruct Q as [Q1 Q2].
    destruct (Nat.eqb_spec j i) as [Ei|Ni]; destruct (Nat.eqb_spec j i') as [Ei'|Ni'].
    + congruence.
    + subst i. rewrite Q1, Q2, (P i' Ni'). destruct (_ && _)%bool; ring.
    + subst i'. rewrite Q1, Q2, (P i Ni). destruct (_ && _)%bool; ring.
    + rewrite (P i Ni), (P i' Ni'). destruct ((j <=? i) && (i <? j + S (length r)))%nat, ((j <=? i') && (i' <? j + S (length r)))%nat; ring.
Qed.

Lemma simplex_constants n l : (1 <= n)%nat ->
  let r1 := simplex_r1 RMath n l in let r2 := simplex_r2 RMath n l in
  (r1 ^ 2 + (INR n - 1) * r2 ^ 2 = l ^ 2)%R /\ ((r1 - r2) ^ 2 + (r1 - r2) ^ 2 = l ^ 2)%R.
Proof.
  intros Hn r1 r2. unfold r1, r2, simplex_r1, simplex_r2. cbn [m_sqrt m_num RMath n_ofZ n_add n_sub n_mul n_div RNum].
  rewrite plus_IZR, <- INR_IZR_INZ. assert (N0 : (1 <= INR n)%R) by (apply (le_INR 1); exact Hn).
  set (N := INR n) in *. clearbody N.
  pose proof (sqrt_sqrt (N + 1) ltac:(lra)) as S1. pose proof (sqrt_sqrt 2 ltac:(lra)) as S2.
  set (s := sqrt (N + 1)) in *. set (t := sqrt 2) in *. assert (t <> 0)%R by (intro E; rewrite E in S2; lra).
  clearbody s t. split.
  - replace ((l * (s + N - 1) / (N * t)) ^ 2 + (N - 1) * (l * (s - 1) / (N * t)) ^ 2)%R
      with (l ^ 2 * ((s + N - 1) ^ 2 + (N - 1) * (s - 1) ^ 2) / (N ^ 2 * (t * t)))%R by (field; split; lra).
    replace ((s + N - 1) ^ 2 + (N - 1) * (s - 1) ^ 2)%R with (N * (s * s) + N * (N - 1))%R by ring.
    rewrite S1, S2. field. lra.
  - replace (l * (s + N - 1) / (N * t) - l * (s - 1) / (N * t))%R with (l / t)%R by (field; split; lra).
    replace ((l / t) ^ 2 + (l / t) ^ 2)%R with (2 * l ^ 2 / (t * t))%R by (field; lra). rewrite S2. field.
Qed.

Theorem C46_regular_simplex : forall (base : list R) l, (1 <= length base)%nat ->
  length (regular_simplex RMath base l) = S (length base) /\ nth_error (regular_simplex RMath base l) 0 = Some base /\
  forall i j u v, i <> j -> nth_error (regular_simplex RMath base l) i = Some u -> nth_error (regular_simplex RMath base l) j = Some v ->
    length u = length base /\ squared_distance u v = (l ^ 2)%R.
Proof.
  intros base l Hn. unfold regular_simplex. change (num RMath) with R.
  split; [cbn; rewrite map_length, seq_length; reflexivity|]. split; [reflexivity|].
  set (r1 := simplex_r1 RMath (length base) l). set (r2 := simplex_r2 RMath (length base) l).
  destruct (simplex_constants (length base) l Hn) as [C1 C2]. fold r1 r2 in C1, C2.
  assert (Sym : forall a b, squared_distance a b = squared_distance b a).
  { induction a as [|x a IH]; intros [|y b]; cbn; auto. rewrite IH. ring. }
  assert (V : forall k w, nth_error (base :: map (fun i => vertex RMath r1 r2 i 0 base) (seq 0 (length base))) (S k) = Some w -> (k < length base)%nat /\ w = vertex RMath r1 r2 k 0 base).
  { intros k w Hw. cbn [nth_error] in Hw. rewrite nth_error_map in Hw. destruct (nth_error (seq 0 (length base)) k) as [x|] eqn:E; [|discriminate].
    assert (K : (k < length base)%nat) by (rewrite <- (seq_length (length base) 0); apply nth_error_Some; congruence).
    assert (x = k). { rewrite (nth_error_nth' _ 0%nat) in E by (rewrite seq_length; exact K). rewrite seq_nth in E by exact K. injection E as <-. reflexivity. }
    subst x. cbn in Hw. injection Hw as <-. auto. }
  assert (B : forall k, (k < length base)%nat -> squared_distance base (vertex RMath r1 r2 k 0 base) = (l ^ 2)%R).
  { intros k Hk. rewrite dist_base. cbn [Nat.add]. change ((0 <=? k)%nat) with true. destruct (Nat.ltb_spec k (length base)); [exact C1|lia]. }
  intros [|i] [|j] u v Ne Hu Hv; try contradiction.
  - injection Hu as <-. apply V in Hv as [Hj ->]. split; [reflexivity|]. apply B. exact Hj.
  - injection Hv as <-. apply V in Hu as [Hi ->]. split; [apply (vertex_length RMath)|]. rewrite Sym. apply B. exact Hi.
  - apply V in Hu as [Hi ->]. apply V in Hv as [Hj ->]. split; [apply (vertex_length RMath)|].
    rewrite dist_vertices by congruence. cbn [Nat.add]. change ((0 <=? i)%nat) with true. change ((0 <=? j)%nat) with true.
    change (num RMath) with R. destruct (Nat.ltb_spec i (length base)), (Nat.ltb_spec j (length base)); try lia. exact C2.
Qed.
Example C46_example_simplex : (1 <= length [0%R; 0%R])%nat.
Proof. cbn. lia. Qed.

(** ** C46 The moves (exact arithmetic). *)
Lemma zip_nth op : forall (a b : list R) i x y, nth_error a i = Some x -> nth_error b i = Some y ->
  nth_error (zip_with RMath op a b) i = Some (op x y).
Proof. induction a as [|u a IH]; intros [|w b] [|i] x y A B; cbn in *; try discriminate; [congruence|]. eauto. Qed.
(** reflection: the centre is the midpoint of the old and the new point; expansion doubles, contraction halves the way
    from the centre *)
Theorem C46_moves : forall (c t : list R) i ci ti, nth_error c i = Some ci -> nth_error t i = Some ti ->
  (exists x, nth_error (reflexion RMath c t) i = Some x /\ (ci = (ti + x) / 2)%R) /\
  (exists x, nth_error (expansion RMath c t) i = Some x /\ (x - ci = 2 * (ti - ci))%R) /\
  (exists x, nth_error (contraction RMath c t) i = Some x /\ (x = (ci + ti) / 2)%R).
Proof.
  intros c t i ci ti Hc Ht. split; [|split]; eexists; (split; [apply zip_nth; eassumption|]); cbn; unfold half; cbn; lra.
Qed.
(** centre of mass: n times coordinate i of the centre is the sum of that coordinate over the other n vertices *)
Fixpoint column_sum (polygon : list (list R)) (i : nat) : R :=
  match polygon with [] => 0%R | v :: r => (nth i v 0 + column_sum r i)%R end.
Lemma sum_without_sum k i n : (i < n)%nat -> forall (polygon : list (list R)) j (s x : R), Forall (fun v => length v = n) polygon ->
  sum_without RMath k j s polygon i = Ok x ->
  x = (s + column_sum polygon i - (if ((j <=? k) && (k <? j + length polygon))%nat then nth i (nth (k - j) polygon []) 0 else 0))%R.
Proof.
  intros Hi. induction polygon as [|v r IH]; intros j s x F H.
  - cbn in H. injection H as <-. cbn [column_sum length]. destruct (Nat.leb_spec j k); cbn [andb]; [|ring]. destruct (Nat.ltb_spec k (j + 0)); [lia|ring].
  - cbn [sum_without] in H. inversion F; subst. cbn [column_sum length].
    destruct (Nat.eqb_spec j k) as [->|N].
    + apply IH in H; [|assumption]. rewrite H. destruct (Nat.leb_spec (S k) k); [lia|]. destruct (Nat.leb_spec k k); [|lia].
      destruct (Nat.ltb_spec k (k + S (length r))); [|lia]. cbn [andb]. rewrite Nat.sub_diag. cbn [nth]. ring.
    + destruct (at_in v i) as (y & Ey & Ny); [lia|]. change (num RMath) with R in H. rewrite Ey in H. cbn [bind] in H. apply IH in H; [|assumption]. rewrite H.
      rewrite (nth_error_nth v i 0%R Ny). change (n_add RMath s y) with (s + y)%R.
      destruct (Nat.leb_spec (S j) k), (Nat.leb_spec j k); try lia; cbn [andb]; try ring.
      destruct (Nat.ltb_spec k (S j + length r)), (Nat.ltb_spec k (j + S (length r))); try lia; try ring.
      replace (k - j)%nat with (S (k - S j)) by lia. cbn [nth]. ring.
Qed.
Theorem C46_center_of_mass : forall n (polygon : list (list R)) k, (1 <= n)%nat -> length polygon = S n -> Forall (fun v => length v = n) polygon -> (k <= n)%nat ->
  exists c, center_of_mass RMath polygon k = Ok c /\ length c = n /\
    forall i, (i < n)%nat -> (INR n * nth i c 0 = column_sum polygon i - nth i (nth k polygon []) 0)%R.
Proof.
  intros n polygon k Hn L F Hk. destruct (center_ok RMath n Hn polygon k (conj L F) ltac:(lia)) as (c & E & Lc).
  exists c. split; [exact E|]. split; [exact Lc|]. intros i Hi. unfold center_of_mass in E.
  destruct polygon as [|v0 r]; [discriminate|]. change (num RMath) with R in E. destruct (length (v0 :: r) <=? k)%nat; [discriminate|].
  assert (L0 : length v0 = n) by (inversion F; assumption).
  apply mapM_ok_nth in E as [_ E]. destruct (nth_error c i) as [x|] eqn:Ni.
  2:{ apply nth_error_None in Ni. change (num RMath) with R in *. lia. }
  specialize (E i). rewrite L0 in E.
  assert (Sq : nth_error (seq 0 n) i = Some i) by (rewrite (nth_error_nth' _ 0%nat) by (rewrite seq_length; exact Hi); rewrite seq_nth by exact Hi; reflexivity).
  pose proof (E i x Sq Ni) as Hy. rename Ni into Ny. clear E. revert x Hy Ny. change (num RMath) with R. intros y Hy Ny.
  rewrite firstn_all2 in Hy by (change (num RMath) with R in *; lia).
  destruct (sum_without RMath k 0 (n_ofZ RMath 0) (v0 :: r) i) as [s|e|u] eqn:Sm; cbn [bind] in Hy; try discriminate. injection Hy as <-.
  apply (sum_without_sum k i n Hi) in Sm; [|exact F]. change (num RMath) with R. rewrite (@nth_error_nth R c i _ 0%R Ny).
  cbn [n_div n_ofZ RMath m_num RNum] in *. rewrite <- INR_IZR_INZ. rewrite Nat.sub_0_r in Sm. cbn [Nat.add] in Sm. change ((0 <=? k)%nat) with true in Sm.
  destruct (Nat.ltb_spec k (length (v0 :: r))); [|change (num RMath) with R in *; lia]. cbn [andb] in Sm. rewrite Sm. field.
  apply not_0_INR. lia.
Qed.
(** reduction: vertex k stays, every other vertex moves to the midpoint between it and vertex k *)
Theorem C46_reduction : forall (polygon q : list (list R)) k p, nth_error polygon k = Some p -> reduction RMath polygon k = Ok q ->
  length q = length polygon /\ nth_error q k = Some p /\
  forall j v w, j <> k -> nth_error polygon j = Some v -> nth_error q j = Some w ->
    forall i a b, nth_error p i = Some a -> nth_error v i = Some b -> exists x, nth_error w i = Some x /\ (x = (a + b) / 2)%R.
Proof.
  intros polygon q k p Hk H. unfold reduction in H. change (num RMath) with R in H. rewrite Hk in H. injection H as <-.
  split; [rewrite map_length, combine_length, seq_length; lia|]. split.
  - rewrite nth_error_map, (combine_seq_nth 1 (le_n 1)), Hk. cbn. rewrite Nat.eqb_refl. reflexivity.
  - intros j v w Nj Hv Hw. rewrite nth_error_map, (combine_seq_nth 1 (le_n 1)), Hv in Hw. cbn in Hw. destruct (Nat.eqb_spec j k); [contradiction|].
    injection Hw as <-. intros i a b Ha Hb. eexists. split; [apply zip_nth; eassumption|]. cbn. unfold half. cbn. lra.
Qed.
Print Assumptions C46_completes. Print Assumptions C46_returns_worst_vertex. Print Assumptions C46_worse_than_start_refuted. Print Assumptions C46_reuse_refuted.
Print Assumptions C46_indexes. Print Assumptions C46_indexes_too_few. Print Assumptions C46_regular_simplex. Print Assumptions C46_moves. Print Assumptions C46_center_of_mass. Print Assumptions C46_reduction.
