(** C62: the steepest descent method. *)
From Coq Require Import Reals Psatz.
From Flocq Require Import IEEE754.BinarySingleNaN.
From Verif Require Import Base Num DblOrder Misc Optim PropOptim Hooke PropHooke NelderMead PropNelderMead Rosenbrock PropRosenbrock Gradient PropGradient.
Local Open Scope nat_scope.
Local Open Scope list_scope.

(** *** Any arithmetic *)
Section Any.
Variable M : MNum.
Notation num := (num M).
Variable int_abs : bool.
Variable bad : ub -> Prop.
Hypothesis Hbad : bad OutOfFuel.
(** what the two functions called abs can do *)
Hypothesis Habs : forall x, match sd_abs M int_abs x with Ok _ => True | Throw _ => False | UB u => bad u end.
Notation sized n := (fun v : list num => length v = n).
Notation never := (fun _ : exn => False).
Lemma abs_upto n x : upto (sized n) (fun _ : num => True) never bad 0 (lift (sd_abs M int_abs x)).
Proof. pose proof (Habs x) as H. destruct (sd_abs M int_abs x); cbn; exact H. Qed.
Lemma ask_upto n x (p d : list num) : length p = n -> length d = n -> upto (sized n) (fun _ : num => True) never bad 1 (ask_min M (along M x p d)).
Proof. intros Lp Ld. apply upto_ask. rewrite (along_length M); lia. Qed.
Lemma shrink_upto n c (p d : list num) : length p = n -> length d = n -> forall lf step, upto (sized n) (fun _ : num => True) never bad (2 * lf) (sd_shrink M int_abs lf c p d step).
Proof.
  intros Lp Ld. induction lf as [|lf IH]; intro step; [exact Hbad|]. cbn [sd_shrink]. replace (2 * S lf) with (1 + (1 + 2 * lf)) by lia.
  apply (upto_bind _ _ _ _ _ (fun _ : num => True)); [|apply ask_upto; assumption]. intros v _. apply (upto_bind _ _ _ _ _ (fun _ : num => True)); [|apply upto_ask; exact Lp]. intros v0 _.
  destruct (n_ltb M v0 v); [|exact I]. apply (upto_bind _ _ _ _ _ (fun _ : num => True) _ (2 * lf) _) with (b := 0); [|apply abs_upto]. intros a _. destruct (n_ltb M (sd_precision M c) a); [apply IH|exact I].
Qed.
Lemma expand_upto n (p d : list num) : length p = n -> length d = n -> forall lf step point, length point = n -> upto (sized n) (sized n) never bad (2 * lf) (sd_expand M lf p d step point).
Proof.
  intros Lp Ld. induction lf as [|lf IH]; intros step point Lq; [exact Hbad|]. cbn [sd_expand]. replace (2 * S lf) with (1 + (1 + 2 * lf)) by lia.
  assert (Ln : length (along M (n_mul M step (golden M)) p d) = n) by (rewrite (along_length M); lia).
  apply (upto_bind _ _ _ _ _ (fun _ : num => True)); [|apply upto_ask; exact Ln]. intros vn _. apply (upto_bind _ _ _ _ _ (fun _ : num => True)); [|apply upto_ask; exact Lq]. intros v _.
  destruct (n_leb M vn v); [apply IH; exact Ln|exact Ln].
Qed.
Lemma golden_upto n c (p d : list num) : length p = n -> length d = n -> forall lf l r nl nr, upto (sized n) (fun _ : num => True) never bad (2 * lf) (sd_golden M int_abs lf c p d l r nl nr).
Proof.
  intros Lp Ld. induction lf as [|lf IH]; intros l r nl nr; [exact Hbad|]. cbn [sd_golden]. replace (2 * S lf) with (1 + (1 + 2 * lf)) by lia.
  apply (upto_bind _ _ _ _ _ (fun _ : num => True)); [|apply ask_upto; assumption]. intros vl _. apply (upto_bind _ _ _ _ _ (fun _ : num => True)); [|apply ask_upto; assumption]. intros vr _.
  assert (G : forall l' r' nl' nr', upto (sized n) (fun _ : num => True) never bad (2 * lf)
    (if n_eqb M l' l && n_eqb M r' r then Ret (n_div M (n_add M l' r') (two M)) else ask! a := lift (sd_abs M int_abs (n_sub M l' r')) in
      if n_ltb M (sd_precision M c) a then sd_golden M int_abs lf c p d l' r' nl' nr' else Ret (n_div M (n_add M l' r') (two M)))).
  { intros l' r' nl' nr'. destruct (n_eqb M l' l && n_eqb M r' r); [exact I|].
    apply (upto_bind _ _ _ _ _ (fun _ : num => True) _ (2 * lf) _) with (b := 0); [|apply abs_upto]. intros w _. destruct (n_ltb M (sd_precision M c) w); [apply IH|exact I]. }
  destruct (n_ltb M nl nr); [destruct (n_ltb M vr vl)|destruct (n_ltb M vl vr)]; apply G.
Qed.
Lemma sd_line_upto n lf c (p d : list num) step : length p = n -> length d = n -> upto (sized n) (fun _ : num => True) never bad (6 * lf) (sd_line M int_abs lf c p step d).
Proof.
  intros Lp Ld. unfold sd_line, sd_localize. replace (6 * lf) with (4 * lf + 2 * lf) by lia. apply (upto_bind _ _ _ _ _ (fun _ : num => True)); [intros; apply golden_upto; assumption|].
  replace (4 * lf) with (2 * lf + (2 * lf + 0)) by lia. apply (upto_bind _ _ _ _ _ (fun _ : num => True)); [|apply shrink_upto; assumption]. intros s _.
  apply (upto_bind _ _ _ _ _ (sized n)); [intros; exact I|]. apply expand_upto; try assumption. rewrite (along_length M); lia.
Qed.
Lemma sd_loop_upto n lf c : forall fuel (p : list num) lambda counter, length p = n -> upto (sized n) (sized n) never bad (fuel * (6 * lf + 4 * n)) (sd_loop M int_abs fuel lf c p lambda counter).
Proof.
  induction fuel as [|fuel IH]; intros p lambda counter Lp; [exact Hbad|]. cbn [sd_loop]. replace (S fuel * (6 * lf + 4 * n)) with (2 * n + (6 * lf + ((2 * n + 0) + fuel * (6 * lf + 4 * n)))) by lia.
  apply (upto_bind _ _ _ _ _ (sized n)); [|apply (gradient_upto M); exact Lp]. intros g Lg. assert (Ld : length (invert M g) = n) by (unfold invert; rewrite map_length; exact Lg).
  apply (upto_bind _ _ _ _ _ (fun _ : num => True)); [|apply sd_line_upto; assumption]. intros lam _. assert (Ln : length (along M lam p (invert M g)) = n) by (rewrite (along_length M); lia).
  apply (upto_bind _ _ _ _ _ (fun _ : bool => True)); [|unfold sd_exit; apply (upto_bind _ _ _ _ _ (sized n)); [intros; exact I|apply (gradient_upto M); exact Ln]]. intros e _.
  destruct (e || _); [exact Lp|]. apply IH. exact Ln.
Qed.
Lemma sbind_ext A B (s : search M A) (k k' : A -> search M B) : (forall a, k a = k' a) -> sbind s k = sbind s k'.
Proof. intros Hk. induction s as [a|m v r IHr|e|u]; cbn; auto. f_equal. apply FunctionalExtensionality.functional_extensionality. exact IHr. Qed.
Lemma sd_loop_fuel lf c : forall fuel fuel' (p : list num) lam counter, (counter < sd_iterations M c)%Z -> (sd_iterations M c - counter <= Z.of_nat fuel)%Z -> (sd_iterations M c - counter <= Z.of_nat fuel')%Z ->
  sd_loop M int_abs fuel lf c p lam counter = sd_loop M int_abs fuel' lf c p lam counter.
Proof.
  induction fuel as [|fuel IH]; intros fuel' p lam counter Hi H H'; [lia|]. destruct fuel' as [|fuel']; [lia|]. cbn [sd_loop].
  apply sbind_ext. intro g. apply sbind_ext. intro la. apply sbind_ext. intro e. destruct (Z.eqb_spec (counter + 1) (sd_iterations M c)) as [E|E]; [rewrite orb_true_r; reflexivity|].
  destruct e; [reflexivity|]. cbn [orb]. apply IH; lia.
Qed.
End Any.

(** ** C62 Points and evaluations: every point has the dimension of the start, no exception comes from the method itself, and k rounds with
    loops of at most lf iterations need at most k(6 lf + 4n) evaluations. Any arithmetic with std::abs; binary64 with ::abs(int), whose
    argument may be out of range. *)
Theorem C62_evaluations : forall (M : MNum) (fuel lf : nat) (c : sd_cfg M) (f : list (num M) -> num M) (mx : bool) (p : list (num M)),
  let n := length p in
  exists o q l, run M (list (num M)) (arr_set M) (arr_get M) (arr_check M) (fun v => Ok (f v)) mx (sd_find M false fuel lf c p) p [] = (o, q, l) /\
    Forall (fun v => length v = n) l /\ length l <= fuel * (6 * lf + 4 * n) /\
    match o with Ok r => length r = n | Throw _ => False | UB u => u = OutOfFuel end.
Proof.
  intros M fuel lf c f mx p n. pose proof (sd_loop_upto M false (eq OutOfFuel) eq_refl (fun x => I) n lf c fuel p (n_ofZ M 1) 0 eq_refl) as U.
  destruct (upto_run _ _ _ _ _ n f mx (fun v H => H) _ _ p [] U eq_refl) as (o & q & l & E & Lq & F & Ll & Q).
  exists o, q, l. split; [exact E|]. split; [exact F|]. split; [exact Ll|]. destruct o; [exact Q|exact Q|symmetry; exact Q].
Qed.
Theorem C62_evaluations_int_abs : forall (fuel lf : nat) (c : sd_cfg FMath) (f : list dbl -> dbl) (mx : bool) (p : list dbl),
  let n := length p in
  exists o q l, run FMath (list dbl) (arr_set FMath) (arr_get FMath) (arr_check FMath) (fun v => Ok (f v)) mx (sd_find FMath true fuel lf c p) p [] = (o, q, l) /\
    Forall (fun v => length v = n) l /\ length l <= fuel * (6 * lf + 4 * n) /\
    match o with Ok r => length r = n | Throw _ => False | UB u => u = OutOfFuel \/ u = BadCast \/ u = IntOverflow end.
Proof.
  intros fuel lf c f mx p n. assert (H : forall x, match sd_abs FMath true x with Ok _ => True | Throw _ => False | UB u => u = OutOfFuel \/ u = BadCast \/ u = IntOverflow end).
  { intro x. unfold sd_abs. change (n_toint FMath) with d_toint. unfold d_toint, chk_int. destruct (is_finite x); cbn [bind]; auto. destruct (in_int (Btrunc x)); cbn [bind]; auto. destruct (in_int (Z.abs (Btrunc x))); cbn [bind]; auto. }
  pose proof (sd_loop_upto FMath true _ (or_introl eq_refl) H n lf c fuel p (n_ofZ FMath 1) 0 eq_refl) as U.
  destruct (upto_run (N := FMath) _ _ _ _ _ n f mx (fun v H => H) _ _ p [] U eq_refl) as (o & q & l & E & Lq & F & Ll & Q).
  exists o, q, l. split; [exact E|]. split; [exact F|]. split; [exact Ll|]. destruct o; exact Q.
Qed.
(** ** C62 The limit N >= 1 on the iterations allows N rounds. *)
Theorem C62_limit : forall (M : MNum) (int_abs : bool) (fuel lf : nat) (c : sd_cfg M) (init : list (num M)), (1 <= sd_iterations M c)%Z ->
  Z.to_nat (sd_iterations M c) <= fuel -> sd_find M int_abs fuel lf c init = sd_find M int_abs (Z.to_nat (sd_iterations M c)) lf c init.
Proof. intros M ia fuel lf c init H1 H. apply sd_loop_fuel; lia. Qed.
(** ** C62 The result is the point before the last step: either the start itself, whatever the last step was, or a point where the computed
    gradient is still longer than the precision (any arithmetic, both kinds of abs). *)
Theorem C62_previous_point_refuted : forall (M : MNum) (int_abs : bool) (fuel lf : nat) (c : sd_cfg M) (g : list (num M) -> outcome (num M)) (init r : list (num M)),
  pure M g (sd_find M int_abs fuel lf c init) = Ok r ->
  r = init \/ exists gr, pure M g (sd_gradient M c r) = Ok gr /\ n_ltb M (sd_precision M c) (m_sqrt M (sum_squares M gr)) = true.
Proof.
  intros M ia fuel lf c g init r. unfold sd_find. generalize (n_ofZ M 1) at 1. generalize 0%Z. revert init. induction fuel as [|fuel IH]; intros p z lam E; [discriminate|].
  cbn [sd_loop] in E. rewrite pure_bind in E. apply bind_ok in E as (g0 & _ & E). rewrite pure_bind in E. apply bind_ok in E as (la & _ & E). rewrite pure_bind in E. apply bind_ok in E as (e & E1 & E).
  destruct e; [left; injection E as <-; reflexivity|]. cbn [orb] in E. destruct (z + 1 =? sd_iterations M c)%Z; [left; injection E as <-; reflexivity|].
  unfold sd_exit in E1. rewrite pure_bind in E1. apply bind_ok in E1 as (gr & E1 & E2). injection E2 as E2. apply negb_false_iff in E2.
  destruct (IH _ _ _ E) as [->|R]; [|right; exact R]. right. exists gr. auto.
Qed.
(** ** C62 With the limit 1 the result always is the start. *)
Theorem C62_one_iteration_refuted : forall (M : MNum) (int_abs : bool) (fuel lf : nat) (c : sd_cfg M) (g : list (num M) -> outcome (num M)) (init r : list (num M)),
  sd_iterations M c = 1%Z -> pure M g (sd_find M int_abs fuel lf c init) = Ok r -> r = init.
Proof.
  intros M ia fuel lf c g init r H E. destruct fuel as [|fuel]; [discriminate|]. unfold sd_find in E.
  cbn [sd_loop] in E. rewrite pure_bind in E. apply bind_ok in E as (g0 & _ & E). rewrite pure_bind in E. apply bind_ok in E as (la & _ & E). rewrite pure_bind in E. apply bind_ok in E as (e & _ & E).
  rewrite H in E. rewrite orb_true_r in E. injection E as <-. reflexivity.
Qed.

(** *** Exact arithmetic: the golden section *)
Open Scope R_scope.
Notation alongR := (along RMath).
(** The constant 0.382 is not the golden section, so the older of the two inner points moves away from where it should be; it never meets
    the other one because of the factor 103 of 0.618. [good]: the place of the older point, measured in the length of the interval from
    the end that is not next to the other point. *)
Definition good (a : R) : Prop := exists u v : Z, (v <> 0)%Z /\ a = IZR u / IZR v /\ ~ (103 | u)%Z /\ ((103 | v)%Z \/ (103 | u - v)%Z).
Lemma div103 u : (103 | 500 * u)%Z -> (103 | u)%Z.
Proof. intros [q E]. exists (48 * q - 233 * u)%Z. lia. Qed.
Lemma ndiv103 u v : ~ (103 | u)%Z -> ~ (103 | 309 * v - 500 * u)%Z /\ ~ (103 | 500 * u - 309 * v)%Z.
Proof. intro H. split; intros [q E]; apply H, div103; [exists (3 * v - q)%Z|exists (3 * v + q)%Z]; lia. Qed.
Lemma good_start : good (191 / 500).
Proof. exists 191%Z, 500%Z. repeat split; [lia|intros [q E]; lia|right; exists (-3)%Z; lia]. Qed.
Lemma good_apart a : good a -> a <> 309 / 500.
Proof.
  intros (u & v & Hv & -> & H & _) E. apply H, div103. assert (Rv : IZR v <> 0) by (apply not_0_IZR; exact Hv).
  assert (E' : 500 * IZR u = 309 * IZR v) by (apply (Rmult_eq_reg_r (/ IZR v / 500)); [|apply Rmult_integral_contrapositive_currified; [apply Rinv_neq_0_compat; exact Rv|lra]]; transitivity (IZR u / IZR v); [field; exact Rv|rewrite E; field; exact Rv]).
  rewrite <- !mult_IZR in E'. apply eq_IZR in E'. exists (3 * v)%Z. lia.
Qed.
Lemma good_1 a : good a -> a < 309 / 500 -> good (1 - a / (309 / 500)).
Proof.
  intros (u & v & Hv & -> & H & C) L. assert (Rv : IZR v <> 0) by (apply not_0_IZR; exact Hv). exists (309 * v - 500 * u)%Z, (309 * v)%Z.
  split; [lia|]. split; [rewrite minus_IZR, !mult_IZR; field; exact Rv|]. split; [apply ndiv103; exact H|]. left. exists (3 * v)%Z. lia.
Qed.
Lemma good_2 a : good a -> a < 309 / 500 -> good ((309 / 500 - a) / (1 - a)).
Proof.
  intros (u & v & Hv & Ea & H & C) L. assert (Rv : IZR v <> 0) by (apply not_0_IZR; exact Hv).
  assert (Hd : IZR v - IZR u <> 0) by (intro E; assert (a = 1) by (rewrite Ea; replace (IZR u) with (IZR v) by lra; field; exact Rv); lra).
  exists (309 * v - 500 * u)%Z, (500 * (v - u))%Z. split; [intro E; apply Hd; rewrite <- minus_IZR; apply (f_equal IZR) in E; rewrite mult_IZR in E; lra|].
  split; [rewrite Ea, minus_IZR, !mult_IZR, minus_IZR; field; repeat split; assumption|]. split; [apply ndiv103; exact H|].
  destruct C as [[q E]|[q E]]; [right; exists (-191 * q)%Z; lia|left; exists (-500 * q)%Z; lia].
Qed.
Lemma good_3 a : good a -> 309 / 500 < a -> good (1 - 309 / 500 / a).
Proof.
  intros (u & v & Hv & Ea & H & C) L. assert (Rv : IZR v <> 0) by (apply not_0_IZR; exact Hv). assert (Ru : IZR u <> 0) by (intro E; rewrite E in Ea; unfold Rdiv in Ea; lra).
  exists (500 * u - 309 * v)%Z, (500 * u)%Z. split; [intro E; apply Ru; apply (f_equal IZR) in E; rewrite mult_IZR in E; lra|].
  split; [rewrite Ea, minus_IZR, !mult_IZR; field; split; assumption|]. split; [apply ndiv103; exact H|]. right. exists (-3 * v)%Z. lia.
Qed.
Lemma good_4 a : good a -> 309 / 500 < a -> good ((a - 309 / 500) / (191 / 500)).
Proof.
  intros (u & v & Hv & Ea & H & C) L. assert (Rv : IZR v <> 0) by (apply not_0_IZR; exact Hv).
  exists (500 * u - 309 * v)%Z, (191 * v)%Z. split; [lia|]. split; [rewrite Ea, minus_IZR, !mult_IZR; field; exact Rv|]. split; [apply ndiv103; exact H|].
  destruct C as [[q E]|[q E]]; [left; exists (191 * q)%Z; lia|right; exists (500 * q)%Z; lia].
Qed.
(** The interval and its inner points, s left of t. *)
Inductive inner (l r s t : R) : Prop :=
| In_right a : 0 < a < 1 -> good a -> (s = r - 191 / 500 * (r - l) /\ t = l + a * (r - l) \/ t = r - 191 / 500 * (r - l) /\ s = l + a * (r - l)) -> l < r -> s < t -> inner l r s t
| In_left a : 0 < a < 1 -> good a -> (s = l + 191 / 500 * (r - l) /\ t = r - a * (r - l) \/ t = l + 191 / 500 * (r - l) /\ s = r - a * (r - l)) -> l < r -> s < t -> inner l r s t.
(** two points in either order *)
Definition inner2 (l r x y : R) : Prop := inner l r x y \/ inner l r y x.
Lemma inner_mirror l r s t : inner l r s t -> inner (- r) (- l) (- t) (- s).
Proof. intros [a Ha G C L S|a Ha G C L S]; [apply (In_left _ _ _ _ a)|apply (In_right _ _ _ _ a)]; try assumption; lra. Qed.
Lemma inner_bounds l r s t : inner l r s t -> l < s /\ s < t /\ t < r.
Proof. intros [a Ha G C L S|a Ha G C L S]; assert (0 < a * (r - l) < r - l) by nra; destruct C as [[E1 E2]|[E1 E2]]; subst; lra. Qed.
(** the part to the right of s *)
Lemma inner_right l r s t : inner l r s t -> let f := r - 191 / 500 * (r - s) in
  inner2 s r t f /\ forall s' t', inner s r s' t' -> (s' = t /\ t' = f \/ s' = f /\ t' = t) -> r - s' <= 309 / 500 * (r - l) /\ t' - s <= 309 / 500 * (r - l).
Proof.
  intros I f. pose proof (inner_bounds _ _ _ _ I) as (B1 & B2 & B3).
  assert (Mk : forall a, 0 < a < 1 -> good a -> t = s + a * (r - s) -> inner2 s r t f).
  { intros a Ha G E. pose proof (good_apart a G) as Ne. destruct (Rtotal_order t f) as [H|[H|H]].
    - left. apply (In_right _ _ _ _ a); auto. lra.
    - exfalso. apply Ne. unfold f in H. apply (Rmult_eq_reg_r (r - s)); lra.
    - right. apply (In_right _ _ _ _ a); auto. lra. }
  destruct I as [a Ha G C L S|a Ha G C L S]; assert (HA : 0 < a * (r - l) < r - l) by nra; set (w := r - l) in *; destruct C as [[Es Et]|[Et Es]].
  - (* s fresh at 0.618, t the older *) assert (La : 309 / 500 < a) by (apply (Rmult_lt_reg_r w); unfold w in *; lra). split.
    + apply (Mk ((a - 309 / 500) / (191 / 500))); [lra|apply good_4; assumption|]. subst s t. unfold w. field.
    + intros s' t' I' D. apply inner_bounds in I' as (? & ? & ?). unfold w in *. lra.
  - assert (La : a < 309 / 500) by (apply (Rmult_lt_reg_r w); unfold w in *; lra). split.
    + assert (0 < 1 - a) by lra. apply (Mk ((309 / 500 - a) / (1 - a))).
      * split; [apply Rmult_lt_0_compat; [lra|apply Rinv_0_lt_compat; lra]|]. apply (Rmult_lt_reg_r (1 - a)); [lra|]. unfold Rdiv at 1. rewrite Rmult_assoc, Rinv_l, Rmult_1_r by lra. lra.
      * apply good_2; assumption.
      * subst s t. unfold w. field. lra.
    + intros s' t' I' [[-> ->]|[-> ->]]; unfold f, w in *; apply inner_bounds in I' as (? & ? & ?); lra.
  - (* s fresh at 0.382 *) assert (La : a < 309 / 500) by (apply (Rmult_lt_reg_r w); unfold w in *; lra). split.
    + apply (Mk (1 - a / (309 / 500))).
      * lra.
      * apply good_1; assumption.
      * subst s t. unfold w. field.
    + intros s' t' I' D. apply inner_bounds in I' as (? & ? & ?). unfold w in *. lra.
  - (* t fresh at 0.382 *) assert (La : 309 / 500 < a) by (apply (Rmult_lt_reg_r w); unfold w in *; lra). split.
    + assert (P0 : 0 < 309 / 500 / a < 1). { split; [apply Rmult_lt_0_compat; [lra|apply Rinv_0_lt_compat; lra]|]. apply (Rmult_lt_reg_r a); [lra|]. unfold Rdiv at 1. rewrite Rmult_assoc, Rinv_l, Rmult_1_r by lra. lra. }
      apply (Mk (1 - 309 / 500 / a)).
      * lra.
      * apply good_3; assumption.
      * subst s t. unfold w. field. lra.
    + intros s' t' I' [[-> ->]|[-> ->]]; unfold f, w in *; apply inner_bounds in I' as (? & ? & ?); lra.
Qed.
Lemma inner_left l r s t : inner l r s t -> let f := l + 191 / 500 * (t - l) in
  inner2 l t s f /\ forall s' t', inner l t s' t' -> (s' = s /\ t' = f \/ s' = f /\ t' = s) -> t - s' <= 309 / 500 * (r - l) /\ t' - l <= 309 / 500 * (r - l).
Proof.
  intros I f. apply inner_mirror in I as J. destruct (inner_right _ _ _ _ J) as [J1 J2]. replace (- l - 191 / 500 * (- l - - t)) with (- f) in J1, J2 by (unfold f; lra).
  split.
  - destruct J1 as [J1|J1]; apply inner_mirror in J1; rewrite !Ropp_involutive in J1; [right|left]; exact J1.
  - intros s' t' I' D. apply inner_mirror in I'. destruct (J2 _ _ I') as [A B]; [destruct D as [[-> ->]|[-> ->]]; [right|left]; split; reflexivity|]. lra.
Qed.
(** A function of one variable that falls up to [m] and rises after it, between [lo] and [hi]. *)
Definition unimodal (phi : R -> R) (lo hi m : R) : Prop :=
  lo <= m <= hi /\ (forall u v, lo <= u -> u < v -> v <= m -> phi v < phi u) /\ (forall u v, m <= u -> u < v -> v <= hi -> phi u < phi v).
Section Golden.
Variables (f : list R -> R) (c : sd_cfg RMath) (p d : list R).
Hypothesis Hprec : 0 < sd_precision RMath c.
Notation fo := (fun v : list R => Ok (f v)).
Notation phi := (fun t => f (alongR t p d)).
Notation prec := (sd_precision RMath c).
(** W bounds the next interval *)
Definition wide (W l r x y : R) : Prop := forall s t, inner l r s t -> (s = x /\ t = y \/ s = y /\ t = x) -> r - s <= W /\ t - l <= W.
Lemma golden_step lo hi l r x y W fu : lo <= l -> r <= hi -> inner2 l r x y -> wide W l r x y -> exists l' r' x' y',
  l <= l' /\ r' <= r /\ inner2 l' r' x' y' /\ r' - l' <= W /\ wide (309 / 500 * (r - l)) l' r' x' y' /\
  (forall m, unimodal phi lo hi m -> l <= m <= r -> l' <= m <= r') /\
  pure RMath fo (sd_golden RMath false (S fu) c p d l r x y) = if R_ltb prec (r' - l') then pure RMath fo (sd_golden RMath false fu c p d l' r' x' y') else Ok ((l' + r') / 2).
Proof.
  intros Hlo Hhi I HW. assert (Ord : exists s t, inner l r s t /\ (s = x /\ t = y \/ s = y /\ t = x)) by (destruct I as [I|I]; [exists x, y|exists y, x]; auto). destruct Ord as (s & t & J & D).
  pose proof (inner_bounds _ _ _ _ J) as (B1 & B2 & B3). destruct (HW s t J D) as [W1 W2].
  assert (Fin : forall l' r' x' y', l' < r' -> (l' <> l \/ r' <> r) ->
    pure RMath fo (if n_eqb RMath l' l && n_eqb RMath r' r then Ret (n_div RMath (n_add RMath l' r') (two RMath)) else ask! a := lift (sd_abs RMath false (n_sub RMath l' r')) in
      if n_ltb RMath (sd_precision RMath c) a then sd_golden RMath false fu c p d l' r' x' y' else Ret (n_div RMath (n_add RMath l' r') (two RMath))) =
    if R_ltb prec (r' - l') then pure RMath fo (sd_golden RMath false fu c p d l' r' x' y') else Ok ((l' + r') / 2)).
  { intros l' r' x' y' Hlr Hne. change (n_eqb RMath) with R_eqb. unfold R_eqb. destruct (Req_EM_T l' l) as [E|E]; destruct (Req_EM_T r' r) as [E'|E']; cbn [andb]; try (exfalso; lra).
    all: cbn [sd_abs lift sbind]; change (m_abs RMath (n_sub RMath l' r')) with (Rabs (l' - r')); rewrite (Rabs_left1 (l' - r')) by lra; replace (- (l' - r')) with (r' - l') by lra;
      change (n_ltb RMath) with R_ltb; destruct (R_ltb prec (r' - l')); reflexivity. }
  destruct (inner_right _ _ _ _ J) as [R1 R2]. destruct (inner_left _ _ _ _ J) as [L1 L2]. cbn zeta in R1, R2, L1, L2.
  assert (UR : phi t < phi s -> forall m, unimodal phi lo hi m -> l <= m <= r -> s <= m <= r).
  { intros V m (_ & _ & Up) Hm. split; [|lra]. destruct (Rle_or_lt s m) as [|Hlt]; [assumption|]. specialize (Up s t ltac:(lra) B2 ltac:(lra)). cbn beta in Up. lra. }
  assert (UL : ~ phi t < phi s -> forall m, unimodal phi lo hi m -> l <= m <= r -> l <= m <= t).
  { intros V m (_ & Dn & _) Hm. split; [lra|]. destruct (Rle_or_lt m t) as [|Hlt]; [assumption|]. specialize (Dn s t ltac:(lra) B2 ltac:(lra)). cbn beta in Dn. lra. }
  cbn [sd_golden sbind ask_min pure bind signed xorb]. change (n_ltb RMath) with R_ltb. change (constriction RMath) with (382 / 1000). change (n_sub RMath) with Rminus. change (n_add RMath) with Rplus. change (n_mul RMath) with Rmult.
  assert (C382 : 382 / 1000 = 191 / 500) by lra.
  destruct D as [[<- <-]|[<- <-]].
  - replace (R_ltb s t) with true by (symmetry; apply R_ltb_true; exact B2). destruct (R_ltb (f (alongR t p d)) (f (alongR s p d))) eqn:V.
    + apply R_ltb_true in V. exists s, r, t, (r - 382 / 1000 * (r - s)). rewrite C382. split; [lra|]. split; [lra|]. split; [exact R1|]. split; [lra|]. split; [intros s' t' I' D'; apply (R2 s' t' I'); intuition|]. split; [exact (UR V)|]. apply Fin; [lra|left; apply Rgt_not_eq; lra].
    + apply R_ltb_false in V. exists l, t, (l + 382 / 1000 * (t - l)), s. rewrite C382. split; [lra|]. split; [lra|]. split; [destruct L1; [right|left]; assumption|]. split; [lra|]. split; [intros s' t' I' D'; apply (L2 s' t' I'); intuition|]. split; [apply UL; lra|]. apply Fin; [lra|right; apply Rlt_not_eq; lra].
  - replace (R_ltb t s) with false by (symmetry; apply R_ltb_false; lra). destruct (R_ltb (f (alongR t p d)) (f (alongR s p d))) eqn:V.
    + apply R_ltb_true in V. exists s, r, (r - 382 / 1000 * (r - s)), t. rewrite C382. split; [lra|]. split; [lra|]. split; [destruct R1; [right|left]; assumption|]. split; [lra|]. split; [intros s' t' I' D'; apply (R2 s' t' I'); intuition|]. split; [exact (UR V)|]. apply Fin; [lra|left; apply Rgt_not_eq; lra].
    + apply R_ltb_false in V. exists l, t, s, (l + 382 / 1000 * (t - l)). rewrite C382. split; [lra|]. split; [lra|]. split; [exact L1|]. split; [lra|]. split; [intros s' t' I' D'; apply (L2 s' t' I'); intuition|]. split; [apply UL; lra|]. apply Fin; [lra|right; apply Rlt_not_eq; lra].
Qed.
Lemma golden_ends lo hi : forall k l r x y W fuel, lo <= l -> r <= hi -> inner2 l r x y -> wide W l r x y -> (r - l) * (309 / 500) ^ k <= prec -> (2 * k < fuel)%nat ->
  exists la l' r', pure RMath fo (sd_golden RMath false fuel c p d l r x y) = Ok la /\ l <= l' /\ l' < r' /\ r' <= r /\ la = (l' + r') / 2 /\ r' - l' <= prec /\ (forall m, unimodal phi lo hi m -> l <= m <= r -> l' <= m <= r').
Proof.
  induction k as [|k IH]; intros l r x y W fuel Hlo Hhi I HW Hk Hf; destruct fuel as [|fuel]; try lia.
  - destruct (golden_step lo hi l r x y W fuel Hlo Hhi I HW) as (l1 & r1 & x1 & y1 & A1 & A2 & A3 & A4 & A5 & A6 & ->). exists ((l1 + r1) / 2), l1, r1.
    cbn [pow] in Hk. rewrite (proj2 (R_ltb_false _ _)) by lra. repeat split; try lra; try (apply A6; assumption). destruct A3 as [A3|A3]; apply inner_bounds in A3; lra.
  - destruct (golden_step lo hi l r x y W fuel Hlo Hhi I HW) as (l1 & r1 & x1 & y1 & A1 & A2 & A3 & A4 & A5 & A6 & ->).
    assert (Hlt : l1 < r1) by (destruct A3 as [A3|A3]; apply inner_bounds in A3; lra).
    destruct (R_ltb prec (r1 - l1)) eqn:E1; [|apply R_ltb_false in E1; exists ((l1 + r1) / 2), l1, r1; repeat split; try lra; apply A6; assumption].
    destruct fuel as [|fuel]; [lia|].
    destruct (golden_step lo hi l1 r1 x1 y1 _ fuel ltac:(lra) ltac:(lra) A3 A5) as (l2 & r2 & x2 & y2 & B1 & B2 & B3 & B4 & B5 & B6 & ->).
    assert (Hlt2 : l2 < r2) by (destruct B3 as [B3|B3]; apply inner_bounds in B3; lra).
    destruct (R_ltb prec (r2 - l2)) eqn:E2; [|apply R_ltb_false in E2; exists ((l2 + r2) / 2), l2, r2; repeat split; try lra; intros; apply B6; auto].
    destruct (IH l2 r2 x2 y2 (309 / 500 * (r1 - l1)) fuel) as (la & l' & r' & E & F1 & F2 & F3 & F4 & F5 & F6); try assumption; try lra; try lia.
    + cbn [pow] in Hk. pose proof (pow_lt (309 / 500) k ltac:(lra)). nra.
    + exists la, l', r'. repeat split; try lra; try assumption; intros; apply F6; auto.
Qed.
End Golden.
(** ** C62 The golden section always ends, with a multiplier of the direction between 0 and the border; if the objective function first falls
    and then rises along the direction up to the border, the result is within half the precision of its minimum (exact arithmetic, std::abs). *)
Theorem C62_golden_section : forall (c : sd_cfg RMath) (border : R), 0 < sd_precision RMath c -> 0 <= border ->
  exists K, forall (f : list R -> R) (p d : list R) (fuel : nat), (K <= fuel)%nat ->
  exists lambda, pure RMath (fun v => Ok (f v)) (sd_step_length RMath false fuel c p d border) = Ok lambda /\ 0 <= lambda <= border /\
    forall m, unimodal (fun t => f (alongR t p d)) 0 border m -> Rabs (lambda - m) <= sd_precision RMath c / 2.
Proof.
  intros c border Hp Hb. destruct (Req_dec border 0) as [->|Hb0].
  - exists 1%nat. intros f p d [|fuel] Hf; [lia|]. exists 0. split.
    + unfold sd_step_length. cbn [sd_golden sbind ask_min pure bind signed xorb]. change (zero RMath) with 0. change (constriction RMath) with (382 / 1000). change (n_sub RMath) with Rminus. change (n_add RMath) with Rplus. change (n_mul RMath) with Rmult.
      replace (0 + 382 / 1000 * (0 - 0)) with 0 by lra. replace (0 - 382 / 1000 * (0 - 0)) with 0 by lra. change (n_ltb RMath) with R_ltb.
      rewrite !(proj2 (R_ltb_false 0 0)) by lra. rewrite (proj2 (R_ltb_false _ _)) by (apply Rle_refl). change (n_eqb RMath) with R_eqb. unfold R_eqb. destruct (Req_EM_T 0 0) as [_|Ne]; [|exfalso; lra]. cbn [andb pure].
      unfold two. change (n_ofZ RMath 2) with 2. change (n_div RMath) with Rdiv. f_equal. lra.
    + split; [lra|]. intros m [Hm _]. replace (0 - m) with 0 by lra. rewrite Rabs_R0. lra.
  - assert (Hb1 : 0 < border) by lra. destruct (pow_lt_1_zero (309 / 500)) with (y := sd_precision RMath c / border) as [k Hk]; [rewrite Rabs_pos_eq; lra|apply Rdiv_lt_0_compat; assumption|].
    exists (S (2 * k)). intros f p d fuel Hf. specialize (Hk k (le_n k)). rewrite Rabs_pos_eq in Hk by (apply pow_le; lra).
    unfold sd_step_length. change (zero RMath) with 0. change (constriction RMath) with (382 / 1000). change (n_sub RMath) with Rminus. change (n_add RMath) with Rplus. change (n_mul RMath) with Rmult.
    assert (I : inner 0 border (0 + 382 / 1000 * (border - 0)) (border - 382 / 1000 * (border - 0))) by (apply (In_right _ _ _ _ (191 / 500)); [lra|exact good_start|right; split; lra|lra|lra]).
    destruct (golden_ends f c p d Hp 0 border k 0 border _ _ (border - 0) fuel (Rle_refl 0) (Rle_refl border) (or_introl I)) as (la & l' & r' & E & F1 & F2 & F3 & F4 & F5 & F6).
    + intros s t J _. apply inner_bounds in J. lra.
    + rewrite Rminus_0_r. apply (Rmult_lt_compat_l border) in Hk; [|lra]. assert (Ex : forall x, border * (x / border) = x) by (intro x; field; exact Hb0). rewrite Ex in Hk. lra.
    + lia.
    + exists la. split; [exact E|]. split; [lra|]. intros m U. specialize (F6 m U (proj1 U)). apply Rabs_le. lra.
Qed.
Example C62_golden_section_example : unimodal (fun t => (t - 1) * (t - 1)) 0 3 1.
Proof. split; [lra|]. split; intros u v; nra. Qed.

(** *** Exact arithmetic: the localisation of the minimum *)
Lemma along_0 t (p : list R) : alongR t p (repeat 0 (length p)) = p.
Proof. induction p as [|y p IH]; [reflexivity|]. unfold along in *. cbn [length repeat zip_with]. rewrite IH. apply (f_equal2 (@cons R)); [cbn; lra|reflexivity]. Qed.
Lemma border_dot t (p d : list R) : length p = length d -> m_sqrt RMath (sum_squares RMath (zip_with RMath (fun a b => n_sub RMath a b) (alongR t p d) p)) = Rabs t * sqrt (dot d d).
Proof.
  intro L. rewrite sum_squares_dot. change (m_sqrt RMath) with sqrt. replace (zip_with RMath (fun a b => n_sub RMath a b) (alongR t p d) p) with (map (fun x => t * x) d).
  - assert (D : forall v, dot (map (fun x => t * x) v) (map (fun x => t * x) v) = t * t * dot v v) by (induction v as [|x v IH]; cbn [map dot]; [lra|]; rewrite IH; lra).
    rewrite D, sqrt_mult by (try apply dot_pos; apply Rle_0_sqr). f_equal. apply sqrt_Rsqr_abs.
  - revert d L. induction p as [|x p IH]; intros [|y d] L; cbn in L; try discriminate; [reflexivity|]. unfold along in *. cbn [map zip_with]. apply (f_equal2 (@cons R)); [cbn; lra|]. apply IH. lia.
Qed.
(** ** C62 The border of the golden section is the distance to the end of the localised interval, not the multiplier of the direction that
    leads there; the multiplier is larger by a factor |direction| (exact arithmetic, both kinds of abs). *)
Theorem C62_border_refuted : forall (int_abs : bool) (lf : nat) (c : sd_cfg RMath) (f : list R -> R) (p d : list R) (step border : R), length p = length d ->
  pure RMath (fun v => Ok (f v)) (sd_localize RMath int_abs lf c p d step) = Ok border ->
  exists s s1, border = Rabs s * sqrt (dot d d) /\ s = s1 * golden RMath /\ f (alongR s1 p d) < f (alongR s p d).
Proof.
  intros ia lf c f p d step border L E. unfold sd_localize in E. rewrite pure_bind in E. apply bind_ok in E as (s0 & _ & E). rewrite pure_bind in E. apply bind_ok in E as (next & E1 & E). injection E as <-.
  assert (G : forall lf s, pure RMath (fun v => Ok (f v)) (sd_expand RMath lf p d s (alongR s p d)) = Ok next -> exists s1, next = alongR (s1 * golden RMath) p d /\ f (alongR s1 p d) < f next).
  { clear. induction lf as [|lf IH]; intros s E; [discriminate|]. cbn [sd_expand sbind ask_min pure bind signed xorb] in E. change (n_leb RMath) with R_leb in E. change (n_mul RMath s (golden RMath)) with (s * golden RMath) in E.
    destruct (R_leb (f (alongR (s * golden RMath) p d)) (f (alongR s p d))) eqn:Q; [apply (IH _ E)|]. injection E as <-. apply R_leb_false in Q. exists s. auto. }
  destruct (G _ _ E1) as (s1 & -> & V). exists (s1 * golden RMath), s1. split; [apply border_dot; exact L|]. split; [reflexivity|exact V].
Qed.
(** ** C62 The localisation: the step is halved until the function does not rise (or the step is not longer than the precision), then
    multiplied by (1 + sqrt 5)/2 until the function rises; the border is the distance to the point where it did (exact arithmetic, std::abs). *)
Theorem C62_localisation : forall (lf : nat) (c : sd_cfg RMath) (f : list R -> R) (p d : list R) (step border : R), length p = length d ->
  let phi t := f (alongR t p d) in let alpha := (1 + sqrt 5) / 2 in
  (pure RMath (fun v => Ok (f v)) (sd_localize RMath false lf c p d step) = Ok border <->
   exists i k, (i < lf)%nat /\ (k < lf)%nat /\ let s := step / 2 ^ i in
     (forall j, (j < i)%nat -> f p < phi (step / 2 ^ j) /\ sd_precision RMath c < Rabs (step / 2 ^ j)) /\
     (phi s <= f p \/ Rabs s <= sd_precision RMath c) /\
     (forall j, (j < k)%nat -> phi (s * alpha ^ S j) <= phi (s * alpha ^ j)) /\ phi (s * alpha ^ k) < phi (s * alpha ^ S k) /\
     border = Rabs (s * alpha ^ S k) * sqrt (dot d d)).
Proof.
  intros lf c f p d step border L phi alpha.
  assert (Ea : golden RMath = alpha) by reflexivity.
  assert (Sh : forall n t s, pure RMath (fun v => Ok (f v)) (sd_shrink RMath false n c p d (t * 2)) = Ok s <->
    exists i, (i < n)%nat /\ s = t / 2 ^ i /\ (forall j, (j < i)%nat -> f p < phi (t / 2 ^ j) /\ sd_precision RMath c < Rabs (t / 2 ^ j)) /\ (phi s <= f p \/ Rabs s <= sd_precision RMath c)).
  { induction n as [|n IH]; intros t s; [split; [discriminate|intros (i & Hi & _); lia]|].
    cbn [sd_shrink sbind ask_min pure bind signed xorb]. change (n_div RMath (t * 2) (two RMath)) with (t * 2 / 2).
    replace (t * 2 / 2) with t by field. change (n_ltb RMath) with R_ltb. change (sd_abs RMath false t) with (Ok (Rabs t)).
    assert (D0 : t / 2 ^ 0 = t) by (cbn; field). assert (DS : forall j, t / 2 ^ S j = t / 2 / 2 ^ j) by (intro j; cbn [pow]; field; apply pow_nonzero; lra).
    assert (Stop : (phi t <= f p \/ Rabs t <= sd_precision RMath c) -> (Ok t = Ok s <->
      exists i, (i < S n)%nat /\ s = t / 2 ^ i /\ (forall j, (j < i)%nat -> f p < phi (t / 2 ^ j) /\ sd_precision RMath c < Rabs (t / 2 ^ j)) /\ (phi s <= f p \/ Rabs s <= sd_precision RMath c))).
    { intro Hs. split.
      - intro X. injection X as <-. exists 0%nat. split; [lia|]. split; [symmetry; exact D0|]. split; [intros j Hj; lia|exact Hs].
      - intros ([|i] & Hi & -> & Hj & _); [rewrite D0; reflexivity|]. exfalso. specialize (Hj 0%nat ltac:(lia)). rewrite D0 in Hj. lra. }
    destruct (R_ltb (f p) (f (alongR t p d))) eqn:Q; [apply R_ltb_true in Q|apply R_ltb_false in Q; apply Stop; left; exact Q].
    cbn [lift sbind pure bind]. destruct (R_ltb (sd_precision RMath c) (Rabs t)) eqn:Q2; [apply R_ltb_true in Q2|apply R_ltb_false in Q2; apply Stop; right; exact Q2].
    replace t with (t / 2 * 2) at 1 by field. rewrite IH. split.
    - intros (i & Hi & -> & Hj & Hs). exists (S i). split; [lia|]. split; [rewrite DS; reflexivity|]. split; [|exact Hs].
      intros [|j] Hlt; [rewrite D0; auto|]. rewrite DS. apply Hj. lia.
    - intros ([|i] & Hi & -> & Hj & Hs); [rewrite D0 in Hs; change (phi t) with (f (alongR t p d)) in Hs; lra|]. exists i. split; [lia|]. rewrite DS in Hs |- *.
      split; [reflexivity|]. split; [|exact Hs]. intros j Hlt. rewrite <- DS. apply Hj. lia. }
  assert (Ex : forall n s next, pure RMath (fun v => Ok (f v)) (sd_expand RMath n p d s (alongR s p d)) = Ok next <->
    exists k, (k < n)%nat /\ next = alongR (s * alpha ^ S k) p d /\ (forall j, (j < k)%nat -> phi (s * alpha ^ S j) <= phi (s * alpha ^ j)) /\ phi (s * alpha ^ k) < phi (s * alpha ^ S k)).
  { induction n as [|n IH]; intros s next; [split; [discriminate|intros (i & Hi & _); lia]|].
    cbn [sd_expand sbind ask_min pure bind signed xorb]. rewrite Ea. change (n_leb RMath) with R_leb. change (n_mul RMath s alpha) with (s * alpha).
    assert (A0 : s * alpha ^ 0 = s) by (cbn; ring). assert (A1 : s * alpha ^ 1 = s * alpha) by (cbn; ring).
    assert (AS : forall j, s * alpha ^ S j = s * alpha * alpha ^ j) by (intro j; cbn [pow]; ring).
    destruct (R_leb (f (alongR (s * alpha) p d)) (f (alongR s p d))) eqn:Q; [apply R_leb_true in Q|apply R_leb_false in Q].
    - rewrite IH. split.
      + intros (k & Hk & -> & Hj & Hl). exists (S k). split; [lia|]. rewrite <- !AS in *. split; [reflexivity|]. split; [|exact Hl].
        intros [|j] Hlt; [rewrite A0, A1; exact Q|]. rewrite !(AS (S _)), (AS j). apply Hj. lia.
      + intros ([|k] & Hk & -> & Hj & Hl); [rewrite A0, A1 in Hl; unfold phi in Hl; lra|]. exists k. split; [lia|]. rewrite <- !AS. split; [reflexivity|].
        split; [|exact Hl]. intros j Hlt. rewrite <- !AS. apply Hj. lia.
    - split.
      + intro X. injection X as <-. exists 0%nat. split; [lia|]. rewrite A1, A0. split; [reflexivity|]. split; [intros j Hj; lia|exact Q].
      + intros ([|k] & Hk & -> & Hj & Hl); [rewrite A1; reflexivity|]. specialize (Hj 0%nat ltac:(lia)). rewrite A0, A1 in Hj. unfold phi in Hj. lra. }
  unfold sd_localize. change (n_mul RMath step (two RMath)) with (step * 2). rewrite pure_bind. split.
  - intro H. apply bind_ok in H as (s & Hs & H). rewrite pure_bind in H. apply bind_ok in H as (next & Hn & H). injection H as <-.
    apply Sh in Hs as (i & Hi & -> & Hj & Ht). apply Ex in Hn as (k & Hk & -> & Hm & Hl). exists i, k. split; [exact Hi|]. split; [exact Hk|]. cbv zeta.
    split; [exact Hj|]. split; [exact Ht|]. split; [exact Hm|]. split; [exact Hl|]. apply border_dot. exact L.
  - intros (i & k & Hi & Hk & Hj & Ht & Hm & Hl & ->). rewrite (proj2 (Sh lf step (step / 2 ^ i))) by (exists i; auto). cbn [bind]. rewrite pure_bind.
    rewrite (proj2 (Ex lf (step / 2 ^ i) (alongR (step / 2 ^ i * alpha ^ S k) p d))) by (exists k; auto). cbn [bind pure]. f_equal. apply border_dot. exact L.
Qed.
(** ** C62 Where the computed gradient is zero - at a minimum, for instance - the method never returns (exact arithmetic, both kinds of abs);
    nor does it for a constant function (any arithmetic). *)
Theorem C62_stationary_never_ends_refuted : forall (int_abs : bool) (fuel lf : nat) (c : sd_cfg RMath) (f : list R -> R) (init : list R),
  pure RMath (fun v => Ok (f v)) (sd_gradient RMath c init) = Ok (repeat 0 (length init)) ->
  pure RMath (fun v => Ok (f v)) (sd_find RMath int_abs fuel lf c init) = UB OutOfFuel.
Proof.
  intros ia [|fuel] lf c f init Hg; [reflexivity|]. unfold sd_find. cbn [sd_loop]. rewrite pure_bind, Hg. cbn [bind].
  assert (Ed : invert RMath (repeat 0 (length init)) = repeat 0 (length init)). { unfold invert. generalize (length init). induction n as [|n IH]; [reflexivity|]. cbn [repeat map]. rewrite IH. apply (f_equal2 (@cons R)); [cbn; lra|reflexivity]. }
  change (num RMath) with R in *. rewrite Ed, pure_bind. unfold sd_line, sd_localize. rewrite pure_bind, pure_bind. destruct lf as [|lf]; [reflexivity|].
  cbn [sd_shrink sbind ask_min pure bind signed xorb]. rewrite along_0. change (n_ltb RMath) with R_ltb. rewrite (proj2 (R_ltb_false _ _)) by apply Rle_refl. cbn [pure bind]. rewrite pure_bind.
  assert (G : forall k s, pure RMath (fun v => Ok (f v)) (sd_expand RMath k init (repeat 0 (length init)) s init) = UB OutOfFuel).
  { induction k as [|k IH]; intro s; [reflexivity|]. cbn [sd_expand sbind ask_min pure bind signed xorb]. rewrite along_0. change (n_leb RMath) with R_leb. rewrite (proj2 (R_leb_true _ _)) by apply Rle_refl. apply IH. }
  rewrite along_0. rewrite G. reflexivity.
Qed.
Theorem C62_constant_never_ends_refuted : forall (M : MNum) (int_abs : bool) (fuel lf : nat) (c : sd_cfg M) (k : num M) (init : list (num M)), n_leb M k k = true -> n_ltb M k k = false ->
  pure M (fun v => Ok k) (sd_find M int_abs fuel lf c init) = UB OutOfFuel.
Proof.
  intros M ia [|fuel] lf c k init Hle Hlt; [reflexivity|]. unfold sd_find. cbn [sd_loop]. rewrite pure_bind.
  pose proof (upto_pure M _ _ _ _ _ (fun _ => k) _ _ (gradient_upto M (length init) (fun _ => False) (fun _ => False) (sd_increment M c) (n_mul M (sd_increment M c) (n_div M (n_ofZ M 1) (two M))) init eq_refl)) as G.
  unfold sd_gradient. destruct (pure M (fun _ => Ok k) (gradient M (sd_increment M c) (n_mul M (sd_increment M c) (n_div M (n_ofZ M 1) (two M))) init)) as [g|e|u]; [|exact (match G with end)|exact (match G with end)]. cbn [bind].
  rewrite pure_bind. unfold sd_line, sd_localize. rewrite pure_bind, pure_bind. destruct lf as [|lf]; [reflexivity|]. cbn [sd_shrink sbind ask_min pure bind signed xorb]. rewrite Hlt. cbn [pure bind]. rewrite pure_bind.
  assert (E : forall m s q, pure M (fun _ => Ok k) (sd_expand M m init (invert M g) s q) = UB OutOfFuel).
  { induction m as [|m IH]; intros s q; [reflexivity|]. cbn [sd_expand sbind ask_min pure bind signed xorb]. rewrite Hle. apply IH. }
  rewrite E. reflexivity.
Qed.
(** ** C62 If abs is the function of the C library for int, the golden section stops after one step whenever the border is less than 1,
    at 0.309 or 0.691 of it, whatever the precision (exact arithmetic). *)
Theorem C62_int_abs_refuted : forall (c : sd_cfg RMath) (f : list R -> R) (p d : list R) (fuel : nat) (border : R), 0 <= sd_precision RMath c -> 0 < border < 1 -> (1 <= fuel)%nat ->
  let phi t := f (alongR t p d) in
  pure RMath (fun v => Ok (f v)) (sd_step_length RMath true fuel c p d border) = Ok (if R_ltb (phi (618 / 1000 * border)) (phi (382 / 1000 * border)) then 691 / 1000 * border else 309 / 1000 * border).
Proof.
  intros c f p d fuel border Hp Hb Hf phi. destruct fuel as [|fuel]; [lia|]. unfold sd_step_length. change (zero RMath) with 0. change (constriction RMath) with (382 / 1000). change (n_sub RMath) with Rminus. change (n_add RMath) with Rplus. change (n_mul RMath) with Rmult.
  replace (0 + 382 / 1000 * (border - 0)) with (382 / 1000 * border) by lra. replace (border - 382 / 1000 * (border - 0)) with (618 / 1000 * border) by lra.
  assert (Tr : forall l r : R, 0 <= l -> l < r -> r - l < 1 -> sd_abs RMath true (l - r) = Ok 0).
  { intros l r H0 H1 H2. unfold sd_abs. change (n_toint RMath) with (n_toint RNum). cbn [n_toint RNum]. replace (Raux.Ztrunc (l - r)) with 0%Z; [reflexivity|]. symmetry. rewrite Raux.Ztrunc_ceil by lra. apply Raux.Zceil_imp. cbn. lra. }
  assert (Nl : R_ltb (sd_precision RMath c) 0 = false) by (apply R_ltb_false; exact Hp).
  cbn [sd_golden sbind ask_min pure bind signed xorb]. change (n_ltb RMath) with R_ltb. rewrite (proj2 (R_ltb_true (382 / 1000 * border) _)) by lra. unfold phi.
  change (n_eqb RMath) with R_eqb. unfold R_eqb. change (n_sub RMath) with Rminus. change (n_add RMath) with Rplus. change (n_div RMath) with Rdiv. unfold two. change (n_ofZ RMath 2) with 2.
  destruct (R_ltb (f (alongR (618 / 1000 * border) p d)) (f (alongR (382 / 1000 * border) p d))).
  - destruct (Req_EM_T (382 / 1000 * border) 0) as [E|E]; [lra|]. cbn [andb]. rewrite Tr by lra. cbn [lift sbind]. rewrite Nl. cbn [pure]. f_equal. lra.
  - destruct (Req_EM_T 0 0) as [_|E]; [|lra]. destruct (Req_EM_T (618 / 1000 * border) border) as [E|E]; [lra|]. cbn [andb]. rewrite Tr by lra. cbn [lift sbind]. rewrite Nl. cbn [pure]. f_equal. lra.
Qed.

(** *** Binary64, with the default configuration *)
Definition C62_default : sd_cfg FMath := MkSd FMath (d_div (d_ofZ 1) (d_ofZ 100000)) 100 (d_div (d_ofZ 1) (d_ofZ 10000000000)).
Notation fpure g := (pure FMath (fun v : list dbl => Ok (g v : dbl))).
Definition first (v : list dbl) : dbl := nth 0 v (d_ofZ 0).
(** [k] iterations of the second loop of the localisation *)
Fixpoint expanded (gold : dbl) (g : list dbl -> dbl) (p d : list dbl) (k : nat) (s : dbl) (q : list dbl) : option (dbl * list dbl) :=
  match k with
  | O => Some (s, q)
  | S k => let s' := d_mul s gold in let q' := along FMath s' p d in if d_leb (g q') (g q) then expanded gold g p d k s' q' else None
  end.
Lemma expanded_fuel g p d : forall k lf s q s' q', expanded (golden FMath) g p d k s q = Some (s', q') -> (forall m, fpure g (sd_expand FMath m p d s' q') = UB OutOfFuel) -> fpure g (sd_expand FMath lf p d s q) = UB OutOfFuel.
Proof.
  induction k as [|k IH]; intros lf s q s' q' E H; cbn [expanded] in E; [injection E as <- <-; apply H|]. destruct lf as [|lf]; [reflexivity|]. cbn [sd_expand sbind ask_min pure bind signed xorb].
  change (n_leb FMath) with d_leb. change (n_mul FMath s (golden FMath)) with (d_mul s (golden FMath)). destruct (d_leb _ _); [|discriminate]. apply (IH lf _ _ _ _ E H).
Qed.
Definition runaway_check (p : list dbl) (o : outcome (list dbl)) : bool :=
  match o with
  | Ok g => let d := invert FMath g in let s := d_div (d_mul (d_ofZ 1) (two FMath)) (two FMath) in
      negb (d_ltb (first p) (first (along FMath s p d))) &&
      match expanded (golden FMath) first p d 1500 s (along FMath s p d) with
      | Some (B754_infinity false, [B754_infinity true]) => match d_mul (B754_infinity false) (golden FMath), along FMath (B754_infinity false : dbl) p d with B754_infinity false, [B754_infinity true] => true | _, _ => false end
      | _ => false
      end
  | _ => false
  end.
Lemma runaway c p o : fpure first (sd_gradient FMath c p) = o -> runaway_check p o = true -> forall (int_abs : bool) (fuel lf : nat), fpure first (sd_find FMath int_abs fuel lf c p) = UB OutOfFuel.
Proof.
  intros Ho E ia [|fuel] lf; [reflexivity|]. unfold runaway_check in E. cbv zeta in E.
  unfold sd_find. cbn [sd_loop]. rewrite pure_bind. change (num FMath) with dbl in *. rewrite Ho. destruct o as [g| |]; try discriminate. cbn [bind].
  set (d := invert FMath g) in *. apply andb_true_iff in E as [E1 E2]. apply negb_true_iff in E1.
  rewrite pure_bind. unfold sd_line, sd_localize. rewrite pure_bind, pure_bind. destruct lf as [|lf]; [reflexivity|]. cbn [sd_shrink sbind ask_min pure bind signed xorb].
  change (n_ltb FMath) with d_ltb. change (n_div FMath) with d_div. change (n_mul FMath) with d_mul. change (n_ofZ FMath) with d_ofZ. set (s := d_div (d_mul (d_ofZ 1) (two FMath)) (two FMath)) in *. clearbody s.
  rewrite E1. cbn [pure bind]. rewrite pure_bind.
  destruct (expanded (golden FMath) first p d 1500 s (along FMath s p d)) as [[s' q']|] eqn:X; [|discriminate E2].
  destruct s' as [|[]| |]; try discriminate E2. destruct q' as [|[|[]| |] [|]]; try discriminate E2.
  destruct (d_mul (B754_infinity false) (golden FMath)) as [|[]| |] eqn:Ei; try discriminate E2. destruct (along FMath (B754_infinity false : dbl) p d) as [|[|[]| |] [|]] eqn:Ea; try discriminate E2.
  assert (G : forall m, fpure first (sd_expand FMath m p d (B754_infinity false : dbl) [B754_infinity true : dbl]) = UB OutOfFuel).
  { induction m as [|m IH]; [reflexivity|]. cbn [sd_expand sbind ask_min pure bind signed xorb]. change (n_mul FMath) with d_mul.
    change (num FMath) with dbl in *. rewrite Ei, Ea. cbn [first nth]. change (n_leb FMath (B754_infinity true) (B754_infinity true)) with true. cbn iota. exact IH. }
  rewrite (expanded_fuel first p d 1500 (S lf) s (along FMath s p d) _ _ X G). reflexivity.
Qed.
(** ** C62 Binary64: minimising the linear function x from 0 never returns, since the objective ends up at -inf <= -inf forever. *)
Theorem C62_linear_never_ends_binary64_refuted : forall (int_abs : bool) (fuel lf : nat), fpure first (sd_find FMath int_abs fuel lf C62_default [d_ofZ 0]) = UB OutOfFuel.
Proof. intros. apply (runaway _ _ _ eq_refl). vm_compute. reflexivity. Qed.
(** ** C62 Binary64: starting at the minimum of x^2 returns the start with std::abs and is undefined behaviour (the cast of a NaN) with ::abs(int). *)
Definition square (v : list dbl) : dbl := d_mul (first v) (first v).
Theorem C62_start_at_minimum_binary64 : (exists r, fpure square (sd_find FMath false 1 1500 C62_default [d_ofZ 0]) = Ok [r] /\ d_eqb r (d_ofZ 0) = true) /\
  fpure square (sd_find FMath true 1 1500 C62_default [d_ofZ 0]) = UB BadCast.
Proof.
  split.
  - assert (E : match fpure square (sd_find FMath false 1 1500 C62_default [d_ofZ 0]) with Ok [r] => d_eqb r (d_ofZ 0) | _ => false end = true) by (vm_compute; reflexivity).
    destruct (fpure square (sd_find FMath false 1 1500 C62_default [d_ofZ 0])) as [[|r [|]]| |]; try discriminate E. exists r. auto.
  - assert (E : match fpure square (sd_find FMath true 1 1500 C62_default [d_ofZ 0]) with UB BadCast => true | _ => false end = true) by (vm_compute; reflexivity).
    destruct (fpure square (sd_find FMath true 1 1500 C62_default [d_ofZ 0])) as [| |[]]; try discriminate E. reflexivity.
Qed.
(** ** C62 Binary64: the line search is not exact. For x^2/8 from 1 the minimum along the direction is at the multiplier 4 (up to the error of the
    differences), the localisation ends at 6.85, but the border is 1.71 and the result is less than 2. *)
Theorem C62_line_search_binary64_refuted : exists g la, let f := fun v : list dbl => d_div (d_mul (first v) (first v)) (d_ofZ 8) in let p := [d_ofZ 1] in
  fpure f (sd_gradient FMath C62_default p) = Ok g /\ fpure f (sd_line FMath false 100 C62_default p (d_ofZ 1) (invert FMath g)) = Ok la /\
  d_ltb la (d_ofZ 2) = true /\ d_ltb (f (along FMath (d_ofZ 4) p (invert FMath g))) (f (along FMath la p (invert FMath g))) = true.
Proof.
  set (f := fun v : list dbl => d_div (d_mul (first v) (first v)) (d_ofZ 8)).
  assert (E : match fpure f (sd_gradient FMath C62_default [d_ofZ 1]) with Ok g => match fpure f (sd_line FMath false 100 C62_default [d_ofZ 1] (d_ofZ 1) (invert FMath g)) with
    Ok la => d_ltb la (d_ofZ 2) && d_ltb (f (along FMath (d_ofZ 4) [d_ofZ 1] (invert FMath g))) (f (along FMath la [d_ofZ 1] (invert FMath g))) | _ => false end | _ => false end = true) by (vm_compute; reflexivity).
  destruct (fpure f (sd_gradient FMath C62_default [d_ofZ 1])) as [g| |] eqn:E1; try discriminate E. destruct (fpure f (sd_line FMath false 100 C62_default [d_ofZ 1] (d_ofZ 1) (invert FMath g))) as [la| |] eqn:E2; try discriminate E.
  apply andb_true_iff in E as [E3 E4]. exists g, la. auto.
Qed.
(** ** C62 Binary64 with the default configuration: minimising (x-3)^2 from 0 returns 0, the start, because the first step finds the minimum;
    with ::abs(int) the steps are worse and the result is near 2.996. *)
Definition square3 (v : list dbl) : dbl := d_mul (d_sub (first v) (d_ofZ 3)) (d_sub (first v) (d_ofZ 3)).
Theorem C62_perfect_step_binary64_refuted :
  (exists r, fpure square3 (sd_find FMath false 1 100 C62_default [d_ofZ 0]) = Ok [r] /\ d_eqb r (d_ofZ 0) = true) /\
  (exists r, fpure square3 (sd_find FMath true 100 100 C62_default [d_ofZ 0]) = Ok [r] /\ d_ltb (d_div (d_ofZ 2995) (d_ofZ 1000)) r = true /\ d_ltb r (d_div (d_ofZ 2996) (d_ofZ 1000)) = true).
Proof.
  split.
  - assert (E : match fpure square3 (sd_find FMath false 1 100 C62_default [d_ofZ 0]) with Ok [r] => d_eqb r (d_ofZ 0) | _ => false end = true) by (vm_compute; reflexivity).
    destruct (fpure square3 (sd_find FMath false 1 100 C62_default [d_ofZ 0])) as [[|r [|]]| |]; try discriminate E. exists r. auto.
  - assert (E : match fpure square3 (sd_find FMath true 100 100 C62_default [d_ofZ 0]) with Ok [r] => d_ltb (d_div (d_ofZ 2995) (d_ofZ 1000)) r && d_ltb r (d_div (d_ofZ 2996) (d_ofZ 1000)) | _ => false end = true) by (vm_compute; reflexivity).
    destruct (fpure square3 (sd_find FMath true 100 100 C62_default [d_ofZ 0])) as [[|r [|]]| |]; try discriminate E. exists r. apply andb_true_iff in E as [E1 E2]. auto.
Qed.

Print Assumptions C62_evaluations.
Print Assumptions C62_evaluations_int_abs.
Print Assumptions C62_limit.
Print Assumptions C62_previous_point_refuted.
Print Assumptions C62_one_iteration_refuted.
Print Assumptions C62_golden_section.
Print Assumptions C62_border_refuted.
Print Assumptions C62_stationary_never_ends_refuted.
Print Assumptions C62_constant_never_ends_refuted.
Print Assumptions C62_int_abs_refuted.
Print Assumptions C62_linear_never_ends_binary64_refuted.
Print Assumptions C62_start_at_minimum_binary64.
Print Assumptions C62_line_search_binary64_refuted.
Print Assumptions C62_perfect_step_binary64_refuted.
