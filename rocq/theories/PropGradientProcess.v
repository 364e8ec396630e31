(** C77: the runs of the conjugate gradient and the steepest descent methods, round by round (exact arithmetic, any function). *)
From Coq Require Import Reals Psatz.
From Verif Require Import Base Num Optim PropOptim Hooke PropHooke NelderMead PropNelderMead Rosenbrock PropRosenbrock Gradient PropGradient PropSteepest.
Local Open Scope list_scope.
Local Open Scope R_scope.

(** *** Specification, independent of the model *)
(** the point [p + t*d] *)
Definition moved (t : R) (p d : list R) : list R := map (fun ab => fst ab + t * snd ab) (combine p d).
(** [p] with [t] added to coordinate [i] *)
Definition nudged (p : list R) (i : nat) (t : R) : list R := map (fun j => if Nat.eqb j i then nth j p 0 + t else nth j p 0) (seq 0 (length p)).
Definition norm2 (v : list R) : R := fold_right (fun x s => x * x + s) 0 v.
Definition norm (v : list R) : R := sqrt (norm2 v).

Section Spec.
Variable f : list R -> R.
(** the gradient by central differences of width [h] *)
Definition grad (h : R) (p : list R) : list R := map (fun i => (f (nudged p i (h / 2)) - f (nudged p i (- (h / 2)))) / h) (seq 0 (length p)).
(** Newton's iteration for a stationary point of the function along [d] from [p], with differences instead of derivatives *)
Definition newton (h : R) (p d : list R) (x : R) : R := let phi t := f (moved t p d) in
  x - (phi (x + h / 2) - phi (x - h / 2)) / h / ((phi (x + h / 2) - 2 * phi x + phi (x - h / 2)) / (h * h / 4)).
(** it starts from 0 and its result is the first iterate that is within the precision of the one before *)
Definition line_end (h precision : R) (p d : list R) (x : R) : Prop :=
  exists j, let it i := Nat.iter i (newton h p d) 0 in
    x = it (S j) /\ Rabs (it j - it (S j)) <= precision /\ forall i, (i < j)%nat -> precision < Rabs (it i - it (S i)).

(** The rounds of the conjugate gradient method (Fletcher and Reeves) from point [p] in direction [d], [i] the number that is compared with the
    limit after the round: the way it ends. *)
Inductive conjugate (h precision : R) (limit : Z) : Z -> list R -> list R -> outcome (list R) -> Prop :=
| cj_flat i p d x : line_end h precision p d x -> norm2 (grad h p) < 1 / 10 ^ 10 -> conjugate h precision limit i p d (Throw RuntimeError)
| cj_stop i p d x q : line_end h precision p d x -> q = moved x p d -> 1 / 10 ^ 10 <= norm2 (grad h p) ->
    i = limit \/ norm (grad h q) < precision -> conjugate h precision limit i p d (Ok q)
| cj_next i p d x q o : line_end h precision p d x -> q = moved x p d -> 1 / 10 ^ 10 <= norm2 (grad h p) ->
    i <> limit -> precision <= norm (grad h q) ->
    conjugate h precision limit (i + 1) q (moved (norm2 (grad h q) / norm2 (grad h p)) (grad h q) d) o -> conjugate h precision limit i p d o.

(** Steepest descent. Localisation: the step is halved until the function does not rise or the step is not longer than the precision, then
    multiplied by the golden ratio until the function rises; the border is the distance from [p] to the last point. *)
Definition localised (precision : R) (p d : list R) (step border : R) : Prop :=
  let phi t := f (moved t p d) in let alpha := (1 + sqrt 5) / 2 in
  exists i k, let s := step / 2 ^ i in
    (forall j, (j < i)%nat -> f p < phi (step / 2 ^ j) /\ precision < Rabs (step / 2 ^ j)) /\
    (phi s <= f p \/ Rabs s <= precision) /\
    (forall j, (j < k)%nat -> phi (s * alpha ^ S j) <= phi (s * alpha ^ j)) /\ phi (s * alpha ^ k) < phi (s * alpha ^ S k) /\
    border = Rabs (s * alpha ^ S k) * norm d.
(** The section of the interval [l, r] with two inner points [x], [y] (in any order): the part beyond the worse of them is dropped (the left part
    only if the right point is strictly better) and a new inner point is put at 0.382 of the rest, from its other end. *)
Inductive section (phi : R -> R) (precision : R) : R -> R -> R -> R -> R -> Prop :=
| se_right_end l r x y : phi (Rmax x y) < phi (Rmin x y) -> (Rmin x y = l \/ Rabs (Rmin x y - r) <= precision) ->
    section phi precision l r x y ((Rmin x y + r) / 2)
| se_right l r x y z : phi (Rmax x y) < phi (Rmin x y) -> Rmin x y <> l -> precision < Rabs (Rmin x y - r) ->
    section phi precision (Rmin x y) r (Rmax x y) (r - 382 / 1000 * (r - Rmin x y)) z -> section phi precision l r x y z
| se_left_end l r x y : phi (Rmin x y) <= phi (Rmax x y) -> (Rmax x y = r \/ Rabs (l - Rmax x y) <= precision) ->
    section phi precision l r x y ((l + Rmax x y) / 2)
| se_left l r x y z : phi (Rmin x y) <= phi (Rmax x y) -> Rmax x y <> r -> precision < Rabs (l - Rmax x y) ->
    section phi precision l (Rmax x y) (Rmin x y) (l + 382 / 1000 * (Rmax x y - l)) z -> section phi precision l r x y z.
(** The rounds: down the gradient by a multiple found by the section of [0, border]; the result is the point BEFORE the last move. *)
Inductive descent (h precision : R) (limit : Z) : Z -> list R -> R -> list R -> Prop :=
| de_stop i p step d border x : d = map Ropp (grad h p) -> localised precision p d step border ->
    section (fun t => f (moved t p d)) precision 0 border (382 / 1000 * border) (border - 382 / 1000 * border) x ->
    norm (grad h (moved x p d)) <= precision \/ i = limit -> descent h precision limit i p step p
| de_next i p step d border x r : d = map Ropp (grad h p) -> localised precision p d step border ->
    section (fun t => f (moved t p d)) precision 0 border (382 / 1000 * border) (border - 382 / 1000 * border) x ->
    precision < norm (grad h (moved x p d)) -> i <> limit -> descent h precision limit (i + 1) (moved x p d) x r -> descent h precision limit i p step r.
End Spec.

(** *** The model's helpers are these *)
Lemma along_moved t : forall p d : list R, alongR t p d = moved t p d.
Proof. induction p as [|a p IH]; intros [|b d]; try reflexivity. unfold moved in *. cbn [combine map fst snd]. rewrite <- IH. reflexivity. Qed.
Lemma norm2_dot v : norm2 v = dot v v.
Proof. unfold norm2. induction v as [|x v IH]; [reflexivity|]. cbn in *. rewrite IH. reflexivity. Qed.
Lemma sum_squares_norm2 v : Gradient.sum_squares RMath v = norm2 v.
Proof. rewrite norm2_dot. apply sum_squares_dot. Qed.
Lemma upd_nudged (p : list R) i t : (i < length p)%nat -> upd p i (nth i p 0 + t) = nudged p i t.
Proof.
  intro Hi. apply nth_ext with (d := 0) (d' := 0); [unfold nudged; rewrite upd_length, map_length, seq_length; reflexivity|]. intros j Hj. rewrite upd_length in Hj.
  assert (Rhs : nth j (nudged p i t) 0 = if Nat.eqb j i then nth j p 0 + t else nth j p 0).
  { unfold nudged. set (g := fun j0 => if Nat.eqb j0 i then nth j0 p 0 + t else nth j0 p 0). rewrite (nth_indep _ 0 (g 0%nat)) by (rewrite map_length, seq_length; exact Hj).
    rewrite map_nth, seq_nth by exact Hj. reflexivity. }
  rewrite Rhs.
  destruct (Nat.eqb_spec j i) as [->|N].
  - apply nth_error_nth. rewrite nth_error_upd, Nat.eqb_refl. rewrite (proj2 (Nat.ltb_lt _ _) Hi). reflexivity.
  - destruct (nth_error p j) as [y|] eqn:E; [|apply nth_error_None in E; lia]. rewrite (nth_error_nth p j 0 E). apply nth_error_nth. rewrite nth_error_upd.
    destruct (Nat.eqb_spec i j); [congruence|exact E].
Qed.

Section Runs.
Variable f : list R -> R.
Notation fo := (fun v : list R => Ok (f v)).
Lemma pure_gradient h half (p : list R) : half = h / 2 -> pure RMath fo (gradient RMath h half p) = Ok (grad f h p).
Proof.
  intro Eh. unfold gradient, grad. assert (G : forall todo i, (i + todo = length p)%nat -> pure RMath fo (gradient_from RMath h half p i todo) =
    Ok (map (fun i => (f (nudged p i (h / 2)) - f (nudged p i (- (h / 2)))) / h) (seq i todo))); [|exact (G (length p) 0%nat eq_refl)].
  induction todo as [|todo IH]; intros i E; [reflexivity|]. cbn [gradient_from seq map]. rewrite pure_bind. unfold derivative, at_. rewrite (nth_error_nth' p 0) by lia.
  cbn [lift sbind ask_min pure bind signed xorb]. rewrite pure_bind, IH by lia. cbn [bind pure].
  change (n_add RMath) with Rplus. change (n_sub RMath) with Rminus. change (n_div RMath) with Rdiv. unfold Rminus at 2.
  change (num RMath) with R in *. rewrite !upd_nudged by lia. subst half. reflexivity.
Qed.
Lemma line_S c (p d : list R) lf x0 : pure RMath fo (cg_line RMath (S lf) c p d x0) = let x1 := newton f (cg_increment RMath c) p d x0 in
  if R_ltb (cg_precision RMath c) (Rabs (x0 - x1)) then pure RMath fo (cg_line RMath lf c p d x1) else Ok x1.
Proof.
  cbn [cg_line sbind ask_min pure bind signed xorb]. change (num RMath) with R in *. rewrite !along_moved. unfold newton. 
  change (n_ltb RMath) with R_ltb. change (m_abs RMath) with Rabs. change (n_add RMath) with Rplus. change (n_sub RMath) with Rminus. change (n_div RMath) with Rdiv. change (n_mul RMath) with Rmult. change (two RMath) with 2. change (n_ofZ RMath 4) with 4.
  cbv zeta. match goal with |- context [if ?b then _ else _] => destruct b end; reflexivity.
Qed.
Lemma pure_line c (p d : list R) : forall lf x0 x, pure RMath fo (cg_line RMath lf c p d x0) = Ok x <->
  exists j, (j < lf)%nat /\ let it i := Nat.iter i (newton f (cg_increment RMath c) p d) x0 in
    x = it (S j) /\ Rabs (it j - it (S j)) <= cg_precision RMath c /\ forall i, (i < j)%nat -> cg_precision RMath c < Rabs (it i - it (S i)).
Proof.
  induction lf as [|lf IH]; intros x0 x; [split; [discriminate|intros (j & Hj & _); lia]|].
  rewrite line_S. cbv zeta. set (x1 := newton f (cg_increment RMath c) p d x0). assert (E1 : x1 = newton f (cg_increment RMath c) p d x0) by reflexivity. clearbody x1.
  assert (Sh : forall i, Nat.iter (S i) (newton f (cg_increment RMath c) p d) x0 = Nat.iter i (newton f (cg_increment RMath c) p d) x1).
  { induction i as [|i IHi]; [symmetry; exact E1|]. change (newton f (cg_increment RMath c) p d (Nat.iter (S i) (newton f (cg_increment RMath c) p d) x0) = newton f (cg_increment RMath c) p d (Nat.iter i (newton f (cg_increment RMath c) p d) x1)). rewrite IHi. reflexivity. }
  destruct (R_ltb (cg_precision RMath c) (Rabs (x0 - x1))) eqn:Q; [apply R_ltb_true in Q|apply R_ltb_false in Q].
  - rewrite IH. cbv zeta. split.
    + intros (j & Hj & E & A & B). exists (S j). split; [lia|]. rewrite !Sh. split; [exact E|]. split; [exact A|]. intros [|i] Hi; [rewrite Sh; exact Q|]. rewrite !Sh. apply B. lia.
    + intros ([|j] & Hj & E & A & B); [rewrite Sh in A; cbn [Nat.iter nat_rect] in A; exfalso; unfold Nat.iter in A; cbn in A; lra|]. rewrite !Sh in *. exists j. split; [lia|]. split; [exact E|]. split; [exact A|].
      intros i Hi. rewrite <- !Sh. apply B. lia.
  - split.
    + intro X. injection X as <-. exists 0%nat. split; [lia|]. cbv zeta. rewrite Sh. split; [reflexivity|]. split; [exact Q|]. intros i Hi. lia.
    + intros (j & Hj & E & A & B). cbv zeta in *. destruct j as [|j]; [rewrite Sh in E; cbn in E; rewrite E; reflexivity|]. exfalso. specialize (B 0%nat ltac:(lia)). rewrite Sh in B. cbn in B. lra.
Qed.

(** *** Conjugate gradient *)
Lemma line_fuel c (p d : list R) x : line_end f (cg_increment RMath c) (cg_precision RMath c) p d x <-> exists lf, forall lf', (lf <= lf')%nat -> pure RMath fo (cg_line RMath lf' c p d 0) = Ok x.
Proof.
  split.
  - intros (j & H). exists (S j). intros lf' L. apply pure_line. exists j. split; [lia|exact H].
  - intros (lf & H). specialize (H lf (le_n _)). apply pure_line in H as (j & _ & H). exists j. exact H.
Qed.
Lemma line_cases c (p d : list R) lf x0 : (exists x, pure RMath fo (cg_line RMath lf c p d x0) = Ok x) \/ pure RMath fo (cg_line RMath lf c p d x0) = UB OutOfFuel.
Proof.
  revert x0; induction lf as [|lf IH]; intro x0; [right; reflexivity|]. rewrite line_S. cbv zeta.
  match goal with |- context [if ?b then _ else _] => destruct b end; [apply IH|left; eexists; reflexivity].
Qed.
Lemma flat_spec v : nearly_zero RMath (norm2 v) = R_ltb (norm2 v) (1 / 10 ^ 10).
Proof. rewrite nearly_zero_spec by (rewrite norm2_dot; apply dot_pos). f_equal. field. Qed.
Lemma conj_sound lf c : forall fuel (p prev : list R) w it o, o <> UB OutOfFuel -> (1 <= it)%Z ->
  pure RMath fo (cg_loop RMath fuel lf c p (grad f (cg_increment RMath c) p) prev w it) = o ->
  conjugate f (cg_increment RMath c) (cg_precision RMath c) (cg_iterations RMath c) (it + 1) p (cg_direction RMath (grad f (cg_increment RMath c) p) prev w it) o.
Proof.
  induction fuel as [|fuel IH]; intros p prev w it o Ho Hit H; [exfalso; apply Ho; rewrite <- H; reflexivity|]. cbn [cg_loop] in H. cbv zeta in H.
  set (h := cg_increment RMath c) in *. set (d := cg_direction RMath (grad f h p) prev w it) in *. change (zero RMath) with 0 in H. rewrite pure_bind in H.
  destruct (line_cases c p d lf 0) as [[x Hx]|Hx]; [|exfalso; apply Ho; rewrite <- H, Hx; reflexivity]. rewrite Hx in H. cbn [bind] in H.
  assert (Le : line_end f h (cg_precision RMath c) p d x) by (apply pure_line in Hx as (j & _ & Hx); exists j; exact Hx).
  rewrite pure_bind in H. unfold cg_gradient in H. rewrite along_moved in H. rewrite pure_gradient in H by reflexivity. cbn [bind] in H. fold h in H. set (q := moved x p d) in *.
  rewrite pure_bind in H. unfold cg_weight in H. rewrite !sum_squares_norm2, flat_spec in H.
  destruct (R_ltb (norm2 (grad f h p)) (1 / 10 ^ 10)) eqn:Q; [apply R_ltb_true in Q|apply R_ltb_false in Q]; cbn [pure bind] in H.
  - subst o. apply cj_flat with x; assumption.
  - change (n_div RMath (norm2 (grad f h q)) (norm2 (grad f h p))) with (norm2 (grad f h q) / norm2 (grad f h p)) in H. change (m_sqrt RMath (norm2 (grad f h q))) with (norm (grad f h q)) in H.
    destruct (Z.eqb_spec (it + 1) (cg_iterations RMath c)) as [E|E].
    + subst o. apply cj_stop with x; auto.
    + change (n_leb RMath) with R_leb in H. destruct (R_leb (cg_precision RMath c) (norm (grad f h q))) eqn:Q2; [apply R_leb_true in Q2|apply R_leb_false in Q2].
      * apply cj_next with x q; auto. apply IH in H; [|exact Ho|lia]. unfold cg_direction in H. rewrite (proj2 (Z.ltb_lt 1 (it + 1)) ltac:(lia)) in H.
        rewrite <- along_moved. exact H.
      * subst o. apply cj_stop with x; auto.
Qed.
Lemma conj_complete c i (p d : list R) o : conjugate f (cg_increment RMath c) (cg_precision RMath c) (cg_iterations RMath c) i p d o ->
  forall prev w, (2 <= i)%Z -> d = cg_direction RMath (grad f (cg_increment RMath c) p) prev w (i - 1) ->
  exists m, forall fuel lf, (m <= fuel)%nat -> (m <= lf)%nat -> pure RMath fo (cg_loop RMath fuel lf c p (grad f (cg_increment RMath c) p) prev w (i - 1)) = o.
Proof.
  set (h := cg_increment RMath c).
  assert (One : forall p d prev w i x m, line_end f h (cg_precision RMath c) p d x -> d = cg_direction RMath (grad f h p) prev w (i - 1) ->
    (forall lf', (m <= lf')%nat -> pure RMath fo (cg_line RMath lf' c p d 0) = Ok x) -> forall fuel lf, (m <= lf)%nat ->
    pure RMath fo (cg_loop RMath (S fuel) lf c p (grad f h p) prev w (i - 1)) =
    if R_ltb (norm2 (grad f h p)) (1 / 10 ^ 10) then Throw RuntimeError else let q := moved x p d in
    if (i =? cg_iterations RMath c)%Z then Ok q else if R_leb (cg_precision RMath c) (norm (grad f h q)) then
      pure RMath fo (cg_loop RMath fuel lf c q (grad f h q) d (norm2 (grad f h q) / norm2 (grad f h p)) i) else Ok q).
  { intros p0 d0 prev w i0 x m Le Ed Hm fuel lf L. cbn [cg_loop]. cbv zeta. rewrite <- Ed. change (zero RMath) with 0. rewrite pure_bind. change (num RMath) with R in *. rewrite (Hm lf L). cbn [bind].
    rewrite pure_bind. unfold cg_gradient. rewrite along_moved. rewrite pure_gradient by reflexivity. cbn [bind]. fold h. rewrite pure_bind. unfold cg_weight. rewrite !sum_squares_norm2, flat_spec.
    destruct (R_ltb (norm2 (grad f h p0)) (1 / 10 ^ 10)); [reflexivity|]. cbn [pure bind]. replace (i0 - 1 + 1)%Z with i0 by lia.
    destruct (i0 =? cg_iterations RMath c)%Z; [reflexivity|]. change (n_leb RMath) with R_leb. change (m_sqrt RMath (norm2 (grad f h (moved x p0 d0)))) with (norm (grad f h (moved x p0 d0))).
    destruct (R_leb (cg_precision RMath c) (norm (grad f h (moved x p0 d0)))); reflexivity. }
  intro H. induction H as [i p d x Le Fl|i p d x q Le Eq Nf En|i p d x q o Le Eq Nf Ni Ge H IH]; intros prev w Hi Ed;
    destruct (proj1 (line_fuel c p d x) Le) as [m Hm].
  - exists (S m). intros [|fuel] lf Lf Ll; [lia|]. rewrite (One p d prev w i x m Le Ed Hm) by lia. rewrite (proj2 (R_ltb_true _ _) Fl). reflexivity.
  - exists (S m). intros [|fuel] lf Lf Ll; [lia|]. rewrite (One p d prev w i x m Le Ed Hm) by lia. rewrite (proj2 (R_ltb_false _ _) Nf). cbv zeta. rewrite <- Eq.
    destruct (Z.eqb_spec i (cg_iterations RMath c)) as [E|E]; [reflexivity|]. destruct En as [En|En]; [contradiction|]. rewrite (proj2 (R_leb_false _ _) En). reflexivity.
  - destruct (IH d (norm2 (grad f h q) / norm2 (grad f h p)) ltac:(lia)) as [m' Hm'].
    { unfold cg_direction. rewrite (proj2 (Z.ltb_lt 1 (i + 1 - 1)) ltac:(lia)). symmetry. apply along_moved. }
    exists (S (m + m')). intros [|fuel] lf Lf Ll; [lia|]. rewrite (One p d prev w i x m Le Ed Hm) by lia. rewrite (proj2 (R_ltb_false _ _) Nf). cbv zeta. rewrite <- Eq.
    destruct (Z.eqb_spec i (cg_iterations RMath c)) as [E|E]; [contradiction|]. rewrite (proj2 (R_leb_true _ _) Ge). replace i with (i + 1 - 1)%Z at 1 by lia. apply Hm'; lia.
Qed.
Lemma cg_find_spec c (init : list R) o : conjugate f (cg_increment RMath c) (cg_precision RMath c) (cg_iterations RMath c) 2 init (grad f (cg_increment RMath c) init) o <->
  o <> UB OutOfFuel /\ exists m, forall fuel lf, (m <= fuel)%nat -> (m <= lf)%nat -> pure RMath fo (cg_find RMath fuel lf c init) = o.
Proof.
  assert (E : forall fuel lf, pure RMath fo (cg_find RMath fuel lf c init) = pure RMath fo (cg_loop RMath fuel lf c init (grad f (cg_increment RMath c) init) (repeat 0 (length init)) 0 1)).
  { intros fuel lf. unfold cg_find. rewrite pure_bind. unfold cg_gradient. rewrite pure_gradient by reflexivity. reflexivity. }
  split.
  - intro H. split; [clear -H; induction H; [discriminate|discriminate|assumption]|].
    destruct (conj_complete c 2 init _ o H (repeat 0 (length init)) 0 ltac:(lia)) as [m Hm]; [reflexivity|]. exists m. intros fuel lf A B. rewrite E. apply Hm; assumption.
  - intros [Ho (m & Hm)]. specialize (Hm m m (le_n _) (le_n _)). rewrite E in Hm. apply conj_sound in Hm; [exact Hm|exact Ho|lia].
Qed.
(** *** Steepest descent *)
Lemma localised_spec c (p d : list R) step border : length p = length d ->
  (localised f (sd_precision RMath c) p d step border <-> exists m, forall lf, (m <= lf)%nat -> pure RMath fo (sd_localize RMath false lf c p d step) = Ok border).
Proof.
  intro L. split.
  - intros (i & k & H). exists (S (i + k)). intros lf Hl. apply C62_localisation; [exact L|]. exists i, k. split; [lia|]. split; [lia|]. cbv zeta in *.
    setoid_rewrite along_moved. unfold norm in H. rewrite norm2_dot in H. exact H.
  - intros (m & H). specialize (H m (le_n _)). apply C62_localisation in H; [|exact L]. destruct H as (i & k & _ & _ & H). exists i, k. cbv zeta in *.
    setoid_rewrite along_moved in H. unfold norm. rewrite norm2_dot. exact H.
Qed.
Lemma localize_cases c (p d : list R) step lf : length p = length d ->
  (exists border, pure RMath fo (sd_localize RMath false lf c p d step) = Ok border /\ localised f (sd_precision RMath c) p d step border) \/ pure RMath fo (sd_localize RMath false lf c p d step) = UB OutOfFuel.
Proof.
  intro L. destruct (pure RMath fo (sd_localize RMath false lf c p d step)) as [b|e|u] eqn:E.
  - left. exists b. split; [reflexivity|]. apply C62_localisation in E; [|exact L]. destruct E as (i & k & _ & _ & H). exists i, k. cbv zeta in *. setoid_rewrite along_moved in H. unfold norm. rewrite norm2_dot. exact H.
  - exfalso. assert (U : upto (N := RMath) (fun v : list R => length v = length p) (fun _ : R => True) (fun _ => False) (fun u => u = OutOfFuel) (2 * lf + (2 * lf + 0)) (sd_localize RMath false lf c p d step)).
    { unfold sd_localize. apply (upto_bind (N := RMath) _ _ _ _ _ (fun _ : R => True)); [|apply (shrink_upto RMath false (fun u => u = OutOfFuel)); cbn; auto].
      intros s _. apply (upto_bind (N := RMath) _ _ _ _ _ (fun v : list R => length v = length p)); [|apply (expand_upto RMath (fun u => u = OutOfFuel)); cbn; auto; apply (along_length RMath); exact L].
      intros a Ha. cbn. exact Logic.I. }
    apply (upto_pure RMath _ _ _ _ _ f) in U. change (num RMath) with R in *. rewrite E in U. exact U.
  - right. assert (U : upto (N := RMath) (fun v : list R => length v = length p) (fun _ : R => True) (fun _ => False) (fun u => u = OutOfFuel) (2 * lf + (2 * lf + 0)) (sd_localize RMath false lf c p d step)).
    { unfold sd_localize. apply (upto_bind (N := RMath) _ _ _ _ _ (fun _ : R => True)); [|apply (shrink_upto RMath false (fun u => u = OutOfFuel)); cbn; auto].
      intros s _. apply (upto_bind (N := RMath) _ _ _ _ _ (fun v : list R => length v = length p)); [|apply (expand_upto RMath (fun u => u = OutOfFuel)); cbn; auto; apply (along_length RMath); exact L].
      intros a Ha. cbn. exact Logic.I. }
    apply (upto_pure RMath _ _ _ _ _ f) in U. change (num RMath) with R in *. rewrite E in U. rewrite U. reflexivity.
Qed.

Notation phi p d := (fun t => f (moved t p d)).
(** one pass of the section *)
Lemma golden_S c (p d : list R) fuel l r x y : pure RMath fo (sd_golden RMath false (S fuel) c p d l r x y) =
  let a := Rmin x y in let b := Rmax x y in
  if R_ltb (phi p d b) (phi p d a) then
    (if R_eqb a l || negb (R_ltb (sd_precision RMath c) (Rabs (a - r))) then Ok ((a + r) / 2)
     else if R_ltb x y then pure RMath fo (sd_golden RMath false fuel c p d a r b (r - 382 / 1000 * (r - a)))
     else pure RMath fo (sd_golden RMath false fuel c p d a r (r - 382 / 1000 * (r - a)) b))
  else
    (if R_eqb b r || negb (R_ltb (sd_precision RMath c) (Rabs (l - b))) then Ok ((l + b) / 2)
     else if R_ltb x y then pure RMath fo (sd_golden RMath false fuel c p d l b (l + 382 / 1000 * (b - l)) a)
     else pure RMath fo (sd_golden RMath false fuel c p d l b a (l + 382 / 1000 * (b - l)))).
Proof.
  cbn [sd_golden sbind ask_min pure bind signed xorb]. change (num RMath) with R in *. rewrite !along_moved.
  change (n_ltb RMath) with R_ltb. change (n_eqb RMath) with R_eqb. change (n_add RMath) with Rplus. change (n_sub RMath) with Rminus. change (n_div RMath) with Rdiv. change (n_mul RMath) with Rmult. change (two RMath) with 2.
  change (constriction RMath) with (382 / 1000). cbv zeta.
  assert (Refl : forall t, R_eqb t t = true) by (intro t; apply R_eqb_true; reflexivity).
  assert (Ab : forall t, sd_abs RMath false t = Ok (Rabs t)) by reflexivity.
  destruct (R_ltb x y) eqn:Q; [apply R_ltb_true in Q; rewrite Rmin_left, Rmax_right by lra|apply R_ltb_false in Q; rewrite Rmin_right, Rmax_left by lra].
  - destruct (R_ltb (f (moved y p d)) (f (moved x p d))); cbv iota beta; rewrite Refl.
    + rewrite andb_true_r. destruct (R_eqb x l); [reflexivity|]. cbn [orb]. rewrite Ab. cbn [lift sbind]. destruct (R_ltb (sd_precision RMath c) (Rabs (x - r))); reflexivity.
    + rewrite andb_true_l. destruct (R_eqb y r); [reflexivity|]. cbn [orb]. rewrite Ab. cbn [lift sbind]. destruct (R_ltb (sd_precision RMath c) (Rabs (l - y))); reflexivity.
  - destruct (R_ltb (f (moved x p d)) (f (moved y p d))); cbv iota beta; rewrite Refl.
    + rewrite andb_true_r. destruct (R_eqb y l); [reflexivity|]. cbn [orb]. rewrite Ab. cbn [lift sbind]. destruct (R_ltb (sd_precision RMath c) (Rabs (y - r))); reflexivity.
    + rewrite andb_true_l. destruct (R_eqb x r); [reflexivity|]. cbn [orb]. rewrite Ab. cbn [lift sbind]. destruct (R_ltb (sd_precision RMath c) (Rabs (l - x))); reflexivity.
Qed.
Lemma section_swap ph prec l r x y z : section ph prec l r x y z -> section ph prec l r y x z.
Proof.
  intro H. destruct H as [l r x y H1 H2|l r x y z H1 H2 H3 H4|l r x y H1 H2|l r x y z H1 H2 H3 H4];
    rewrite (Rmin_comm x y), ?(Rmax_comm x y) in *;
    [apply se_right_end|apply se_right|apply se_left_end|apply se_left]; assumption.
Qed.
Lemma section_sound c (p d : list R) : forall fuel l r x y z, pure RMath fo (sd_golden RMath false fuel c p d l r x y) = Ok z -> section (phi p d) (sd_precision RMath c) l r x y z.
Proof.
  induction fuel as [|fuel IH]; intros l r x y z H; [discriminate|]. rewrite golden_S in H. cbv zeta in H.
  destruct (R_ltb (phi p d (Rmax x y)) (phi p d (Rmin x y))) eqn:Q; [apply R_ltb_true in Q|apply R_ltb_false in Q].
  - destruct (R_eqb (Rmin x y) l) eqn:Q2; [apply R_eqb_true in Q2; injection H as <-; apply se_right_end; auto|].
    assert (Q2' : Rmin x y <> l) by (intro X; apply R_eqb_true in X; congruence).
    destruct (R_ltb (sd_precision RMath c) (Rabs (Rmin x y - r))) eqn:Q3; [apply R_ltb_true in Q3|apply R_ltb_false in Q3; injection H as <-; apply se_right_end; auto].
    cbn [orb negb] in H. destruct (R_ltb x y); apply IH in H; apply se_right; auto. apply section_swap. exact H.
  - destruct (R_eqb (Rmax x y) r) eqn:Q2; [apply R_eqb_true in Q2; injection H as <-; apply se_left_end; auto|].
    assert (Q2' : Rmax x y <> r) by (intro X; apply R_eqb_true in X; congruence).
    destruct (R_ltb (sd_precision RMath c) (Rabs (l - Rmax x y))) eqn:Q3; [apply R_ltb_true in Q3|apply R_ltb_false in Q3; injection H as <-; apply se_left_end; auto].
    cbn [orb negb] in H. destruct (R_ltb x y); apply IH in H; apply se_left; auto. apply section_swap. exact H.
Qed.
Lemma section_complete c (p d : list R) l r x y z : section (phi p d) (sd_precision RMath c) l r x y z ->
  exists m, forall fuel, (m <= fuel)%nat -> pure RMath fo (sd_golden RMath false fuel c p d l r x y) = Ok z /\ pure RMath fo (sd_golden RMath false fuel c p d l r y x) = Ok z.
Proof.
  intro H. induction H as [l r x y H1 H2|l r x y z H1 H2 H3 H4 IH|l r x y H1 H2|l r x y z H1 H2 H3 H4 IH].
  - exists 1%nat. intros [|fuel] L; [lia|]. rewrite !golden_S. cbv zeta. rewrite (Rmin_comm y x), (Rmax_comm y x). rewrite (proj2 (R_ltb_true _ _) H1).
    destruct H2 as [H2|H2]; [rewrite (proj2 (R_eqb_true _ _) H2)|rewrite (proj2 (R_ltb_false _ _) H2), orb_true_r]; auto.
  - destruct IH as [m Hm]. exists (S m). intros [|fuel] L; [lia|]. rewrite !golden_S. cbv zeta. rewrite (Rmin_comm y x), (Rmax_comm y x). rewrite (proj2 (R_ltb_true _ _) H1), (proj2 (R_ltb_true _ _) H3).
    destruct (R_eqb (Rmin x y) l) eqn:Q; [apply R_eqb_true in Q; contradiction|]. cbn [orb negb]. destruct (Hm fuel ltac:(lia)) as [A B]. destruct (R_ltb x y), (R_ltb y x); auto.
  - exists 1%nat. intros [|fuel] L; [lia|]. rewrite !golden_S. cbv zeta. rewrite (Rmin_comm y x), (Rmax_comm y x). rewrite (proj2 (R_ltb_false _ _) H1).
    destruct H2 as [H2|H2]; [rewrite (proj2 (R_eqb_true _ _) H2)|rewrite (proj2 (R_ltb_false _ _) H2), orb_true_r]; auto.
  - destruct IH as [m Hm]. exists (S m). intros [|fuel] L; [lia|]. rewrite !golden_S. cbv zeta. rewrite (Rmin_comm y x), (Rmax_comm y x). rewrite (proj2 (R_ltb_false _ _) H1), (proj2 (R_ltb_true _ _) H3).
    destruct (R_eqb (Rmax x y) r) eqn:Q; [apply R_eqb_true in Q; contradiction|]. cbn [orb negb]. destruct (Hm fuel ltac:(lia)) as [A B]. destruct (R_ltb x y), (R_ltb y x); auto.
Qed.
Lemma golden_cases c (p d : list R) : forall fuel l r x y, (exists z, pure RMath fo (sd_golden RMath false fuel c p d l r x y) = Ok z) \/ pure RMath fo (sd_golden RMath false fuel c p d l r x y) = UB OutOfFuel.
Proof.
  induction fuel as [|fuel IH]; intros l r x y; [right; reflexivity|]. rewrite golden_S. cbv zeta.
  destruct (R_ltb _ (f (moved (Rmin x y) p d))); match goal with |- context [if ?b then Ok _ else _] => destruct b end; try (left; eexists; reflexivity); destruct (R_ltb x y); apply IH.
Qed.
Lemma invert_opp (g : list R) : invert RMath g = map Ropp g.
Proof. unfold invert. apply map_ext. intro a. change (a * -1 = - a). ring. Qed.
Lemma grad_length h p : length (grad f h p) = length p.
Proof. unfold grad. rewrite map_length, seq_length. reflexivity. Qed.
Lemma moved_length t (p d : list R) : length p = length d -> length (moved t p d) = length p.
Proof. intro L. unfold moved. rewrite map_length, combine_length. lia. Qed.
(** one round *)
Lemma descent_S c fuel lf (p : list R) step n : let h := sd_increment RMath c in let prec := sd_precision RMath c in let d := map Ropp (grad f h p) in
  pure RMath fo (sd_loop RMath false (S fuel) lf c p step n) =
  let! border := pure RMath fo (sd_localize RMath false lf c p d step) in
  let! x := pure RMath fo (sd_golden RMath false lf c p d 0 border (382 / 1000 * border) (border - 382 / 1000 * border)) in
  if negb (R_ltb prec (norm (grad f h (moved x p d)))) || (n + 1 =? sd_iterations RMath c)%Z then Ok p
  else pure RMath fo (sd_loop RMath false fuel lf c (moved x p d) x (n + 1)).
Proof.
  intros h prec d. cbn [sd_loop]. rewrite pure_bind. unfold sd_gradient at 1. rewrite pure_gradient by (change (h * (1 / 2) = h / 2); field). cbn [bind]. cbv zeta.
  rewrite pure_bind, invert_opp. fold h. fold d. unfold sd_line. rewrite pure_bind. change (num RMath) with R in *.
  match goal with |- bind (bind ?L _) _ = bind ?L' _ => change L' with L; destruct L as [border|e|u]; [|reflexivity|reflexivity] end. cbn [bind]. unfold sd_step_length.
  change (zero RMath) with 0. change (constriction RMath) with (382 / 1000).
  replace (n_add RMath 0 (n_mul RMath (382 / 1000) (n_sub RMath border 0))) with (382 / 1000 * border) by (cbn; ring).
  replace (n_sub RMath border (n_mul RMath (382 / 1000) (n_sub RMath border 0))) with (border - 382 / 1000 * border) by (cbn; ring).
  match goal with |- bind ?L _ = bind ?L' _ => change L' with L; destruct L as [x|e|u]; [|reflexivity|reflexivity] end. cbn [bind].
  rewrite pure_bind. unfold sd_exit. rewrite pure_bind. unfold sd_gradient. rewrite along_moved. rewrite pure_gradient by (change (h * (1 / 2) = h / 2); field). cbn [bind pure]. rewrite sum_squares_norm2.
  fold h. change (n_ltb RMath) with R_ltb. change (m_sqrt RMath (norm2 (grad f h (moved x p d)))) with (norm (grad f h (moved x p d))). fold prec.
  match goal with |- context [if ?b then _ else _] => destruct b end; reflexivity.
Qed.
Lemma dir_length h (p : list R) : length p = length (map Ropp (grad f h p)).
Proof. rewrite map_length, grad_length. reflexivity. Qed.
Lemma descent_sound c lf : forall fuel (p : list R) step n o, o <> UB OutOfFuel -> pure RMath fo (sd_loop RMath false fuel lf c p step n) = o ->
  exists r, o = Ok r /\ descent f (sd_increment RMath c) (sd_precision RMath c) (sd_iterations RMath c) (n + 1) p step r.
Proof.
  induction fuel as [|fuel IH]; intros p step n o Ho H; [exfalso; apply Ho; rewrite <- H; reflexivity|]. rewrite descent_S in H. cbv zeta in H.
  set (h := sd_increment RMath c) in *. set (d := map Ropp (grad f h p)) in *.
  destruct (localize_cases c p d step lf (dir_length h p)) as [(border & Hb & Lb)|Hb]; [|exfalso; apply Ho; rewrite <- H, Hb; reflexivity]. rewrite Hb in H. cbn [bind] in H.
  destruct (golden_cases c p d lf 0 border (382 / 1000 * border) (border - 382 / 1000 * border)) as [[x Hx]|Hx]; [|exfalso; apply Ho; rewrite <- H, Hx; reflexivity]. rewrite Hx in H. cbn [bind] in H.
  apply section_sound in Hx. destruct (R_ltb (sd_precision RMath c) (norm (grad f h (moved x p d)))) eqn:Q; [apply R_ltb_true in Q|apply R_ltb_false in Q]; cbn [negb orb] in H.
  - destruct (Z.eqb_spec (n + 1) (sd_iterations RMath c)) as [E|E].
    + exists p. split; [symmetry; exact H|]. apply de_stop with d border x; auto.
    + apply IH in H as (r & Er & H); [|exact Ho]. exists r. split; [exact Er|]. apply de_next with d border x; auto.
  - exists p. split; [symmetry; exact H|]. apply de_stop with d border x; auto.
Qed.
Lemma descent_complete c i (p : list R) step r : descent f (sd_increment RMath c) (sd_precision RMath c) (sd_iterations RMath c) i p step r ->
  exists m, forall fuel lf, (m <= fuel)%nat -> (m <= lf)%nat -> pure RMath fo (sd_loop RMath false fuel lf c p step (i - 1)) = Ok r.
Proof.
  intro H. induction H as [i p step d border x Ed Hl Hs Hend|i p step d border x r Ed Hl Hs Hgo Hn H IH];
    (apply localised_spec in Hl as [m1 H1]; [|subst d; apply dir_length]); apply section_complete in Hs as [m2 H2].
  - exists (S (m1 + m2)). intros [|fuel] lf Lf Ll; [lia|]. rewrite descent_S. cbv zeta. rewrite <- Ed. change (num RMath) with R in *. rewrite H1 by lia. cbn [bind]. rewrite (proj1 (H2 lf ltac:(lia))). cbn [bind].
    replace (i - 1 + 1)%Z with i by lia. destruct Hend as [Hend|Hend]; [rewrite (proj2 (R_ltb_false _ _) Hend); reflexivity|]. rewrite (proj2 (Z.eqb_eq _ _) Hend), orb_true_r. reflexivity.
  - destruct IH as [m3 H3]. exists (S (m1 + m2 + m3)). intros [|fuel] lf Lf Ll; [lia|]. rewrite descent_S. cbv zeta. rewrite <- Ed. change (num RMath) with R in *. rewrite H1 by lia. cbn [bind]. rewrite (proj1 (H2 lf ltac:(lia))). cbn [bind].
    replace (i - 1 + 1)%Z with i by lia. rewrite (proj2 (R_ltb_true _ _) Hgo), (proj2 (Z.eqb_neq _ _) Hn). cbn [negb orb]. replace i with (i + 1 - 1)%Z at 1 by lia. apply H3; lia.
Qed.
End Runs.

(** the function to minimise *)
Definition aim (f : list R -> R) (mx : bool) (v : list R) : R := if mx then - f v else f v.
(** Optimize on an array of parameters, for a search that asks only at points of the right size. *)
Lemma optimize_pure X O b (f : list R -> R) mx (find : list R -> search RMath (list R)) (p : list R) :
  upto (N := RMath) (fun v : list R => length v = length p) (fun v : list R => length v = length p) X O b (find p) ->
  exists q log, optimize RMath (list R) (arr_set RMath) (arr_get RMath) (arr_check RMath) (fun v => Ok (f v)) mx find p =
    (omap (fun _ => tt) (pure RMath (fun v => Ok (aim f mx v)) (find p)), q, log) /\
    forall v, pure RMath (fun v => Ok (aim f mx v)) (find p) = Ok v -> q = v.
Proof.
  intro U. set (n := length p) in U.
  assert (G : forall A (Q : A -> Prop) (s : search RMath A) b0 p0 log, length p0 = n -> upto (N := RMath) (fun v : list R => length v = n) Q X O b0 s ->
    exists q l, run RMath (list R) (arr_set RMath) (arr_get RMath) (arr_check RMath) (fun v => Ok (f v)) mx s p0 log = (pure RMath (fun v => Ok (aim f mx v)) s, q, l) /\ length q = n /\
      match pure RMath (fun v => Ok (aim f mx v)) s with Ok a => Q a | _ => True end).
  { intros A Q. induction s as [a|m v k IH|e|u]; intros b0 p0 log Lp H; cbn [run pure upto] in *; eauto 6.
    destruct m; [destruct H|]. destruct b0 as [|b0]; [destruct H|]. destruct H as [Lv H]. unfold count_value, arr_set, arr_get, arr_check. change (num RMath) with R in *. rewrite Lp, Lv, Nat.eqb_refl. cbn [bind].
    replace (signed RMath mx false (f v)) with (aim f mx v : R) by (destruct mx; unfold aim, signed, negate; [change (- f v = -1 * f v); ring|reflexivity]).
    apply (IH _ b0); [exact Lv|apply H]. }
  destruct (G _ _ (find p) b p [] eq_refl U) as (q & l & Hr & Lq & HQ). unfold optimize.
  match type of Hr with ?x = _ => match goal with |- context [match ?y with _ => _ end] => change y with x end end. rewrite Hr.
  destruct (pure RMath _ (find p)) as [v|e|u]; [|exists q, l; split; [reflexivity|discriminate]..].
  unfold arr_set. change (num RMath) with R in *. rewrite HQ, Lq, Nat.eqb_refl. exists v, l. split; [reflexivity|]. intros v0 E. injection E as ->. reflexivity.
Qed.

(** *** C77 Conjugate gradient: a call of Optimize ends with [Ok] or an exception exactly as the rounds say; the result is stored. *)
Notation call find f mx p := (optimize RMath (list R) (arr_set RMath) (arr_get RMath) (arr_check RMath) (fun v => Ok (f v)) mx find p).

Theorem C77_conjugate_gradient : forall c (f : list R -> R) mx (p : list R), let h := cg_increment RMath c in
  (forall q, (exists fuel lf log, call (cg_find RMath fuel lf c) f mx p = (Ok tt, q, log)) <->
     conjugate (aim f mx) h (cg_precision RMath c) (cg_iterations RMath c) 2 p (grad (aim f mx) h p) (Ok q)) /\
  (forall e, (exists fuel lf q log, call (cg_find RMath fuel lf c) f mx p = (Throw e, q, log)) <->
     conjugate (aim f mx) h (cg_precision RMath c) (cg_iterations RMath c) 2 p (grad (aim f mx) h p) (Throw e)).
Proof.
  intros c f mx p h.
  assert (U : forall fuel lf, exists q log, call (cg_find RMath fuel lf c) f mx p = (omap (fun _ => tt) (pure RMath (fun v => Ok (aim f mx v)) (cg_find RMath fuel lf c p)), q, log) /\
    forall v, pure RMath (fun v => Ok (aim f mx v)) (cg_find RMath fuel lf c p) = Ok v -> q = v).
  { intros fuel lf. eapply optimize_pure. apply (cg_find_upto RMath fuel lf c p). }
  assert (Snd : forall fuel lf o, o <> UB OutOfFuel -> pure RMath (fun v => Ok (aim f mx v)) (cg_find RMath fuel lf c p) = o ->
    conjugate (aim f mx) h (cg_precision RMath c) (cg_iterations RMath c) 2 p (grad (aim f mx) h p) o).
  { intros fuel lf o Ho H. unfold cg_find in H. rewrite pure_bind in H. unfold cg_gradient in H. rewrite (pure_gradient (aim f mx)) in H by reflexivity. cbn [bind] in H. apply conj_sound in H; [exact H|exact Ho|lia]. }
  split.
  - intro q. split.
    + intros (fuel & lf & log & H). destruct (U fuel lf) as (q' & log' & E & Eq). rewrite E in H. destruct (pure RMath _ (cg_find RMath fuel lf c p)) as [v|e|u] eqn:P; [|discriminate..].
      injection H as <- <-. rewrite (Eq v eq_refl). apply (Snd fuel lf); [discriminate|exact P].
    + intro H. apply cg_find_spec in H as [_ (m & H)]. specialize (H m m (le_n _) (le_n _)). destruct (U m m) as (q' & log' & E & Eq). exists m, m, log'. rewrite <- (Eq q H) in *. etransitivity; [exact E|]. f_equal. f_equal. exact (f_equal (omap (fun _ => tt)) H).
  - intro e. split.
    + intros (fuel & lf & q & log & H). destruct (U fuel lf) as (q' & log' & E & Eq). rewrite E in H. destruct (pure RMath _ (cg_find RMath fuel lf c p)) as [v|e'|u] eqn:P; [discriminate| |discriminate].
      injection H as -> _ _. apply (Snd fuel lf); [discriminate|exact P].
    + intro H. apply cg_find_spec in H as [_ (m & H)]. specialize (H m m (le_n _) (le_n _)). destruct (U m m) as (q' & log' & E & Eq). exists m, m, q', log'. etransitivity; [exact E|]. f_equal. f_equal. exact (f_equal (omap (fun _ => tt)) H).
Qed.
Print Assumptions C77_conjugate_gradient.
(** *** C77 Steepest descent (std::abs): a call of Optimize ends normally exactly as the rounds say, the result is stored, and there is no other end. *)
Theorem C77_steepest_descent : forall c (f : list R -> R) mx (p q : list R),
  ((exists fuel lf log, call (sd_find RMath false fuel lf c) f mx p = (Ok tt, q, log)) <->
   descent (aim f mx) (sd_increment RMath c) (sd_precision RMath c) (sd_iterations RMath c) 1 p 1 q) /\
  forall fuel lf e q' log, call (sd_find RMath false fuel lf c) f mx p <> (Throw e, q', log).
Proof.
  intros c f mx p q.
  assert (U : forall fuel lf, exists q log, call (sd_find RMath false fuel lf c) f mx p = (omap (fun _ => tt) (pure RMath (fun v => Ok (aim f mx v)) (sd_find RMath false fuel lf c p)), q, log) /\
    forall v, pure RMath (fun v => Ok (aim f mx v)) (sd_find RMath false fuel lf c p) = Ok v -> q = v).
  { intros fuel lf. eapply optimize_pure. unfold sd_find. apply (sd_loop_upto RMath false (fun u => u = OutOfFuel) eq_refl); [intro x; exact Logic.I|reflexivity]. }
  split; [split|].
  - intros (fuel & lf & log & H). destruct (U fuel lf) as (q' & log' & E & Eq). rewrite E in H. destruct (pure RMath _ (sd_find RMath false fuel lf c p)) as [v|e|u] eqn:P; [|discriminate..].
    injection H as <- <-. rewrite (Eq v eq_refl). unfold sd_find in P. apply descent_sound in P as (r & Er & P); [|discriminate]. injection Er as <-. exact P.
  - intro H. apply descent_complete in H as (m & H). specialize (H m m (le_n _) (le_n _)). change (pure RMath (fun v => Ok (aim f mx v)) (sd_find RMath false m m c p) = Ok q) in H.
    destruct (U m m) as (q' & log' & E & Eq). exists m, m, log'. rewrite <- (Eq q H) in *. etransitivity; [exact E|]. f_equal. f_equal. exact (f_equal (omap (fun _ => tt)) H).
  - intros fuel lf e q' log H. destruct (U fuel lf) as (q1 & log1 & E & Eq). rewrite E in H. destruct (pure RMath _ (sd_find RMath false fuel lf c p)) as [v|e'|u] eqn:P; [discriminate| |discriminate].
    unfold sd_find in P. apply descent_sound in P as (r & Er & P); [discriminate|discriminate].
Qed.
Print Assumptions C77_steepest_descent.

(** *** C77 The descriptions determine the end. *)
Lemma line_end_unique f h e p d x x' : line_end f h e p d x -> line_end f h e p d x' -> x = x'.
Proof.
  intros (j & E & A & B) (j' & E' & A' & B'). cbv zeta in *. destruct (Nat.lt_trichotomy j j') as [L|[->|L]]; [|congruence|].
  - specialize (B' j L). lra.
  - specialize (B j' L). lra.
Qed.
Theorem C77_conjugate_determined : forall f h e limit i p d o o', conjugate f h e limit i p d o -> conjugate f h e limit i p d o' -> o = o'.
Proof.
  intros f h e limit i p d o o' H. revert o'. induction H as [i p d x Le Fl|i p d x q Le Eq Nf En|i p d x q o Le Eq Nf Ni Ge H IH]; intros o' H'; inversion H' as [i1 p1 d1 x1 Le1 Fl1|i1 p1 d1 x1 q1 Le1 Eq1 Nf1 En1|i1 p1 d1 x1 q1 o1 Le1 Eq1 Nf1 Ni1 Ge1 H1]; subst;
    try (exfalso; lra); try reflexivity; pose proof (line_end_unique _ _ _ _ _ _ _ Le Le1) as <-.
  - reflexivity.
  - exfalso. destruct En as [En|En]; [contradiction|lra].
  - exfalso. destruct En1 as [En1|En1]; [contradiction|lra].
  - apply IH. exact H1.
Qed.
Lemma localised_unique f e p d step b b' : localised f e p d step b -> localised f e p d step b' -> b = b'.
Proof.
  intros (i & k & A & B & C & D & E) (i' & k' & A' & B' & C' & D' & E').
  assert (i = i'). { destruct (Nat.lt_trichotomy i i') as [L|[->|L]]; [|reflexivity|]; exfalso.
    - specialize (A' i L). cbn beta in *. destruct B as [B|B]; lra.
    - specialize (A i' L). cbn beta in *. destruct B' as [B'|B']; lra. }
  subst i'. assert (k = k'). { destruct (Nat.lt_trichotomy k k') as [L|[->|L]]; [|reflexivity|]; exfalso; [specialize (C' k L); cbn beta in *; lra|specialize (C k' L); cbn beta in *; lra]. }
  subst k'. congruence.
Qed.
Lemma section_unique ph e l r x y z z' : section ph e l r x y z -> section ph e l r x y z' -> z = z'.
Proof.
  intro H. revert z'. induction H as [l r x y H1 H2|l r x y z H1 H2 H3 H4 IH|l r x y H1 H2|l r x y z H1 H2 H3 H4 IH]; intros z' H'; inversion H'; subst; try reflexivity; try (exfalso; lra);
    try (exfalso; match goal with X : _ = _ \/ _ |- _ => destruct X as [X|X]; [contradiction|lra] end); apply IH; assumption.
Qed.
Theorem C77_descent_determined : forall f h e limit i p step r r', descent f h e limit i p step r -> descent f h e limit i p step r' -> r = r'.
Proof.
  intros f h e limit i p step r r' H. revert r'. induction H as [i p step d b x Ed Hl Hs En|i p step d b x r Ed Hl Hs Ge Ni H IH]; intros r' H'; inversion H' as [i1 p1 s1 d1 b1 x1 Ed1 Hl1 Hs1 En1|i1 p1 s1 d1 b1 x1 r1 Ed1 Hl1 Hs1 Ge1 Ni1 H1]; subst; try reflexivity;
    pose proof (localised_unique _ _ _ _ _ _ _ Hl Hl1) as <-; pose proof (section_unique _ _ _ _ _ _ _ _ Hs Hs1) as <-.
  - exfalso. destruct En as [En|En]; [lra|contradiction].
  - exfalso. destruct En1 as [En1|En1]; [lra|contradiction].
  - apply IH. exact H1.
Qed.
Print Assumptions C77_conjugate_determined. Print Assumptions C77_descent_determined.

(** *** C77 Witnesses *)
(** the parabola k x^2 of one variable *)
Definition parabola (k : R) (v : list R) : R := k * (nth 0 v 0 * nth 0 v 0).
Lemma grad_parabola k h x : h <> 0 -> grad (parabola k) h [x] = [2 * k * x].
Proof. intro Hh. unfold grad, nudged, parabola. cbn. f_equal. field. exact Hh. Qed.
Lemma conjugate_parabola k (limit : Z) : k = 1 \/ k = -1 -> limit <> 2%Z -> conjugate (parabola k) 1 (1 / 100) limit 2 [1] (grad (parabola k) 1 [1]) (Ok [0]).
Proof.
  intros Hk Hl. assert (K2 : k * k = 1) by (destruct Hk; subst; ring). rewrite grad_parabola by lra.
  assert (N : forall x, newton (parabola k) 1 [1] [2 * k * 1] x = - / (2 * k)).
  { intro x. unfold newton, moved, parabola. cbn. field_simplify; [|destruct Hk; subst; lra|]. 2:{ destruct Hk; subst; lra. } destruct Hk; subst; field. }
  assert (I1 : - / (2 * k) = - (k / 2)) by (destruct Hk; subst; field).
  apply cj_stop with (- / (2 * k)).
  - exists 1%nat. cbv zeta. unfold Nat.iter. cbn [nat_rect]. rewrite !N. split; [reflexivity|]. split; [rewrite Rminus_eq_0, Rabs_R0; lra|].
    intros i Hi. replace i with 0%nat by lia. cbn [nat_rect]. rewrite N, I1. destruct Hk; subst k; [rewrite Rabs_right; lra|rewrite Rabs_left; lra].
  - unfold moved. cbn. f_equal. rewrite I1. replace (1 + - (k / 2) * (2 * k * 1)) with (1 - k * k) by field. rewrite K2. ring.
  - rewrite grad_parabola by lra. unfold norm2. cbn [fold_right]. replace (2 * k * 1 * (2 * k * 1) + 0) with (4 * (k * k)) by ring. rewrite K2. lra.
  - right. unfold norm. rewrite grad_parabola by lra. unfold norm2. cbn [fold_right]. replace (2 * k * 0 * (2 * k * 0) + 0) with 0 by ring. rewrite sqrt_0. lra.
Qed.
Example C77_conjugate_witness : conjugate (parabola 1) 1 (1 / 100) 100 2 [1] (grad (parabola 1) 1 [1]) (Ok [0]).
Proof. apply conjugate_parabola; [auto|discriminate]. Qed.
(** The line search looks for a stationary point: minimising -x^2 from 1 with the conjugate gradient method returns its greatest point. *)
Theorem C77_returns_maximum_refuted : let c := MkCg RMath (1 / 100) 1 100 in
  (exists fuel lf log, call (cg_find RMath fuel lf c) (parabola (-1)) false [1] = (Ok tt, [0], log)) /\
  forall v : list R, parabola (-1) v <= parabola (-1) [0] /\ parabola (-1) [1] < parabola (-1) [0].
Proof.
  intro c. split.
  - apply (proj1 (C77_conjugate_gradient c (parabola (-1)) false [1])). apply (conjugate_parabola (-1) 100); [auto|discriminate].
  - intro v. unfold parabola. cbn [nth]. nra.
Qed.
Print Assumptions C77_returns_maximum_refuted.

Lemma localised_parabola p step precision : 0 < p * p -> 1 / 4 <= step -> step <= precision -> 
  localised (parabola 2) precision [p] [- (4 * p)] step (step * ((1 + sqrt 5) / 2) * (4 * Rabs p)).
Proof.
  intros Hp Hs Hq. set (alpha := (1 + sqrt 5) / 2). assert (Ha : 1 < alpha). { unfold alpha. assert (2 < sqrt 5); [|lra]. rewrite <- (sqrt_square 2) by lra. apply sqrt_lt_1; lra. }
  exists 0%nat, 0%nat. fold alpha. cbv zeta. assert (E0 : step / 2 ^ 0 = step) by (cbn; field). rewrite E0. split; [intros j Hj; lia|]. split; [right; rewrite Rabs_right; lra|]. split; [intros j Hj; lia|].
  replace (step * alpha ^ 0) with step by (cbn; ring). replace (step * alpha ^ 1) with (step * alpha) by (cbn; ring). split.
  - unfold parabola, moved. cbn. replace (2 * ((p + step * - (4 * p)) * (p + step * - (4 * p)))) with (2 * (p * p) * ((4 * step - 1) * (4 * step - 1))) by ring.
    replace (2 * ((p + step * alpha * - (4 * p)) * (p + step * alpha * - (4 * p)))) with (2 * (p * p) * ((4 * (step * alpha) - 1) * (4 * (step * alpha) - 1))) by ring.
    apply Rmult_lt_compat_l; [lra|]. assert (step < step * alpha) by nra. nra.
  - assert (Hsa : 0 <= step * alpha) by nra. rewrite (Rabs_right (step * alpha)) by lra. unfold norm, norm2. cbn [fold_right]. replace (- (4 * p) * - (4 * p) + 0) with (Rsqr (4 * p)) by (unfold Rsqr; ring). rewrite sqrt_Rsqr_abs, Rabs_mult, (Rabs_right 4) by lra. reflexivity.
Qed.
(** comparing two points beyond the minimum *)
Lemma beyond p s t : 1 / 4 <= s -> s <= t -> parabola 2 (moved s [p] [- (4 * p)]) <= parabola 2 (moved t [p] [- (4 * p)]).
Proof.
  intros Hs Ht. unfold parabola, moved. cbn. replace (2 * ((p + s * - (4 * p)) * (p + s * - (4 * p)))) with (2 * (p * p) * ((4 * s - 1) * (4 * s - 1))) by ring.
  replace (2 * ((p + t * - (4 * p)) * (p + t * - (4 * p)))) with (2 * (p * p) * ((4 * t - 1) * (4 * t - 1))) by ring. apply Rmult_le_compat_l; nra.
Qed.
Lemma alpha_bounds : 161 / 100 < (1 + sqrt 5) / 2 < 163 / 100.
Proof.
  assert (222 / 100 < sqrt 5). { rewrite <- (sqrt_square (222 / 100)) by lra. apply sqrt_lt_1; lra. }
  assert (sqrt 5 < 226 / 100). { rewrite <- (sqrt_square (226 / 100)) by lra. apply sqrt_lt_1; lra. }
  lra.
Qed.
(** Two rounds on 2 x^2 from 1 with the coarse precision 25 and the limit 2: the first goes to about -7, the second is made too, and its point is dropped. *)
Example C77_descent_witness : exists x, 19 / 10 < x < 21 / 10 /\ descent (parabola 2) 1 25 2 1 [1] 1 [1 - 4 * x].
Proof.
  pose proof alpha_bounds as A. set (alpha := (1 + sqrt 5) / 2) in *. set (B := 4 * alpha). exists (1236 / 1000 * alpha). split; [lra|].
  assert (G : forall p, map Ropp (grad (parabola 2) 1 [p]) = [- (4 * p)]) by (intro p; rewrite grad_parabola by lra; cbn; f_equal; ring).
  assert (M : moved (1236 / 1000 * alpha) [1] [- (4 * 1)] = [1 - 4 * (1236 / 1000 * alpha)]) by (unfold moved; cbn; f_equal; ring).
  assert (Nm : forall p, norm (grad (parabola 2) 1 [p]) = 4 * Rabs p).
  { intro p. rewrite grad_parabola by lra. unfold norm, norm2. cbn [fold_right]. replace (2 * 2 * p * (2 * 2 * p) + 0) with (Rsqr (4 * p)) by (unfold Rsqr; ring). rewrite sqrt_Rsqr_abs, Rabs_mult, (Rabs_right 4) by lra. reflexivity. }
  apply de_next with [- (4 * 1)] B (1236 / 1000 * alpha).
  - symmetry. apply G.
  - replace B with (1 * alpha * (4 * Rabs 1)) by (rewrite Rabs_R1; unfold B; ring). apply localised_parabola; lra.
  - set (mn := 382 / 1000 * B). set (mx := B - 382 / 1000 * B). assert (Hm : mn <= mx) by (unfold mn, mx, B; lra).
    replace (1236 / 1000 * alpha) with ((0 + Rmax mn mx) / 2) by (rewrite Rmax_right by exact Hm; unfold mx, B; field).
    apply se_left_end; rewrite Rmax_right by exact Hm; rewrite ?Rmin_left by exact Hm.
    + apply beyond; [unfold mn, B; lra|exact Hm].
    + right. rewrite Rabs_left by (unfold mx, B; lra). unfold mx, B. lra.
  - rewrite M, Nm. rewrite Rabs_left by lra. lra.
  - discriminate.
  - rewrite M. set (p1 := 1 - 4 * (1236 / 1000 * alpha)). set (step := 1236 / 1000 * alpha).
    set (B1 := step * alpha * (4 * Rabs p1)).
    assert (B1b : 80 < B1 < 100). { unfold B1, step, p1. rewrite Rabs_left by lra. nra. }
    assert (Sec : exists z, section (fun t => parabola 2 (moved t [p1] [- (4 * p1)])) 25 0 B1 (382 / 1000 * B1) (B1 - 382 / 1000 * B1) z).
    { eexists. apply se_left; rewrite ?Rmax_right by lra; rewrite ?Rmin_left by lra; [apply beyond; lra|lra|rewrite Rabs_left by lra; lra|].
      set (l2 := B1 - 382 / 1000 * B1). set (n1 := 382 / 1000 * B1). set (n2 := 0 + 382 / 1000 * (l2 - 0)). assert (n2 <= n1) by (unfold n2, n1, l2; lra).
      apply se_left; rewrite ?Rmax_left by assumption; rewrite ?Rmin_right by assumption; [apply beyond; unfold n2, n1, l2 in *; lra|unfold n1, l2; lra|rewrite Rabs_left by (unfold n1; lra); unfold n1; lra|].
      set (n3 := 0 + 382 / 1000 * (n1 - 0)). assert (n3 <= n2) by (unfold n3, n2, n1, l2; lra).
      apply se_left_end; rewrite ?Rmax_left by assumption; rewrite ?Rmin_right by assumption; [apply beyond; unfold n3, n2, n1, l2 in *; lra|].
      right. rewrite Rabs_left by (unfold n2, l2; lra). unfold n2, l2. lra. }
    destruct Sec as [z Hz]. apply de_stop with [- (4 * p1)] B1 z.
    + symmetry. apply G.
    + apply localised_parabola; [unfold p1; nra|unfold step; lra|unfold step; lra].
    + exact Hz.
    + right. reflexivity.
Qed.
