(** C46: what the bounded Nelder-Mead method does, pass by pass, and when it stops (exact arithmetic). *)
From Coq Require Import Reals Psatz.
From Verif Require Import Base Num Misc Optim PropOptim Hooke PropHooke Searches NelderMead PropNelderMead PropNMBounds.
Local Open Scope Z_scope.
Local Open Scope list_scope.

(** *** Specification *)
Definition coord (v : list R) (i : nat) : R := nth i v 0%R.
(** [v] lies on the line from [c] through [x], [t] times as far from [c] as [x] *)
Definition along (t : R) (c x v : list R) : Prop :=
  length v = length c /\ forall i, (i < length c)%nat -> coord v i = (coord c i + t * (coord x i - coord c i))%R.
(** [v] is [u] brought within the bounds, coordinate by coordinate *)
Definition clamped (lo hi : R) (u v : list R) : Prop :=
  length v = length u /\ forall i, (i < length u)%nat -> coord v i = Rmin hi (Rmax lo (coord u i)).
(** positions of a greatest value, of a greatest among the others, and of a least value *)
Definition extremes (values : list R) (fm sm mn : nat) : Prop :=
  (fm < length values)%nat /\ (sm < length values)%nat /\ (mn < length values)%nat /\ fm <> sm /\
  forall j, (j < length values)%nat ->
    (coord values j <= coord values fm)%R /\ (j <> fm -> (coord values j <= coord values sm)%R) /\ (coord values mn <= coord values j)%R.
(** [c] is the centre of mass of the vertices other than number [k] *)
Definition centre (polygon : list (list R)) (k : nat) (c : list R) : Prop :=
  exists n, length c = n /\ length polygon = S n /\
  forall i, (i < n)%nat -> (INR n * coord c i = column_sum polygon i - coord (nth k polygon []) i)%R.

(** One pass: from the vertices and their recorded values to new ones. *)
Section Spec.
Variables (f : list R -> R) (lo hi : R).
Inductive pass (polygon : list (list R)) (values : list R) : list (list R) -> list R -> bool -> Prop :=
| Pass fm sm mn c u xr polygon' values' red :
    extremes values fm sm mn -> centre polygon fm c ->
    (** the reflected point *)
    along (-1) c (nth fm polygon []) u -> clamped lo hi u xr ->
    outcome_of polygon values fm sm mn c xr polygon' values' red ->
    pass polygon values polygon' values' red
with outcome_of (polygon : list (list R)) (values : list R) : nat -> nat -> nat -> list R -> list R -> list (list R) -> list R -> bool -> Prop :=
| Expanded fm sm mn c xr u xe : (f xr < coord values mn)%R -> along 2 c xr u -> clamped lo hi u xe -> (f xe < f xr)%R ->
    outcome_of polygon values fm sm mn c xr (upd polygon fm xe) (upd values fm (f xe)) false
| NotExpanded fm sm mn c xr u xe : (f xr < coord values mn)%R -> along 2 c xr u -> clamped lo hi u xe -> (f xr <= f xe)%R ->
    outcome_of polygon values fm sm mn c xr (upd polygon fm xr) (upd values fm (f xr)) false
| Reflected fm sm mn c xr : (coord values mn <= f xr <= coord values sm)%R ->
    outcome_of polygon values fm sm mn c xr (upd polygon fm xr) (upd values fm (f xr)) false
| Contracted fm sm mn c xr w vw xc : (coord values mn <= f xr)%R -> (coord values sm < f xr)%R ->
    better_of polygon values fm xr w vw -> along (1 / 2) c w xc -> (f xc <= vw)%R ->
    outcome_of polygon values fm sm mn c xr (upd polygon fm xc) (upd values fm (f xc)) false
| Reduced fm sm mn c xr w vw xc polygon' : (coord values mn <= f xr)%R -> (coord values sm < f xr)%R ->
    better_of polygon values fm xr w vw -> along (1 / 2) c w xc -> (vw < f xc)%R ->
    (** every vertex but the best moves halfway towards it; the recorded values do not follow *)
    length polygon' = length polygon -> nth mn polygon' [] = nth mn (upd polygon fm w) [] ->
    (forall j, (j < length polygon)%nat -> j <> mn -> along (1 / 2) (nth mn (upd polygon fm w) []) (nth j (upd polygon fm w) []) (nth j polygon' [])) ->
    outcome_of polygon values fm sm mn c xr polygon' (upd values fm vw) true
(** the better of the reflected point and the worst vertex, with its value *)
with better_of (polygon : list (list R)) (values : list R) : nat -> list R -> list R -> R -> Prop :=
| BReflected fm xr : (f xr < coord values fm)%R -> better_of polygon values fm xr xr (f xr)
| BOld fm xr : (coord values fm <= f xr)%R -> better_of polygon values fm xr (nth fm polygon []) (coord values fm).
End Spec.

(** spread of the values: square root of the mean squared deviation from the mean *)
Fixpoint sum (l : list R) : R := match l with [] => 0%R | x :: r => (x + sum r)%R end.
Definition mean (l : list R) : R := (sum l / INR (length l))%R.
Definition deviation (l : list R) : R := sqrt (mean (map (fun x => (x - mean l) ^ 2)%R l)).
(** distance of two simplices: sum of the coordinate distances *)
Fixpoint vdist (v w : list R) : R := match v, w with x :: r, y :: s => (Rabs (x - y) + vdist r s)%R | _, _ => 0%R end.
Fixpoint pdist (p q : list (list R)) : R := match p, q with v :: r, w :: s => (vdist v w + pdist r s)%R | _, _ => 0%R end.

(** *** Proofs *)
Lemma at_coord (l : list R) i x : at_ l i = Ok x -> coord l i = x /\ (i < length l)%nat.
Proof. intro H. apply at_ok in H. split; [unfold coord; apply nth_error_nth; exact H|apply nth_error_Some; congruence]. Qed.
Lemma coord_nth (l : list R) i x : nth_error l i = Some x -> coord l i = x.
Proof. apply nth_error_nth. Qed.

Section RIndexes.
Variable values : list R.
Definition r_inv (i fm sm mn : nat) : Prop :=
  (fm < i)%nat /\ (sm < i)%nat /\ (mn < i)%nat /\ fm <> sm /\
  forall j, (j < i)%nat -> (coord values j <= coord values fm)%R /\ (j <> fm -> (coord values j <= coord values sm)%R) /\ (coord values mn <= coord values j)%R.
Lemma r_loop : forall rest pre i fm sm mn fm' sm' mn', values = pre ++ rest -> i = length pre -> r_inv i fm sm mn ->
  indexes_loop RMath values i rest fm sm mn = Ok (fm', sm', mn') -> r_inv (length values) fm' sm' mn'.
Proof.
  induction rest as [|v r IH]; intros pre i fm sm mn fm' sm' mn' E Hi I H.
  - cbn in H. injection H as <- <- <-. rewrite E, app_nil_r, <- Hi. exact I.
  - destruct I as (A & B & C & D & F). cbn [indexes_loop] in H. change (num RMath) with R in *.
    destruct (at_ values fm) as [vf|e|u] eqn:Ef; cbn [bind] in H; try discriminate.
    destruct (at_ values sm) as [vs|e|u] eqn:Es; cbn [bind] in H; try discriminate.
    destruct (at_ values mn) as [vm|e|u] eqn:Em; cbn [bind] in H; try discriminate.
    apply at_coord in Ef as [Ef _], Es as [Es _], Em as [Em _].
    assert (Nv : coord values i = v) by (apply coord_nth; rewrite E, Hi, nth_error_app2, Nat.sub_diag by lia; reflexivity).
    assert (K : forall a b c, r_inv (S i) a b c -> indexes_loop RMath values (S i) r a b c = Ok (fm', sm', mn') -> r_inv (length values) fm' sm' mn').
    { intros a b c I'. apply (IH (pre ++ [v])); [rewrite <- app_assoc; exact E|rewrite app_length; cbn; lia|exact I']. }
    revert H. change (n_ltb RMath) with R_ltb. unfold R_ltb.
    pose proof (F fm A) as Ffm. pose proof (F sm B) as Fsm.
    destruct (Rlt_dec vf v); [|destruct (Rlt_dec vs v)]; destruct (Rlt_dec v vm); apply K; unfold r_inv; (repeat split; try lia);
      (destruct (Nat.eq_dec j i) as [->|Nj]; [|specialize (F j ltac:(lia)); destruct F as (F1 & F2 & F3)]; try lra; intros);
      try (destruct (Nat.eq_dec j fm) as [->|]; [first [lra|congruence]|]; specialize (F2 ltac:(assumption)); lra); try lra; try congruence.
Qed.
Lemma r_indexes fm sm mn : get_indexes RMath values = Ok (fm, sm, mn) -> extremes values fm sm mn.
Proof.
  unfold get_indexes. intro H. unfold extremes. change (r_inv (length values) fm sm mn).
  destruct values as [|v0 [|v1 r]] eqn:Ev; try discriminate. rewrite <- Ev in *.
  revert H. change (n_ltb RMath) with R_ltb. unfold R_ltb.
  assert (C0 : coord values 0 = v0) by (rewrite Ev; reflexivity). assert (C1 : coord values 1 = v1) by (rewrite Ev; reflexivity).
  destruct (Rlt_dec v1 v0); intro H; (eapply (r_loop r [v0; v1]); [exact Ev|reflexivity| |exact H]); unfold r_inv; cbn [length]; (repeat split; try lia);
    (destruct j as [|[|j]]; [| |lia]); rewrite ?C0, ?C1; intros; try lra; try congruence.
Qed.
End RIndexes.

Lemma zip_along (op : R -> R -> R) t : (forall x y, op x y = (x + t * (y - x))%R) -> forall a b, length a = length b -> along t a b (zip_with RMath op a b).
Proof.
  intros H a b L. split; [apply (zip_length RMath); exact L|]. revert b L.
  induction a as [|x a IH]; intros [|y b] L i Hi; cbn in *; try lia. destruct i as [|i]; unfold coord in *; cbn; [apply H|apply IH; lia].
Qed.
Lemma project_clamped l p lo hi v : (lo <= hi)%R -> clamped lo hi v (project RMath (MkNM RMath l p lo hi) v).
Proof.
  intros LH. split; [apply (project_length RMath)|]. intros i Hi. unfold project, coord. cbn [nm_upper nm_lower].
  destruct (nth_error v i) as [x|] eqn:E; [|apply nth_error_None in E; lia].
  erewrite nth_error_nth by (rewrite nth_error_map; change (num RMath) with R; rewrite E; reflexivity). rewrite (nth_error_nth _ _ _ E).
  change (n_ltb RMath) with R_ltb. unfold R_ltb, Rmin, Rmax. repeat destruct (Rlt_dec _ _); repeat destruct (Rle_dec _ _); lra.
Qed.
Lemma nth_upd {A} (l : list A) k x j d : nth j (upd l k x) d = if (Nat.eqb k j && (j <? length l)%nat)%bool then x else nth j l d.
Proof.
  rewrite !nth_default_eq || idtac. pose proof (nth_error_upd l k j x) as H.
  destruct (Nat.eqb k j) eqn:E; cbn [andb].
  - destruct (Nat.ltb_spec j (length l)) as [Hl|Hl].
    + apply nth_error_nth. rewrite H. reflexivity.
    + rewrite !nth_overflow; try lia; [reflexivity|rewrite upd_length; lia].
  - destruct (nth_error l j) as [y|] eqn:Ej.
    + rewrite (nth_error_nth _ _ _ Ej). apply nth_error_nth. rewrite H. reflexivity.
    + apply nth_error_None in Ej. rewrite !nth_overflow; try lia; [reflexivity|rewrite upd_length; lia].
Qed.

Section Pass.
Variable f : list R -> R.
Variables (l p lo hi : R).
Hypothesis LH : (lo <= hi)%R.
Variable n : nat.
Hypothesis Hn : (1 <= n)%nat.
Notation cfg := (MkNM RMath l p lo hi).
Notation run := (pure RMath (fun v => Ok (f v))).

Lemma body_pass polygon values polygon' values' red : simplex_shape RMath n polygon -> length values = S n ->
  run (nm_body RMath cfg polygon values) = Ok (polygon', values', red) -> pass f lo hi polygon values polygon' values' red.
Proof.
  intros S0 Lv H. unfold nm_body in H. rewrite pure_bind, pure_lift in H.
  destruct (get_indexes RMath values) as [[[fm sm] mn]|e|u] eqn:Ei; try discriminate. cbn [bind] in H.
  pose proof (r_indexes values fm sm mn Ei) as X. pose proof X as (X1 & X2 & X3 & X4 & X5).
  change (num RMath) with R in *. rewrite Lv in X1, X2, X3.
  rewrite pure_bind, pure_lift in H. destruct (at_ values fm) as [hv|e|u] eqn:Eh; try discriminate. cbn [bind] in H.
  rewrite pure_bind, pure_lift in H. destruct (at_ values sm) as [sv|e|u] eqn:Es; try discriminate. cbn [bind] in H.
  rewrite pure_bind, pure_lift in H. destruct (at_ values mn) as [lv|e|u] eqn:El; try discriminate. cbn [bind] in H.
  apply at_coord in Eh as [Eh _], Es as [Es _], El as [El _].
  rewrite pure_bind, pure_lift in H. destruct (C46_center_of_mass n polygon fm Hn (proj1 S0) (proj2 S0) ltac:(lia)) as (c & Ec & Lc & Hc).
  rewrite Ec in H. cbn [bind] in H.
  rewrite pure_bind, pure_lift in H. destruct (at_ polygon fm) as [w|e|u] eqn:Ew; try discriminate. cbn [bind] in H. apply at_ok in Ew.
  assert (Lw : length w = n) by (destruct S0 as [_ F]; rewrite Forall_forall in F; apply F; eapply nth_error_In; exact Ew).
  assert (Lp : length polygon = S n) by apply S0.
  pose proof (nth_error_nth _ _ [] Ew) as Nw.
  apply (Pass f lo hi polygon values fm sm mn c (reflexion RMath c w) (project RMath cfg (reflexion RMath c w))).
  { exact X. }
  { exists n. split; [exact Lc|]. split; [exact Lp|]. intros i Hi. specialize (Hc i Hi). exact Hc. }
  { rewrite Nw. apply zip_along; [intros; cbn; ring|]. etransitivity; [exact Lc|symmetry; exact Lw]. }
  { apply project_clamped. exact LH. }
  set (xr := project RMath cfg (reflexion RMath c w)) in *.
  assert (Lr : length xr = n) by (unfold xr, reflexion; rewrite project_length, zip_length; change (num RMath) with R in *; congruence).
  rewrite pure_bind in H. unfold ask_min at 1 in H. cbn [pure bind] in H.
  revert H. change (n_ltb RMath (f xr) lv) with (R_ltb (f xr) lv). unfold R_ltb at 1. destruct (Rlt_dec (f xr) lv) as [L1|L1].
  { rewrite pure_bind. unfold ask_min at 1. cbn [pure bind].
    set (xe := project RMath cfg (expansion RMath c xr)).
    assert (A2 : along 2 c xr (expansion RMath c xr)) by (apply zip_along; [intros; cbn; ring|change (num RMath) with R in *; congruence]).
    assert (A3 : clamped lo hi (expansion RMath c xr) xe) by (apply project_clamped; exact LH).
    change (n_ltb RMath (f xe) (f xr)) with (R_ltb (f xe) (f xr)). unfold R_ltb at 1. destruct (Rlt_dec (f xe) (f xr)) as [L2|L2]; cbn [pure]; intro H; injection H as <- <- <-.
    - eapply Expanded; [rewrite El; exact L1|exact A2|exact A3|exact L2].
    - eapply NotExpanded; [rewrite El; exact L1|exact A2|exact A3|lra]. }
  change (n_leb RMath (f xr) sv) with (R_leb (f xr) sv). unfold R_leb at 1. destruct (Rle_dec (f xr) sv) as [L2|L2].
  { cbn [pure]. intro H; injection H as <- <- <-. apply Reflected. rewrite El, Es. lra. }
  change (n_ltb RMath (f xr) hv) with (R_ltb (f xr) hv). cbv zeta.
  assert (B : exists t vt, better_of f lo hi polygon values fm xr t vt /\ length t = n /\
     (if R_ltb (f xr) hv then upd polygon fm xr else polygon) = upd polygon fm t /\
     (if R_ltb (f xr) hv then upd values fm (f xr) else values) = upd values fm vt /\
     (if R_ltb (f xr) hv then f xr else hv) = vt).
  { unfold R_ltb. destruct (Rlt_dec (f xr) hv) as [L3|L3].
    - exists xr, (f xr). split; [apply BReflected; rewrite Eh; exact L3|]. auto.
    - exists w, hv. split; [rewrite <- Nw, <- Eh; apply BOld; lra|]. split; [exact Lw|]. split; [|split; [|reflexivity]].
      + apply nth_ext_eq. intro j. rewrite nth_error_upd. destruct (Nat.eqb_spec fm j) as [<-|]; [|reflexivity].
        destruct (Nat.ltb_spec fm (length polygon)); [exact Ew|lia].
      + apply nth_ext_eq. intro j. rewrite nth_error_upd. destruct (Nat.eqb_spec fm j) as [<-|]; [|reflexivity].
        destruct (Nat.ltb_spec fm (length values)); [|change (num RMath) with R in *; lia]. rewrite <- Eh. apply nth_error_nth'. assumption. }
  destruct B as (t & vt & Bt & Lt & B1 & B2 & B3).
  intro H.
  assert (H' : run (ask! target := lift (at_ (upd polygon fm t) fm) in
     ask! cv := ask_min RMath (contraction RMath c target) in
     if R_ltb vt cv then ask! reduced := lift (reduction RMath (upd polygon fm t) mn) in Ret (reduced, upd values fm vt, true)
     else Ret (upd (upd polygon fm t) fm (contraction RMath c target), upd (upd values fm vt) fm cv, false)) = Ok (polygon', values', red)).
  { rewrite <- B1, <- B2, <- B3. exact H. }
  clear H. rename H' into H. rewrite pure_bind, pure_lift in H.
  assert (At : at_ (upd polygon fm t) fm = Ok t).
  { apply at_ok. rewrite nth_error_upd, Nat.eqb_refl. destruct (Nat.ltb_spec fm (length polygon)); [reflexivity|lia]. }
  rewrite At in H. cbn [bind] in H. rewrite pure_bind in H. unfold ask_min at 1 in H. cbn [pure bind] in H.
  set (xc := contraction RMath c t) in *.
  assert (A2 : along (1 / 2) c t xc) by (apply zip_along; [intros; unfold half; cbn; field|change (num RMath) with R in *; congruence]).
  assert (UU : forall A (q : list A) x y, upd (upd q fm x) fm y = upd q fm y).
  { intros A q x y. apply nth_ext_eq. intro j. rewrite !nth_error_upd, upd_length. destruct (Nat.eqb fm j); reflexivity. }
  revert H. unfold R_ltb at 1. destruct (Rlt_dec vt (f xc)) as [L4|L4].
  - rewrite pure_bind, pure_lift. destruct (reduction RMath (upd polygon fm t) mn) as [q|e|u] eqn:Er; try discriminate.
    cbn [bind pure]. intro H; injection H as <- <- <-.
    assert (Em : nth_error (upd polygon fm t) mn = Some (nth mn (upd polygon fm t) [])) by (apply nth_error_nth'; rewrite upd_length; lia).
    destruct (C46_reduction _ _ _ _ Em Er) as (R1 & R2 & R3).
    assert (Len : forall j, (j < S n)%nat -> length (nth j (upd polygon fm t) []) = n).
    { intros j Hj. destruct (upd_shape RMath n polygon fm t S0 Lt) as [U1 U2]. rewrite Forall_forall in U2. apply U2. apply nth_In. change (num RMath) with R in *. lia. }
    destruct (reduction_ok RMath n Hn (upd polygon fm t) mn (upd_shape RMath n polygon fm t S0 Lt) ltac:(lia)) as (q' & Er' & [Q1 Q2]).
    assert (q' = q) by (change (num RMath) with R in *; congruence). subst q'. change (num RMath) with R in *. assert (R1' : length q = length polygon) by (etransitivity; [exact R1|apply upd_length]).
    eapply Reduced; [rewrite El; lra|rewrite Es; lra|exact Bt|exact A2|exact L4|exact R1'|apply nth_error_nth; exact R2|].
    intros j Hj Nj.
    assert (Ej : nth_error (upd polygon fm t) j = Some (nth j (upd polygon fm t) [])) by (apply nth_error_nth'; rewrite upd_length; exact Hj).
    assert (Eq : nth_error q j = Some (nth j q [])) by (apply nth_error_nth'; rewrite R1'; exact Hj).
    specialize (R3 j _ _ Nj Ej Eq). split.
    + rewrite (Len mn) by lia. rewrite Forall_forall in Q2. apply Q2. eapply nth_error_In; exact Eq.
    + intros i Hi. rewrite (Len mn) in Hi by lia.
      destruct (R3 i (coord (nth mn (upd polygon fm t) []) i) (coord (nth j (upd polygon fm t) []) i)) as (x & Nx & Vx).
      { apply nth_error_nth'. rewrite (Len mn) by lia. exact Hi. }
      { apply nth_error_nth'. rewrite (Len j) by lia. exact Hi. }
      apply coord_nth in Nx. rewrite Nx, Vx. field.
  - cbn [pure]. intro H; injection H as <- <- <-. rewrite !UU.
    eapply Contracted; [rewrite El; lra|rewrite Es; lra|exact Bt|exact A2|lra].
Qed.
End Pass.

(** *** Specification of the whole method *)
Section Process.
Variables (f : list R -> R) (eps precision lo hi : R) (n : nat).
(** after pass number [r] the method goes on: not more than 1000 n passes, no simplex like the present one among the
    remembered ones, and the values still spread more than the precision *)
Definition goes_on (r : Z) (polygon : list (list R)) (values : list R) (remembered : list (list (list R))) : Prop :=
  r <= 1000 * Z.of_nat n /\ Forall (fun q => (eps <= pdist polygon q)%R) remembered /\ (precision < deviation values)%R.
(** the last ten *)
Definition last10 {A} (l : list A) : list A := skipn (length l - 10) l.
(** [process r polygon values remembered polygon' values']: from pass [r] on, ending with [polygon'], [values'] *)
Inductive process : Z -> list (list R) -> list R -> list (list (list R)) -> list (list R) -> list R -> Prop :=
| Last r P V M P' V' red : pass f lo hi P V P' V' red -> ~ goes_on (r + 1) P' V' M -> process r P V M P' V'
| More r P V M P' V' red P2 V2 : pass f lo hi P V P' V' red -> goes_on (r + 1) P' V' M ->
    process (r + 1) P' V' (last10 (M ++ [P'])) P2 V2 -> process r P V M P2 V2.
End Process.

(** *** Proofs *)
Lemma sum_from_sum : forall v (s : R), sum_from RMath s v = (s + sum v)%R.
Proof. induction v as [|x v IH]; intro s; cbn; [ring|]. rewrite IH. cbn. ring. Qed.
Lemma difference_deviation values : difference RMath values = deviation values.
Proof.
  unfold difference, deviation, mean. rewrite !sum_from_sum. cbn [n_ofZ n_div n_sub n_mul m_sqrt RMath m_num RNum].
  change (num RMath) with R. rewrite <- INR_IZR_INZ, !Rplus_0_l, map_length. f_equal. f_equal. f_equal. apply map_ext. intro x. cbn [pow]. rewrite Rmult_1_r. reflexivity.
Qed.
Lemma vector_difference_dist : forall v w (s x : R), length v = length w -> vector_difference RMath s v w = Ok x -> x = (s + vdist v w)%R.
Proof.
  induction v as [|a v IH]; intros [|b w] s x L H; cbn in *; try discriminate; [injection H as <-; ring|].
  apply IH in H; [|congruence]. rewrite H. ring.
Qed.
Lemma polygon_difference_dist n : forall p q (s x : R), Forall (fun v => length v = n) p -> Forall (fun v => length v = n) q -> length p = length q ->
  polygon_difference RMath s p q = Ok x -> x = (s + pdist p q)%R.
Proof.
  induction p as [|v p IH]; intros [|w q] s x F G L H; cbn [polygon_difference pdist length] in *; try discriminate.
  - injection H as <-. change (n_add RMath) with Rplus. ring.
  - pose proof (Forall_inv F) as F0. pose proof (Forall_inv_tail F) as F1. pose proof (Forall_inv G) as G0. pose proof (Forall_inv_tail G) as G1. cbn in F0, G0.
    assert (H' : (let! s' := vector_difference RMath s v w in polygon_difference RMath s' p q) = Ok x) by (destruct v; exact H). clear H.
    destruct (vector_difference RMath s v w) as [s'|e|u] eqn:E; try discriminate. cbn [bind] in H'.
    apply vector_difference_dist in E; [|etransitivity; [exact F0|symmetry; exact G0]]. apply IH in H'; auto. rewrite H', E. ring.
Qed.

Section Run.
Variable f : list R -> R.
Variables (eps l p lo hi : R).
Hypothesis LH : (lo <= hi)%R.
Variable n : nat.
Hypothesis Hn : (1 <= n)%nat.
Notation cfg := (MkNM RMath l p lo hi).
Notation run := (pure RMath (fun v => Ok (f v))).
Notation shape := (simplex_shape RMath n).

Lemma same_before_spec polygon : shape polygon -> forall prev b, Forall shape prev -> same_before RMath eps polygon prev = Ok b ->
  (b = false <-> Forall (fun q => (eps <= pdist polygon q)%R) prev).
Proof.
  intros [L F]. induction prev as [|q r IH]; intros b G H; cbn [same_before] in H.
  - injection H as <-. split; auto.
  - pose proof (Forall_inv G) as [Lq Fq]. pose proof (Forall_inv_tail G) as G1.
    destruct (polygon_difference RMath (n_ofZ RMath 0) polygon q) as [d|e|u] eqn:E; try discriminate. cbn [bind] in H.
    apply (polygon_difference_dist n) in E; auto; [|etransitivity; [exact L|symmetry; exact Lq]]. cbn [n_ofZ RMath m_num RNum] in E. rewrite Rplus_0_l in E. subst d.
    change (n_ltb RMath (pdist polygon q) eps) with (R_ltb (pdist polygon q) eps) in H. unfold R_ltb in H.
    destruct (Rlt_dec (pdist polygon q) eps) as [D|D].
    + injection H as <-. split; [discriminate|]. intro K. pose proof (Forall_inv K) as K0. cbn in K0. lra.
    + rewrite (IH b G1 H). split; intro K; [constructor; [lra|exact K]|exact (Forall_inv_tail K)].
Qed.
Lemma remember_last10 polygon prev : (length prev <= 10)%nat -> remember RMath polygon prev = last10 (prev ++ [polygon]).
Proof.
  intro L. unfold remember, last10. rewrite app_length. cbn [length]. change (num RMath) with R in *.
  destruct (Nat.leb_spec 10 (length prev)).
  - replace (length prev + 1 - 10)%nat with 1%nat by lia. destruct prev as [|q r]; [cbn in *; lia|]. reflexivity.
  - replace (length prev + 1 - 10)%nat with 0%nat by lia. reflexivity.
Qed.
Lemma go_on_spec r values polygon prev b prev' : shape polygon -> Forall shape prev -> (length prev <= 10)%nat ->
  go_on RMath eps cfg r values polygon prev = Ok (b, prev') ->
  (b = true <-> goes_on eps p n r polygon values prev) /\ (b = true -> prev' = last10 (prev ++ [polygon])).
Proof.
  intros S0 F L H. unfold go_on in H. destruct (shape_nth RMath n Hn polygon 0 S0 ltac:(lia)) as (v & Ev & Lv).
  unfold at_ at 1 in H. rewrite Ev in H. cbn [bind] in H. change (num RMath) with R in *. rewrite Lv in H. unfold goes_on.
  destruct (Z.ltb_spec (1000 * Z.of_nat n) r).
  - injection H as <- <-. split; [split; [discriminate|lia]|discriminate].
  - destruct (same_before RMath eps polygon prev) as [s|e|u] eqn:E; try discriminate. cbn [bind] in H.
    pose proof (same_before_spec polygon S0 prev s F E) as SB. destruct s.
    + injection H as <- <-. split; [|discriminate]. split; [discriminate|]. intros (_ & K & _). apply SB in K. discriminate.
    + assert (H2 : prev' = last10 (prev ++ [polygon])) by (rewrite <- remember_last10 by exact L; congruence).
      assert (H1 : R_ltb p (deviation values) = b) by (rewrite <- difference_deviation; change (R_ltb p (difference RMath values)) with (n_ltb RMath p (difference RMath values)); cbn [nm_precision] in H; congruence).
      split; [|auto]. rewrite <- H1. unfold R_ltb. destruct (Rlt_dec p (deviation values)); split; intro K; auto; try discriminate.
      * split; [lia|]. split; [apply SB; reflexivity|assumption].
      * destruct K as (_ & _ & K). contradiction.
Qed.

Lemma loop_process : forall fuel r polygon values prev red P V pr rd, shape polygon -> length values = S n -> Forall shape prev -> (length prev <= 10)%nat ->
  run (nm_loop RMath eps fuel cfg r polygon values prev red) = Ok (P, V, pr, rd) -> process f eps p lo hi n r polygon values prev P V.
Proof.
  induction fuel as [|fu IH]; intros r polygon values prev red P V pr rd S0 Lv F L H; [discriminate|].
  cbn [nm_loop] in H. destruct (nm_body_ok RMath f n Hn cfg polygon values S0 Lv) as (p' & v' & rd' & E & S1 & L1 & _).
  rewrite pure_bind in H. change (num RMath) with R in *. rewrite E in H. cbn [bind] in H.
  pose proof (body_pass f l p lo hi LH n Hn polygon values p' v' rd' S0 Lv E) as Ps.
  destruct (go_on_ok RMath eps n Hn cfg (r + 1) v' p' prev S1 F L) as (b & prev' & G & F2 & L2 & _).
  rewrite pure_bind, pure_lift in H. change (num RMath) with R in *. rewrite G in H. cbn [bind] in H.
  pose proof (go_on_spec (r + 1) v' p' prev b prev' S1 F L G) as [G1 G2]. destruct b.
  - specialize (G2 eq_refl). subst prev'. eapply More; [exact Ps|apply G1; reflexivity|]. eapply IH; eauto.
  - cbn [pure] in H. injection H as <- <- <- <-. eapply Last; [exact Ps|]. intro K. apply G1 in K. discriminate.
Qed.
End Run.

Lemma max_loop_spec : forall rest v ix i pre values, values = pre ++ rest -> i = length pre -> (ix < i)%nat -> coord values ix = v ->
  (forall j, (j < i)%nat -> (coord values j <= v)%R) ->
  forall j, (j < length values)%nat -> (coord values j <= coord values (max_loop RMath v ix i rest))%R.
Proof.
  induction rest as [|u r IH]; intros v ix i pre values E Hi Hx Cx Hm j Hj; cbn [max_loop].
  - rewrite Cx. apply Hm. rewrite E, app_nil_r, <- Hi in Hj. exact Hj.
  - assert (Nu : coord values i = u) by (apply coord_nth; rewrite E, Hi, nth_error_app2, Nat.sub_diag by lia; reflexivity).
    change (n_ltb RMath v u) with (R_ltb v u). unfold R_ltb. destruct (Rlt_dec v u) as [D|D].
    + apply (IH u i (S i) (pre ++ [u]) values); auto; [rewrite <- app_assoc; exact E|rewrite app_length; cbn; lia|].
      intros k Hk. destruct (Nat.eq_dec k i) as [->|]; [lra|]. specialize (Hm k ltac:(lia)). lra.
    + apply (IH v ix (S i) (pre ++ [u]) values); auto; [rewrite <- app_assoc; exact E|rewrite app_length; cbn; lia|].
      intros k Hk. destruct (Nat.eq_dec k i) as [->|]; [lra|]. apply Hm. lia.
Qed.

(** ** C46 The whole method, in exact arithmetic and for a new optimiser object: it starts from the regular simplex with
    its function values, goes through passes of the kind specified until the criterion says stop, and returns the
    vertex at the position of a greatest recorded value. *)
Theorem C46_process : forall f eps (l precision lo hi : R) init, (lo <= hi)%R -> (1 <= length init)%nat ->
  exists P V k, process f eps precision lo hi (length init) 0 (regular_simplex RMath init l) (map f (regular_simplex RMath init l)) [] P V /\
    (k < length V)%nat /\ (forall j, (j < length V)%nat -> (coord V j <= coord V k)%R) /\
    pure RMath (fun v => Ok (f v)) (nm_find RMath eps (MkNM RMath l precision lo hi) [] init) = Ok (nth k P []).
Proof.
  intros f eps l p lo hi init LH Hn.
  destruct (nm_run_ok RMath eps f (length init) Hn (MkNM RMath l p lo hi) [] init eq_refl (Forall_nil _) ltac:(cbn; lia))
    as (P & V & pr & red & R & [S1 S2] & Lv & _ & _ & _).
  pose proof (nm_find_of_run RMath eps _ (MkNM RMath l p lo hi) [] init _ _ _ _ R) as Fd.
  unfold nm_run in R. rewrite pure_bind, ask_all_ok in R. cbn [bind] in R. cbn [nm_l] in R.
  pose proof (regular_simplex_shape RMath (length init) init l eq_refl) as S0.
  exists P, V, (max_element RMath V). change (num RMath) with Rdefinitions.R in *. split; [|split; [|split]].
  - eapply (loop_process f eps l p lo hi LH (length init) Hn); [exact S0| |constructor|cbn; lia|exact R].
    rewrite map_length. apply S0.
  - destruct V as [|v V]; [discriminate|]. unfold max_element.
    assert (Mx : forall i rest (v : Rdefinitions.R) ix, (ix < i)%nat -> (max_loop RMath v ix i rest < i + length rest)%nat).
    { clear. intros i rest. revert i. induction rest as [|u r IH]; intros i v ix H; cbn [max_loop length]; [lia|].
      destruct (n_ltb RMath v u); [specialize (IH (S i) u i ltac:(lia))|specialize (IH (S i) v ix ltac:(lia))]; lia. }
    specialize (Mx 1%nat V v 0%nat ltac:(lia)). cbn [length]. exact Mx.
  - destruct V as [|v V]; [discriminate|]. unfold max_element. intros j Hj.
    eapply (max_loop_spec V v 0 1 [v]); auto. intros [|i] Hi; [cbn; lra|lia].
  - rewrite Fd. unfold at_. assert (K : (max_element RMath V < length P)%nat).
    { destruct (nth_error P (max_element RMath V)) eqn:E; [apply nth_error_Some; congruence|]. exfalso.
      destruct (C46_completes RMath eps f (MkNM RMath l p lo hi) [] init Hn (Forall_nil _) ltac:(cbn; lia)) as (P' & V' & pr' & rd' & v & _ & C2 & _).
      pose proof (eq_trans (eq_sym Fd) C2) as C3. unfold at_ in C3. change (num RMath) with Rdefinitions.R in *. rewrite E in C3. discriminate. }
    rewrite (nth_error_nth' P [] K). reflexivity.
Qed.
Print Assumptions C46_process.
