(** C61: the conjugate gradient method. C62: the steepest descent method. *)
From Coq Require Import Reals Psatz.
From Flocq Require Import IEEE754.BinarySingleNaN.
From Verif Require Import Base Num DblOrder Misc Optim PropOptim Hooke PropHooke NelderMead PropNelderMead Rosenbrock PropRosenbrock Gradient.
Local Open Scope nat_scope.
Local Open Scope list_scope.

(** *** What a search does, whatever the answers of the objective function are *)
(** At most [b] evaluations, all of the function to minimise and at points satisfying [P]; if the search ends by itself, then with a
    result satisfying [Q] or an exception satisfying [X]; [O] says which undefined behaviour it may
    meet (OutOfFuel: a loop is still going on when the fuel is used up). *)
Fixpoint upto {N : Num} (P : list (num N) -> Prop) {A} (Q : A -> Prop) (X : exn -> Prop) (O : ub -> Prop) (b : nat) (s : search N A) {struct s} : Prop :=
  match s with
  | Ret a => Q a
  | Ask false v k => match b with 0 => False | S b' => P v /\ forall y, upto P Q X O b' (k y) end
  | Ask true _ _ => False
  | Fail e => X e
  | Undef u => O u
  end.
Section Upto.
Context {N : Num} (P : list (num N) -> Prop) (X : exn -> Prop) (O : ub -> Prop).
Lemma upto_weaken A (Q Q' : A -> Prop) : (forall a, Q a -> Q' a) -> forall (s : search N A) b b', b <= b' -> upto P Q X O b s -> upto P Q' X O b' s.
Proof.
  intro HQ. induction s as [a|m v k IH|e|u]; intros b b' L H; cbn [upto] in *; auto. destruct m; [exact H|]. destruct b as [|b]; [destruct H|]. destruct b' as [|b']; [lia|].
  destruct H as [Hp Hk]. split; [exact Hp|]. intro y. apply (IH y b b'); [lia|]. apply Hk.
Qed.
Lemma upto_bind A B (Q : A -> Prop) (Q' : B -> Prop) b' (k : A -> search N B) : (forall a, Q a -> upto P Q' X O b' (k a)) ->
  forall (s : search N A) b, upto P Q X O b s -> upto P Q' X O (b + b') (sbind s k).
Proof.
  intro H. induction s as [a|m v c IH|e|u]; intros b D; cbn [sbind upto] in *; auto.
  - apply (upto_weaken B Q' Q' (fun a H => H) (k a) b'); [lia|]. apply H, D.
  - destruct m; [exact D|]. destruct b as [|b]; [destruct D|]. cbn [plus]. destruct D as [Hp Hk]. split; [exact Hp|]. intro y. apply IH, Hk.
Qed.
Lemma upto_ask v : P v -> upto P (fun _ => True) X O 1 (ask_min N v).
Proof. intro H. cbn. auto. Qed.
(** Consequence for a parameters array of the right size and a function that always returns a value. *)
Lemma upto_run A (Q : A -> Prop) n (f : list (num N) -> num N) mx : (forall v, P v -> length v = n) -> forall (s : search N A) b p log, upto P Q X O b s -> length p = n ->
  exists o q l, run N (list (num N)) (arr_set N) (arr_get N) (arr_check N) (fun v => Ok (f v)) mx s p log = (o, q, log ++ l) /\ length q = n /\ Forall P l /\ length l <= b /\
    match o with Ok a => Q a | Throw e => X e | UB u => O u end.
Proof.
  intro HP. induction s as [a|m v k IH|e|u]; intros b p log H L; cbn [upto run] in *.
  - exists (Ok a), p, []. rewrite app_nil_r. repeat split; auto. cbn. lia.
  - destruct m; [destruct H|]. destruct b as [|b]; [destruct H|]. destruct H as [Pv H]. unfold count_value, arr_set, arr_get, arr_check. rewrite (HP v Pv), L, Nat.eqb_refl.
    destruct (IH (signed N mx false (f v)) b v (log ++ [v]) (H _) (HP v Pv)) as (o & q & l & E & Lq & Fl & Ll & Qa).
    exists o, q, (v :: l). rewrite <- app_assoc in E. repeat split; [exact E|exact Lq|constructor; assumption|cbn; lia|exact Qa].
  - exists (Throw e), p, []. rewrite app_nil_r. repeat split; auto. cbn. lia.
  - exists (UB u), p, []. rewrite app_nil_r. repeat split; auto. cbn. lia.
Qed.
End Upto.

(** *** Any arithmetic: sizes, number of evaluations, exceptions *)
Section Any.
Variable M : MNum.
Notation num := (num M).
Notation sized n := (fun v : list num => length v = n).
Lemma along_length x (p d : list num) : length p = length d -> length (along M x p d) = length p.
Proof. apply zip_length_any. Qed.
Lemma derivative_upto n X O h half (p : list num) i : length p = n -> i < n -> upto (sized n) (fun _ : num => True) X O 2 (derivative M h half p i).
Proof.
  intros L Hi. unfold derivative, at_. destruct (nth_error p i) as [a|] eqn:E; [|apply nth_error_None in E; lia]. cbn. rewrite !upd_length. auto.
Qed.
Lemma gradient_upto n X O h half (p : list num) : length p = n -> upto (sized n) (sized n) X O (2 * n) (gradient M h half p).
Proof.
  intro L. unfold gradient. assert (G : forall todo i, i + todo <= n -> upto (sized n) (sized todo) X O (2 * todo) (gradient_from M h half p i todo)).
  { induction todo as [|t IH]; intros i Hi; [reflexivity|]. cbn [gradient_from]. replace (2 * S t) with (2 + (2 * t + 0)) by lia.
    apply (upto_bind _ _ _ _ _ (fun _ : num => True)); [|apply derivative_upto; lia]. intros d _. apply (upto_bind _ _ _ _ _ (sized t)); [|apply IH; lia]. intros r Lr. cbn. lia. }
  replace (length p) with n by auto. apply G. lia.
Qed.
Lemma line_upto n X c (d : list num) (p : list num) : length p = n -> length d = n -> forall lf x, upto (sized n) (fun _ : num => True) X (eq OutOfFuel) (3 * lf) (cg_line M lf c p d x).
Proof.
  intros Lp Ld. induction lf as [|lf IH]; intro x; [cbn; auto|]. cbn [cg_line]. replace (3 * S lf) with (1 + (1 + (1 + 3 * lf))) by lia.
  do 3 (apply (upto_bind _ _ _ _ _ (fun _ : num => True)); [|apply upto_ask; rewrite along_length; lia]; intros ? _).
  match goal with |- context [if ?b then _ else _] => destruct b end; [apply IH|exact I].
Qed.
Lemma cg_direction_length n (g d : list num) w it : length g = n -> length d = n -> length (cg_direction M g d w it) = n.
Proof. intros A B. unfold cg_direction. destruct (1 <? it)%Z; [|exact A]. rewrite zip_length_any; lia. Qed.
Lemma cg_loop_upto n lf c : forall fuel (p g d : list num) w it, length p = n -> length g = n -> length d = n ->
  upto (sized n) (sized n) (eq RuntimeError) (eq OutOfFuel) (fuel * (3 * lf + 2 * n)) (cg_loop M fuel lf c p g d w it).
Proof.
  induction fuel as [|fuel IH]; intros p g d w it Lp Lg Ld; [cbn; auto|]. cbn [cg_loop]. pose proof (cg_direction_length n g d w it Lg Ld) as L1.
  set (d' := cg_direction M g d w it) in *. replace (S fuel * (3 * lf + 2 * n)) with (3 * lf + (2 * n + (0 + fuel * (3 * lf + 2 * n)))) by lia.
  apply (upto_bind _ _ _ _ _ (fun _ : num => True)); [|apply line_upto; lia]. intros x _. assert (L2 : length (along M x p d') = n) by (rewrite along_length; lia).
  apply (upto_bind _ _ _ _ _ (sized n)); [|apply gradient_upto; exact L2]. intros g' Lg'.
  apply (upto_bind _ _ _ _ _ (fun _ : num => True)); [|unfold cg_weight; destruct (nearly_zero M (sum_squares M g)); [reflexivity|exact I]]. intros w' _.
  destruct (it + 1 =? cg_iterations M c)%Z; [exact L2|]. destruct (n_leb M (cg_precision M c) _); [|exact L2]. apply IH; assumption.
Qed.
Lemma cg_find_upto fuel lf c (init : list num) : let n := length init in
  upto (sized n) (sized n) (eq RuntimeError) (eq OutOfFuel) (2 * n + fuel * (3 * lf + 2 * n)) (cg_find M fuel lf c init).
Proof.
  intro n. unfold cg_find. apply (upto_bind _ _ _ _ _ (sized n)); [|apply gradient_upto; reflexivity]. intros g Lg. apply cg_loop_upto; [reflexivity|exact Lg|apply repeat_length].
Qed.
(** the limit on the iterations: with [cg_iterations] = N >= 2, more than N - 1 rounds change nothing *)
Lemma cg_loop_fuel lf c : forall fuel fuel' (p g d : list num) w it, (it < cg_iterations M c)%Z -> (cg_iterations M c - it <= Z.of_nat fuel)%Z -> (cg_iterations M c - it <= Z.of_nat fuel')%Z ->
  cg_loop M fuel lf c p g d w it = cg_loop M fuel' lf c p g d w it.
Proof.
  induction fuel as [|fuel IH]; intros fuel' p g d w it Hi H H'; [lia|]. destruct fuel' as [|fuel']; [lia|]. cbn [cg_loop].
  destruct (Z.eqb_spec (it + 1) (cg_iterations M c)) as [E|E]; [reflexivity|].
  assert (G : forall p g d w, cg_loop M fuel lf c p g d w (it + 1) = cg_loop M fuel' lf c p g d w (it + 1)) by (intros; apply IH; lia).
  assert (SB : forall A B (s : search M A) (k k' : A -> search M B), (forall a, k a = k' a) -> sbind s k = sbind s k').
  { intros A B s k k' Hk. induction s as [a|m v r IHr|e|u]; cbn; auto. f_equal. apply FunctionalExtensionality.functional_extensionality. exact IHr. }
  apply SB. intro x. apply SB. intro g'. apply SB. intro w'. destruct (n_leb M (cg_precision M c) _); [apply G|reflexivity].
Qed.
End Any.

(** ** C61 Points and evaluations: every point has the dimension of the start, only runtime_error can come from the method itself, and k
    rounds of line searches of at most lf Newton steps need at most 2n + k(3 lf + 2n) evaluations (any arithmetic). *)
Theorem C61_evaluations : forall (M : MNum) (fuel lf : nat) (c : cg_cfg M) (f : list (num M) -> num M) (mx : bool) (p : list (num M)),
  let n := length p in
  exists o q l, run M (list (num M)) (arr_set M) (arr_get M) (arr_check M) (fun v => Ok (f v)) mx (cg_find M fuel lf c p) p [] = (o, q, l) /\
    Forall (fun v => length v = n) l /\ length l <= 2 * n + fuel * (3 * lf + 2 * n) /\
    match o with Ok r => length r = n | Throw e => e = RuntimeError | UB u => u = OutOfFuel end.
Proof.
  intros M fuel lf c f mx p n. destruct (upto_run _ _ _ _ _ n f mx (fun v H => H) _ _ p [] (cg_find_upto M fuel lf c p) eq_refl) as (o & q & l & E & Lq & F & Ll & Q).
  exists o, q, l. cbn [app] in E. split; [exact E|]. split; [exact F|]. split; [exact Ll|]. destruct o; [exact Q|symmetry; exact Q|symmetry; exact Q].
Qed.
(** ** C61 The iteration limit N >= 2 allows N - 1 rounds; *)
Theorem C61_limit : forall (M : MNum) (fuel lf : nat) (c : cg_cfg M) (init : list (num M)), (2 <= cg_iterations M c)%Z ->
  Z.to_nat (cg_iterations M c - 1) <= fuel -> cg_find M fuel lf c init = cg_find M (Z.to_nat (cg_iterations M c - 1)) lf c init.
Proof.
  intros M fuel lf c init H2 H. unfold cg_find. assert (SB : forall A B (s : search M A) (k k' : A -> search M B), (forall a, k a = k' a) -> sbind s k = sbind s k').
  { intros A B s k k' Hk. induction s as [a|m v r IHr|e|u]; cbn; auto. f_equal. apply FunctionalExtensionality.functional_extensionality. exact IHr. }
  apply SB. intro g. apply cg_loop_fuel; lia.
Qed.
(** ** C61 limits 0 and 1 are no limits: the method can only return a point where the computed gradient is not as long as the precision. *)
Theorem C61_limit_0_1_refuted : forall (M : MNum) (fuel lf : nat) (c : cg_cfg M) (g : list (num M) -> outcome (num M)) (init r : list (num M)), (cg_iterations M c <= 1)%Z ->
  pure M g (cg_find M fuel lf c init) = Ok r ->
  exists gr, pure M g (cg_gradient M c r) = Ok gr /\ n_leb M (cg_precision M c) (m_sqrt M (sum_squares M gr)) = false.
Proof.
  intros M fuel lf c g init r H. unfold cg_find. rewrite pure_bind. intro E. apply bind_ok in E as (g0 & _ & E).
  assert (G : forall fuel it p g0 d w, (1 <= it)%Z -> pure M g (cg_loop M fuel lf c p g0 d w it) = Ok r ->
    exists gr, pure M g (cg_gradient M c r) = Ok gr /\ n_leb M (cg_precision M c) (m_sqrt M (sum_squares M gr)) = false); [|apply (G _ _ _ _ _ _ (Z.le_refl 1) E)].
  clear fuel init g0 E. induction fuel as [|fuel IH]; intros it p g0 d w Hit E; [discriminate|]. cbn [cg_loop] in E. rewrite pure_bind in E. apply bind_ok in E as (x & _ & E). rewrite pure_bind in E. apply bind_ok in E as (g' & E1 & E).
  rewrite pure_bind in E. apply bind_ok in E as (w' & _ & E). destruct (Z.eqb_spec (it + 1) (cg_iterations M c)) as [E2|E2]; [lia|].
  destruct (n_leb M (cg_precision M c) (m_sqrt M (sum_squares M g'))) eqn:E3; [|injection E as <-; eauto]. apply (IH (it + 1)%Z _ _ _ _ ltac:(lia) E).
Qed.
(** ** C61 From a point where the computed gradient is (nearly) zero the method does not return at all; with the default precision and any
    function, in exact arithmetic, that is the only case in which it throws. *)
Theorem C61_stationary_start : forall (M : MNum) (fuel lf : nat) (c : cg_cfg M) (g : list (num M) -> outcome (num M)) (init r gr : list (num M)),
  pure M g (cg_gradient M c init) = Ok gr -> nearly_zero M (sum_squares M gr) = true -> pure M g (cg_find M fuel lf c init) <> Ok r.
Proof.
  intros M fuel lf c g init r gr E1 E2 H. unfold cg_find in H. rewrite pure_bind, E1 in H. cbn [bind] in H. destruct fuel as [|fuel]; [discriminate|]. cbn [cg_loop] in H.
  rewrite pure_bind in H. apply bind_ok in H as (x & _ & H). rewrite pure_bind in H. apply bind_ok in H as (g' & _ & H). unfold cg_weight in H. rewrite E2 in H. discriminate.
Qed.

(** *** Exact arithmetic *)
Open Scope R_scope.
Notation alongR := (along RMath).
Lemma sum_squares_dot v : sum_squares RMath v = dot v v.
Proof.
  unfold sum_squares, zero. assert (G : forall v t, fold_left (fun t x => n_add RMath t (n_mul RMath x x)) v t = t + dot v v).
  { intro v0. induction v0 as [|x v0 IH]; intro t; cbn [fold_left dot]; [cbn; lra|]. rewrite IH. cbn. lra. }
  change (num RMath) with R in *. rewrite G. cbn. lra.
Qed.
Lemma nearly_zero_spec x : 0 <= x -> nearly_zero RMath x = R_ltb x (1 / 10000000000).
Proof.
  intro H. unfold nearly_zero, eps, zero. change (n_ltb RMath) with R_ltb. change (m_abs RMath) with Rabs. change (n_sub RMath) with Rminus. change (n_div RMath) with Rdiv. change (n_ofZ RMath) with IZR.
  rewrite Rminus_0_r, Rabs_pos_eq by exact H. reflexivity.
Qed.
(** long enough not to be taken for zero *)
Lemma long_enough pr (g : list R) : 1 / 100000 <= pr -> pr <= sqrt (dot g g) -> nearly_zero RMath (sum_squares RMath g) = false.
Proof.
  intros Hp H. rewrite sum_squares_dot, nearly_zero_spec by apply dot_pos. apply R_ltb_false. pose proof (sqrt_sqrt (dot g g) (dot_pos g)).
  assert (1 / 100000 * (1 / 100000) <= sqrt (dot g g) * sqrt (dot g g)) by (apply Rmult_le_compat; lra). lra.
Qed.
Notation sizedR n := (fun v : list R => length v = n).
Lemma cg_loop_no_throw n lf c : 1 / 100000 <= cg_precision RMath c -> forall fuel (p g d : list R) w it, length p = n -> length g = n -> length d = n -> nearly_zero RMath (sum_squares RMath g) = false ->
  upto (N := RMath) (sizedR n) (sizedR n) (fun _ => False) (eq OutOfFuel) (fuel * (3 * lf + 2 * n)) (cg_loop RMath fuel lf c p g d w it).
Proof.
  intro Hp. induction fuel as [|fuel IH]; intros p g d w it Lp Lg Ld Nz; [cbn; auto|]. cbn [cg_loop]. pose proof (cg_direction_length RMath n g d w it Lg Ld) as L1.
  set (d' := cg_direction RMath g d w it) in *. replace (S fuel * (3 * lf + 2 * n))%nat with (3 * lf + (2 * n + (0 + fuel * (3 * lf + 2 * n))))%nat by lia.
  apply (upto_bind (N := RMath) _ _ _ _ _ (fun _ : R => True)); [|apply (line_upto RMath); assumption]. intros x _. assert (L2 : length (alongR x p d') = n) by (rewrite (along_length RMath); change (num RMath) with R in *; congruence).
  apply (upto_bind (N := RMath) _ _ _ _ _ (sizedR n)); [|apply (gradient_upto RMath); exact L2]. intros g' Lg'.
  apply (upto_bind (N := RMath) _ _ _ _ _ (fun _ : R => True)); [|unfold cg_weight; rewrite Nz; exact I]. intros w' _.
  destruct (it + 1 =? cg_iterations RMath c)%Z; [exact L2|]. destruct (n_leb RMath (cg_precision RMath c) _) eqn:E; [|exact L2]. apply IH; try assumption.
  apply (long_enough (cg_precision RMath c)); [exact Hp|]. rewrite sum_squares_dot in E. apply R_leb_true in E. exact E.
Qed.
Lemma upto_pure (N : Num) P A (Q : A -> Prop) X O (f : list (num N) -> num N) : forall (s : search N A) b, upto P Q X O b s ->
  match pure N (fun v => Ok (f v)) s with Ok a => Q a | Throw e => X e | UB u => O u end.
Proof.
  induction s as [a|m v k IH|e|u]; intros b H; cbn [upto pure] in *; auto. destruct m; [destruct H|]. destruct b as [|b]; [destruct H|]. cbn [bind]. apply (IH _ b). apply H.
Qed.
Theorem C61_throws_only_at_the_start : forall (fuel lf : nat) (c : cg_cfg RMath) (f : list R -> R) (init gr : list R), 1 / 100000 <= cg_precision RMath c ->
  pure RMath (fun v => Ok (f v)) (cg_gradient RMath c init) = Ok gr -> 1 / 10000000000 <= dot gr gr -> forall e, pure RMath (fun v => Ok (f v)) (cg_find RMath fuel lf c init) <> Throw e.
Proof.
  intros fuel lf c f init gr Hp E Hg e H. unfold cg_find in H. rewrite pure_bind, E in H. cbn [bind] in H.
  pose proof (upto_pure RMath _ _ _ _ _ f _ _ (gradient_upto RMath (length init) (fun _ => False) (eq OutOfFuel) (cg_increment RMath c) (n_div RMath (cg_increment RMath c) (two RMath)) init eq_refl)) as L.
  fold (cg_gradient RMath c) in L. change (gradient RMath (cg_increment RMath c) (n_div RMath (cg_increment RMath c) (two RMath)) init) with (cg_gradient RMath c init) in L. 
  change (num RMath) with R in *. rewrite E in L.
  pose proof (cg_loop_no_throw (length init) lf c Hp fuel init gr (repeat (zero RMath) (length init)) (zero RMath) 1%Z eq_refl L (repeat_length _ _)) as U.
  assert (Nz : nearly_zero RMath (sum_squares RMath gr) = false). { rewrite sum_squares_dot, nearly_zero_spec by apply dot_pos. apply R_ltb_false. exact Hg. }
  specialize (U Nz). apply (upto_pure RMath _ _ _ _ _ f) in U. change (num RMath) with R in *. rewrite H in U. exact U.
Qed.

(** *** Unit vectors and the dimension *)
Fixpoint unit (n i : nat) : list R :=
  match n with O => [] | S n => match i with O => 1 :: repeat 0 n | S i => 0 :: unit n i end end.
Lemma unit_length : forall n i, length (unit n i) = n.
Proof. induction n as [|n IH]; intros [|i]; cbn; auto. rewrite repeat_length. reflexivity. Qed.
Lemma dot_unit : forall n i v, length v = n -> dot (unit n i) v = nth i v 0.
Proof.
  induction n as [|n IH]; intros i [|x v] L; cbn in L; try discriminate; [destruct i; reflexivity|]. destruct i as [|i]; cbn [unit dot nth]; [rewrite dot_zero; lra|]. rewrite IH by lia. lra.
Qed.
Lemma upd_unit : forall (p : list R) i t, (i < length p)%nat -> upd p i (nth i p 0 + t) = alongR t p (unit (length p) i).
Proof.
  assert (Z0 : forall t (p : list R), alongR t p (repeat 0 (length p)) = p).
  { intros t p. induction p as [|y p IH]; [reflexivity|]. unfold along in *. cbn [length repeat zip_with]. rewrite IH. apply (f_equal2 (@cons R)); [cbn; lra|reflexivity]. }
  induction p as [|x p IH]; intros i t H; cbn [length] in H; [lia|]. destruct i as [|i]; cbn [unit length upd nth].
  - unfold along in *. cbn [zip_with]. rewrite Z0. apply (f_equal2 (@cons R)); [cbn; lra|reflexivity].
  - unfold along in *. cbn [zip_with]. rewrite <- IH by lia. apply (f_equal2 (@cons R)); [cbn; lra|reflexivity].
Qed.
Lemma dot_unit_self n i : (i < n)%nat -> dot (unit n i) (unit n i) = 1.
Proof. intro H. rewrite dot_unit by apply unit_length. revert i H. induction n as [|n IH]; intros [|i] H; cbn; try lia; [reflexivity|]. apply IH. lia. Qed.

(** Non-zero vectors orthogonal to each other. *)
Fixpoint orthogonal (gs : list (list R)) : Prop :=
  match gs with [] => True | g :: r => dot g g <> 0 /\ (forall h, In h r -> dot g h = 0) /\ orthogonal r end.
Fixpoint bessel (e : list R) (gs : list (list R)) : R := match gs with [] => 0 | g :: r => dot e g * dot e g / dot g g + bessel e r end.
Lemma dot_along t p d v : length p = length d -> dot (alongR t p d) v = dot p v + t * dot d v.
Proof. intro H. exact (dot_move t d p v H). Qed.
Lemma bessel_bound n : forall gs e, length e = n -> Forall (fun g => length g = n) gs -> orthogonal gs -> bessel e gs <= dot e e.
Proof.
  induction gs as [|g gs IH]; intros e Le F Ho; cbn [bessel]; [apply dot_pos|]. apply Forall_cons_iff in F as [Lg F]. destruct Ho as (Hg & Hh & Ho).
  set (t := - (dot e g / dot g g)). assert (Lt : length (alongR t e g) = n) by (rewrite (along_length RMath); change (num RMath) with R; lia).
  specialize (IH (alongR t e g) Lt F Ho).
  assert (B : forall r, (forall h, In h r -> dot g h = 0) -> bessel (alongR t e g) r = bessel e r).
  { induction r as [|h r IHr]; intro Hr; cbn [bessel]; [reflexivity|]. rewrite IHr by (intros; apply Hr; right; assumption). rewrite (dot_along t e g h) by (change (num RMath) with R in *; congruence). rewrite (Hr h) by (left; reflexivity). rewrite Rmult_0_r, Rplus_0_r. reflexivity. }
  rewrite (B gs Hh) in IH. rewrite (dot_along t e g (alongR t e g)) in IH by (change (num RMath) with R in *; congruence). rewrite (dot_sym e (alongR t e g)), (dot_sym g (alongR t e g)) in IH. rewrite (dot_along t e g e), (dot_along t e g g) in IH by (change (num RMath) with R in *; congruence). rewrite (dot_sym g e) in IH.
  pose proof (dot_pos g). assert (E : dot e e + t * dot e g + t * (dot e g + t * dot g g) = dot e e - dot e g * dot e g / dot g g) by (unfold t; field; exact Hg). lra.
Qed.
Definition rsum (l : list R) : R := fold_right Rplus 0 l.
Lemma sum_squares_nth : forall v : list R, rsum (map (fun i => nth i v 0 * nth i v 0) (seq 0 (length v))) = dot v v.
Proof.
  induction v as [|x v IH]; [reflexivity|]. cbn [length seq map rsum fold_right nth dot]. rewrite <- seq_shift, map_map. cbn [nth]. unfold rsum in IH. rewrite IH. reflexivity.
Qed.
Lemma rsum_plus A (f g : A -> R) l : rsum (map (fun x => f x + g x) l) = rsum (map f l) + rsum (map g l).
Proof. unfold rsum. induction l as [|x l IH]; cbn; lra. Qed.
Lemma rsum_div A (f : A -> R) k l : rsum (map (fun x => f x / k) l) = rsum (map f l) / k.
Proof. unfold rsum. induction l as [|x l IH]; cbn; [unfold Rdiv; lra|]. rewrite IH. unfold Rdiv. lra. Qed.
(** at most n of them in n dimensions *)
Lemma orthogonal_dimension n gs : Forall (fun g => length g = n) gs -> orthogonal gs -> (length gs <= n)%nat.
Proof.
  intros F Ho. assert (E : rsum (map (fun i => bessel (unit n i) gs) (seq 0 n)) = INR (length gs)).
  { assert (G : forall gs, Forall (fun g => length g = n) gs -> orthogonal gs -> rsum (map (fun i => bessel (unit n i) gs) (seq 0 n)) = INR (length gs)); [|apply G; assumption].
    clear gs F Ho. induction gs as [|g gs IH]; intros F Ho.
    - cbn. unfold rsum. induction (seq 0 n); cbn; [reflexivity|]. lra.
    - apply Forall_cons_iff in F as [Lg F]. destruct Ho as (Hg & _ & Ho). cbn [bessel length]. rewrite rsum_plus, IH, S_INR by assumption.
      rewrite (rsum_div nat (fun i => dot (unit n i) g * dot (unit n i) g)). replace (rsum (map (fun i => dot (unit n i) g * dot (unit n i) g) (seq 0 n))) with (dot g g); [field; exact Hg|].
      rewrite <- sum_squares_nth, Lg. f_equal. apply map_ext. intro i. rewrite dot_unit by exact Lg. reflexivity. }
  assert (B : rsum (map (fun i => bessel (unit n i) gs) (seq 0 n)) <= INR n).
  { assert (G : forall l, Forall (fun i => (i < n)%nat) l -> rsum (map (fun i => bessel (unit n i) gs) l) <= INR (length l)).
    { induction l as [|i l IH]; intro Fl; [cbn; lra|]. apply Forall_cons_iff in Fl as [Hi Fl]. cbn [map rsum fold_right length]. rewrite S_INR. specialize (IH Fl). unfold rsum in IH.
      pose proof (bessel_bound n gs (unit n i) (unit_length n i) F Ho) as Bi. rewrite dot_unit_self in Bi by exact Hi. lra. }
    pose proof (G (seq 0 n)) as Gs. rewrite seq_length in Gs. apply Gs. apply Forall_forall. intros i Hi. apply in_seq in Hi. lia. }
  rewrite E in B. apply INR_le. exact B.
Qed.

(** *** The strictly convex quadratic functions *)
(** the product of the matrix with rows [A] and a vector *)
Definition mat (A : list (list R)) (x : list R) : list R := map (fun row => dot row x) A.
(** x'Ax/2 + b'x + k *)
Definition quadratic (A : list (list R)) (b : list R) (k : R) (x : list R) : R := dot x (mat A x) / 2 + dot b x + k.
(** [A] is symmetric and positive definite, of dimension [n] *)
Definition spd (n : nat) (A : list (list R)) : Prop :=
  length A = n /\ (forall x y, length x = n -> length y = n -> dot x (mat A y) = dot y (mat A x)) /\ (forall x, length x = n -> dot x x <> 0 -> 0 < dot x (mat A x)).
(** Ax + b *)
Definition slope (A : list (list R)) (b x : list R) : list R := alongR 1 b (mat A x).

Section Quadratic.
Variables (n : nat) (A : list (list R)) (b : list R) (k : R).
Hypothesis HA : spd n A.
Hypothesis Hb : length b = n.
Notation B u v := (dot u (mat A v)).
Notation f := (quadratic A b k).
Notation fo := (fun v : list R => Ok (quadratic A b k v)).
Lemma mat_length x : length (mat A x) = n.
Proof. unfold mat. rewrite map_length. apply HA. Qed.
Lemma alongR_length t (p d : list R) : length p = n -> length d = n -> length (alongR t p d) = n.
Proof. intros Lp Ld. rewrite (along_length RMath); change (num RMath) with R in *; congruence. Qed.
Lemma B_sym u v : length u = n -> length v = n -> B u v = B v u.
Proof. apply HA. Qed.
Lemma B_along_l t p d v : length p = n -> length d = n -> B (alongR t p d) v = B p v + t * B d v.
Proof. intros Lp Ld. apply dot_along. congruence. Qed.
Lemma B_along_r t p d v : length p = n -> length d = n -> length v = n -> B v (alongR t p d) = B v p + t * B v d.
Proof. intros Lp Ld Lv. rewrite B_sym, B_along_l by (try apply alongR_length; assumption). rewrite (B_sym p v), (B_sym d v) by assumption. reflexivity. Qed.
Lemma slope_length x : length (slope A b x) = n.
Proof. apply alongR_length; [exact Hb|apply mat_length]. Qed.
Lemma dot_slope x v : length x = n -> length v = n -> dot (slope A b x) v = dot b v + B v x.
Proof. intros Lx Lv. unfold slope. rewrite dot_along by (rewrite mat_length; exact Hb). rewrite (dot_sym (mat A x) v). lra. Qed.
Lemma dot_slope_along t p d v : length p = n -> length d = n -> length v = n -> dot (slope A b (alongR t p d)) v = dot (slope A b p) v + t * B d v.
Proof.
  intros Lp Ld Lv. rewrite !dot_slope by (try apply alongR_length; assumption). rewrite B_along_r, (B_sym v d) by assumption. lra.
Qed.
(** the function along a line *)
Lemma f_along t p d : length p = n -> length d = n -> f (alongR t p d) = f p + t * dot (slope A b p) d + t * t * B d d / 2.
Proof.
  intros Lp Ld. unfold quadratic. rewrite (dot_sym b (alongR t p d)), (dot_along t p d b) by congruence. rewrite B_along_r, !B_along_l by (try apply alongR_length; assumption).
  rewrite dot_slope by assumption. rewrite (B_sym p d) by assumption. rewrite (dot_sym b p), (dot_sym b d). lra.
Qed.
(** the differences are exact *)
Lemma gradient_quadratic h half (p : list R) : h <> 0 -> half = h / 2 -> length p = n -> pure RMath fo (gradient RMath h half p) = Ok (slope A b p).
Proof.
  intros Hh Eh Lp. subst half. assert (D : forall i, (i < n)%nat -> pure RMath fo (derivative RMath h (h / 2) p i) = Ok (nth i (slope A b p) 0)).
  { intros i Hi. unfold derivative, at_. change (num RMath) with R. destruct (nth_error p i) as [a|] eqn:E; [|apply nth_error_None in E; lia].
    assert (Ea : a = nth i p 0) by (symmetry; apply nth_error_nth; exact E). cbn [lift sbind ask_min pure bind signed xorb].
    change (n_add RMath) with Rplus. change (n_sub RMath) with Rminus. change (n_div RMath) with Rdiv. f_equal. subst a.
    assert (U : forall t, f (upd p i (nth i p 0 + t)) = f p + t * nth i (slope A b p) 0 + t * t * B (unit n i) (unit n i) / 2).
    { intro t. rewrite upd_unit by (change (num RMath) with R in *; lia). change (num RMath) with R in *. rewrite Lp, f_along by (try apply unit_length; assumption).
      rewrite (dot_sym (slope A b p)), dot_unit by apply slope_length. reflexivity. }
    pose proof (U (h / 2)) as U1. pose proof (U (- (h / 2))) as U2. change (nth i p 0 - h / 2) with (nth i p 0 + - (h / 2)). change (num RMath) with R in *. rewrite U1, U2. field. exact Hh. }
  unfold gradient. change (num RMath) with R. rewrite Lp. assert (G : forall todo i, (i + todo <= n)%nat -> pure RMath fo (gradient_from RMath h (h / 2) p i todo) = Ok (map (fun j => nth j (slope A b p) 0) (seq i todo))).
  { induction todo as [|t IH]; intros i Hi; [reflexivity|]. cbn [gradient_from seq map]. rewrite pure_bind, D by lia. cbn [bind]. rewrite pure_bind, IH by lia. reflexivity. }
  rewrite G by lia. f_equal. pose proof (slope_length p) as Ls. rewrite <- Ls. generalize (slope A b p). intro s. clear. induction s as [|x s IH]; [reflexivity|]. cbn [length seq map nth]. rewrite <- seq_shift, map_map. cbn [nth]. rewrite IH. reflexivity.
Qed.
(** the Newton steps of the line search reach the minimum along the line at once, and stop there *)
Lemma line_quadratic c (p d : list R) lf : cg_increment RMath c <> 0 -> 0 <= cg_precision RMath c -> length p = n -> length d = n -> 0 < B d d ->
  pure RMath fo (cg_line RMath (S (S lf)) c p d 0) = Ok (- (dot (slope A b p) d / B d d)).
Proof.
  intros Hh Hp Lp Ld K. set (h := cg_increment RMath c) in *. set (m := dot (slope A b p) d) in *. set (K0 := B d d) in *.
  assert (S1 : forall lf x, pure RMath fo (cg_line RMath (S lf) c p d x) = if R_ltb (cg_precision RMath c) (Rabs (x - - (m / K0))) then pure RMath fo (cg_line RMath lf c p d (- (m / K0))) else Ok (- (m / K0))).
  { intros lf0 x. cbn [cg_line sbind ask_min pure bind signed xorb]. fold h. change (n_add RMath) with Rplus. change (n_sub RMath) with Rminus. change (n_div RMath) with Rdiv. change (n_mul RMath) with Rmult. change (n_ltb RMath) with R_ltb. change (m_abs RMath) with Rabs. unfold two. change (n_ofZ RMath) with IZR.
    match goal with |- context [R_ltb _ (Rabs (x - ?e))] => assert (E : e = - (m / K0)) end.
    { rewrite !f_along by assumption. fold m K0. field. repeat split; try lra; try assumption. change (num RMath) with R in *. match goal with |- ?e <> 0 => replace e with (4 * K0 * (h * h)) by ring end. apply Rmult_integral_contrapositive_currified; [lra|]. apply Rmult_integral_contrapositive_currified; exact Hh. }
    rewrite E. destruct (R_ltb _ _); reflexivity. }
  rewrite S1. destruct (R_ltb _ _); [|reflexivity]. rewrite S1. replace (- (m / K0) - - (m / K0)) with 0 by lra. rewrite Rabs_R0. rewrite (proj2 (R_ltb_false _ _)) by lra. reflexivity.
Qed.

(** The invariant; [H] lists the earlier gradients and directions, the latest first. *)
Record history (g : list R) (w : R) (it : Z) (d : list R) (H : list (list R * list R)) : Prop := {
  h_it : it = (1 + Z.of_nat (length H))%Z;
  h_len : Forall (fun e => length (fst e) = n /\ length (snd e) = n) H;
  h_orth : forall e, In e H -> dot g (snd e) = 0 /\ dot g (fst e) = 0;
  h_conj : forall v, length v = n -> dot v g = 0 -> (forall e, In e H -> dot v (fst e) = 0) -> forall e, In e H -> B v (snd e) = 0;
  h_span : forall v, length v = n -> (forall e, In e H -> B v (snd e) = 0) -> forall e, In e H -> B v (fst e) = 0;
  h_all : orthogonal (map fst H);
  h_last : match H with
    | [] => True
    | (g1, d1) :: T => d1 = d /\ w = dot g g / dot g1 g1 /\ (exists x1, x1 <> 0 /\ x1 * B g d1 = dot g g /\ x1 * B d1 d1 = - dot g1 g1) /\
        (forall e, In e T -> B d1 (snd e) = 0 /\ B g (snd e) = 0)
    end }.
Lemma history_step p w it d H : length p = n -> history (slope A b p) w it d H -> dot (slope A b p) (slope A b p) <> 0 -> length d = n ->
  let g := slope A b p in let d' := cg_direction RMath g d w it in
  let x := - (dot g d' / B d' d') in let p' := alongR x p d' in let g' := slope A b p' in
  length d' = n /\ 0 < B d' d' /\ history g' (dot g' g' / dot g g) (it + 1) d' ((g, d') :: H).
Proof.
  intros Lp Hh Hg Ld g d' x p' g'. destruct Hh as [Hit Hlen Horth Hconj Hspan Hall Hlast]. pose proof (slope_length p) as Lg. fold g in Lg, Hg, Horth, Hconj, Hlast.
  assert (Ld' : length d' = n) by (apply (cg_direction_length RMath); assumption).
  assert (D : (H = [] /\ forall v, dot d' v = dot g v) \/ exists g1 T, H = (g1, d) :: T /\ forall v, dot d' v = dot g v + w * dot d v).
  { unfold d', cg_direction. destruct H as [|[g1 d1] T]; cbn [length] in Hit.
    - replace (1 <? it)%Z with false by lia. left. auto.
    - replace (1 <? it)%Z with true by lia. right. destruct Hlast as (-> & _). exists g1, T. split; [reflexivity|]. intro v. apply (dot_along w g d v). exact (eq_trans Lg (eq_sym Ld)). }
  assert (Hgd : dot d' g = dot g g).
  { destruct D as [[_ E]|(g1 & T & EH & E)]; [apply E|]. rewrite E. destruct (Horth (g1, d)) as [O _]; [rewrite EH; left; reflexivity|]. cbn [snd] in O. rewrite (dot_sym d g), O. lra. }
  assert (Hc : forall e, In e H -> B d' (snd e) = 0).
  { intros e He. destruct D as [[-> _]|(g1 & T & EH & E)]; [destruct He|].
    rewrite E. subst H. destruct Hlast as (_ & Ew & (x1 & Hx & E1 & E2) & HT). destruct He as [<-|He].
    + cbn [snd]. apply (Rmult_eq_reg_l x1); [|exact Hx]. rewrite Rmult_plus_distr_l, E1. replace (x1 * (w * B d d)) with (w * (x1 * B d d)) by lra. rewrite E2, Ew. destruct Hall as [Hg1 _]. cbn in Hg1. field. exact Hg1.
    + destruct (HT e He) as [T1 T2]. rewrite T1, T2. lra. }
  assert (K : 0 < B d' d').
  { apply HA; [exact Ld'|]. intro Z0. apply Hg. rewrite <- Hgd. apply dot_self_0. exact Z0. }
  assert (Hxk : x * B d' d' = - dot g g). { unfold x. rewrite (dot_sym g d'), Hgd. field. lra. }
  assert (Hx : x <> 0). { intro Z0. rewrite Z0, Rmult_0_l in Hxk. lra. }
  assert (G : forall v, length v = n -> dot g' v = dot g v + x * B d' v) by (intros v Lv; apply dot_slope_along; assumption).
  assert (Bdg : B d' g = B d' d').
  { rewrite (B_sym d' g) by assumption. destruct D as [[_ E]|(g1 & T & EH & E)]; [rewrite (E (mat A d')); reflexivity|].
    rewrite (E (mat A d')). rewrite (B_sym d d') by assumption. pose proof (Hc (g1, d)) as C1. cbn [snd] in C1. rewrite C1 by (rewrite EH; left; reflexivity). lra. }
  assert (Og : dot g' g = 0) by (rewrite (G g Lg), Bdg; lra).
  assert (Lp' : length p' = n) by (apply alongR_length; assumption). pose proof (slope_length p') as Lg'. fold g' in Lg'.
  assert (Hl : forall e, In e H -> length (fst e) = n /\ length (snd e) = n) by (apply Forall_forall; exact Hlen).
  assert (Oe : forall e, In e H -> dot g' (snd e) = 0 /\ dot g' (fst e) = 0).
  { intros e He. destruct (Hl e He) as [L1 L2]. destruct (Horth e He) as [O1 O2]. rewrite (G _ L1), (G _ L2), O1, O2, (Hc e He), (Hspan d' Ld' Hc e He). lra. }
  split; [exact Ld'|]. split; [exact K|]. constructor.
  - cbn [length]. lia.
  - constructor; [cbn; auto|exact Hlen].
  - intros e [<-|He]; [|apply Oe; exact He]. cbn [fst snd]. split; [|exact Og]. rewrite (G d' Ld'), (dot_sym g d'), Hgd. lra.
  - intros v Lv Vg' Vh e [<-|He]; cbn [fst snd].
    + pose proof (G v Lv) as Gv. rewrite (dot_sym g' v), Vg', (dot_sym g v) in Gv. pose proof (Vh (g, d') (or_introl eq_refl)) as Vg. cbn [fst] in Vg. rewrite Vg in Gv. rewrite (B_sym v d') by assumption.
      apply (Rmult_eq_reg_l x); [|exact Hx]. lra.
    + apply Hconj; [exact Lv|apply (Vh (g, d')); left; reflexivity|intros e' He'; apply Vh; right; exact He'|exact He].
  - intros v Lv Vh e [<-|He]; cbn [fst snd].
    + pose proof (Vh (g, d') (or_introl eq_refl)) as Vd. cbn [snd] in Vd. rewrite (B_sym v g) by assumption. rewrite (B_sym v d') in Vd by assumption.
      destruct D as [[_ E]|(g1 & T & EH & E)]; rewrite (E (mat A v)) in Vd; [exact Vd|]. assert (V1 : B v d = 0) by (apply (Vh (g1, d)); right; rewrite EH; left; reflexivity). rewrite (B_sym d v), V1 in Vd by assumption. lra.
    + apply Hspan; [exact Lv|intros e' He'; apply Vh; right; exact He'|exact He].
  - cbn [map fst orthogonal]. repeat split; [exact Hg| |exact Hall]. intros h Hi. apply in_map_iff in Hi as (e & <- & He). apply Horth, He.
  - repeat split; auto.
    + exists x. repeat split; [exact Hx| |exact Hxk]. rewrite (B_sym g' d') by assumption. pose proof (G g' Lg') as E. rewrite (dot_sym g g'), Og in E. lra.
    + apply Hconj; [exact Lg'|exact Og|apply Oe|assumption].
Qed.
Lemma history_bound g w it d H : length g = n -> history g w it d H -> dot g g <> 0 -> (length H < n)%nat.
Proof.
  intros Lg Hh Hg. destruct Hh as [_ Hlen Horth _ _ Hall _].
  assert (L : (length (g :: map fst H) <= n)%nat).
  { apply orthogonal_dimension.
    - constructor; [exact Lg|]. apply Forall_map. apply (Forall_impl _ (fun e He => proj1 He) Hlen).
    - cbn [orthogonal]. repeat split; [exact Hg| |exact Hall]. intros h Hi. apply in_map_iff in Hi as (e & <- & He). apply Horth, He. }
  cbn [length] in L. rewrite map_length in L. lia.
Qed.
Lemma cg_loop_quadratic c lf : cg_increment RMath c <> 0 -> 1 / 100000 <= cg_precision RMath c -> (cg_iterations RMath c <= 1 \/ Z.of_nat n < cg_iterations RMath c)%Z ->
  forall fuel p w it d H, length p = n -> length d = n -> history (slope A b p) w it d H -> 1 / 10000000000 <= dot (slope A b p) (slope A b p) -> (n <= fuel + length H)%nat ->
  exists r, pure RMath fo (cg_loop RMath fuel (S (S lf)) c p (slope A b p) d w it) = Ok r /\ length r = n /\ sqrt (dot (slope A b r) (slope A b r)) < cg_precision RMath c.
Proof.
  intros Hh Hp HN. induction fuel as [|fuel IH]; intros p w it d H Lp Ld Hi Hg Hf.
  { pose proof (history_bound _ _ _ _ _ (slope_length p) Hi ltac:(lra)). lia. }
  assert (Hg0 : dot (slope A b p) (slope A b p) <> 0) by lra.
  destruct (history_step p w it d H Lp Hi Hg0 Ld) as (Ld' & K & Hi'). cbn zeta in Ld', K, Hi'.
  cbn [cg_loop]. change (zero RMath) with 0. set (d' := cg_direction RMath (slope A b p) d w it) in *.
  rewrite pure_bind, line_quadratic by (try assumption; lra). cbn [bind]. set (x := - (dot (slope A b p) d' / B d' d')) in *. set (p' := alongR x p d') in *.
  assert (Lp' : length p' = n) by (apply alongR_length; assumption).
  rewrite pure_bind. unfold cg_gradient. rewrite gradient_quadratic by (try assumption; reflexivity). cbn [bind]. rewrite pure_bind. unfold cg_weight.
  assert (Nz : nearly_zero RMath (sum_squares RMath (slope A b p)) = false). { rewrite sum_squares_dot, nearly_zero_spec by apply dot_pos. apply R_ltb_false. exact Hg. }
  rewrite Nz. cbn [pure bind]. rewrite !sum_squares_dot. change (n_div RMath) with Rdiv. change (m_sqrt RMath) with sqrt. change (n_leb RMath) with R_leb.
  assert (St : forall q : R_leb (cg_precision RMath c) (sqrt (dot (slope A b p') (slope A b p'))) = true, 1 / 10000000000 <= dot (slope A b p') (slope A b p')).
  { intro q. apply R_leb_true in q. pose proof (sqrt_sqrt (dot (slope A b p') (slope A b p')) (dot_pos _)) as SS.
    assert (1 / 100000 * (1 / 100000) <= sqrt (dot (slope A b p') (slope A b p')) * sqrt (dot (slope A b p') (slope A b p'))) by (apply Rmult_le_compat; lra). lra. }
  destruct (R_leb (cg_precision RMath c) (sqrt (dot (slope A b p') (slope A b p')))) eqn:E.
  - specialize (St eq_refl). pose proof (history_bound _ _ _ _ _ (slope_length p') Hi' ltac:(lra)) as Bd. cbn [length] in Bd. pose proof (h_it _ _ _ _ _ Hi) as Eit.
    replace (it + 1 =? cg_iterations RMath c)%Z with false by lia. apply (IH p' _ _ _ _ Lp' Ld' Hi' St). cbn [length]. lia.
  - apply R_leb_false in E. exists p'. split; [destruct (_ =? _)%Z; reflexivity|]. split; [exact Lp'|exact E].
Qed.
(** a point with a short slope is nearly a minimum *)
Lemma near_minimum r mu : 0 < mu -> (forall x, length x = n -> mu * dot x x <= B x x) -> forall y, length r = n -> length y = n ->
  f r <= f y + dot (slope A b r) (slope A b r) / (2 * mu).
Proof.
  intros Hmu Hlow y Lr Ly. set (d := alongR (-1) y r). assert (Ld : length d = n) by (apply alongR_length; assumption).
  assert (Ey : y = alongR 1 r d).
  { unfold d. clear -Lr Ly. revert y r Ly Lr. generalize n. intro m. induction m as [|m IH]; intros [|y ys] [|r rs] Ly Lr; cbn in Ly, Lr; try discriminate; [reflexivity|].
    unfold along in *. cbn [zip_with]. apply (f_equal2 (@cons R)); [cbn; lra|]. apply IH; lia. }
  set (g := slope A b r). assert (Ef : f y = f r + dot g d + B d d / 2). { rewrite Ey at 1. rewrite f_along by assumption. fold g. lra. }
  rewrite Ef. pose proof (Hlow d Ld) as L. set (w := alongR mu g d). pose proof (dot_pos w) as W. assert (Lg : length g = n) by apply slope_length.
  assert (Ew : dot w w = dot g g + 2 * mu * dot g d + mu * mu * dot d d).
  { pose proof (eq_trans Lg (eq_sym Ld)) as Lgd. unfold w at 1. rewrite (dot_along mu g d w Lgd). rewrite (dot_sym g w), (dot_sym d w). unfold w. rewrite (dot_along mu g d g Lgd), (dot_along mu g d d Lgd). rewrite (dot_sym d g). lra. }
  rewrite Ew in W. assert (0 <= (dot g g + 2 * mu * dot g d + mu * mu * dot d d) / (2 * mu)) as W' by (apply Rmult_le_pos; [exact W|left; apply Rinv_0_lt_compat; lra]).
  replace ((dot g g + 2 * mu * dot g d + mu * mu * dot d d) / (2 * mu)) with (dot g g / (2 * mu) + dot g d + mu * dot d d / 2) in W' by (field; lra). lra.
Qed.
End Quadratic.

(** ** C61 A strictly convex quadratic function of n variables is minimised in at most n rounds (exact arithmetic): the gradient at the
    result is shorter than the precision. *)
Theorem C61_quadratic : forall (A : list (list R)) (b : list R) (k : R) (c : cg_cfg RMath) (fuel lf : nat) (init : list R),
  let n := length init in
  spd n A -> length b = n -> cg_increment RMath c <> 0 -> 1 / 100000 <= cg_precision RMath c ->
  (cg_iterations RMath c <= 1 \/ Z.of_nat n < cg_iterations RMath c)%Z -> (n <= fuel)%nat -> (2 <= lf)%nat ->
  1 / 10000000000 <= dot (slope A b init) (slope A b init) ->
  exists r, pure RMath (fun v => Ok (quadratic A b k v)) (cg_find RMath fuel lf c init) = Ok r /\ length r = n /\ sqrt (dot (slope A b r) (slope A b r)) < cg_precision RMath c /\
    forall mu, 0 < mu -> (forall x, length x = n -> mu * dot x x <= dot x (mat A x)) ->
      forall y, length y = n -> quadratic A b k r <= quadratic A b k y + cg_precision RMath c * cg_precision RMath c / (2 * mu).
Proof.
  intros A b k c fuel lf init n HA Hb Hh Hp HN Hf Hlf Hg. destruct lf as [|[|lf]]; [lia|lia|]. unfold cg_find. rewrite pure_bind. unfold cg_gradient.
  rewrite (gradient_quadratic n A b k HA Hb) by (try assumption; reflexivity). cbn [bind].
  destruct (cg_loop_quadratic n A b k HA Hb c lf Hh Hp HN fuel init (zero RMath) 1%Z (repeat (zero RMath) (length init)) []) as (r & E & Lr & Hr); [reflexivity|apply repeat_length| |exact Hg|cbn; lia|].
  { constructor; cbn; auto; intros; contradiction. }
  exists r. split; [exact E|]. split; [exact Lr|]. split; [exact Hr|]. intros mu Hmu Hlow y Ly.
  apply (Rle_trans _ (quadratic A b k y + dot (slope A b r) (slope A b r) / (2 * mu))).
  - apply (near_minimum n A b k HA Hb r mu Hmu Hlow y Lr Ly).
  - pose proof (sqrt_sqrt (dot (slope A b r) (slope A b r)) (dot_pos _)) as SS. pose proof (sqrt_pos (dot (slope A b r) (slope A b r))) as SP.
    assert (dot (slope A b r) (slope A b r) <= cg_precision RMath c * cg_precision RMath c) by (rewrite <- SS; apply Rmult_le_compat; lra).
    apply Rplus_le_compat_l. unfold Rdiv. apply Rmult_le_compat_r; [|assumption]. left. apply Rinv_0_lt_compat. lra.
Qed.
(** the hypotheses can be met *)
Example C61_quadratic_example : spd 2 [[2; 1]; [1; 3]] /\ 1 / 10000000000 <= dot (slope [[2; 1]; [1; 3]] [-1; 4] [5; 7]) (slope [[2; 1]; [1; 3]] [-1; 4] [5; 7]) /\
  forall x, length x = 2%nat -> 1 * dot x x <= dot x (mat [[2; 1]; [1; 3]] x).
Proof.
  split; [split; [reflexivity|split]|split].
  - intros [|x1 [|x2 [|]]] [|y1 [|y2 [|]]]; cbn; intros; try discriminate; lra.
  - intros [|x1 [|x2 [|]]]; cbn; intros L H; try discriminate. assert (0 < x1 * x1 + x2 * x2) by nra. nra.
  - cbn. lra.
  - intros [|x1 [|x2 [|]]]; cbn; intros L; try discriminate. nra.
Qed.
(** ** C61 Binary64 with the default configuration: a linear function has a NaN as its minimum, ... *)
Definition C61_default : cg_cfg FMath := MkCg FMath (d_div (d_ofZ 1) (d_ofZ 10000)) (d_div (d_ofZ 1) (d_ofZ 100000)) 1000.
Theorem C61_linear_binary64_refuted : exists r : dbl, pure FMath (fun v : list dbl => Ok (nth 0 v (d_ofZ 0))) (cg_find FMath 2 3 C61_default [d_ofZ 0]) = Ok [r] /\ is_nan r = true.
Proof.
  assert (E : match pure FMath (fun v : list dbl => Ok (nth 0 v (d_ofZ 0))) (cg_find FMath 2 3 C61_default [d_ofZ 0]) with Ok [r] => is_nan (r : dbl) | _ => false end = true) by (vm_compute; reflexivity).
  destruct (pure FMath (fun v : list dbl => Ok (nth 0 v (d_ofZ 0))) (cg_find FMath 2 3 C61_default [d_ofZ 0])) as [[|r [|]]| |]; try discriminate. exists r. auto.
Qed.
(** ... starting at the minimum of x^2 throws (the fuel of both loops is no obstacle), and 3/10 is a start from which the minimum is found. *)
Theorem C61_start_at_minimum_binary64_refuted : pure FMath (fun v : list dbl => Ok (let x := nth 0 v (d_ofZ 0) in d_mul x x)) (cg_find FMath 1 1 C61_default [d_ofZ 0]) = Throw RuntimeError.
Proof.
  assert (E : match pure FMath (fun v : list dbl => Ok (let x := nth 0 v (d_ofZ 0) in d_mul x x)) (cg_find FMath 1 1 C61_default [d_ofZ 0]) with Throw RuntimeError => true | _ => false end = true) by (vm_compute; reflexivity).
  destruct (pure FMath (fun v : list dbl => Ok (let x := nth 0 v (d_ofZ 0) in d_mul x x)) (cg_find FMath 1 1 C61_default [d_ofZ 0])) as [|[]|]; try discriminate. reflexivity.
Qed.
Example C61_binary64_example : match pure FMath (fun v : list dbl => Ok (let x := nth 0 v (d_ofZ 0) in d_mul x x)) (cg_find FMath 9 9 C61_default [d_div (d_ofZ 3) (d_ofZ 10)]) with
  | Ok [r] => d_ltb (Babs r) (d_div (d_ofZ 1) (d_ofZ 10000)) | _ => false end = true.
Proof. vm_compute. reflexivity. Qed.

Print Assumptions C61_evaluations.
Print Assumptions C61_limit.
Print Assumptions C61_limit_0_1_refuted.
Print Assumptions C61_stationary_start.
Print Assumptions C61_throws_only_at_the_start.
Print Assumptions C61_quadratic.
Print Assumptions C61_linear_binary64_refuted.
Print Assumptions C61_start_at_minimum_binary64_refuted.
