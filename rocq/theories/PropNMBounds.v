(** C46: bounds in the bounded Nelder-Mead method. *)
From Coq Require Import Reals Psatz.
From Flocq Require Import IEEE754.BinarySingleNaN.
From Verif Require Import Base Num DblOrder Misc Optim PropOptim Hooke PropHooke NelderMead PropNelderMead.
Local Open Scope Z_scope.
Local Open Scope list_scope.

(** *** Specification *)
(** all coordinates within the bounds *)
Definition in_box (lo hi : R) (v : list R) : Prop := Forall (fun x => (lo <= x <= hi)%R) v.

(** *** every vector asked for by a search satisfies P and every result satisfies Q, whatever the answers *)
Fixpoint asks {N : Num} {A : Type} (P : list (num N) -> Prop) (Q : A -> Prop) (s : search N A) : Prop :=
  match s with
  | Ret a => Q a
  | Ask _ v k => P v /\ forall y, asks P Q (k y)
  | Fail _ => True
  | Undef _ => True
  end.
Lemma asks_bind {N A B} (P : list (num N) -> Prop) (Q : A -> Prop) (Q' : B -> Prop) s k :
  asks P Q s -> (forall a, Q a -> asks P Q' (k a)) -> asks P Q' (sbind s k).
Proof.
  intros H K. revert H. induction s as [a|m v c IH|e|u]; cbn; auto. intros [H1 H2]. split; [exact H1|]. intro y. apply IH. apply H2.
Qed.
Lemma asks_lift {N A} (P : list (num N) -> Prop) (Q : A -> Prop) o : (forall a, o = Ok a -> Q a) -> asks P Q (lift o).
Proof. destruct o; cbn; auto. Qed.
Lemma asks_ask {N} (P : list (num N) -> Prop) v : P v -> asks P (fun _ => True) (ask_min N v).
Proof. cbn. auto. Qed.

(** ... so the objective function is only applied to such vectors *)
Lemma run_asks {N A} (P : list (num N) -> Prop) (Q : A -> Prop) f maximize : forall (s : search N A), asks P Q s ->
  forall p log o q log', run N (list (num N)) (arr_set N) (arr_get N) (arr_check N) f maximize s p log = (o, q, log') ->
  Forall P log -> Forall P log' /\ (forall a, o = Ok a -> Q a).
Proof.
  induction s as [a|m v c IH|e|u]; intros H p log o q log' R F; cbn in R.
  - inversion R; subst. split; [exact F|]. intros b E. injection E as <-. exact H.
  - destruct H as [H1 H2]. unfold count_value, arr_set, arr_get, arr_check in R.
    destruct (Nat.eqb (length v) (length p)); [|inversion R; subst; split; [exact F|discriminate]].
    assert (F' : Forall P (log ++ [v])) by (apply Forall_app; split; [exact F|constructor; auto]).
    destruct (f v) as [y|e|u]; [|inversion R; subst; split; [exact F'|discriminate]..].
    eapply IH; [apply H2|exact R|exact F'].
  - inversion R; subst. split; [exact F|discriminate].
  - inversion R; subst. split; [exact F|discriminate].
Qed.

Lemma optimize_asks {N} (P Q : list (num N) -> Prop) f maximize find p o q log : asks P Q (find p) ->
  optimize N (list (num N)) (arr_set N) (arr_get N) (arr_check N) f maximize find p = (o, q, log) ->
  Forall P log /\ (o = Ok tt -> Q q).
Proof.
  intros A H. unfold optimize in H. change (arr_get N p) with p in H.
  destruct (run N (list (num N)) (arr_set N) (arr_get N) (arr_check N) f maximize (find p) p []) as [[o1 q1] l1] eqn:E.
  destruct (run_asks P Q f maximize _ A p [] o1 q1 l1 E ltac:(constructor)) as [F R].
  destruct o1 as [v|e|u]; [|inversion H; subst; split; [exact F|discriminate]..].
  unfold arr_set in H. destruct (Nat.eqb (length v) (length q1)); inversion H; subst; (split; [exact F|]); intro X; [|discriminate].
  apply R. reflexivity.
Qed.

Lemma Ok_inj {A} (x y : A) : Ok x = Ok y -> x = y.
Proof. congruence. Qed.

Section Box.
Variable c : nm_cfg RMath.
Notation lo := (nm_lower RMath c : R).
Notation hi := (nm_upper RMath c : R).
Hypothesis LH : (lo <= hi)%R.
Variable eps : R.
Variable n : nat.
Hypothesis Hn : (1 <= n)%nat.
Notation box := (in_box lo hi).
Definition good (polygon : list (list R)) : Prop := simplex_shape RMath n polygon /\ Forall box polygon.

Lemma project_box v : box (project RMath c v).
Proof.
  unfold project, in_box. apply Forall_forall. intros x Hx. apply in_map_iff in Hx as (y & <- & _).
  change (n_ltb RMath) with R_ltb. unfold R_ltb. destruct (Rlt_dec _ _); [lra|]. destruct (Rlt_dec _ _); lra.
Qed.

Lemma zip_box (op : R -> R -> R) : (forall x y, (lo <= x <= hi)%R -> (lo <= y <= hi)%R -> (lo <= op x y <= hi)%R) ->
  forall a b, box a -> box b -> box (zip_with RMath op a b).
Proof.
  intros H. induction a as [|x a IH]; intros b Ha Hb; [constructor|]. destruct b as [|y b]; [constructor|].
  inversion Ha; inversion Hb; subst. constructor; [apply H; assumption|apply IH; assumption].
Qed.
Lemma midpoint_box : forall x y, (lo <= x <= hi)%R -> (lo <= y <= hi)%R ->
  (lo <= n_add RMath x (n_mul RMath (half RMath) (n_sub RMath y x)) <= hi)%R.
Proof. intros x y Hx Hy. unfold half. cbn. lra. Qed.

Lemma nth_box v i : box v -> (i < length v)%nat -> (lo <= nth i v 0 <= hi)%R.
Proof. intros H L. unfold in_box in H. rewrite Forall_forall in H. apply H. apply nth_In. exact L. Qed.
Lemma column_box i : (i < n)%nat -> forall polygon, Forall (fun v => length v = n) polygon -> Forall box polygon ->
  (INR (length polygon) * lo <= column_sum polygon i <= INR (length polygon) * hi)%R.
Proof.
  intros Hi. induction polygon as [|v r IH]; intros F B; cbn [column_sum length]; [cbn; lra|].
  pose proof (Forall_inv F) as F0. pose proof (Forall_inv_tail F) as F1. pose proof (Forall_inv B) as B0. pose proof (Forall_inv_tail B) as B1. cbn in F0. rewrite S_INR. pose proof (nth_box v i ltac:(assumption) ltac:(lia)). specialize (IH ltac:(assumption) ltac:(assumption)). nra.
Qed.
Lemma column_without_box i : (i < n)%nat -> forall polygon k, (k < length polygon)%nat -> Forall (fun v => length v = n) polygon -> Forall box polygon ->
  (INR (length polygon - 1) * lo <= column_sum polygon i - nth i (nth k polygon []) 0 <= INR (length polygon - 1) * hi)%R.
Proof.
  intros Hi. induction polygon as [|v r IH]; intros k Hk F B; cbn [length] in *; [lia|].
  pose proof (Forall_inv F) as F0. pose proof (Forall_inv_tail F) as F1. pose proof (Forall_inv B) as B0. pose proof (Forall_inv_tail B) as B1. cbn in F0. replace (S (length r) - 1)%nat with (length r) by lia. cbn [column_sum].
  destruct k as [|k]; cbn [nth].
  - pose proof (column_box i Hi r ltac:(assumption) ltac:(assumption)). lra.
  - specialize (IH k ltac:(lia) ltac:(assumption) ltac:(assumption)). pose proof (nth_box v i ltac:(assumption) ltac:(lia)).
    replace (length r) with (S (length r - 1)) by lia. rewrite S_INR. nra.
Qed.
Lemma center_box polygon k c0 : good polygon -> (k < S n)%nat -> center_of_mass RMath polygon k = Ok c0 -> length c0 = n /\ box c0.
Proof.
  intros [[L F] B] Hk E. destruct (C46_center_of_mass n polygon k Hn L F ltac:(lia)) as (c1 & E1 & L1 & H1).
  rewrite E in E1. injection E1 as <-. split; [exact L1|]. unfold in_box. apply Forall_forall. intros x Hx.
  apply In_nth_error in Hx as (i & Hi). assert (Li : (i < n)%nat) by (rewrite <- L1; apply nth_error_Some; change (num RMath) with R in *; congruence).
  specialize (H1 i Li). change (num RMath) with R in *. rewrite (@nth_error_nth R c0 i x 0%R Hi) in H1.
  pose proof (column_without_box i Li polygon k ltac:(lia) F B) as C. rewrite L in C. replace (S n - 1)%nat with n in C by lia. rewrite <- H1 in C.
  assert (0 < INR n)%R by (apply lt_0_INR; lia). destruct C as [C1 C2].
  apply Rmult_le_reg_l in C1; [|assumption]. apply Rmult_le_reg_l in C2; [|assumption]. split; assumption.
Qed.

Lemma good_upd polygon k v : good polygon -> length v = n -> box v -> good (upd polygon k v).
Proof.
  intros [S F] L B. split; [apply upd_shape; assumption|]. rewrite Forall_forall in *. intros w Hw. apply In_nth_error in Hw as (i & Hi).
  rewrite nth_error_upd in Hi. destruct (Nat.eqb k i).
  - destruct (i <? length polygon)%nat; [injection Hi as <-; exact B|discriminate].
  - apply F. eapply nth_error_In; exact Hi.
Qed.
Lemma good_nth polygon k v : good polygon -> nth_error polygon k = Some v -> length v = n /\ box v.
Proof.
  intros [[L F] B] H. apply nth_error_In in H. rewrite Forall_forall in F, B. split; auto.
Qed.
Lemma reduction_good polygon k q : good polygon -> reduction RMath polygon k = Ok q -> good q.
Proof.
  intros G H. pose proof G as [S B]. destruct (Nat.lt_ge_cases k (Datatypes.S n)) as [Hk|Hk].
  - destruct (reduction_ok RMath n Hn polygon k S Hk) as (q' & E & S'). assert (q' = q) as -> by (change (num RMath) with R in *; congruence). split; [exact S'|].
    unfold reduction in H. change (num RMath) with R in *. destruct (nth_error polygon k) as [p|] eqn:Ep; [|discriminate]. apply Ok_inj in H. rewrite <- H.
    destruct (good_nth polygon k p G Ep) as [Lp Bp]. apply Forall_forall. intros w Hw. apply in_map_iff in Hw as ([i v] & <- & Hv). cbn [fst snd].
    assert (Bv : box v) by (rewrite Forall_forall in B; apply B; eapply in_combine_r; exact Hv).
    destruct (Nat.eqb i k); [exact Bv|]. apply zip_box; [apply midpoint_box| |]; assumption.
  - unfold reduction in H. destruct S as [L _]. change (num RMath) with R in *. rewrite (proj2 (nth_error_None polygon k)) in H by lia. discriminate.
Qed.

Lemma nm_body_box polygon values : good polygon -> length values = S n ->
  asks (N := m_num RMath) (box : list (num (m_num RMath)) -> Prop) (fun r => good (fst (fst r)) /\ length (snd (fst r)) = S n) (nm_body RMath c polygon values).
Proof.
  intros G Lv. unfold nm_body. destruct (get_indexes_ok RMath n Hn values) as (fm & sm & mn & Ei & H1 & H2 & H3); [change (num RMath) with R in *; lia|].
  eapply asks_bind; [apply asks_lift with (Q := fun i => i = (fm, sm, mn)); intros a Ea; congruence|]. intros a ->.
  eapply asks_bind; [apply asks_lift with (Q := fun _ => True); auto|]. intros highest _.
  eapply asks_bind; [apply asks_lift with (Q := fun _ => True); auto|]. intros second _.
  eapply asks_bind; [apply asks_lift with (Q := fun _ => True); auto|]. intros lowest _.
  eapply asks_bind; [apply asks_lift with (Q := fun v => length v = n /\ box v); intros v; apply center_box; [exact G|change (num RMath) with R in *; lia]|]. intros center [Lc Bc].
  eapply asks_bind; [apply asks_lift with (Q := fun v => length v = n /\ box v); intros v Hv; apply at_ok in Hv; eapply good_nth; eassumption|].
  intros worst [Lw Bw].
  set (refl := project RMath c (reflexion RMath center worst)).
  assert (Br : box refl) by apply project_box.
  assert (Lr : length refl = n) by (unfold refl, reflexion; rewrite project_length, zip_length; change (num RMath) with R in *; congruence).
  eapply asks_bind; [apply asks_ask; exact Br|]. intros rv _.
  destruct (n_ltb RMath rv lowest).
  { set (ex := project RMath c (expansion RMath center refl)).
    assert (Be : box ex) by apply project_box.
    assert (Le : length ex = n) by (unfold ex, expansion; rewrite project_length, zip_length; change (num RMath) with R in *; congruence).
    eapply asks_bind; [apply asks_ask; exact Be|]. intros ev _.
    destruct (n_ltb RMath ev rv); cbn [asks fst snd]; (split; [apply good_upd; assumption|rewrite upd_length; exact Lv]). }
  destruct (n_leb RMath rv second).
  { cbn [asks fst snd]; (split; [apply good_upd; assumption|rewrite upd_length; exact Lv]). }
  set (bt := n_ltb RMath rv highest). set (p1 := if bt then upd polygon fm refl else polygon). set (v1 := if bt then upd values fm rv else values).
  assert (G1 : good p1) by (unfold p1; destruct bt; [apply good_upd; assumption|exact G]).
  assert (L1 : length v1 = S n) by (unfold v1; destruct bt; [rewrite upd_length|]; exact Lv).
  eapply asks_bind; [apply asks_lift with (Q := fun v => length v = n /\ box v); intros v Hv; apply at_ok in Hv; eapply good_nth; eassumption|].
  intros t [Lt Bt]. set (ct := contraction RMath center t).
  assert (Bct : box ct) by (apply zip_box; [apply midpoint_box| |]; assumption).
  assert (Lct : length ct = n) by (unfold ct, contraction; rewrite zip_length; change (num RMath) with R in *; congruence).
  eapply asks_bind; [apply asks_ask; exact Bct|]. intros cv _.
  destruct (n_ltb RMath (if bt then rv else highest) cv).
  - eapply asks_bind; [apply asks_lift with (Q := good); intros q Hq; eapply reduction_good; eassumption|]. intros q Gq.
    cbn [asks fst snd]. split; assumption.
  - cbn [asks fst snd]; (split; [apply good_upd; assumption|rewrite upd_length; exact L1]).
Qed.

Lemma nm_loop_box : forall fuel r polygon values prev red, good polygon -> length values = S n ->
  asks (N := m_num RMath) (box : list (num (m_num RMath)) -> Prop) (fun x => good (fst (fst (fst x))) /\ length (snd (fst (fst x))) = S n) (nm_loop RMath eps fuel c r polygon values prev red).
Proof.
  induction fuel as [|fu IH]; intros r polygon values prev red G Lv; [exact I|]. cbn [nm_loop].
  eapply asks_bind; [apply nm_body_box; assumption|]. intros [[p' v'] rd] [Gp Lp]. cbn [fst snd] in *.
  eapply asks_bind; [apply asks_lift with (Q := fun _ => True); auto|]. intros [cont prev'] _.
  destruct cont; [apply IH; assumption|]. cbn [asks fst snd]. split; assumption.
Qed.
Lemma ask_all_box : forall vs, Forall box vs -> asks (N := m_num RMath) (box : list (num (m_num RMath)) -> Prop) (fun ys => length ys = length vs) (ask_all RMath vs).
Proof.
  induction vs as [|v vs IH]; intro F; [reflexivity|]. inversion F; subst. cbn [ask_all].
  eapply asks_bind; [apply asks_ask; assumption|]. intros y _. eapply asks_bind; [apply IH; assumption|]. intros ys L. cbn. f_equal. exact L.
Qed.
Lemma nm_find_box prev init : length init = n -> Forall box (regular_simplex RMath init (nm_l RMath c)) ->
  asks (N := m_num RMath) (box : list (num (m_num RMath)) -> Prop) (fun v => box v) (nm_find RMath eps c prev init).
Proof.
  intros L F. unfold nm_find, nm_run.
  pose proof (regular_simplex_shape RMath n init (nm_l RMath c) L) as S0.
  eapply asks_bind; [eapply asks_bind; [apply ask_all_box; exact F|]|].
  - intros values Lv. apply nm_loop_box; [split; assumption|]. destruct S0 as [S0 _]. etransitivity; [exact Lv|exact S0].
  - intros [[[p v] pr] rd] [G Lv]. cbn [fst snd] in *. apply asks_lift. intros w Hw. apply at_ok in Hw. eapply good_nth; eassumption.
Qed.

Lemma simplex_r_bounds l : (0 <= l)%R -> (0 <= simplex_r2 RMath n l <= l /\ 0 <= simplex_r1 RMath n l <= l)%R.
Proof.
  intros Hl. unfold simplex_r1, simplex_r2. cbn [m_sqrt m_num RMath n_ofZ n_add n_sub n_mul n_div RNum].
  rewrite plus_IZR, <- INR_IZR_INZ. assert (N0 : (1 <= INR n)%R) by (apply (le_INR 1); exact Hn).
  set (N := INR n) in *. clearbody N.
  pose proof (sqrt_sqrt (N + 1) ltac:(lra)) as S1. pose proof (sqrt_sqrt 2 ltac:(lra)) as S2.
  assert (T0 : (1 <= sqrt 2)%R) by (rewrite <- sqrt_1 at 1; apply sqrt_le_1; lra).
  assert (ST : (sqrt 2 <= sqrt (N + 1))%R) by (apply sqrt_le_1; lra).
  set (s := sqrt (N + 1)) in *. set (t := sqrt 2) in *. clearbody s t.
  assert (P : (0 < N * t)%R) by nra.
  assert (Q : forall x, (0 <= x <= N * t)%R -> (0 <= l * x / (N * t) <= l)%R).
  { intros x [X1 X2]. split.
    - apply Rmult_le_pos; [nra|]. left. apply Rinv_0_lt_compat. exact P.
    - apply Rmult_le_reg_r with (N * t)%R; [exact P|]. unfold Rdiv. rewrite Rmult_assoc, Rinv_l by lra. nra. }
  assert (N = s * s - 1)%R by lra.
  split; apply Q; split; try nra.
Qed.
Lemma vertex_box r1 r2 l i : (0 <= r1 <= l)%R -> (0 <= r2 <= l)%R -> forall base j, Forall (fun x => (lo <= x /\ x + l <= hi)%R) base -> box (vertex RMath r1 r2 i j base).
Proof.
  intros H1 H2. induction base as [|x b IH]; intros j F; [constructor|]. inversion F; subst. cbn [vertex]. constructor; [|apply IH; assumption].
  change (n_add RMath) with Rplus. destruct (Nat.eqb j i); lra.
Qed.
Lemma simplex_box init : length init = n -> (0 <= nm_l RMath c)%R -> Forall (fun x => (lo <= x /\ x + nm_l RMath c <= hi)%R) init ->
  Forall box (regular_simplex RMath init (nm_l RMath c)).
Proof.
  intros L Hl F. pose proof (simplex_r_bounds (nm_l RMath c) Hl) as [B2 B1]. unfold regular_simplex. change (num RMath) with R in *. rewrite L. constructor.
  - unfold in_box. eapply Forall_impl; [|exact F]. cbn. intros x Hx. lra.
  - apply Forall_forall. intros v Hv. apply in_map_iff in Hv as (i & <- & _). eapply vertex_box; eassumption.
Qed.
End Box.

(** ** C46 Bounds, in exact arithmetic: if the starting point has room for an edge below the upper bound in every
    coordinate (lower <= x and x + edge <= upper), then, whatever the objective function does (even throw), it is applied
    only to vectors within the bounds, and a vector stored as the result is within the bounds. *)
Theorem C46_bounds : forall eps f maximize (lo hi precision l : R) prev p o q log,
  (lo <= hi)%R -> (0 <= l)%R -> (1 <= length p)%nat -> Forall (fun x => (lo <= x /\ x + l <= hi)%R) p ->
  optimize RNum (list R) (arr_set RNum) (arr_get RNum) (arr_check RNum) f maximize (nm_find RMath eps (MkNM RMath l precision lo hi) prev) p = (o, q, log) ->
  Forall (in_box lo hi) log /\ (o = Ok tt -> in_box lo hi q).
Proof.
  intros eps f mx lo hi pr l prev p o q log LH Hl Hn Hp H.
  pose proof (nm_find_box (MkNM RMath l pr lo hi) LH eps (length p) Hn prev p eq_refl) as A. cbn [nm_l nm_lower nm_upper] in A.
  specialize (A (simplex_box (MkNM RMath l pr lo hi) (length p) Hn p eq_refl Hl Hp)).
  exact (optimize_asks (N := RNum) (in_box lo hi) (in_box lo hi) f mx _ p o q log A H).
Qed.
Print Assumptions C46_bounds.
Example C46_bounds_witness : ((-5 <= 5)%R /\ (0 <= 1)%R /\ (1 <= length [0%R; 2%R])%nat /\ Forall (fun x => (-5 <= x /\ x + 1 <= 5)%R) [0%R; 2%R]).
Proof. repeat split; try lra; cbn; try lia. repeat constructor; lra. Qed.

(** ** C46 Without that room the bounds are not respected: the initial simplex and contracted points are not projected.
    Maximising x*x (minimising -x*x) between -5 and 5 from 5, with edge 1, applies the function to 6 and stores 5.5. *)
Theorem C46_out_of_bounds_refuted :
  match optimize FNum (list dbl) (arr_set FNum) (arr_get FNum) (arr_check FNum) (fun v => Ok (C46_square v)) true (nm_find FMath d_eps C46_cfg []) [d_ofZ 5] with
  | (Ok tt, [x], log) => (d_eqb x (d_of 11 (-1)) && existsb (fun v => match v with y :: _ => d_eqb y (d_ofZ 6) | [] => false end) log)%bool
  | _ => false end = true.
Proof. vm_compute. reflexivity. Qed.
