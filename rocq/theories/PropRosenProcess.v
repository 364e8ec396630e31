(** C68: the points the Rosenbrock method visits, and where it stops. *)
From Coq Require Import Reals Psatz Permutation Sorted.
From Verif Require Import Base Num Optim PropOptim NelderMead PropNelderMead Rosenbrock PropRosenbrock.
Local Open Scope nat_scope.
Local Open Scope list_scope.

(** ** Specification, on lists of reals *)
Definition co (x : nat) (v : list R) : R := nth x v 0%R.
(** coordinate [x] of the linear combination *)
Fixpoint lin (a : list R) (vs : list (list R)) (x : nat) : R := match a, vs with s :: r, v :: q => (s * co x v + lin r q x)%R | _, _ => 0%R end.
(** the point [p + s*d] *)
Definition shifted (p : list R) (s : R) (d : list R) : list R := map (fun x => (co x p + s * co x d)%R) (seq 0 (length p)).
(** a step cut to the longest one *)
Definition cut (longest s : R) : R := if Rle_dec (Rabs s) longest then s else (longest * (s / Rabs s))%R.
(** A stage for minimising [g]: the steps are taken in descending order; each is tried from [p] along its own direction, kept and lengthened by half
    if the value there is smaller, reversed and halved otherwise; then all the new steps are made. [log]: where [g] is evaluated. *)
Record stage (g : list R -> R) (longest : R) (p steps : list R) (dirs : list (list R)) (p' steps' : list R) (log : list (list R)) : Prop := MkStage {
  sg_order : exists order, Permutation steps order /\ StronglySorted (fun a b => (b <= a)%R) order /\
    length steps' = length order /\
    log = p :: map (fun sd => shifted p (fst sd) (snd sd)) (combine order dirs) /\
    forall i s d, nth_error order i = Some s -> nth_error dirs i = Some d ->
      nth_error steps' i = Some (cut longest (s * (if Rlt_dec (g (shifted p s d)) (g p) then 3 / 2 else - (1 / 2))));
  sg_length : length p' = length p;
  sg_point : forall x, x < length p -> co x p' = (co x p + lin steps' dirs x)%R }.
(** The directions of the next stage: orthonormal, direction [j] making a positive angle part with what was moved along the directions [j], [j+1], ...,
    of which it is a combination together with the new directions before it. *)
Definition turned (n : nat) (dirs : list (list R)) (steps : list R) (dirs' : list (list R)) : Prop :=
  orthonormal n dirs' /\
  forall j, j < n -> exists a r, length a = j /\ (0 < r)%R /\ forall x, x < n -> lin (skipn j steps) (skipn j dirs) x = lin (a ++ [r]) dirs' x.
(** The whole method with [k] stages left; [q] is the result, [log] the evaluations. *)
Inductive visits (g : list R -> R) (precision longest : R) : nat -> list R -> list R -> list (list R) -> list R -> list (list R) -> Prop :=
| V_end : forall p steps dirs, visits g precision longest 0 p steps dirs p []
| V_close : forall k p steps dirs p' steps' log, stage g longest p steps dirs p' steps' log ->
    (forall x, x < length p -> (Rabs (co x p' - co x p) <= precision)%R) -> visits g precision longest (S k) p steps dirs p' log
| V_go : forall k p steps dirs p' steps' log dirs' q log', stage g longest p steps dirs p' steps' log ->
    (exists x, x < length p /\ (precision < Rabs (co x p' - co x p))%R) -> turned (length p) dirs steps' dirs' ->
    visits g precision longest k p' steps' dirs' q log' -> visits g precision longest (S k) p steps dirs q (log ++ log').

(** ** Vectors *)
Lemma co_zip (op : R -> R -> R) : forall a b x, x < length a -> length a = length b -> co x (zipR op a b) = op (co x a) (co x b).
Proof. unfold co. induction a as [|u a IH]; intros [|v b] x L E; cbn [length] in *; try lia. cbn [zip_with]. destruct x as [|x]; [reflexivity|]. cbn [nth]. apply IH; lia. Qed.
Lemma co_move s (d p : list R) x : x < length p -> length p = length d -> co x (rb_move RMath s d p) = (co x p + s * co x d)%R.
Proof. intros L E. unfold rb_move. exact (co_zip (fun a b => (a + s * b)%R) p d x L E). Qed.
Lemma co_ext (a b : list R) : length a = length b -> (forall x, x < length a -> co x a = co x b) -> a = b.
Proof. unfold co. revert b. induction a as [|u a IH]; intros [|v b] L H; cbn [length] in *; try discriminate; [reflexivity|]. f_equal; [exact (H 0 ltac:(lia))|]. apply IH; [lia|]. intros x Hx. exact (H (S x) ltac:(lia)). Qed.
Lemma co_shifted p s d x : x < length p -> co x (shifted p s d) = (co x p + s * co x d)%R.
Proof. intro L. unfold shifted, co at 1. erewrite nth_indep; [|rewrite map_length, seq_length; exact L]. rewrite (map_nth (fun x => (co x p + s * co x d)%R) (seq 0 (length p)) 0 x). rewrite seq_nth by exact L. reflexivity. Qed.
Lemma shifted_length p s d : length (shifted p s d) = length p.
Proof. unfold shifted. rewrite map_length, seq_length. reflexivity. Qed.
Lemma move_shifted s (d p : list R) : length p = length d -> rb_move RMath s d p = shifted p s d.
Proof.
  intro E. assert (L : @length R (rb_move RMath s d p) = length p) by (apply move_length; exact E).
  apply co_ext; [rewrite shifted_length; exact L|]. intros x Hx. change (num RMath) with R in *. rewrite L in Hx. rewrite co_move, co_shifted by assumption. reflexivity.
Qed.
Lemma co_row n : forall (steps : list R) (dirs : list (list R)) (acc : list R) x, Forall (fun v => length v = n) dirs -> length acc = n -> x < n -> co x (rb_row RMath steps dirs acc) = (co x acc + lin steps dirs x)%R.
Proof.
  induction steps as [|s ss IH]; intros [|d ds] acc x F L Hx; cbn [rb_row lin]; [change (num RMath) with R; lra..|]. inversion F; subst.
  assert (Lm : @length R (rb_move RMath s d acc) = length acc) by (apply move_length; symmetry; assumption).
  rewrite IH; [|assumption..]. rewrite co_move; [lra|assumption|symmetry; assumption].
Qed.
Lemma lin_app : forall a vs b ws x, length a = length vs -> lin (a ++ b) (vs ++ ws) x = (lin a vs x + lin b ws x)%R.
Proof. induction a as [|s a IH]; intros [|v vs] b ws x L; cbn [length] in L; try discriminate; cbn [app lin]; [lra|]. rewrite IH by lia. lra. Qed.
Lemma lin_more : forall a vs ws x, length a = length vs -> lin a (vs ++ ws) x = lin a vs x.
Proof. induction a as [|s a IH]; intros [|v vs] ws x L; cbn [length] in L; try discriminate; cbn [app lin]; [destruct ws; reflexivity|]. rewrite IH by lia. lra. Qed.
Lemma co_sub_all n (m : list R) : forall done u x, Forall (fun v => length v = n) done -> length u = n -> x < n ->
  co x (fold_left (fun u e => zipR (fun a b => n_sub RMath a (n_mul RMath (rb_scalar RMath (n_ofZ RMath 0) m e) b)) u e) done u) = (co x u - lin (map (dot m) done) done x)%R.
Proof.
  induction done as [|e done IH]; intros u x F L Hx; cbn [fold_left map lin]; [lra|]. inversion F as [|? ? Le F']; subst.
  rewrite IH; [|assumption|rewrite zip_length; change (num RMath) with R in *; lia|lia].
  change (n_sub RMath) with Rminus. change (n_mul RMath) with Rmult. rewrite (scalar_dot m e). change (n_ofZ RMath 0) with 0%R.
  pose proof (co_zip (fun a b => (a - (0 + dot m e) * b)%R) u e x ltac:(lia) ltac:(lia)) as C. change (num RMath) with R in *. rewrite C. lra.
Qed.
Lemma normalize_co (v : list R) : dot (rb_normalize RMath v) (rb_normalize RMath v) = 1%R -> exists r, (0 < r)%R /\ forall x, co x v = (r * co x (rb_normalize RMath v))%R.
Proof.
  intro H. assert (Nz : dot v v <> 0%R).
  { intro Z. unfold rb_normalize in H. rewrite scalar_dot in H. change (n_ofZ RMath 0) with 0%R in H. change (m_sqrt RMath) with sqrt in H. change (num RMath) with R in *. rewrite Z, Rplus_0_l, sqrt_0 in H.
    change (n_eqb RMath) with R_eqb in H. unfold R_eqb in H. destruct (Req_EM_T 0 0); [|lra]. change (num RMath) with R in *. lra. }
  pose proof (dot_pos v). assert (S : (0 < sqrt (dot v v))%R) by (apply sqrt_lt_R0; lra).
  exists (sqrt (dot v v)). split; [exact S|]. intro x. unfold rb_normalize. rewrite scalar_dot. change (n_ofZ RMath 0) with 0%R. change (m_sqrt RMath) with sqrt. rewrite Rplus_0_l.
  change (n_eqb RMath) with R_eqb. unfold R_eqb. destruct (Req_EM_T (sqrt (dot v v)) 0); [lra|]. change (n_div RMath) with Rdiv. unfold co. change (num RMath) with R.
  set (r := sqrt (dot v v)) in *. clearbody r. clear - S. revert x. induction v as [|y v IH]; intros [|x]; cbn; try lra; [field; lra|apply IH].
Qed.

Lemma gs_lin n : forall rows done, Forall (fun v => length v = n) rows -> Forall (fun v => length v = n) done ->
  Forall (fun v => dot v v = 1%R) (rb_gram_schmidt RMath done rows) ->
  exists tail, rb_gram_schmidt RMath done rows = done ++ tail /\
  forall j m, nth_error rows j = Some m -> exists a r, length a = length done + j /\ (0 < r)%R /\ forall x, x < n -> co x m = lin (a ++ [r]) (done ++ tail) x.
Proof.
  induction rows as [|m rows IH]; intros done Fr Fd U; cbn [rb_gram_schmidt] in *.
  - exists []. rewrite app_nil_r. split; [reflexivity|]. intros [|j] m; discriminate.
  - inversion Fr as [|? ? Lm Fr']; subst. pose proof (sub_all_length (length m) m done m Fd eq_refl) as Lu. pose proof (fun x => co_sub_all (length m) m done m x Fd eq_refl) as Cu. change (num RMath) with R in *.
    set (u := fold_left _ done m) in *. set (w := rb_normalize RMath u) in *.
    assert (Lw : length w = length m) by (unfold w; rewrite <- Lu; apply normalize_length).
    destruct (IH (done ++ [w]) Fr') as (tail & E & T); [apply Forall_app; split; [exact Fd|constructor; [exact Lw|constructor]]|exact U|].
    exists (w :: tail). split; [refine (eq_trans E _); rewrite <- app_assoc; reflexivity|]. intros [|j] m' Hj; cbn [nth_error] in Hj.
    + injection Hj as <-. assert (Uw : dot w w = 1%R). { assert (U' : Forall (fun v => dot v v = 1%R) ((done ++ [w]) ++ tail)) by (rewrite <- E; exact U). rewrite Forall_forall in U'. apply U'. apply in_or_app. left. apply in_or_app. right. left. reflexivity. }
      destruct (normalize_co u Uw) as (r & Hr & Cr). exists (map (dot m) done), r. split; [rewrite map_length; lia|]. split; [exact Hr|].
      intros x Hx. specialize (Cu x Hx). rewrite Cr in Cu. rewrite lin_app by apply map_length. cbn [lin]. fold w in Cu. destruct tail; cbn [lin]; lra.
    + destruct (T j m' Hj) as (a & r & La & Hr & Hx). exists a, r. split; [rewrite La, app_length; cbn; lia|]. split; [exact Hr|]. intros x Lx. rewrite (Hx x Lx), <- app_assoc. reflexivity.
Qed.

Lemma new_basis_turned n (steps : list R) (dirs : list (list R)) : orthonormal n dirs -> length steps = n -> Forall (fun s => s <> 0%R) steps -> turned n dirs steps (rb_new_basis RMath n steps dirs).
Proof.
  intros O Ls Hs. assert (O' := C47_new_basis n steps dirs O Ls Hs). split; [exact O'|]. intros j Hj. destruct O as (Ld & Fd & _). destruct O' as (Ld' & Fd' & O').
  assert (Lm := matrix_length n steps dirs (eq_trans Ls (eq_sym Ld))). change (num RMath) with R in *.
  destruct (nth_error (rb_matrix RMath n steps dirs) j) as [m|] eqn:Em; [|apply nth_error_None in Em; change (num RMath) with R in *; lia].
  assert (Fk : forall k, Forall (fun v => length v = n) (skipn k dirs)) by (intro k; rewrite <- (firstn_skipn k dirs) in Fd; apply Forall_app in Fd; apply Fd).
  destruct (gs_lin n (rb_matrix RMath n steps dirs) []) as (tail & E & T).
  - apply Forall_forall. intros v Hv. apply In_nth_error in Hv as (k & Hk). apply matrix_nth in Hk. subst v. apply row_length; [apply Fk|apply repeat_length].
  - constructor.
  - apply Forall_forall. intros v Hv. apply In_nth_error in Hv as (k & Hk). pose proof (O' k k v v Hk Hk) as Q. rewrite Nat.eqb_refl in Q. exact Q.
  - destruct (T j m Em) as (a & r & La & Hr & Hx). exists a, r. split; [exact La|]. split; [exact Hr|]. intros x Lx. unfold rb_new_basis. change (num RMath) with R in *. rewrite E, <- (Hx x Lx).
    apply matrix_nth in Em. subst m. rewrite (co_row n); [|apply Fk|apply repeat_length|exact Lx]. unfold co. rewrite nth_repeat. lra.
Qed.

(** ** One stage of the code *)
Lemma insert_perm x : forall l : list R, Permutation (x :: l) (insert_desc RMath x l).
Proof. induction l as [|y l IH]; cbn; [reflexivity|]. destruct (R_ltb y x); [reflexivity|]. rewrite perm_swap. constructor. exact IH. Qed.
Lemma sort_perm : forall l : list R, Permutation l (sort_desc RMath l).
Proof. induction l as [|x l IH]; cbn [sort_desc]; [constructor|]. rewrite IH at 1. apply insert_perm. Qed.
Lemma insert_sorted x : forall l : list R, StronglySorted (fun a b => (b <= a)%R) l -> StronglySorted (fun a b => (b <= a)%R) (insert_desc RMath x l).
Proof.
  induction l as [|y l IH]; intro S; cbn; [repeat constructor|]. inversion S as [|? ? S' F]; subst. unfold R_ltb. destruct (Rlt_dec y x) as [L|L].
  - constructor; [exact S|]. constructor; [lra|]. eapply Forall_impl; [|exact F]. cbv beta. intros a Ha. lra.
  - constructor; [apply IH, S'|]. rewrite <- (insert_perm x l). constructor; [lra|exact F].
Qed.
Lemma sort_sorted : forall l : list R, StronglySorted (fun a b => (b <= a)%R) (sort_desc RMath l).
Proof. induction l as [|x l IH]; cbn [sort_desc]; [constructor|apply insert_sorted, IH]. Qed.
Lemma correct_cut c (s : R) : rb_correct RMath c s = cut (rb_max_step RMath c) s.
Proof.
  unfold rb_correct, cut. cbn [m_abs RMath n_ltb n_div n_mul m_num RNum]. unfold R_ltb. change (num RMath) with R in *. set (m := rb_max_step RMath c : R). change (num RMath) with R in m.
  destruct (Rlt_dec m (Rabs s)), (Rle_dec (Rabs s) m); lra.
Qed.

Section Run.
Variables (f : list R -> R) (maximize : bool) (c : rb_cfg RMath) (n : nat).
Notation longest := (rb_max_step RMath c : R).
Definition to_minimize (v : list R) : R := if maximize then (- f v)%R else f v.
Notation g := to_minimize.
Notation runA := (run RMath (list R) (arr_set RMath) (arr_get RMath) (arr_check RMath) (fun v => Ok (f v)) maximize).

Lemma run_bind {A B} (s : search RMath A) (k : A -> search RMath B) : forall p log a q l, runA s p log = (Ok a, q, l) -> runA (sbind s k) p log = runA (k a) q l.
Proof.
  induction s as [a|m v h IH|e|u]; intros p log a' q l H; cbn [sbind run] in *; [congruence| |discriminate..].
  destruct (count_value _ _ _ _ _ _ _ _ _) as [[[y|e|u] q1] l1]; [|discriminate..]. apply IH. exact H.
Qed.
Lemma run_ask {A} (v : list R) (k : R -> search RMath A) p log : length v = n -> length p = n -> runA (sbind (ask_min RMath v) k) p log = runA (k (g v)) v (log ++ [v]).
Proof.
  intros Lv Lp. unfold ask_min. cbn [sbind run]. unfold count_value, arr_set, arr_get, arr_check. change (num RMath) with R in *. rewrite Lv, Lp, Nat.eqb_refl.
  replace (signed RMath maximize false (f v)) with (g v); [reflexivity|]. unfold to_minimize, signed, negate. destruct maximize; [|reflexivity]. cbn. ring.
Qed.
Definition new_step (p : list R) (sd : R * list R) : R := cut longest (fst sd * (if Rlt_dec (g (shifted p (fst sd) (snd sd))) (g p) then 3 / 2 else - (1 / 2))).
Lemma directions_run (p : list R) : length p = n -> forall (steps : list R) dirs args2 q log, length q = n -> Forall (fun v => length v = n) dirs ->
  exists q', length q' = n /\
   let steps' := map (new_step p) (combine steps dirs) in
   runA (rb_directions RMath c (g p) p steps dirs args2) q log = (Ok (steps', rb_row RMath steps' dirs args2), q', log ++ map (fun sd => shifted p (fst sd) (snd sd)) (combine steps dirs)).
Proof.
  intro Lp. induction steps as [|s ss IH]; intros [|d ds] args2 q log Lq F; cbn [rb_directions combine map rb_row run]; [exists q; rewrite app_nil_r; auto..|].
  pose proof (Forall_inv F) as Ld. pose proof (Forall_inv_tail F) as F'. cbv beta in Ld. assert (Lr : length p = length d) by congruence. change (num RMath) with R in *. rewrite (move_shifted s d p Lr).
  rewrite run_ask; [|rewrite shifted_length; congruence|exact Lq].
  match goal with |- context [rb_move RMath ?x d args2] => assert (Es : x = new_step p (s, d)) end.
  { unfold new_step. cbn [fst snd]. rewrite <- correct_cut. f_equal. change (n_ltb RMath) with R_ltb. unfold R_ltb, rb_increase, rb_decrease.
    destruct (Rlt_dec (g (shifted p s d)) (g p)); cbn; lra. }
  rewrite Es. destruct (IH ds (rb_move RMath (new_step p (s, d)) d args2) (shifted p s d) (log ++ [shifted p s d])) as (q' & Lq' & E); [rewrite shifted_length; exact Lp|exact F'|].
  exists q'. split; [exact Lq'|]. cbv zeta in E. rewrite (run_bind _ _ _ _ _ _ _ E). cbn [run fst snd]. rewrite <- app_assoc. reflexivity.
Qed.
Lemma combine_nth {A B} : forall (l : list A) (m : list B) i a b, nth_error l i = Some a -> nth_error m i = Some b -> nth_error (combine l m) i = Some (a, b).
Proof. induction l as [|x l IH]; intros [|y m] [|i] a b Ha Hb; cbn in *; try discriminate; [congruence|auto]. Qed.
Lemma make_step_stage (p steps : list R) dirs q log : length p = n -> length q = n -> length steps = n -> length dirs = n -> Forall (fun v => length v = n) dirs ->
  exists (p' steps' q' : list R) l, runA (rb_make_step RMath c p steps dirs) q log = (Ok (steps', p'), q', log ++ l) /\ length q' = n /\ length steps' = n /\ stage g longest p steps dirs p' steps' l.
Proof.
  intros Lp Lq Ls Ld F. unfold rb_make_step. rewrite run_ask by assumption.
  destruct (directions_run p Lp (sort_desc RMath steps) dirs p p (log ++ [p]) Lp F) as (q' & Lq' & E). cbv zeta in E.
  set (steps' := map (new_step p) (combine (sort_desc RMath steps) dirs)) in *.
  assert (Lo : @length R (sort_desc RMath steps) = n) by (rewrite <- (Permutation_length (sort_perm steps)); exact Ls).
  assert (Ls' : length steps' = n). { unfold steps'. rewrite map_length, combine_length. change (num RMath) with R in *. lia. }
  exists (rb_row RMath steps' dirs p), steps', q', (p :: map (fun sd => shifted p (fst sd) (snd sd)) (combine (sort_desc RMath steps) dirs)).
  split; [rewrite E, <- app_assoc; reflexivity|]. split; [exact Lq'|]. split; [exact Ls'|]. constructor.
  - exists (sort_desc RMath steps). split; [apply sort_perm|]. split; [apply sort_sorted|]. split; [congruence|]. split; [reflexivity|].
    intros i s d Hs Hd. unfold steps'. rewrite nth_error_map. assert (Q := combine_nth _ _ _ _ _ Hs Hd). change (num RMath) with R in *. rewrite Q. reflexivity.
  - rewrite Lp. apply row_length; assumption.
  - intros x Hx. rewrite Lp in Hx. apply (co_row n); assumption.
Qed.

Lemma exit_iff (p p' : list R) : length p' = length p -> rb_exit RMath c p' p = true <-> forall x, x < length p -> (Rabs (co x p' - co x p) <= rb_precision RMath c)%R.
Proof.
  unfold rb_exit, co. revert p'. induction p as [|y p IH]; intros [|y' p'] L; cbn [length] in L; try discriminate.
  - split; [intros _ x Hx; cbn in Hx; lia|reflexivity].
  - cbn [zip_with forallb]. rewrite andb_true_iff, IH by lia. change (n_ltb RMath) with R_ltb. change (m_abs RMath) with Rabs. change (n_sub RMath y' y) with (y' - y)%R. unfold R_ltb. split.
    + intros [H1 H2] [|x] Hx; cbn [nth length] in *; [|apply H2; lia]. destruct (Rlt_dec (rb_precision RMath c) (Rabs (y' - y))); [discriminate|lra].
    + intro H. split; [|intros x Hx; exact (H (S x) ltac:(cbn; lia))]. specialize (H 0 ltac:(cbn; lia)). cbn [nth] in H. destruct (Rlt_dec (rb_precision RMath c) (Rabs (y' - y))); [lra|reflexivity].
Qed.

Hypothesis Hm : rb_max_step RMath c <> 0%R.
Lemma loop_visits : forall todo (p steps : list R) dirs q log, length p = n -> length q = n -> length steps = n -> Forall (fun s => s <> 0%R) steps -> orthonormal n dirs ->
  exists r steps' dirs' q' l, runA (rb_loop RMath todo c p p steps dirs) q log = (Ok (r, steps', dirs'), q', log ++ l) /\ length q' = n /\ length r = n /\
    visits g (rb_precision RMath c) longest todo p steps dirs r l.
Proof.
  induction todo as [|t IH]; intros p steps dirs q log Lp Lq Ls Fs O; cbn [rb_loop].
  { exists p, steps, dirs, q, []. cbn [run]. rewrite app_nil_r. repeat split; try assumption. constructor. }
  pose proof O as (Ld & Fd & _). destruct (make_step_stage p steps dirs q log Lp Lq Ls Ld Fd) as (p' & steps' & q' & l & E & Lq' & Ls' & St). pose proof St as [Ord Len _].
  rewrite (run_bind _ _ _ _ _ _ _ E). cbv iota beta. destruct (rb_exit RMath c p' p) eqn:Ex.
  - exists p', steps', dirs, q', l. cbn [run]. split; [reflexivity|]. split; [exact Lq'|]. split; [transitivity (length p); [exact Len|exact Lp]|]. eapply V_close; [exact St|]. apply exit_iff; assumption.
  - assert (Nz : Forall (fun s => s <> 0%R) steps').
    { destruct Ord as (order & Perm & _ & Lo & _ & Hn). apply Forall_forall. intros s Hs. apply In_nth_error in Hs as (i & Hi). change (num RMath) with R in *. assert (Li : i < length steps') by (apply nth_error_Some; congruence).
      destruct (nth_error order i) as [s0|] eqn:E0; [|apply nth_error_None in E0; lia]. destruct (nth_error dirs i) as [d|] eqn:Ed; [|apply nth_error_None in Ed; lia].
      rewrite (Hn i s0 d E0 Ed) in Hi. injection Hi as <-. rewrite <- correct_cut. apply correct_ok; [|exact Hm].
      assert (s0 <> 0%R). { rewrite Forall_forall in Fs. apply Fs. eapply Permutation_in; [symmetry; exact Perm|]. eapply nth_error_In; exact E0. }
      apply Rmult_integral_contrapositive_currified; [assumption|]. destruct (Rlt_dec (g (shifted p s0 d)) (g p)); lra. }
    assert (Lp' : @length (num RMath) p' = n) by (transitivity (length p); [exact Len|exact Lp]). rewrite Lp'.
    destruct (IH p' steps' (rb_new_basis RMath n steps' dirs) q' (log ++ l) Lp' Lq' Ls' Nz) as (r & s2 & d2 & q2 & l2 & E2 & Lq2 & Lr & V); [apply C47_new_basis; assumption|].
    exists r, s2, d2, q2, (l ++ l2). rewrite app_assoc. split; [exact E2|]. split; [exact Lq2|]. split; [exact Lr|].
    eapply V_go; [exact St| |rewrite Lp; apply new_basis_turned; eassumption|exact V].
    assert (Nx : ~ forall x, x < length p -> (Rabs (co x p' - co x p) <= rb_precision RMath c)%R) by (intro H; apply exit_iff in H; [congruence|exact Len]).
    clear - Nx. apply Classical_Pred_Type.not_all_ex_not in Nx as (x & Nx). exists x. destruct (Nat.lt_ge_cases x (length p)) as [L|L]; [|exfalso; apply Nx; intro; lia].
    split; [exact L|]. destruct (Rlt_dec (rb_precision RMath c) (Rabs (co x p' - co x p))) as [|N]; [assumption|]. exfalso. apply Nx. intros _. change (num RMath) with R in *. lra.
Qed.
End Run.

(** ** C68 Optimize on an array goes through such stages, from the steps first_step and the coordinate directions. *)
Definition axes (n : nat) : list (list R) := map (fun i => map (fun j => if Nat.eqb i j then 1%R else 0%R) (seq 0 n)) (seq 0 n).
Theorem C68_process : forall c (f : list R -> R) maximize (p : list R), rb_first_step RMath c <> 0%R -> rb_max_step RMath c <> 0%R ->
  exists q log, optimize RMath (list R) (arr_set RMath) (arr_get RMath) (arr_check RMath) (fun v => Ok (f v)) maximize (rb_find RMath c) p = (Ok tt, q, log) /\
    visits (fun v => if maximize then (- f v)%R else f v) (rb_precision RMath c) (rb_max_step RMath c) (Z.to_nat (rb_max_iterations RMath c)) p (repeat (rb_first_step RMath c) (length p)) (axes (length p)) q log.
Proof.
  intros c f mx p H1 H2. unfold optimize, rb_find, rb_run. change (arr_get RMath p) with p.
  destruct (loop_visits f mx c (length p) H2 (Z.to_nat (rb_max_iterations RMath c)) p (repeat (rb_first_step RMath c : R) (length p)) (rb_init_basis RMath (length p)) p [] eq_refl eq_refl) as (r & s' & d' & q' & l & E & Lq & Lr & V).
  - apply repeat_length.
  - apply Forall_forall. intros s Hs. apply repeat_spec in Hs. subst s. exact H1.
  - apply C47_initial_basis.
  - rewrite (run_bind f mx _ _ _ _ _ _ _ E). cbn [run fst app]. exists r, l. split; [|exact V]. unfold arr_set. change (num RMath) with R in *. rewrite Lr, Lq, Nat.eqb_refl. reflexivity.
Qed.

(** ** The specification leaves nothing open *)
Definition sumn (n : nat) (h : nat -> R) : R := fold_right Rplus 0%R (map h (seq 0 n)).
Lemma sum_seq_lin (a b : R) h k : forall n m, fold_right Rplus 0%R (map (fun x => a * h x + b * k x)%R (seq m n)) = (a * fold_right Rplus 0%R (map h (seq m n)) + b * fold_right Rplus 0%R (map k (seq m n)))%R.
Proof. induction n as [|n IH]; intro m; cbn; [lra|]. rewrite IH. lra. Qed.
Lemma sumn_lin n (a b : R) h k : sumn n (fun x => a * h x + b * k x)%R = (a * sumn n h + b * sumn n k)%R.
Proof. apply sum_seq_lin. Qed.
Lemma sumn_ext n h k : (forall x, x < n -> h x = k x) -> sumn n h = sumn n k.
Proof. intro H. unfold sumn. f_equal. apply map_ext_in. intros x Hx. apply in_seq in Hx. apply H. lia. Qed.
Lemma sumn_dot : forall n a b, length a = n -> length b = n -> dot a b = sumn n (fun x => co x a * co x b)%R.
Proof.
  unfold sumn, co. induction n as [|n IH]; intros [|x a] [|y b] La Lb; cbn [length] in *; try discriminate; [reflexivity|]. cbn [dot seq map fold_right nth]. rewrite <- seq_shift, map_map. rewrite (IH a b) by lia. reflexivity.
Qed.
Lemma sumn_0 n : forall h, (forall x, x < n -> (0 <= h x)%R) -> sumn n h = 0%R -> forall x, x < n -> h x = 0%R.
Proof.
  unfold sumn. induction n as [|n IH]; intros h P H x Hx; [lia|]. cbn [seq map fold_right] in H. rewrite <- seq_shift, map_map in H.
  assert (Q : (0 <= fold_right Rplus 0 (map (fun x => h (S x)) (seq 0 n)))%R).
  { assert (G : forall l, (forall y, In y l -> 0 <= h (S y))%R -> (0 <= fold_right Rplus 0 (map (fun x => h (S x)) l))%R) by (induction l as [|y l IHl]; intro G; cbn; [lra|]; assert (Gy := G y (or_introl eq_refl)); specialize (IHl (fun z Hz => G z (or_intror Hz))); lra).
    apply G. intros y Hy. apply in_seq in Hy. apply P. lia. }
  assert (P0 := P 0 ltac:(lia)). destruct x as [|x]; [lra|]. apply (IH (fun x => h (S x))); [intros y Hy; apply P; lia|lra|lia].
Qed.
Lemma sumn_lin_0 n (w : nat -> R) : forall a C, (forall v, In v C -> sumn n (fun x => co x v * w x)%R = 0%R) -> sumn n (fun x => lin a C x * w x)%R = 0%R.
Proof.
  assert (Z : sumn n (fun x => 0 * w x)%R = 0%R).
  { rewrite (sumn_ext n _ (fun x => 0 * w x + 0 * w x)%R) by (intros; lra). rewrite sumn_lin. lra. }
  induction a as [|s a IH]; intros C H; [exact Z|]. destruct C as [|v C]; [exact Z|].
  rewrite (sumn_ext n _ (fun x => s * (co x v * w x) + 1 * (lin a C x * w x))%R) by (intros; cbn [lin]; lra). rewrite sumn_lin, (H v (or_introl eq_refl)), IH; [lra|]. intros u Hu. apply H. right. exact Hu.
Qed.
Lemma firstn_nth {A} (B : list A) j b : nth_error B j = Some b -> firstn (S j) B = firstn j B ++ [b].
Proof. revert j. induction B as [|x B IH]; intros [|j] H; cbn in *; try discriminate; [congruence|]. f_equal. apply IH, H. Qed.
Lemma lin_first a r B j b x : length a = j -> nth_error B j = Some b -> lin (a ++ [r]) B x = (lin a (firstn j B) x + r * co x b)%R.
Proof.
  intros La Hb. assert (Lj : j < length B) by (apply nth_error_Some; congruence). rewrite <- (firstn_skipn (S j) B) at 1. rewrite (firstn_nth _ _ _ Hb).
  rewrite lin_more by (rewrite !app_length, firstn_length; cbn; lia). rewrite lin_app by (rewrite firstn_length; lia). cbn [lin]. lra.
Qed.
Theorem turned_unique n dirs steps B B' : turned n dirs steps B -> turned n dirs steps B' -> B = B'.
Proof.
  intros [(LB & FB & OB) TB] [(LB' & FB' & OB') TB'].
  assert (G : forall j, j <= n -> firstn j B = firstn j B').
  2:{ specialize (G n ltac:(lia)). rewrite <- LB in G at 1. rewrite firstn_all in G. rewrite <- LB' in G. rewrite firstn_all in G. exact G. }
  induction j as [|j IH]; intro Lj; [reflexivity|]. specialize (IH ltac:(lia)).
  destruct (nth_error B j) as [b|] eqn:Eb; [|apply nth_error_None in Eb; lia]. destruct (nth_error B' j) as [b'|] eqn:Eb'; [|apply nth_error_None in Eb'; lia].
  rewrite (firstn_nth _ _ _ Eb), (firstn_nth _ _ _ Eb'), IH. f_equal. f_equal.
  destruct (TB j ltac:(lia)) as (a & r & La & Hr & Ha). destruct (TB' j ltac:(lia)) as (a' & r' & La' & Hr' & Ha').
  assert (Lb : length b = n) by (rewrite Forall_forall in FB; apply FB; eapply nth_error_In; exact Eb). assert (Lb' : length b' = n) by (rewrite Forall_forall in FB'; apply FB'; eapply nth_error_In; exact Eb').
  set (C := firstn j B') in *. set (w := fun x => (lin a C x - lin a' C x)%R).
  assert (Ew : forall x, x < n -> w x = (r' * co x b' - r * co x b)%R).
  { intros x Hx. specialize (Ha x Hx). specialize (Ha' x Hx). rewrite (lin_first _ _ _ _ _ _ La Eb), IH in Ha. rewrite (lin_first _ _ _ _ _ _ La' Eb') in Ha'. fold C in Ha, Ha'. unfold w. lra. }
  assert (Ow : forall v, In v C -> sumn n (fun x => co x v * w x)%R = 0%R).
  { intros v Hv. apply In_nth_error in Hv as (k & Hk). assert (Kj : k < j). { assert (Lk : k < length C) by (apply nth_error_Some; congruence). unfold C in Lk. rewrite firstn_length in Lk. lia. }
    assert (nth_firstn : forall (l : list (list R)) i m, i < m -> nth_error (firstn m l) i = nth_error l i) by (induction l as [|x l IHl]; intros [|i] [|m] L; cbn; try lia; try reflexivity; apply IHl; lia).
    assert (Hk' : nth_error B' k = Some v) by (rewrite <- (nth_firstn B' k j Kj); exact Hk). assert (Hkb : nth_error B k = Some v) by (rewrite <- (nth_firstn B k j Kj), IH; exact Hk).
    assert (Lv : length v = n) by (rewrite Forall_forall in FB'; apply FB'; eapply nth_error_In; exact Hk').
    pose proof (OB _ _ _ _ Hkb Eb) as D1. pose proof (OB' _ _ _ _ Hk' Eb') as D2. destruct (Nat.eqb_spec k j) as [Q|_]; [lia|].
    rewrite (sumn_dot n) in D1, D2 by assumption.
    rewrite (sumn_ext n _ (fun x => r' * (co x v * co x b') + (- r) * (co x v * co x b))%R) by (intros x Hx; rewrite (Ew x Hx); ring). rewrite sumn_lin, D1, D2. lra. }
  assert (Ww : sumn n (fun x => w x * w x)%R = 0%R).
  { rewrite (sumn_ext n _ (fun x => 1 * (lin a C x * w x) + (-1) * (lin a' C x * w x))%R) by (intros x _; unfold w; ring). rewrite sumn_lin, !sumn_lin_0 by exact Ow. lra. }
  assert (W0 : forall x, x < n -> (r * co x b = r' * co x b')%R).
  { intros x Hx. assert (Q : (w x * w x = 0)%R) by (apply (sumn_0 n (fun x => w x * w x)%R); [intros y _; apply Rle_0_sqr|exact Ww|exact Hx]). assert (w x = 0%R) by nra. rewrite Ew in H by exact Hx. lra. }
  pose proof (OB _ _ _ _ Eb Eb) as N1. pose proof (OB' _ _ _ _ Eb' Eb') as N2. rewrite Nat.eqb_refl in N1, N2. rewrite (sumn_dot n) in N1, N2 by assumption.
  assert (Rr : (r * r = r' * r')%R).
  { assert (Q : sumn n (fun x => (r * co x b) * (r * co x b))%R = sumn n (fun x => (r' * co x b') * (r' * co x b'))%R) by (apply sumn_ext; intros x Hx; rewrite W0 by exact Hx; reflexivity).
    rewrite (sumn_ext n _ (fun x => (r * r) * (co x b * co x b) + 0 * 0)%R) in Q by (intros; ring). rewrite (sumn_ext n (fun x => (r' * co x b') * (r' * co x b'))%R (fun x => (r' * r') * (co x b' * co x b') + 0 * 0)%R) in Q by (intros; ring).
    rewrite !sumn_lin, N1, N2 in Q. lra. }
  assert (r = r') by nra. subst r'. apply co_ext; [congruence|]. intros x Hx. specialize (W0 x ltac:(lia)). nra.
Qed.
Lemma sorted_unique : forall l m : list R, Permutation l m -> StronglySorted (fun a b => (b <= a)%R) l -> StronglySorted (fun a b => (b <= a)%R) m -> l = m.
Proof.
  induction l as [|x l IH]; intros m P Sl Sm; [apply Permutation_nil in P; congruence|]. destruct m as [|y m]; [symmetry in P; apply Permutation_nil in P; discriminate|].
  inversion Sl as [|? ? Sl' Fl]; subst. inversion Sm as [|? ? Sm' Fm]; subst.
  assert (x = y). { assert (Ix : In x (y :: m)) by (eapply Permutation_in; [exact P|left; reflexivity]). assert (Iy : In y (x :: l)) by (eapply Permutation_in; [symmetry; exact P|left; reflexivity]).
    rewrite Forall_forall in Fl, Fm. destruct Ix as [->|Ix]; [reflexivity|]. destruct Iy as [->|Iy]; [reflexivity|]. specialize (Fl _ Iy). specialize (Fm _ Ix). lra. }
  subst y. f_equal. apply IH; try assumption. eapply Permutation_cons_inv. exact P.
Qed.
Lemma stage_unique g longest p steps dirs p1 s1 l1 p2 s2 l2 : length dirs = length steps -> stage g longest p steps dirs p1 s1 l1 -> stage g longest p steps dirs p2 s2 l2 -> p1 = p2 /\ s1 = s2 /\ l1 = l2.
Proof.
  intros Ld [(o1 & P1 & S1 & L1 & E1 & H1) N1 X1] [(o2 & P2 & S2 & L2 & E2 & H2) N2 X2].
  assert (o1 = o2) by (apply sorted_unique; [rewrite <- P1; exact P2|exact S1|exact S2]). subst o2. assert (Lo := Permutation_length P1).
  assert (s1 = s2).
  { assert (X : forall i, nth_error s1 i = nth_error s2 i).
    { intro i. destruct (nth_error o1 i) as [s|] eqn:Eo.
      - destruct (nth_error dirs i) as [d|] eqn:Ed; [rewrite (H1 _ _ _ Eo Ed), (H2 _ _ _ Eo Ed); reflexivity|]. apply nth_error_None in Ed. assert (i < length o1) by (apply nth_error_Some; congruence). lia.
      - apply nth_error_None in Eo. rewrite (proj2 (nth_error_None s1 i)), (proj2 (nth_error_None s2 i)) by lia. reflexivity. }
    clear - X. revert s2 X. induction s1 as [|a s1 IH]; intros [|b s2] X; [reflexivity|discriminate (X 0)..|]. f_equal; [injection (X 0); auto|]. apply IH. intro i. exact (X (S i)). }
  subst s2. split; [|split; [reflexivity|congruence]]. apply co_ext; [congruence|]. intros x Hx. rewrite X1, X2 by lia. reflexivity.
Qed.
Lemma stage_lengths g longest p steps dirs p' steps' l : stage g longest p steps dirs p' steps' l -> length p' = length p /\ length steps' = length steps.
Proof. intros [(o & P & _ & L & _) N _]. split; [exact N|]. rewrite L. symmetry. apply Permutation_length. exact P. Qed.
Theorem C68_determined : forall g precision longest k p steps dirs q1 l1 q2 l2, length steps = length p -> length dirs = length p ->
  visits g precision longest k p steps dirs q1 l1 -> visits g precision longest k p steps dirs q2 l2 -> q1 = q2 /\ l1 = l2.
Proof.
  intros g precision longest k p steps dirs q1 l1 q2 l2 Ls Ld V. revert q2 l2 Ls Ld. induction V as [p steps dirs|k p steps dirs p' steps' log St Cl|k p steps dirs p' steps' log dirs' q log' St Go Tu V IH]; intros q2 l2 Ls Ld V2;
    inversion V2 as [p0 st0 d0|k0 p0 st0 d0 p2 steps2 log2 St2 Cl2|k0 p0 st0 d0 p2 steps2 log2 dirs2 q0 log3 St2 Go2 Tu2 V3]; subst.
  - auto.
  - destruct (stage_unique _ _ _ _ _ _ _ _ _ _ _ (eq_trans Ld (eq_sym Ls)) St St2) as (-> & _ & ->). auto.
  - destruct (stage_unique _ _ _ _ _ _ _ _ _ _ _ (eq_trans Ld (eq_sym Ls)) St St2) as (-> & _ & ->). destruct Go2 as (x & Hx & Gx). specialize (Cl x Hx). lra.
  - destruct (stage_unique _ _ _ _ _ _ _ _ _ _ _ (eq_trans Ld (eq_sym Ls)) St St2) as (-> & _ & ->). destruct Go as (x & Hx & Gx). specialize (Cl2 x Hx). lra.
  - destruct (stage_unique _ _ _ _ _ _ _ _ _ _ _ (eq_trans Ld (eq_sym Ls)) St St2) as (-> & -> & ->). assert (dirs2 = dirs') as -> by (eapply turned_unique; eassumption).
    destruct (stage_lengths _ _ _ _ _ _ _ _ St) as [A B]. destruct (IH _ _ ltac:(congruence) ltac:(destruct Tu as [(Q & _) _]; congruence) V3) as [-> ->]. auto.
Qed.

(** ** Consequences, for any run of the specification *)
(** After a turn the first direction is that of the last move. *)
Theorem C68_first_direction : forall g longest p steps dirs p' steps' log dirs', 0 < length p -> stage g longest p steps dirs p' steps' log -> turned (length p) dirs steps' dirs' ->
  exists d r, nth_error dirs' 0 = Some d /\ (0 < r)%R /\ forall x, x < length p -> (co x p' - co x p = r * co x d)%R.
Proof.
  intros g longest p steps dirs p' steps' log dirs' Hn [_ _ X] [(Ld & _) T]. destruct (T 0 Hn) as (a & r & La & Hr & H). destruct a; [|discriminate]. cbn [skipn app] in H.
  destruct dirs' as [|d dirs']; [cbn in Ld; lia|]. exists d, r. split; [reflexivity|]. split; [exact Hr|]. intros x Hx. rewrite (X x Hx), (H x Hx). cbn [lin]. destruct dirs'; lra.
Qed.
(** When the method stops before its last stage, every step has become short: at most precision times the square root of the dimension. *)
Theorem C68_short_steps : forall g precision longest p steps dirs p' steps' log, length steps = length p -> orthonormal (length p) dirs -> stage g longest p steps dirs p' steps' log ->
  (forall x, x < length p -> (Rabs (co x p' - co x p) <= precision)%R) ->
  Forall (fun s => (Rabs s <= sqrt (INR (length p)) * precision)%R) steps'.
Proof.
  intros g precision longest p steps dirs p' steps' log Ls O St Cl. destruct (stage_lengths _ _ _ _ _ _ _ _ St) as [Lp' Ls']. destruct St as [_ _ X]. pose proof O as (Ld & Fd & Od). set (n := length p) in *.
  assert (E : squared_distance p' p = sum_squares steps').
  { assert (P' : p' = rb_row RMath steps' dirs p). { symmetry. assert (Lr : length (rb_row RMath steps' dirs p) = n) by (apply row_length; [exact Fd|reflexivity]). apply co_ext; [transitivity n; [exact Lr|symmetry; exact Lp']|].
      intros x Hx. change (num RMath) with R in *. rewrite Lr in Hx. rewrite (co_row n) by (assumption || reflexivity). symmetry. apply X. exact Hx. }
    assert (Ls2 : length steps' = n) by (rewrite Ls'; exact Ls). destruct (row_displacement n steps' dirs p O Ls2 eq_refl) as [_ Dd]. rewrite <- P' in Dd. rewrite <- Dd. clear. revert p. induction p' as [|x p' IH]; intros [|y p]; cbn [squared_distance zip_with dot]; auto. rewrite IH. cbn. ring. }
  assert (B : (squared_distance p' p <= INR n * (precision * precision))%R).
  { clear E X O Ld Fd Od Ls Ls'. unfold n in *. clear n. revert p' Lp' Cl. induction p as [|y p IH]; intros [|y' p'] Lp' Cl; cbn [length] in Lp'; try discriminate; [cbn; lra|]. cbn [squared_distance].
    replace (length (y :: p)) with (S (length p)) by reflexivity. rewrite S_INR. assert (C0 := Cl 0 ltac:(cbn; lia)). unfold co in C0. cbn [nth] in C0. specialize (IH p' ltac:(lia) (fun x Hx => Cl (S x) ltac:(cbn; lia))).
    assert ((y' - y) * (y' - y) <= precision * precision)%R; [|lra]. replace ((y' - y) * (y' - y))%R with (Rabs (y' - y) * Rabs (y' - y))%R by (rewrite <- Rabs_mult; apply Rabs_pos_eq, Rle_0_sqr). pose proof (Rabs_pos (y' - y)). nra. }
  destruct (Nat.eq_dec n 0) as [Z|Nz]. { assert (steps' = []) as -> by (destruct steps'; [reflexivity|cbn in *; lia]). constructor. }
  assert (Pp : (0 <= precision)%R). { specialize (Cl 0 ltac:(unfold n; lia)). pose proof (Rabs_pos (co 0 p' - co 0 p)). lra. }
  apply Forall_forall. intros s Hs. assert (S1 : (s * s <= sum_squares steps')%R).
  { clear - Hs. induction steps' as [|a l IH]; [destruct Hs|]. cbn [sum_squares fold_right]. assert (0 <= sum_squares l)%R by (clear; induction l as [|x l IH]; cbn [sum_squares fold_right]; [lra|]; pose proof (Rle_0_sqr x); unfold Rsqr, sum_squares in *; lra).
    fold (sum_squares l). destruct Hs as [->|Hs]; [lra|]. specialize (IH Hs). pose proof (Rle_0_sqr a). unfold Rsqr in *. lra. }
  apply Rsqr_incr_0_var; [|apply Rmult_le_pos; [apply sqrt_pos|exact Pp]]. rewrite <- Rsqr_abs. unfold Rsqr. replace (sqrt (INR n) * precision * (sqrt (INR n) * precision))%R with ((sqrt (INR n) * sqrt (INR n)) * (precision * precision))%R by ring. rewrite sqrt_sqrt by apply pos_INR. lra.
Qed.
Print Assumptions C68_process.
Print Assumptions C68_determined.
Print Assumptions C68_first_direction.
Print Assumptions C68_short_steps.

(** In one dimension a negative step is tried backwards after the turn: at the point the last move came from. *)
Theorem C68_negative_step_returns : forall g longest p0 steps d0 p1 s1 log dirs', orthonormal 1 [[d0]] -> length steps = 1 ->
  stage g longest [p0] steps [[d0]] [p1] [s1] log -> turned 1 [[d0]] [s1] dirs' -> (s1 < 0)%R ->
  exists d, dirs' = [d] /\ shifted [p1] s1 d = [p0].
Proof.
  intros g longest p0 steps d0 p1 s1 log dirs' O Ls St Tu Hs. assert (L1 : 0 < length [p0]) by (cbn; lia). destruct (C68_first_direction _ _ _ _ _ _ _ _ _ L1 St Tu) as (d & r & Hd & Hr & Hx). destruct St as [_ _ X]. destruct Tu as [(Ld & Fd & Od) _].
  destruct dirs' as [|d' [|? ?]]; cbn in Ld; try discriminate. cbn in Hd. injection Hd as ->. exists d. split; [reflexivity|].
  assert (D1 := Od 0 0 d d eq_refl eq_refl). assert (Ln := Forall_inv Fd). cbv beta in Ln. destruct d as [|e [|? ?]]; cbn in Ln; try discriminate. cbn in D1.
  destruct O as (_ & _ & O). assert (D0 := O 0 0 _ _ eq_refl eq_refl). cbn in D0.
  specialize (Hx 0 ltac:(cbn; lia)). specialize (X 0 ltac:(cbn; lia)). unfold co in *. cbn in Hx, X. unfold co in X. cbn in X. unfold shifted, co. cbn. f_equal.
  assert (E : (s1 * d0 = r * e)%R) by lra. assert (Sq : (s1 * s1 = r * r)%R). { replace (s1 * s1)%R with ((s1 * d0) * (s1 * d0))%R by (replace (s1 * d0 * (s1 * d0))%R with (s1 * s1 * (d0 * d0 + 0))%R by ring; rewrite D0; ring). rewrite E. replace (r * e * (r * e))%R with (r * r * (e * e + 0))%R by ring. rewrite D1. ring. }
  assert (s1 = - r)%R by nra. subst s1. lra.
Qed.

(** Two stages from 4 for x^2, first step -1, precision 1/10: to 5/2, then (the trial being at 4 again) to 7/4; the run ends because no stage is left. *)
Definition sq (v : list R) : R := (co 0 v * co 0 v)%R.
Lemma stage1 (p s d s' p' : R) : s' = cut 10 (s * (if Rlt_dec (sq [p + s * d]%R) (sq [p]) then 3 / 2 else - (1 / 2))) -> p' = (p + s' * d)%R -> stage sq 10 [p] [s] [[d]] [p'] [s'] [[p]; [p + s * d]%R].
Proof.
  intros Es Ep. constructor; [|reflexivity|].
  - exists [s]. split; [reflexivity|]. split; [repeat constructor|]. split; [reflexivity|]. split; [reflexivity|]. intros [|[|i]] s0 d1; cbn; try discriminate. intros [= <-] [= <-]. rewrite Es. reflexivity.
  - intros [|x] Hx; cbn in Hx; [|lia]. unfold co. cbn. unfold co. cbn. lra.
Qed.
Lemma turned1 (d s d' : R) : (d' * d' = 1)%R -> (0 < s * d * d')%R -> turned 1 [[d]] [s] [[d']].
Proof.
  intros Hd Hp. split.
  - split; [reflexivity|]. split; [repeat constructor|]. intros [|[|i]] [|[|j]] u v; cbn; try discriminate; try (destruct i; discriminate); try (destruct j; discriminate). intros [= <-] [= <-]. cbn. lra.
  - intros [|j] Hj; [|lia]. exists [], (s * d * d')%R. split; [reflexivity|]. split; [exact Hp|]. intros [|x] Hx; [|lia]. unfold lin, co. cbn. unfold co. cbn. replace (s * d * d' * d')%R with (s * d * (d' * d'))%R by ring. rewrite Hd. ring.
Qed.
Ltac decide_cut := unfold cut, sq, co; cbn [nth]; match goal with |- context [Rlt_dec ?a ?b] => destruct (Rlt_dec a b) end; try lra; match goal with |- context [Rle_dec (Rabs ?x) ?m] => destruct (Rle_dec (Rabs x) m) as [|N]; [lra|exfalso; apply N; apply Rabs_le; lra] end.
Example C68_witness : visits sq (1 / 10) 10 2 [4%R] (repeat (-1)%R 1) (axes 1) [(7 / 4)%R] [[4%R]; [(4 + -1 * 1)%R]; [(5 / 2)%R]; [(5 / 2 + -3 / 2 * -1)%R]].
Proof.
  apply (V_go sq (1 / 10) 10 1 [4%R] [(-1)%R] [[1%R]] [(5 / 2)%R] [(-3 / 2)%R] [[4%R]; [(4 + -1 * 1)%R]] [[(-1)%R]] [(7 / 4)%R] [[(5 / 2)%R]; [(5 / 2 + -3 / 2 * -1)%R]]).
  - apply stage1; [decide_cut|lra].
  - exists 0. split; [cbn; lia|]. unfold co. cbn. rewrite Rabs_left; lra.
  - apply turned1; lra.
  - apply (V_go sq (1 / 10) 10 0 [(5 / 2)%R] [(-3 / 2)%R] [[(-1)%R]] [(7 / 4)%R] [(3 / 4)%R] [[(5 / 2)%R]; [(5 / 2 + -3 / 2 * -1)%R]] [[(-1)%R]] [(7 / 4)%R] []).
    + apply stage1; [decide_cut|lra].
    + exists 0. split; [cbn; lia|]. unfold co. cbn. rewrite Rabs_left; lra.
    + apply turned1; lra.
    + constructor.
Qed.
