(** C47: the Rosenbrock method. *)
From Coq Require Import Reals Psatz.
From Flocq Require Import IEEE754.BinarySingleNaN.
From Verif Require Import Base Num DblOrder Optim PropOptim Hooke PropHooke NelderMead PropNelderMead Rosenbrock.
Local Open Scope nat_scope.
Local Open Scope list_scope.

(** *** Specification *)
Fixpoint dot (a b : list R) : R := match a, b with x :: r, y :: s => (x * y + dot r s)%R | _, _ => 0%R end.
Definition orthonormal (n : nat) (basis : list (list R)) : Prop :=
  length basis = n /\ Forall (fun v => length v = n) basis /\
  forall i j u v, nth_error basis i = Some u -> nth_error basis j = Some v -> dot u v = if Nat.eqb i j then 1%R else 0%R.

(** *** Vectors *)
Notation zipR := (zip_with RMath).
Lemma zip_length op : forall a b : list R, length a = length b -> length (zipR op a b) = length a.
Proof. induction a as [|x a IH]; intros [|y b] H; cbn in *; try lia. rewrite IH; lia. Qed.
Lemma dot_sym : forall a b, dot a b = dot b a.
Proof. induction a as [|x a IH]; intros [|y b]; cbn; auto. rewrite IH. lra. Qed.
Lemma dot_zip (s t : R) : forall a b c : list R, length a = length b -> dot (zipR (fun x y => (s * x + t * y)%R) a b) c = (s * dot a c + t * dot b c)%R.
Proof.
  induction a as [|x a IH]; intros [|y b] c H; cbn in H; try discriminate; [cbn; lra|].
  destruct c as [|z c]; cbn [zip_with dot]; [lra|]. rewrite IH by lia. lra.
Qed.
Lemma zip_ext (f g : R -> R -> R) : (forall x y, f x y = g x y) -> forall a b, zipR f a b = zipR g a b.
Proof. intro H. induction a as [|x a IH]; intros [|y b]; cbn; auto. rewrite H, IH. reflexivity. Qed.
Lemma move_length s dir a : length a = length dir -> length (rb_move RMath s dir a) = length a.
Proof. apply zip_length. Qed.
Lemma dot_move s dir a c : length a = length dir -> dot (rb_move RMath s dir a) c = (dot a c + s * dot dir c)%R.
Proof.
  intro H. unfold rb_move. rewrite (zip_ext _ (fun x y => (1 * x + s * y)%R)) by (intros; cbn; ring). rewrite dot_zip by exact H. lra.
Qed.
Lemma dot_sub k a e c : length a = length e -> dot (zipR (fun x y => (x - k * y)%R) a e) c = (dot a c - k * dot e c)%R.
Proof.
  intro H. rewrite (zip_ext _ (fun x y => (1 * x + (- k) * y)%R)) by (intros; ring). rewrite dot_zip by exact H. lra.
Qed.
Lemma dot_zero n c : dot (repeat 0%R n) c = 0%R.
Proof. revert c. induction n as [|n IH]; intros [|z c]; cbn; auto. rewrite IH. lra. Qed.
Lemma scalar_dot : forall a b acc, rb_scalar RMath acc a b = (acc + dot a b)%R.
Proof. induction a as [|x a IH]; intros [|y b] acc; cbn [rb_scalar dot]; try (cbn; lra). rewrite IH. cbn. lra. Qed.
Lemma dot_pos : forall a, (0 <= dot a a)%R.
Proof. induction a as [|x a IH]; cbn; [lra|]. pose proof (Rle_0_sqr x). unfold Rsqr in *. lra. Qed.
Lemma dot_self_0 : forall a, dot a a = 0%R -> forall c, dot a c = 0%R.
Proof.
  induction a as [|x a IH]; intros H c; [reflexivity|]. cbn [dot] in H. pose proof (dot_pos a). pose proof (Rle_0_sqr x) as Q. unfold Rsqr in Q.
  assert (x = 0%R) by nra. subst x. destruct c as [|z c]; [reflexivity|]. cbn [dot]. rewrite IH by lra. lra.
Qed.
Lemma dot_div k : forall a c, dot (map (fun x => (x / k)%R) a) c = (dot a c / k)%R.
Proof. induction a as [|x a IH]; intros [|z c]; cbn [map dot]; try (unfold Rdiv; lra). rewrite IH. unfold Rdiv. ring. Qed.

(** *** Normalisation and orthogonalisation *)
Lemma normalize_length v : length (rb_normalize RMath v) = length v.
Proof. unfold rb_normalize. destruct (n_eqb _ _ _); [reflexivity|]. apply map_length. Qed.
Lemma normalize_dot v : dot v v <> 0%R -> dot (rb_normalize RMath v) (rb_normalize RMath v) = 1%R /\ (exists k, (k <> 0)%R /\ forall c, dot (rb_normalize RMath v) c = (dot v c / k)%R).
Proof.
  intro H. unfold rb_normalize. rewrite scalar_dot. change (m_sqrt RMath) with sqrt. change (n_ofZ RMath 0) with 0%R. rewrite Rplus_0_l. pose proof (dot_pos v).
  assert (S : (0 < sqrt (dot v v))%R) by (apply sqrt_lt_R0; lra).
  change (n_eqb RMath) with R_eqb. unfold R_eqb. destruct (Req_EM_T (sqrt (dot v v)) 0); [lra|]. change (n_div RMath) with Rdiv.
  set (k := sqrt (dot v v)) in *. split; [|exists k; split; [lra|intro c; apply (dot_div k)]].
  pose proof (sqrt_sqrt (dot v v) (dot_pos v)) as K. fold k in K. pose proof (dot_div k v) as D.
  change (num RMath) with R in *. rewrite D, dot_sym, D. rewrite <- K. field. lra.
Qed.
Lemma sub_all_length n m : forall done u, Forall (fun v => length v = n) done -> length u = n ->
  length (fold_left (fun u e => zipR (fun a b => n_sub RMath a (n_mul RMath (rb_scalar RMath (n_ofZ RMath 0) m e) b)) u e) done u) = n.
Proof.
  induction done as [|e done IH]; intros u F L; [exact L|]. inversion F; subst. cbn [fold_left]. apply IH; [assumption|]. 
  match goal with |- length ?z = _ => change (length z) with (@length R z) end. rewrite zip_length; change (num RMath) with R in *; lia.
Qed.
(** subtracting the projections on an orthonormal list makes the vector orthogonal to the list *)
Lemma sub_all_dot n m c : forall done u, Forall (fun v => length v = n) done -> length u = n ->
  dot (fold_left (fun u e => zipR (fun a b => n_sub RMath a (n_mul RMath (rb_scalar RMath (n_ofZ RMath 0) m e) b)) u e) done u) c =
  (dot u c - fold_right (fun e s => (dot m e * dot e c + s)%R) 0 done)%R.
Proof.
  induction done as [|e done IH]; intros u F L; [cbn; lra|]. inversion F; subst. cbn [fold_left fold_right].
  rewrite IH; [|assumption|rewrite zip_length; change (num RMath) with R in *; lia].
  pose proof (dot_sub (dot m e) u e c) as D. rewrite scalar_dot. change (n_ofZ RMath 0) with 0%R. rewrite Rplus_0_l. change (n_sub RMath) with Rminus. change (n_mul RMath) with Rmult.
  change (num RMath) with R in *. rewrite D by lia. lra.
Qed.
Lemma proj_sum m (done : list (list R)) e i : (forall a b u v, nth_error done a = Some u -> nth_error done b = Some v -> dot u v = if Nat.eqb a b then 1%R else 0%R) ->
  nth_error done i = Some e -> fold_right (fun d s => (dot m d * dot d e + s)%R) 0%R done = dot m e.
Proof.
  revert i. induction done as [|d done IH]; intros i O Hi; [destruct i; discriminate|]. cbn [fold_right]. destruct i as [|i]; cbn in Hi.
  - injection Hi as ->. rewrite (O 0 0 e e eq_refl eq_refl). cbn [Nat.eqb].
    assert (Z0 : fold_right (fun d s => (dot m d * dot d e + s)%R) 0%R done = 0%R).
    { assert (G : Forall (fun d => dot d e = 0%R) done).
      { apply Forall_forall. intros d Hd. apply In_nth_error in Hd as (k & Hk). rewrite (O (S k) 0 d e Hk eq_refl). reflexivity. }
      clear - G. induction G as [|d l H G IH]; [reflexivity|]. cbn [fold_right]. rewrite IH, H. lra. }
    rewrite Z0. lra.
  - rewrite (O 0 (S i) d e eq_refl Hi). cbn [Nat.eqb]. rewrite (IH i); [lra| |exact Hi].
    intros a b u v Ha Hb. rewrite (O (S a) (S b) u v Ha Hb). reflexivity.
Qed.

(** Gram-Schmidt on rows for each of which a test vector exists that is orthogonal to the earlier rows but not to it. *)
Lemma gram_schmidt_spec n : forall rows done used,
  Forall (fun v => length v = n) rows -> Forall (fun v => length v = n) done ->
  (forall a b u v, nth_error done a = Some u -> nth_error done b = Some v -> dot u v = if Nat.eqb a b then 1%R else 0%R) ->
  (forall c, (forall m, In m used -> dot m c = 0%R) -> forall e, In e done -> dot e c = 0%R) ->
  (forall pre m post, rows = pre ++ m :: post -> exists c, (forall m', In m' (used ++ pre) -> dot m' c = 0%R) /\ dot m c <> 0%R) ->
  let res := rb_gram_schmidt RMath done rows in
  length res = length done + length rows /\ Forall (fun v => length v = n) res /\
  forall a b u v, nth_error res a = Some u -> nth_error res b = Some v -> dot u v = if Nat.eqb a b then 1%R else 0%R.
Proof.
  induction rows as [|m rows IH]; intros done used Fr Fd O S I; cbn [rb_gram_schmidt length].
  - cbv zeta. split; [change (num RMath) with R; lia|]. auto.
  - inversion Fr as [|? ? Lm Fr']; subst.
    pose proof (sub_all_length (length m) m done m Fd eq_refl) as Lu. change (num RMath) with R in *.
    set (u := fold_left (fun u e => zipR (fun a b => n_sub RMath a (n_mul RMath (rb_scalar RMath (n_ofZ RMath 0) m e) b)) u e) done m) in *.
    assert (Du : forall c, dot u c = (dot m c - fold_right (fun e s => (dot m e * dot e c + s)%R) 0 done)%R) by (intro c; apply (sub_all_dot (length m)); [exact Fd|reflexivity]).
    assert (Oe : forall i e, nth_error done i = Some e -> dot u e = 0%R) by (intros i e He; rewrite Du, (proj_sum m done e i O He); lra).
    destruct (I [] m rows eq_refl) as (c & C0 & C1). rewrite app_nil_r in C0.
    assert (Uc : dot u c = dot m c).
    { rewrite Du. assert (Z0 : Forall (fun e => dot e c = 0%R) done) by (apply Forall_forall; intros e He; apply (S c C0 e He)).
      replace (fold_right (fun e s => (dot m e * dot e c + s)%R) 0%R done) with 0%R; [lra|]. clear - Z0. induction Z0 as [|e l H G IH]; [reflexivity|]. cbn [fold_right]. rewrite <- IH, H. lra. }
    assert (Un : dot u u <> 0%R) by (intro Hz; apply C1; rewrite <- Uc; apply dot_self_0; exact Hz).
    destruct (normalize_dot u Un) as (N1 & k & Hk & N2). set (w := rb_normalize RMath u) in *.
    assert (Lw : length w = length m) by (unfold w; rewrite <- Lu; apply normalize_length).
    destruct (IH (done ++ [w]) (used ++ [m])) as (R1 & R2 & R3).
    + exact Fr'.
    + apply Forall_app. split; [exact Fd|]. constructor; [exact Lw|constructor].
    + assert (X : forall a x, nth_error (done ++ [w]) a = Some x -> (a < length done /\ nth_error done a = Some x) \/ (a = length done /\ x = w)).
      { intros a x Ha. destruct (Nat.lt_ge_cases a (length done)) as [L|L]; [rewrite nth_error_app1 in Ha by exact L; auto|].
        rewrite nth_error_app2 in Ha by exact L. destruct (a - length done) as [|d] eqn:E; [|destruct d; discriminate]. injection Ha as <-. right. split; [lia|reflexivity]. }
      intros a b x y Ha Hb. destruct (X a x Ha) as [[La Ha']|[-> ->]], (X b y Hb) as [[Lb Hb']|[-> ->]].
      * apply O; assumption.
      * destruct (Nat.eqb_spec a (length done)); [lia|]. rewrite dot_sym, N2, (Oe a x Ha'). unfold Rdiv. ring.
      * destruct (Nat.eqb_spec (length done) b); [lia|]. rewrite N2, (Oe b y Hb'). unfold Rdiv. ring.
      * rewrite Nat.eqb_refl. exact N1.
    + intros c' C' e He. apply in_app_or in He as [He|[<-|[]]].
      * apply S; [|exact He]. intros m' Hm'. apply C'. apply in_or_app. auto.
      * rewrite N2, Du. assert (Z0 : Forall (fun e => dot e c' = 0%R) done).
        { apply Forall_forall. intros e He. apply S; [|exact He]. intros m' Hm'. apply C'. apply in_or_app. auto. }
        replace (fold_right (fun e s => (dot m e * dot e c' + s)%R) 0%R done) with 0%R.
        2:{ clear - Z0. induction Z0 as [|e l H G IH]; [reflexivity|]. cbn [fold_right]. rewrite <- IH, H. lra. }
        rewrite (C' m) by (apply in_or_app; right; left; reflexivity). unfold Rdiv. ring.
    + intros pre m' post E. destruct (I (m :: pre) m' post ltac:(cbn; rewrite E; reflexivity)) as (c' & A & B). exists c'. split; [|exact B].
      intros m'' Hm. apply A. rewrite <- app_assoc in Hm. exact Hm.
    + rewrite app_length in R1. cbn [length] in R1. split; [change (num RMath) with R in *; fold u w; lia|]. auto.
Qed.

(** *** The matrix of CreateNewBasis *)
Fixpoint wsum (steps : list R) (basis : list (list R)) (c : list R) : R :=
  match steps, basis with s :: ss, d :: ds => (s * dot d c + wsum ss ds c)%R | _, _ => 0%R end.
Lemma row_length n : forall steps basis acc, Forall (fun v => length v = n) basis -> length acc = n -> length (rb_row RMath steps basis acc) = n.
Proof.
  induction steps as [|s ss IH]; intros [|d ds] acc F L; cbn [rb_row]; auto. inversion F; subst. apply IH; [assumption|]. 
  pose proof (move_length s d acc). change (num RMath) with R in *. lia.
Qed.
Lemma row_dot n c : forall steps basis acc, Forall (fun v => length v = n) basis -> length acc = n ->
  dot (rb_row RMath steps basis acc) c = (dot acc c + wsum steps basis c)%R.
Proof.
  induction steps as [|s ss IH]; intros [|d ds] acc F L; cbn [rb_row wsum]; try lra. inversion F; subst.
  rewrite IH; [|assumption|pose proof (move_length s d acc); change (num RMath) with R in *; lia]. rewrite dot_move by lia. lra.
Qed.
Lemma wsum_zero c : forall steps basis, (forall i u, nth_error basis i = Some u -> dot u c = 0%R) -> wsum steps basis c = 0%R.
Proof.
  induction steps as [|s ss IH]; intros [|d ds] H; cbn [wsum]; auto. rewrite (H 0 d eq_refl), IH; [lra|]. intros i u Hi. apply (H (S i) u Hi).
Qed.
Lemma wsum_unit c : forall steps basis k, length steps = length basis ->
  (forall i u, nth_error basis i = Some u -> dot u c = if Nat.eqb i k then 1%R else 0%R) -> wsum steps basis c = nth k steps 0%R.
Proof.
  induction steps as [|s ss IH]; intros [|d ds] k L H; cbn [length] in L; try discriminate; [destruct k; reflexivity|].
  cbn [wsum]. rewrite (H 0 d eq_refl). destruct k as [|k]; cbn [Nat.eqb nth].
  - rewrite wsum_zero; [lra|]. intros i u Hi. apply (H (S i) u Hi).
  - rewrite (IH ds k); [lra|lia|]. intros i u Hi. apply (H (S i) u Hi).
Qed.
Lemma matrix_length n : forall (steps : list R) (basis : list (list R)), length steps = length basis -> length (rb_matrix RMath n steps basis) = length basis.
Proof.
  induction steps as [|s ss IH]; intros [|d ds] L; cbn [length rb_matrix] in *; try discriminate; [reflexivity|]. f_equal. apply IH. injection L as L. exact L.
Qed.
Lemma matrix_nth n : forall (steps : list R) (basis : list (list R)) j m, nth_error (rb_matrix RMath n steps basis) j = Some m ->
  m = rb_row RMath (skipn j steps) (skipn j basis) (repeat 0%R n).
Proof.
  induction steps as [|s ss IH]; intros [|d ds] j m H; cbn [rb_matrix] in H; try (destruct j; discriminate).
  destruct j as [|j]; cbn [nth_error skipn] in *; [injection H as <-; reflexivity|]. apply IH. exact H.
Qed.
Lemma nth_error_skipn {A} (l : list A) : forall j i, nth_error (skipn j l) i = nth_error l (j + i).
Proof. induction l as [|a l IH]; intros [|j] i; cbn; auto. destruct i; reflexivity. Qed.
Lemma nth_skipn0 (l : list R) : forall k j, nth j (skipn k l) 0%R = nth (k + j) l 0%R.
Proof. induction l as [|a l IH]; intros [|k] j; cbn [skipn nth Nat.add]; auto. destruct j; reflexivity. Qed.
Lemma matrix_dot n (steps : list R) (basis : list (list R)) j m k b : orthonormal n basis -> length steps = n -> nth_error (rb_matrix RMath n steps basis) j = Some m ->
  nth_error basis k = Some b -> dot m b = if Nat.leb j k then nth k steps 0%R else 0%R.
Proof.
  intros (Lb & Fb & O) Ls Hj Hk. apply matrix_nth in Hj. subst m.
  assert (F : Forall (fun v => length v = n) (skipn j basis)) by (rewrite <- (firstn_skipn j basis) in Fb; apply Forall_app in Fb; apply Fb).
  rewrite (row_dot n b _ _ _ F) by apply repeat_length. rewrite dot_zero, Rplus_0_l. destruct (Nat.leb_spec j k) as [H|H].
  - rewrite (wsum_unit b _ _ (k - j)).
    + rewrite nth_skipn0. replace (j + (k - j)) with k by lia. reflexivity.
    + rewrite !skipn_length. lia.
    + intros i u Hi. rewrite nth_error_skipn in Hi. rewrite (O _ _ _ _ Hi Hk). destruct (Nat.eqb_spec (j + i) k), (Nat.eqb_spec i (k - j)); try reflexivity; lia.
  - apply wsum_zero. intros i u Hi. rewrite nth_error_skipn in Hi. rewrite (O _ _ _ _ Hi Hk). destruct (Nat.eqb_spec (j + i) k); [lia|reflexivity].
Qed.

(** ** C47 The new basis is orthonormal when the old one is and no step is 0. *)
Theorem C47_new_basis : forall n (steps : list R) (basis : list (list R)), orthonormal n basis -> length steps = n -> Forall (fun s => s <> 0%R) steps ->
  orthonormal n (rb_new_basis RMath n steps basis).
Proof.
  intros n steps basis O Ls Hs. pose proof O as (Lb & Fb & Od). unfold rb_new_basis.
  assert (Sn : forall k, k < n -> nth k steps 0%R <> 0%R).
  { intros k Hk. rewrite Forall_forall in Hs. apply Hs. apply nth_In. lia. }
  destruct (gram_schmidt_spec n (rb_matrix RMath n steps basis) [] []) as (R1 & R2 & R3).
  - apply Forall_forall. intros m Hm. apply In_nth_error in Hm as (j & Hj). apply matrix_nth in Hj. subst m. apply row_length; [|apply repeat_length].
    rewrite <- (firstn_skipn j basis) in Fb. apply Forall_app in Fb. apply Fb.
  - constructor.
  - intros a b u v Ha. destruct a; discriminate.
  - intros c _ e [].
  - intros pre m post E. set (j := length pre).
    assert (Hj : nth_error (rb_matrix RMath n steps basis) j = Some m) by (rewrite E, nth_error_app2 by (unfold j; lia); unfold j; rewrite Nat.sub_diag; reflexivity).
    assert (Jn : j < n).
    { assert (j < length (rb_matrix RMath n steps basis)) by (apply nth_error_Some; congruence).
      pose proof (matrix_length n steps basis (eq_trans Ls (eq_sym Lb))). change (num RMath) with R in *. lia. }
    destruct (nth_error basis j) as [bj|] eqn:Bj; [|apply nth_error_None in Bj; lia].
    assert (Lbj : length bj = n) by (rewrite Forall_forall in Fb; apply Fb; eapply nth_error_In; exact Bj).
    destruct j as [|j'] eqn:Ej.
    + exists bj. assert (pre = []) as -> by (destruct pre; [reflexivity|discriminate]). split; [intros m' []|].
      rewrite (matrix_dot n steps basis 0 m 0 bj O Ls Hj Bj). cbn [Nat.leb]. apply Sn. exact Jn.
    + destruct (nth_error basis j') as [bp|] eqn:Bp; [|apply nth_error_None in Bp; lia].
      assert (Lbp : length bp = n) by (rewrite Forall_forall in Fb; apply Fb; eapply nth_error_In; exact Bp).
      pose proof (Sn (S j') Jn) as S1. pose proof (Sn j' ltac:(lia)) as S2.
      set (c := zipR (fun x y => (/ nth (S j') steps 0 * x + - / nth j' steps 0 * y)%R) bj bp).
      assert (Dc : forall v, dot v c = (dot v bj / nth (S j') steps 0 - dot v bp / nth j' steps 0)%R).
      { intro v. rewrite dot_sym. unfold c. rewrite dot_zip by lia. rewrite (dot_sym bj), (dot_sym bp). unfold Rdiv. ring. }
      exists c. split.
      * intros m' Hm'. cbn [app] in Hm'. apply In_nth_error in Hm' as (i & Hi). assert (Ip : i < length pre) by (apply nth_error_Some; congruence).
        assert (Hi' : nth_error (rb_matrix RMath n steps basis) i = Some m') by (rewrite E, nth_error_app1 by exact Ip; exact Hi).
        rewrite Dc, (matrix_dot n steps basis i m' _ _ O Ls Hi' Bj), (matrix_dot n steps basis i m' _ _ O Ls Hi' Bp).
        destruct (Nat.leb_spec i (S j')); [|lia]. destruct (Nat.leb_spec i j'); [|lia]. field. split; assumption.
      * rewrite Dc, (matrix_dot n steps basis _ m _ _ O Ls Hj Bj), (matrix_dot n steps basis _ m _ _ O Ls Hj Bp).
        rewrite Nat.leb_refl. destruct (Nat.leb_spec (S j') j'); [lia|].
        replace (nth (S j') steps 0 / nth (S j') steps 0 - 0 / nth j' steps 0)%R with 1%R by (field; split; assumption). lra.
  - split; [|split; [exact R2|exact R3]]. exact (eq_trans R1 (eq_trans (matrix_length n steps basis (eq_trans Ls (eq_sym Lb))) Lb)).
Qed.
(** the initial basis *)
Lemma unit_dot i j : forall n k, k <= i -> 
  dot (map (fun a => if Nat.eqb i a then 1%R else 0%R) (seq k n)) (map (fun a => if Nat.eqb j a then 1%R else 0%R) (seq k n)) =
  if (Nat.eqb i j && Nat.ltb i (k + n))%bool then 1%R else 0%R.
Proof.
  induction n as [|n IH]; intros k Hk; cbn [seq map dot].
  - destruct (Nat.ltb_spec i (k + 0)); [lia|]. rewrite andb_false_r. reflexivity.
  - destruct (Nat.eqb_spec i k) as [->|Ne].
    + replace (dot (map (fun a => if Nat.eqb k a then 1%R else 0%R) (seq (S k) n)) (map (fun a => if Nat.eqb j a then 1%R else 0%R) (seq (S k) n))) with 0%R.
      * rewrite Nat.eqb_sym. destruct (Nat.eqb_spec k j); destruct (Nat.ltb_spec k (k + S n)); cbn [andb]; try lia; lra.
      * symmetry. assert (G : forall m a, k < a -> dot (map (fun a => if Nat.eqb k a then 1%R else 0%R) (seq a m)) (map (fun a => if Nat.eqb j a then 1%R else 0%R) (seq a m)) = 0%R).
        { induction m as [|m IHm]; intros a Ha; cbn [seq map dot]; [reflexivity|]. rewrite IHm by lia. destruct (Nat.eqb_spec k a); [lia|]. lra. }
        apply G. lia.
    + rewrite IH by lia. replace (k + S n) with (S k + n) by lia. lra.
Qed.
Theorem C47_initial_basis : forall n, orthonormal n (rb_init_basis RMath n).
Proof.
  intro n. unfold rb_init_basis. split; [rewrite map_length, seq_length; reflexivity|]. split.
  - apply Forall_forall. intros v Hv. apply in_map_iff in Hv as (i & <- & _). rewrite map_length, seq_length. reflexivity.
  - assert (X : forall i u, nth_error (map (fun i => map (fun j => if Nat.eqb i j then n_ofZ RMath 1 else n_ofZ RMath 0) (seq 0 n)) (seq 0 n)) i = Some u ->
      i < n /\ u = map (fun a => if Nat.eqb i a then 1%R else 0%R) (seq 0 n)).
    { intros i u Hi. rewrite nth_error_map in Hi. destruct (nth_error (seq 0 n) i) as [i'|] eqn:E; [|discriminate].
      assert (L : i < n) by (rewrite <- (seq_length n 0); apply nth_error_Some; congruence).
      rewrite (nth_error_nth' _ 0) in E by (rewrite seq_length; exact L). rewrite seq_nth in E by exact L. injection E as <-. injection Hi as <-. auto. }
    intros i j u v Hi Hj. apply X in Hi as [Li ->]. apply X in Hj as [Lj ->]. rewrite unit_dot by lia. cbn [Nat.add]. destruct (Nat.ltb_spec i n); [|lia]. rewrite andb_true_r. reflexivity.
Qed.


(** *** What a search does whatever the answers of the objective function are *)
(** At most [b] evaluations, all at points satisfying [P], no exception and no undefined behaviour, and a result satisfying [Q]. *)
Fixpoint does {N : Num} (P : list (num N) -> Prop) {A} (Q : A -> Prop) (b : nat) (s : search N A) {struct s} : Prop :=
  match s with
  | Ret a => Q a
  | Ask _ v k => match b with O => False | S b' => P v /\ forall y, does P Q b' (k y) end
  | _ => False
  end.
Lemma does_weaken N P A (Q Q' : A -> Prop) : (forall a, Q a -> Q' a) -> forall (s : search N A) b b', (b <= b')%nat -> does P Q b s -> does P Q' b' s.
Proof.
  intro HQ. induction s as [a|m v k IH|e|u]; intros b b' L H; cbn [does] in *; auto. destruct b as [|b]; [destruct H|]. destruct b' as [|b']; [lia|].
  destruct H as [Hp Hk]. split; [exact Hp|]. intro y. apply (IH y b b'); [lia|]. apply Hk.
Qed.
Lemma does_bind N P A B (Q : A -> Prop) (Q' : B -> Prop) b' (k : A -> search N B) : (forall a, Q a -> does P Q' b' (k a)) ->
  forall (s : search N A) b, does P Q b s -> does P Q' (b + b') (sbind s k).
Proof.
  intro Hk. induction s as [a|m v h IH|e|u]; intros b H; cbn [does sbind] in *; try contradiction.
  - apply (does_weaken N P B Q' Q' (fun _ h => h) (k a) b' (b + b')); [lia|]. apply Hk, H.
  - destruct b as [|b]; [destruct H|]. cbn [Nat.add]. destruct H as [Hp H]. split; [exact Hp|]. intro y. apply IH, H.
Qed.
Lemma does_points N (P P' : list (num N) -> Prop) A (Q : A -> Prop) : (forall v, P v -> P' v) -> forall (s : search N A) b, does P Q b s -> does P' Q b s.
Proof.
  intro HP. induction s as [a|m v k IH|e|u]; intros b H; cbn [does] in *; auto. destruct b as [|b]; [destruct H|]. destruct H as [Pv H]. split; [auto|]. intro y. apply IH, H.
Qed.
(** in the optimiser, whatever the parameters object does *)
Lemma does_run N P A Q O p_set p_get p_check f mx : forall (s : search N A) b p log, does P Q b s ->
  length (snd (run N O p_set p_get p_check f mx s p log)) <= length log + b.
Proof.
  induction s as [a|m v k IH|e|u]; intros b p log H; cbn [does run] in *; try contradiction; [cbn; lia|]. destruct b as [|b]; [destruct H|]. destruct H as [_ H].
  unfold count_value. destruct (p_set v p) as [[?|?|?] q]; [|cbn; lia|cbn; lia]. destruct (p_check q); [|cbn; lia].
  destruct (f (p_get q)) as [y|?|?]; [|cbn; rewrite app_length; cbn; lia|cbn; rewrite app_length; cbn; lia].
  eapply Nat.le_trans; [apply IH, H|]. rewrite app_length. cbn. lia.
Qed.
Lemma does_optimize N P Q O p_set p_get p_check f mx find b p : does P Q b (find (p_get p)) ->
  length (snd (optimize N O p_set p_get p_check f mx find p)) <= b.
Proof.
  intro H. unfold optimize. pose proof (does_run N P _ Q O p_set p_get p_check f mx _ b p [] H) as L.
  destruct (run _ _ _ _ _ _ _ _ _ _) as [[[v|?|?] q] l]; cbn in L |- *; [|lia|lia]. destruct (p_set v q). cbn. lia.
Qed.
(** with an array of the right size as the parameters object and a function that always returns a value *)
Lemma does_run_array N (P : list (num N) -> Prop) A (Q : A -> Prop) n (f : list (num N) -> num N) mx : (forall v, P v -> length v = n) -> forall (s : search N A) b p log, does P Q b s -> length p = n ->
  exists a q l, run N (list (num N)) (arr_set N) (arr_get N) (arr_check N) (fun v => Ok (f v)) mx s p log = (Ok a, q, log ++ l) /\ Q a /\ length q = n /\ Forall P l /\ length l <= b.
Proof.
  intro HP. induction s as [a|m v k IH|e|u]; intros b p log H L; cbn [does run] in *; try contradiction.
  - exists a, p, []. rewrite app_nil_r. repeat split; auto. cbn. lia.
  - destruct b as [|b]; [destruct H|]. destruct H as [Pv H]. unfold count_value, arr_set, arr_get, arr_check. rewrite (HP v Pv), L, Nat.eqb_refl.
    destruct (IH (signed N mx m (f v)) b v (log ++ [v]) (H _) (HP v Pv)) as (a & q & l & E & Qa & Lq & Fl & Ll).
    exists a, q, (v :: l). rewrite <- app_assoc in E. repeat split; [exact E|exact Qa|exact Lq|constructor; assumption|cbn; lia].
Qed.

(** *** The main loop in any arithmetic: sizes and number of evaluations *)
Section Any.
Variable M : MNum.
Lemma zip_length_any op : forall a b : list (num M), length a = length b -> length (zip_with M op a b) = length a.
Proof. induction a as [|x a IH]; intros [|y b] H; cbn in *; try lia. rewrite IH; lia. Qed.
Lemma insert_desc_length x : forall l : list (num M), length (insert_desc M x l) = S (length l).
Proof. induction l as [|y l IH]; cbn; [reflexivity|]. destruct (n_ltb M y x); cbn; [reflexivity|]. rewrite IH. reflexivity. Qed.
Lemma sort_desc_length : forall l : list (num M), length (sort_desc M l) = length l.
Proof. induction l as [|x l IH]; cbn [sort_desc length]; [reflexivity|]. rewrite insert_desc_length, IH. reflexivity. Qed.
Lemma insert_desc_in x y : forall l : list (num M), In y (insert_desc M x l) -> y = x \/ In y l.
Proof. induction l as [|z l IH]; cbn; [intuition|]. destruct (n_ltb M z x); cbn; intuition. Qed.
Lemma sort_desc_forall Q : forall l : list (num M), Forall Q l -> Forall Q (sort_desc M l).
Proof.
  induction 1 as [|x l Hx H IH]; cbn [sort_desc]; [constructor|]. rewrite Forall_forall in IH |- *. intros y Hy. apply insert_desc_in in Hy as [->|Hy]; auto.
Qed.
Definition sized (n : nat) (l : list (num M)) : Prop := length l = n.
Lemma normalize_length_any v : length (rb_normalize M v) = length v.
Proof. unfold rb_normalize. destruct (n_eqb _ _ _); [reflexivity|]. apply map_length. Qed.
Lemma gram_schmidt_sizes n : forall rows done, Forall (sized n) rows -> Forall (sized n) done ->
  length (rb_gram_schmidt M done rows) = length done + length rows /\ Forall (sized n) (rb_gram_schmidt M done rows).
Proof.
  induction rows as [|m rows IH]; intros done Fr Fd; cbn [rb_gram_schmidt length]; [split; [lia|exact Fd]|]. inversion Fr as [|? ? Lm Fr']; subst.
  assert (Lu : forall d u, Forall (sized n) d -> length u = n -> length (fold_left (fun u e => zip_with M (fun a b => n_sub M a (n_mul M (rb_scalar M (n_ofZ M 0) m e) b)) u e) d u) = n).
  { induction d as [|e d IHd]; intros u F L; [exact L|]. inversion F as [|? ? Le Fd']; subst. cbn [fold_left]. apply IHd; [exact Fd'|]. rewrite zip_length_any; [reflexivity|symmetry; exact Le]. }
  edestruct (IH (done ++ [rb_normalize M (fold_left (fun u e => zip_with M (fun a b => n_sub M a (n_mul M (rb_scalar M (n_ofZ M 0) m e) b)) u e) done m)]) Fr') as [A B].
  - apply Forall_app. split; [exact Fd|]. constructor; [|constructor]. unfold sized. rewrite normalize_length_any. apply Lu; assumption.
  - split; [rewrite A, app_length; cbn; lia|exact B].
Qed.
Lemma row_sizes n : forall steps basis acc, Forall (sized n) basis -> length acc = n -> length (rb_row M steps basis acc) = n.
Proof.
  induction steps as [|s ss IH]; intros [|d ds] acc F L; cbn [rb_row]; auto. inversion F as [|? ? Ld Fd]; subst. apply IH; [exact Fd|].
  unfold rb_move. rewrite zip_length_any; [reflexivity|symmetry; exact Ld].
Qed.
Lemma matrix_sizes n : forall steps basis, length steps = length basis -> Forall (sized n) basis -> length (rb_matrix M n steps basis) = length basis /\ Forall (sized n) (rb_matrix M n steps basis).
Proof.
  induction steps as [|s ss IH]; intros [|d ds] L F; cbn [rb_matrix length] in *; try discriminate; [split; [reflexivity|constructor]|]. inversion F as [|? ? Ld Fd]; subst.
  destruct (IH ds ltac:(lia) Fd) as [A B]. split; [rewrite A; reflexivity|]. constructor; [|exact B]. apply (row_sizes n (s :: ss) (d :: ds)); [exact F|apply repeat_length].
Qed.
Lemma new_basis_sizes n steps basis : length steps = n -> length basis = n -> Forall (sized n) basis -> length (rb_new_basis M n steps basis) = n /\ Forall (sized n) (rb_new_basis M n steps basis).
Proof.
  intros Ls Lb F. destruct (matrix_sizes n steps basis) as [A B]; [lia|exact F|]. unfold rb_new_basis. destruct (gram_schmidt_sizes n (rb_matrix M n steps basis) [] B) as [C D]; [constructor|].
  split; [rewrite C, A; exact Lb|exact D].
Qed.

(** One call of MakeStep: the trial points are args + step*direction for the sorted steps, each new step is 3/2 or -1/2
    of the sorted one, cut to the maximal step, and the new point is args + the sum of the new steps along their directions. *)
Definition step_from (c : rb_cfg M) (s s' : num M) : Prop :=
  s' = rb_correct M c (n_mul M s (rb_increase M)) \/ s' = rb_correct M c (n_mul M s (rb_decrease M)).
Lemma directions_does (P : list (num M) -> Prop) c start args : forall steps basis args2, length steps = length basis ->
  (forall s d, In s steps -> In d basis -> P (rb_move M s d args)) ->
  does P (fun r => Forall2 (step_from c) steps (fst r) /\ snd r = rb_row M (fst r) basis args2) (length steps) (rb_directions M c start args steps basis args2).
Proof.
  induction steps as [|s ss IH]; intros [|d ds] args2 L HP; cbn [rb_directions length] in *; try discriminate; [cbn; split; [constructor|reflexivity]|].
  unfold ask_min. cbn [sbind does]. split; [apply HP; left; reflexivity|]. intro y.
  set (s' := rb_correct M c _). rewrite <- (Nat.add_0_r (length ss)).
  eapply does_bind; [|apply (IH ds (rb_move M s' d args2)); [lia|intros; apply HP; right; assumption]].
  intros [ss' r] [F E]. cbn [fst snd does rb_row] in *. split; [|exact E]. constructor; [|exact F].
  unfold s'. destruct (n_ltb M y start); [left|right]; reflexivity.
Qed.
Lemma make_step_does (P : list (num M) -> Prop) c args steps basis : length steps = length basis -> P args ->
  (forall s d, In s (sort_desc M steps) -> In d basis -> P (rb_move M s d args)) ->
  does P (fun r => Forall2 (step_from c) (sort_desc M steps) (fst r) /\ snd r = rb_row M (fst r) basis args) (S (length steps)) (rb_make_step M c args steps basis).
Proof.
  intros L Pa HP. unfold rb_make_step, ask_min. cbn [sbind does]. split; [exact Pa|]. intro y. rewrite <- (sort_desc_length steps). apply directions_does; [|exact HP].
  rewrite sort_desc_length. exact L.
Qed.
Lemma Forall2_len {A B} (Q : A -> B -> Prop) l m : Forall2 Q l m -> length l = length m.
Proof. induction 1; cbn; auto. Qed.
Lemma loop_sizes n c : forall todo args next steps basis, length args = n -> length next = n -> length steps = n -> length basis = n -> Forall (sized n) basis ->
  does (sized n) (fun r => length (fst (fst r)) = n) (todo * S n) (rb_loop M todo c args next steps basis).
Proof.
  induction todo as [|t IH]; intros args next steps basis La Ln Ls Lb Fb; cbn [rb_loop]; [exact Ln|].
  assert (D : does (sized n) (fun r => Forall2 (step_from c) (sort_desc M steps) (fst r) /\ snd r = rb_row M (fst r) basis next) (S (length steps)) (rb_make_step M c next steps basis)).
  { apply (make_step_does (sized n) c next steps basis); [lia|exact Ln|]. intros s d _ Hd. unfold sized, rb_move. rewrite zip_length_any; [exact Ln|].
    rewrite Forall_forall in Fb. rewrite (Fb d Hd). exact Ln. }
  rewrite Ls in D. cbn [Nat.mul]. apply (does_bind _ _ _ _ _ _ _ _) with (2 := D). clear D.
  intros [steps' next'] [F E]. cbn [fst snd] in F, E. cbv beta iota.
  assert (Ls' : length steps' = n) by (apply Forall2_len in F; rewrite sort_desc_length in F; lia).
  assert (Ln' : length next' = n) by (rewrite E; apply row_sizes; assumption).
  destruct (rb_exit M c next' args); [exact Ln'|]. rewrite Ln'. destruct (new_basis_sizes n steps' basis Ls' Lb Fb) as [A B]. apply IH; assumption.
Qed.
Lemma init_basis_sizes n : length (rb_init_basis M n) = n /\ Forall (sized n) (rb_init_basis M n).
Proof.
  unfold rb_init_basis. split; [rewrite map_length, seq_length; reflexivity|]. apply Forall_forall. intros v Hv. apply in_map_iff in Hv as (i & <- & _). unfold sized. rewrite map_length, seq_length. reflexivity.
Qed.
Lemma find_sizes c init : does (sized (length init)) (sized (length init)) (Z.to_nat (rb_max_iterations M c) * S (length init)) (rb_find M c init).
Proof.
  unfold rb_find, rb_run. rewrite <- (Nat.add_0_r (_ * _)). destruct (init_basis_sizes (length init)). eapply does_bind.
  2: apply (loop_sizes (length init)); auto; apply repeat_length.
  intros [[v s] b] Hv. exact Hv.
Qed.
End Any.

(** ** C47 At most max_iterations*(n+1) evaluations, whatever the parameters object, the function and the arithmetic. *)
Theorem C47_evaluations : forall (M : MNum) O p_set p_get p_check f maximize c (p : O),
  length (snd (optimize M O p_set p_get p_check f maximize (rb_find M c) p)) <= Z.to_nat (rb_max_iterations M c) * S (length (p_get p)).
Proof. intros. eapply does_optimize. apply find_sizes. Qed.
(** ** C47 On an array of parameters the search ends normally with a result of the same size. *)
Theorem C47_total : forall (M : MNum) (f : list (num M) -> num M) maximize c p, exists q log,
  optimize M (list (num M)) (arr_set M) (arr_get M) (arr_check M) (fun v => Ok (f v)) maximize (rb_find M c) p = (Ok tt, q, log) /\ length q = length p /\ Forall (fun v => length v = length p) log.
Proof.
  intros M f mx c p. pose proof (find_sizes M c p) as D. unfold optimize, arr_get at 2.
  destruct (does_run_array M (sized M (length p)) _ (sized M (length p)) (length p) f mx (fun v h => h) _ _ p [] D eq_refl) as (a & q & l & E & Qa & Lq & Fl & _).
  rewrite E. cbn [app]. unfold arr_set. rewrite Qa, Lq, Nat.eqb_refl. exists a, l. auto.
Qed.

(** *** Exact arithmetic *)
Definition near (r : R) (a b : list R) : Prop := length a = length b /\ forall j x y, nth_error a j = Some x -> nth_error b j = Some y -> (Rabs (x - y) <= r)%R.
Definition sum_squares (steps : list R) : R := fold_right (fun s acc => (s * s + acc)%R) 0%R steps.
Definition step_ok (c : rb_cfg RMath) (s : R) : Prop := s <> 0%R /\ (Rabs s <= Rabs (rb_max_step RMath c))%R.

Lemma correct_ok c (s : R) : s <> 0%R -> rb_max_step RMath c <> 0%R -> step_ok c (rb_correct RMath c s).
Proof.
  intros Hs Hm. unfold rb_correct, step_ok. cbn [m_abs RMath n_ltb n_div n_mul m_num RNum]. unfold R_ltb. set (m := rb_max_step RMath c : R) in *. change (num RMath) with R in *.
  destruct (Rlt_dec m (Rabs s)) as [H|H].
  - assert (0 < Rabs s)%R by (apply Rabs_pos_lt; exact Hs). split.
    + apply Rmult_integral_contrapositive_currified; [|apply Rinv_neq_0_compat; lra]. apply Rmult_integral_contrapositive_currified; assumption.
    + unfold Rdiv. rewrite !Rabs_mult, Rabs_inv, Rabs_Rabsolu. apply Req_le. field. lra.
  - split; [exact Hs|]. apply Rnot_lt_le in H. eapply Rle_trans; [exact H|apply Rle_abs].
Qed.
Lemma step_from_ok c (s s' : R) : s <> 0%R -> rb_max_step RMath c <> 0%R -> step_from RMath c s s' -> step_ok c s'.
Proof.
  intros Hs Hm [E|E]; rewrite E; apply correct_ok; try exact Hm; cbn [n_mul n_div n_ofZ rb_increase rb_decrease RMath m_num RNum];
  unfold rb_increase, rb_decrease; cbn [n_mul n_div n_ofZ RMath m_num RNum]; (apply Rmult_integral_contrapositive_currified; [exact Hs|]); lra.
Qed.
Lemma dot_coord : forall d j x, nth_error d j = Some x -> (x * x <= dot d d)%R.
Proof.
  induction d as [|y d IH]; intros [|j] x H; cbn in H; try discriminate; cbn [dot].
  - injection H as ->. pose proof (dot_pos d). lra.
  - apply IH in H. pose proof (Rle_0_sqr y). unfold Rsqr in *. lra.
Qed.
Lemma skipn_S {A} : forall (l : list A) k x r, skipn k l = x :: r -> skipn (S k) l = r.
Proof. induction l as [|y l IH]; intros [|k] x r H; cbn in *; try discriminate; [injection H; auto|]. apply (IH k x r H). Qed.
Lemma wsum_squares n basis v : orthonormal n basis -> forall steps, length steps = n -> (forall c, dot v c = wsum steps basis c) -> dot v v = sum_squares steps.
Proof.
  intros (Lb & Fb & O) steps Ls Hv. rewrite Hv.
  assert (G : forall ss ds k, skipn k steps = ss -> skipn k basis = ds -> length ss = length ds -> wsum ss ds v = sum_squares ss).
  { induction ss as [|s ss IH]; intros [|d ds] k Es Ed L; cbn [length] in L; try discriminate; [reflexivity|]. cbn [wsum sum_squares fold_right].
    assert (Hd : nth_error basis k = Some d) by (rewrite <- (Nat.add_0_r k), <- nth_error_skipn, Ed; reflexivity).
    rewrite dot_sym, Hv, (wsum_unit d steps basis k); [|lia|intros i u Hi; apply (O _ _ _ _ Hi Hd)].
    assert (nth k steps 0%R = s) as -> by (rewrite <- (Nat.add_0_r k), <- nth_skipn0, Es; reflexivity).
    rewrite (IH ds (S k)); [reflexivity| | |lia].
    - exact (skipn_S _ _ _ _ Es).
    - exact (skipn_S _ _ _ _ Ed). }
  apply (G steps basis 0); [reflexivity|reflexivity|lia].
Qed.
(** One MakeStep moves the point by the vector whose squared length is the sum of the squares of the new steps. *)
Lemma row_displacement n steps basis args : orthonormal n basis -> length steps = n -> length args = n ->
  let d := zipR Rminus (rb_row RMath steps basis args) args in length d = n /\ dot d d = sum_squares steps.
Proof.
  intros O Ls La d. pose proof O as (Lb & Fb & _).
  assert (Lr : length (rb_row RMath steps basis args) = n) by (apply row_length; assumption). change (num RMath) with R in *.
  split; [unfold d; rewrite zip_length; lia|]. apply (wsum_squares n basis d O steps Ls). intro c. unfold d.
  rewrite (zip_ext Rminus (fun x y => (1 * x + (-1) * y)%R)) by (intros; lra). rewrite dot_zip by lia. rewrite (row_dot n c _ _ _ Fb La). lra.
Qed.
Lemma sum_squares_bound m steps : Forall (fun s => (Rabs s <= Rabs m)%R) steps -> (sum_squares steps <= INR (length steps) * (m * m))%R.
Proof.
  induction 1 as [|s l H F IH]; cbn [sum_squares fold_right length]; [cbn; lra|]. rewrite S_INR. unfold sum_squares in IH. assert (s * s <= m * m)%R by (apply Rsqr_le_abs_1 in H; exact H). lra.
Qed.
Lemma zip_nth (op : R -> R -> R) : forall a b j x y, nth_error a j = Some x -> nth_error b j = Some y -> nth_error (zipR op a b) j = Some (op x y).
Proof. induction a as [|u a IH]; intros [|w b] [|j] x y Ha Hb; cbn in *; try discriminate; [congruence|]. apply IH; assumption. Qed.
Lemma near_of_dot n (a b : list R) r : length a = n -> length b = n -> (0 <= r)%R -> (dot (zipR Rminus a b) (zipR Rminus a b) <= r * r)%R -> near r a b.
Proof.
  intros La Lb Hr H. split; [lia|]. intros j x y Ha Hb. pose proof (dot_coord _ j _ (zip_nth Rminus a b j x y Ha Hb)) as D.
  apply Rsqr_incr_0_var; [|exact Hr]. rewrite <- Rsqr_abs. unfold Rsqr. lra.
Qed.
Lemma near_refl r a : (0 <= r)%R -> near r a a.
Proof. intro H. split; [reflexivity|]. intros j x y Hx Hy. assert (x = y) as -> by congruence. replace (y - y)%R with 0%R by lra. rewrite Rabs_R0. exact H. Qed.
Lemma near_trans r s a b c : near r a b -> near s b c -> near (r + s) a c.
Proof.
  intros [L1 H1] [L2 H2]. split; [lia|]. intros j x z Hx Hz. destruct (nth_error b j) as [y|] eqn:Hy.
  - pose proof (H1 j x y Hx Hy). pose proof (H2 j y z Hy Hz). replace (x - z)%R with ((x - y) + (y - z))%R by ring. eapply Rle_trans; [apply Rabs_triang|]. lra.
  - apply nth_error_None in Hy. assert (j < length a) by (apply nth_error_Some; congruence). lia.
Qed.
Lemma near_mono r s a b : (r <= s)%R -> near r a b -> near s a b.
Proof. intros H [L N]. split; [exact L|]. intros j x y Hx Hy. pose proof (N j x y Hx Hy). lra. Qed.
(** a trial step along a unit vector *)
Lemma trial_near n basis d s (args : list R) r : orthonormal n basis -> In d basis -> length args = n -> (Rabs s <= r)%R -> near r (rb_move RMath s d args) args.
Proof.
  intros (Lb & Fb & O) Hd La Hs. rewrite Forall_forall in Fb. pose proof (Fb d Hd) as Ld. assert (Hr : (0 <= r)%R) by (pose proof (Rabs_pos s); lra).
  assert (Lm : length (rb_move RMath s d args) = n) by exact (eq_trans (move_length s d args (eq_trans La (eq_sym Ld))) La).
  apply (near_of_dot n); [exact Lm|exact La|exact Hr|]. change (num RMath) with R in *. set (m := rb_move RMath s d args : list R) in *.
  assert (D : forall c, dot (zipR Rminus m args) c = (s * dot d c)%R).
  { intro c. rewrite (zip_ext Rminus (fun x y => (1 * x + (-1) * y)%R)) by (intros; lra). rewrite dot_zip by exact (eq_trans Lm (eq_sym La)). unfold m. rewrite dot_move by exact (eq_trans La (eq_sym Ld)). lra. }
  rewrite D, dot_sym, D. apply In_nth_error in Hd as (i & Hi). rewrite (O i i d d Hi Hi), Nat.eqb_refl.
  assert (s * s <= r * r)%R; [|lra]. replace (s * s)%R with (Rabs s * Rabs s)%R by (rewrite <- Rabs_mult; apply Rabs_pos_eq; nra). pose proof (Rabs_pos s). nra.
Qed.

Section Exact.
Variables (c : rb_cfg RMath) (n : nat).
Hypothesis Hm : rb_max_step RMath c <> 0%R.
Let m := Rabs (rb_max_step RMath c).
Let reach := (sqrt (INR n) * m)%R.
Lemma reach_pos : (0 <= reach)%R.
Proof. unfold reach, m. apply Rmult_le_pos; [apply sqrt_pos|apply Rabs_pos]. Qed.
Lemma loop_exact : forall todo (B : R) (init args next steps : list R) basis k,
  (m <= B)%R -> length init = n -> length args = n -> orthonormal n basis -> length steps = n -> Forall (fun s => s <> 0%R /\ (Rabs s <= B)%R) steps ->
  near (INR k * reach) next init ->
  does (N := RMath) (fun v => near (INR (k + todo) * reach + B) v init)
    (fun r : list R * list R * list (list R) => near (INR (k + todo) * reach) (fst (fst r)) init /\ orthonormal n (snd r) /\ length (snd (fst r)) = n /\
       Forall (fun s => s <> 0%R) (snd (fst r)) /\ Forall (fun s => (Rabs s <= if Nat.eqb todo 0 then B else m)%R) (snd (fst r)))
    (todo * S n) (rb_loop RMath todo c args next steps basis).
Proof.
  pose proof reach_pos as RP. assert (Mp : (0 <= m)%R) by apply Rabs_pos.
  induction todo as [|t IH]; intros B init args next steps basis k MB Li La O Ls Fs Nx; cbn [rb_loop].
  - cbn [does fst snd]. rewrite Nat.add_0_r. split; [exact Nx|]. split; [exact O|]. split; [exact Ls|].
    split; (eapply Forall_impl; [|exact Fs]; intros s [Hs Hb]; assumption).
  - pose proof O as (Lb & Fb & _). assert (Ln : length next = n) by (destruct Nx as [L _]; lia).
    assert (Kt : (INR k * reach <= INR (k + S t) * reach)%R) by (apply Rmult_le_compat_r; [exact RP|apply le_INR; lia]).
    assert (D : does (N := RMath) (fun v => near (INR (k + S t) * reach + B) v init)
      (fun r : list R * list R => Forall2 (step_from RMath c) (sort_desc RMath steps) (fst r) /\ snd r = rb_row RMath (fst r) basis next) (S (length steps)) (rb_make_step RMath c next steps basis)).
    { apply (make_step_does RMath _ c next steps basis).
      - change (num RMath) with R in *. lia.
      - eapply near_mono; [|exact Nx]. lra.
      - intros s d Hs Hd. assert (Fs' : Forall (fun s => s <> 0%R /\ (Rabs s <= B)%R) (sort_desc RMath steps)) by (apply (sort_desc_forall RMath); exact Fs).
        rewrite Forall_forall in Fs'. destruct (Fs' s Hs) as [_ Bs]. eapply near_mono; [|eapply near_trans; [apply (trial_near n basis d s next B O Hd Ln Bs)|exact Nx]]. lra. }
    rewrite Ls in D. cbn [Nat.mul]. apply (does_bind _ _ _ _ _ _ _ _) with (2 := D). clear D.
    intros [steps' next'] [F E]. cbn [fst snd] in F, E. cbv beta iota.
    assert (Fs' : Forall (fun s => s <> 0%R /\ (Rabs s <= B)%R) (sort_desc RMath steps)) by (apply (sort_desc_forall RMath); exact Fs).
    assert (Ls' : length steps' = n) by (apply Forall2_len in F; rewrite (sort_desc_length RMath) in F; change (num RMath) with R in *; lia).
    assert (Ok' : Forall (step_ok c) steps').
    { clear - F Fs' Hm. change (num RMath) with R in *. induction F as [|s s' l l' H F IH]; constructor; inversion Fs' as [|? ? [H1 _] H2]; subst; [apply (step_from_ok c s s'); assumption|auto]. }
    destruct (row_displacement n steps' basis next O Ls' Ln) as [Ld Dd].
    assert (Ln' : length next' = n) by (rewrite E; apply row_length; assumption).
    assert (Nn : near reach next' next).
    { apply (near_of_dot n); [exact Ln'|exact Ln|exact RP|]. rewrite E. change (num RMath) with R in *. rewrite Dd.
      eapply Rle_trans; [apply (sum_squares_bound (rb_max_step RMath c)); eapply Forall_impl; [|exact Ok']; intros s [_ H]; exact H|].
      rewrite Ls'. unfold reach, m. apply Req_le. replace (sqrt (INR n) * Rabs (rb_max_step RMath c) * (sqrt (INR n) * Rabs (rb_max_step RMath c)))%R with
        ((sqrt (INR n) * sqrt (INR n)) * (Rabs (rb_max_step RMath c) * Rabs (rb_max_step RMath c)))%R by ring.
      rewrite sqrt_sqrt by apply pos_INR. rewrite <- Rabs_mult, (Rabs_pos_eq (rb_max_step RMath c * rb_max_step RMath c)); [reflexivity|]. apply Rle_0_sqr. }
    assert (N1 : near (INR (k + 1) * reach) next' init).
    { eapply near_mono; [|eapply near_trans; [exact Nn|exact Nx]]. rewrite plus_INR. cbn [INR]. lra. }
    assert (St : Forall (fun s => (Rabs s <= m)%R) steps') by (eapply Forall_impl; [|exact Ok']; intros s [_ H]; exact H).
    assert (Sn : Forall (fun s => s <> 0%R) steps') by (eapply Forall_impl; [|exact Ok']; intros s [H _]; exact H).
    destruct (rb_exit RMath c next' args).
    + cbn [does fst snd]. split; [|auto]. eapply near_mono; [|exact N1]. apply Rmult_le_compat_r; [exact RP|apply le_INR; lia].
    + assert (Ln'' : @length (num RMath) next' = n) by exact Ln'. rewrite Ln''.
      assert (O' : orthonormal n (rb_new_basis RMath n steps' basis)) by (apply C47_new_basis; assumption).
      assert (Fn : Forall (fun s => s <> 0%R /\ (Rabs s <= m)%R) steps').
      { clear - Sn St. rewrite Forall_forall in Sn, St |- *. intros s Hs. split; [apply Sn, Hs|apply St, Hs]. }
      pose proof (IH m init next' next' steps' (rb_new_basis RMath n steps' basis) (k + 1) (Rle_refl m) Li Ln' O' Ls' Fn N1) as D.
      replace (k + 1 + t) with (k + S t) in D by lia. eapply does_points; [|refine (does_weaken _ _ _ _ _ _ _ _ _ (le_n _) D)].
      * intros v Hv. eapply near_mono; [|exact Hv]. lra.
      * intros [[v s] b]. cbn [fst snd Nat.eqb]. intros (A1 & A2 & A3 & A4 & A5). split; [exact A1|]. split; [exact A2|]. split; [exact A3|]. split; [exact A4|].
        eapply Forall_impl; [|exact A5]. intro x. cbv beta. destruct (Nat.eqb t 0); auto.
Qed.
End Exact.

Lemma does_pure N P A (Q : A -> Prop) (f : list (num N) -> num N) : forall (s : search N A) b, does P Q b s -> exists a, pure N (fun v => Ok (f v)) s = Ok a /\ Q a.
Proof.
  induction s as [a|m v k IH|e|u]; intros b H; cbn [does] in H; try contradiction; [exists a; auto|]. destruct b as [|b]; [destruct H|]. destruct H as [_ H].
  destruct m; cbn [pure bind]; eapply IH, H.
Qed.
Lemma run_exact c (init : list R) : rb_first_step RMath c <> 0%R -> rb_max_step RMath c <> 0%R ->
  let n := length init in let m := Rabs (rb_max_step RMath c) in let r0 := Rabs (rb_first_step RMath c) in let K := Z.to_nat (rb_max_iterations RMath c) in
  does (N := RMath) (fun v => near (INR K * (sqrt (INR n) * m) + Rmax r0 m) v init)
    (fun r : list R * list R * list (list R) => near (INR K * (sqrt (INR n) * m)) (fst (fst r)) init /\ orthonormal n (snd r) /\ length (snd (fst r)) = n /\
       Forall (fun s => s <> 0%R) (snd (fst r)) /\ Forall (fun s => (Rabs s <= if Nat.eqb K 0 then Rmax r0 m else m)%R) (snd (fst r)))
    (K * S n) (rb_run RMath c init).
Proof.
  intros H1 H2 n m r0 K. unfold rb_run. apply (loop_exact c n H2 K (Rmax r0 m) init init init _ _ 0).
  - apply Rmax_r.
  - reflexivity.
  - reflexivity.
  - apply C47_initial_basis.
  - apply repeat_length.
  - apply Forall_forall. intros s Hs. apply repeat_spec in Hs. subst s. split; [exact H1|]. apply Rmax_l.
  - apply near_refl. cbn [INR]. lra.
Qed.

(** ** C47 After any number K of iterations the object holds an orthonormal basis and n non-zero steps, none longer than the
    maximal step if K > 0 ([f] is the function to minimise); the point has moved by at most K*sqrt(n)*max_step in each coordinate. *)
Theorem C47_invariants : forall c (f : list R -> R) (init : list R), rb_first_step RMath c <> 0%R -> rb_max_step RMath c <> 0%R ->
  let n := length init in let m := Rabs (rb_max_step RMath c) in let K := Z.to_nat (rb_max_iterations RMath c) in
  exists v steps basis, pure RMath (fun x => Ok (f x)) (rb_run RMath c init) = Ok (v, steps, basis) /\
    near (INR K * (sqrt (INR n) * m)) v init /\ orthonormal n basis /\ length steps = n /\ Forall (fun s => s <> 0%R) steps /\
    ((0 < K)%nat -> Forall (fun s => (Rabs s <= m)%R) steps).
Proof.
  intros c f init H1 H2 n m K. destruct (does_pure RMath _ _ _ f _ _ (run_exact c init H1 H2)) as ([[v steps] basis] & E & A1 & A2 & A3 & A4 & A5).
  cbn [fst snd] in *. exists v, steps, basis. repeat split; try assumption; try apply A1; try apply A2. intro HK.
  eapply Forall_impl; [|exact A5]. intro s. cbv beta. fold K. destruct (Nat.eqb_spec K 0); [lia|]. auto.
Qed.
(** ** C47 Optimize on an array: the result and every point at which the function is evaluated. *)
Theorem C47_reach : forall c (f : list R -> R) maximize (p : list R), rb_first_step RMath c <> 0%R -> rb_max_step RMath c <> 0%R ->
  let n := length p in let m := Rabs (rb_max_step RMath c) in let K := Z.to_nat (rb_max_iterations RMath c) in
  exists q log, optimize RMath (list R) (arr_set RMath) (arr_get RMath) (arr_check RMath) (fun v => Ok (f v)) maximize (rb_find RMath c) p = (Ok tt, q, log) /\
    near (INR K * (sqrt (INR n) * m)) q p /\
    Forall (fun v => near (INR K * (sqrt (INR n) * m) + Rmax (Rabs (rb_first_step RMath c)) m) v p) log.
Proof.
  intros c f mx p H1 H2 n m K.
  assert (D : does (N := RMath) (fun v => near (INR K * (sqrt (INR n) * m) + Rmax (Rabs (rb_first_step RMath c)) m) v p) (fun v : list R => near (INR K * (sqrt (INR n) * m)) v p) (K * S n + 0) (rb_find RMath c p)).
  { unfold rb_find. eapply does_bind; [|apply (run_exact c p H1 H2)]. intros [[v s] b] (A & _). exact A. }
  destruct (does_run_array RMath _ _ _ n f mx (fun v (h : near _ v p) => proj1 h) _ _ p [] D eq_refl) as (a & q & l & E & Qa & Lq & Fl & _).
  unfold optimize. change (arr_get RMath p) with p. match type of E with ?x = _ => match goal with |- context [match ?y with _ => _ end] => change y with x end end.
  rewrite E. exists a, l. cbn [app]. split; [|split; assumption]. destruct Qa as [La _]. unfold arr_set. change (num RMath) with R in *. rewrite La, Lq, Nat.eqb_refl. reflexivity.
Qed.
(** ** C47 One call of MakeStep moves the point by exactly the square root of the sum of the squared new steps. *)
Theorem C47_move : forall c (f : list R -> R) n (args steps : list R) basis, orthonormal n basis -> length steps = n -> length args = n ->
  exists steps' next, pure RMath (fun x => Ok (f x)) (rb_make_step RMath c args steps basis) = Ok (steps', next) /\
    length steps' = n /\ length next = n /\ squared_distance next args = sum_squares steps'.
Proof.
  intros c f n args steps basis O Ls La. pose proof O as (Lb & Fb & _).
  destruct (does_pure RMath (fun _ => True) _ _ f _ _ (make_step_does RMath (fun _ => True) c args steps basis ltac:(change (num RMath) with R in *; lia) I (fun _ _ _ _ => I))) as ([steps' next] & E & F & En).
  cbn [fst snd] in *. exists steps', next. split; [exact E|].
  assert (Ls' : length steps' = n) by (apply Forall2_len in F; rewrite (sort_desc_length RMath) in F; change (num RMath) with R in *; lia).
  destruct (row_displacement n steps' basis args O Ls' La) as [Ld Dd].
  assert (Ln' : length next = n) by (rewrite En; apply row_length; assumption). split; [exact Ls'|]. split; [exact Ln'|].
  rewrite <- Dd, <- En. clear. revert args. induction next as [|x next IH]; intros [|y args]; cbn [squared_distance zip_with dot]; auto. rewrite IH. cbn. ring.
Qed.
(** ** C47 The result of one iteration is never the starting point, so it is worse whenever the start is the strict minimum. *)
Theorem C47_worse_refuted : forall c (f : list R -> R) (p : list R), rb_first_step RMath c <> 0%R -> rb_max_step RMath c <> 0%R -> rb_max_iterations RMath c = 1%Z -> p <> [] ->
  (forall v, length v = length p -> v <> p -> (f p < f v)%R) ->
  exists q log, optimize RMath (list R) (arr_set RMath) (arr_get RMath) (arr_check RMath) (fun v => Ok (f v)) false (rb_find RMath c) p = (Ok tt, q, log) /\ (f p < f q)%R.
Proof.
  intros c f p H1 H2 HK Hp Hf. set (n := length p).
  assert (D : does (N := RMath) (fun v => length v = n) (fun v : list R => length v = n /\ v <> p) (S n + 0) (rb_find RMath c p)).
  { unfold rb_find, rb_run. rewrite HK. change (Z.to_nat 1) with 1. cbn [rb_loop]. destruct (init_basis_sizes RMath n) as [Lb Fb].
    assert (D : does (N := RMath) (fun v => length v = n) (fun r : list R * list R => Forall2 (step_from RMath c) (sort_desc RMath (repeat (rb_first_step RMath c) n)) (fst r) /\ snd r = rb_row RMath (fst r) (rb_init_basis RMath n) p)
      (S (length (repeat (rb_first_step RMath c) n))) (rb_make_step RMath c p (repeat (rb_first_step RMath c) n) (rb_init_basis RMath n))).
    { apply make_step_does; [rewrite repeat_length; auto|reflexivity|]. intros s d _ Hd. rewrite Forall_forall in Fb. unfold rb_move. rewrite zip_length_any; [reflexivity|]. symmetry. exact (Fb d Hd). }
    rewrite repeat_length in D.
    assert (D2 : does (N := RMath) (fun v => length v = n) (fun r : list R * list R * list (list R) => length (fst (fst r)) = n /\ fst (fst r) <> p) (S n + 0)
      (ask! r := rb_make_step RMath c p (repeat (rb_first_step RMath c) n) (rb_init_basis RMath n) in
       let (steps', next') := (r : list (num RMath) * list (num RMath)) in
       if rb_exit RMath c next' p then Ret (next', steps', rb_init_basis RMath n) else Ret (next', steps', rb_new_basis RMath (length next') steps' (rb_init_basis RMath n)))).
    { apply (does_bind _ _ _ _ _ _ _ _) with (2 := D). intros [steps' next'] [F E]. cbn [fst snd] in F, E.
      assert (Ls' : length steps' = n) by (apply Forall2_len in F; rewrite (sort_desc_length RMath), repeat_length in F; auto).
      destruct (row_displacement n steps' (rb_init_basis RMath n) p (C47_initial_basis n) Ls' eq_refl) as [_ Dd].
      assert (Ok' : Forall (step_ok c) steps').
      { assert (Fs : Forall (fun s => s <> 0%R) (sort_desc RMath (repeat (rb_first_step RMath c) n))).
        { apply (sort_desc_forall RMath). apply Forall_forall. intros s Hs. apply repeat_spec in Hs. subst s. exact H1. }
        clear - F Fs H2. change (num RMath) with R in *. induction F as [|s s' l l' H F IH]; constructor; inversion Fs as [|? ? Hs H4]; subst; [apply (step_from_ok c s s'); assumption|auto]. }
      assert (Nx : length next' = n) by (rewrite E; apply row_length; [exact Fb|reflexivity]).
      assert (Np : next' <> p).
      { intro Q. rewrite <- E, Q in Dd. replace (dot (zipR Rminus p p) (zipR Rminus p p)) with 0%R in Dd.
        2:{ symmetry. clear. induction p as [|x p IH]; [reflexivity|]. cbn [zip_with dot]. rewrite IH. ring. }
        destruct steps' as [|s steps']; [destruct p; [contradiction|discriminate]|]. inversion Ok' as [|? ? [Hs _] _]; subst. cbn [sum_squares fold_right] in Dd.
        assert (0 <= sum_squares steps')%R. { clear. induction steps' as [|x l IH]; cbn [sum_squares fold_right]; [lra|]. pose proof (Rle_0_sqr x). unfold Rsqr in *. unfold sum_squares in IH. lra. }
        unfold sum_squares in *. assert (0 < s * s)%R by (apply Rsqr_pos_lt in Hs; exact Hs). lra. }
      destruct (rb_exit RMath c next' p); cbn [does fst]; auto. }
    rewrite <- (Nat.add_0_r (S n + 0)). eapply does_bind; [|exact D2]. intros [[v s] b] H. exact H. }
  destruct (does_run_array RMath _ _ _ n f false (fun v h => h) _ _ p [] D eq_refl) as (a & q & l & E & [La Na] & Lq & _).
  unfold optimize. change (arr_get RMath p) with p. match type of E with ?x = _ => match goal with |- context [match ?y with _ => _ end] => change y with x end end.
  rewrite E. exists a, ([] ++ l). split; [|apply Hf; assumption]. unfold arr_set. change (num RMath) with R in *. rewrite La, Lq, Nat.eqb_refl. reflexivity.
Qed.
(** ** C47 In binary64 the clamp can leave a step longer than the maximal step. *)
Theorem C47_clamp_binary64_refuted : exists (c : rb_cfg FMath) (s : dbl), d_ltb (rb_max_step FMath c) (Babs (rb_correct FMath c s)) = true.
Proof.
  exists (MkRb FMath (d_ofZ 1) 10 (d_ofZ 1) (d_ofZ 0x1e1ea24cffac62)), (d_ofZ 0x2ba8a89ae16bcc). vm_compute. reflexivity.
Qed.

(** *** The hypotheses are met *)
Definition C47_cfg : rb_cfg RMath := MkRb RMath (1 / 1000)%R 10 (1 / 10)%R 2%R.
Lemma C47_nontrivial : rb_first_step RMath C47_cfg <> 0%R /\ rb_max_step RMath C47_cfg <> 0%R /\ orthonormal 2 (rb_init_basis RMath 2) /\ Forall (fun s => s <> 0%R) [3%R; (-1)%R].
Proof. cbn. split; [lra|]. split; [lra|]. split; [apply C47_initial_basis|]. repeat constructor; lra. Qed.
Lemma C47_strict_minimum : forall v, length v = length [0%R] -> v <> [0%R] -> (nth 0 [0%R] 0 * nth 0 [0%R] 0 < nth 0 v 0 * nth 0 v 0)%R.
Proof. intros [|x [|? ?]] L H; try discriminate. cbn. assert (x <> 0%R) by congruence. assert (0 < x * x)%R by (apply Rsqr_pos_lt in H0; exact H0). lra. Qed.
(** a run in binary64 that ends at a point worse than its start *)
Definition C47_fcfg : rb_cfg FMath := MkRb FMath (d_div (d_ofZ 1) (d_ofZ 1000)) 10 (d_ofZ 1) (d_ofZ 2).
Lemma C47_binary64_run :
  match optimize FMath (list dbl) (arr_set FMath) (arr_get FMath) (arr_check FMath) (fun v => Ok (C46_square v)) false (rb_find FMath C47_fcfg) [d_ofZ 0; d_ofZ 3] with
  | (Ok tt, q, log) => d_ltb (C46_square [d_ofZ 0]) (C46_square q) && Nat.eqb (length log) 30 | _ => false end = true.
Proof. vm_compute. reflexivity. Qed.

Print Assumptions C47_new_basis.
Print Assumptions C47_initial_basis.
Print Assumptions C47_evaluations.
Print Assumptions C47_total.
Print Assumptions C47_invariants.
Print Assumptions C47_reach.
Print Assumptions C47_move.
Print Assumptions C47_worse_refuted.
Print Assumptions C47_clamp_binary64_refuted.
