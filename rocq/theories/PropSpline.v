(** C52: the Akima spline. *)
From Coq Require Import Reals Psatz.
From Coquelicot Require Import Rcomplements Hierarchy Derive AutoDerive Continuity.
From Flocq Require Import IEEE754.BinarySingleNaN.
From Verif Require Import Base Num Optim Searches Hooke PropHooke DblOrder Spline.
Local Open Scope nat_scope.
Local Open Scope list_scope.

(** *** Specification vocabulary (exact arithmetic) *)
(** strictly increasing abscissae *)
Definition increasing (xs : list R) : Prop :=
  forall i a b, nth_error xs i = Some a -> nth_error xs (S i) = Some b -> (a < b)%R.
(** quotient of differences number i *)
Definition chord (xs ys : list R) (i : nat) : R := ((nth (S i) ys 0 - nth i ys 0) / (nth (S i) xs 0 - nth i xs 0))%R.
(** Akima's extension by two quotients at each end; entry i+2 is quotient number i *)
Definition extended (xs ys : list R) (k : nat) : R :=
  let n := length xs in
  match k with
  | 0 => (3 * chord xs ys 0 - 2 * chord xs ys 1)%R
  | 1 => (2 * chord xs ys 0 - chord xs ys 1)%R
  | S (S j) =>
      if j <=? n - 2 then chord xs ys j
      else if j =? n - 1 then (2 * chord xs ys (n - 2) - chord xs ys (n - 3))%R
      else (3 * chord xs ys (n - 2) - 2 * chord xs ys (n - 3))%R
  end.
(** Akima's slope at a knot from the two quotients before it and the two after it *)
Definition akima_slope (m1 m2 m3 m4 : R) : R :=
  let a := Rabs (m4 - m3) in let b := Rabs (m2 - m1) in
  if Req_EM_T (a + b) 0 then ((m2 + m3) / 2)%R else ((a * m2 + b * m3) / (a + b))%R.

(** *** Success of Initialize, in any arithmetic *)
Lemma mapM_total {A B} (f : A -> outcome B) l : (forall a, In a l -> exists b, f a = Ok b) -> exists r, mapM f l = Ok r.
Proof.
  induction l as [|a l IH]; intro H; [eexists; reflexivity|]. destruct (H a (or_introl eq_refl)) as (b & Eb). destruct IH as (r & Er); [intros; apply H; right; auto|].
  exists (b :: r). cbn [mapM]. rewrite Eb. cbn [bind]. rewrite Er. reflexivity.
Qed.
Lemma mapM_seq_nth {B} (f : nat -> outcome B) n r i b : mapM f (seq 0 n) = Ok r -> nth_error r i = Some b -> i < n /\ f i = Ok b.
Proof.
  intros H Hb. apply mapM_ok_nth in H as [L H]. rewrite seq_length in L.
  assert (K : i < n) by (rewrite <- L; apply nth_error_Some; congruence). split; [exact K|].
  apply (H i i b); [|exact Hb]. rewrite (nth_error_nth' _ 0) by (rewrite seq_length; exact K). rewrite seq_nth by exact K. reflexivity.
Qed.
Section Generic.
Variable M : MNum.
Lemma quotient_ok (xs ys : list (num M)) i : length ys = length xs -> S i < length xs -> exists q, quotient M xs ys i = Ok q.
Proof.
  intros L H. unfold quotient.
  destruct (at_in ys (S i) ltac:(lia)) as (a & -> & _). destruct (at_in ys i ltac:(lia)) as (b & -> & _).
  destruct (at_in xs (S i) H) as (c & -> & _). destruct (at_in xs i ltac:(lia)) as (d & -> & _). eexists. reflexivity.
Qed.
Lemma calculate_m_ok (xs ys : list (num M)) : length ys = length xs -> 5 <= length xs ->
  exists mid m2 m3 e e', mapM (quotient M xs ys) (seq 0 (length xs - 1)) = Ok mid /\ length mid = length xs - 1 /\
    nth_error mid 0 = Some m2 /\ nth_error mid 1 = Some m3 /\ nth_error mid (length xs - 2) = Some e /\ nth_error mid (length xs - 3) = Some e' /\
    calculate_m M xs ys = Ok (n_sub M (n_mul M (n_ofZ M 3) m2) (n_mul M (n_ofZ M 2) m3) :: n_sub M (n_mul M (n_ofZ M 2) m2) m3 ::
      mid ++ [n_sub M (n_mul M (n_ofZ M 2) e) e'; n_sub M (n_mul M (n_ofZ M 3) e) (n_mul M (n_ofZ M 2) e')]).
Proof.
  intros L H. destruct (mapM_total (quotient M xs ys) (seq 0 (length xs - 1))) as (mid & E).
  { intros i Hi. apply in_seq in Hi. apply quotient_ok; lia. }
  assert (Lm : length mid = length xs - 1) by (rewrite (mapM_ok_length _ _ _ E), seq_length; reflexivity).
  destruct (at_in mid 0 ltac:(lia)) as (m2 & E2 & N2). destruct (at_in mid 1 ltac:(lia)) as (m3 & E3 & N3).
  destruct (at_in mid (length mid - 1) ltac:(lia)) as (e & Ee & Ne). destruct (at_in mid (length mid - 2) ltac:(lia)) as (e' & Ee' & Ne').
  exists mid, m2, m3, e, e'. split; [exact E|]. split; [exact Lm|]. split; [exact N2|]. split; [exact N3|].
  split; [rewrite <- Ne; f_equal; lia|]. split; [rewrite <- Ne'; f_equal; lia|].
  unfold calculate_m. rewrite E. cbn [bind]. rewrite E2. cbn [bind]. rewrite E3. cbn [bind]. rewrite Ee. cbn [bind]. rewrite Ee'. reflexivity.
Qed.
Lemma slopes_ok (m : list (num M)) n : length m = n + 3 -> exists s, calculate_slopes M n m = Ok s /\ length s = n.
Proof.
  intro L. unfold calculate_slopes. destruct (mapM_total (slope M m) (seq 0 n)) as (s & E).
  { intros i Hi. apply in_seq in Hi. unfold slope.
    destruct (at_in m i ltac:(lia)) as (a & -> & _). destruct (at_in m (i + 1) ltac:(lia)) as (b & -> & _).
    destruct (at_in m (i + 2) ltac:(lia)) as (c & -> & _). destruct (at_in m (i + 3) ltac:(lia)) as (d & -> & _). eexists. reflexivity. }
  exists s. split; [exact E|]. rewrite (mapM_ok_length _ _ _ E), seq_length. reflexivity.
Qed.
Lemma reestimate_ok (xs ys : list (num M)) : length ys = length xs -> 5 <= length xs ->
  exists m s c, calculate_m M xs ys = Ok m /\ length m = length xs + 3 /\ calculate_slopes M (length xs) m = Ok s /\ length s = length xs /\
    reestimate M xs ys = Ok c /\ mapM (piece M xs ys s) (seq 0 (length xs - 1)) = Ok c /\ length c = length xs - 1.
Proof.
  intros L H. destruct (calculate_m_ok xs ys L H) as (mid & m2 & m3 & e & e' & _ & Lm & _ & _ & _ & _ & E).
  match type of E with _ = Ok ?m => assert (L3 : length m = length xs + 3) by (cbn [length]; rewrite app_length; cbn [length]; lia); set (mm := m) in * end.
  destruct (slopes_ok mm (length xs) L3) as (s & Es & Ls).
  destruct (mapM_total (piece M xs ys s) (seq 0 (length xs - 1))) as (c & Ec).
  { intros i Hi. apply in_seq in Hi. unfold piece.
    destruct (at_in ys i ltac:(lia)) as (a1 & -> & _). destruct (at_in ys (S i) ltac:(lia)) as (a2 & -> & _).
    destruct (at_in xs i ltac:(lia)) as (a3 & -> & _). destruct (at_in xs (S i) ltac:(lia)) as (a4 & -> & _).
    destruct (at_in s i ltac:(lia)) as (a5 & -> & _). destruct (at_in s (S i) ltac:(lia)) as (a6 & -> & _). eexists. reflexivity. }
  exists mm, s, c. split; [exact E|]. split; [exact L3|]. split; [exact Es|]. split; [exact Ls|].
  split; [unfold reestimate; rewrite E; cbn [bind]; rewrite Es; exact Ec|]. split; [exact Ec|]. rewrite (mapM_ok_length _ _ _ Ec), seq_length. reflexivity.
Qed.
End Generic.

(** ** C52 Initialize, in any arithmetic: it succeeds exactly for at least five points and as many values, and otherwise
    throws invalid_argument and leaves the object as it was. *)
Theorem C52_initialize : forall (M : MNum) (s : spline M) (xs ys : list (num M)),
  (5 <= length xs /\ length ys = length xs -> exists s', initialize M s xs ys = (s', Ok tt) /\ s_x M s' = xs /\ s_y M s' = ys) /\
  (~ (5 <= length xs /\ length ys = length xs) -> initialize M s xs ys = (s, Throw InvalidArgument)).
Proof.
  intros M s xs ys. unfold initialize. split.
  - intros [H L]. destruct (Nat.ltb_spec (length xs) 5); [lia|]. destruct (Nat.ltb_spec (length ys) 5); [lia|]. cbn [orb]. rewrite L, Nat.eqb_refl. cbn [negb].
    destruct (reestimate_ok M xs ys L H) as (m & sl & c & _ & _ & _ & _ & -> & _). eexists. split; [reflexivity|]. split; reflexivity.
  - intro H. destruct (Nat.ltb_spec (length xs) 5); [reflexivity|]. destruct (Nat.ltb_spec (length ys) 5); [reflexivity|]. cbn [orb].
    destruct (Nat.eqb_spec (length xs) (length ys)) as [E|E]; [|reflexivity]. exfalso. apply H. split; [lia|congruence].
Qed.
(** Value of an object never initialised throws out_of_range. *)
Theorem C52_uninitialised : forall (M : MNum) x, value M (new_spline M) x = Throw OutOfRange.
Proof. reflexivity. Qed.

(** *** Exact arithmetic *)
Section Exact.
Variables xs ys : list R.
Variable s : spline RMath.
Hypothesis Hlen : 5 <= length xs.
Hypothesis Hys : length ys = length xs.
Hypothesis Hinc : increasing xs.
Variable old : spline RMath.
Hypothesis Hinit : initialize RMath old xs ys = (s, Ok tt).
Let X i := nth i xs 0%R.
Let Y i := nth i ys 0%R.
Let n := length xs.

Lemma X_step i : S i < n -> (X i < X (S i))%R.
Proof. intro H. apply (Hinc i); apply nth_error_nth'; fold n; lia. Qed.
Lemma X_mono i j : i < j -> j < n -> (X i < X j)%R.
Proof.
  intro H. induction H as [|j H IH]; intro L; [apply X_step; exact L|]. apply Rlt_trans with (X j); [apply IH; lia|apply X_step; exact L].
Qed.
Lemma X_le i j : i <= j -> j < n -> (X i <= X j)%R.
Proof. intros H L. destruct (Nat.eq_dec i j) as [->|N]; [apply Rle_refl|]. left. apply X_mono; lia. Qed.

(** the slopes and the pieces *)
Definition S_ (i : nat) : R := akima_slope (extended xs ys i) (extended xs ys (i + 1)) (extended xs ys (i + 2)) (extended xs ys (i + 3)).
Lemma m_extended m k v : calculate_m RMath xs ys = Ok m -> nth_error m k = Some v -> v = extended xs ys k.
Proof.
  intros E Hk. destruct (calculate_m_ok RMath xs ys Hys Hlen) as (mid & m2 & m3 & e & e' & Em & Lm & N2 & N3 & Ne & Ne' & E').
  assert (Q : forall i q, nth_error mid i = Some q -> q = chord xs ys i).
  { intros i q Hq. apply (mapM_seq_nth _ _ _ _ _ Em) in Hq as [Hi Hq]. unfold quotient in Hq. change (num RMath) with R in *.
    unfold at_ in Hq. rewrite !(nth_error_nth' ys 0%R), !(nth_error_nth' xs 0%R) in Hq by lia. cbn [bind] in Hq. injection Hq as <-. reflexivity. }
  pose proof (eq_trans (eq_sym E) E') as EE. injection EE as ->. change (num RMath) with R in *.
  apply Q in N2, N3, Ne, Ne'. 
  destruct k as [|[|j]]; cbn [nth_error extended] in *.
  - injection Hk as <-. cbn. rewrite N2, N3. ring.
  - injection Hk as <-. cbn. rewrite N2, N3. ring.
  - fold n in Lm, Ne, Ne' |- *. destruct (Nat.leb_spec j (n - 2)) as [Lj|Lj].
    + rewrite nth_error_app1 in Hk by (rewrite Lm; lia). apply Q in Hk. exact Hk.
    + rewrite nth_error_app2 in Hk by (rewrite Lm; lia). rewrite Lm in Hk. destruct (Nat.eqb_spec j (n - 1)) as [->|Nj].
      * rewrite Nat.sub_diag in Hk. injection Hk as <-. cbn. rewrite Ne, Ne'. ring.
      * assert (j - (n - 1) = 1 \/ 2 <= j - (n - 1)) as [E1|Big] by lia; [rewrite E1 in Hk; injection Hk as <-; cbn; rewrite Ne, Ne'; ring|].
        destruct (j - (n - 1)) as [|[|[|q]]]; try lia; cbn in Hk; try discriminate. 
Qed.
Lemma m_length m : calculate_m RMath xs ys = Ok m -> length m = n + 3.
Proof.
  intro E. destruct (calculate_m_ok RMath xs ys Hys Hlen) as (mid & m2 & m3 & e & e' & _ & Lm & _ & _ & _ & _ & E').
  pose proof (eq_trans (eq_sym E) E') as EE. injection EE as ->. cbn [length]. rewrite app_length. cbn [length]. change (num RMath) with R in *. unfold n. lia.
Qed.
Lemma slopes_value m sl i v : calculate_m RMath xs ys = Ok m -> calculate_slopes RMath n m = Ok sl -> nth_error sl i = Some v -> v = S_ i.
Proof.
  intros Em Es Hv. pose proof (m_length m Em) as Lm. apply (mapM_seq_nth _ _ _ _ _ Es) in Hv as [Hi Hv]. unfold slope in Hv.
  change (num RMath) with R in *.
  assert (A : forall k, k < n + 3 -> at_ m k = Ok (extended xs ys k)).
  { intros k Hk. destruct (at_in m k ltac:(lia)) as (w & Ew & Nw). rewrite Ew. f_equal. apply (m_extended m); assumption. }
  rewrite !A in Hv by lia. cbn [bind] in Hv. injection Hv as <-. unfold S_, akima_slope. cbn. unfold R_eqb.
  destruct (Req_EM_T _ _); [field|]. field. assumption.
Qed.
Definition cub (i : nat) : cubic RMath :=
  let h := (X (S i) - X i)%R in
  Cubic RMath (Y i) (S_ i) ((3 * (Y (S i) - Y i) / h - 2 * S_ i - S_ (S i)) / h)%R ((S_ (S i) + S_ i - 2 * (Y (S i) - Y i) / h) / (h * h))%R.
Lemma s_fields : s_x RMath s = xs /\ s_y RMath s = ys /\ length (s_coeffs RMath s) = n - 1 /\ forall i, i < n - 1 -> nth_error (s_coeffs RMath s) i = Some (cub i).
Proof.
  destruct (reestimate_ok RMath xs ys Hys Hlen) as (m & sl & c & Em & Lm & Es & Ls & Er & Ec & Lc).
  unfold initialize in Hinit. change (num RMath) with R in *.
  destruct (Nat.ltb_spec (length xs) 5); [lia|]. destruct (Nat.ltb_spec (length ys) 5); [lia|]. cbn [orb] in Hinit. rewrite Hys, Nat.eqb_refl in Hinit. cbn [negb] in Hinit.
  rewrite Er in Hinit. injection Hinit as <-. cbn [s_x s_y s_coeffs]. split; [reflexivity|]. split; [reflexivity|]. split; [exact Lc|].
  intros i Hi. destruct (nth_error c i) as [q|] eqn:Q; [|apply nth_error_None in Q; unfold n in *; lia].
  apply (mapM_seq_nth _ _ _ _ _ Ec) in Q as [_ Q]. unfold piece in Q. change (num RMath) with R in *. unfold at_ in Q. unfold n in Hi.
  rewrite !(nth_error_nth' ys 0%R), !(nth_error_nth' xs 0%R) in Q by lia. cbn [bind] in Q.
  destruct (nth_error sl i) as [s0|] eqn:Q0; [|apply nth_error_None in Q0; lia]. destruct (nth_error sl (S i)) as [s1|] eqn:Q1; [|apply nth_error_None in Q1; lia].
  cbn [bind] in Q. injection Q as <-. apply (slopes_value m sl i) in Q0; [|exact Em|exact Es]. apply (slopes_value m sl (S i)) in Q1; [|exact Em|exact Es]. subst s0 s1. reflexivity.
Qed.

(** interval search *)
Lemma upper_spec (x : R) : forall l : list R, (forall j, j < upper_bound RMath x l -> (nth j l 0 <= x)%R) /\
  upper_bound RMath x l <= length l /\ (upper_bound RMath x l < length l -> (x < nth (upper_bound RMath x l) l 0)%R).
Proof.
  induction l as [|t r IH]; cbn [upper_bound length]; [split; [intros; lia|split; [lia|intros; lia]]|]. cbn [n_ltb RMath m_num RNum].
  destruct (R_ltb x t) eqn:E.
  - apply R_ltb_true in E. split; [intros; lia|]. split; [lia|]. intros _. exact E.
  - apply R_ltb_false in E. destruct IH as (A & B & C). split; [intros [|j] Hj; [exact E|apply A; lia]|]. split; [lia|]. intro H. apply C. lia.
Qed.
Lemma lower_spec (x : R) : forall l : list R, (forall j, j < lower_bound RMath x l -> (nth j l 0 < x)%R) /\
  lower_bound RMath x l <= length l /\ (lower_bound RMath x l < length l -> (x <= nth (lower_bound RMath x l) l 0)%R).
Proof.
  induction l as [|t r IH]; cbn [lower_bound length]; [split; [intros; lia|split; [lia|intros; lia]]|]. cbn [n_ltb RMath m_num RNum].
  destruct (R_ltb t x) eqn:E.
  - apply R_ltb_true in E. destruct IH as (A & B & C). split; [intros [|j] Hj; [exact E|apply A; lia]|]. split; [lia|]. intro H. apply C. lia.
  - apply R_ltb_false in E. split; [intros; lia|]. split; [lia|]. intros _. exact E.
Qed.
Lemma resolve_in (x : R) : (X 0 <= x <= X (n - 1))%R -> exists i, resolve_interval RMath xs x = Ok i /\ i < n - 1 /\ (X i <= x <= X (S i))%R.
Proof.
  intros [H0 H1]. unfold resolve_interval. change (num RMath) with R.
  destruct (upper_spec x xs) as (U1 & U2 & U3). set (u := upper_bound RMath x xs) in *. fold n in U2, U3 |- *.
  destruct (Nat.eqb_spec u 0) as [E|E].
  { rewrite E in U3. specialize (U3 ltac:(unfold n; lia)). fold (X 0) in U3. lra. }
  destruct (Nat.eqb_spec u n) as [Eu|Eu].
  - assert (Ex : x = X (n - 1)) by (apply Rle_antisym; [exact H1|apply U1; unfold n in *; lia]).
    destruct (lower_spec x xs) as (L1 & L2 & L3). set (l := lower_bound RMath x xs) in *. fold n in L2, L3 |- *.
    assert (El : l = n - 1).
    { destruct (Nat.lt_trichotomy l (n - 1)) as [T|[T|T]]; [|exact T|].
      - specialize (L3 ltac:(lia)). pose proof (X_mono l (n - 1) T ltac:(unfold n; lia)). unfold X in *. lra.
      - specialize (L1 (n - 1) T). fold (X (n - 1)) in L1. lra. }
    rewrite El. destruct (Nat.eqb_spec (n - 1) n) as [?|_]; [unfold n in *; lia|]. destruct (n - 1) as [|k] eqn:Ek; [unfold n in *; lia|].
    exists k. cbn [pred_index]. split; [reflexivity|]. split; [lia|]. rewrite Ex. split; [left; apply X_step; lia|apply Rle_refl].
  - destruct u as [|k] eqn:Ek; [contradiction|]. exists k. cbn [pred_index]. split; [reflexivity|]. split; [lia|]. split; [apply U1; lia|]. left. apply U3. lia.
Qed.
Lemma resolve_out (x : R) : (x < X 0 \/ X (n - 1) < x)%R -> resolve_interval RMath xs x = Throw OutOfRange.
Proof.
  intros H. unfold resolve_interval. change (num RMath) with R.
  destruct (upper_spec x xs) as (U1 & U2 & U3). set (u := upper_bound RMath x xs) in *. fold n in U2, U3 |- *.
  destruct (Nat.eqb_spec u 0) as [E|E]; [reflexivity|]. destruct H as [H|H]; [specialize (U1 0 ltac:(lia)); fold (X 0) in U1; lra|].
  destruct (Nat.eqb_spec u n) as [Eu|Eu].
  - destruct (lower_spec x xs) as (L1 & L2 & L3). set (l := lower_bound RMath x xs) in *. fold n in L2, L3 |- *.
    destruct (Nat.eqb_spec l n) as [El|El]; [reflexivity|]. specialize (L3 ltac:(lia)). fold (X l) in L3. pose proof (X_le l (n - 1) ltac:(lia) ltac:(unfold n; lia)). lra.
  - specialize (U3 ltac:(lia)). fold (X u) in U3. pose proof (X_le u (n - 1) ltac:(lia) ltac:(unfold n; lia)). lra.
Qed.

(** the pieces *)
Definition P (i : nat) (x : R) : R := eval RMath (cub i) (x - X i)%R.
Definition P' (i : nat) (x : R) : R := (q1 RMath (cub i) + 2 * q2 RMath (cub i) * (x - X i) + 3 * q3 RMath (cub i) * (x - X i) ^ 2)%R.
Lemma P_left i : P i (X i) = Y i.
Proof. unfold P, eval. cbn. ring. Qed.
Lemma P_right i : S i < n -> P i (X (S i)) = Y (S i).
Proof. intro H. pose proof (X_step i H). unfold P, eval. cbn. field. lra. Qed.
Lemma P'_left i : P' i (X i) = S_ i.
Proof. unfold P'. cbn. ring. Qed.
Lemma P'_right i : S i < n -> P' i (X (S i)) = S_ (S i).
Proof. intro H. pose proof (X_step i H). unfold P'. cbn. field. lra. Qed.
Lemma P_derive i x : derivable_pt_lim (P i) x (P' i x).
Proof.
  apply is_derive_Reals. unfold P, P', eval. cbn [n_add n_mul RMath m_num RNum].
  generalize (q0 RMath (cub i)) (q1 RMath (cub i)) (q2 RMath (cub i)) (q3 RMath (cub i)) (X i). cbn [num RMath m_num RNum]. intros a b c d t. auto_derive; [auto|]. ring.
Qed.
Lemma P'_continuous i x : continuity_pt (P' i) x.
Proof.
  apply continuity_pt_filterlim. apply (ex_derive_continuous (P' i) x). unfold P'.
  generalize (q1 RMath (cub i)) (q2 RMath (cub i)) (q3 RMath (cub i)) (X i). cbn [num RMath m_num RNum]. intros b c d t. auto_derive. auto.
Qed.
Definition V (x : R) : R := match value RMath s x with Ok v => v | _ => 0%R end.
Definition D (x : R) : R := match resolve_interval RMath xs x with Ok i => P' i x | _ => 0%R end.
Lemma value_resolve x i : resolve_interval RMath xs x = Ok i -> i < n - 1 -> value RMath s x = Ok (P i x).
Proof.
  intros E Hi. destruct s_fields as (Ex & _ & _ & Ec). unfold value. rewrite Ex, E. cbn [bind].
  change (num RMath) with R in *. unfold at_ at 1. rewrite (nth_error_nth' xs 0%R) by (unfold n in *; lia). cbn [bind].
  unfold at_. rewrite (Ec i Hi). reflexivity.
Qed.
Lemma which_interval x i j : i < n - 1 -> j < n - 1 -> (X i <= x <= X (S i))%R -> (X j <= x <= X (S j))%R ->
  i = j \/ (j = S i /\ x = X j) \/ (i = S j /\ x = X i).
Proof.
  intros Hi Hj Ii Ij. destruct (Nat.lt_trichotomy i j) as [L|[L|L]]; [|auto|].
  - right; left. destruct (Nat.eq_dec j (S i)) as [->|N]; [split; [reflexivity|lra]|]. exfalso. pose proof (X_mono (S i) j ltac:(lia) ltac:(lia)). lra.
  - right; right. destruct (Nat.eq_dec i (S j)) as [->|N]; [split; [reflexivity|lra]|]. exfalso. pose proof (X_mono (S j) i ltac:(lia) ltac:(lia)). lra.
Qed.
Lemma value_piece x i : i < n - 1 -> (X i <= x <= X (S i))%R -> value RMath s x = Ok (P i x) /\ V x = P i x /\ D x = P' i x.
Proof.
  intros Hi Hx. destruct (resolve_in x) as (j & E & Hj & Ij).
  { pose proof (X_le 0 i ltac:(lia) ltac:(lia)). pose proof (X_le (S i) (n - 1) ltac:(lia) ltac:(lia)). lra. }
  assert (VV : value RMath s x = Ok (P i x)).
  { rewrite (value_resolve x j E Hj). f_equal. destruct (which_interval x i j Hi Hj Hx Ij) as [->|[[-> ->]|[-> ->]]]; [reflexivity| |].
    - rewrite P_left, P_right by lia. reflexivity.
    - rewrite P_left, P_right by lia. reflexivity. }
  split; [exact VV|]. split; [unfold V; rewrite VV; reflexivity|]. unfold D. rewrite E.
  destruct (which_interval x i j Hi Hj Hx Ij) as [->|[[-> ->]|[-> ->]]]; [reflexivity| |]; rewrite P'_left, P'_right by lia; reflexivity.
Qed.

(** gluing two functions at a point *)
Lemma glue_derive f g h a x b l : (a < x < b)%R -> (forall z, a <= z <= x -> f z = g z)%R -> (forall z, x <= z <= b -> f z = h z)%R ->
  derivable_pt_lim g x l -> derivable_pt_lim h x l -> derivable_pt_lim f x l.
Proof.
  intros [H1 H2] Hg Hh Dg Dh eps He. destruct (Dg eps He) as (d1 & Q1). destruct (Dh eps He) as (d2 & Q2).
  assert (Hd : (0 < Rmin (Rmin d1 d2) (Rmin (x - a) (b - x)))%R) by (repeat apply Rmin_pos; try apply cond_pos; lra).
  exists (mkposreal _ Hd). intros k Hk Hlt. cbn [pos] in Hlt.
  pose proof (Rmin_l (Rmin d1 d2) (Rmin (x - a) (b - x))). pose proof (Rmin_r (Rmin d1 d2) (Rmin (x - a) (b - x))).
  pose proof (Rmin_l d1 d2). pose proof (Rmin_r d1 d2). pose proof (Rmin_l (x - a) (b - x)). pose proof (Rmin_r (x - a) (b - x)).
  destruct (Rle_lt_dec k 0) as [Lk|Lk].
  - rewrite Rabs_left1 in Hlt by exact Lk. rewrite (Hg (x + k)%R), (Hg x) by lra. apply Q1; [exact Hk|]. rewrite Rabs_left1 by exact Lk. lra.
  - rewrite Rabs_pos_eq in Hlt by lra. rewrite (Hh (x + k)%R), (Hh x) by lra. apply Q2; [exact Hk|]. rewrite Rabs_pos_eq by lra. lra.
Qed.
Lemma glue_continuous f g h a x b : (a < x < b)%R -> (forall z, a <= z <= x -> f z = g z)%R -> (forall z, x <= z <= b -> f z = h z)%R ->
  continuity_pt g x -> continuity_pt h x -> continuity_pt f x.
Proof.
  intros [H1 H2] Hg Hh Cg Ch. intros eps He. destruct (Cg eps He) as (d1 & P1 & Q1). destruct (Ch eps He) as (d2 & P2 & Q2).
  exists (Rmin (Rmin d1 d2) (Rmin (x - a) (b - x))). split; [repeat apply Rmin_pos; try lra; assumption|].
  intros y [Hy Hd]. cbn in y, Hd |- *. unfold R_dist in Hd.
  pose proof (Rmin_l (Rmin d1 d2) (Rmin (x - a) (b - x))). pose proof (Rmin_r (Rmin d1 d2) (Rmin (x - a) (b - x))).
  pose proof (Rmin_l d1 d2). pose proof (Rmin_r d1 d2). pose proof (Rmin_l (x - a) (b - x)). pose proof (Rmin_r (x - a) (b - x)).
  apply Rabs_def2 in Hd.
  destruct (Rle_lt_dec y x) as [Ly|Ly].
  - rewrite (Hg y), (Hg x) by lra. apply Q1. split; [exact Hy|]. cbn. unfold R_dist. apply Rabs_def1; lra.
  - rewrite (Hh y), (Hh x) by lra. apply Q2. split; [exact Hy|]. cbn. unfold R_dist. apply Rabs_def1; lra.
Qed.
(** around every inner point the function consists of at most two pieces with the same value and slope *)
Lemma two_pieces x : (X 0 < x < X (n - 1))%R -> exists i j, i < n - 1 /\ j < n - 1 /\ (X i < x < X (S j))%R /\
  (forall z, X i <= z <= x -> X i <= z <= X (S i))%R /\ (forall z, x <= z <= X (S j) -> X j <= z <= X (S j))%R /\ P' i x = P' j x /\ D x = P' i x.
Proof.
  intros [H0 H1]. destruct (resolve_in x ltac:(lra)) as (i & E & Hi & [A B]).
  destruct (Req_EM_T x (X i)) as [Ei|Ni].
  - destruct i as [|i]; [lra|]. exists i, (S i). split; [lia|]. split; [exact Hi|]. pose proof (X_step i ltac:(lia)). pose proof (X_step (S i) ltac:(lia)). split; [lra|].
    split; [intros; lra|]. split; [intros; lra|]. rewrite Ei, P'_left, P'_right by lia. split; [reflexivity|].
    destruct (value_piece (X (S i)) i ltac:(lia) ltac:(lra)) as (_ & _ & ->). apply P'_right. lia.
  - destruct (Req_EM_T x (X (S i))) as [Es|Ns].
    + assert (i < n - 2) by (destruct (Nat.eq_dec (S i) (n - 1)) as [Q|Q]; [rewrite Q in Es; lra|lia]).
      exists i, (S i). split; [exact Hi|]. split; [lia|]. pose proof (X_step i ltac:(lia)). pose proof (X_step (S i) ltac:(lia)). split; [lra|].
      split; [intros; lra|]. split; [intros; lra|]. rewrite Es, P'_left, P'_right by lia. split; [reflexivity|].
      destruct (value_piece (X (S i)) i ltac:(lia) ltac:(lra)) as (_ & _ & ->). apply P'_right. lia.
    + exists i, i. split; [exact Hi|]. split; [exact Hi|]. split; [lra|]. split; [intros; lra|]. split; [intros; lra|]. split; [reflexivity|].
      apply value_piece; [exact Hi|lra].
Qed.
Lemma V_derive x : (X 0 < x < X (n - 1))%R -> derivable_pt_lim V x (D x) /\ continuity_pt D x.
Proof.
  intro H. destruct (two_pieces x H) as (i & j & Hi & Hj & I & A & B & Eq & ED). split.
  - rewrite ED. apply (glue_derive V (P i) (P j) (X i) x (X (S j))); [exact I| | |apply P_derive|rewrite Eq; apply P_derive].
    + intros z Hz. apply value_piece; [exact Hi|apply A; exact Hz].
    + intros z Hz. apply value_piece; [exact Hj|apply B; exact Hz].
  - apply (glue_continuous D (P' i) (P' j) (X i) x (X (S j))); [exact I| | |apply P'_continuous|apply P'_continuous].
    + intros z Hz. apply value_piece; [exact Hi|apply A; exact Hz].
    + intros z Hz. apply value_piece; [exact Hj|apply B; exact Hz].
Qed.
Lemma D_knot i : 0 < i -> i < n - 1 -> D (X i) = S_ i.
Proof.
  intros H0 H1. pose proof (X_step i ltac:(lia)). destruct (value_piece (X i) i H1 ltac:(lra)) as (_ & _ & ->). apply P'_left.
Qed.
Lemma value_knot i : i < n -> value RMath s (X i) = Ok (Y i).
Proof.
  intro Hi. destruct (Nat.eq_dec i (n - 1)) as [->|N].
  - replace (n - 1) with (S (n - 2)) by (unfold n in *; lia). pose proof (X_step (n - 2) ltac:(unfold n in *; lia)).
    destruct (value_piece (X (S (n - 2))) (n - 2) ltac:(unfold n in *; lia) ltac:(lra)) as (-> & _). f_equal. apply P_right. unfold n in *; lia.
  - pose proof (X_step i ltac:(lia)). destruct (value_piece (X i) i ltac:(lia) ltac:(lra)) as (-> & _). f_equal. apply P_left.
Qed.
Lemma value_out x : (x < X 0 \/ X (n - 1) < x)%R -> value RMath s x = Throw OutOfRange.
Proof. intro H. destruct s_fields as (Ex & _). unfold value. rewrite Ex, (resolve_out x H). reflexivity. Qed.
Lemma value_in x : (X 0 <= x <= X (n - 1))%R -> value RMath s x = Ok (V x).
Proof. intro H. destruct (resolve_in x H) as (i & _ & Hi & I). destruct (value_piece x i Hi I) as (E & -> & _). exact E. Qed.
Lemma affine_value a b : (forall i, i < n -> Y i = (a * X i + b)%R) -> forall x, (X 0 <= x <= X (n - 1))%R -> value RMath s x = Ok (a * x + b)%R.
Proof.
  intros HA x Hx. destruct (resolve_in x Hx) as (i & _ & Hi & I). destruct (value_piece x i Hi I) as (-> & _). f_equal.
  assert (Ch : forall j, j < n - 1 -> chord xs ys j = a).
  { intros j Hj. unfold chord. fold (Y (S j)) (Y j) (X (S j)) (X j). rewrite !HA by lia. pose proof (X_step j ltac:(lia)). field. lra. }
  assert (Ex : forall k, extended xs ys k = a).
  { intro k. unfold extended. fold n. unfold n in *. destruct k as [|[|k]]; [rewrite !Ch by lia; ring|rewrite !Ch by lia; ring|].
    destruct (Nat.leb_spec k (length xs - 2)); [apply Ch; lia|]. destruct (k =? length xs - 1); rewrite !Ch by lia; ring. }
  assert (Sl : forall k, S_ k = a).
  { intro k. unfold S_, akima_slope. rewrite !Ex. rewrite Rminus_diag_eq, Rabs_R0 by reflexivity. destruct (Req_EM_T (0 + 0) 0); [field|lra]. }
  pose proof (X_step i ltac:(lia)). unfold P, eval. cbn. rewrite !Sl, !HA by lia. field. lra.
Qed.
End Exact.

(** ** C52 (exact arithmetic) For at least five strictly increasing abscissae and as many values, whatever the object held
    before: the spline takes the given values at the given points; it is defined exactly on [first, last] and throws
    out_of_range outside; *)
Theorem C52_interpolates : forall (old s : spline RMath) (xs ys : list R), 5 <= length xs -> length ys = length xs -> increasing xs ->
  initialize RMath old xs ys = (s, Ok tt) ->
  (forall i x y, nth_error xs i = Some x -> nth_error ys i = Some y -> value RMath s x = Ok y) /\
  (forall x, (nth 0 xs 0 <= x <= nth (length xs - 1) xs 0)%R -> exists y, value RMath s x = Ok y) /\
  (forall x, (x < nth 0 xs 0 \/ nth (length xs - 1) xs 0 < x)%R -> value RMath s x = Throw OutOfRange).
Proof.
  intros old s xs ys H L I E. split; [|split].
  - intros i x y Hx Hy. assert (Hi : i < length xs) by (apply nth_error_Some; congruence).
    rewrite <- (nth_error_nth xs i 0%R Hx), <- (nth_error_nth ys i 0%R Hy). eapply value_knot; eassumption.
  - intros x Hx. eexists. eapply value_in; eassumption.
  - intros x Hx. eapply value_out; eassumption.
Qed.
(** it is continuously differentiable inside, and its slope at every inner knot is Akima's; *)
Theorem C52_continuously_differentiable : forall (old s : spline RMath) (xs ys : list R), 5 <= length xs -> length ys = length xs -> increasing xs ->
  initialize RMath old xs ys = (s, Ok tt) ->
  exists F F' : R -> R,
    (forall x, (nth 0 xs 0 <= x <= nth (length xs - 1) xs 0)%R -> value RMath s x = Ok (F x)) /\
    (forall x, (nth 0 xs 0 < x < nth (length xs - 1) xs 0)%R -> derivable_pt_lim F x (F' x) /\ continuity_pt F' x) /\
    (forall i, 0 < i -> i < length xs - 1 ->
       F' (nth i xs 0%R) = akima_slope (extended xs ys i) (extended xs ys (i + 1)) (extended xs ys (i + 2)) (extended xs ys (i + 3))).
Proof.
  intros old s xs ys H L I E. exists (V s), (D xs ys). split; [|split].
  - intros x Hx. eapply value_in; eassumption.
  - intros x Hx. eapply V_derive; eassumption.
  - intros i H0 H1. pose proof (D_knot xs ys s H L I old E i H0 H1) as K. exact K.
Qed.
(** affine data are reproduced exactly. *)
Theorem C52_affine : forall (old s : spline RMath) (xs ys : list R) a b, 5 <= length xs -> length ys = length xs -> increasing xs ->
  initialize RMath old xs ys = (s, Ok tt) -> (forall i x y, nth_error xs i = Some x -> nth_error ys i = Some y -> y = (a * x + b)%R) ->
  forall x, (nth 0 xs 0 <= x <= nth (length xs - 1) xs 0)%R -> value RMath s x = Ok (a * x + b)%R.
Proof.
  intros old s xs ys a b H L I E HA. eapply affine_value; try eassumption.
  intros i Hi. apply (HA i); apply nth_error_nth'; lia.
Qed.
Example C52_example : 5 <= length [0; 1; 2; 4; 5]%R /\ length [1; 0; 3; 3; 7]%R = length [0; 1; 2; 4; 5]%R /\ increasing [0; 1; 2; 4; 5]%R.
Proof.
  split; [cbn; lia|]. split; [reflexivity|]. intros [|[|[|[|[|i]]]]] a b Ha Hb; cbn in Ha, Hb; try discriminate; injection Ha as <-; injection Hb as <-; lra.
Qed.
(** ** C52 With doubles: asking for the value at NaN is undefined behaviour for every initialised spline whose abscissae are
    not NaN. *)
Theorem C52_nan_refuted : forall s : spline FMath, s_x FMath s <> [] -> value FMath s d_nan = UB OutOfBounds.
Proof.
  intros s H. unfold value, resolve_interval.
  assert (U : forall l : list dbl, upper_bound FMath d_nan l = length l).
  { induction l as [|t r IH]; [reflexivity|]. cbn [upper_bound length]. change (n_ltb FMath d_nan t) with (d_ltb d_nan t). rewrite d_ltb_nan_l, IH. reflexivity. }
  assert (W : forall l : list dbl, lower_bound FMath d_nan l = 0).
  { intros [|t r]; [reflexivity|]. cbn [lower_bound]. change (n_ltb FMath t d_nan) with (d_ltb t d_nan). rewrite d_ltb_nan_r. reflexivity. }
  change (num FMath) with dbl in *. rewrite U, W. destruct (s_x FMath s) as [|t r] eqn:E; [contradiction|]. cbn [length Nat.eqb]. rewrite Nat.eqb_refl. reflexivity.
Qed.
Print Assumptions C52_initialize. Print Assumptions C52_uninitialised. Print Assumptions C52_interpolates. Print Assumptions C52_continuously_differentiable.
Print Assumptions C52_affine. Print Assumptions C52_nan_refuted.
