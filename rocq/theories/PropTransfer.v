(** C56: transfer of optimisers, parameters, tasks and results. *)
From Coq Require Import Reals.
From Flocq Require Import Core IEEE754.BinarySingleNaN.
From Verif Require Import Base Num Params ParamsSpec IntProofs DoubleProofs ArrayProofs CompositeProofs PropParams Optim Hooke NelderMead Rosenbrock Parallel PropParallel Transfer.
Local Open Scope Z_scope.
Local Open Scope list_scope.

(** *** Discrete parameters in any arithmetic *)
Section Discrete.
Context (N : Num).

(** The current value can be written into the chromosome and read back: an IntParameter holds a value of its coding range
    (C01), a DoubleParameter a point of its grid, an array only grid points the quantisation maps to themselves. *)
Inductive fits : param N -> Prop :=
| fits_int p k : ip_size p = Some k -> INT_MIN <= ip_min p -> ip_value p <= INT_MAX -> ip_min p <= ip_value p < ip_min p + 2 ^ Z.of_nat k -> fits (PInt N p)
| fits_double d b : dp_base N d = Some b -> fits (PInt N b) -> fits (PDouble N d)
| fits_arr a b k : dp_base N (da_sample N a) = Some b -> ip_size b = Some k -> ip_min b = 0 ->
    Forall (fun v => exists i, dp_quantise N (dp_min N (da_sample N a)) (dp_prec N (da_sample N a)) v = Ok i /\ 0 <= i < 2 ^ Z.of_nat k /\
                               dp_value_of N (dp_min N (da_sample N a)) (dp_prec N (da_sample N a)) i = v) (da_values N a) -> fits (PArr N a)
| fits_comp s ps : Forall fits ps -> fits (PComp N s true ps).

(** Two objects that differ at most in their values: the same classes, bounds, precisions, sizes. *)
Definition same_int (p q : IntParam) : Prop := ip_min p = ip_min q /\ ip_max p = ip_max q /\ ip_size p = ip_size q.
Inductive same_shape : param N -> param N -> Prop :=
| same_pint p q : same_int p q -> same_shape (PInt N p) (PInt N q)
| same_pdouble d e b c : dp_base N d = Some b -> dp_base N e = Some c -> same_int b c ->
    dp_min N d = dp_min N e -> dp_max N d = dp_max N e -> dp_prec N d = dp_prec N e -> dp_size N d = dp_size N e -> same_shape (PDouble N d) (PDouble N e)
| same_parr a a' : da_sample N a = da_sample N a' -> length (da_values N a) = length (da_values N a') -> da_size N a = da_size N a' -> same_shape (PArr N a) (PArr N a')
| same_pcomp s i ps qs : Forall2 same_shape ps qs -> same_shape (PComp N s i ps) (PComp N s i qs).

Lemma same_size p q : same_shape p q -> p_size N p = p_size N q.
Proof. intro H. destruct H as [p q (_ & _ & E)|d e b c _ _ _ _ _ _ E|a a' _ _ E|s i ps qs _]; cbn; rewrite ?E; reflexivity. Qed.

Lemma int_transfer p q k : ip_size p = Some k -> (k <= 30)%nat -> same_int p q -> INT_MIN <= ip_min p -> ip_value p <= INT_MAX ->
  ip_min p <= ip_value p < ip_min p + 2 ^ Z.of_nat k -> forall old, length old = k ->
  exists bits, ip_set_chromosome p old = Ok bits /\ length bits = k /\ ip_set_from q bits = (p, Ok tt).
Proof.
  intros Hk K30 (E1 & E2 & E3) Hmn Hmx Hv old Lo. exists (z_bits k (ip_value p - ip_min p)).
  assert (2 ^ Z.of_nat k <= 2 ^ Z.of_nat 30) by (apply pow2_le; exact K30). change (2 ^ Z.of_nat 30) with 1073741824 in *.
  split; [apply ip_encode; auto; unfold INT_MIN, INT_MAX; lia|]. split; [apply z_bits_length|].
  assert (B : bits_val (z_bits k (ip_value p - ip_min p)) = ip_value p - ip_min p) by (rewrite z_bits_val; apply Z.mod_small; lia).
  rewrite (ip_decode q k); [|congruence|exact K30|apply z_bits_length|rewrite B, <- E1; unfold INT_MIN, INT_MAX in *; lia].
  rewrite B, <- E1. f_equal. unfold ip_set_value. rewrite <- E1, <- E2, <- E3. destruct p; cbn. f_equal. lia.
Qed.
Lemma size_30 mn mx k : count_chromosome_size mn mx = Ok k -> (k <= 30)%nat.
Proof. intro H. assert (G : ip_make 0 mn mx = Ok (MkInt 0 mn mx (Some k))) by (unfold ip_make; rewrite H; reflexivity). apply ip_make_inv in G as (_ & k' & E & K & _). inversion E. subst. exact K. Qed.

Lemma arr_transfer k mn pr : (k <= 30)%nat -> forall vs s t b c, dp_base N s = Some b -> dp_base N t = Some c -> ip_size b = Some k -> ip_size c = Some k -> ip_min b = 0 -> ip_min c = 0 ->
  dp_min N s = mn -> dp_min N t = mn -> dp_prec N s = pr -> dp_prec N t = pr ->
  Forall (fun v => exists i, dp_quantise N mn pr v = Ok i /\ 0 <= i < 2 ^ Z.of_nat k /\ dp_value_of N mn pr i = v) vs ->
  forall old, length old = (k * length vs)%nat ->
  exists bits, da_encode_loop N s k vs old = Ok bits /\ length bits = (k * length vs)%nat /\ da_decode_loop N t k (length vs) bits = Ok vs.
Proof.
  intro K30. induction vs as [|v vs IH]; intros s t b c Sb Tc Kb Kc Mb Mc Sm Tm Sp Tp F old Lo.
  - exists old. cbn [length] in *. split; [reflexivity|]. split; [exact Lo|reflexivity].
  - apply Forall_cons_iff in F as [(i & Q1 & Q2 & Q3) F']. cbn [da_encode_loop da_decode_loop length]. cbn [length] in Lo.
    unfold dp_set_value. rewrite Sm, Sp, Q1. cbn [bind]. rewrite Sb. cbn [bind].
    assert (P30 : 2 ^ Z.of_nat k <= 2 ^ Z.of_nat 30) by (apply pow2_le; exact K30). change (2 ^ Z.of_nat 30) with 1073741824 in P30.
    assert (Lf : length (firstn k old) = k) by (rewrite firstn_length; lia).
    unfold dp_set_chromosome. cbn [dp_base dp_with_base].
    rewrite (ip_encode (ip_set_value b i) k); [|exact Kb|exact K30|exact Lf|cbn; unfold INT_MIN, INT_MAX; lia]. cbn [bind]. replace (ip_value (ip_set_value b i) - ip_min (ip_set_value b i)) with i by (cbn; lia).
    set (s1 := dp_with_base N s (ip_set_value b i)). set (t1 := dp_with_base N t (ip_set_value c i)).
    destruct (IH s1 t1 (ip_set_value b i) (ip_set_value c i)) with (old := skipn k old) as (bits & A & B & C); try reflexivity; try assumption.
    { rewrite skipn_length. lia. }
    fold s1. rewrite A. cbn [bind]. exists (z_bits k i ++ bits). split; [reflexivity|]. split; [rewrite app_length, z_bits_length, B; lia|].
    assert (Fz : firstn k (z_bits k i ++ bits) = z_bits k i) by (rewrite <- (z_bits_length k i) at 1; apply firstn_app_len).
    assert (Sz : skipn k (z_bits k i ++ bits) = bits) by (rewrite <- (z_bits_length k i) at 1; apply skipn_app_len).
    rewrite Fz, Sz. unfold dp_set_from. rewrite Tc.
    assert (Bv : bits_val (z_bits k i) = i) by (rewrite z_bits_val; apply Z.mod_small; lia).
    rewrite (ip_decode c k); [|exact Kc|exact K30|apply z_bits_length|rewrite Bv, Mc; unfold INT_MIN, INT_MAX; lia]. cbn [bind]. rewrite Bv, Mc, Z.add_0_r.
    fold t1. unfold dp_get_value. cbn [dp_base t1 dp_with_base bind ip_set_value ip_value]. change (dp_min N t1) with (dp_min N t). change (dp_prec N t1) with (dp_prec N t).
    rewrite Tm, Tp, Q3. cbn [bind].
    fold t1. rewrite C. reflexivity.
Qed.
Lemma firstn_repeat {A} (x : A) k n : (k <= n)%nat -> firstn k (repeat x n) = repeat x k.
Proof. revert n. induction k as [|k IH]; intros [|n] H; cbn; auto; [lia|]. f_equal. apply IH. lia. Qed.
Lemma discrete_transfer p : forall q, wf_param N p -> fits p -> same_shape p q -> forall k old, p_size N p = Ok k -> length old = k ->
  exists bits, p_set_chromosome N p old = Ok bits /\ p_set_from N q bits = (p, Ok tt).
Proof.
  induction p as [p|d|a|s i ps IH] using (param_nested_ind N); intros q W Fi Sh n old Hn Lo.
  - inversion W as [? k Hk Hs| | |]; subst. inversion Fi as [? k' Hs' A B C| | |]; subst. assert (k' = k) by congruence. subst k'. inversion Sh as [? q' Sq| | |]; subst.
    cbn in Hn. rewrite Hs in Hn. inversion Hn as [Hn']. destruct (int_transfer p q' k Hs (size_30 _ _ _ Hk) Sq A B C old) as (bits & E1 & _ & E3); [congruence|].
    exists bits. cbn. rewrite E3. auto.
  - inversion W as [|? b k Hb Hk Hs Hd| |]; subst. inversion Fi as [|? b' Hb' Fb| |]; subst. assert (b' = b) by congruence. subst b'. inversion Fb as [? k' Hs' A B C| | |]; subst. assert (k' = k) by congruence. subst k'.
    inversion Sh as [|? e b' c Eb Ec Sbc E1 E2 E3 E4| |]; subst. assert (b' = b) by congruence. subst b'. cbn in Hn. rewrite Hd in Hn. inversion Hn as [Hn'].
    destruct (int_transfer b c k Hs (size_30 _ _ _ Hk) Sbc A B C old) as (bits & X1 & _ & X3); [congruence|].
    exists bits. cbn. unfold dp_set_chromosome, dp_set_from. rewrite Hb, Ec, X3. split; [exact X1|]. f_equal. f_equal. unfold dp_with_base. rewrite <- E1, <- E2, <- E3, <- E4, <- Hb. destruct d; reflexivity.
  - inversion W as [| |? k Ws Hk Hz|]; subst. inversion Fi as [| |? b k' Hb Kb Mb Fv|]; subst. inversion Ws as [|? b' k2 Hb' Hk2 Hs2 Hd2| |]; subst.
    assert (b' = b) by congruence. subst b'. assert (k' = k) by congruence. subst k'. assert (k2 = k) by congruence. subst k2. inversion Sh as [| |? a' Es El Ez|]; subst.
    cbn in Hn. rewrite Hz in Hn. inversion Hn as [Hn'].
    destruct (arr_transfer k _ _ (size_30 _ _ _ Hk2) (da_values N a) (da_sample N a) (da_sample N a') b b Hb ltac:(rewrite <- Es; exact Hb) Kb Kb Mb Mb eq_refl ltac:(rewrite <- Es; reflexivity) eq_refl ltac:(rewrite <- Es; reflexivity) Fv old ltac:(lia)) as (bits & X1 & X2 & X3).
    exists bits. cbn. unfold da_set_chromosome, da_set_from, cs_check. rewrite <- Ez, Hz, <- El, <- Es, Hk. rewrite <- Hn', X2, Nat.eqb_refl. cbn [bind cs_get]. rewrite <- Es in X3. rewrite X3. split; [exact X1|].
    f_equal. f_equal. unfold da_with_values. rewrite <- Es, <- Ez. destruct a; reflexivity.
  - inversion W as [| | |m ps' Wp Ht]; subst. inversion Fi as [| | |? ? Fp]; subst. inversion Sh as [| | |? ? ? qs Sq]; subst. cbn in Hn. inversion Hn as [Hn']. clear Hn.
    assert (G : forall m old, total_size N ps = Ok m -> length old = m -> exists bits, comp_encode N ps old = Ok bits /\ length bits = m /\ comp_decode N qs bits = (ps, Ok tt)).
    { clear W Fi Sh Ht Hn' old. revert qs Sq. induction ps as [|p ps IHps]; intros qs Sq m' old Ht Lo.
      - inversion Sq; subst. cbn in Ht. inversion Ht. exists old. cbn. destruct old; [auto|discriminate].
      - inversion Sq as [|? q ? qs' Spq Sps]; subst. inversion IH as [|? ? IHp IHr]; subst. inversion Wp as [|? ? W1 W2]; subst. inversion Fp as [|? ? F1 F2]; subst.
        cbn [total_size] in Ht. apply bind_ok in Ht as (k & Hk & Ht). apply bind_ok in Ht as (r & Hr & Ht). inversion Ht as [E].
        destruct (IHp q W1 F1 Spq k (firstn k old) Hk) as (b1 & X1 & X2); [rewrite firstn_length; lia|].
        destruct (IHps IHr W2 F2 qs' Sps r (skipn k old) Hr) as (b2 & Y1 & Y2 & Y3); [rewrite skipn_length; lia|].
        assert (L1 : length b1 = k) by (rewrite (set_chromosome_len N p _ _ X1), firstn_length; lia).
        exists (b1 ++ b2). cbn [comp_encode comp_decode]. rewrite <- (same_size _ _ Spq), Hk. cbn [bind]. destruct (Nat.leb_spec k (length old)); [|lia]. rewrite X1. cbn [bind]. rewrite Y1. cbn [bind].
        split; [reflexivity|]. split; [rewrite app_length; lia|]. destruct (Nat.leb_spec k (length (b1 ++ b2))); [|rewrite app_length in *; lia].
        rewrite <- L1, firstn_app_len, skipn_app_len, X2, Y3. reflexivity. }
    destruct (G m old Ht (eq_sym Hn')) as (bits & E1 & E2 & E3). exists bits. rewrite set_chromosome_comp, set_from_comp. cbn [cs_check]. rewrite E2, <- Hn', Nat.eqb_refl. cbn [bind]. rewrite E3. auto.
Qed.

(** What construction gives: the lower bound is an int, and for arrays the quantisation of a grid point finds its index. *)
Inductive regular : param N -> Prop :=
| regular_int p : INT_MIN <= ip_min p -> regular (PInt N p)
| regular_double d b : dp_base N d = Some b -> INT_MIN <= ip_min b -> regular (PDouble N d)
| regular_arr a b k : dp_base N (da_sample N a) = Some b -> ip_size b = Some k -> ip_min b = 0 ->
    (forall i, 0 <= i < 2 ^ Z.of_nat k ->
       dp_quantise N (dp_min N (da_sample N a)) (dp_prec N (da_sample N a)) (dp_value_of N (dp_min N (da_sample N a)) (dp_prec N (da_sample N a)) i) = Ok i) -> regular (PArr N a)
| regular_comp s i ps : Forall regular ps -> regular (PComp N s i ps).

Lemma int_decoded p q bits k : ip_size p = Some k -> (k <= 30)%nat -> INT_MIN <= ip_min p -> ip_set_from p bits = (q, Ok tt) ->
  length bits = k /\ q = ip_set_value p (bits_val bits + ip_min p) /\ bits_val bits + ip_min p <= INT_MAX /\ 0 <= bits_val bits < 2 ^ Z.of_nat k.
Proof.
  intros Hs K30 Hm. unfold ip_set_from, cs_check. rewrite Hs. destruct (Nat.eqb_spec (length bits) k) as [L|L]; [|discriminate].
  rewrite int_from_bits_0 by lia. cbn [bind]. unfold chk_int. destruct (in_int (bits_val bits + ip_min p)) eqn:E; [|discriminate]. intro H. inversion H as [Hq]. apply in_int_true in E.
  split; [exact L|]. split; [reflexivity|]. split; [lia|]. rewrite <- L. apply bits_val_range.
Qed.
Lemma decoded_fits p : forall bits q, wf_param N p -> regular p -> p_set_from N p bits = (q, Ok tt) -> fits q /\ same_shape p q.
Proof.
  induction p as [p|d|a|s i ps IH] using (param_nested_ind N); intros bits q W Rg H.
  - inversion W as [? k Hk Hs| | |]; subst. inversion Rg as [? Hm| | |]; subst. cbn in H. destruct (ip_set_from p bits) as [p' o] eqn:E. inversion H as [[H1 H2]]. subst o.
    destruct (int_decoded p p' bits k Hs (size_30 _ _ _ Hk) Hm E) as (L & -> & B1 & B2). split.
    + apply fits_int with k; cbn; auto; lia.
    + constructor. repeat split.
  - inversion W as [|? b k Hb Hk Hs Hd| |]; subst. inversion Rg as [|? b' Hb' Hm| |]; subst. assert (b' = b) by congruence. subst b'. cbn in H. unfold dp_set_from in H. rewrite Hb in H.
    destruct (ip_set_from b bits) as [p' o] eqn:E. inversion H as [[H1 H2]]. subst o.
    destruct (int_decoded b p' bits k Hs (size_30 _ _ _ Hk) Hm E) as (L & -> & B1 & B2). split.
    + apply fits_double with (ip_set_value b (bits_val bits + ip_min b)); [reflexivity|]. apply fits_int with k; cbn; auto; lia.
    + apply same_pdouble with b (ip_set_value b (bits_val bits + ip_min b)); auto. repeat split.
  - inversion W as [| |? k Ws Hk Hz|]; subst. inversion Rg as [| |? b k' Hb Kb Mb Q|]; subst. inversion Ws as [|? b' k2 Hb' Hk2 Hs2 Hd2| |]; subst.
    assert (b' = b) by congruence. subst b'. assert (k' = k) by congruence. subst k'. assert (k2 = k) by congruence. subst k2. cbn in H. unfold da_set_from in H.
    unfold cs_check in H. rewrite Hz in H. destruct (Nat.eqb_spec (length bits) (k * length (da_values N a))) as [L|L]; [|cbn in H; inversion H]. cbn [bind] in H. rewrite Hk in H. cbn [cs_get bind] in H.
    destruct (da_decode_loop N (da_sample N a) k (length (da_values N a)) bits) as [vs| |] eqn:D; inversion H; subst q. apply decode_loop_spec in D as (Lv & D). split.
    + apply fits_arr with b k; auto. apply Forall_forall. intros v Hv. apply In_nth_error in Hv as (j & Hj). cbn in Hj.
      assert (J : (j < length (da_values N a))%nat) by (rewrite <- Lv; apply nth_error_Some; congruence).
      destruct (D j J) as (s' & x & E1 & E2 & E3). assert (x = v) by congruence. subst x. unfold dp_set_from in E1. rewrite Hb in E1. destruct (ip_set_from b (slice k j bits)) as [b' o] eqn:Eb. inversion E1 as [[Hs1 Ho]]. subst o.
      destruct (int_decoded b b' (slice k j bits) k Kb (size_30 _ _ _ Hk2) ltac:(unfold INT_MIN; lia) Eb) as (L1 & Eq & B1 & B2). rewrite Mb, Z.add_0_r in Eq. subst b'. subst s'. unfold dp_get_value in E2. cbn in E2.
      exists (bits_val (slice k j bits)). cbn. injection E2 as <-. auto.
    + constructor; cbn; auto.
  - inversion W as [| | |m ps' Wp Ht]; subst. inversion Rg as [| | |? ? ? Rp]; subst. rewrite set_from_comp in H. destruct (cs_check (Some m) (length bits)); [|inversion H..].
    destruct (comp_decode N ps bits) as [qs o] eqn:D. inversion H as [[Hq Ho]]. subst o. clear H Hq W Rg.
    assert (G : Forall fits qs /\ Forall2 same_shape ps qs).
    { clear Ht. revert bits qs D. induction ps as [|p ps IHps]; intros bits qs D; cbn [comp_decode] in D; [inversion D; split; constructor|].
      apply Forall_cons_iff in IH as [IHp IHr]. apply Forall_cons_iff in Wp as [W1 W2]. apply Forall_cons_iff in Rp as [R1 R2].
      destruct (p_size N p) as [k| |]; [|inversion D..]. destruct (k <=? length bits)%nat; [|inversion D].
      destruct (p_set_from N p (firstn k bits)) as [p' o] eqn:E. destruct o as [[]| |]; [|inversion D..]. destruct (comp_decode N ps (skipn k bits)) as [r' o'] eqn:E'. inversion D as [[Hq Ho]]. subst o'.
      destruct (IHp _ _ W1 R1 E) as [F1 S1]. destruct (IHps IHr W2 R2 _ _ E') as [F2 S2]. split; constructor; auto. }
    destruct G. split; constructor; auto.
Qed.
Lemma same_int_trans p q r : same_int p q -> same_int p r -> same_int q r.
Proof. intros (A & B & C) (A' & B' & C'). repeat split; congruence. Qed.
Lemma same_shape_trans p : forall q r, same_shape p q -> same_shape p r -> same_shape q r.
Proof.
  induction p as [p|d|a|s i ps IH] using (param_nested_ind N); intros q r A B; inversion A; subst; inversion B; subst.
  - constructor. eapply same_int_trans; eassumption.
  - match goal with X : dp_base N d = Some ?x, Y : dp_base N d = Some ?y, U : dp_base N e = Some ?c, V : dp_base N e0 = Some ?c' |- _ => apply same_pdouble with c c'; try congruence; apply same_int_trans with x; congruence end.
  - constructor; congruence.
  - constructor. clear A B. match goal with X : Forall2 _ ps qs, Y : Forall2 _ ps qs0 |- _ => revert qs qs0 X Y end. induction ps as [|p ps IHps]; intros qs qs' X Y; inversion X; subst; inversion Y; subst; constructor.
    + apply Forall_cons_iff in IH as [IHp _]. apply IHp; assumption.
    + apply Forall_cons_iff in IH as [_ IHr]. apply IHps; assumption.
Qed.
End Discrete.

(** ** C56 A discrete parameter object whose value fits its chromosome arrives unchanged in any receiver of the same shape (any arithmetic). *)
Theorem C56_discrete : forall (N : Num) (p q : param N), wf_param N p -> fits N p -> same_shape N p q ->
  exists bits, p_send N p = Ok bits /\ p_receive N q bits = (p, Ok tt).
Proof.
  intros N p q W F Sh. destruct (wf_size N p W) as (k & Hk). unfold p_send, p_receive. rewrite Hk. cbn [bind]. apply (discrete_transfer N p q W F Sh k); [exact Hk|apply repeat_length].
Qed.

(** ** C56 Whatever chromosome an object was decoded from, the object arrives unchanged in every receiver that was built like it. *)
Theorem C56_decoded : forall (N : Num) (p q receiver : param N) (bits : chromosome), wf_param N p -> regular N p ->
  p_set_from N p bits = (q, Ok tt) -> same_shape N p receiver ->
  exists sent, p_send N q = Ok sent /\ p_receive N receiver sent = (q, Ok tt).
Proof.
  intros N p q r bits W Rg H Sh. destruct (decoded_fits N p bits q W Rg H) as [F S]. apply C56_discrete; auto.
  - rewrite <- (f_equal fst H : fst _ = q). apply wf_set_from. exact W.
  - apply (same_shape_trans N p); assumption.
Qed.

(** In exact arithmetic the constructors give regular objects. *)
Lemma regular_double_exact d mn mx k : dp_good d mn mx k -> regular RNum (PDouble RNum d).
Proof. intros (_ & _ & _ & _ & _ & _ & i & Hb). eapply regular_double; [exact Hb|]. cbn. unfold INT_MIN. lia. Qed.
Lemma regular_arr_exact a mn mx k : da_good a mn mx k -> regular RNum (PArr RNum a).
Proof.
  intros (Hg & Hz). pose proof Hg as (Hmn & Hmx & Hprec & Hs & Hk & Hlt & i & Hb). eapply regular_arr with (k := k); [exact Hb|reflexivity|reflexivity|].
  intros j Hj. pose proof (dp_set_value_grid _ _ _ _ j Hg ltac:(lia)) as G. unfold dp_set_value in G. rewrite Hb in G. rewrite Hmn in *.
  replace (dp_value_of RNum mn (dp_prec RNum (da_sample RNum a)) j) with (mn + IZR j * dp_prec RNum (da_sample RNum a))%R by (cbn; apply Rplus_comm).
  destruct (dp_quantise RNum mn (dp_prec RNum (da_sample RNum a)) (mn + IZR j * dp_prec RNum (da_sample RNum a))%R) as [j'| |]; cbn in G; [|discriminate..]. unfold dp_with_base, ip_set_value in G. injection G as <-. reflexivity.
Qed.
(** ** C56 An array decoded from any chromosome, and so every point a genetic algorithm holds, arrives unchanged in exact arithmetic. *)
Theorem C56_array_exact : forall (mn mx p : R) (n : nat) (a receiver q : DoubleArr RNum) (bits rbits : chromosome), (mn < mx)%R -> (0 < p)%R -> (Zceil ((mx - mn) / p) <= 2 ^ 30)%Z ->
  da_make RNum mn mx p n = Ok a -> da_set_from RNum a bits = (q, Ok tt) -> da_set_from RNum a rbits = (receiver, Ok tt) ->
  exists sent, p_send RNum (PArr RNum q) = Ok sent /\ p_receive RNum (PArr RNum receiver) sent = (PArr RNum q, Ok tt).
Proof.
  intros mn mx p n a r q bits rbits H1 H2 H3 Ha Hq Hr. destruct (da_make_good mn mx p n H1 H2 H3) as (a' & k & E & Hg & Ln & _). rewrite Ha in E. injection E as <-.
  assert (W : wf_param RNum (PArr RNum a)).
  { pose proof Hg as (Hd & Hz). pose proof Hd as (_ & _ & _ & Hs & Hk & _ & i & Hb). apply wf_arr with k; [|exact Hs|exact Hz]. eapply wf_double; [exact Hb| |reflexivity|exact Hs].
    cbn [ip_min ip_max]. assert (2 ^ Z.of_nat k <= 2 ^ Z.of_nat 30) by (apply pow2_le; exact Hk). change (2 ^ Z.of_nat 30) with 1073741824 in *.
    destruct (count_size_ok 0 (2 ^ Z.of_nat k)) as (k' & E1 & _ & E2 & E3); [unfold INT_MIN; change (2 ^ 30) with 1073741824; lia|]. rewrite E1. f_equal. apply (least_pow2_exp_unique (2 ^ Z.of_nat k)); [rewrite Z.sub_0_r in *; split; assumption|].
    split; [lia|]. intros j Hj. apply Z.pow_le_mono_r_iff in Hj; lia. }
  pose proof (regular_arr_exact a mn mx k Hg) as Rg.
  apply (C56_decoded RNum (PArr RNum a) (PArr RNum q) (PArr RNum r) bits W Rg); [cbn; rewrite Hq; reflexivity|].
  apply (decoded_fits RNum (PArr RNum a) rbits (PArr RNum r) W Rg). cbn. rewrite Hr. reflexivity.
Qed.

(** ** C56 Refuted in binary64: an array object DoubleParametersArray(-5.12, 5.12, 0.01, 1) decoded from the chromosome of 1 becomes another
    point on the way: values are truncated to the grid anew when they are sent. *)
Definition array_transfer_unchanged (mn mx p : dbl) (n : nat) (bits : chromosome) : outcome bool :=
  let! a := da_make FNum mn mx p n in
  let (q, o) := da_set_from FNum a bits in let! _ := o in
  let! sent := p_send FNum (PArr FNum q) in
  match p_receive FNum (PArr FNum a) sent with
  | (PArr _ q', Ok _) => Ok (forallb (fun xy => d_eqb (fst xy) (snd xy)) (combine (da_values FNum q) (da_values FNum q')))
  | (_, Throw e) => Throw e | (_, UB u) => UB u | _ => UB BadCast
  end.
Theorem C56_array_binary64_refuted : array_transfer_unchanged m512 p512 d001 1 bits_of_one = Ok false.
Proof. vm_compute. reflexivity. Qed.
(** ** C56 Bounds are not transferred: a receiver of the same chromosome size but other bounds takes another value, silently. *)
Theorem C56_bounds_not_sent : forall N : Num, exists p q, ip_make 5 0 7 = Ok p /\ ip_make 1 1 8 = Ok q /\
  exists sent, p_send N (PInt N p) = Ok sent /\ p_receive N (PInt N q) sent = (PInt N (ip_set_value q 6), Ok tt).
Proof.
  intro N. exists (MkInt 5 0 7 (Some 3%nat)), (MkInt 1 1 8 (Some 3%nat)). split; [vm_compute; reflexivity|]. split; [vm_compute; reflexivity|].
  exists [true; false; true]. split; reflexivity.
Qed.
(** ** C56 An IntParameter at its maximum arrives as its minimum when max - min is a power of two. *)
Theorem C56_maximum_lost : forall N : Num, exists p, ip_make 8 0 8 = Ok p /\
  exists sent, p_send N (PInt N p) = Ok sent /\ p_receive N (PInt N p) sent = (PInt N (ip_set_value p 0), Ok tt).
Proof.
  intro N. exists (MkInt 8 0 8 (Some 3%nat)). split; [vm_compute; reflexivity|]. exists [false; false; false]. split; reflexivity.
Qed.

(** *** Optimisers *)
(** What decides how an optimiser that has not run yet behaves: every member but the polygons remembered from earlier runs. *)
Definition settings (o : optimizer) : optimizer := match o with ONelderMead c _ => ONelderMead c [] | _ => o end.
Definition transferable (o : optimizer) : Prop := match o with OGrid | ORandom | OAnnealing => False | _ => True end.
(** ** C56 An optimiser is received, into a clone of any optimiser of its class, with all its settings, and exactly the items sent are consumed. *)
Theorem C56_optimizers : forall (o r : optimizer) (rest : wire), transferable o -> opt_class r = opt_class o ->
  exists w c, opt_send o = Ok w /\ opt_clone r = Ok c /\ opt_receive c (w ++ rest) = Ok (settings o, rest).
Proof.
  intros [c|c|c pp|p i n|i n p| | |] [c'|c'|c' pp'|p' i' n'|i' n' p'| | |] rest T E; try discriminate E; try contradiction T; cbn [opt_send opt_clone]; eexists; eexists;
    (split; [reflexivity|]); (split; [reflexivity|]); cbn; try destruct c; reflexivity.
Qed.
(** ** C56 Grid search, random search and simulated annealing refuse to be cloned, sent and received, so no task can be created with them. *)
Theorem C56_not_transferable : forall (o : optimizer), ~ transferable o ->
  opt_clone o = Throw LogicError /\ opt_send o = Throw LogicError /\ (forall w, opt_receive o w = Throw LogicError) /\
  forall S p f m, (exists c, par_clone p = Ok c) -> task_new S o p f m = Throw LogicError.
Proof.
  intros o H. destruct o; try (exfalso; apply H; exact I); (split; [reflexivity|]); (split; [reflexivity|]); (split; [reflexivity|]); intros S p f m (c & E); unfold task_new; rewrite E; reflexivity.
Qed.

(** *** Tasks *)
Section TaskProofs.
Context (S : Type).
Notation object := (object S).
Notation reg := (reg S).
Notation function := (function S).
Notation task := (task S).
Lemma cls_eqb_spec a b : cls_eqb a b = true <-> a = b.
Proof.
  split; [|intros <-; destruct a; cbn; auto; apply Nat.eqb_refl].
  destruct a, b; cbn; try discriminate; auto. intro H. apply Nat.eqb_eq in H. congruence.
Qed.
(** ** C56 Registering an object makes it the prototype of its class and touches no other class. *)
Theorem C56_register : forall (o : object) (r r' : reg), register S o r = Ok r' ->
  (exists c, obj_clone S o = Ok c /\ look_up S r' (get_id S o) = Ok c) /\ forall k, k <> get_id S o -> look_up S r' k = look_up S r k.
Proof.
  intros o r r' H. unfold register in H. apply bind_ok in H as (c & Hc & H). injection H as <-. split.
  - exists c. split; [exact Hc|]. unfold look_up, get_object, register_object. rewrite (rg_find_put _ _ cls_eqb cls_eqb_spec).
    replace (cls_eqb (get_id S o) (get_id S o)) with true by (symmetry; apply cls_eqb_spec; reflexivity). reflexivity.
  - intros k Hk. unfold look_up, get_object, register_object. rewrite (rg_find_put _ _ cls_eqb cls_eqb_spec).
    destruct (cls_eqb k (get_id S o)) eqn:E; [apply cls_eqb_spec in E; contradiction|]. destruct (rg_find object cls cls_eqb k r) as [[x|]|]; reflexivity.
Qed.
(** Parameters [p] can be received into a clone of the prototype [q]. *)
Definition receivable (p q : parameters) : Prop :=
  match p, q with
  | Continuous _, Continuous _ => True
  | Discrete p, Discrete q => wf_param FNum p /\ fits FNum p /\ wf_param FNum q /\ same_shape FNum p q
  | _, _ => False
  end.
(** The prototypes of the classes of a task are registered. *)
Definition prepared (r : reg) (t : task) (f : function) : Prop :=
  look_up S r (KFunction (fn_class S (tk_function S t))) = Ok (ObjFun S f) /\
  (exists q, look_up S r (par_class (tk_parameters S t)) = Ok (ObjPar S q) /\ receivable (tk_parameters S t) q) /\
  (exists q, look_up S r (opt_class (tk_optimizer S t)) = Ok (ObjOpt S q) /\ opt_class q = opt_class (tk_optimizer S t)).
Lemma parameters_arrive p q : receivable p q -> exists w c, par_send p = Ok w /\ par_clone q = Ok c /\ forall rest, par_receive c (w ++ rest) = Ok (p, rest).
Proof.
  destruct p as [v|p], q as [v'|q]; cbn [receivable]; try contradiction.
  - intros _. eexists. eexists. repeat split; reflexivity.
  - intros (W & F & W' & Sh). destruct (C56_discrete FNum p q W F Sh) as (bits & E1 & E2). eexists. eexists. cbn [par_send par_clone]. rewrite E1, (clone_id FNum q W').
    split; [reflexivity|]. split; [reflexivity|]. intro rest. cbn. rewrite E2. reflexivity.
Qed.
(** ** C56 A task is received as it was sent - the parameters with their values, the optimiser with its settings, the direction - with the
    receiver's own copy of the function, and the next message in the connection is untouched. *)
Theorem C56_task : forall (r : reg) (t : task) (f : function) (rest : wire), transferable (tk_optimizer S t) -> prepared r t f ->
  exists w, task_send S t = Ok w /\
    task_receive S r (w ++ rest) = Ok (MkTask S (settings (tk_optimizer S t)) (tk_parameters S t) f (tk_maximize S t), rest).
Proof.
  intros r [o p f0 m] f rest T (Hf & (q & Hq & Rc) & (ro & Ho & Ec)). cbn [tk_optimizer tk_parameters tk_function tk_maximize] in *.
  destruct (parameters_arrive p q Rc) as (wp & cp & E1 & E2 & E3). destruct (C56_optimizers o ro (IBool m :: rest) T Ec) as (wo & co & F1 & F2 & F3).
  unfold task_send. cbn [tk_optimizer tk_parameters tk_function tk_maximize]. rewrite E1, F1. cbn [bind]. eexists. split; [reflexivity|].
  unfold task_receive, receive_function. cbn [app recv_id bind]. rewrite Hf. cbn [bind]. unfold receive_parameters. cbn [recv_id bind]. rewrite Hq. cbn [bind]. rewrite E2. cbn [bind].
  rewrite <- !app_assoc. rewrite E3. cbn [bind]. unfold receive_optimizer. cbn [app recv_id bind]. rewrite Ho. cbn [bind]. rewrite F2. cbn [bind].
  rewrite <- app_assoc. cbn [app]. rewrite F3. cbn [bind recv_bool]. reflexivity.
Qed.
(** ** C56 End to end: the task the constructor builds is the task the other process runs, if the two processes agree about the function. *)
Theorem C56_task_end_to_end : forall (r : reg) (o : optimizer) (p : parameters) (f : function) (m : bool) (t : task) (rest : wire),
  (match p with Discrete d => wf_param FNum d | _ => True end) -> task_new S o p f m = Ok t -> prepared r t f ->
  t = MkTask S (settings o) p f m /\ exists w, task_send S t = Ok w /\ task_receive S r (w ++ rest) = Ok (t, rest).
Proof.
  intros r o p f m t rest W H P. assert (E : par_clone p = Ok p) by (destruct p as [v|d]; [reflexivity|cbn; rewrite (clone_id FNum d W); reflexivity]).
  unfold task_new in H. rewrite E in H. cbn [bind] in H. apply bind_ok in H as (c & Hc & H). injection H as <-.
  assert (T : transferable o) by (destruct o; try exact I; discriminate Hc).
  assert (Ec : c = settings o) by (destruct o as [x|x|x pp|? ? ?|? ? ?| | |]; try contradiction T; cbn in Hc; injection Hc as <-; cbn; try destruct x; reflexivity). subst c. split; [reflexivity|].
  assert (T' : transferable (settings o)) by (destruct o; exact T).
  destruct (C56_task r (MkTask S (settings o) p f m) f rest T' P) as (w & E1 & E2). exists w. split; [exact E1|]. rewrite E2. cbn. destruct o; reflexivity.
Qed.
(** ** C56 Any number of tasks sent one after the other over a connection are received in order, none lost, merged or invented. *)
Fixpoint send_all (ts : list task) : outcome wire := match ts with [] => Ok [] | t :: r => let! w := task_send S t in let! ws := send_all r in Ok (w ++ ws) end.
Fixpoint receive_n (r : reg) (n : nat) (w : wire) : outcome (list task * wire) :=
  match n with O => Ok ([], w) | Datatypes.S n => rx! (t, w) := task_receive S r w in rx! (ts, w) := receive_n r n w in Ok (t :: ts, w) end.
Theorem C56_stream : forall (r : reg) (ts : list task) (rest : wire),
  Forall (fun t => transferable (tk_optimizer S t) /\ settings (tk_optimizer S t) = tk_optimizer S t /\ prepared r t (tk_function S t)) ts ->
  exists w, send_all ts = Ok w /\ receive_n r (length ts) (w ++ rest) = Ok (ts, rest).
Proof.
  intros r ts rest. induction ts as [|t ts IH]; intro F; [exists []; split; reflexivity|]. apply Forall_cons_iff in F as [(T & E & P) F]. destruct (IH F) as (w & E1 & E2).
  destruct (C56_task r t (tk_function S t) (w ++ rest) T P) as (wt & F1 & F2). exists (wt ++ w). cbn [send_all length receive_n]. rewrite F1. cbn [bind]. rewrite E1. cbn [bind]. split; [reflexivity|].
  rewrite <- app_assoc, F2. cbn [bind]. rewrite E2. cbn [bind]. rewrite E. destruct t; reflexivity.
Qed.
(** ** C56 The state of the objective function is not sent: two tasks that differ only in it send the same message. *)
Theorem C56_function_state_not_sent : forall o p (f g : function) m, fn_class S f = fn_class S g -> task_send S (MkTask S o p f m) = task_send S (MkTask S o p g m).
Proof. intros o p f g m E. unfold task_send. cbn [tk_function tk_parameters tk_optimizer tk_maximize]. rewrite E. reflexivity. Qed.
(** ** C56 A class that was never registered stops the reception with invalid_argument; constructing the receiving task registers
    BoundedNelderMead and nothing else. *)
Theorem C56_unregistered : forall (r : reg) (t : task) (f : function) (w : wire), task_send S t = Ok w ->
  (look_up S r (KFunction (fn_class S (tk_function S t))) = Throw InvalidArgument -> task_receive S r w = Throw InvalidArgument) /\
  (look_up S r (KFunction (fn_class S (tk_function S t))) = Ok (ObjFun S f) -> look_up S r (par_class (tk_parameters S t)) = Throw InvalidArgument -> task_receive S r w = Throw InvalidArgument) /\
  (look_up S r (KFunction (fn_class S (tk_function S t))) = Ok (ObjFun S f) ->
   (exists q, look_up S r (par_class (tk_parameters S t)) = Ok (ObjPar S q) /\ receivable (tk_parameters S t) q) ->
   look_up S r (opt_class (tk_optimizer S t)) = Throw InvalidArgument -> task_receive S r w = Throw InvalidArgument).
Proof.
  intros r [o p f0 m] f w Hs. cbn [tk_optimizer tk_parameters tk_function tk_maximize] in *. unfold task_send in Hs. cbn [tk_optimizer tk_parameters tk_function tk_maximize] in Hs.
  apply bind_ok in Hs as (wp & Hp & Hs). apply bind_ok in Hs as (wo & Ho & Hs). injection Hs as <-.
  split; [intro Hf; unfold task_receive, receive_function; cbn [app recv_id bind]; rewrite Hf; reflexivity|].
  split; [intros Hf Hq; unfold task_receive, receive_function; cbn [app recv_id bind]; rewrite Hf; cbn [bind]; unfold receive_parameters; cbn [recv_id bind]; rewrite Hq; reflexivity|].
  intros Hf (q & Hq & Rc) Hr. destruct (parameters_arrive p q Rc) as (wp' & cp & E1 & E2 & E3). assert (wp' = wp) by congruence. subst wp'.
  unfold task_receive, receive_function. cbn [app recv_id bind]. rewrite Hf. cbn [bind]. unfold receive_parameters. cbn [recv_id bind]. rewrite Hq. cbn [bind]. rewrite E2. cbn [bind].
  rewrite E3. cbn [bind]. unfold receive_optimizer. cbn [app recv_id bind]. rewrite Hr. reflexivity.
Qed.
Theorem C56_default_prototype : forall (r : reg) k, look_up S (default_task_registers S r) k =
  if cls_eqb k KNelderMead then Ok (ObjOpt S (ONelderMead (MkNM FMath (d_ofZ 1) (d_ofZ 1) (d_ofZ 1) (d_ofZ 1)) [])) else look_up S r k.
Proof.
  intros r k. unfold look_up, get_object, default_task_registers, register_object. rewrite (rg_find_put _ _ cls_eqb cls_eqb_spec).
  destruct (cls_eqb k KNelderMead); [reflexivity|]. destruct (rg_find object cls cls_eqb k r) as [[x|]|]; reflexivity.
Qed.
(** ** C56 Evaluation tasks, their values and optimisation results. *)
Theorem C56_count_task : forall (r : reg) (f f' : function) (p q : parameters) (rest : wire),
  look_up S r (KFunction (fn_class S f)) = Ok (ObjFun S f') -> look_up S r (par_class p) = Ok (ObjPar S q) -> receivable p q ->
  exists w, count_send S f p = Ok w /\ count_receive S r (w ++ rest) = Ok ((f', p), rest).
Proof.
  intros r f f' p q rest Hf Hq Rc. destruct (parameters_arrive p q Rc) as (wp & cp & E1 & E2 & E3). unfold count_send. rewrite E1. cbn [bind]. eexists. split; [reflexivity|].
  unfold count_receive, receive_function. cbn [app recv_id bind]. rewrite Hf. cbn [bind]. unfold receive_parameters. cbn [recv_id bind]. rewrite Hq. cbn [bind]. rewrite E2. cbn [bind]. rewrite E3. reflexivity.
Qed.
Theorem C56_value : forall v rest, value_receive (value_send v ++ rest) = Ok (v, rest).
Proof. reflexivity. Qed.
Theorem C56_result : forall (r : reg) (p q : parameters) (rest : wire), look_up S r (par_class p) = Ok (ObjPar S q) -> receivable p q ->
  exists w, result_send p = Ok w /\ result_receive S r (w ++ rest) = Ok (p, rest).
Proof.
  intros r p q rest Hq Rc. destruct (parameters_arrive p q Rc) as (wp & cp & E1 & E2 & E3). unfold result_send. rewrite E1. cbn [bind]. eexists. split; [reflexivity|].
  unfold result_receive, receive_parameters. cbn [app recv_id bind]. rewrite Hq. cbn [bind]. rewrite E2. cbn [bind]. rewrite E3. reflexivity.
Qed.
End TaskProofs.
Print Assumptions C56_discrete.
Print Assumptions C56_decoded.
Print Assumptions C56_array_exact.
Print Assumptions C56_array_binary64_refuted.
Print Assumptions C56_optimizers.
Print Assumptions C56_task.
Print Assumptions C56_task_end_to_end.
Print Assumptions C56_stream.
Print Assumptions C56_unregistered.

(** Non-trivial case: a composite of an IntParameter and an array, and a registry that knows it. *)
Definition tr_int : IntParam := MkInt 5 0 7 (Some 3%nat).
Definition tr_int' : IntParam := MkInt 0 0 7 (Some 3%nat).
Definition tr_par (p : IntParam) : parameters := Discrete (PComp FNum (Some 6%nat) true [PInt FNum p; PInt FNum tr_int]).
Definition tr_reg : reg nat := default_task_registers nat (match register nat (ObjPar nat (tr_par tr_int')) [] with Ok r => match register nat (ObjFun nat (MkFun nat 7 42%nat)) r with Ok r => r | _ => [] end | _ => [] end).
Example C56_witness : let t := MkTask nat (ONelderMead (MkNM FMath (d_ofZ 2) (d_ofZ 3) (d_ofZ 4) (d_ofZ 5)) []) (tr_par tr_int) (MkFun nat 7 42%nat) true in
  prepared nat tr_reg t (MkFun nat 7 42%nat) /\ transferable (tk_optimizer nat t) /\
  exists w, task_send nat t = Ok w /\ task_receive nat tr_reg (w ++ [IBool true]) = Ok (t, [IBool true]).
Proof.
  intro t. assert (P : prepared nat tr_reg t (MkFun nat 7 42%nat)).
  { split; [reflexivity|]. split.
    - exists (tr_par tr_int'). split; [reflexivity|].
      assert (W : forall p, ip_min p = 0 -> ip_max p = 7 -> ip_size p = Some 3%nat -> wf_param FNum (PInt FNum p)) by (intros p A B C; apply wf_int with 3%nat; [rewrite A, B; vm_compute; reflexivity|exact C]).
      assert (F : fits FNum (PInt FNum tr_int)) by (apply fits_int with 3%nat; vm_compute; intuition congruence).
      split; [|split; [|split]].
      + apply wf_comp; [repeat constructor; apply W; reflexivity|reflexivity].
      + apply fits_comp. repeat constructor; exact F.
      + apply wf_comp; [repeat constructor; apply W; reflexivity|reflexivity].
      + apply same_pcomp. repeat constructor.
    - eexists. split; [reflexivity|reflexivity]. }
  split; [exact P|]. split; [exact I|]. destruct (C56_task nat tr_reg t (MkFun nat 7 42%nat) [IBool true] I P) as (w & E1 & E2). exists w. split; [exact E1|exact E2].
Qed.
