(** C45: the Hooke-Jeeves method. *)
From Coq Require Import Reals Psatz.
From Flocq Require Import Core.Zaux Core.Raux Core.Defs Core.Generic_fmt IEEE754.BinarySingleNaN.
From Verif Require Import Base Num DblOrder FloatLemmas Misc PropMisc Optim PropOptim Hooke.
Local Open Scope Z_scope.
Local Open Scope list_scope.

(** *** running searches *)
Lemma pure_bind N g A B (s : search N A) (k : A -> search N B) : pure N g (sbind s k) = bind (pure N g s) (fun a => pure N g (k a)).
Proof.
  induction s as [a|m v c IH|e|u]; cbn [sbind pure bind]; try reflexivity.
  destruct m, (g v) as [y|e|u]; cbn [bind]; auto.
Qed.
Lemma pure_lift N g A (o : outcome A) : pure N g (lift o) = o.
Proof. destruct o; reflexivity. Qed.
Lemma pure_ask (g : list dbl -> outcome dbl) v : pure FNum g (ask_d v) = g v.
Proof. unfold ask_d, ask_min. cbn [pure]. destruct (g v); reflexivity. Qed.

(** *** order *)
Definition le_d (x y : dbl) : Prop := is_num x = true /\ is_num y = true /\ d_leb x y = true.
Lemma is_num_nan x : is_num x = true <-> is_nan x = false.
Proof. unfold is_num. destruct (is_nan x); split; intro; auto; discriminate. Qed.
Lemma le_d_refl x : is_num x = true -> le_d x x.
Proof. intro H. repeat split; auto. apply is_num_nan in H. rewrite d_leb_nkey by auto. apply Z.leb_le. lia. Qed.
Lemma le_d_trans x y z : le_d x y -> le_d y z -> le_d x z.
Proof.
  intros (A & B & C) (D & E & F). repeat split; auto.
  apply d_leb_key in C as (? & ? & ?), F as (? & ? & ?). apply d_leb_key. repeat split; auto; lia.
Qed.
Lemma lt_le_d x y : d_ltb x y = true -> le_d x y.
Proof. intro H. apply d_ltb_key in H as (A & B & C). repeat split; try (apply is_num_nan; assumption). apply d_leb_key. repeat split; auto; lia. Qed.
Lemma not_le_lt x y : is_num x = true -> is_num y = true -> d_leb x y = false -> le_d y x.
Proof.
  intros A B H. apply is_num_nan in A, B. rewrite d_leb_nkey in H by auto. apply Z.leb_gt in H.
  repeat split; try (apply is_num_nan; assumption). rewrite d_leb_nkey by auto. apply Z.leb_le. lia.
Qed.

Lemma nth_ext_eq {A} : forall (l m : list A), (forall j, nth_error l j = nth_error m j) -> l = m.
Proof.
  induction l as [|x l IH]; intros [|y m] H; [reflexivity|specialize (H 0%nat); discriminate|specialize (H 0%nat); discriminate|].
  pose proof (H 0%nat) as E. cbn in E. injection E as ->. f_equal. apply IH. intro j. apply (H (S j)).
Qed.

Section HJ.
Variable g : list dbl -> dbl.
Variable n : nat.
Hypothesis g_num : forall v, length v = n -> is_num (g v) = true.
Notation go := (fun v => Ok (g v)).
Notation run := (pure FNum go).

(** [b] is [a] with coordinate i changed by -step, 0 or +step, for the coordinates from [i0] on *)
Definition explored (steps a b : list dbl) : Prop :=
  length a = length b /\
  forall i x s, nth_error a i = Some x -> nth_error steps i = Some s ->
    exists y, nth_error b i = Some y /\ (y = x \/ y = d_add x s \/ y = d_sub x s).

Lemma at_ok {A} (l : list A) i x : at_ l i = Ok x <-> nth_error l i = Some x.
Proof. unfold at_. destruct (nth_error l i); split; intro H; congruence. Qed.
Lemma at_in {A} (l : list A) i : (i < length l)%nat -> exists x, at_ l i = Ok x /\ nth_error l i = Some x.
Proof. intro H. unfold at_. destruct (nth_error l i) eqn:E; [eauto|]. apply nth_error_None in E. lia. Qed.

Lemma coord_loop_spec steps : length steps = n -> forall todo args i, length args = n -> (i + todo = n)%nat ->
  exists b, run (coord_loop steps args i todo) = Ok b /\ length b = n /\ le_d (g b) (g args) /\
    (forall j, (j < i)%nat -> nth_error b j = nth_error args j) /\
    (forall j x s, (i <= j)%nat -> nth_error args j = Some x -> nth_error steps j = Some s ->
       exists y, nth_error b j = Some y /\ (y = x \/ y = d_add x s \/ y = d_sub x s)).
Proof.
  intros Ls. induction todo as [|t IH]; intros args i La Hi.
  - exists args. cbn. repeat split; auto; try (apply le_d_refl; auto). intros; eauto.
  - cbn [coord_loop]. rewrite pure_bind, pure_ask. cbn [bind].
    destruct (at_in args i) as (a & Ea & Na); [lia|]. destruct (at_in steps i) as (s & Es & Ns); [lia|].
    rewrite pure_bind, pure_lift, Ea. cbn [bind]. rewrite pure_bind, pure_lift, Es. cbn [bind].
    rewrite pure_bind, pure_ask. cbn [bind].
    assert (K : forall y, (y = a \/ y = d_add a s \/ y = d_sub a s) ->
      forall args', args' = upd args i y -> le_d (g args') (g args) ->
      exists b, run (coord_loop steps args' (S i) t) = Ok b /\ length b = n /\ le_d (g b) (g args) /\
        (forall j, (j < i)%nat -> nth_error b j = nth_error args j) /\
        (forall j x s, (i <= j)%nat -> nth_error args j = Some x -> nth_error steps j = Some s ->
           exists y, nth_error b j = Some y /\ (y = x \/ y = d_add x s \/ y = d_sub x s))).
    { intros y Hy args' -> Hle. destruct (IH (upd args i y) (S i)) as (b & R & Lb & Le & Lo & Hi'); [rewrite upd_length; auto|lia|].
      exists b. split; [exact R|]. split; [exact Lb|]. split; [eapply le_d_trans; eauto|]. split.
      - intros j Hj. rewrite Lo by lia. rewrite nth_error_upd. destruct (Nat.eqb_spec i j); [lia|reflexivity].
      - intros j x s' Hj Nx Ns'. destruct (Nat.eq_dec i j) as [<-|D].
        + rewrite Lo by lia. rewrite nth_error_upd, Nat.eqb_refl. destruct (Nat.ltb_spec i (length args)); [|lia].
          exists y. split; [reflexivity|]. replace x with a by congruence. replace s' with s by congruence. exact Hy.
        + apply (Hi' j x s'); [lia| |exact Ns']. rewrite nth_error_upd. destruct (Nat.eqb_spec i j); [contradiction|exact Nx]. }
    destruct (d_ltb (g (upd args i (d_add a s))) (g args)) eqn:U.
    + eapply K; [right; left; reflexivity|reflexivity|apply lt_le_d; exact U].
    + rewrite pure_bind, pure_ask. cbn [bind].
      destruct (d_ltb (g (upd args i (d_sub a s))) (g args)) eqn:D.
      * eapply K; [right; right; reflexivity|reflexivity|apply lt_le_d; exact D].
      * assert (E : args = upd args i a).
        { apply nth_ext_eq. intro j. rewrite nth_error_upd. destruct (Nat.eqb_spec i j) as [<-|]; [|reflexivity].
          destruct (Nat.ltb_spec i (length args)); [exact Na|lia]. }
        apply (K a (or_introl eq_refl) args E). apply le_d_refl. auto.
Qed.

Lemma coordinatewise_spec steps args : length steps = n -> length args = n ->
  exists b, run (coordinatewise steps args) = Ok b /\ le_d (g b) (g args) /\ explored steps args b.
Proof.
  intros Ls La. unfold coordinatewise. rewrite La. destruct (coord_loop_spec steps Ls n args 0 La eq_refl) as (b & R & Lb & Le & _ & H).
  exists b. repeat split; auto; try lia; try apply Le. intros i x s Nx Ns. apply (H i x s); [lia| |]; assumption.
Qed.

Lemma pattern_length c : forall a b, length a = length b -> length (pattern c a b) = length a.
Proof. induction a as [|x a IH]; intros [|y b] H; cbn in *; try discriminate; auto. Qed.

Lemma hj_inner_spec c steps : length steps = n -> forall fuel args after it r,
  length args = n -> length after = n -> run (hj_inner fuel c steps args after it) = Ok r ->
  match r with
  | Broke args' after' it' => length args' = n /\ args' = after' /\ le_d (g after') (g after)
  | Returned v => length v = n /\ le_d (g v) (g after)
  end.
Proof.
  intros Ls. induction fuel as [|fu IH]; intros args after it r La Lf H; [discriminate|].
  cbn [hj_inner] in H.
  destruct (coordinatewise_spec steps (pattern c args after) Ls) as (next & Rn & _ & Ex); [rewrite pattern_length; congruence|].
  assert (Ln : length next = n) by (destruct Ex as [Ex _]; rewrite <- Ex, pattern_length; congruence).
  rewrite pure_bind, Rn in H. cbn [bind] in H. rewrite pure_bind, pure_ask in H. cbn [bind] in H.
  rewrite pure_bind, pure_ask in H. cbn [bind] in H.
  destruct (d_leb (g after) (g next)) eqn:D.
  - cbn in H. injection H as <-. repeat split; auto. apply (le_d_refl (g after)). auto.
  - pose proof (not_le_lt _ _ (g_num after Lf) (g_num next Ln) D) as Le.
    destruct (it + 1 =? hj_max_iterations c).
    + cbn in H. injection H as <-. auto.
    + apply IH in H; [|exact Lf|exact Ln]. destruct r as [a' f' i'|v].
      * destruct H as (A & B & C). split; [exact A|]. split; [exact B|]. eapply le_d_trans; eauto.
      * destruct H as (A & B). split; auto. eapply le_d_trans; eauto.
Qed.

Lemma hj_outer_spec c : forall fuel steps args it v, length steps = n -> length args = n ->
  run (hj_outer fuel c steps args it) = Ok v -> length v = n /\ le_d (g v) (g args).
Proof.
  induction fuel as [|fu IH]; intros steps args it v Ls La H; [discriminate|].
  cbn [hj_outer] in H. destruct (coordinatewise_spec steps args Ls La) as (after & Ra & Le & Ex).
  assert (Lf : length after = n) by (destruct Ex as [Ex _]; congruence).
  rewrite pure_bind, Ra in H. cbn [bind] in H.
  destruct (vectors_equal args after).
  - destruct (hj_exit c _).
    + cbn in H. injection H as <-. auto.
    + apply IH in H; [exact H|rewrite map_length; exact Ls|exact La].
  - rewrite pure_bind in H. destruct (pure FNum go (hj_inner (S fu) c steps args after it)) as [e|e|u] eqn:R; try discriminate.
    cbn [bind] in H. apply hj_inner_spec in R; auto. destruct e as [a' f' i'|w].
    + destruct R as (A & -> & C). destruct (hj_exit c steps).
      * cbn in H. injection H as <-. split; [exact A|]. eapply le_d_trans; eauto.
      * apply IH in H as [L H]; auto. split; [exact L|]. eapply le_d_trans; [exact H|]. eapply le_d_trans; eauto.
    + cbn in H. injection H as <-. destruct R as [A B]. split; [exact A|]. eapply le_d_trans; eauto.
Qed.
End HJ.

(** The objective values at vectors of length n are numbers (no NaN), and [b] is not worse than [a] for the chosen
    direction: f(a) <= f(b) when maximising, f(b) <= f(a) when minimising. *)
Definition nan_free (n : nat) (f : list dbl -> dbl) : Prop := forall v, length v = n -> is_num (f v) = true.
Definition at_least_as_good (maximize : bool) (f : list dbl -> dbl) (b a : list dbl) : Prop :=
  if maximize then d_leb (f a) (f b) = true else d_leb (f b) (f a) = true.

Lemma opp_num (x : dbl) : is_num (Bopp x) = is_num x.
Proof. destruct x; reflexivity. Qed.
Lemma opp_key (x : dbl) : is_nan x = false -> d_key (Bopp x) = - d_key x.
Proof. destruct x as [s|s| |s m e H]; cbn; intro E; try discriminate; try destruct s; cbn; try reflexivity; lia. Qed.
Lemma opp_leb x y : is_num x = true -> is_num y = true -> d_leb (Bopp x) (Bopp y) = d_leb y x.
Proof.
  intros A B. apply is_num_nan in A, B. rewrite !d_leb_nkey; auto; try (rewrite is_nan_Bopp; auto).
  rewrite !opp_key by auto. destruct (Z.leb_spec (- d_key x) (- d_key y)), (Z.leb_spec (d_key y) (d_key x)); auto; lia.
Qed.

(** from statements about the search to statements about Optimize on a ContinuousParametersArray *)
Lemma optimize_array_value f maximize find p q log :
  optimize FNum (list dbl) (arr_set FNum) (arr_get FNum) (arr_check FNum) (fun v => Ok (f v)) maximize find p = (Ok tt, q, log) ->
  length q = length p /\
  pure FNum (fun v => if Nat.eqb (length v) (length p) then Ok (if maximize then Bopp (f v) else f v) else Throw InvalidArgument) (find p) = Ok q.
Proof.
  intro H. destruct (proj1 (C59_array (fun v => Ok (f v)) maximize find p q) (ex_intro _ log H)) as [R L].
  split; [exact L|]. rewrite <- R. apply pure_ext. intro v. reflexivity.
Qed.
(** a search that runs normally against a partial function runs the same against any total extension of it *)
Lemma pure_total N (g h : list (num N) -> outcome (num N)) : (forall v y, g v = Ok y -> h v = Ok y) ->
  forall A (s : search N A) a, pure N g s = Ok a -> pure N h s = Ok a.
Proof.
  intros E A s. induction s as [b|m v k IH|e|u]; intros a H; cbn [pure] in *; try discriminate; [exact H|].
  destruct m; destruct (g v) as [y|e|u] eqn:G; cbn [bind] in H; try discriminate; rewrite (E v y G); cbn [bind]; apply IH; exact H.
Qed.

(** ** C45 Whatever the objective function (free of NaN), the starting vector, the steps, the acceleration, the divider,
    the precision and the iteration limit: when Optimize returns, the vector stored is at least as good as the start. *)
Theorem C45_never_worse : forall fuel c f maximize p q log, nan_free (length p) f ->
  optimize FNum (list dbl) (arr_set FNum) (arr_get FNum) (arr_check FNum) (fun v => Ok (f v)) maximize (hj_find fuel c) p = (Ok tt, q, log) ->
  length q = length p /\ at_least_as_good maximize f q p.
Proof.
  intros fuel c f mx p q log NF H. apply optimize_array_value in H as [L R]. split; [exact L|].
  apply (pure_total FNum _ (fun v => Ok (if mx then Bopp (f v) else f v))) in R.
  2:{ intros v y. change (num FNum) with dbl in *. destruct (Nat.eqb (length v) (length p)); [auto|discriminate]. }
  assert (NF' : forall v, length v = length p -> is_num (if mx then Bopp (f v) else f v) = true).
  { intros v Lv. destruct mx; [rewrite opp_num|]; auto. }
  apply (hj_outer_spec (fun v => if mx then Bopp (f v) else f v) (length p) NF') in R as [_ Le]; [|apply repeat_length|reflexivity].
  unfold at_least_as_good. destruct mx; destruct Le as (_ & _ & Le); [|exact Le]. rewrite opp_leb in Le; auto.
Qed.

(** ** C45 One exploratory search (CoordinatewiseSearch) always completes, moves each coordinate by -step, 0 or +step and
    never makes the value to minimise greater. *)
Theorem C45_exploratory : forall f steps a, nan_free (length a) f -> length steps = length a ->
  exists b, pure FNum (fun v => Ok (f v)) (coordinatewise steps a) = Ok b /\ length b = length a /\ d_leb (f b) (f a) = true /\
  forall i x s, nth_error a i = Some x -> nth_error steps i = Some s ->
    exists y, nth_error b i = Some y /\ (y = x \/ y = d_add x s \/ y = d_sub x s).
Proof.
  intros f steps a NF Ls. destruct (coordinatewise_spec f (length a) NF steps a Ls eq_refl) as (b & R & Le & Ex & H).
  exists b. split; [exact R|]. split; [auto|]. split; [apply Le|exact H].
Qed.

(** dividing a finite double by 1 gives it back *)
Lemma d_div_1 (x : dbl) : is_finite x = true -> d_div x (d_ofZ 1) = x.
Proof.
  intro Fx. destruct (d_ofZ_exact 1 ltac:(lia)) as [F1 R1].
  assert (NZ : B2R (d_ofZ 1) <> 0%R) by (rewrite R1; lra).
  pose proof (Bdiv_correct dprec demax _ _ mode_NE x (d_ofZ 1) NZ) as C.
  assert (E : (B2R x / B2R (d_ofZ 1))%R = B2R x) by (rewrite R1; field).
  rewrite E in C. change (round radix2 (SpecFloat.fexp dprec demax) (round_mode mode_NE)) with rnd64 in C.
  rewrite rnd_id in C by apply fmt_dbl. rewrite Rlt_bool_true in C by apply dbl_lt_max.
  destruct C as (C1 & C2 & C3). rewrite Fx in C2. apply B2R_Bsign_inj; auto.
  unfold d_div. rewrite C3.
  - assert (S1 : Bsign (d_ofZ 1) = false) by (vm_compute; reflexivity). rewrite S1. apply xorb_false_r.
  - destruct (Bdiv mode_NE x (d_ofZ 1)); cbn in C2 |- *; auto; discriminate.
Qed.
Lemma all_equal_refl v : Forall (fun x => is_finite x = true) v -> vectors_equal v v = true.
Proof.
  intro H. unfold vectors_equal. rewrite Nat.eqb_refl. cbn [negb].
  induction H as [|x v Hx _ IH]; [reflexivity|]. cbn [all_equal]. rewrite C57_reflexive, Hx. exact IH.
Qed.
Lemma coord_const k steps : forall todo args i, length steps = length args -> (i + todo = length args)%nat ->
  pure FNum (fun _ => Ok k) (coord_loop steps args i todo) = Ok args.
Proof.
  induction todo as [|t IH]; intros args i L H; [reflexivity|]. cbn [coord_loop].
  rewrite pure_bind, pure_ask. cbn [bind].
  destruct (at_in args i) as (a & Ea & Na); [lia|]. destruct (at_in steps i) as (s & Es & Ns); [lia|].
  rewrite pure_bind, pure_lift, Ea. cbn [bind]. rewrite pure_bind, pure_lift, Es. cbn [bind].
  rewrite pure_bind, pure_ask. cbn [bind]. rewrite d_ltb_irrefl.
  rewrite pure_bind, pure_ask. cbn [bind]. rewrite d_ltb_irrefl. apply IH; lia.
Qed.

(** ** C45 The iteration limit does not bound the work (refutation of termination): it only counts successful pattern
    moves. With step divider 1 and a constant objective function no amount of loop iterations suffices, whatever the
    configured maximum. *)
Theorem C45_iteration_limit_refuted : forall fuel c (k : dbl) (p : list dbl), hj_divider c = d_ofZ 1 -> is_finite (hj_init_step c) = true ->
  Forall (fun x => is_finite x = true) p -> hj_exit c (repeat (hj_init_step c) (length p)) = false ->
  pure FNum (fun _ => Ok k) (hj_find fuel c p) = UB OutOfFuel.
Proof.
  intros fuel c k p Hd Hs Hp He. unfold hj_find. generalize 0%Z as it.
  assert (M : forall n, map (fun s : dbl => d_div s (hj_divider c)) (repeat (hj_init_step c) n) = repeat (hj_init_step c) n).
  { induction n as [|n IH]; [reflexivity|]. cbn [repeat map]. rewrite IH, Hd, d_div_1 by exact Hs. reflexivity. }
  induction fuel as [|fu IH]; intro it; [reflexivity|]. cbn [hj_outer]. rewrite pure_bind. unfold coordinatewise.
  rewrite coord_const by (rewrite ?repeat_length; lia). cbn [bind]. rewrite (all_equal_refl p Hp). rewrite M. cbv zeta. change (num FNum) with dbl. rewrite He. apply IH.
Qed.
Example C45_example_limit : forall fuel, pure FNum (fun _ => Ok (d_ofZ 5)) (hj_find fuel (MkHooke (d_ofZ 2) (d_ofZ 1) 10 (d_of 1 (-1)) (d_ofZ 1)) [d_ofZ 3; d_ofZ 4]) = UB OutOfFuel.
Proof.
  intro fuel. apply C45_iteration_limit_refuted; [reflexivity|vm_compute; reflexivity| |vm_compute; reflexivity].
  repeat constructor; vm_compute; reflexivity.
Qed.

(** concrete instance: f(x) = x*x from 1 with step 1 and precision 1: the method ends at 0 *)
Definition C45_cfg : hooke := MkHooke (d_ofZ 2) (d_ofZ 1) 10 (d_ofZ 1) (d_ofZ 2).
Definition C45_f (v : list dbl) : dbl := match v with x :: _ => if is_finite x then (if d_ltb (d_abs x) (d_ofZ 1000) then d_mul x x else d_inf) else d_inf | [] => d_inf end.
Example C45_example_runs : match optimize FNum (list dbl) (arr_set FNum) (arr_get FNum) (arr_check FNum) (fun v => Ok (C45_f v)) false (hj_find 10 C45_cfg) [d_ofZ 1] with
  | (Ok tt, [x], log) => (is_zero x && (3 <? Z.of_nat (length log)))%bool | _ => false end = true.
Proof. vm_compute. reflexivity. Qed.
Example C45_example_nan_free : nan_free 1 C45_f.
Proof.
  intros [|x v] L; [discriminate|]. unfold C45_f. destruct (is_finite x) eqn:F; [|reflexivity].
  destruct (d_ltb (d_abs x) (d_ofZ 1000)); [|reflexivity]. clear L.
  apply is_num_nan. unfold d_mul. destruct x as [s|s| |s m e H]; try discriminate; [destruct s; reflexivity|].
  pose proof (Bmult_correct dprec demax _ _ mode_NE (B754_finite s m e H) (B754_finite s m e H)) as C.
  destruct (Raux.Rlt_bool _ _).
  - destruct C as (_ & C & _). destruct (Bmult mode_NE _ _); cbn in *; auto; discriminate.
  - destruct (Bmult mode_NE (B754_finite s m e H) (B754_finite s m e H)) as [z|z| |z m' e' H']; cbn in *; auto. destruct s; discriminate.
Qed.
Print Assumptions C45_never_worse. Print Assumptions C45_exploratory. Print Assumptions C45_iteration_limit_refuted.
