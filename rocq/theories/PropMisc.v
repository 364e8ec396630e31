(** C29 parameters processors, C57 approximate equality, C58 delay supplier. *)
From Coq Require Import Reals Lra.
From Flocq Require Import Core IEEE754.BinarySingleNaN.
From Verif Require Import Base Num DblOrder FloatLemmas Misc.
Local Open Scope Z_scope.
Local Open Scope list_scope.

(** ** C29 *)

(** [best maximize vs i]: when maximising, i is the first position of a greatest value; when minimising, the last
    position of a least value. *)
Definition best (maximize : bool) (vs : list dbl) (i : nat) : Prop :=
  exists v, nth_error vs i = Some v /\
  (forall j u, nth_error vs j = Some u -> (if maximize then d_leb u v else d_leb v u) = true) /\
  (forall j u, nth_error vs j = Some u -> if maximize then (j < i)%nat -> d_ltb u v = true else (i < j)%nat -> d_ltb v u = true).

Lemma pick_loop_spec (mx : bool) : forall (r pre : list dbl) (value : dbl) (index : nat),
  Forall (fun v => is_num v = true) (pre ++ r) -> nth_error pre index = Some value ->
  (forall j u, nth_error pre j = Some u -> (if mx then d_leb u value else d_leb value u) = true) ->
  (forall j u, nth_error pre j = Some u -> if mx then (j < index)%nat -> d_ltb u value = true else (index < j)%nat -> d_ltb value u = true) ->
  best mx (pre ++ r) (pick_loop mx value index (length pre) r).
Proof.
  assert (NF : forall u : dbl, is_num u = true -> is_nan u = false) by (intros u; unfold is_num; destruct (is_nan u); [discriminate|reflexivity]).
  induction r as [|v r IH]; intros pre value index Hn Hi H1 H2; cbn [pick_loop].
  - rewrite app_nil_r. exists value. auto.
  - assert (Nv : is_nan value = false).
    { apply NF. rewrite Forall_forall in Hn. apply Hn. apply in_or_app. left. eapply nth_error_In; eauto. }
    assert (Nr : is_nan v = false).
    { apply NF. rewrite Forall_forall in Hn. apply Hn. apply in_or_app. right. left. reflexivity. }
    assert (Np : forall j u, nth_error pre j = Some u -> is_nan u = false).
    { intros j u Hu. apply NF. rewrite Forall_forall in Hn. apply Hn. apply in_or_app. left. eapply nth_error_In; eauto. }
    assert (Li : (index < length pre)%nat) by (apply nth_error_Some; congruence).
    replace (pre ++ v :: r) with ((pre ++ [v]) ++ r) in * by (rewrite <- app_assoc; reflexivity).
    replace (S (length pre)) with (length (pre ++ [v])) by (rewrite app_length; cbn; lia).
    assert (Cases : forall j u, nth_error (pre ++ [v]) j = Some u -> ((j < length pre)%nat /\ nth_error pre j = Some u) \/ (j = length pre /\ u = v)).
    { intros j u Hu. destruct (Nat.lt_ge_cases j (length pre)) as [L|L].
      - left. rewrite nth_error_app1 in Hu by exact L. auto.
      - right. rewrite nth_error_app2 in Hu by exact L. destruct (j - length pre)%nat as [|[|k]] eqn:Ej; cbn in Hu; [|discriminate|discriminate].
        injection Hu as <-. split; [lia|reflexivity]. }
    rewrite (d_ltb_nkey value v Nv Nr).
    destruct mx; destruct (Z.ltb_spec (d_key value) (d_key v)) as [Lt|Ge]; cbn [negb].
    + apply IH; auto.
      * rewrite nth_error_app2 by lia. rewrite Nat.sub_diag. reflexivity.
      * intros j u Hu. apply Cases in Hu as [[L Hu]|[-> ->]].
        -- specialize (H1 j u Hu). rewrite (d_leb_nkey _ _ (Np _ _ Hu)) in H1 by exact Nv. rewrite (d_leb_nkey _ _ (Np _ _ Hu)) by exact Nr.
           apply Z.leb_le in H1. apply Z.leb_le. lia.
        -- rewrite d_leb_nkey by exact Nr. apply Z.leb_refl.
      * intros j u Hu Hj. apply Cases in Hu as [[L Hu]|[-> ->]]; [|lia].
        specialize (H1 j u Hu). rewrite (d_leb_nkey _ _ (Np _ _ Hu)) in H1 by exact Nv. rewrite (d_ltb_nkey _ _ (Np _ _ Hu)) by exact Nr.
        apply Z.leb_le in H1. apply Z.ltb_lt. lia.
    + apply IH; auto.
      * rewrite nth_error_app1 by exact Li. exact Hi.
      * intros j u Hu. apply Cases in Hu as [[L Hu]|[-> ->]]; [eauto|]. rewrite d_leb_nkey by assumption. apply Z.leb_le. lia.
      * intros j u Hu Hj. apply Cases in Hu as [[L Hu]|[-> ->]]; [eapply H2; eauto|lia].
    + apply IH; auto.
      * rewrite nth_error_app1 by exact Li. exact Hi.
      * intros j u Hu. apply Cases in Hu as [[L Hu]|[-> ->]]; [eauto|]. rewrite d_leb_nkey by assumption. apply Z.leb_le. lia.
      * intros j u Hu Hj. apply Cases in Hu as [[L Hu]|[-> ->]]; [eapply H2; eauto|]. rewrite d_ltb_nkey by assumption. apply Z.ltb_lt. lia.
    + apply IH; auto.
      * rewrite nth_error_app2 by lia. rewrite Nat.sub_diag. reflexivity.
      * intros j u Hu. apply Cases in Hu as [[L Hu]|[-> ->]].
        -- specialize (H1 j u Hu). pose proof (Np _ _ Hu) as Nu. rewrite d_leb_nkey in H1 by assumption. rewrite d_leb_nkey by assumption.
           apply Z.leb_le in H1. apply Z.leb_le. lia.
        -- rewrite d_leb_nkey by exact Nr. apply Z.leb_refl.
      * intros j u Hu Hj. apply Cases in Hu as [[L Hu]|[-> ->]]; lia.
Qed.

Lemma pick_spec (mx : bool) vs : vs <> [] -> Forall (fun v => is_num v = true) vs -> exists i, pick mx vs = Ok i /\ best mx vs i.
Proof.
  intros Hne Hn. destruct vs as [|v r]; [contradiction|]. eexists. split; [reflexivity|].
  apply (pick_loop_spec mx r [v] v 0%nat); auto.
  - intros [|[|j]] u Hu; cbn in Hu; try discriminate. injection Hu as <-. inversion Hn; subst. unfold is_num in *.
    assert (is_nan v = false) by (destruct (is_nan v); [discriminate|reflexivity]).
    destruct mx; (rewrite d_leb_nkey by assumption; apply Z.leb_refl).
  - intros [|[|j]] u Hu; cbn in Hu; try discriminate. destruct mx; lia.
Qed.

(** SimpleParametersProcessor: the chosen parameter set is an optimal one: the first among the greatest when maximising,
    the last among the least when minimising (values free of NaN). *)
Theorem C29_simple : forall P (f : P -> outcome dbl) ps vs maximize, ps <> [] -> mapM f ps = Ok vs -> Forall (fun v => is_num v = true) vs ->
  exists i p, simple_process P f ps maximize = Ok p /\ nth_error ps i = Some p /\ best maximize vs i.
Proof.
  intros P f ps vs mx Hne Hm Hn. pose proof Hm as Hl; apply mapM_ok_nth in Hl as [Hl _].
  destruct (pick_spec mx vs) as (i & Hp & Hb); [destruct ps; [contradiction|]; destruct vs; [discriminate|discriminate]|exact Hn|].
  assert (Li : (i < length ps)%nat).
  { destruct Hb as (v & Hv & _). rewrite <- Hl. apply nth_error_Some. congruence. }
  destruct (nth_error ps i) as [p|] eqn:Hi; [|apply nth_error_None in Hi; lia].
  exists i, p. split; [|auto]. unfold simple_process. destruct ps; [contradiction|]. rewrite Hm. cbn [bind]. rewrite Hp. cbn [bind].
  unfold at_. rewrite Hi. reflexivity.
Qed.
Print Assumptions C29_simple.

(** OptimizationParametersProcessor: every parameter set is optimised on its own, and the best outcome is returned. *)
Theorem C29_optimization : forall P (f : P -> outcome dbl) cln opt ps rs vs maximize, ps <> [] ->
  mapM (fun p => let! q := cln p in let! r := opt q maximize in cln r) ps = Ok rs -> mapM f rs = Ok vs ->
  Forall (fun v => is_num v = true) vs ->
  exists i p, optimization_process P f cln opt ps maximize = Ok p /\ nth_error rs i = Some p /\ best maximize vs i.
Proof.
  intros P f cln opt ps rs vs mx Hne Hr Hm Hn. pose proof Hm as Hl; apply mapM_ok_nth in Hl as [Hl _]. pose proof Hr as Hl'; apply mapM_ok_nth in Hl' as [Hl' _].
  destruct (pick_spec mx vs) as (i & Hp & Hb).
  { destruct ps; [contradiction|]. destruct rs; [discriminate|]. destruct vs; discriminate. }
  { exact Hn. }
  assert (Li : (i < length rs)%nat).
  { destruct Hb as (v & Hv & _). rewrite <- Hl. apply nth_error_Some. congruence. }
  destruct (nth_error rs i) as [p|] eqn:Hi; [|apply nth_error_None in Hi; lia].
  exists i, p. split; [|auto]. unfold optimization_process. change (optimization_task P cln opt mx) with (fun p => let! q := cln p in let! r := opt q mx in cln r).
  rewrite Hr. cbn [bind]. rewrite Hm. cbn [bind]. rewrite Hp. cbn [bind]. unfold at_. rewrite Hi. reflexivity.
Qed.
Print Assumptions C29_optimization.

(** No parameter sets: one throws, the other reads beyond the end of an empty vector. *)
Theorem C29_empty : forall P f cln opt maximize, simple_process P f [] maximize = Throw InvalidArgument /\
  optimization_process P f cln opt [] maximize = UB OutOfBounds.
Proof. intros. split; reflexivity. Qed.

(** With NaN values the choice is not optimal: when minimising, a NaN met after the first element is always taken. *)
Theorem C29_minimise_takes_nan_refuted : forall vs, vs <> [] -> pick false (vs ++ [d_nan]) = Ok (length vs).
Proof.
  intros vs Hne. destruct vs as [|v r]; [contradiction|]. cbn [app pick length]. f_equal. clear Hne.
  assert (G : forall r value index i, pick_loop false value index i (r ++ [d_nan]) = (i + length r)%nat).
  { induction r0 as [|u r0 IH]; intros value index i; cbn [app pick_loop length].
    - rewrite d_ltb_nan_r. cbn. lia.
    - destruct (negb (d_ltb value u)); rewrite IH; lia. }
  apply (G r v 0%nat 1%nat).
Qed.
Print Assumptions C29_minimise_takes_nan_refuted.
Example C29_witness : pick true [d_ofZ 3; d_ofZ 7; d_ofZ 7; d_ofZ 1] = Ok 1%nat /\ pick false [d_ofZ 3; d_ofZ 1; d_ofZ 7; d_ofZ 1] = Ok 3%nat.
Proof. split; vm_compute; reflexivity. Qed.

(** ** C57 *)

Lemma eps_pos : is_finite d_eps = true /\ (0 < B2R d_eps)%R.
Proof.
  assert (F : is_finite d_eps = true) by (vm_compute; reflexivity). split; [exact F|].
  destruct (d_ofZ_exact 0) as [Z1 Z2]; [lia|]. rewrite <- Z2. apply d_ltb_R; [exact Z1|exact F|]. vm_compute. reflexivity.
Qed.

Lemma sub_swap x y : d_abs (d_sub x y) = d_abs (d_sub y x).
Proof.
  destruct (is_finite x) eqn:Fx; [destruct (is_finite y) eqn:Fy|].
  - pose proof (Bminus_correct dprec demax dprec_gt_0 dprec_lt_emax mode_NE x y Fx Fy) as A.
    pose proof (Bminus_correct dprec demax dprec_gt_0 dprec_lt_emax mode_NE y x Fy Fx) as B.
    fold (d_sub x y) in A. fold (d_sub y x) in B.
    assert (Er : forall u v, round radix2 (SpecFloat.fexp dprec demax) (round_mode mode_NE) (u - v)%R =
                  (- round radix2 (SpecFloat.fexp dprec demax) (round_mode mode_NE) (v - u))%R).
    { intros u v. rewrite <- round_NE_opp. f_equal. ring. }
    rewrite (Er (B2R y)) in B. rewrite Rabs_Ropp in B.
    destruct (Rlt_bool _ _).
    + destruct A as (A1 & A2 & _), B as (B1 & B2 & _). unfold d_abs. apply B2R_Bsign_inj.
      * rewrite is_finite_Babs. exact A2.
      * rewrite is_finite_Babs. exact B2.
      * rewrite !B2R_Babs, A1, B1, Rabs_Ropp. reflexivity.
      * rewrite !Bsign_Babs; auto; destruct (d_sub x y), (d_sub y x); try discriminate; reflexivity.
    + destruct A as (A1 & _), B as (B1 & _). unfold d_abs.
      destruct (d_sub x y) as [|[|]| |]; destruct (d_sub y x) as [|[|]| |]; cbn in A1, B1; try discriminate; reflexivity.
  - destruct x as [s|s| |s m e H], y as [s'|s'| |s' m' e' H']; try discriminate; reflexivity.
  - destruct x as [s|s| |s m e H], y as [s'|s'| |s' m' e' H']; try discriminate; try reflexivity. destruct s, s'; reflexivity.
Qed.

(** AreEqual is symmetric for all doubles, including infinities and NaN. *)
Theorem C57_symmetric : forall x y, are_equal x y = are_equal y x.
Proof. intros x y. unfold are_equal. rewrite sub_swap. reflexivity. Qed.
Print Assumptions C57_symmetric.

(** reflexive exactly on finite values: infinity is not equal to itself. *)
Theorem C57_reflexive : forall x, are_equal x x = is_finite x.
Proof.
  intro x. destruct (is_finite x) eqn:F.
  - unfold are_equal. destruct eps_pos as [E1 E2].
    destruct (d_sub_finite x x F F) as [S1 S2].
    { replace (B2R x - B2R x)%R with 0%R by ring. rewrite rnd_0, Rabs_R0. apply bpow_gt_0. }
    apply d_ltb_R; [unfold d_abs; rewrite is_finite_Babs; exact S1|exact E1|].
    unfold d_abs. rewrite B2R_Babs, S2. replace (B2R x - B2R x)%R with 0%R by ring. rewrite rnd_0, Rabs_R0. exact E2.
  - unfold are_equal. destruct x as [s|s| |s m e H]; try discriminate; [destruct s; vm_compute; reflexivity|vm_compute; reflexivity].
Qed.
Print Assumptions C57_reflexive.

(** A positive answer bounds the distance: with exact reals |x - y| is below 1e-10 up to the rounding of one subtraction,
    and both values are finite. *)
Theorem C57_meaning : forall x y, is_finite x = true -> is_finite y = true ->
  (are_equal x y = true <-> (Rabs (rnd64 (B2R x - B2R y)) < B2R d_eps)%R).
Proof.
  intros x y Fx Fy. destruct eps_pos as [E1 E2]. unfold are_equal.
  pose proof (Bminus_correct dprec demax dprec_gt_0 dprec_lt_emax mode_NE x y Fx Fy) as A. fold (d_sub x y) in A.
  match type of A with (if Rlt_bool ?u ?v then _ else _) => destruct (Rlt_bool_spec u v) as [Lt|Ge] end.
  - destruct A as (A1 & A2 & _). rewrite d_ltb_R; [|unfold d_abs; rewrite is_finite_Babs; exact A2|exact E1].
    unfold d_abs. rewrite B2R_Babs, A1. reflexivity.
  - destruct A as (A1 & _). split; intro H.
    + exfalso. destruct (d_sub x y) as [|[|]| |]; cbn in A1; try discriminate; vm_compute in H; discriminate.
    + exfalso. pose proof (dbl_lt_max d_eps) as M. apply (Rle_not_lt _ _ Ge). eapply Rlt_trans; [exact H|].
      eapply Rle_lt_trans; [apply Rle_abs|exact M].
Qed.
Print Assumptions C57_meaning.

(** The threshold is 1e-10, up to the precision of double: differences below it give true, differences above it false. *)
Lemma eps_value : (B2R d_eps = 7737125245533627 * / 77371252455336267181195264)%R.
Proof.
  unfold d_eps, d_of. pose proof (binary_normalize_correct dprec demax dprec_gt_0 dprec_lt_emax mode_NE 7737125245533627 (-86) false) as C. cbv zeta in C.
  assert (E : F2R (beta:=radix2) {| Fnum := 7737125245533627; Fexp := -86 |} = (7737125245533627 * / 77371252455336267181195264)%R) by reflexivity. rewrite E in C.
  assert (G : fmt64 (7737125245533627 * / 77371252455336267181195264)) by (apply generic_format_FLT; exists (Float radix2 7737125245533627 (-86)); cbn [Fnum Fexp]; [symmetry; exact E|cbn; lia|lia]).
  change (round radix2 (SpecFloat.fexp dprec demax) (round_mode mode_NE)) with rnd64 in C. rewrite (rnd_id _ G) in C. rewrite Rlt_bool_true in C; [exact (proj1 C)|].
  rewrite Rabs_pos_eq by lra. apply Rlt_trans with (bpow radix2 0); [cbn; lra|apply bpow_lt; reflexivity].
Qed.
Theorem C57_threshold : forall x y, is_finite x = true -> is_finite y = true ->
  (Rabs (B2R x - B2R y) < / 10 ^ 10 * (1 - / 2 ^ 50) -> are_equal x y = true)%R /\
  (are_equal x y = true -> Rabs (B2R x - B2R y) < / 10 ^ 10 * (1 + / 2 ^ 50))%R.
Proof.
  intros x y Fx Fy. rewrite (C57_meaning x y Fx Fy). pose proof eps_value as E. set (z := (B2R x - B2R y)%R). split; intro H.
  - pose proof (generic_format_B2R dprec demax d_eps) as G. set (p := (7737125245533620 * / 77371252455336267181195264)%R).
    assert (Gp : fmt64 p) by (unfold p; apply generic_format_FLT; exists (Float radix2 7737125245533620 (-86)); cbn [Fnum Fexp]; [reflexivity|cbn; lia|lia]).
    apply Rle_lt_trans with p; [|rewrite E; unfold p; lra]. apply abs_round_le_generic; [typeclasses eauto|typeclasses eauto|exact Gp|]. unfold p. lra.
  - apply Rnot_le_lt. intro L. apply Rlt_not_le in H. apply H. clear H. 
    apply abs_round_ge_generic; [typeclasses eauto|typeclasses eauto|apply (generic_format_B2R dprec demax d_eps)|]. rewrite E. lra.
Qed.
Print Assumptions C57_threshold.
(** IsZero: exactly the values closer to 0 than the threshold. *)
Theorem C57_is_zero : forall x, is_zero x = true <-> is_finite x = true /\ (Rabs (B2R x) < B2R d_eps)%R.
Proof.
  intro x. unfold is_zero. destruct (d_ofZ_exact 0) as [Z1 Z2]; [lia|]. destruct (is_finite x) eqn:F.
  - rewrite (C57_meaning x (d_ofZ 0) F Z1), Z2. replace (B2R x - 0)%R with (B2R x) by ring. rewrite rnd_id by apply (generic_format_B2R dprec demax x). tauto.
  - split; [|intros [H _]; discriminate]. intro H. exfalso. revert H. unfold are_equal. destruct x as [s|s| |s m e Hb]; try discriminate; try (destruct s; vm_compute; discriminate); vm_compute; discriminate.
Qed.
Print Assumptions C57_is_zero.

(** Non-finite values are near nothing. *)
Theorem C57_non_finite : forall x y, is_finite x = false -> are_equal x y = false /\ are_equal y x = false.
Proof.
  intros x y F. assert (G : are_equal x y = false); [|split; [exact G|rewrite C57_symmetric; exact G]].
  unfold are_equal. destruct x as [s|s| |s m e H], y as [s'|s'| |s' m' e' H']; try discriminate; try (destruct s; try destruct s'; vm_compute; reflexivity);
    vm_compute; reflexivity.
Qed.
Print Assumptions C57_non_finite.

(** Vectors: equal iff the lengths agree and all elements are near. *)
Theorem C57_vectors : forall a b, vectors_equal a b = true <->
  length a = length b /\ forall i x y, nth_error a i = Some x -> nth_error b i = Some y -> are_equal x y = true.
Proof.
  intros a b. unfold vectors_equal. destruct (Nat.eqb_spec (length a) (length b)) as [El|Nl]; cbn [negb].
  2:{ split; [discriminate|intros [H _]; contradiction]. }
  revert b El. induction a as [|x a IH]; intros [|y b] El; try discriminate.
  - cbn. split; [|reflexivity]. intros _. split; [reflexivity|]. intros [|i] u v Hu; discriminate.
  - cbn [all_equal]. cbn [length] in El. injection El as El. destruct (are_equal x y) eqn:Eq.
    + rewrite IH by exact El. split; intros [_ H]; (split; [cbn; congruence|]).
      * intros [|i] u v Hu Hv; cbn in Hu, Hv; [congruence|eauto].
      * intros i u v Hu Hv. apply (H (S i)); assumption.
    + split; [discriminate|]. intros [_ H]. specialize (H 0%nat x y eq_refl eq_refl). congruence.
Qed.
Print Assumptions C57_vectors.

(** AreEqual is not transitive: 0, 0.6e-10 and 1.2e-10. *)
Theorem C57_transitive_refuted : exists x y z, are_equal x y = true /\ are_equal y z = true /\ are_equal x z = false.
Proof.
  exists (d_ofZ 0), (d_div (d_ofZ 6) (d_ofZ 100000000000)), (d_div (d_ofZ 12) (d_ofZ 100000000000)).
  split; [|split]; vm_compute; reflexivity.
Qed.
Print Assumptions C57_transitive_refuted.

(** ** C58 *)

(** Number of IncreaseDelay calls since the last reset (or construction), going back from the end of the history. *)
Fixpoint increases (rev_history : list delay_op) : nat :=
  match rev_history with
  | [] => 0
  | DReset :: _ => 0
  | DIncrease :: r => S (increases r)
  | DSleep :: r => increases r
  end.
(** The sleeps a user expects: each takes min(10^n, 1000) milliseconds, n as above. *)
Fixpoint expected_sleeps (past todo : list delay_op) : list Z :=
  match todo with
  | [] => []
  | DSleep :: r => Z.min (10 ^ Z.of_nat (increases past)) 1000 :: expected_sleeps (DSleep :: past) r
  | o :: r => expected_sleeps (o :: past) r
  end.

Theorem C58_delays : forall history, delay_run delay_new history = Ok (expected_sleeps [] history).
Proof.
  assert (G : forall todo past, delay_run (MkDelay 1 1000 (Z.min (10 ^ Z.of_nat (increases past)) 1000)) todo = Ok (expected_sleeps past todo)).
  { induction todo as [|o todo IH]; intro past; [reflexivity|]. destruct o; cbn [delay_run delay_step expected_sleeps].
    - cbn [bind fst snd dl_current]. specialize (IH (DSleep :: past)). cbn [increases] in IH. rewrite IH. reflexivity.
    - cbn [dl_current dl_initial dl_maximum]. specialize (IH (DIncrease :: past)). cbn [increases] in IH.
      set (t := 10 ^ Z.of_nat (increases past)) in *. assert (Ht : 1 <= t) by (apply (Z.pow_le_mono_r 10 0); lia).
      replace (10 ^ Z.of_nat (S (increases past))) with (t * 10) in IH.
      2:{ unfold t. rewrite Nat2Z.inj_succ, Z.pow_succ_r by lia. ring. }
      unfold chk_int. assert (Ri : in_int (Z.min t 1000 * 10) = true).
      { unfold in_int, INT_MIN, INT_MAX. apply andb_true_intro. split; apply Z.leb_le; lia. }
      rewrite Ri. cbn [bind fst snd].
      replace (if 1000 <? Z.min t 1000 * 10 then 1000 else Z.min t 1000 * 10) with (Z.min (t * 10) 1000).
      2:{ destruct (Z.ltb_spec 1000 (Z.min t 1000 * 10)); lia. }
      rewrite IH. reflexivity.
    - cbn [dl_current dl_initial dl_maximum bind fst snd]. specialize (IH (DReset :: past)). cbn [increases] in IH.
      change (Z.min (10 ^ Z.of_nat 0) 1000) with 1 in IH. rewrite IH. reflexivity. }
  intro history. apply (G history []).
Qed.
Print Assumptions C58_delays.
Example C58_witness : delay_run delay_new [DSleep; DIncrease; DSleep; DIncrease; DIncrease; DIncrease; DSleep; DReset; DSleep] = Ok [1; 10; 1000; 1].
Proof. reflexivity. Qed.
