(** C60, continued: exactly which objects SetInitialParameters lets through (genetic_algorithm.cpp:184-237). *)
From Coq Require Import Reals Psatz.
From Verif Require Import Base Num Random Params ParamsSpec IntProofs DoubleProofs CompositeProofs Mutators Individual LibEnv GA CounterProofs PropIndividual PropGA.
Local Open Scope list_scope.

(** The four classes of discrete parameters. *)
Inductive class : Type := IntParameter | DoubleParameter | DoubleParametersArray | CompositeDiscreteParameters.
Definition class_of {N} (p : param N) : class :=
  match p with PInt _ _ => IntParameter | PDouble _ _ => DoubleParameter | PArr _ _ => DoubleParametersArray | PComp _ _ _ _ => CompositeDiscreteParameters end.

Lemma same_type_class N p q : p_same_type N p q = true <-> class_of p = class_of q.
Proof. destruct p, q; cbn; split; intro H; congruence. Qed.

Section Initial.
Variable N : Num.
Variable RM : Z.
Variable M : genmut.
Variable ctx : Z -> Z -> gm_st M -> gm_st M.
Variable fuel : nat.
Notation E := (lib_env N RM M ctx fuel).
Notation init := (ga_initialize E (p_same_type N) (p_same_meta N)).

(** [q] is let through as an initial value for [p]. *)
Definition acceptable (p q : param N) : Prop := class_of q = class_of p /\ p_same_meta N q p = Ok true.

Lemma validate_app good bad p : Forall (acceptable p) good ->
  validate_initial E (p_same_type N) (p_same_meta N) (good ++ bad) p = validate_initial E (p_same_type N) (p_same_meta N) bad p.
Proof.
  induction 1 as [|q good [H1 H2] _ IH]; [reflexivity|]. cbn [validate_initial app]. rewrite (proj2 (same_type_class N q p) H1). cbn [negb].
  transitivity (let! b := Ok true in if (b : bool) then validate_initial E (p_same_type N) (p_same_meta N) (good ++ bad) p else Throw InvalidArgument).
  - f_equal. exact H2.
  - exact IH.
Qed.

(** Rejected with std::invalid_argument, before anything random happens or the objective function is called: a wrong number of objects, an object of another class
    or one with other meta-parameters (the first offender decides). *)
Theorem C60_rejected : forall cfg ps p w,
  (length ps <> cf_pop cfg \/ exists good bad rest, ps = good ++ bad :: rest /\ Forall (acceptable p) good /\ (class_of bad <> class_of p \/ p_same_meta N bad p = Ok false)) ->
  forall hash f parse file k,
  ga_optimize E hash f (p_same_type N) (p_same_meta N) cfg (Some ps) parse file k p true w = (Throw InvalidArgument, w).
Proof.
  intros cfg ps p w H hash f parse file k.
  assert (X : init cfg (Some ps) p w = (Throw InvalidArgument, w)).
  { unfold ga_initialize, wbind. change (e_par E) with (param N). destruct (Nat.eqb_spec (length ps) (cf_pop cfg)) as [El|Nl]; cbn [negb]; [|reflexivity].
    destruct H as [H|(good & bad & rest & -> & Hg & Hb)]; [contradiction|].
    unfold wlift at 1. assert (V : validate_initial E (p_same_type N) (p_same_meta N) (good ++ bad :: rest) p = Throw InvalidArgument).
    { rewrite (validate_app good (bad :: rest) p Hg). cbn [validate_initial]. destruct (p_same_type N bad p) eqn:Et; cbn [negb]; [|reflexivity].
      destruct Hb as [Hb|Hb]; [apply same_type_class in Et; contradiction|]. change (e_par E) with (param N). rewrite Hb. reflexivity. }
    rewrite V. reflexivity. }
  unfold ga_optimize. cbn [negb]. unfold wbind at 1. rewrite X. reflexivity.
Qed.

Lemma init_given_ok ps : forall h w is, Forall2 (fun q i => ind_new E q = Ok i) ps is -> init_given E ps h w = (Ok (h ++ is, seq (length h) (length is)), w).
Proof.
  induction ps as [|q ps IH]; intros h w is H; inversion H as [|? i ? is' Hi Hr]; subst.
  - rewrite app_nil_r. reflexivity.
  - cbn [init_given]. unfold wbind at 1, wlift at 1. rewrite Hi. cbn [h_new]. unfold wbind at 1. rewrite (IH (h ++ [i]) w is' Hr).
    unfold wret. cbn [fst snd length seq]. rewrite <- app_assoc, app_length. cbn [length app]. rewrite Nat.add_1_r. reflexivity.
Qed.
Lemma get_seq (l r : list (indiv E)) : forall h, mapM (h_get E (h ++ l ++ r)) (seq (length h) (length l)) = Ok l.
Proof.
  induction l as [|i l IH]; intro h; [reflexivity|]. cbn [length seq mapM]. unfold h_get at 1. rewrite nth_error_app2, Nat.sub_diag by lia. cbn [nth_error app bind].
  specialize (IH (h ++ [i])). rewrite app_length, <- app_assoc in IH. cbn [length app] in IH. rewrite Nat.add_1_r in IH. rewrite IH. reflexivity.
Qed.

(** Accepted: as many objects as individuals, all acceptable. Then the first generation consists of them, in order, nothing random having happened. *)
Theorem C60_accepted : forall cfg ps p w is b,
  length ps = cf_pop cfg -> Forall (acceptable p) ps -> Forall2 (fun q i => ind_new E q = Ok i) ps is -> ind_new E p = Ok b ->
  exists h pop best, init cfg (Some ps) p w = (Ok (h, pop, best), w) /\ mapM (h_get E h) pop = Ok is /\ h_get E h best = Ok b /\ NoDup (best :: pop).
Proof.
  intros cfg ps p w is b Hl Ha Hi Hb. exists (is ++ [b]), (seq 0 (length is)), (length is). split; [|split; [|split]].
  - unfold ga_initialize, wbind at 1. change (e_par E) with (param N). rewrite (proj2 (Nat.eqb_eq _ _) Hl). cbn [negb]. unfold wbind at 1. unfold wlift at 1.
    assert (V := validate_app ps [] p Ha). rewrite app_nil_r in V. cbn [validate_initial] in V. rewrite V. rewrite (init_given_ok ps [] w is Hi).
    unfold wbind at 1, wlift at 1. rewrite Hb. unfold h_new. cbn [fst snd app length]. reflexivity.
  - apply (get_seq is [b] []).
  - unfold h_get. rewrite nth_error_app2, Nat.sub_diag by lia. reflexivity.
  - constructor; [rewrite in_seq; lia|apply seq_NoDup].
Qed.
End Initial.
Print Assumptions C60_rejected.
Print Assumptions C60_accepted.

(** What the meta-parameters are: the bounds of an IntParameter; bounds and number of steps of a DoubleParameter, hence bounds and chromosome size; for an array also
    the number of values. (Exact arithmetic.) *)
Lemma dp_make_inv v mn mx p d : dp_make RNum v mn mx p = Ok d ->
  (mn < mx)%R /\ exists k i, d = MkDouble RNum (Some (MkInt i 0 (2 ^ Z.of_nat k) (Some k))) mn mx ((mx - mn) / 2 ^ k) (Some k).
Proof.
  intro H. unfold dp_make in H. destruct (n_leb RNum mx mn) eqn:El; [discriminate|]. cbn [n_leb RNum] in El. apply R_leb_false in El. split; [exact El|].
  destruct (negb _); [discriminate|]. apply bind_ok in H as (m & Hm & H). apply bind_ok in H as (best & Hb & H).
  destruct (Z.le_gt_cases m (2 ^ 30)) as [Lm|Lm]; [|rewrite (count_best_ub m) in Hb by lia; discriminate].
  destruct (count_best_ok m Lm) as (k & Hk & Hk30 & _). rewrite Hk in Hb. injection Hb as <-.
  rewrite ip_make2_pow2 in H by exact Hk30. cbn [bind] in H. apply bind_ok in H as (i & Hi & H). injection H as <-. exists k, i. cbn [n_div n_sub n_ofZ RNum ip_size ip_set_value ip_min ip_max]. rewrite IZR_pow2. reflexivity.
Qed.
Lemma pow2R_inj a b : (2 ^ a = 2 ^ b)%R -> a = b.
Proof. rewrite <- !IZR_pow2. intro H. apply eq_IZR in H. destruct (Nat.lt_trichotomy a b) as [L|[L|L]]; [|exact L|]; [assert (2 ^ Z.of_nat a < 2 ^ Z.of_nat b)%Z by (apply Z.pow_lt_mono_r; lia)|assert (2 ^ Z.of_nat b < 2 ^ Z.of_nat a)%Z by (apply Z.pow_lt_mono_r; lia)]; lia. Qed.

Lemma dp_meta v mn mx p d v' mn' mx' p' e : dp_make RNum v mn mx p = Ok d -> dp_make RNum v' mn' mx' p' = Ok e ->
  exists b, dp_same_meta RNum d e = Ok b /\ (b = true <-> mn = mn' /\ mx = mx' /\ dp_size RNum d = dp_size RNum e).
Proof.
  intros Hd He. destruct (dp_make_inv _ _ _ _ _ Hd) as (L & k & i & ->). destruct (dp_make_inv _ _ _ _ _ He) as (L' & k' & i' & ->).
  unfold dp_same_meta. cbn [dp_min dp_max dp_prec dp_base dp_size n_eqb RNum].
  destruct (R_eqb mx mx') eqn:E1; cbn [andb].
  2:{ exists false. split; [reflexivity|]. split; [discriminate|]. intros (_ & -> & _). rewrite (proj2 (R_eqb_true mx' mx') eq_refl) in E1. discriminate. }
  destruct (R_eqb mn mn') eqn:E2; cbn [andb].
  2:{ exists false. split; [reflexivity|]. split; [discriminate|]. intros (-> & _ & _). rewrite (proj2 (R_eqb_true mn' mn') eq_refl) in E2. discriminate. }
  apply R_eqb_true in E1, E2. subst mx' mn'.
  destruct (R_eqb ((mx - mn) / 2 ^ k) ((mx - mn) / 2 ^ k')) eqn:E3.
  - apply R_eqb_true in E3. assert (k = k') as <-.
    { apply pow2R_inj. pose proof (pow2R_pos k). pose proof (pow2R_pos k'). apply (f_equal Rinv) in E3. unfold Rdiv in E3. rewrite !Rinv_mult, !Rinv_inv in E3. apply Rmult_eq_reg_l in E3; [exact E3|apply Rinv_neq_0_compat; lra]. }
    unfold ip_same_meta. cbn [ip_min ip_max]. rewrite !Z.eqb_refl. exists true. split; [reflexivity|]. split; auto.
  - exists false. split; [reflexivity|]. split; [discriminate|]. intros (_ & _ & H). injection H as <-. rewrite (proj2 (R_eqb_true _ _) eq_refl) in E3. discriminate.
Qed.
Theorem C60_declarations :
  (forall v mn mx p v' mn' mx' q, ip_make v mn mx = Ok p -> ip_make v' mn' mx' = Ok q ->
     exists b, p_same_meta RNum (PInt RNum p) (PInt RNum q) = Ok b /\ (b = true <-> mn = mn' /\ mx = mx')) /\
  (forall v mn mx pr d v' mn' mx' pr' e, dp_make RNum v mn mx pr = Ok d -> dp_make RNum v' mn' mx' pr' = Ok e ->
     exists b, p_same_meta RNum (PDouble RNum d) (PDouble RNum e) = Ok b /\ (b = true <-> mn = mn' /\ mx = mx' /\ p_size RNum (PDouble RNum d) = p_size RNum (PDouble RNum e))) /\
  (forall mn mx pr n a mn' mx' pr' n' a', da_make RNum mn mx pr n = Ok a -> da_make RNum mn' mx' pr' n' = Ok a' ->
     exists b, p_same_meta RNum (PArr RNum a) (PArr RNum a') = Ok b /\
       (b = true <-> mn = mn' /\ mx = mx' /\ n = n' /\ dp_size RNum (da_sample RNum a) = dp_size RNum (da_sample RNum a'))).
Proof.
  split; [|split].
  - intros v mn mx p v' mn' mx' q Hp Hq. unfold ip_make in Hp, Hq. apply bind_ok in Hp as (k & _ & Hp). apply bind_ok in Hq as (k' & _ & Hq). injection Hp as <-. injection Hq as <-.
    cbn [p_same_meta]. eexists. split; [reflexivity|]. unfold ip_same_meta. cbn [ip_min ip_max]. rewrite Bool.andb_true_iff, !Z.eqb_eq. tauto.
  - intros v mn mx pr d v' mn' mx' pr' e Hd He. cbn [p_same_meta p_size]. destruct (dp_meta _ _ _ _ _ _ _ _ _ _ Hd He) as (b & H1 & H2). exists b. split; [exact H1|]. rewrite H2.
    destruct (dp_make_inv _ _ _ _ _ Hd) as (_ & k & i & ->). destruct (dp_make_inv _ _ _ _ _ He) as (_ & k' & i' & ->). cbn. split; intros (A & B & C); repeat split; auto; congruence.
  - intros mn mx pr n a mn' mx' pr' n' a' Ha Ha'. unfold da_make in Ha, Ha'. apply bind_ok in Ha as (s & Hs & Ha). apply bind_ok in Ha' as (s' & Hs' & Ha').
    apply bind_ok in Ha as (k & Hk & Ha). apply bind_ok in Ha' as (k' & Hk' & Ha'). injection Ha as <-. injection Ha' as <-. cbn [p_same_meta da_sample da_values]. unfold da_same_meta. cbn [da_values da_sample]. rewrite !repeat_length.
    destruct (dp_meta _ _ _ _ _ _ _ _ _ _ Hs Hs') as (b & H1 & H2). destruct (Nat.eqb_spec n n') as [->|Nn].
    + exists b. split; [exact H1|]. rewrite H2. tauto.
    + exists false. split; [reflexivity|]. split; [discriminate|]. intros (_ & _ & H & _). contradiction.
Qed.
Print Assumptions C60_declarations.

(** Two IntParameters 0..4 accepted for a 0..4 problem and encoded; a 0..5 one and a parameter of another class are not. *)
Definition i04 (v : Z) : param RNum := PInt RNum (MkInt v 0 4 (Some 2%nat)).
Definition i05 : param RNum := PInt RNum (MkInt 1 0 5 (Some 3%nat)).
Theorem C60_initial_witness : acceptable RNum (i04 0) (i04 3) /\ acceptable RNum (i04 0) (i04 1) /\ p_same_meta RNum i05 (i04 0) = Ok false /\
  class_of (PComp RNum None false []) <> class_of (i04 0) /\
  forall RM M ctx fuel, exists i, ind_new (lib_env RNum RM M ctx fuel) (i04 3) = Ok i /\ i_chr _ i = [true; true].
Proof. repeat split; try discriminate. intros. eexists. split; reflexivity. Qed.
