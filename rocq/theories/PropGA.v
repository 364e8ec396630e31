(** C23-C26: the genetic algorithm. *)
From Coq Require Import Permutation Reals.
From Flocq Require Import IEEE754.BinarySingleNaN.
From Verif Require Import Base Num DblOrder Random Params ParamsSpec CompositeProofs Mutators Cache CacheProofs Individual LibEnv GA CounterProofs
  PropIndividual PropText GAProofs GAInit.
Local Open Scope Z_scope.
Local Open Scope list_scope.

(** ** C23 *)
Theorem C23_create : forall pop elit gens mutator stop,
  (ga_create pop elit gens mutator stop = None <-> (pop <= 0 \/ Z.odd pop = true \/ gens <= 0 \/ mutator = false)) /\
  (forall c, ga_create pop elit gens mutator stop = Some c ->
     Z.of_nat (cf_pop c) = pop /\ cf_elit c = elit /\ cf_gens c = gens /\ cf_stop c = stop) /\
  (ga_create pop elit gens mutator stop = None <-> ga_construct pop elit gens mutator stop = Throw InvalidArgument).
Proof.
  intros pop elit gens mutator stop.
  assert (Ho : (Z.rem pop 2 =? 0) = negb (Z.odd pop)).
  { destruct (Z.eqb_spec (Z.rem pop 2) 0) as [Hr|Hr].
    - apply Z.rem_divide in Hr as [k ->]; [|lia]. rewrite Z.odd_mul. cbn. rewrite andb_false_r. reflexivity.
    - destruct (Z.odd pop) eqn:O; [reflexivity|]. exfalso. apply Hr. apply Z.rem_divide; [lia|].
      rewrite <- Z.negb_even in O. apply negb_false_iff in O. apply Z.even_spec in O as [k ->]. exists k. lia. }
  unfold ga_create, ga_construct. rewrite Ho, negb_involutive.
  destruct (Z.odd pop); [split; [tauto|split; [discriminate|tauto]]|].
  destruct (Z.leb_spec pop 0); [split; [tauto|split; [discriminate|tauto]]|].
  destruct (Z.leb_spec gens 0); [split; [tauto|split; [discriminate|tauto]]|].
  destruct mutator; cbn [negb]; [|split; [tauto|split; [discriminate|tauto]]].
  split; [split; [discriminate|intros [X|[X|[X|X]]]; try discriminate; lia]|]. split; [|split; discriminate].
  intros c X. injection X as <-. cbn. split; [lia|auto].
Qed.
Print Assumptions C23_create.
Example C23_witness : exists c, ga_create 100 5 1000 true (d_ofZ 1) = Some c.
Proof. eexists. reflexivity. Qed.

(** ** C24, C25 *)

Section Runs.
Variable E : env.
Variable good : e_par E -> Prop.
Hypothesis L : lawful E good.
Variable hash : list bool -> Z.
Variable f : e_par E -> outcome dbl.
Variable same_type : e_par E -> e_par E -> bool.
Variable same_meta : e_par E -> e_par E -> outcome bool.
Notation indiv := (indiv E).

(** A call of Optimize that returned: everything a caller can vary. [k] is the state of the fitness counter (fresh, or
    left by earlier calls). *)
Variables (cfg : ga_cfg) (initial : option (list (e_par E))) (parse : text -> dbl * text) (file : option text).
Variables (k : counter) (p q : e_par E) (w w' : e_w E) (snaps : list (snap E)) (s : gstate E).
Hypothesis Hcfg : exists a b c d e, ga_create a b c d e = Some cfg.
Hypothesis Hp : good p.
Hypothesis Hps : forall ps, initial = Some ps -> Forall good ps.
Hypothesis Hrun : ga_optimize E hash f same_type same_meta cfg initial parse file k p true w = (Ok (q, snaps, s), w').
Hypothesis Hk : cinv (fun _ _ => True) k.
(** no NaN fitness was met *)
Hypothesis Hnum : numeric E (evaluated E snaps).

Lemma cfg_pos : (0 < cf_pop cfg)%nat /\ 0 < cf_gens cfg.
Proof.
  destruct Hcfg as (a & b & c & d & e & H). pose proof (C23_create a b c d e) as (X & Y & _).
  destruct (Y cfg H) as (Y1 & Y2 & Y3 & Y4).
  assert (Z1 : ~ (a <= 0 \/ Z.odd a = true \/ c <= 0 \/ d = false)) by (rewrite <- X; congruence). lia.
Qed.

Lemma run_facts (strict : Prop) : (strict -> (forall ps, initial = Some ps -> Forall (survives E) ps) \/ file <> None) ->
  (length snaps <= Z.to_nat (cf_gens cfg))%nat /\ snaps <> [] /\
  (forall n sn, nth_error snaps n = Some sn ->
     length (sn_pop E sn) = cf_pop cfg /\
     Forall (fun i => i_has E i = true /\ good (i_par E i) /\ (strict -> sound E good i) /\
        (k_cache k = None -> f (i_par E i) = Ok (i_fit E i))) (sn_pop E sn) /\
     (n <> O -> Forall (sound E good) (sn_pop E sn)) /\
     first_max E (evaluated E (firstn (S n) snaps)) (sn_best E sn) /\
     ((S n < length snaps)%nat -> d_leb (cf_stop cfg) (i_fit E (sn_best E sn)) = false) /\
     (S n = length snaps -> (length snaps < Z.to_nat (cf_gens cfg))%nat -> d_leb (cf_stop cfg) (i_fit E (sn_best E sn)) = true) /\
     (S n = length snaps -> e_dec E p (i_chr E (sn_best E sn)) = (q, Ok tt))) /\
  cinv (fun _ _ => True) (g_counter E s).
Proof.
  intro Hs. destruct cfg_pos as [C1 C2].
  destruct (optimize_start E good L hash f same_type same_meta cfg initial parse file k p w q snaps s w' strict (fun _ _ => True)
    Hp Hps Hrun Hs Hk) as (s0 & w0 & w1 & I & Ek & R & b & Hb & D).
  destruct (run_spec E hash f good (lw_dec _ _ L) (lw_cln _ _ L) (lw_idem _ _ L)
    (fun l Hl => proj1 (lw_sort _ _ L l Hl)) (fun i => strict -> sound E good i) (fun _ _ => True)
    ltac:(cbn; auto) ltac:(cbn; auto) ltac:(cbn; auto) cfg _ _ _ _ _ _ _ _ (cf_pop cfg) C1 R I Hnum) as (R1 & R2 & R3 & R4).
  split; [exact R1|]. split; [apply R2; lia|]. split; [|exact R4].
  intros n sn Hsn. destruct (R3 n sn Hsn) as (A1 & A2 & A3 & A4 & A5 & A6 & A7).
  split; [exact A1|]. split; [eapply Forall_impl; [|exact A2]; cbn; rewrite Ek; intros i; tauto|]. split; [exact A3|]. split; [exact A4|].
  split; [exact A5|]. split; [exact A6|]. intro El. destruct (A7 El) as (b' & Hb' & Al). rewrite Hb in Hb'. injection Hb' as <-.
  destruct Al as (_ & Al & _). rewrite <- Al. exact D.
Qed.

(** After every generation, the best individual kept is the first one of greatest fitness among all individuals
    evaluated so far in this run; its fitness never decreases; the parameter object handed in ends up with what its
    chromosome decodes to. *)
Theorem C24_best_ever :
  (forall n sn, nth_error snaps n = Some sn -> first_max E (evaluated E (firstn (S n) snaps)) (sn_best E sn)) /\
  (forall n sn i, nth_error snaps n = Some sn -> In i (evaluated E (firstn (S n) snaps)) ->
     d_ltb (i_fit E (sn_best E sn)) (i_fit E i) = false) /\
  (forall m n sm sn, (m <= n)%nat -> nth_error snaps m = Some sm -> nth_error snaps n = Some sn ->
     d_ltb (i_fit E (sn_best E sn)) (i_fit E (sn_best E sm)) = false) /\
  (exists sn, nth_error snaps (length snaps - 1) = Some sn /\ e_dec E p (i_chr E (sn_best E sn)) = (q, Ok tt)).
Proof.
  destruct (run_facts False ltac:(tauto)) as (R1 & R2 & R3 & _).
  assert (Max : forall n sn i, nth_error snaps n = Some sn -> In i (evaluated E (firstn (S n) snaps)) ->
     d_ltb (i_fit E (sn_best E sn)) (i_fit E i) = false).
  { intros n sn i Hn Hi. destruct (R3 n sn Hn) as (_ & _ & _ & (pre & m & post & Ep & A & _ & F1 & F2) & _).
    rewrite Ep in Hi. apply in_app_or in Hi as [Hi|[<-|Hi]].
    - rewrite Forall_forall in F1. specialize (F1 i Hi). unfold fitness_lt in F1.
      destruct (d_ltb (i_fit E (sn_best E sn)) (i_fit E i)) eqn:Q; [|reflexivity].
      pose proof (d_ltb_trans _ _ _ F1 Q) as T. rewrite d_ltb_irrefl in T. discriminate.
    - destruct A as (_ & _ & _ & ->). apply d_ltb_irrefl.
    - rewrite Forall_forall in F2. specialize (F2 i Hi). unfold fitness_lt in F2. destruct (d_ltb _ _); congruence. }
  split; [intros n sn Hn; apply (R3 n sn Hn)|]. split; [exact Max|]. split.
  - intros m n sm sn Hmn Hm Hn. destruct (R3 m sm Hm) as (_ & _ & _ & (pre & x & post & Ep & A & _) & _).
    destruct A as (_ & _ & _ & A). rewrite A. apply (Max n sn x Hn).
    assert (Hx : In x (evaluated E (firstn (S m) snaps))) by (rewrite Ep; apply in_or_app; right; left; reflexivity).
    unfold evaluated in *. apply in_concat in Hx as (l & Hl & Hx). apply in_concat. exists l. split; [|exact Hx].
    apply in_map_iff in Hl as (sx & <- & Hl). apply in_map.
    replace (S n) with (S m + (n - m))%nat by lia. rewrite <- (firstn_skipn (S m) (firstn (S m + (n - m)) snaps)).
    apply in_or_app. left. rewrite firstn_firstn. replace (Nat.min (S m) (S m + (n - m))) with (S m) by lia. exact Hl.
  - destruct (nth_error snaps (length snaps - 1)) as [sn|] eqn:Hn.
    + exists sn. split; [reflexivity|]. assert (length snaps <> O) by (intro Z0; apply R2; destruct snaps; [reflexivity|discriminate]).
      apply (R3 _ sn Hn). lia.
    + exfalso. apply nth_error_None in Hn. apply R2. destruct snaps; [reflexivity|cbn in Hn; lia].
Qed.

(** Every generation holds population_size individuals; all of them satisfy the constraints and are in step with their
    chromosomes, in the first generation only when it was drawn at random or read from a file; there are between one and
    max_generations generations, and the run stops before that exactly when the best fitness reaches the criterion. *)
Theorem C25_population :
  (1 <= length snaps <= Z.to_nat (cf_gens cfg))%nat /\
  (forall n sn, nth_error snaps n = Some sn ->
     length (sn_pop E sn) = cf_pop cfg /\
     ((n <> O \/ (forall ps, initial = Some ps -> Forall (survives E) ps) \/ file <> None) ->
        Forall (fun i => e_chk E (i_par E i) = Ok true /\ e_dec E (i_par E i) (i_chr E i) = (i_par E i, Ok tt)) (sn_pop E sn))) /\
  (forall n sn, nth_error snaps n = Some sn -> (n < length snaps - 1)%nat -> d_leb (cf_stop cfg) (i_fit E (sn_best E sn)) = false) /\
  ((length snaps < Z.to_nat (cf_gens cfg))%nat ->
     exists sn, nth_error snaps (length snaps - 1) = Some sn /\ d_leb (cf_stop cfg) (i_fit E (sn_best E sn)) = true).
Proof.
  destruct (run_facts ((forall ps, initial = Some ps -> Forall (survives E) ps) \/ file <> None) ltac:(tauto)) as (R1 & R2 & R3 & _).
  assert (N0 : length snaps <> O) by (intro Z0; apply R2; destruct snaps; [reflexivity|discriminate]).
  split; [lia|]. split; [|split].
  - intros n sn Hn. destruct (R3 n sn Hn) as (A1 & A2 & A3 & _). split; [exact A1|]. intro Hc.
    destruct n as [|n]; [|eapply Forall_impl; [|apply A3; discriminate]; intros i (G & S & V); auto].
    eapply Forall_impl; [|exact A2]. cbn. intros i (_ & _ & S & _). destruct S as (G & S & V); [destruct Hc as [Hc|Hc]; [contradiction|exact Hc]|]. auto.
  - intros n sn Hn Hl. apply (R3 n sn Hn). lia.
  - intro Hl. destruct (nth_error snaps (length snaps - 1)) as [sn|] eqn:Hn.
    + exists sn. split; [reflexivity|]. apply (R3 _ sn Hn); [lia|exact Hl].
    + exfalso. apply nth_error_None in Hn. lia.
Qed.
End Runs.
Print Assumptions C24_best_ever.
Print Assumptions C25_population.

(** Coherence of the fitness cache with a function: what is stored under the key of a chromosome that decodes is the
    function's value of the decoded parameters. *)
Definition coherent (E : env) (hash : list bool -> Z) (f : e_par E -> outcome dbl) (p : e_par E) (k : counter) : Prop :=
  cinv (fun key v => forall c r, e_dec E p c = (r, Ok tt) -> hash c = key -> f r = Ok v) k.
(** No two chromosomes of this parameter kind share a cache key. *)
Definition no_collision (E : env) (hash : list bool -> Z) (p : e_par E) : Prop :=
  forall c c' r r', e_dec E p c = (r, Ok tt) -> e_dec E p c' = (r', Ok tt) -> hash c = hash c' -> c = c'.

(** With a first population drawn at random (or read from a file), without a cache or with a cache that has no colliding
    keys and only values of this very function: the parameters returned satisfy the constraints and the objective value
    they have is the greatest one met; every individual carried the value of its own parameters. *)
Theorem C24_returned_is_best : forall E good, lawful E good ->
  forall hash f same_type same_meta cfg initial parse file k p q w w' snaps s,
  (exists a b c d e, ga_create a b c d e = Some cfg) -> good p -> ((forall ps, initial = Some ps -> Forall (survives E) ps) \/ file <> None) ->
  (forall ps, initial = Some ps -> Forall good ps /\ Forall (akin E p) ps) ->
  ga_optimize E hash f same_type same_meta cfg initial parse file k p true w = (Ok (q, snaps, s), w') ->
  numeric E (evaluated E snaps) ->
  (k_cache k = None \/ (no_collision E hash p /\ coherent E hash f p k)) ->
  (forall i, In i (evaluated E snaps) -> f (i_par E i) = Ok (i_fit E i)) /\
  e_chk E q = Ok true /\
  (exists v, f q = Ok v /\ forall i, In i (evaluated E snaps) -> d_ltb v (i_fit E i) = false) /\
  (k_cache k <> None -> coherent E hash f p (g_counter E s)).
Proof.
  intros E good L0 hash f same_type same_meta cfg initial parse file k p q w w' snaps s Hcfg Hp Hi Hps Hrun Hnum Hk.
  pose proof (lawful_akin E good L0 p Hp) as L. set (gd := fun x => good x /\ akin E p x) in *.
  assert (Gp : gd p) by (split; [exact Hp|intros c r; reflexivity]).
  assert (Gps : forall ps, initial = Some ps -> Forall gd ps).
  { intros ps Ei. destruct (Hps ps Ei) as [A B]. rewrite Forall_forall in *. intros x Hx. split; auto. }
  set (P := fun key v => no_collision E hash p -> forall c r, e_dec E p c = (r, Ok tt) -> hash c = key -> f r = Ok v).
  assert (HkP : cinv P k).
  { destruct Hk as [Hk|[_ Hk]]; unfold cinv; [rewrite Hk; exact I|]. unfold coherent, cinv in Hk. destruct (k_cache k); [|exact I].
    destruct Hk as [A B]. split; [exact A|]. intros key s0 v A1 A2 _. apply (B key s0 v A1 A2). }
  destruct (optimize_start E gd L hash f same_type same_meta cfg initial parse file k p w q snaps s w' True P
    Gp Gps Hrun ltac:(auto) HkP) as (s0 & w0 & w1 & I & Ek & R & b & Hb & D).
  destruct (cfg_pos cfg Hcfg) as [C1 C2].
  assert (PE : forall i v, gd (i_par E i) -> (True -> sound E gd i) -> f (i_par E i) = Ok v -> P (hash (i_chr E i)) v).
  { intros i v [_ A] S Hf NC c r Dc Hh. destruct (S Logic.I) as (_ & St & _). unfold in_step in St. apply A in St.
    pose proof (NC c _ r _ Dc St Hh) as ->. rewrite St in Dc. injection Dc as <-. exact Hf. }
  destruct (run_spec E hash f gd (lw_dec _ _ L) (lw_cln _ _ L) (lw_idem _ _ L)
    (fun l Hl => proj1 (lw_sort _ _ L l Hl)) (fun i => True -> sound E gd i) P
    ltac:(cbn; auto) ltac:(cbn; auto) PE cfg _ _ _ _ _ _ _ _ (cf_pop cfg) C1 R I Hnum) as (R1 & R2 & R3 & R4).
  assert (N0 : snaps <> []) by (apply R2; lia).
  assert (Own : forall n sn i, nth_error snaps n = Some sn -> In i (sn_pop E sn) ->
     f (i_par E i) = Ok (i_fit E i) /\ sound E gd i).
  { intros n sn i Hn Hin. destruct (R3 n sn Hn) as (_ & A2 & _). rewrite Forall_forall in A2. specialize (A2 i Hin). cbn in A2.
    destruct A2 as (_ & [_ Ak] & S & Pi & Hn2). specialize (S Logic.I). split; [|exact S].
    destruct Hk as [Hk|[NC _]]; [apply Hn2; rewrite Ek; exact Hk|]. destruct S as (_ & St & _). unfold in_step in St. apply Ak in St.
    exact (Pi NC _ _ St eq_refl). }
  assert (Own2 : forall i, In i (evaluated E snaps) -> f (i_par E i) = Ok (i_fit E i) /\ sound E gd i).
  { intros i Hin. unfold evaluated in Hin. apply in_concat in Hin as (l & Hl & Hin). apply in_map_iff in Hl as (sn & <- & Hl).
    apply In_nth_error in Hl as [n Hn]. eapply Own; eauto. }
  split; [intros i Hin; apply Own2; exact Hin|].
  assert (Hlast : exists sn, nth_error snaps (length snaps - 1) = Some sn).
  { destruct (nth_error snaps (length snaps - 1)) eqn:Hn; [eauto|]. exfalso. apply nth_error_None in Hn. apply N0. destruct snaps; [reflexivity|cbn in Hn; lia]. }
  destruct Hlast as (sn & Hsn). assert (Ln : S (length snaps - 1) = length snaps) by (destruct snaps; [contradiction|cbn; lia]).
  destruct (R3 _ sn Hsn) as (_ & _ & _ & (pre & m & post & Ep & A & Hh & F1 & F2) & _ & _ & A7). cbn [app] in Ep.
  destruct (A7 Ln) as (b' & Hb' & Al). rewrite Hb in Hb'. injection Hb' as <-.
  rewrite Ln, firstn_all in Ep.
  assert (Hm : In m (evaluated E snaps)) by (rewrite Ep; apply in_or_app; right; left; reflexivity).
  destruct (Own2 m Hm) as [Fm ((Gm & Akm) & Sm & Vm)].
  assert (Ab : alike E m b) by (eapply alike_trans; eauto). destruct Ab as (Ab1 & Ab2 & _ & Ab4).
  assert (Eq : q = i_par E m).
  { unfold in_step in Sm. apply Akm in Sm. rewrite Ab2 in D. rewrite D in Sm. injection Sm as ->. reflexivity. }
  split; [rewrite Eq; exact Vm|]. split.
  - exists (i_fit E m). split; [rewrite Eq; exact Fm|]. intros i Hin.
    assert (Q : i_fit E m = i_fit E (sn_best E sn)) by (destruct A as (_ & _ & _ & A); congruence). rewrite Q.
    rewrite Ep in Hin. apply in_app_or in Hin as [Hin|[<-|Hin]].
    + rewrite Forall_forall in F1. specialize (F1 i Hin). unfold fitness_lt in F1.
      destruct (d_ltb (i_fit E (sn_best E sn)) (i_fit E i)) eqn:Q2; [|reflexivity].
      pose proof (d_ltb_trans _ _ _ F1 Q2) as T. rewrite d_ltb_irrefl in T. discriminate.
    + rewrite Q. apply d_ltb_irrefl.
    + rewrite Forall_forall in F2. specialize (F2 i Hin). unfold fitness_lt in F2. destruct (d_ltb _ _); congruence.
  - intro Hc. destruct Hk as [Hk|[NC _]]; [contradiction|]. unfold coherent, cinv in *. destruct (k_cache (g_counter E s)); [|exact Logic.I].
    destruct R4 as [A1 A2]. split; [exact A1|]. intros key s1 v B1 B2. exact (A2 key s1 v B1 B2 NC).
Qed.
Print Assumptions C24_returned_is_best.

(** For the library's own classes: any arithmetic, any parameter object as constructors and calls leave it, any gene
    mutator, any rand() stream; first population random, no cache. *)
Theorem C24_library : forall N RM M ctx fuel hash f same_type same_meta cfg parse p q w w' snaps s,
  let E := lib_env N RM M ctx fuel in
  (exists a b c d e, ga_create a b c d e = Some cfg) -> wf_param N p ->
  ga_optimize E hash f same_type same_meta cfg None parse None (MkCounter None 0 0) p true w = (Ok (q, snaps, s), w') ->
  numeric E (evaluated E snaps) ->
  p_check N q = Ok true /\
  exists v, f q = Ok v /\
    (forall i, In i (evaluated E snaps) -> f (i_par E i) = Ok (i_fit E i) /\ d_ltb v (i_fit E i) = false).
Proof.
  intros N RM M ctx fuel hash f same_type same_meta cfg parse p q w w' snaps s E Hcfg Hw Hrun Hnum.
  destruct (C24_returned_is_best E (wf_param N) (lib_lawful N RM M ctx fuel) hash f same_type same_meta cfg None parse None (MkCounter None 0 0) p q w w' snaps s
    Hcfg Hw ltac:(left; discriminate) ltac:(discriminate) Hrun Hnum ltac:(left; reflexivity)) as (A & B & (v & C & D) & _).
  split; [exact B|]. exists v. split; [exact C|]. auto.
Qed.
Print Assumptions C24_library.

(** SetInitialParameters breaks it: with the valid initial value 4 of IntParameter(4,0,4), whose chromosome cannot hold
    it, the best fitness met is 4 and the value returned is 0. The same run shows that the individual with the best
    fitness is not the one returned. *)
Definition int_of (N : Num) (p : param N) : Z := match p with PInt _ i => ip_value i | _ => 0 end.
Definition int_objective (N : Num) (p : param N) : outcome dbl := Ok (d_ofZ (int_of N p)).
Definition p4 : param RNum := PInt RNum {| ip_value := 4; ip_min := 0; ip_max := 4; ip_size := Some 2%nat |}.
Theorem C24_initial_parameters_refuted : forall RM fuel hash w, let E := flip_env RNum RM fuel in
  let cfg := MkCfg 2 0 1 (d_ofZ 3) in
  p_check RNum p4 = Ok true /\ set_initial E cfg [p4; p4] = Ok [p4; p4] /\
  exists q snaps s sn, ga_optimize E hash (int_objective RNum) (p_same_type RNum) (p_same_meta RNum) cfg (Some [p4; p4]) (fun t => (d_ofZ 0, t)) None
      (MkCounter None 0 0) p4 true w = (Ok (q, snaps, s), w) /\ snaps = [sn] /\
    i_fit E (sn_best E sn) = d_ofZ 4 /\ int_objective RNum q = Ok (d_ofZ 0) /\ d_ltb (d_ofZ 0) (d_ofZ 4) = true.
Proof.
  intros RM fuel hash w E cfg. split; [reflexivity|]. split; [reflexivity|].
  assert (L34 : d_leb (d_ofZ 3) (d_ofZ 4) = true) by (vm_compute; reflexivity).
  assert (L40 : d_ltb (d_ofZ 4) (d_ofZ 0) = false) by (vm_compute; reflexivity).
  assert (L44 : d_ltb (d_ofZ 4) (d_ofZ 4) = false) by (vm_compute; reflexivity).
  set (i0 := MkInd E p4 [false; false] false (d_ofZ 0) 0). set (i1 := MkInd E p4 [false; false] true (d_ofZ 4) 0).
  assert (New : ind_new E p4 = Ok i0) by reflexivity.
  assert (Init : ga_initialize E (p_same_type RNum) (p_same_meta RNum) cfg (Some [p4; p4]) p4 w = (Ok ([i0; i0; i0], [0%nat; 1%nat], 2%nat), w)) by reflexivity.
  assert (Set_ : set_fitness E i0 (d_ofZ 4) = Ok i1) by (unfold set_fitness; rewrite L40; reflexivity).
  assert (Obt : obtain_fitness E hash (int_objective RNum) [i0; i0; i0] (MkCounter None 0 0) [0%nat; 1%nat] = Ok ([i1; i1; i0], MkCounter None 0 2)).
  { unfold obtain_fitness. cbn [process_population h_get nth_error bind k_cache fst snd]. 
    assert (CV : count_values E (int_objective RNum) [i0; i0; i0] [0%nat; 1%nat] = Ok [d_ofZ 4; d_ofZ 4]) by reflexivity.
    rewrite CV. cbn [bind assign_fitness h_get nth_error]. rewrite Set_. cbn [bind h_set upd h_get nth_error]. rewrite Set_. reflexivity. }
  assert (Upd : update_best E [i1; i1; i0] [0%nat; 1%nat] 2 = Ok 0%nat).
  { unfold update_best. cbn [best_of fit_of h_get nth_error bind get_fitness i_has i_fit i1]. rewrite L44. reflexivity. }
  exists (PInt RNum {| ip_value := 0; ip_min := 0; ip_max := 4; ip_size := Some 2%nat |}).
  exists [MkSnap E [i1; i1] i1], (MkG E [i1; i1; i0] [0%nat; 1%nat] 0 (MkCounter None 0 2)), (MkSnap E [i1; i1] i1).
  split; [|split; [reflexivity|split; [reflexivity|split; [reflexivity|vm_compute; reflexivity]]]].
  unfold ga_optimize. cbn [negb]. unfold wbind at 1. rewrite Init. cbv iota beta. unfold wbind at 1, wlift at 1.
  unfold wbind at 1. change (Z.to_nat (cf_gens cfg)) with 1%nat. cbn [run_generations g_heap g_counter g_pop g_best].
  unfold wbind at 1, wlift at 1. rewrite Obt. cbv iota beta. unfold wbind at 1, wlift at 1. rewrite Upd.
  unfold wbind at 1, wlift at 1. cbn [mapM h_get nth_error bind]. unfold wbind at 1, wlift at 1. unfold wbind at 1, wlift at 1.
  cbn [get_fitness i_has i1 i_fit cf_stop cfg]. rewrite L34. reflexivity.
Qed.
Print Assumptions C24_initial_parameters_refuted.

(** The hypotheses of C24_library (hence of C24_best_ever, C25_population) are met: a run of five generations of six
    individuals over IntParameter(0,0,100), with one elite pair. *)
Definition wE := flip_env RNum 32767 50.
Definition w_world : e_w wE := (MkRnd 12345 0 14, (fun n => (Z.of_nat n * Z.of_nat n * 7919 + 12345) mod 32768) : rstream, MkFlip 6 1 0).
Definition w_par : param RNum := PInt RNum {| ip_value := 0; ip_min := 0; ip_max := 100; ip_size := Some 7%nat |}.
Definition w_cfg : ga_cfg := MkCfg 6 1 5 (d_ofZ 1000).
Definition w_run := ga_optimize wE (fun _ => 0) (int_objective RNum) (p_same_type RNum) (p_same_meta RNum) w_cfg None
   (fun t => (d_ofZ 0, t)) None (MkCounter None 0 0) w_par true w_world.
Definition w_ok : bool := match fst w_run with
  | Ok (q, snaps, s) => andb (andb (Nat.eqb (length snaps) 5) (int_of RNum q =? 98)) (forallb (fun i => is_num (i_fit wE i)) (evaluated wE snaps))
  | _ => false end.
Example C24_witness : ga_create 6 1 5 true (d_ofZ 1000) = Some w_cfg /\ wf_param RNum w_par /\
  exists q snaps s w', w_run = (Ok (q, snaps, s), w') /\ numeric wE (evaluated wE snaps) /\ length snaps = 5%nat /\ int_of RNum q = 98.
Proof.
  split; [reflexivity|]. split; [apply wf_int with 7%nat; reflexivity|].
  assert (H : w_ok = true) by (vm_compute; reflexivity). unfold w_ok in H.
  destruct w_run as [[[[q snaps] s]|e|u] w']; cbn [fst] in H; try discriminate.
  apply andb_prop in H as [H1 H2]. apply andb_prop in H1 as [H1 H3]. exists q, snaps, s, w'. split; [reflexivity|].
  split; [|split; [apply Nat.eqb_eq; exact H1|apply Z.eqb_eq; exact H3]].
  unfold numeric. apply Forall_forall. intros i Hi. rewrite forallb_forall in H2. apply H2. exact Hi.
Qed.

(** Initial parameters are not checked against their own constraints. *)
Definition p9 : param RNum := PInt RNum {| ip_value := 9; ip_min := 0; ip_max := 3; ip_size := Some 2%nat |}.
Theorem C25_initial_unchecked_refuted : forall RM fuel hash w, let E := flip_env RNum RM fuel in
  let cfg := MkCfg 2 0 1 (d_ofZ 3) in
  ip_make 9 0 3 = Ok {| ip_value := 9; ip_min := 0; ip_max := 3; ip_size := Some 2%nat |} /\ p_check RNum p9 = Ok false /\
  exists q snaps s, ga_optimize E hash (fun _ => Ok (d_ofZ 4)) (p_same_type RNum) (p_same_meta RNum) cfg (Some [p9; p9]) (fun t => (d_ofZ 0, t)) None
      (MkCounter None 0 0) p9 true w = (Ok (q, snaps, s), w) /\
    exists sn i, nth_error snaps 0 = Some sn /\ In i (sn_pop E sn) /\ e_chk E (i_par E i) = Ok false.
Proof.
  intros RM fuel hash w E cfg. split; [reflexivity|]. split; [reflexivity|].
  assert (L34 : d_leb (d_ofZ 3) (d_ofZ 4) = true) by (vm_compute; reflexivity).
  assert (L40 : d_ltb (d_ofZ 4) (d_ofZ 0) = false) by (vm_compute; reflexivity).
  assert (L44 : d_ltb (d_ofZ 4) (d_ofZ 4) = false) by (vm_compute; reflexivity).
  set (f := fun _ : e_par E => Ok (d_ofZ 4)).
  set (i0 := MkInd E p9 [true; false] false (d_ofZ 0) 0). set (i1 := MkInd E p9 [true; false] true (d_ofZ 4) 0).
  assert (New : ind_new E p9 = Ok i0) by reflexivity.
  assert (Init : ga_initialize E (p_same_type RNum) (p_same_meta RNum) cfg (Some [p9; p9]) p9 w = (Ok ([i0; i0; i0], [0%nat; 1%nat], 2%nat), w)) by reflexivity.
  assert (Set_ : set_fitness E i0 (d_ofZ 4) = Ok i1) by (unfold set_fitness; rewrite L40; reflexivity).
  assert (Obt : obtain_fitness E hash f [i0; i0; i0] (MkCounter None 0 0) [0%nat; 1%nat] = Ok ([i1; i1; i0], MkCounter None 0 2)).
  { unfold obtain_fitness. cbn [process_population h_get nth_error bind k_cache fst snd].
    assert (CV : count_values E f [i0; i0; i0] [0%nat; 1%nat] = Ok [d_ofZ 4; d_ofZ 4]) by reflexivity.
    rewrite CV. cbn [bind assign_fitness h_get nth_error]. rewrite Set_. cbn [bind h_set upd h_get nth_error]. rewrite Set_. reflexivity. }
  assert (Upd : update_best E [i1; i1; i0] [0%nat; 1%nat] 2 = Ok 0%nat).
  { unfold update_best. cbn [best_of fit_of h_get nth_error bind get_fitness i_has i_fit i1]. rewrite L44. reflexivity. }
  exists (PInt RNum {| ip_value := 1; ip_min := 0; ip_max := 3; ip_size := Some 2%nat |}).
  exists [MkSnap E [i1; i1] i1], (MkG E [i1; i1; i0] [0%nat; 1%nat] 0 (MkCounter None 0 2)).
  split; [|exists (MkSnap E [i1; i1] i1), i1; split; [reflexivity|split; [left; reflexivity|reflexivity]]].
  unfold ga_optimize. cbn [negb]. unfold wbind at 1. rewrite Init. cbv iota beta. unfold wbind at 1, wlift at 1.
  unfold wbind at 1. change (Z.to_nat (cf_gens cfg)) with 1%nat. cbn [run_generations g_heap g_counter g_pop g_best].
  unfold wbind at 1, wlift at 1. rewrite Obt. cbv iota beta. unfold wbind at 1, wlift at 1. rewrite Upd.
  unfold wbind at 1, wlift at 1. cbn [mapM h_get nth_error bind]. unfold wbind at 1, wlift at 1. unfold wbind at 1, wlift at 1.
  cbn [get_fitness i_has i1 i_fit cf_stop cfg]. rewrite L34. reflexivity.
Qed.
Print Assumptions C25_initial_unchecked_refuted.

(** ** C26 *)

(** GenerateNextPopulation on an evaluated population without NaN: let [order] be the population sorted by decreasing
    fitness. Position n of the new population is a fresh object; when n < 2 * elitism_pairs it is a copy of order[n],
    otherwise a child whose parameters satisfy the constraints. *)
Theorem C26_elitism : forall E good, lawful E good -> forall elit h pop w h' next w' is,
  generate_next E elit h pop w = (Ok (h', next), w') ->
  NoDup pop -> mapM (h_get E h) pop = Ok is ->
  Forall (fun i => good (i_par E i) /\ i_has E i = true /\ is_num (i_fit E i) = true) is ->
  exists order : list nat,
    Permutation order pop /\
    (forall m n a b i j, (m <= n)%nat -> nth_error order m = Some a -> nth_error order n = Some b ->
       nth_error h a = Some i -> nth_error h b = Some j -> d_ltb (i_fit E i) (i_fit E j) = false) /\
    length next = length pop /\ NoDup next /\
    (forall a, In a next -> (length h <= a)%nat) /\
    (forall n a, nth_error next n = Some a -> exists j, nth_error h' a = Some j /\
       (Z.of_nat n < 2 * elit -> exists s i, nth_error order n = Some s /\ nth_error h s = Some i /\
          i_par E j = i_par E i /\ i_chr E j = i_chr E i /\ i_has E j = true /\ i_fit E j = i_fit E i) /\
       (2 * elit <= Z.of_nat n -> e_chk E (i_par E j) = Ok true /\ i_has E j = false)).
Proof.
  intros E good L elit h pop w h' next w' is H Hn V F.
  assert (G : goods E good h pop).
  { intros a Ha. destruct (mapM_in _ _ _ a V Ha) as (n & i & _ & Hi & Hg). apply h_get_ok in Hg. exists i. split; [exact Hg|].
    rewrite Forall_forall in F. apply F. eapply nth_error_In; eauto. }
  assert (Hh : Forall (fun i => i_has E i = true) is) by (eapply Forall_impl; [|exact F]; cbn; tauto).
  pose proof (vals_fits E h pop is V Hh) as Hf.
  assert (Hnum : Forall (fun v => is_num v = true) (map (i_fit E) is)).
  { apply Forall_forall. intros v Hv. apply in_map_iff in Hv as (i & <- & Hi). rewrite Forall_forall in F. apply F, Hi. }
  destruct (generate_spec E good (lw_dec _ _ L) (lw_cln _ _ L) (lw_idem _ _ L) (fun l Hl => proj1 (lw_sort _ _ L l Hl))
    elit h pop w h' next w' _ H G Hf Hnum) as (Pm & X & Ln & Nn & Fresh & Gn & Each).
  set (so := e_sort E (combine (map (i_fit E) is) pop)) in *.
  assert (Hc : Forall (fun x => is_num (fst x) = true) (combine (map (i_fit E) is) pop)).
  { apply Forall_forall. intros [v a] Hin. apply in_combine_l in Hin. rewrite Forall_forall in Hnum. apply Hnum. exact Hin. }
  destruct (lw_sort _ _ L _ Hc) as [Sp Sd]. fold so in Sp, Sd.
  (* each sorted pair carries the fitness of its individual *)
  assert (Car : forall v a, In (v, a) so -> exists i, nth_error h a = Some i /\ v = i_fit E i /\ is_num v = true).
  { intros v a Hin. eapply Permutation_in in Hin; [|exact Sp].
    assert (Hin2 := Hin). apply In_nth_error in Hin as [n Hin].
    assert (exists i, nth_error is n = Some i /\ v = i_fit E i /\ nth_error pop n = Some a) as (i & Hi & Ev & Ha).
    { clear -Hin. revert pop is Hin. induction n as [|n IH]; intros [|b pop] [|i is] Hin; cbn in Hin; try discriminate.
      - injection Hin as <- <-. exists i. auto.
      - apply IH in Hin. exact Hin. }
    exists i. assert (h_get E h a = Ok i) by (apply mapM_ok_nth in V as [_ V]; eapply V; eauto). apply h_get_ok in H0. split; [exact H0|].
    split; [exact Ev|]. rewrite Ev. rewrite Forall_forall in F. apply F. eapply nth_error_In; eauto. }
  assert (Desc : forall d m x y, nth_error so m = Some x -> nth_error so (m + d)%nat = Some y -> d_ltb (fst x) (fst y) = false).
  { induction d as [|d IH]; intros m x y Hx Hy.
    - rewrite Nat.add_0_r in Hy. assert (x = y) by congruence. subst y. apply d_ltb_irrefl.
    - destruct (nth_error so (m + d)) as [z|] eqn:Hz.
      2:{ apply nth_error_None in Hz. assert (m + S d < length so)%nat by (apply nth_error_Some; congruence). lia. }
      pose proof (IH m x z Hx Hz) as A. replace (m + S d)%nat with (S (m + d)) in Hy by lia. pose proof (Sd _ _ _ Hz Hy) as B.
      assert (Nm : forall u, In u so -> is_nan (fst u) = false).
      { intros [v a] Hu. destruct (Car v a Hu) as (_ & _ & _ & Hu2). cbn. unfold is_num in Hu2. apply negb_true_iff in Hu2. exact Hu2. }
      rewrite d_ltb_nkey in A, B |- * by (apply Nm; eapply nth_error_In; eauto). apply Z.ltb_ge in A, B. apply Z.ltb_ge. lia. }
  exists (map snd so). split; [exact Pm|]. split.
  { intros m n a b i j Hmn Ha Hb Hi Hj. rewrite nth_error_map in Ha, Hb.
    destruct (nth_error so m) as [[v a']|] eqn:Hm; cbn in Ha; [|discriminate]. injection Ha as ->.
    destruct (nth_error so n) as [[u b']|] eqn:Hn2; cbn in Hb; [|discriminate]. injection Hb as ->.
    destruct (Car v a (nth_error_In _ _ Hm)) as (i0 & Hi0 & -> & _). destruct (Car u b (nth_error_In _ _ Hn2)) as (j0 & Hj0 & -> & _).
    assert (i0 = i) by congruence. assert (j0 = j) by congruence. subst i0 j0.
    apply (Desc (n - m)%nat m (i_fit E i, a) (i_fit E j, b) Hm). replace (m + (n - m))%nat with n by lia. exact Hn2. }
  split; [exact Ln|]. split; [exact Nn|]. split; [intros a Ha; apply Fresh in Ha; lia|].
  intros n a Ha.
  assert (Ls : length (map snd so) = length pop) by (apply Permutation_length; exact Pm).
  destruct (nth_error (map snd so) n) as [s|] eqn:Hs.
  2:{ apply nth_error_None in Hs. assert (n < length next)%nat by (apply nth_error_Some; congruence). lia. }
  destruct (Each n s Hs) as (a' & j & Ha' & Hj & E1 & E2). rewrite Ha in Ha'. injection Ha' as <-.
  exists j. split; [exact Hj|]. 
  assert (D2 : Z.of_nat n < 2 * elit <-> Z.of_nat (n / 2) < elit).
  { rewrite Nat2Z.inj_div. change (Z.of_nat 2) with 2. pose proof (Z.div_mod (Z.of_nat n) 2 ltac:(lia)). pose proof (Z.mod_pos_bound (Z.of_nat n) 2 ltac:(lia)). lia. }
  split.
  - intro Lt. destruct (E1 (proj1 D2 Lt)) as (i & Hi & A1 & A2 & A3 & A4). exists s, i. split; [reflexivity|]. split; [exact Hi|].
    split; [exact A1|]. split; [exact A2|]. split; [|exact A4]. rewrite A3.
    assert (Hs2 : In s pop) by (eapply Permutation_in; [exact Pm|eapply nth_error_In; eauto]).
    destruct (mapM_in _ _ _ s V Hs2) as (n0 & i0 & _ & Hi0 & Hg). apply h_get_ok in Hg. rewrite Forall_forall in Hh.
    assert (i0 = i) by congruence. subst i0. apply Hh. eapply nth_error_In; eauto.
  - intro Ge. destruct (E2 ltac:(lia)) as [(_ & _ & V2) Hno]. auto.
Qed.
Print Assumptions C26_elitism.

(** The best individual need not survive, even with elitism, because the copies are mutated like the others: in the run of C24_witness (one elite
    pair) there are two consecutive generations such that an individual of the first is strictly fitter than all individuals of the second. *)
Definition worse_step (sn sn' : snap wE) : bool :=
  existsb (fun i => forallb (fun j => d_ltb (i_fit wE j) (i_fit wE i)) (sn_pop wE sn')) (sn_pop wE sn).
Theorem C26_best_lost : cf_elit w_cfg = 1 /\
  exists q snaps s w' n sn sn' i, w_run = (Ok (q, snaps, s), w') /\ nth_error snaps n = Some sn /\ nth_error snaps (S n) = Some sn' /\
    In i (sn_pop wE sn) /\ length (sn_pop wE sn') = 6%nat /\ forall j, In j (sn_pop wE sn') -> d_ltb (i_fit wE j) (i_fit wE i) = true.
Proof.
  split; [reflexivity|].
  assert (H : match fst w_run with Ok (_, sn :: sn' :: _, _) => andb (worse_step sn sn') (Nat.eqb (length (sn_pop wE sn')) 6) | _ => false end = true) by (vm_compute; reflexivity).
  destruct w_run as [[[[q snaps] s]|e|u] w']; cbn [fst] in H; try discriminate.
  destruct snaps as [|sn [|sn' r]]; try discriminate. apply andb_prop in H as [H L]. apply Nat.eqb_eq in L. apply existsb_exists in H as (i & Hi & H). rewrite forallb_forall in H.
  exists q, (sn :: sn' :: r), s, w', 0%nat, sn, sn', i. split; [reflexivity|]. split; [reflexivity|]. split; [reflexivity|]. split; [exact Hi|]. split; [exact L|exact H].
Qed.
Print Assumptions C26_best_lost.

(** ** C60: initial parameters *)

(** Optimize looks at every object given to SetInitialParameters before the first generation: it must be of the same
    class and HasSameMetaParameters must say yes. *)
Theorem C60_validation : forall E same_type same_meta cfg ps p w x w',
  ga_initialize E same_type same_meta cfg (Some ps) p w = (Ok x, w') ->
  length ps = cf_pop cfg /\ forall q, In q ps -> same_type q p = true /\ same_meta q p = Ok true.
Proof.
  intros E same_type same_meta cfg ps p w x w' H. unfold ga_initialize in H. apply wbind_ok in H as (y & w1 & H & _).
  destruct (Nat.eqb_spec (length ps) (cf_pop cfg)) as [El|]; cbn [negb] in H; [|discriminate]. split; [exact El|].
  apply wbind_ok in H as ([] & w2 & H & _). apply wlift_ok in H as [H _]. clear El.
  induction ps as [|r ps IH]; intros q Hq; [destruct Hq|]. cbn in H.
  destruct (same_type r p) eqn:St; cbn in H; [|discriminate]. apply bind_ok in H as (b & Hb & H). destruct b; [|discriminate].
  destruct Hq as [<-|Hq]; auto.
Qed.
Print Assumptions C60_validation.

(** what the caller can read from a parameter object *)
Definition reading (p : param RNum) : list (outcome R) :=
  match p with
  | PInt _ i => [Ok (IZR (ip_value i))]
  | PDouble _ d => [dp_get_value RNum d]
  | PArr _ a => map Ok (da_values RNum a)
  | PComp _ _ _ _ => []
  end.

(** Objects accepted as having the same meta-parameters have the same chromosome size and give every chromosome the same
    meaning: both decode it, to the same values, or both fail (exact arithmetic). *)
Theorem C60_same_meta_same_meaning : forall p q, wf_param RNum p -> wf_param RNum q -> p_same_meta RNum p q = Ok true ->
  p_size RNum p = p_size RNum q /\
  forall c, match p_set_from RNum p c, p_set_from RNum q c with
            | (r, Ok _), (r', Ok _) => reading r = reading r'
            | (_, Ok _), _ | _, (_, Ok _) => False
            | _, _ => True
            end.
Proof.
  assert (IP : forall p q, (exists k, count_chromosome_size (ip_min p) (ip_max p) = Ok k /\ ip_size p = Some k) ->
    (exists k, count_chromosome_size (ip_min q) (ip_max q) = Ok k /\ ip_size q = Some k) -> ip_same_meta p q = true ->
    exists v, p = ip_set_value q v).
  { intros p q (k & K1 & K2) (k' & K3 & K4) H. unfold ip_same_meta in H. apply andb_prop in H as [H1 H2]. apply Z.eqb_eq in H1, H2.
    exists (ip_value p). destruct p as [v mn mx sz], q as [v' mn' mx' sz']. cbn in *. subst mn' mx' sz sz'.
    rewrite K1 in K3. injection K3 as <-. reflexivity. }
  assert (IPD : forall q v c, match ip_set_from (ip_set_value q v) c, ip_set_from q c with
     | (x, Ok _), (y, Ok _) => x = y | (_, Ok _), _ | _, (_, Ok _) => False | _, _ => True end).
  { intros q v c. unfold ip_set_from. cbn [ip_set_value ip_size ip_min]. destruct (cs_check (ip_size q) (length c)); auto.
    destruct (let! r := int_from_bits c 0 0 in chk_int (r + ip_min q)); auto. }
  assert (DP : forall d e, wf_param RNum (PDouble RNum d) -> wf_param RNum (PDouble RNum e) -> dp_same_meta RNum d e = Ok true ->
    exists b v, dp_base RNum e = Some b /\ d = dp_with_base RNum e (ip_set_value b v)).
  { intros d e Wd We H. inversion Wd as [|? b k Hb Hc Hs Hd| |]; subst. inversion We as [|? b' k' Hb' Hc' Hs' Hd'| |]; subst.
    unfold dp_same_meta in H. destruct (n_eqb RNum (dp_max RNum d) (dp_max RNum e)) eqn:E1; [|discriminate].
    destruct (n_eqb RNum (dp_min RNum d) (dp_min RNum e)) eqn:E2; [|discriminate].
    destruct (n_eqb RNum (dp_prec RNum d) (dp_prec RNum e)) eqn:E3; [|discriminate]. cbn [andb] in H. rewrite Hb, Hb' in H. injection H as H.
    destruct (IP b b') as (v & ->); eauto.
    apply R_eqb_true in E1, E2, E3. exists b', v. split; [exact Hb'|].
    assert (Ek : k' = k) by (cbn [ip_set_value ip_min ip_max ip_size] in Hc; congruence). subst k'. cbn [ip_set_value ip_size] in Hs.
    destruct d as [bd mn mx pr sz], e as [be mn' mx' pr' sz']. cbn in *. unfold dp_with_base. cbn. congruence. }
  assert (DPD : forall e b v c, dp_base RNum e = Some b -> match dp_set_from RNum (dp_with_base RNum e (ip_set_value b v)) c, dp_set_from RNum e c with
     | (x, Ok _), (y, Ok _) => x = y | (_, Ok _), _ | _, (_, Ok _) => False | _, _ => True end).
  { intros e b v c Hb. unfold dp_set_from. rewrite Hb. cbn [dp_base dp_with_base].
    pose proof (IPD b v c) as Q. destruct (ip_set_from (ip_set_value b v) c) as [x ox]. destruct (ip_set_from b c) as [y oy].
    destruct ox, oy; auto. subst. reflexivity. }
  intros p q Wp Wq H.
  destruct p as [p|p|p|s i ps], q as [q|q|q|s' i' ps']; cbn in H; try discriminate.
  - injection H as H. inversion Wp as [? k A1 A2| | |]; subst. inversion Wq as [? k' B1 B2| | |]; subst.
    destruct (IP p q) as (v & ->); eauto. split; [reflexivity|]. intros c. cbn.
    pose proof (IPD q v c) as Q. destruct (ip_set_from (ip_set_value q v) c) as [x ox]. destruct (ip_set_from q c) as [y oy].
    destruct ox, oy; auto. subst. reflexivity.
  - destruct (DP p q Wp Wq H) as (b & v & Hb & ->). split; [reflexivity|]. intros c. cbn [p_set_from].
    pose proof (DPD q b v c Hb) as Q. destruct (dp_set_from RNum (dp_with_base RNum q (ip_set_value b v)) c) as [x ox]. destruct (dp_set_from RNum q c) as [y oy].
    destruct ox as [u1|e1|w1], oy as [u2|e2|w2]; try contradiction; try exact Logic.I. rewrite Q. reflexivity.
  - inversion Wp as [| |? k A1 A2 A3|]; subst. inversion Wq as [| |? k' B1 B2 B3|]; subst.
    unfold da_same_meta in H. destruct (Nat.eqb_spec (length (da_values RNum p)) (length (da_values RNum q))) as [El|]; [|discriminate].
    destruct (DP _ _ A1 B1 H) as (b & v & Hb & Es).
    assert (Ek : k = k') by (rewrite Es in A2; cbn in A2; congruence). subst k'.
    assert (Esz : da_size RNum p = da_size RNum q) by congruence.
    split; [cbn; rewrite Esz; reflexivity|]. intros c. cbn [p_set_from]. unfold da_set_from. rewrite Esz, A2, B2, Es, El.
    (* the decode loop overwrites the sample before reading it *)
    set (sp := dp_with_base RNum (da_sample RNum q) (ip_set_value b v)). set (sq := da_sample RNum q) in *.
    assert (Lp : forall n c0, match da_decode_loop RNum sp k n c0, da_decode_loop RNum sq k n c0 with
       | Ok x, Ok y => x = y | Ok _, _ | _, Ok _ => False | _, _ => True end).
    { intros [|n] c0; [reflexivity|]. cbn [da_decode_loop].
      pose proof (DPD sq b v (firstn k c0) Hb) as Q. fold sp in Q.
      destruct (dp_set_from RNum sp (firstn k c0)) as [x ox].
      destruct (dp_set_from RNum sq (firstn k c0)) as [y oy].
      destruct ox, oy; try contradiction; cbn [bind]; auto. subst y.
      destruct (let! v0 := dp_get_value RNum x in let! r := da_decode_loop RNum x k n (skipn k c0) in Ok (v0 :: r)); auto. }
    cbn [cs_get bind].
    destruct (cs_check (da_size RNum q) (length c)) as [[]|e|u]; cbn [bind]; auto.
    specialize (Lp (length (da_values RNum q)) c).
    destruct (da_decode_loop RNum sp k (length (da_values RNum q)) c), (da_decode_loop RNum sq k (length (da_values RNum q)) c); auto.
    subst. reflexivity.
Qed.
Print Assumptions C60_same_meta_same_meaning.

(** Composite parameters can never be given as initial parameters: the comparison is not implemented. *)
Theorem C60_composite_rejected : forall N (s : csize) i ps q, p_same_meta N (PComp N s i ps) q = Throw RuntimeError.
Proof. reflexivity. Qed.
Theorem C60_composite_initial_refuted : forall N RM M ctx fuel cfg s i ps rest q w,
  length (PComp N s i ps :: rest) = cf_pop cfg -> p_same_type N (PComp N s i ps) q = true ->
  fst (ga_initialize (lib_env N RM M ctx fuel) (p_same_type N) (p_same_meta N) cfg (Some (PComp N s i ps :: rest)) q w) = Throw RuntimeError.
Proof.
  intros N RM M ctx fuel cfg s i ps rest q w Hl Ht. unfold ga_initialize, wbind. cbn [fst snd]. assert (Hq : Nat.eqb (length (PComp N s i ps :: rest)) (cf_pop cfg) = true) by (apply Nat.eqb_eq; exact Hl).
  unfold wlift. cbn [validate_initial]. rewrite Ht. change (e_par (lib_env N RM M ctx fuel)) with (param N). rewrite Hq. reflexivity.
Qed.
Print Assumptions C60_composite_initial_refuted.
Example C60_witness : p_same_meta RNum p4 (PInt RNum {| ip_value := 1; ip_min := 0; ip_max := 4; ip_size := Some 2%nat |}) = Ok true /\
  p_set_from RNum p4 [true; true] = (PInt RNum {| ip_value := 3; ip_min := 0; ip_max := 4; ip_size := Some 2%nat |}, Ok tt).
Proof. split; reflexivity. Qed.
