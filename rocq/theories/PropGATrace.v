(** C19, C23: what a run of the genetic algorithm tells the mutator, and the refusal to minimise. *)
From Coq Require Import Reals.
From Verif Require Import Base Num Random Params Mutators Cache Individual LibEnv GA PropGA.
Local Open Scope Z_scope.
Local Open Scope list_scope.

(** *** Specification: what the mutator sees. [Ctx n g]: ApplyNewMutationContext with current generation [n] out of
    [g]; [Mut c]: MutateChromosome called on the chromosome [c]. *)
Inductive mevent : Type := Ctx (n g : Z) | Mut (c : list bool).
Definition is_mut (e : mevent) : Prop := exists c, e = Mut c.

(** [log] records the calls on the mutator; nothing else touches it. *)
Record records (E : env) (log : e_w E -> list mevent) : Prop := MkRecords {
  rc_rand : forall w, log (snd (e_rand E w)) = log w;
  rc_bool : forall w, log (snd (e_bool E w)) = log w;
  rc_mut : forall c w, log (snd (e_mut E c w)) = log w ++ [Mut c];
  rc_ctx : forall n g w, log (e_ctx E n g w) = log w ++ [Ctx n g] }.

(** The calls of generation [n] that went on to a next generation: the context, then nothing but mutations, at least
    one for each individual. *)
Definition round (pop : nat) (n gens : Z) (l : list mevent) : Prop :=
  exists ms, l = Ctx n gens :: ms /\ Forall is_mut ms /\ (pop <= length ms)%nat.

Section Trace.
Variable E : env.
Variable log : e_w E -> list mevent.
Hypothesis R : records E log.
Variable hash : list bool -> Z.
Variable f : e_par E -> outcome dbl.
Variable same_type : e_par E -> e_par E -> bool.
Variable same_meta : e_par E -> e_par E -> outcome bool.
Notation M := (wm (e_w E)).

Definition quiet {X} (m : M X) : Prop := forall w, log (snd (m w)) = log w.

Lemma quiet_ret {X} (x : X) : quiet (wret x : M X).
Proof. intro w. reflexivity. Qed.
Lemma quiet_lift {X} (o : outcome X) : quiet (wlift o : M X).
Proof. intro w. reflexivity. Qed.
Lemma quiet_bind {X Y} (m : M X) (k : X -> M Y) : quiet m -> (forall x, quiet (k x)) -> quiet (wbind m k).
Proof.
  intros Hm Hk w. unfold wbind. specialize (Hm w). destruct (m w) as [[x|e|u] w1]; cbn in *; [|exact Hm..].
  rewrite (Hk x w1). exact Hm.
Qed.
Ltac q := repeat match goal with
  | |- quiet (wbind _ _) => apply quiet_bind; [|intro]
  | |- quiet (wret _) => apply quiet_ret
  | |- quiet (wlift _) => apply quiet_lift
  | _ => assumption end.

Lemma quiet_genes n : quiet (random_genes E n).
Proof. induction n as [|n IH]; cbn; q. intro w. apply (rc_bool _ _ R). Qed.
Lemma quiet_set_random fuel : forall i inv, quiet (set_random_loop E fuel i inv).
Proof. induction fuel as [|n IH]; intros i inv; cbn; q; [apply quiet_genes|]. destruct x1; q. apply IH. Qed.
Lemma quiet_rand {X} (k : Z -> outcome X) : quiet ((fun w => let (r, w') := e_rand E w in (k r, w')) : M X).
Proof. intro w. pose proof (rc_rand _ _ R w). destruct (e_rand E w) as [r w']. cbn in *. exact H. Qed.
Lemma quiet_crossover i j : quiet (ind_crossover E i j).
Proof.
  unfold ind_crossover, bool_crossover. q.
  - destruct (negb _); q. apply quiet_rand.
  - destruct x2; q.
Qed.
Lemma quiet_select h pop total : quiet (select_index E h pop total).
Proof. apply quiet_rand. Qed.
Lemma quiet_cross_loop fuel : forall h pop total, quiet (cross_loop E fuel h pop total).
Proof.
  induction fuel as [|n IH]; intros h pop total; cbn [cross_loop]; q; try apply quiet_select; [apply quiet_crossover|].
  destruct (snd _); q. apply IH.
Qed.
Lemma quiet_next_pairs elit pop total sorted : forall ready h, quiet (next_pairs E elit pop total sorted ready h).
Proof.
  enough (H : forall n s ready h, (length s <= n)%nat -> quiet (next_pairs E elit pop total s ready h)) by eauto.
  induction n as [|n IH]; intros s ready h Hl.
  - destruct s; [cbn; q|cbn in Hl; lia].
  - destruct s as [|a [|b s]]; cbn; q. destruct (ready <? elit); q; cbn in Hl; unfold h_new; q; try (apply IH; lia).
    apply quiet_cross_loop.
Qed.
Lemma quiet_generate elit h pop : quiet (generate_next E elit h pop).
Proof. unfold generate_next. q. apply quiet_next_pairs. Qed.

Lemma mutate_loop_log fuel : forall i inv w x w', mutate_loop E fuel i inv w = (Ok x, w') ->
  exists ms, log w' = log w ++ ms /\ Forall is_mut ms /\ (1 <= length ms)%nat.
Proof.
  induction fuel as [|n IH]; intros i inv w x w'; cbn; unfold wbind, wlift, wret; [discriminate|].
  pose proof (rc_mut _ _ R (i_chr E i) w) as Hm. destruct (e_mut E (i_chr E i) w) as [[c|e|u] w1]; try discriminate. cbn in Hm.
  destruct (ind_set E i c) as [j|e|u]; try discriminate. destruct (e_chk E (i_par E j)) as [[|]|e|u]; try discriminate.
  - intro H. inversion H; subst. exists [Mut (i_chr E i)]. rewrite Hm. split; [reflexivity|].
    split; [|cbn; lia]. repeat constructor. eexists. reflexivity.
  - intro H. destruct (IH _ _ _ _ _ H) as (ms & E1 & F1 & L1). exists (Mut (i_chr E i) :: ms).
    rewrite E1, Hm, <- app_assoc. split; [reflexivity|]. split; [constructor; [eexists; reflexivity|exact F1]|cbn; lia].
Qed.
Lemma mutate_all_log pop : forall h w h' w', mutate_all E h pop w = (Ok h', w') ->
  exists ms, log w' = log w ++ ms /\ Forall is_mut ms /\ (length pop <= length ms)%nat.
Proof.
  induction pop as [|a pop IH]; intros h w h' w'; cbn; unfold wbind, wlift, wret.
  - intro H. inversion H; subst. exists []. rewrite app_nil_r. auto.
  - destruct (h_get E h a) as [i|e|u]; try discriminate.
    destruct (ind_mutate E i w) as [[j|e|u] w1] eqn:Ej; try discriminate. intro H.
    destruct (mutate_loop_log _ _ _ _ _ _ Ej) as (m1 & A1 & B1 & C1).
    destruct (IH _ _ _ _ H) as (m2 & A2 & B2 & C2).
    exists (m1 ++ m2). rewrite A2, A1, app_assoc, app_length. split; [reflexivity|].
    split; [apply Forall_app; auto|lia].
Qed.

Lemma next_pairs_length elit pop total : forall n s ready h w h' l w', (length s <= n)%nat ->
  next_pairs E elit pop total s ready h w = (Ok (h', l), w') -> length l = length s.
Proof.
  induction n as [|n IH]; intros s ready h w h' l w' Hl.
  - destruct s; [|cbn in Hl; lia]. cbn. unfold wret. intro H. inversion H. reflexivity.
  - destruct s as [|a [|b s]]; cbn; unfold wret, wlift, wbind; [intro H; inversion H; reflexivity|discriminate|].
    cbn in Hl. destruct (ready <? elit).
    + destruct (h_get E h a) as [ia|e|u]; try discriminate. destruct (ind_copy E ia) as [ca|e|u]; try discriminate.
      unfold h_new. destruct (h_get E (h ++ [ca]) b) as [ib|e|u]; try discriminate. destruct (ind_copy E ib) as [cb|e|u]; try discriminate.
      destruct (next_pairs E elit pop total s (ready + 1) _ w) as [[[h2 l2]|e|u] w2] eqn:En; try discriminate.
      intro H. inversion H; subst. cbn. f_equal. f_equal. eapply IH; [|exact En]. lia.
    + destruct (cross_loop E (e_fuel E) h pop total w) as [[c|e|u] w1]; try discriminate. unfold h_new.
      destruct (next_pairs E elit pop total s ready _ w1) as [[[h2 l2]|e|u] w2] eqn:En; try discriminate.
      intro H. inversion H; subst. cbn. f_equal. f_equal. eapply IH; [|exact En]. lia.
Qed.

Hypothesis sort_length : forall l, length (e_sort E l) = length l.

Lemma generate_length elit h pop w h' l w' : generate_next E elit h pop w = (Ok (h', l), w') -> length l = length pop.
Proof.
  unfold generate_next, wbind, wlift. destruct (mapM (fit_of E h) pop) as [fits|e|u] eqn:Ef; try discriminate.
  intro H. apply next_pairs_length with (n := length (map snd (e_sort E (combine fits pop)))) in H; [|lia].
  rewrite H, map_length, sort_length, combine_length. apply mapM_ok_length in Ef. lia.
Qed.

Lemma generations_log cfg : forall left n s w s' snaps w', run_generations E hash f cfg left n s w = (Ok (s', snaps), w') ->
  exists rounds, log w' = log w ++ concat rounds /\
    (length rounds = length snaps \/ S (length rounds) = length snaps /\ exists sn, nth_error snaps (length rounds) = Some sn /\ d_leb (cf_stop cfg) (i_fit E (sn_best E sn)) = true) /\
    (forall j sn, (j < length rounds)%nat -> nth_error snaps j = Some sn -> d_leb (cf_stop cfg) (i_fit E (sn_best E sn)) = false) /\
    (forall j l, nth_error rounds j = Some l -> round (length (g_pop E s)) (n + Z.of_nat j) (cf_gens cfg) l).
Proof.
  induction left as [|left IH]; intros n s w s' snaps w'; cbn [run_generations]; unfold wbind, wlift, wret, apply_context.
  - intro H. inversion H; subst. exists []. rewrite app_nil_r. repeat split; auto; [intros j sn Hj; cbn in Hj; lia|intros [|j]; discriminate].
  - destruct (obtain_fitness E hash f (g_heap E s) (g_counter E s) (g_pop E s)) as [[h1 k1]|e|u]; try discriminate.
    destruct (update_best E h1 (g_pop E s) (g_best E s)) as [best|e|u]; try discriminate.
    destruct (mapM (h_get E h1) (g_pop E s)) as [is|e|u]; try discriminate.
    destruct (h_get E h1 best) as [b|e|u]; try discriminate.
    destruct (get_fitness E b) as [fb|e|u] eqn:Eb; try discriminate.
    assert (fb = i_fit E b) by (unfold get_fitness in Eb; destruct (i_has E b); congruence). subst fb.
    destruct (d_leb (cf_stop cfg) (i_fit E b)) eqn:St.
    + intro H. inversion H; subst. exists []. rewrite app_nil_r. split; [reflexivity|]. split; [|split].
      * right. split; [reflexivity|]. exists (MkSnap E is b). split; [reflexivity|exact St].
      * intros j sn Hj. cbn in Hj. lia.
      * intros [|j]; discriminate.
    + pose proof (quiet_generate (cf_elit cfg) h1 (g_pop E s) w) as Q.
      destruct (generate_next E (cf_elit cfg) h1 (g_pop E s) w) as [[[h2 next]|e|u] w1] eqn:Eg; try discriminate. cbn in Q.
      apply generate_length in Eg. cbn [fst snd].
      destruct (mutate_all E h2 next (e_ctx E n (cf_gens cfg) w1)) as [[h3|e|u] w2] eqn:Em; try discriminate.
      destruct (run_generations E hash f cfg left (n + 1) _ w2) as [[[s2 sn2]|e|u] w3] eqn:Er; try discriminate.
      intro H. inversion H; subst. cbn [fst snd]. destruct (mutate_all_log _ _ _ _ _ Em) as (ms & A1 & A2 & A3).
      rewrite (rc_ctx _ _ R), Q in A1.
      destruct (IH _ _ _ _ _ _ Er) as (rounds & B1 & B2 & B3 & B4).
      exists ((Ctx n (cf_gens cfg) :: ms) :: rounds). split; [|split; [|split]].
      * rewrite B1, A1. cbn. rewrite <- !app_assoc. reflexivity.
      * cbn. destruct B2 as [B2|(B2 & sn & B2' & B2'')]; [left; congruence|right]. split; [congruence|]. exists sn. auto.
      * intros [|j] sn Hj Hn; cbn in *; [inversion Hn; subst; exact St|]. eapply B3; [|exact Hn]. lia.
      * intros [|j] l Hn; cbn in Hn.
        -- inversion Hn; subst. exists ms. replace (n + Z.of_nat 0) with n by lia. split; [reflexivity|]. split; [exact A2|lia].
        -- apply B4 in Hn. cbn [g_pop] in Hn. rewrite Eg in Hn. replace (n + Z.of_nat (S j)) with (n + 1 + Z.of_nat j) by lia. exact Hn.
Qed.

Lemma init_random_quiet n : forall p h, quiet (init_random E n p h).
Proof. induction n as [|n IH]; intros p h; cbn; q. { apply quiet_set_random. } unfold h_new. q. apply IH. Qed.
Lemma init_given_quiet ps : forall h, quiet (init_given E ps h).
Proof. induction ps as [|n ps IH]; intros h; cbn; q. unfold h_new. q. apply IH. Qed.
Lemma init_random_length n : forall p h w h' l w', init_random E n p h w = (Ok (h', l), w') -> length l = n.
Proof.
  induction n as [|n IH]; intros p h w h' l w'; cbn; unfold wbind, wlift, wret; [intro H; inversion H; reflexivity|].
  destruct (ind_new E p) as [i|e|u]; try discriminate. destruct (set_random E i w) as [[r|e|u] w1]; try discriminate. unfold h_new.
  destruct (init_random E n p _ w1) as [[[h2 l2]|e|u] w2] eqn:Ei; try discriminate. intro H. inversion H; subst. cbn. f_equal. eauto.
Qed.
Lemma init_given_length ps : forall h w h' l w', init_given E ps h w = (Ok (h', l), w') -> length l = length ps.
Proof.
  induction ps as [|p ps IH]; intros h w h' l w'; cbn; unfold wbind, wlift, wret; [intro H; inversion H; reflexivity|].
  destruct (ind_new E p) as [i|e|u]; try discriminate. unfold h_new.
  destruct (init_given E ps _ w) as [[[h2 l2]|e|u] w2] eqn:Ei; try discriminate. intro H. inversion H; subst. cbn. f_equal. eauto.
Qed.

(** ** C19 in the genetic algorithm: generation by generation, the mutator is told (generation number counted from 0,
    number of generations configured), and then asked to mutate every individual of the new population at least once.
    Nothing else is ever asked of it; there is one round for each generation that did not reach the stop criterion. *)
Theorem C19_contexts : forall cfg initial parse file k p w q snaps s w',
  ga_optimize E hash f same_type same_meta cfg initial parse file k p true w = (Ok (q, snaps, s), w') ->
  exists rounds, log w' = log w ++ concat rounds /\
    (forall j, (j < length rounds)%nat <->
       exists sn, nth_error snaps j = Some sn /\ d_leb (cf_stop cfg) (i_fit E (sn_best E sn)) = false) /\
    (forall j l, nth_error rounds j = Some l -> round (cf_pop cfg) (Z.of_nat j) (cf_gens cfg) l).
Proof.
  intros cfg initial parse file k p w q snaps s w'. unfold ga_optimize, wbind, wlift, wret. cbn [negb].
  destruct (ga_initialize E same_type same_meta cfg initial p w) as [[[[h pop] best]|e|u] w1] eqn:Ei; try discriminate.
  assert (Hi : log w1 = log w /\ length pop = cf_pop cfg).
  { revert Ei. unfold ga_initialize, wbind, wlift, wret. destruct initial as [ps|].
    - destruct (Nat.eqb_spec (length ps) (cf_pop cfg)) as [El|]; [|discriminate]. cbn [negb].
      destruct (validate_initial E same_type same_meta ps p) as [u|e|u]; try discriminate.
      pose proof (init_given_quiet ps [] w) as Q. destruct (init_given E ps [] w) as [[[h0 l0]|e|u0] w0] eqn:E0; try discriminate.
      destruct (ind_new E p) as [b|e|u0]; try discriminate. unfold h_new. intro H. inversion H; subst. cbn in *.
      split; [exact Q|]. apply init_given_length in E0. congruence.
    - pose proof (init_random_quiet (cf_pop cfg) p [] w) as Q.
      destruct (init_random E (cf_pop cfg) p [] w) as [[[h0 l0]|e|u0] w0] eqn:E0; try discriminate.
      destruct (ind_new E p) as [b|e|u0]; try discriminate. unfold h_new. intro H. inversion H; subst. cbn in *.
      split; [exact Q|]. apply init_random_length in E0. congruence. }
  destruct (match file with None => _ | Some t => _ end) as [h1|e|u]; try discriminate.
  destruct (run_generations E hash f cfg (Z.to_nat (cf_gens cfg)) 0 (MkG E h1 pop best k) w1) as [[[s2 sn2]|e|u] w2] eqn:Er; try discriminate.
  cbn [fst snd]. destruct (h_get E _ _) as [b|e|u]; try discriminate. destruct (e_dec E p (i_chr E b)) as [q0 [u|e|u]]; try discriminate.
  intro H. inversion H; subst. destruct (generations_log _ _ _ _ _ _ _ _ Er) as (rounds & A & B & C & D).
  exists rounds. rewrite A. destruct Hi as [-> Hi]. split; [reflexivity|]. split.
  - intro j. split.
    + intro Hj. destruct (nth_error snaps j) as [sn|] eqn:Ej; [exists sn; eauto|].
      apply nth_error_None in Ej. destruct B as [B|[B _]]; lia.
    + intros (sn & Ej & Es). assert (j < length snaps)%nat by (apply nth_error_Some; congruence).
      destruct B as [B|(B & sn' & B1 & B2)]; [lia|]. destruct (Nat.eq_dec j (length rounds)) as [->|]; [congruence|lia].
  - intros j l Hl. apply D in Hl. cbn [g_pop] in Hl. rewrite Hi in Hl. exact Hl.
Qed.

(** ** C23: minimisation is refused, before anything else happens. *)
Theorem C23_minimisation_refused : forall cfg initial parse file k p w,
  ga_optimize E hash f same_type same_meta cfg initial parse file k p false w = (Throw InvalidArgument, w).
Proof. reflexivity. Qed.
End Trace.

(** A recording environment: any environment (the library's, in particular) with a notebook added to its world. *)
Definition logged (E : env) : env := {|
  e_par := e_par E; e_size := e_size E; e_enc := e_enc E; e_dec := e_dec E; e_chk := e_chk E; e_cln := e_cln E;
  e_w := e_w E * list mevent; e_rm := e_rm E;
  e_rand := fun w => let (r, w') := e_rand E (fst w) in (r, (w', snd w));
  e_bool := fun w => let (r, w') := e_bool E (fst w) in (r, (w', snd w));
  e_mut := fun c w => let (r, w') := e_mut E c (fst w) in (r, (w', snd w ++ [Mut c]));
  e_ctx := fun n g w => (e_ctx E n g (fst w), snd w ++ [Ctx n g]);
  e_sort := e_sort E; e_fuel := e_fuel E |}.
Theorem C19_logged_records : forall E, records (logged E) snd.
Proof.
  intro E. split; cbn.
  - intros [w l]. cbn. destruct (e_rand E w). reflexivity.
  - intros [w l]. cbn. destruct (e_bool E w). reflexivity.
  - intros c [w l]. cbn. destruct (e_mut E c w). reflexivity.
  - reflexivity.
Qed.

(** the context takes effect: after ApplyNewMutationContext(n, g) a LinearMutator uses the probability of generation
    [n] out of [g], whatever context it had before *)
Theorem C19_context_applied : forall s e n0 g0 n g, 2 <= g ->
  lin_probability RNum (lin_context RNum (MkLin RNum s e n0 g0) n g) = (s + (e - s) * (IZR n / IZR (g - 1)))%R.
Proof. intros. unfold lin_probability, lin_context. cbn. unfold Rdiv. ring. Qed.

(** A run of C24's example with a notebook: five generations of six individuals, none reaching the stop criterion. *)
Definition t_run := ga_optimize (logged wE) (fun _ => 0) (int_objective RNum) (p_same_type RNum) (p_same_meta RNum) w_cfg None
   (fun t => (d_ofZ 0, t)) None (MkCounter None 0 0) w_par true (w_world, []).
Definition is_ctx (e : mevent) : bool := match e with Ctx _ _ => true | _ => false end.
Example C19_contexts_witness : exists x w', t_run = (Ok x, w') /\
  filter is_ctx (snd w') = [Ctx 0 5; Ctx 1 5; Ctx 2 5; Ctx 3 5; Ctx 4 5] /\ (30 < length (snd w'))%nat.
Proof.
  assert (H : match t_run with (Ok _, w') => (filter is_ctx (snd w'), Nat.ltb 30 (length (snd w'))) | _ => ([], false) end
    = ([Ctx 0 5; Ctx 1 5; Ctx 2 5; Ctx 3 5; Ctx 4 5], true)) by (vm_compute; reflexivity).
  destruct t_run as [[x|e|u] w']; try discriminate. injection H as A B. exists x, w'. split; [reflexivity|].
  split; [exact A|]. apply Nat.ltb_lt. exact B.
Qed.
