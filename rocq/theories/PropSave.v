(** C74: saving the population of the genetic algorithm to a file, and starting from a file. *)
From Coq Require Import String.
From Verif Require Import Base Num Random Params CompositeProofs Cache Mutators Individual LibEnv PropIndividual GA GASave CounterProofs GAProofs GAInit PropText PropGATrace PropGA.
Local Open Scope list_scope.

Section Save.
Variable E : env.
Variable show : dbl -> text.
Variable hash : list bool -> Z.
Variable f : e_par E -> outcome dbl.
Variable same_type : e_par E -> e_par E -> bool.
Variable same_meta : e_par E -> e_par E -> outcome bool.
Hypothesis sort_length : forall l, length (e_sort E l) = length l.

(** every individual that Mutate has touched is without fitness *)
Lemma mutate_drops fuel : forall i inv w j inv' w', mutate_loop E fuel i inv w = (Ok (j, inv'), w') -> i_has E j = false.
Proof.
  induction fuel as [|n IH]; intros i inv w j inv' w'; cbn [mutate_loop]; [discriminate|]. intro H.
  apply wbind_ok in H as (c & w1 & Hm & H). apply wbind_ok in H as (k & w2 & Hk & H). apply wlift_ok in Hk as [Hk ->].
  apply wbind_ok in H as (ok & w3 & Hc & H). apply wlift_ok in Hc as [_ ->]. destruct ok; [|eauto].
  apply wret_ok in H as [H ->]. injection H as -> ->. unfold ind_set in Hk. destruct (e_dec E (i_par E i) c) as [q o]. apply bind_ok in Hk as (u & _ & Hk).
  injection Hk as <-. reflexivity.
Qed.
Lemma mutate_all_drops pop : forall h w h' w', mutate_all E h pop w = (Ok h', w') ->
  (forall a i, nth_error h' a = Some i -> In a pop \/ nth_error h a = Some i) /\
  forall a, In a pop -> exists i, nth_error h' a = Some i /\ i_has E i = false.
Proof.
  induction pop as [|a pop IH]; intros h w h' w' H; cbn [mutate_all] in H.
  - apply wret_ok in H as [-> ->]. split; [auto|intros a []].
  - apply wbind_ok in H as (i & w1 & Hi & H). apply wlift_ok in Hi as [Hi ->]. apply h_get_ok in Hi. apply wbind_ok in H as ([j n] & w2 & Hj & H). cbn [fst] in H.
    apply mutate_drops in Hj. destruct (IH _ _ _ _ H) as [K D]. assert (La : (a < length h)%nat) by (apply nth_error_Some; congruence). split.
    + intros b x Hb. destruct (K b x Hb) as [X|X]; [left; right; exact X|]. destruct (Nat.eq_dec a b) as [->|Ne]; [left; left; reflexivity|].
      unfold h_set in X. rewrite upd_other in X by exact Ne. auto.
    + intros b [<-|Hb]; [|exact (D b Hb)]. destruct (in_dec Nat.eq_dec a pop) as [Hin|Hn]; [exact (D a Hin)|].
      assert (G : exists x, nth_error h' a = Some x).
      { clear - H La. assert (L : length h' = length h).
        { assert (Q : forall pop h w h' w', mutate_all E h pop w = (Ok h', w') -> length h' = length h).
          { clear. induction pop as [|b pop IH]; intros h w h' w' H; cbn [mutate_all] in H; [apply wret_ok in H as [-> _]; reflexivity|].
            apply wbind_ok in H as (i & w1 & _ & H). apply wbind_ok in H as (k & w2 & _ & H). rewrite (IH _ _ _ _ H). apply upd_length. }
          rewrite (Q _ _ _ _ _ H). apply upd_length. }
        destruct (nth_error h' a) eqn:Ex; [eauto|]. apply nth_error_None in Ex. lia. }
      destruct G as [x Hx]. exists x. split; [exact Hx|]. destruct (K a x Hx) as [X|X]; [contradiction|]. unfold h_set in X. rewrite upd_same in X by exact La. injection X as <-. exact Hj.
Qed.

(** finding the best individual reads the fitness of all of them *)
Lemma best_of_has h rest : forall cur c, best_of E h cur rest = Ok c -> rest <> [] -> forall a, In a (cur :: rest) -> exists v, fit_of E h a = Ok v.
Proof.
  induction rest as [|b rest IH]; intros cur c H N; [contradiction|]. cbn [best_of] in H. apply bind_ok in H as (fc & Hc & H). apply bind_ok in H as (fa & Ha & H).
  intros a [<-|[<-|Hin]]; [eauto|eauto|]. destruct rest as [|r rest]; [destruct Hin|]. eapply IH; [exact H|discriminate|right; exact Hin].
Qed.
Lemma update_best_has h pop best0 best b fb : update_best E h pop best0 = Ok best -> h_get E h best = Ok b -> get_fitness E b = Ok fb ->
  pop <> [] /\ forall a, In a pop -> exists v, fit_of E h a = Ok v.
Proof.
  intros H Hb Hf. unfold update_best in H. destruct pop as [|a rest]; [discriminate|]. split; [discriminate|].
  apply bind_ok in H as (cur & Hc & H). destruct rest as [|a2 rest]; [|intros; eapply best_of_has; [exact Hc|discriminate|eassumption]].
  cbn in Hc. injection Hc as ->. intros x [<-|[]]. apply bind_ok in H as (b0 & Hb0 & H). destruct (negb (i_has E b0)).
  - injection H as ->. exists fb. unfold fit_of. rewrite Hb. exact Hf.
  - apply bind_ok in H as (v0 & _ & H). apply bind_ok in H as (v & Hv & _). eauto.
Qed.

Lemma write_all_ok is : is <> [] -> Forall (fun i => i_has E i = true) is -> exists t, write_population E show is = Ok t.
Proof.
  intros N F. unfold write_population. destruct is as [|i is]; [contradiction|]. cbn [at_ nth_error bind].
  assert (W : exists ts, mapM (write_ind E show) (i :: is) = Ok ts).
  { clear N. induction F as [|j js Hj F IH]; [exists []; reflexivity|]. destruct IH as [ts Hts]. cbn [mapM].
    unfold write_ind at 1, get_fitness. rewrite Hj. cbn [bind]. rewrite Hts. cbn [bind]. eauto. }
  destruct W as [ts ->]. cbn [bind]. eauto.
Qed.

Lemma run_save cfg : forall left n s w s' snaps w', run_generations E hash f cfg left n s w = (Ok (s', snaps), w') -> (0 < left)%nat -> g_pop E s <> [] ->
  exists before last, snaps = before ++ [last] /\
    (d_leb (cf_stop cfg) (i_fit E (sn_best E last)) = true ->
       mapM (h_get E (g_heap E s')) (g_pop E s') = Ok (sn_pop E last) /\ sn_pop E last <> [] /\ Forall (fun i => i_has E i = true) (sn_pop E last)) /\
    (d_leb (cf_stop cfg) (i_fit E (sn_best E last)) = false ->
       length snaps = left /\ g_pop E s' <> [] /\ forall a, In a (g_pop E s') -> exists i, nth_error (g_heap E s') a = Some i /\ i_has E i = false).
Proof.
  induction left as [|left IH]; intros n s w s' snaps w' H Hl Hp; [lia|]. cbn [run_generations] in H.
  apply wbind_ok in H as ([h1 k1] & w1 & Ho & H). apply wlift_ok in Ho as [Ho ->].
  apply wbind_ok in H as (best & w2 & Hb & H). apply wlift_ok in Hb as [Hb ->].
  apply wbind_ok in H as (is & w3 & Hi & H). apply wlift_ok in Hi as [Hi ->].
  apply wbind_ok in H as (b & w4 & Hg & H). apply wlift_ok in Hg as [Hg ->].
  apply wbind_ok in H as (fb & w5 & Hf & H). apply wlift_ok in Hf as [Hf ->].
  assert (Ef : fb = i_fit E b) by (unfold get_fitness in Hf; destruct (i_has E b); congruence). subst fb.
  destruct (d_leb (cf_stop cfg) (i_fit E b)) eqn:St.
  - apply wret_ok in H as [H ->]. injection H as -> ->. exists [], (MkSnap E is b). split; [reflexivity|]. cbn [sn_best sn_pop g_heap g_pop].
    split; [intros _|congruence]. split; [exact Hi|]. destruct (update_best_has _ _ _ _ _ _ Hb Hg Hf) as [N A]. pose proof (mapM_ok_length _ _ _ Hi) as L. split.
    + intro X. subst is. destruct (g_pop E s); [contradiction|discriminate].
    + apply Forall_forall. intros i Hin. apply (mapM_in_r _ _ _ _ Hi) in Hin as (a & Ha & Hga). destruct (A a Ha) as [v Hv]. unfold fit_of in Hv. rewrite Hga in Hv. cbn [bind] in Hv.
      unfold get_fitness in Hv. destruct (i_has E i); [reflexivity|discriminate].
  - apply wbind_ok in H as ([h2 np] & w6 & Hn & H). apply wbind_ok in H as (u & w7 & Hc & H). apply wbind_ok in H as (h3 & w8 & Hm & H). apply wbind_ok in H as ([s2 sn2] & w9 & Hr & H).
    apply wret_ok in H as [H ->]. injection H as -> ->. cbn [fst snd] in *.
    pose proof (generate_length E sort_length _ _ _ _ _ _ _ Hn) as Ln. destruct (mutate_all_drops _ _ _ _ _ Hm) as [_ D].
    assert (Np : np <> []) by (intro X; subst np; destruct (g_pop E s); [contradiction|discriminate]).
    destruct left as [|left].
    + cbn in Hr. apply wret_ok in Hr as [Hr ->]. injection Hr as -> ->. exists [], (MkSnap E is b). split; [reflexivity|]. cbn [sn_best g_pop g_heap]. split; [congruence|].
      intros _. split; [reflexivity|]. split; [exact Np|exact D].
    + destruct (IH _ _ _ _ _ _ Hr ltac:(lia) Np) as (before & last & -> & A & B). exists (MkSnap E is b :: before), last. split; [reflexivity|]. split; [exact A|].
      intro X. destruct (B X) as (B1 & B2). split; [cbn [length]; congruence|exact B2].
Qed.

Lemma optimize_save cfg initial parse file k p w q snaps s w' : (0 < cf_pop cfg)%nat -> (0 < cf_gens cfg)%Z ->
  ga_optimize E hash f same_type same_meta cfg initial parse file k p true w = (Ok (q, snaps, s), w') ->
  exists n st w1 w2, run_generations E hash f cfg (Z.to_nat (cf_gens cfg)) n st w1 = (Ok (s, snaps), w2) /\ g_pop E st <> [].
Proof.
  intros Hp Hg H. unfold ga_optimize in H. cbn [negb] in H. apply wbind_ok in H as ([[h pop] best] & w1 & Hi & H).
  apply wbind_ok in H as (h1 & w2 & Hl & H). apply wlift_ok in Hl as [_ ->]. apply wbind_ok in H as ([s2 sn] & w3 & Hr & H). cbn [fst snd] in H.
  apply wbind_ok in H as (b & w4 & _ & H). destruct (e_dec E p (i_chr E b)) as [q2 o]. apply wbind_ok in H as (u & w5 & _ & H). apply wret_ok in H as [H ->].
  injection H as -> -> ->. eexists _, _, _, _. split; [exact Hr|]. cbn [g_pop].
  assert (L : length pop = cf_pop cfg).
  { unfold ga_initialize in Hi. apply wbind_ok in Hi as ([h0 pop0] & w6 & Hi & Hb). apply wbind_ok in Hb as (b0 & w7 & _ & Hb). cbn [fst snd] in Hb. unfold h_new in Hb. apply wret_ok in Hb as [Hb ->].
    injection Hb as -> -> ->. destruct initial as [ps|]; [|exact (init_random_length E _ _ _ _ _ _ _ Hi)].
    destruct (Nat.eqb_spec (length ps) (cf_pop cfg)) as [El|]; cbn [negb] in Hi; [|apply wlift_ok in Hi as [Hi _]; discriminate].
    apply wbind_ok in Hi as (u0 & w8 & _ & Hi). rewrite <- El. exact (init_given_length E _ _ _ _ _ _ Hi). }
  intro X. subst pop. cbn in L. lia.
Qed.

(** After Optimize: a run that ended because the best fitness reached the stop criterion leaves a population that can be saved, and
    what is saved is the last generation; a run that went through all its generations leaves a population without a single fitness,
    and saving it throws. *)
Theorem C74_save_after_run : forall size elit gens stop cfg initial parse file k p w q snaps s w',
  ga_create size elit gens true stop = Some cfg ->
  ga_optimize E hash f same_type same_meta cfg initial parse file k p true w = (Ok (q, snaps, s), w') ->
  exists before last, snaps = before ++ [last] /\
    (d_leb stop (i_fit E (sn_best E last)) = true ->
       exists t, save_population E show (g_heap E s) (g_pop E s) true = Ok (Some t) /\ write_population E show (sn_pop E last) = Ok t) /\
    (d_leb stop (i_fit E (sn_best E last)) = false ->
       Z.of_nat (length snaps) = gens /\ save_population E show (g_heap E s) (g_pop E s) true = Throw LogicError).
Proof.
  intros size elit gens stop cfg initial parse file k p w q snaps s w' Hc H.
  assert (C : (0 < cf_pop cfg)%nat /\ (0 < cf_gens cfg)%Z /\ cf_stop cfg = stop /\ cf_gens cfg = gens).
  { unfold ga_create, ga_construct in Hc. destruct (negb _); [discriminate|]. destruct (Z.leb_spec size 0); [discriminate|]. destruct (Z.leb_spec gens 0); [discriminate|].
    cbn in Hc. injection Hc as <-. cbn. repeat split; lia. }
  destruct C as (Cp & Cg & <- & Cn). destruct (optimize_save _ _ _ _ _ _ _ _ _ _ _ Cp Cg H) as (n & st & w1 & w2 & Hr & Np).
  destruct (run_save cfg _ _ _ _ _ _ _ Hr ltac:(lia) Np) as (before & last & Es & A & B). exists before, last. split; [exact Es|]. split.
  - intro X. destruct (A X) as (A1 & A2 & A3). destruct (write_all_ok _ A2 A3) as [t Ht]. exists t. split; [|exact Ht].
    unfold save_population. rewrite A1. cbn [bind]. rewrite Ht. reflexivity.
  - intro X. destruct (B X) as (B1 & B2 & B3). split; [lia|]. unfold save_population.
    assert (V : exists is, mapM (h_get E (g_heap E s)) (g_pop E s) = Ok is /\ length is = length (g_pop E s) /\ Forall (fun i => i_has E i = false) is).
    { clear - B3. induction (g_pop E s) as [|a pop IH]; [exists []; repeat split; constructor|]. destruct IH as (is & I1 & I2 & I3); [intros x Hx; apply B3; right; exact Hx|].
      destruct (B3 a (or_introl eq_refl)) as (i & Hi & Hh). exists (i :: is). cbn [mapM]. unfold h_get at 1. rewrite Hi. cbn [bind]. rewrite I1. cbn. repeat split; [congruence|constructor; assumption]. }
    destruct V as (is & -> & Li & F). cbn [bind]. destruct is as [|i is]; [destruct (g_pop E s); [contradiction|discriminate]|].
    unfold write_population. cbn [at_ nth_error bind mapM]. unfold write_ind at 1, get_fitness. rewrite (Forall_inv F). reflexivity.
Qed.

(** The call-back, between the generations, can always save: see C63_reports. Before the first Optimize there is no population and
    population_[0] is read out of bounds; a file that cannot be opened is passed over in silence. *)
Theorem C74_save_nothing : save_population E show [] [] true = UB OutOfBounds /\ forall h pop, save_population E show h pop false = Ok None.
Proof. split; reflexivity. Qed.

(** A file saved after a run, given to another run: its population starts with the chromosomes of the last generation. *)
Theorem C74_resume : forall parse is t pop2, write_population E show is = Ok t -> Forall2 (readable E show parse) is pop2 ->
  (Z.of_nat (length is) < 2 ^ 64)%Z -> Forall (fun i => (Z.of_nat (length (i_chr E i)) < 2 ^ 64)%Z) is ->
  forall h pop, NoDup pop -> mapM (h_get E h) pop = Ok pop2 ->
  exists h' js, load_file E parse h pop t = Ok h' /\ mapM (h_get E h') pop = Ok js /\ map (i_chr E) js = map (i_chr E) is /\
    Forall (fun j => i_has E j = true /\ e_chk E (i_par E j) = Ok true) js /\ Forall2 (fun i j => reads show parse (i_fit E i) (i_fit E j)) is js.
Proof.
  intros parse is t pop2 Hw HF Sp Sc h pop Nd Hg. destruct (C22_population_roundtrip E show parse is t pop2 Hw HF Sp Sc) as (ks & Hr & Lk & Hn).
  pose proof (C22_population_valid E parse pop2 t ks Hr) as [Lk2 V]. pose proof (mapM_ok_length _ _ _ Hg) as Lg.
  unfold load_file. rewrite Hg. cbn [bind]. rewrite Hr. cbn [bind].
  assert (In_h : forall a, In a pop -> (a < length h)%nat).
  { intros a Ha. apply (mapM_in _ _ _ _ Hg) in Ha as (m & b & _ & _ & Hb). apply h_get_ok in Hb. apply nth_error_Some. congruence. }
  assert (St : mapM (h_get E (store_all E h pop ks)) pop = Ok ks).
  { assert (Q : forall pop ks h, NoDup pop -> length ks = length pop -> (forall a, In a pop -> (a < length h)%nat) ->
       mapM (h_get E (store_all E h pop ks)) pop = Ok ks /\ (forall a, ~ In a pop -> nth_error (store_all E h pop ks) a = nth_error h a)).
    { clear. induction pop as [|a pop IH]; intros ks h Nd L Hl; [destruct ks; [|discriminate]; split; reflexivity|]. destruct ks as [|k ks]; [discriminate|]. inversion Nd as [|? ? Na Nd']; subst.
      cbn [store_all mapM]. destruct (IH ks (h_set E h a k) Nd' ltac:(cbn in L; lia)) as [I1 I2].
      { intros b Hb. unfold h_set. rewrite upd_length. apply Hl. right. exact Hb. }
      split.
      - unfold h_get at 1. rewrite I2 by exact Na. unfold h_set at 1. rewrite upd_same by (apply Hl; left; reflexivity). cbn [bind]. rewrite I1. reflexivity.
      - intros b Hb. rewrite I2 by (intro; apply Hb; right; assumption). unfold h_set. apply upd_other. intro; apply Hb; left; assumption. }
    apply Q; [exact Nd|lia|exact In_h]. }
  eexists _, ks. split; [reflexivity|]. split; [exact St|].
  assert (P : forall m i k, nth_error is m = Some i -> nth_error ks m = Some k -> i_chr E k = i_chr E i /\ i_has E k = true /\ reads show parse (i_fit E i) (i_fit E k)).
  { intros m i k Hi Hk. destruct (nth_error pop2 m) as [j|] eqn:Ej; [|apply nth_error_None in Ej; assert (m < length ks)%nat by (apply nth_error_Some; congruence); lia].
    destruct (Hn m i j k Hi Ej Hk) as (R1 & _ & R3 & R4). auto. }
  clear - Lk V P. revert ks Lk V P. induction is as [|i is IH]; intros [|k ks] Lk V P; try discriminate; [repeat constructor|].
  inversion V as [|? ? Vk V']; subst. destruct (IH ks ltac:(cbn in Lk; lia) V' ltac:(intros m a b Ha Hb; exact (P (S m) a b Ha Hb))) as (I1 & I2 & I3).
  destruct (P 0%nat i k eq_refl eq_refl) as (P1 & P2 & P3). cbn [map]. rewrite P1, I1. repeat split; try constructor; auto.
Qed.

(** A population file that cannot be opened: runtime_error, once the population has been initialised (and random numbers drawn for it). *)
Theorem C74_missing_file : forall cfg initial parse k p w,
  (forall r w', optimize_named E hash f same_type same_meta cfg initial parse (Some None) k p true w <> (Ok r, w')) /\
  (forall x w', ga_initialize E same_type same_meta cfg initial p w = (Ok x, w') -> optimize_named E hash f same_type same_meta cfg initial parse (Some None) k p true w = (Throw RuntimeError, w')).
Proof.
  intros cfg initial parse k p w. cbn [optimize_named negb]. unfold wbind, wlift. split.
  - intros r w'. destruct (ga_initialize E same_type same_meta cfg initial p w) as [[x|e|u] w1]; discriminate.
  - intros x w' ->. reflexivity.
Qed.
End Save.

(** The runs of C24_witness: the same problem, once with a stop criterion that is never reached, once with one that is. *)
Definition run74 (stop : Z) := ga_optimize wE (fun _ => 0%Z) (int_objective RNum) (p_same_type RNum) (p_same_meta RNum) (MkCfg 6 1 5 (d_ofZ stop)) None
  (fun t => (d_ofZ 0, t)) None (MkCounter None 0 0) w_par true w_world.
Definition saves74 (stop : Z) : bool * bool :=
  match run74 stop with
  | (Ok (_, _, s), _) => match save_population wE (fun _ => of_string "1") (g_heap wE s) (g_pop wE s) true with Ok (Some t) => (true, Nat.ltb 100 (length t)) | Throw LogicError => (true, false) | _ => (false, false) end
  | _ => (false, false)
  end.
Example C74_witness : (forall l, length (e_sort wE l) = length l) /\ (forall stop, ga_create 6 1 5 true (d_ofZ stop) = Some (MkCfg 6 1 5 (d_ofZ stop))) /\
  saves74 1000 = (true, false) /\ saves74 60 = (true, true).
Proof.
  split; [intro l; apply Permutation.Permutation_length; apply sort_desc_perm|]. split; [reflexivity|]. split; vm_compute; reflexivity.
Qed.
Print Assumptions C74_save_after_run.
Print Assumptions C74_save_nothing.
Print Assumptions C74_resume.
Print Assumptions C74_missing_file.
Print Assumptions C74_witness.
