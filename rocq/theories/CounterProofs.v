(** The objective function counter: frame and coherence lemmas. *)
From Verif Require Import Base Num DblOrder Random Cache CacheProofs Individual GA.
Local Open Scope Z_scope.
Local Open Scope list_scope.

Lemma upd_same {A} (l : list A) a x : (a < length l)%nat -> nth_error (upd l a x) a = Some x.
Proof. intro H. rewrite nth_error_upd, Nat.eqb_refl. destruct (Nat.ltb_spec a (length l)); [reflexivity|lia]. Qed.
Lemma upd_other {A} (l : list A) a b x : a <> b -> nth_error (upd l a x) b = nth_error l b.
Proof. intro H. rewrite nth_error_upd. destruct (Nat.eqb_spec a b); [contradiction|reflexivity]. Qed.

Section Counter.
Variable E : env.
Variable hash : list bool -> Z.
Variable f : e_par E -> outcome dbl.
Notation indiv := (indiv E).
Notation heap := (heap E).
Notation clookup := (lookup Z dbl Z.eqb).

Lemma h_get_ok (h : heap) a i : h_get E h a = Ok i <-> nth_error h a = Some i.
Proof. unfold h_get. destruct (nth_error h a); split; intro H; congruence. Qed.

(** the individual with a fitness *)
Definition with_fit (i : indiv) (v : dbl) : indiv := MkInd E (i_par E i) (i_chr E i) true v (i_times E i).

Lemma set_fitness_ok i v j : set_fitness E i v = Ok j <-> d_ltb v (d_ofZ 0) = false /\ j = with_fit i v.
Proof. unfold set_fitness. destruct (d_ltb v (d_ofZ 0)); split; intro H; [discriminate|destruct H; discriminate|injection H as <-; auto|destruct H as [_ ->]; reflexivity]. Qed.

Definition cache_ok (P : Z -> dbl -> Prop) (c : cache Z dbl) : Prop :=
  cwf Z dbl c /\ forall key s v, clookup key (c_map Z dbl c) = Some s -> sv_value dbl s = Some v -> P key v.
Definition cinv (P : Z -> dbl -> Prop) (k : counter) : Prop :=
  match k_cache k with None => True | Some c => cache_ok P c end.

Lemma step_cache_ok P c o : cache_ok P c ->
  (forall rs, o = AddMany Z dbl rs -> forall key v, In (key, v) rs -> P key v) -> (forall k v, o <> Add Z dbl k v) ->
  cache_ok P (fst (cstep Z dbl Z.eqb c o)).
Proof.
  intros [Hw Hc] Hrs Hna. split; [apply cstep_wf; [apply Z.eqb_eq|exact Hw]|].
  intros key s v L V. pose proof (cstep_entry Z dbl Z.eqb Z.eqb_eq c o key Hw) as H. cbv zeta in H.
  destruct (stores Z dbl Z.eqb key (o, snd (cstep Z dbl Z.eqb c o))) as [v'|] eqn:S.
  - rewrite H in L. injection L as <-. cbn in V. injection V as ->.
    destruct o as [k0|k0|k0 v0|rs]; cbn in S; try discriminate.
    + exfalso. eapply Hna; reflexivity.
    + destruct (snd (let (c', r) := add_values Z dbl Z.eqb rs c in (c', RAdd dbl r))) as [b|o|[u|e|u]]; try discriminate.
      apply (Hrs rs eq_refl key v). clear -S.
      assert (G : forall rs a, fold_left (fun a (r : Z * dbl) => if key =? fst r then Some (snd r) else a) rs a = Some v ->
                 a = Some v \/ In (key, v) rs).
      { clear. induction rs as [|r rs IH]; intros a H; [left; exact H|]. cbn [fold_left] in H.
        apply IH in H as [H|H]; [|right; right; exact H].
        destruct (Z.eqb_spec key (fst r)) as [->|]; [|left; exact H].
        injection H as <-. right; left; destruct r; reflexivity. }
      apply G in S as [S|S]; [discriminate|exact S].
  - destruct H as [H _]. destruct (H s L ltac:(congruence)) as (s0 & L0 & V0 & _). eapply Hc; [exact L0|congruence].
Qed.

Lemma is_cached_ok P c key c1 b : cache_ok P c -> is_cached Z dbl Z.eqb key c = (c1, b) ->
  cache_ok P c1 /\ (b = true -> exists s v, clookup key (c_map Z dbl c1) = Some s /\ sv_value dbl s = Some v).
Proof.
  intros H Hi. pose proof (step_cache_ok P c (IsCached Z dbl key) H ltac:(discriminate) ltac:(discriminate)) as G.
  cbn [cstep] in G. rewrite Hi in G. cbn [fst] in G. split; [exact G|]. intros ->.
  unfold is_cached in Hi. destruct (touch_spec Z dbl Z.eqb Z.eqb_eq key (c_map Z dbl c)) as (m' & T & L & _).
  rewrite T in Hi. injection Hi as <- Hb. cbn [c_map with_map]. rewrite L.
  destruct (clookup key (c_map Z dbl c)) as [s|]; cbn in Hb; [|discriminate].
  destruct (sv_value dbl s) as [v|] eqn:V; [|discriminate]. eauto.
Qed.
Lemma get_cached_ok P c key c2 v : cache_ok P c -> get_cached Z dbl Z.eqb key c = (c2, Ok v) -> cache_ok P c2 /\ P key v.
Proof.
  intros H Hi. pose proof (step_cache_ok P c (Get Z dbl key) H ltac:(discriminate) ltac:(discriminate)) as G.
  cbn [cstep] in G. rewrite Hi in G. cbn [fst] in G. split; [exact G|].
  unfold get_cached in Hi. destruct (touch_spec Z dbl Z.eqb Z.eqb_eq key (c_map Z dbl c)) as (m' & T & L & _).
  rewrite T in Hi. destruct H as [_ H]. destruct (clookup key (c_map Z dbl c)) as [s|] eqn:Lk; cbn in Hi; [|discriminate].
  destruct (sv_value dbl s) as [v0|] eqn:V; [|discriminate]. injection Hi as _ <-. eapply H; eauto.
Qed.
Lemma add_values_ok P c rs c' : cache_ok P c -> add_values Z dbl Z.eqb rs c = (c', Ok tt) ->
  (forall key v, In (key, v) rs -> P key v) -> cache_ok P c'.
Proof.
  intros H Hi Hr. pose proof (step_cache_ok P c (AddMany Z dbl rs) H) as G.
  cbn [cstep] in G. rewrite Hi in G. cbn [fst] in G. apply G; [|discriminate].
  intros rs' E'. injection E' as <-. exact Hr.
Qed.

Lemma process_spec P : forall pop h k h1 k1 todo, process_population E hash h k pop = Ok (h1, k1, todo) -> NoDup pop -> cinv P k ->
  cinv P k1 /\ length h1 = length h /\ (forall a, ~ In a pop -> nth_error h1 a = nth_error h a) /\
  (forall a, In a todo -> In a pop) /\ NoDup todo /\
  (forall a, In a pop -> exists i, nth_error h a = Some i /\
     ((In a todo /\ nth_error h1 a = Some i) \/
      (~ In a todo /\ k_cache k <> None /\ exists v, nth_error h1 a = Some (with_fit i v) /\ d_ltb v (d_ofZ 0) = false /\ P (hash (i_chr E i)) v))) /\
  (k_cache k = None <-> k_cache k1 = None) /\ (k_counts k1 = k_counts k).
Proof.
  induction pop as [|a pop IH]; intros h k h1 k1 todo H Hn Hk; cbn [process_population] in H.
  - injection H as <- <- <-. split; [exact Hk|]. split; [reflexivity|]. split; [reflexivity|]. split; [intros a []|].
    split; [constructor|]. split; [intros a []|]. split; [tauto|reflexivity].
  - inversion Hn as [|? ? Ha Hn']; subst. apply bind_ok in H as (i & Hi & H). apply h_get_ok in Hi.
    assert (Skip : forall k', cinv P k' -> (k_cache k' = None <-> k_cache k = None) -> k_counts k' = k_counts k ->
      (let! x := process_population E hash h k' pop in Ok (fst (fst x), snd (fst x), a :: snd x)) = Ok (h1, k1, todo) ->
      cinv P k1 /\ length h1 = length h /\ (forall b, ~ In b (a :: pop) -> nth_error h1 b = nth_error h b) /\
      (forall b, In b todo -> In b (a :: pop)) /\ NoDup todo /\
      (forall b, In b (a :: pop) -> exists i, nth_error h b = Some i /\
       ((In b todo /\ nth_error h1 b = Some i) \/
        (~ In b todo /\ k_cache k <> None /\ exists v, nth_error h1 b = Some (with_fit i v) /\ d_ltb v (d_ofZ 0) = false /\ P (hash (i_chr E i)) v))) /\
      (k_cache k = None <-> k_cache k1 = None) /\ (k_counts k1 = k_counts k)).
    { intros k' Hk' Hck Hct Hx. apply bind_ok in Hx as ([[h' k0] td] & Hp & Hx). cbn in Hx. injection Hx as <- <- <-.
      destruct (IH _ _ _ _ _ Hp Hn' Hk') as (I1 & I2 & I3 & I4 & I5 & I6 & I7 & I8).
      split; [exact I1|]. split; [exact I2|]. split; [intros b Hb; apply I3; cbn in Hb; tauto|].
      split; [intros b [->|Hb]; [left; reflexivity|right; auto]|].
      split; [constructor; [intro X; apply Ha; auto|exact I5]|].
      split; [|split; [rewrite <- Hck, I7; reflexivity|congruence]].
      intros b [<-|Hb].
      - exists i. split; [exact Hi|]. left. split; [left; reflexivity|]. rewrite I3 by exact Ha. exact Hi.
      - destruct (I6 b Hb) as (j & Hj & [[T1 T2]|(T1 & T2 & T3)]); exists j; (split; [exact Hj|]).
        + left. split; [right; exact T1|exact T2].
        + right. split; [intros [->|X]; contradiction|]. split; [rewrite Hck in T2; exact T2|exact T3]. }
    destruct (k_cache k) as [c|] eqn:Kc.
    2:{ apply (Skip k); auto. tauto. }
    destruct (is_cached Z dbl Z.eqb (hash (i_chr E i)) c) as [c1 b] eqn:Ic.
    unfold cinv in Hk. rewrite Kc in Hk.
    destruct (is_cached_ok P c _ c1 b Hk Ic) as [Hc1 Hb]. destruct b.
    2:{ apply (Skip (MkCounter (Some c1) (k_hits k) (k_counts k))); cbn; auto. split; discriminate. }
    clear Skip. destruct (get_cached Z dbl Z.eqb (hash (i_chr E i)) c1) as [c2 o] eqn:Gc.
    destruct o as [v|e|u]; cbn [bind] in H; try discriminate.
    apply bind_ok in H as (i' & Hi' & H). apply set_fitness_ok in Hi' as [Hv ->].
    destruct (get_cached_ok P c1 _ c2 v Hc1 Gc) as [Hc2 Pv].
    assert (La : (a < length h)%nat) by (apply nth_error_Some; congruence).
    destruct (IH _ _ _ _ _ H Hn' ltac:(exact Hc2)) as (I1 & I2 & I3 & I4 & I5 & I6 & I7 & I8).
    unfold h_set in *. rewrite upd_length in I2.
    split; [exact I1|]. split; [exact I2|].
    split; [intros b Hb'; rewrite I3 by (cbn in Hb'; tauto); apply upd_other; intros ->; apply Hb'; left; reflexivity|].
    split; [intros b Hb'; right; auto|]. split; [exact I5|].
    split; [|split; [cbn in I7; split; [discriminate|intro X; apply I7 in X; discriminate]|exact I8]].
    intros b [<-|Hb'].
    + exists i. split; [exact Hi|]. right. split; [intro X; apply Ha; auto|]. split; [discriminate|]. exists v.
      split; [|auto]. rewrite I3 by exact Ha. apply upd_same; exact La.
    + destruct (I6 b Hb') as (j & Hj & T). assert (Nab : a <> b) by (intros ->; contradiction).
      rewrite upd_other in Hj by exact Nab. exists j. split; [exact Hj|].
      destruct T as [T|(T1 & T2 & T3)]; [left; exact T|right]. split; [exact T1|]. split; [discriminate|exact T3].
Qed.

Lemma assign_spec : forall todo h vs h2, assign_fitness E h todo vs = Ok h2 -> NoDup todo -> length vs = length todo ->
  length h2 = length h /\ (forall a, ~ In a todo -> nth_error h2 a = nth_error h a) /\
  (forall n a v, nth_error todo n = Some a -> nth_error vs n = Some v ->
     exists i, nth_error h a = Some i /\ nth_error h2 a = Some (with_fit i v) /\ d_ltb v (d_ofZ 0) = false).
Proof.
  induction todo as [|a todo IH]; intros h vs h2 H Hn Hl.
  - cbn in H. injection H as <-. split; [reflexivity|]. split; [reflexivity|]. intros [|n]; discriminate.
  - destruct vs as [|v vs]; [discriminate|]. cbn [assign_fitness] in H. inversion Hn as [|? ? Ha Hn']; subst.
    apply bind_ok in H as (i & Hi & H). apply h_get_ok in Hi. apply bind_ok in H as (i' & Hi' & H).
    apply set_fitness_ok in Hi' as [Hv ->]. destruct (IH _ _ _ H Hn' ltac:(cbn in Hl; lia)) as (I1 & I2 & I3).
    assert (La : (a < length h)%nat) by (apply nth_error_Some; congruence).
    unfold h_set in *. rewrite upd_length in I1. split; [exact I1|].
    split; [intros b Hb; rewrite I2 by (cbn in Hb; tauto); apply upd_other; intros ->; apply Hb; left; reflexivity|].
    intros [|n] b w Hb Hw; cbn in Hb, Hw.
    + injection Hb as <-. injection Hw as <-. exists i. split; [exact Hi|]. split; [|exact Hv].
      rewrite I2 by exact Ha. apply upd_same; exact La.
    + destruct (I3 n b w Hb Hw) as (j & Hj & T). exists j. split; [|exact T].
      rewrite upd_other in Hj; [exact Hj|]. intros ->. apply Ha. eapply nth_error_In; eauto.
Qed.

Lemma mapM_in {A B} (g : A -> outcome B) l r a : mapM g l = Ok r -> In a l -> exists n b, nth_error l n = Some a /\ nth_error r n = Some b /\ g a = Ok b.
Proof.
  intros H Hin. apply mapM_ok_nth in H as [Hl H]. apply In_nth_error in Hin as [n Hn].
  destruct (nth_error r n) as [b|] eqn:Hb; [eauto 6|].
  apply nth_error_None in Hb. assert (n < length l)%nat by (apply nth_error_Some; congruence). lia.
Qed.
Lemma mapM_in_r {A B} (g : A -> outcome B) l r b : mapM g l = Ok r -> In b r -> exists a, In a l /\ g a = Ok b.
Proof.
  intros H Hin. apply mapM_ok_nth in H as [Hl H]. apply In_nth_error in Hin as [n Hn].
  destruct (nth_error l n) as [a|] eqn:Ha; [exists a; split; [eapply nth_error_In; eauto|eauto]|].
  apply nth_error_None in Ha. assert (n < length r)%nat by (apply nth_error_Some; congruence). lia.
Qed.

(** ObtainFitness: everything it does to the heap and to the counter. [P] is any relation between keys and values that
    the cache respects and that the evaluated individuals respect. *)
Lemma obtain_spec P h k pop h2 k2 : obtain_fitness E hash f h k pop = Ok (h2, k2) -> NoDup pop -> cinv P k ->
  (forall a i v, In a pop -> nth_error h a = Some i -> f (i_par E i) = Ok v -> P (hash (i_chr E i)) v) ->
  cinv P k2 /\ length h2 = length h /\ (forall a, ~ In a pop -> nth_error h2 a = nth_error h a) /\
  (forall a, In a pop -> exists i v, nth_error h a = Some i /\ nth_error h2 a = Some (with_fit i v) /\
     d_ltb v (d_ofZ 0) = false /\ P (hash (i_chr E i)) v /\ (k_cache k = None -> f (i_par E i) = Ok v)) /\
  (k_cache k = None <-> k_cache k2 = None).
Proof.
  intros H Hn Hk Hf. unfold obtain_fitness in H. apply bind_ok in H as ([[h1 k1] todo] & Hp & H). cbv iota beta in H.
  destruct (process_spec P _ _ _ _ _ _ Hp Hn Hk) as (I1 & I2 & I3 & I4 & I5 & I6 & I7 & I8).
  apply bind_ok in H as (vs & Hvs & H). cbv zeta in H. apply bind_ok in H as (h3 & Ha & H).
  pose proof (mapM_ok_length _ _ _ Hvs) as Lvs.
  destruct (assign_spec _ _ _ _ Ha I5 Lvs) as (A1 & A2 & A3).
  assert (V : forall a, In a pop -> exists i v, nth_error h a = Some i /\ nth_error h3 a = Some (with_fit i v) /\
     d_ltb v (d_ofZ 0) = false /\ P (hash (i_chr E i)) v /\ (k_cache k = None -> f (i_par E i) = Ok v)).
  { intros a Hin. destruct (I6 a Hin) as (i & Hi & [[T1 T2]|(T1 & T2 & v & T3 & T4 & T5)]).
    - destruct (mapM_in _ _ _ a Hvs T1) as (n & v & Hn1 & Hn2 & Hg).
      apply bind_ok in Hg as (j & Hj & Hg). apply h_get_ok in Hj. rewrite T2 in Hj. injection Hj as <-.
      destruct (A3 n a v Hn1 Hn2) as (j & Hj & Hj2 & Hv). rewrite T2 in Hj. injection Hj as <-.
      exists i, v. split; [exact Hi|]. split; [exact Hj2|]. split; [exact Hv|]. split; [|auto]. eapply Hf; eauto.
    - exists i, v. split; [exact Hi|]. split; [rewrite A2 by exact T1; exact T3|]. split; [exact T4|]. split; [exact T5|contradiction]. }
  cbn [k_cache] in H. destruct (k_cache k1) as [c|] eqn:Kc.
  - apply bind_ok in H as (rs & Hrs & H). destruct (add_values Z dbl Z.eqb rs c) as [c' o] eqn:Ad.
    apply bind_ok in H as ([] & -> & H). injection H as <- <-. cbn [k_cache k_hits k_counts].
    unfold cinv in I1. rewrite Kc in I1.
    split; [apply (add_values_ok P c rs c' I1 Ad); intros key v Hin|].
    { apply (mapM_in_r _ _ _ _ Hrs) in Hin as (a & Hin & Hg). apply bind_ok in Hg as (i & Hi & Hg). apply h_get_ok in Hi.
      apply bind_ok in Hg as (w & Hw & Hg). injection Hg as <- <-.
      destruct (V a (I4 a Hin)) as (j & v & V1 & V2 & V3 & V4 & V5). rewrite V2 in Hi. injection Hi as <-.
      cbn in Hw |- *. injection Hw as <-. exact V4. }
    split; [lia|]. split; [intros a Hna; rewrite A2, I3; auto|]. split; [exact V|]. cbn. rewrite I7. split; discriminate.
  - injection H as <- <-. split; [exact I|]. split; [lia|]. split; [intros a Hna; rewrite A2, I3; auto|]. split; [exact V|]. cbn. tauto.
Qed.
End Counter.
