(** Lemmas about the cache model. *)
From Coq Require Import Reals Psatz.
From Flocq Require Import Core.Core IEEE754.BinarySingleNaN.
From Verif Require Import Base Num DblOrder FloatLemmas Cache.

Section S.
Variables K V : Type.
Variable keqb : K -> K -> bool.
Hypothesis keqb_spec : forall a b, keqb a b = true <-> a = b.

Notation lookup := (lookup K V keqb).
Notation put := (put K V keqb).
Notation touch := (touch K V keqb).
Notation MkStored := (MkStored V).

Lemma keqb_refl k : keqb k k = true.
Proof. apply keqb_spec. reflexivity. Qed.
Lemma keqb_neq a b : a <> b -> keqb a b = false.
Proof. intro H. destruct (keqb a b) eqn:E; [apply keqb_spec in E; contradiction|reflexivity]. Qed.
Lemma keqb_dec (a b : K) : a = b \/ a <> b.
Proof. destruct (keqb a b) eqn:E; [left; apply keqb_spec; exact E|right; intro H; apply keqb_spec in H; congruence]. Qed.

Lemma lookup_put_same k s m : lookup k (put k s m) = Some s.
Proof.
  induction m as [|[k' s'] m IH]; cbn; [rewrite keqb_refl; reflexivity|].
  destruct (keqb k k') eqn:E; cbn; rewrite E; auto.
Qed.
Lemma lookup_put_other k k' s m : k <> k' -> lookup k (put k' s m) = lookup k m.
Proof.
  intro H. induction m as [|[a s'] m IH]; cbn; [rewrite keqb_neq by exact H; reflexivity|].
  destruct (keqb k' a) eqn:E; cbn.
  - apply keqb_spec in E; subst a. rewrite keqb_neq by exact H. reflexivity.
  - destruct (keqb k a); auto.
Qed.
Lemma lookup_none k m : lookup k m = None <-> ~ In k (map fst m).
Proof.
  induction m as [|[a s] m IH]; cbn; [tauto|]. destruct (keqb k a) eqn:E.
  - apply keqb_spec in E; subst a. split; [discriminate|tauto].
  - rewrite IH. split; [intros H [X|X]; [subst; rewrite keqb_refl in E; discriminate|auto]|tauto].
Qed.
Lemma lookup_in k s m : lookup k m = Some s -> In (k, s) m.
Proof.
  induction m as [|[a s'] m IH]; cbn; [discriminate|]. destruct (keqb k a) eqn:E.
  - apply keqb_spec in E; subst a. intro H; inversion H; auto.
  - auto.
Qed.
Lemma in_lookup k s m : NoDup (map fst m) -> In (k, s) m -> lookup k m = Some s.
Proof.
  induction m as [|[a s'] m IH]; cbn; [tauto|]. intros Hn H. inversion Hn as [|? ? Ha Hn']; subst.
  destruct H as [H|H].
  - inversion H; subst. rewrite keqb_refl. reflexivity.
  - rewrite keqb_neq; [apply IH; auto|]. intro E; subst a. apply Ha. apply in_map_iff. exists (k, s). auto.
Qed.
Lemma put_keys k s m : map fst (put k s m) = if existsb (keqb k) (map fst m) then map fst m else map fst m ++ [k].
Proof.
  induction m as [|[a s'] m IH]; cbn; [reflexivity|]. destruct (keqb k a) eqn:E; cbn; [reflexivity|].
  rewrite IH. destruct (existsb (keqb k) (map fst m)); reflexivity.
Qed.
Lemma existsb_key k l : existsb (keqb k) l = true <-> In k l.
Proof.
  rewrite existsb_exists. split.
  - intros (x & Hx & E). apply keqb_spec in E; subst; exact Hx.
  - intro H. exists k. split; [exact H|apply keqb_refl].
Qed.
Lemma put_nodup k s m : NoDup (map fst m) -> NoDup (map fst (put k s m)).
Proof.
  intro H. rewrite put_keys. destruct (existsb (keqb k) (map fst m)) eqn:E; [exact H|].
  assert (~ In k (map fst m)) by (rewrite <- existsb_key; congruence).
  apply NoDup_rev in H. rewrite <- (rev_involutive (map fst m ++ [k])). apply NoDup_rev.
  rewrite rev_app_distr. cbn. constructor; [rewrite <- in_rev; assumption|exact H].
Qed.
Lemma put_length k s m : length (put k s m) = (length m + match lookup k m with Some _ => 0 | None => 1 end)%nat.
Proof.
  rewrite <- (map_length fst (put k s m)), put_keys, <- (map_length fst m).
  destruct (existsb (keqb k) (map fst m)) eqn:E.
  - apply existsb_key in E. destruct (lookup k m) eqn:L; [lia|]. apply lookup_none in L. contradiction.
  - destruct (lookup k m) eqn:L.
    + exfalso. apply lookup_in in L. assert (In k (map fst m)) by (apply in_map_iff; exists (k, s0); auto).
      apply existsb_key in H. congruence.
    + rewrite app_length. reflexivity.
Qed.
Lemma filter_nodup f (m : list (K * stored V)) : NoDup (map fst m) -> NoDup (map fst (filter f m)).
Proof.
  induction m as [|e m IH]; cbn; intro H; [exact H|]. inversion H as [|? ? Ha Hn]; subst.
  destruct (f e); cbn; [|auto]. constructor; [|auto]. intro X. apply Ha.
  apply in_map_iff in X. destruct X as (y & E & Hy). apply filter_In in Hy. apply in_map_iff. exists y. tauto.
Qed.
Lemma lookup_filter f k m : NoDup (map fst m) ->
  lookup k (filter f m) = match lookup k m with Some s => if f (k, s) then Some s else None | None => None end.
Proof.
  induction m as [|[a s] m IH]; cbn; intro H; [reflexivity|]. inversion H as [|? ? Ha Hn]; subst.
  destruct (keqb k a) eqn:E.
  - apply keqb_spec in E; subst a. destruct (f (k, s)) eqn:F; cbn; [rewrite keqb_refl; reflexivity|].
    rewrite IH by exact Hn. destruct (lookup k m) eqn:L; [|reflexivity].
    apply lookup_in in L. exfalso. apply Ha. apply in_map_iff. exists (k, s0). auto.
  - destruct (f (a, s)); cbn; [rewrite E|]; apply IH; exact Hn.
Qed.

(** invariant: distinct keys *)
Definition cwf (c : cache K V) : Prop := NoDup (map fst (c_map K V c)).

Lemma touch_spec k m : exists m', touch k m = (match lookup k m with Some s => s | None => MkStored None 0 end, m') /\
  (forall k', lookup k' m' = match lookup k' m with Some s => Some s | None => if keqb k' k then Some (MkStored None 0) else None end) /\
  (NoDup (map fst m) -> NoDup (map fst m')).
Proof.
  unfold Cache.touch. destruct (lookup k m) eqn:L.
  - exists m. split; [reflexivity|]. split; [|auto]. intro k'. destruct (lookup k' m) eqn:L'; [reflexivity|].
    destruct (keqb k' k) eqn:E; [apply keqb_spec in E; congruence|reflexivity].
  - exists (put k (MkStored None 0) m). split; [reflexivity|]. split; [|apply put_nodup]. intro k'.
    destruct (keqb_dec k' k) as [->|Ne].
    + rewrite lookup_put_same, L, keqb_refl. reflexivity.
    + rewrite lookup_put_other by exact Ne. rewrite (keqb_neq k' k Ne). destruct (lookup k' m); reflexivity.
Qed.

Lemma clear_wf c : cwf c -> cwf (fst (clear_up_to_limit K V c)).
Proof.
  intro H. unfold clear_up_to_limit. destruct (exceeded K V c).
  - destruct (exceeded K V (clear_unused K V 1 c)); cbn; apply filter_nodup; exact H.
  - destruct (exceeded K V c); exact H.
Qed.

(** an entry present after clearing was there, unchanged; an entry read at least once survives *)
Lemma clear_lookup c k : cwf c ->
  let c1 := fst (clear_up_to_limit K V c) in
  (forall s, lookup k (c_map K V c1) = Some s -> lookup k (c_map K V c) = Some s) /\
  (forall s, lookup k (c_map K V c) = Some s -> (1 <= sv_usage V s)%nat -> lookup k (c_map K V c1) = Some s).
Proof.
  intro H. unfold clear_up_to_limit.
  assert (G : forall c', (c' = clear_unused K V 1 c) ->
     (forall s, lookup k (c_map K V c') = Some s -> lookup k (c_map K V c) = Some s) /\
     (forall s, lookup k (c_map K V c) = Some s -> (1 <= sv_usage V s)%nat -> lookup k (c_map K V c') = Some s)).
  { intros c' ->. cbn [clear_unused with_map c_map]. rewrite lookup_filter by exact H. split.
    - intros s. destruct (lookup k (c_map K V c)); [|discriminate].
      match goal with |- context [if ?b then _ else _] => destruct b end; [auto|discriminate].
    - intros s -> Hs. cbn [snd]. destruct (Nat.ltb_spec (sv_usage V s) 1); [lia|reflexivity]. }
  destruct (exceeded K V c) eqn:E.
  - destruct (exceeded K V (clear_unused K V 1 c)); cbn [fst]; apply G; reflexivity.
  - rewrite E. cbn [fst]. auto.
Qed.


Lemma last_in_fold k rs : forall a : option V,
  fold_left (fun a (r : K * V) => if keqb k (fst r) then Some (snd r) else a) rs a =
  match fold_left (fun a (r : K * V) => if keqb k (fst r) then Some (snd r) else a) rs None with
  | Some v => Some v | None => a end.
Proof.
  induction rs as [|r rs IH]; intro a; [reflexivity|]. cbn [fold_left]. rewrite IH.
  destruct (keqb k (fst r)); [rewrite (IH (Some (snd r))); destruct (fold_left _ rs None); reflexivity|reflexivity].
Qed.
Lemma fold_put_lookup rs : forall m k,
  lookup k (fold_left (fun m (r : K * V) => put (fst r) (MkStored (Some (snd r)) 0) m) rs m) =
  match fold_left (fun a (r : K * V) => if keqb k (fst r) then Some (snd r) else a) rs None with
  | Some v => Some (MkStored (Some v) 0)
  | None => lookup k m
  end.
Proof.
  induction rs as [|r rs IH]; intros m k; [reflexivity|]. cbn [fold_left]. rewrite IH.
  rewrite (last_in_fold k rs (if keqb k (fst r) then Some (snd r) else None)).
  destruct (fold_left _ rs None); [reflexivity|].
  destruct (keqb k (fst r)) eqn:E.
  - apply keqb_spec in E; subst k. apply lookup_put_same.
  - apply lookup_put_other. intro X; subst k. rewrite keqb_refl in E. discriminate.
Qed.
Lemma fold_put_nodup rs : forall m, NoDup (map fst m) ->
  NoDup (map fst (fold_left (fun m (r : K * V) => put (fst r) (MkStored (Some (snd r)) 0) m) rs m)).
Proof. induction rs as [|r rs IH]; intros m H; [exact H|]. cbn. apply IH. apply put_nodup. exact H. Qed.

Lemma cstep_wf c o : cwf c -> cwf (fst (cstep K V keqb c o)).
Proof.
  intro H. destruct o as [k|k|k v|rs]; cbn [cstep].
  - unfold is_cached. destruct (touch_spec k (c_map K V c)) as (m' & -> & _ & Hn). cbn. apply Hn. exact H.
  - unfold get_cached. destruct (touch_spec k (c_map K V c)) as (m' & -> & _ & Hn).
    destruct (sv_value _ _); cbn; [apply put_nodup|]; apply Hn; exact H.
  - unfold add_value. pose proof (clear_wf c H). destruct (clear_up_to_limit K V c) as [c1 [u|e|u]]; cbn in *; auto.
    apply put_nodup. exact H0.
  - unfold add_values. pose proof (clear_wf c H). destruct (clear_up_to_limit K V c) as [c1 [u|e|u]]; cbn in *; auto.
    apply fold_put_nodup. exact H0.
Qed.
Lemma cafter_wf os : forall c, cwf c -> cwf (cafter K V keqb c os).
Proof. induction os as [|o os IH]; intros c H; [exact H|]. cbn. apply IH, cstep_wf, H. Qed.
Lemma cafter_app os1 os2 : forall c, cafter K V keqb c (os1 ++ os2) = cafter K V keqb (cafter K V keqb c os1) os2.
Proof. induction os1 as [|o os IH]; intro c; [reflexivity|]. cbn. apply IH. Qed.
Lemma ctrace_app os1 os2 : forall c, ctrace K V keqb c (os1 ++ os2) = ctrace K V keqb c os1 ++ ctrace K V keqb (cafter K V keqb c os1) os2.
Proof. induction os1 as [|o os IH]; intro c; [reflexivity|]. cbn. f_equal. apply IH. Qed.
Lemma cstep_const c o : c_limit K V (fst (cstep K V keqb c o)) = c_limit K V c /\ c_bytes K V (fst (cstep K V keqb c o)) = c_bytes K V c.
Proof.
  assert (G : c_limit K V (fst (clear_up_to_limit K V c)) = c_limit K V c /\ c_bytes K V (fst (clear_up_to_limit K V c)) = c_bytes K V c).
  { unfold clear_up_to_limit. destruct (exceeded K V c) eqn:E.
    - destruct (exceeded K V (clear_unused K V 1 c)); cbn; auto.
    - rewrite E. auto. }
  destruct o as [k|k|k v|rs]; cbn [cstep].
  - unfold is_cached. destruct (touch_spec k (c_map K V c)) as (m' & -> & _). auto.
  - unfold get_cached. destruct (touch_spec k (c_map K V c)) as (m' & -> & _). destruct (sv_value _ _); auto.
  - unfold add_value. destruct (clear_up_to_limit K V c) as [c1 [u|e|u]]; cbn in *; auto.
  - unfold add_values. destruct (clear_up_to_limit K V c) as [c1 [u|e|u]]; cbn in *; auto.
Qed.

(** what one observed step stores for key [k]: Some v if it stored v *)
Definition stores (k : K) (e : cop K V * cres V) : option V :=
  match e with
  | (Add _ _ k' v, RAdd _ (Ok _)) => if keqb k k' then Some v else None
  | (AddMany _ _ rs, RAdd _ (Ok _)) => fold_left (fun a r => if keqb k (fst r) then Some (snd r) else a) rs None
  | _ => None
  end.

(** effect of one step on the entry of key k *)
Lemma cstep_entry c o k : cwf c ->
  let c' := fst (cstep K V keqb c o) in
  match stores k (o, snd (cstep K V keqb c o)) with
  | Some v => lookup k (c_map K V c') = Some (MkStored (Some v) 0)
  | None =>
      (forall s', lookup k (c_map K V c') = Some s' -> sv_value V s' <> None ->
         exists s, lookup k (c_map K V c) = Some s /\ sv_value V s = sv_value V s' /\ (sv_usage V s <= sv_usage V s')%nat) /\
      (forall s, lookup k (c_map K V c) = Some s -> (1 <= sv_usage V s)%nat -> 
         exists s', lookup k (c_map K V c') = Some s' /\ sv_value V s' = sv_value V s /\ (sv_usage V s <= sv_usage V s')%nat)
  end.
Proof.
  intro H. destruct o as [k'|k'|k' v|rs]; cbn [cstep].
  - unfold is_cached. destruct (touch_spec k' (c_map K V c)) as (m' & -> & Hl & _). cbn.
    split.
    + intros s' L Hv. rewrite Hl in L. destruct (lookup k (c_map K V c)) as [s|].
      * exists s. inversion L; subst. auto.
      * destruct (keqb k k'); inversion L; subst; cbn in Hv; congruence.
    + intros s L Hu. exists s. rewrite Hl, L. auto.
  - unfold get_cached. destruct (touch_spec k' (c_map K V c)) as (m' & -> & Hl & _).
    set (s0 := match lookup k' (c_map K V c) with Some s => s | None => MkStored None 0 end).
    assert (Hm : forall s, lookup k m' = Some s -> sv_value V s <> None -> lookup k (c_map K V c) = Some s).
    { intros s L Hv. rewrite Hl in L. destruct (lookup k (c_map K V c)); [exact L|].
      destruct (keqb k k'); inversion L; subst; cbn in Hv; congruence. }
    destruct (sv_value V s0) as [v|] eqn:Ev; cbn.
    + destruct (keqb_dec k k') as [<-|Ne].
      * rewrite lookup_put_same. destruct (lookup k (c_map K V c)) as [s|] eqn:L; [|subst s0; discriminate].
        subst s0. split.
        -- intros s' X _. inversion X; subst. exists s. cbn. rewrite Ev. auto.
        -- intros s1 X Hu. inversion X; subst. eexists. split; [reflexivity|]. cbn. rewrite Ev. auto.
      * rewrite lookup_put_other by exact Ne. split.
        -- intros s' L Hv. exists s'. auto.
        -- intros s L Hu. exists s. rewrite Hl, L. auto.
    + split.
      * intros s' L Hv. exists s'. auto.
      * intros s L Hu. exists s. rewrite Hl, L. auto.
  - unfold add_value. pose proof (clear_lookup c k H) as [Hc1 Hc2]. cbv zeta in Hc1, Hc2.
    destruct (clear_up_to_limit K V c) as [c1 [u|e|u]]; cbn [fst snd stores with_map c_map] in *.
    + destruct (keqb k k') eqn:E.
      * apply keqb_spec in E; subst k'. apply lookup_put_same.
      * rewrite lookup_put_other by (intro X; subst; rewrite keqb_refl in E; discriminate).
        split; [intros s' L _; exists s'; auto|intros s L Hu; exists s; auto].
    + split; [intros s' L _; exists s'; auto|intros s L Hu; exists s; auto].
    + split; [intros s' L _; exists s'; auto|intros s L Hu; exists s; auto].
  - unfold add_values. pose proof (clear_lookup c k H) as [Hc1 Hc2]. cbv zeta in Hc1, Hc2.
    destruct (clear_up_to_limit K V c) as [c1 [u|e|u]]; cbn [fst snd stores with_map c_map] in *.
    + rewrite fold_put_lookup.
      destruct (fold_left (fun a r => if keqb k (fst r) then Some (snd r) else a) rs None); [reflexivity|].
      split; [intros s' L _; exists s'; auto|intros s L Hu; exists s; auto].
    + split; [intros s' L _; exists s'; auto|intros s L Hu; exists s; auto].
    + split; [intros s' L _; exists s'; auto|intros s L Hu; exists s; auto].
Qed.

Lemma get_result c k : snd (cstep K V keqb c (Get K V k)) = RGet V
  (match lookup k (c_map K V c) with Some s => match sv_value V s with Some v => Ok v | None => Throw RuntimeError end
   | None => Throw RuntimeError end).
Proof.
  cbn [cstep]. unfold get_cached. destruct (touch_spec k (c_map K V c)) as (m' & -> & _).
  destruct (lookup k (c_map K V c)) as [s|]; [destruct (sv_value V s)|]; reflexivity.
Qed.
Lemma is_cached_result c k : snd (cstep K V keqb c (IsCached K V k)) = RBool V
  (match lookup k (c_map K V c) with Some s => match sv_value V s with Some _ => true | None => false end | None => false end).
Proof.
  cbn [cstep]. unfold is_cached. destruct (touch_spec k (c_map K V c)) as (m' & -> & _).
  destruct (lookup k (c_map K V c)) as [s|]; [destruct (sv_value V s)|]; reflexivity.
Qed.
End S.

(** ** size limit in binary64 *)
Lemma d_ofZ_rnd z : (0 <= z < 2 ^ 64)%Z -> is_finite (d_ofZ z) = true /\ B2R (d_ofZ z) = rnd64 (IZR z).
Proof.
  intro Hz. unfold d_ofZ, d_of.
  pose proof (binary_normalize_correct dprec demax dprec_gt_0 dprec_lt_emax mode_NE z 0 false) as H.
  cbv zeta in H. assert (HF : F2R (beta:=radix2) {| Fnum := z; Fexp := 0 |} = IZR z) by (unfold F2R; cbn; ring).
  rewrite HF in H.
  rewrite Rlt_bool_true in H; [tauto|].
  change (Rabs (rnd64 (IZR z)) < bpow radix2 1024)%R.
  assert (0 <= IZR z <= bpow radix2 64)%R.
  { split; [apply IZR_le; lia|]. rewrite <- (IZR_Zpower radix2 64) by lia. apply IZR_le. change (Zpower radix2 64) with (2 ^ 64)%Z. lia. }
  assert (0 <= rnd64 (IZR z) <= bpow radix2 64)%R.
  { split; [apply rnd_ge_fmt; [lra|apply (fmt_IZR 0); cbn; lia]|].
    apply rnd_le_fmt; [lra|]. apply generic_format_bpow'; [typeclasses eauto|]. unfold FLT_exp. lia. }
  rewrite Rabs_pos_eq by lra. apply Rle_lt_trans with (bpow radix2 64); [lra|apply bpow_lt; lia].
Qed.

Lemma over_mono limit bytes n m : (0 <= bytes)%Z -> (bytes * Z.of_nat m < 2 ^ 64)%Z -> (n <= m)%nat ->
  over limit bytes n = true -> over limit bytes m = true.
Proof.
  intros Hb Hm Hnm. unfold over.
  destruct (d_ofZ_rnd (bytes * Z.of_nat n)) as [F1 V1]; [nia|].
  destruct (d_ofZ_rnd (bytes * Z.of_nat m)) as [F2 V2]; [nia|].
  destruct (d_ofZ_exact 1048576) as [_ V3]; [lia|].
  assert (Hdiv : forall x : dbl, is_finite x = true -> (0 <= B2R x)%R -> is_finite (d_div x (d_ofZ 1048576)) = true /\
    B2R (d_div x (d_ofZ 1048576)) = rnd64 (B2R x / 1048576)).
  { intros x Fx Px. rewrite <- V3. apply d_div_finite; [exact Fx|rewrite V3; lra|]. rewrite V3.
    assert (0 <= rnd64 (B2R x / 1048576) <= B2R x)%R.
    { split; [apply rnd_ge_fmt; [lra|apply (fmt_IZR 0); cbn; lia]|apply rnd_le_fmt; [lra|apply fmt_dbl]]. }
    rewrite Rabs_pos_eq by lra. apply Rle_lt_trans with (B2R x); [lra|].
    apply Rle_lt_trans with (Rabs (B2R x)); [apply Rle_abs|apply dbl_lt_max]. }
  assert (P1 : (0 <= B2R (d_ofZ (bytes * Z.of_nat n)) <= B2R (d_ofZ (bytes * Z.of_nat m)))%R).
  { rewrite V1, V2. split; [apply rnd_ge_fmt; [apply IZR_le; nia|apply (fmt_IZR 0); cbn; lia]|].
    apply rnd_le. apply IZR_le. nia. }
  destruct (Hdiv _ F1) as [G1 W1]; [lra|]. destruct (Hdiv _ F2) as [G2 W2]; [lra|].
  assert (L : d_leb (d_div (d_ofZ (bytes * Z.of_nat n)) (d_ofZ 1048576)) (d_div (d_ofZ (bytes * Z.of_nat m)) (d_ofZ 1048576)) = true).
  { apply d_leb_R; auto. rewrite W1, W2. apply rnd_le. lra. }
  apply d_leb_key in L. destruct L as (_ & N2 & L).
  intro H. apply d_ltb_key in H. destruct H as (N1 & _ & H). apply d_ltb_key. repeat split; auto. lia.
Qed.
