(** C15, C16: the cache, over every history of public calls. *)
From Coq Require Import Reals Psatz.
From Verif Require Import Base Num Cache CacheProofs.

(** *** Specification vocabulary: what an observed trace says was stored last for a key.
    A failed add stores nothing; in a batch the last record for the key counts. *)
Section Spec.
Variables K V : Type.
Variable keqb : K -> K -> bool.
Fixpoint last_stored (k : K) (tr : list (cop K V * cres V)) (acc : option V) : option V :=
  match tr with
  | [] => acc
  | (Add _ _ k' v, RAdd _ (Ok _)) :: r => last_stored k r (if keqb k k' then Some v else acc)
  | (AddMany _ _ rs, RAdd _ (Ok _)) :: r =>
      last_stored k r (fold_left (fun a x => if keqb k (fst x) then Some (snd x) else a) rs acc)
  | _ :: r => last_stored k r acc
  end.
(** the trace contains no successful add for the key *)
Definition untouched (k : K) (e : cop K V * cres V) : Prop :=
  match e with
  | (Add _ _ k' _, RAdd _ (Ok _)) => k' <> k
  | (AddMany _ _ rs, RAdd _ (Ok _)) => ~ In k (map fst rs)
  | _ => True
  end.
End Spec.

Section S.
Variables K V : Type.
Variable keqb : K -> K -> bool.
Hypothesis keqb_spec : forall a b, keqb a b = true <-> a = b.

Lemma last_stored_step k e r acc : last_stored K V keqb k (e :: r) acc =
  last_stored K V keqb k r (match stores K V keqb k e with Some v => Some v | None => acc end).
Proof.
  destruct e as [[k'|k'|k' v|rs] res]; cbn; try reflexivity.
  - destruct res as [b|o|[u|e|u]]; cbn; try reflexivity. destruct (keqb k k'); reflexivity.
  - destruct res as [b|o|[u|e|u]]; cbn; try reflexivity. f_equal. apply last_in_fold.
Qed.

Lemma entry_last os : forall c k acc, cwf K V c ->
  (forall s v, lookup K V keqb k (c_map K V c) = Some s -> sv_value V s = Some v -> acc = Some v) ->
  forall s v, lookup K V keqb k (c_map K V (cafter K V keqb c os)) = Some s -> sv_value V s = Some v ->
    last_stored K V keqb k (ctrace K V keqb c os) acc = Some v.
Proof.
  induction os as [|o os IH]; intros c k acc Hwf Hacc s v; [intros L E; cbn; eauto|].
  cbn [cafter ctrace]. rewrite last_stored_step. apply IH; [apply cstep_wf; assumption|].
  pose proof (cstep_entry K V keqb keqb_spec c o k Hwf) as H. cbv zeta in H.
  intros s' v' L E. destruct (stores K V keqb k (o, snd (cstep K V keqb c o))) as [w|].
  - rewrite H in L. inversion L; subst. cbn in E. congruence.
  - destruct (proj1 H s' L) as (s0 & L0 & E0 & _); [congruence|]. eapply Hacc; [exact L0|congruence].
Qed.

Lemma fold_none k (rs : list (K * V)) : ~ In k (map fst rs) ->
  fold_left (fun a (r : K * V) => if keqb k (fst r) then Some (snd r) else a) rs None = None.
Proof.
  induction rs as [|r rs IH]; intro H; [reflexivity|]. cbn [fold_left]. cbn in H.
  rewrite keqb_neq; [apply IH; tauto|exact keqb_spec|]. intro E; apply H; left; congruence.
Qed.
Lemma fold_some (rs : list (K * V)) k : In k (map fst rs) ->
  exists pre w post, rs = pre ++ (k, w) :: post /\ ~ In k (map fst post) /\
  fold_left (fun a (r : K * V) => if keqb k (fst r) then Some (snd r) else a) rs None = Some w.
Proof.
  induction rs as [|[a w] rs IH]; [intros []|]. intro H.
  assert (D : In k (map fst rs) \/ ~ In k (map fst rs)).
  { destruct (existsb (keqb k) (map fst rs)) eqn:E; [left|right]; rewrite <- (existsb_key K keqb keqb_spec); [exact E|congruence]. }
  destruct D as [D|D].
  - destruct (IH D) as (pre & w' & post & -> & Hn & Hf). exists ((a, w) :: pre), w', post.
    split; [reflexivity|]. split; [exact Hn|]. cbn [fold_left fst snd].
    rewrite last_in_fold. rewrite Hf. reflexivity.
  - destruct H as [H|H]; [|contradiction]. cbn in H. subst a. exists [], w, rs. split; [reflexivity|]. split; [exact D|].
    cbn [fold_left fst snd]. rewrite keqb_refl by exact keqb_spec. rewrite last_in_fold, fold_none by exact D. reflexivity.
Qed.

Lemma kept os : forall c k s, cwf K V c -> lookup K V keqb k (c_map K V c) = Some s -> (1 <= sv_usage V s)%nat ->
  Forall (untouched K V k) (ctrace K V keqb c os) ->
  exists s', lookup K V keqb k (c_map K V (cafter K V keqb c os)) = Some s' /\ sv_value V s' = sv_value V s /\ (1 <= sv_usage V s')%nat.
Proof.
  induction os as [|o os IH]; intros c k s Hwf L Hu Hf; [eauto|].
  cbn [cafter ctrace] in *. inversion Hf as [|? ? Hh Ht]; subst.
  pose proof (cstep_entry K V keqb keqb_spec c o k Hwf) as H. cbv zeta in H.
  assert (Hn : stores K V keqb k (o, snd (cstep K V keqb c o)) = None).
  { destruct o as [k'|k'|k' v|rs]; cbn [stores]; try reflexivity;
    destruct (snd (cstep K V keqb c _)) as [b|r|[u|e|u]]; try reflexivity; cbn [untouched] in Hh.
    - rewrite keqb_neq; auto.
    - apply fold_none. exact Hh. }
  rewrite Hn in H. destruct (proj2 H s L Hu) as (s1 & L1 & E1 & U1).
  destruct (IH _ k s1 (cstep_wf K V keqb keqb_spec c o Hwf) L1 ltac:(lia) Ht) as (s2 & L2 & E2 & U2).
  exists s2. split; [exact L2|]. split; [congruence|exact U2].
Qed.

Lemma create_wf bytes limit c0 : c_create K V bytes limit = Some c0 ->
  cwf K V c0 /\ c_map K V c0 = [] /\ c_limit K V c0 = limit /\ c_bytes K V c0 = bytes.
Proof.
  unfold c_create. destruct (d_ltb (d_ofZ 0) limit); [|discriminate]. intro H; injection H as <-.
  split; [constructor|auto].
Qed.

(** ** C15 *)

(** a value read is the value most recently stored for that key, over every history *)
Theorem C15_get_returns_last_stored : forall bytes limit c0 os k v,
  c_create K V bytes limit = Some c0 ->
  snd (cstep K V keqb (cafter K V keqb c0 os) (Get K V k)) = RGet V (Ok v) ->
  last_stored K V keqb k (ctrace K V keqb c0 os) None = Some v.
Proof.
  intros bytes limit c0 os k v Hc Hg. destruct (create_wf _ _ _ Hc) as (Hwf & Hm & _).
  rewrite get_result in Hg by exact keqb_spec.
  destruct (lookup K V keqb k (c_map K V (cafter K V keqb c0 os))) as [s|] eqn:L; [|discriminate].
  destruct (sv_value V s) as [w|] eqn:E; [|discriminate]. assert (w = v) by congruence. subst w.
  eapply entry_last; eauto. rewrite Hm. discriminate.
Qed.

(** IsCached tells whether GetCachedValue would succeed, and asking does not change the answer of GetCachedValue *)
Theorem C15_is_cached_iff : forall bytes limit c0 os k,
  c_create K V bytes limit = Some c0 ->
  let c := cafter K V keqb c0 os in
  (snd (cstep K V keqb c (IsCached K V k)) = RBool V true <-> exists v, snd (cstep K V keqb c (Get K V k)) = RGet V (Ok v)) /\
  (snd (cstep K V keqb c (IsCached K V k)) = RBool V false <-> snd (cstep K V keqb c (Get K V k)) = RGet V (Throw RuntimeError)) /\
  (forall k', snd (cstep K V keqb (fst (cstep K V keqb c (IsCached K V k))) (Get K V k')) = snd (cstep K V keqb c (Get K V k'))).
Proof.
  intros bytes limit c0 os k Hc c.
  rewrite is_cached_result, get_result by exact keqb_spec.
  split; [|split].
  - destruct (lookup K V keqb k (c_map K V c)) as [s|]; [destruct (sv_value V s) as [v|]|];
      split; intros H; try discriminate; eauto; destruct H; discriminate.
  - destruct (lookup K V keqb k (c_map K V c)) as [s|]; [destruct (sv_value V s) as [v|]|]; split; intros H; congruence.
  - intro k'. rewrite !get_result by exact keqb_spec. cbn [cstep]. unfold is_cached.
    destruct (touch_spec K V keqb keqb_spec k (c_map K V c)) as (m' & -> & Hl & _). cbn [fst with_map c_map].
    rewrite Hl. destruct (lookup K V keqb k' (c_map K V c)) as [s|]; [reflexivity|].
    destruct (keqb k' k); reflexivity.
Qed.

(** a value that was read is still there, unchanged, as long as nothing is stored for that key *)
Theorem C15_read_values_never_evicted : forall bytes limit c0 os1 os2 k v,
  c_create K V bytes limit = Some c0 ->
  snd (cstep K V keqb (cafter K V keqb c0 os1) (Get K V k)) = RGet V (Ok v) ->
  Forall (untouched K V k) (ctrace K V keqb (cafter K V keqb c0 (os1 ++ [Get K V k])) os2) ->
  snd (cstep K V keqb (cafter K V keqb c0 (os1 ++ Get K V k :: os2)) (Get K V k)) = RGet V (Ok v).
Proof.
  intros bytes limit c0 os1 os2 k v Hc Hg Hu. destruct (create_wf _ _ _ Hc) as (Hwf & _).
  replace (os1 ++ Get K V k :: os2) with ((os1 ++ [Get K V k]) ++ os2) by (rewrite <- app_assoc; reflexivity).
  rewrite cafter_app. rewrite cafter_app in Hu |- *. cbn [cafter] in Hu |- *.
  set (c := cafter K V keqb c0 os1) in *.
  assert (Hwfc : cwf K V c) by (apply cafter_wf; assumption).
  assert (L : exists s, lookup K V keqb k (c_map K V (fst (cstep K V keqb c (Get K V k)))) = Some s /\ sv_value V s = Some v /\ (1 <= sv_usage V s)%nat).
  { rewrite get_result in Hg by exact keqb_spec. cbn [cstep]. unfold get_cached.
    destruct (touch_spec K V keqb keqb_spec k (c_map K V c)) as (m' & -> & Hl & _).
    destruct (lookup K V keqb k (c_map K V c)) as [s|]; [|discriminate].
    destruct (sv_value V s) as [w|]; [|discriminate]. assert (w = v) by congruence. subst w.
    cbn [fst with_map c_map]. rewrite lookup_put_same by exact keqb_spec. eexists. split; [reflexivity|]. cbn. split; [reflexivity|lia]. }
  destruct L as (s & L & E & U).
  destruct (kept os2 _ k s (cstep_wf K V keqb keqb_spec c (Get K V k) Hwfc) L U Hu) as (s' & L' & E' & _).
  rewrite get_result by exact keqb_spec. rewrite L', E', E. reflexivity.
Qed.

(** a value just stored can be read back (single add and batch: the last record of the batch for that key) *)
Theorem C15_add_then_get : forall bytes limit c0 os k v rs,
  c_create K V bytes limit = Some c0 ->
  let c := cafter K V keqb c0 os in
  (snd (cstep K V keqb c (Add K V k v)) = RAdd V (Ok tt) ->
     snd (cstep K V keqb (fst (cstep K V keqb c (Add K V k v))) (Get K V k)) = RGet V (Ok v)) /\
  (snd (cstep K V keqb c (AddMany K V rs)) = RAdd V (Ok tt) -> In k (map fst rs) ->
     exists pre w post, rs = pre ++ (k, w) :: post /\ ~ In k (map fst post) /\
     snd (cstep K V keqb (fst (cstep K V keqb c (AddMany K V rs))) (Get K V k)) = RGet V (Ok w)).
Proof.
  intros bytes limit c0 os k v rs Hc c. destruct (create_wf _ _ _ Hc) as (Hwf & _).
  assert (Hwfc : cwf K V c) by (apply cafter_wf; assumption). split.
  - intro H. rewrite get_result by exact keqb_spec.
    pose proof (cstep_entry K V keqb keqb_spec c (Add K V k v) k Hwfc) as E. cbv zeta in E. rewrite H in E.
    cbn [stores] in E. rewrite keqb_refl in E by exact keqb_spec. rewrite E. reflexivity.
  - intros H Hin. rewrite get_result by exact keqb_spec.
    pose proof (cstep_entry K V keqb keqb_spec c (AddMany K V rs) k Hwfc) as E. cbv zeta in E. rewrite H in E.
    cbn [stores] in E. destruct (fold_some rs k Hin) as (pre & w & post & Hrs & Hn & Hf).
    rewrite Hf in E. exists pre, w, post. split; [exact Hrs|]. split; [exact Hn|]. rewrite E. reflexivity.
Qed.

(** ** C16 *)

(** number of entries, and of entries read since they were stored *)
Definition size (c : cache K V) : nat := length (c_map K V c).
Definition used (c : cache K V) : nat := length (filter (fun e => Nat.leb 1 (sv_usage V (snd e))) (c_map K V c)).

Lemma filter_eq (l : list (K * stored V)) : filter (fun e => negb (Nat.ltb (sv_usage V (snd e)) 1)) l =
  filter (fun e => Nat.leb 1 (sv_usage V (snd e))) l.
Proof. apply filter_ext. intros [k s]. cbn [snd]. destruct (sv_usage V s) as [|n]; reflexivity. Qed.

Lemma filter_len {A} (f : A -> bool) (l : list A) : (length (filter f l) <= length l)%nat.
Proof. induction l as [|e l IH]; cbn; [lia|]. destruct (f e); cbn; lia. Qed.

Lemma clear_result c : 
  clear_up_to_limit K V c =
  if exceeded K V c
  then (clear_unused K V 1 c, if over (c_limit K V c) (c_bytes K V c) (used c) then Throw RuntimeError else Ok tt)
  else (c, Ok tt).
Proof.
  unfold clear_up_to_limit. destruct (exceeded K V c) eqn:E; [|rewrite E; reflexivity].
  unfold exceeded at 1, clear_unused at 1 2 3. cbn [with_map c_limit c_bytes c_map]. rewrite filter_eq. fold (used c).
  destruct (over (c_limit K V c) (c_bytes K V c) (used c)); reflexivity.
Qed.

Lemma put_size_le k s m : (length (put K V keqb k s m) <= S (length m))%nat.
Proof. rewrite put_length by exact keqb_spec. destruct (lookup _ _ _ _ _); lia. Qed.
Lemma fold_put_size rs : forall m, (length (fold_left (fun m (r : K * V) => put K V keqb (fst r) (MkStored V (Some (snd r)) 0) m) rs m) <= length m + length rs)%nat.
Proof.
  induction rs as [|r rs IH]; intro m; [cbn; lia|]. cbn [fold_left length].
  eapply Nat.le_trans; [apply IH|]. pose proof (put_size_le (fst r) (MkStored V (Some (snd r)) 0) m). lia.
Qed.

(** when an add fails, and what it does to the size when it succeeds *)
Theorem C16_add : forall c k v rs,
  let lim n := over (c_limit K V c) (c_bytes K V c) n in
  (forall o, o = Add K V k v \/ o = AddMany K V rs ->
     (snd (cstep K V keqb c o) = RAdd V (Throw RuntimeError) <-> lim (size c) = true /\ lim (used c) = true) /\
     (snd (cstep K V keqb c o) = RAdd V (Ok tt) <-> lim (size c) = false \/ lim (used c) = false) /\
     (snd (cstep K V keqb c o) = RAdd V (Throw RuntimeError) ->
        c_map K V (fst (cstep K V keqb c o)) = filter (fun e => Nat.leb 1 (sv_usage V (snd e))) (c_map K V c))) /\
  (snd (cstep K V keqb c (Add K V k v)) = RAdd V (Ok tt) ->
     exists n, (n <= size c)%nat /\ lim n = false /\ (size (fst (cstep K V keqb c (Add K V k v))) <= S n)%nat) /\
  (snd (cstep K V keqb c (AddMany K V rs)) = RAdd V (Ok tt) ->
     exists n, (n <= size c)%nat /\ lim n = false /\ (size (fst (cstep K V keqb c (AddMany K V rs))) <= n + length rs)%nat).
Proof.
  intros c k v rs lim.
  assert (Hu : (used c <= size c)%nat) by (apply filter_len).
  assert (Ex : exceeded K V c = lim (size c)) by reflexivity.
  split; [|split].
  - intros o [-> | ->]; cbn [cstep]; unfold add_value, add_values; rewrite clear_result, Ex; fold (lim (used c));
      destruct (lim (size c)); try destruct (lim (used c)); cbn [fst snd clear_unused with_map c_map];
      (split; [|split]); try split; intro H; try discriminate; try tauto; try reflexivity;
      try (destruct H; discriminate); try apply filter_eq.
  - cbn [cstep]. unfold add_value. rewrite clear_result, Ex. fold (lim (used c)).
    destruct (lim (size c)) eqn:E1; [destruct (lim (used c)) eqn:E2|]; cbn [fst snd]; intro H; [discriminate| |].
    + exists (used c). split; [exact Hu|]. split; [exact E2|]. unfold size. cbn [with_map c_map clear_unused].
      rewrite filter_eq. apply put_size_le.
    + exists (size c). split; [lia|]. split; [exact E1|]. unfold size. cbn [with_map c_map]. apply put_size_le.
  - cbn [cstep]. unfold add_values. rewrite clear_result, Ex. fold (lim (used c)).
    destruct (lim (size c)) eqn:E1; [destruct (lim (used c)) eqn:E2|]; cbn [fst snd]; intro H; [discriminate| |].
    + exists (used c). split; [exact Hu|]. split; [exact E2|]. unfold size. cbn [with_map c_map clear_unused].
      rewrite filter_eq. apply fold_put_size.
    + exists (size c). split; [lia|]. split; [exact E1|]. unfold size. cbn [with_map c_map]. apply fold_put_size.
Qed.

(** a query of an unknown key adds an entry; queries never fail, so n distinct unknown keys add n entries *)
Theorem C16_queries_grow : forall c ks, NoDup ks -> (forall k, In k ks -> ~ In k (map fst (c_map K V c))) ->
  size (cafter K V keqb c (map (IsCached K V) ks)) = (size c + length ks)%nat /\
  c_limit K V (cafter K V keqb c (map (IsCached K V) ks)) = c_limit K V c.
Proof.
  intros c ks. revert c. induction ks as [|k ks IH]; intros c Hn Hk; [cbn; split; [lia|reflexivity]|].
  inversion Hn as [|? ? Hk' Hn']; subst. cbn [map cafter length].
  assert (L : lookup K V keqb k (c_map K V c) = None) by (apply lookup_none; [exact keqb_spec|apply Hk; left; reflexivity]).
  assert (E : fst (cstep K V keqb c (IsCached K V k)) = with_map K V c (put K V keqb k (MkStored V None 0) (c_map K V c))).
  { cbn [cstep]. unfold is_cached, touch. rewrite L. reflexivity. }
  rewrite E. destruct (IH (with_map K V c (put K V keqb k (MkStored V None 0) (c_map K V c))) Hn') as [H1 H2].
  - intros k1 Hk1. cbn [with_map c_map]. rewrite put_keys.
    destruct (existsb (keqb k) (map fst (c_map K V c))); [apply Hk; right; exact Hk1|].
    intro X. apply in_app_or in X. destruct X as [X|[X|[]]]; [apply (Hk k1); [right; exact Hk1|exact X]|subst; contradiction].
  - rewrite H1, H2. split; [|reflexivity]. unfold size. cbn [with_map c_map]. rewrite put_length by exact keqb_spec.
    rewrite L. lia.
Qed.

Lemma used_put_ge k s m : NoDup (map fst m) -> 
  (forall s0, lookup K V keqb k m = Some s0 -> (1 <= sv_usage V s0)%nat -> (1 <= sv_usage V s)%nat) ->
  (length (filter (fun e => Nat.leb 1 (sv_usage V (snd e))) m) <=
   length (filter (fun e => Nat.leb 1 (sv_usage V (snd e))) (put K V keqb k s m)))%nat.
Proof.
  induction m as [|[a s1] m IH]; intros Hn H; [cbn; lia|]. inversion Hn as [|? ? Ha Hn']; subst.
  cbn [put lookup] in *. destruct (keqb k a) eqn:E.
  - cbn [filter snd]. specialize (H s1 eq_refl).
    destruct (Nat.leb_spec 1 (sv_usage V s1)), (Nat.leb_spec 1 (sv_usage V s)); cbn [length]; lia.
  - cbn [filter snd]. specialize (IH Hn' H). destruct (Nat.leb 1 (sv_usage V s1)); cbn [length]; lia.
Qed.

Lemma filter_idem {A} (f : A -> bool) (l : list A) : filter f (filter f l) = filter f l.
Proof. induction l as [|e l IH]; cbn; [reflexivity|]. destruct (f e) eqn:E; cbn; [rewrite E, IH; reflexivity|exact IH]. Qed.
Lemma failed_map c o : (exists k v, o = Add K V k v) \/ (exists rs, o = AddMany K V rs) ->
  snd (cstep K V keqb c o) = RAdd V (Throw RuntimeError) ->
  c_map K V (fst (cstep K V keqb c o)) = filter (fun e => Nat.leb 1 (sv_usage V (snd e))) (c_map K V c).
Proof.
  intros [(k & v & ->)|(rs & ->)]; cbn [cstep]; unfold add_value, add_values; rewrite clear_result;
    destruct (exceeded K V c); try discriminate; destruct (over _ _ (used c)); try discriminate;
    intros _; cbn [fst clear_unused with_map c_map]; apply filter_eq.
Qed.

(** the used entries never shrink as long as adds fail *)
Lemma used_step c o : cwf K V c ->
  (match o with Add _ _ _ _ | AddMany _ _ _ => snd (cstep K V keqb c o) = RAdd V (Throw RuntimeError) | _ => True end) ->
  (used c <= used (fst (cstep K V keqb c o)))%nat.
Proof.
  intros Hwf. destruct o as [k|k|k v|rs].
  - intros _. cbn [cstep]. unfold is_cached, touch. destruct (lookup K V keqb k (c_map K V c)) eqn:L; cbn [fst].
    + unfold used. cbn. lia.
    + unfold used. cbn [with_map c_map]. apply used_put_ge; [exact Hwf|]. rewrite L. discriminate.
  - intros _. cbn [cstep]. unfold get_cached, touch. destruct (lookup K V keqb k (c_map K V c)) as [s|] eqn:L.
    + destruct (sv_value V s); cbn [fst]; unfold used; cbn [with_map c_map]; [|lia].
      apply used_put_ge; [exact Hwf|]. cbn. intros; lia.
    + cbn [sv_value fst]. unfold used; cbn [with_map c_map]. apply used_put_ge; [exact Hwf|]. rewrite L. discriminate.
  - intro H. destruct (C16_add c k v []) as (A & _). destruct (A (Add K V k v)) as (_ & _ & A3); [auto|].
    unfold used. rewrite (A3 H). rewrite filter_idem. lia.
  - intro H. unfold used. rewrite (failed_map c (AddMany K V rs)); [rewrite filter_idem; lia|right; eauto|exact H].
Qed.

(** once an add has failed, every later add fails, whatever is called in between (as long as the map size in bytes
    fits a size_t) *)
Theorem C16_fails_for_ever : forall bytes limit c0 os0 o0 os,
  c_create K V bytes limit = Some c0 -> (0 <= bytes)%Z ->
  let c := cafter K V keqb c0 os0 in
  ((exists k v, o0 = Add K V k v) \/ (exists rs, o0 = AddMany K V rs)) ->
  snd (cstep K V keqb c o0) = RAdd V (Throw RuntimeError) ->
  (forall os1 os2, os = os1 ++ os2 -> (bytes * Z.of_nat (size (cafter K V keqb c (o0 :: os1))) < 2 ^ 64)%Z) ->
  forall o r, In (o, r) (ctrace K V keqb c (o0 :: os)) ->
    match o with Add _ _ _ _ | AddMany _ _ _ => r = RAdd V (Throw RuntimeError) | _ => True end.
Proof.
  intros bytes limit c0 os0 o0 os Hc Hb c Ho0 Hfail Hfit.
  destruct (create_wf _ _ _ Hc) as (Hwf0 & _ & Hl & Hbytes).
  assert (Hconst : forall os c, c_limit K V (cafter K V keqb c os) = c_limit K V c /\ c_bytes K V (cafter K V keqb c os) = c_bytes K V c).
  { clear - keqb_spec. induction os as [|o os IH]; intro c; [auto|]. cbn [cafter].
    destruct (cstep_const K V keqb keqb_spec c o) as [<- <-]. apply IH. }
  assert (Hwf : cwf K V c) by (apply cafter_wf; assumption).
  assert (Hlim : over limit bytes (used c) = true).
  { destruct (Hconst os0 c0) as [E1 E2]. fold c in E1, E2. rewrite Hl in E1. rewrite Hbytes in E2.
    rewrite <- E1, <- E2. destruct Ho0 as [(k & v & ->)|(rs & ->)].
    - destruct (C16_add c k v []) as (A & _). apply (A (Add K V k v)); auto.
    - revert Hfail. cbn [cstep]. unfold add_values. rewrite clear_result. destruct (exceeded K V c); [|discriminate].
      destruct (over _ _ (used c)); [reflexivity|discriminate]. }
  assert (Gen : forall os c, cwf K V c -> c_limit K V c = limit -> c_bytes K V c = bytes ->
     over limit bytes (used c) = true ->
     (forall os1 os2, os = os1 ++ os2 -> (bytes * Z.of_nat (size (cafter K V keqb c os1)) < 2 ^ 64)%Z) ->
     forall o r, In (o, r) (ctrace K V keqb c os) ->
       match o with Add _ _ _ _ | AddMany _ _ _ => r = RAdd V (Throw RuntimeError) | _ => True end).
  { clear - keqb_spec Hb. induction os as [|o os IH]; intros c Hwf El Eb Hu Hfit o1 r1; [intros []|].
    assert (Hover : over (c_limit K V c) (c_bytes K V c) (size c) = true).
    { rewrite El, Eb. apply over_mono with (used c); auto; [apply (Hfit [] (o :: os)); reflexivity|apply filter_len]. }
    assert (Hhead : match o with Add _ _ _ _ | AddMany _ _ _ => snd (cstep K V keqb c o) = RAdd V (Throw RuntimeError) | _ => True end).
    { destruct o as [k|k|k v|rs]; auto.
      - destruct (C16_add c k v []) as (A & _). apply (A (Add K V k v)); [auto|]. rewrite El, Eb in *. auto.
      - cbn [cstep]. unfold add_values. rewrite clear_result. unfold exceeded. fold (size c). rewrite Hover.
        rewrite El, Eb, Hu. reflexivity. }
    cbn [ctrace]. intros [H|H].
    - inversion H; subst o1 r1. exact Hhead.
    - assert (Hbu : (bytes * Z.of_nat (size (fst (cstep K V keqb c o))) < 2 ^ 64)%Z) by (apply (Hfit [o] os); reflexivity).
      apply (IH (fst (cstep K V keqb c o))); auto.
      + apply cstep_wf; assumption.
      + rewrite <- El. apply cstep_const. exact keqb_spec.
      + rewrite <- Eb. apply cstep_const. exact keqb_spec.
      + apply over_mono with (used c); auto.
        * pose proof (filter_len (fun e => Nat.leb 1 (sv_usage V (snd e))) (c_map K V (fst (cstep K V keqb c o)))) as F.
          fold (used (fst (cstep K V keqb c o))) in F. unfold size in Hbu. nia.
        * apply used_step; [exact Hwf|exact Hhead].
      + intros os1 os2 E. apply (Hfit (o :: os1) os2). rewrite E. reflexivity. }
  intros o r H. cbn [ctrace] in H. destruct H as [H|H].
  - inversion H; subst o r. destruct Ho0 as [(k & v & ->)|(rs & ->)]; exact Hfail.
  - refine (Gen os (fst (cstep K V keqb c o0)) _ _ _ _ _ o r H).
    + apply cstep_wf; assumption.
    + destruct (cstep_const K V keqb keqb_spec c o0) as [-> _]. rewrite <- Hl. apply Hconst.
    + destruct (cstep_const K V keqb keqb_spec c o0) as [_ ->]. rewrite <- Hbytes. apply Hconst.
    + assert (used (fst (cstep K V keqb c o0)) = used c) as ->; [|exact Hlim].
      unfold used. rewrite (failed_map c o0 Ho0 Hfail). rewrite filter_idem. reflexivity.
    + intros os1 os2 E. apply (Hfit os1 os2 E).
Qed.
End S.
Print Assumptions C15_get_returns_last_stored.
Print Assumptions C15_is_cached_iff.
Print Assumptions C15_read_values_never_evicted.
Print Assumptions C15_add_then_get.
Print Assumptions C16_add.
Print Assumptions C16_queries_grow.
Print Assumptions C16_fails_for_ever.

(** Create refuses non-positive and NaN limits *)
Theorem C16_create : forall K V bytes limit,
  (exists c, c_create K V bytes limit = Some c /\ c_map K V c = []) <-> d_ltb (d_ofZ 0) limit = true.
Proof.
  intros K V bytes limit. unfold c_create. destruct (d_ltb (d_ofZ 0) limit); split; intro H; eauto.
  - destruct H as (c & H & _). discriminate.
  - discriminate.
Qed.
Print Assumptions C16_create.

(** Concrete runs. With a limit of 2^-16 megabytes (16 bytes) and 8-byte records: the third entry is accepted (limit
    exceeded by one); the fourth add evicts the unread entries; read entries stay. *)
Example C15_C16_run :
  match c_create nat nat 8 (d_of 1 (-16)) with
  | Some c0 =>
      ctrace nat nat Nat.eqb c0
        [Add _ _ 1 10; Get _ _ 1; Add _ _ 2 20; Add _ _ 3 30; Add _ _ 4 40; Get _ _ 1; Get _ _ 2; Add _ _ 1 11; Get _ _ 1]%nat
      = [(Add _ _ 1 10, RAdd _ (Ok tt)); (Get _ _ 1, RGet _ (Ok 10)); (Add _ _ 2 20, RAdd _ (Ok tt));
         (Add _ _ 3 30, RAdd _ (Ok tt)); (Add _ _ 4 40, RAdd _ (Ok tt)); (Get _ _ 1, RGet _ (Ok 10));
         (Get _ _ 2, RGet _ (Throw RuntimeError)); (Add _ _ 1 11, RAdd _ (Ok tt)); (Get _ _ 1, RGet _ (Ok 11))]%nat
  | None => False
  end.
Proof. vm_compute. reflexivity. Qed.
(** the hypotheses of C16_fails_for_ever are met: three read entries under a 16-byte limit *)
Example C16_stuck_run :
  match c_create nat nat 8 (d_of 1 (-16)) with
  | Some c0 =>
      map snd (ctrace nat nat Nat.eqb c0
        [Add _ _ 1 10; Get _ _ 1; Add _ _ 2 20; Get _ _ 2; Add _ _ 3 30; Get _ _ 3; Add _ _ 4 40; IsCached _ _ 9; Add _ _ 3 31]%nat)
      = [RAdd _ (Ok tt); RGet _ (Ok 10); RAdd _ (Ok tt); RGet _ (Ok 20); RAdd _ (Ok tt); RGet _ (Ok 30);
         RAdd _ (Throw RuntimeError); RBool _ false; RAdd _ (Throw RuntimeError)]%nat
  | None => False
  end.
Proof. vm_compute. reflexivity. Qed.
