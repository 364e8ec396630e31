(** Lemmas about composite parameters, size stability and clones. *)
From Verif Require Import Base Num Params ParamsSpec IntProofs DoubleProofs ArrayProofs.

Section Composite.
Context (N : Num).
Local Notation param := (param N).

(** induction over nested components *)
Lemma param_nested_ind (P : param -> Prop) :
  (forall p, P (PInt N p)) -> (forall p, P (PDouble N p)) -> (forall a, P (PArr N a)) ->
  (forall s i ps, Forall P ps -> P (PComp N s i ps)) -> forall p, P p.
Proof.
  intros HI HD HA HC. fix IH 1. intros [p|p|a|s i ps]; [apply HI|apply HD|apply HA|].
  apply HC. induction ps as [|q ps IHps]; constructor; [apply IH|exact IHps].
Qed.

(** the loops of the composite, named *)
Fixpoint comp_encode (ps : list param) (rest : chromosome) : outcome chromosome :=
  match ps with
  | [] => Ok rest
  | q :: r =>
      let! k := p_size N q in
      if (k <=? length rest)%nat then
        let! c := p_set_chromosome N q (firstn k rest) in
        let! cs := comp_encode r (skipn k rest) in
        Ok (c ++ cs)
      else UB OutOfBounds
  end.
Fixpoint comp_decode (ps : list param) (rest : chromosome) : list param * outcome unit :=
  match ps with
  | [] => ([], Ok tt)
  | q :: r =>
      match p_size N q with
      | Ok k =>
          if (k <=? length rest)%nat then
            let (q', o) := p_set_from N q (firstn k rest) in
            match o with
            | Ok _ => let (r', o') := comp_decode r (skipn k rest) in (q' :: r', o')
            | Throw e => (q' :: r, Throw e)
            | UB u => (q' :: r, UB u)
            end
          else (q :: r, UB OutOfBounds)
      | Throw e => (q :: r, Throw e)
      | UB u => (q :: r, UB u)
      end
  end.
Fixpoint comp_check (ps : list param) : outcome bool :=
  match ps with
  | [] => Ok true
  | q :: r => let! b := p_check N q in if b then comp_check r else Ok false
  end.

Lemma set_chromosome_comp s ps old :
  p_set_chromosome N (PComp N s true ps) old = (let! _ := cs_check s (length old) in comp_encode ps old).
Proof.
  cbn [p_set_chromosome]. destruct (cs_check s (length old)) as [[]| |]; cbn [bind]; [|reflexivity|reflexivity].
  revert old. induction ps as [|q ps IH]; intro old; cbn [comp_encode]; [reflexivity|].
  destruct (p_size N q); cbn [bind]; [|reflexivity|reflexivity].
  destruct (a <=? length old)%nat; [|reflexivity].
  destruct (p_set_chromosome N q (firstn a old)); cbn [bind]; [|reflexivity|reflexivity].
  rewrite IH. reflexivity.
Qed.

Lemma set_from_comp s ps bits :
  p_set_from N (PComp N s true ps) bits =
  match cs_check s (length bits) with
  | Ok _ => let (ps', o) := comp_decode ps bits in (PComp N s true ps', o)
  | Throw e => (PComp N s true ps, Throw e)
  | UB u => (PComp N s true ps, UB u)
  end.
Proof.
  cbn [p_set_from]. destruct (cs_check s (length bits)) as [[]| |]; [|reflexivity|reflexivity].
  match goal with |- (let (a, b) := ?f ps bits in _) = _ =>
    assert (E : forall ps bits, f ps bits = comp_decode ps bits) end.
  { clear. induction ps as [|q ps IH]; intro bits; [reflexivity|].
    cbn [comp_decode]. destruct (p_size N q); [|reflexivity|reflexivity].
    destruct (a <=? length bits)%nat; [|reflexivity].
    destruct (p_set_from N q (firstn a bits)) as [q' [[]| |]]; [|reflexivity|reflexivity].
    rewrite IH. reflexivity. }
  rewrite E. reflexivity.
Qed.

Lemma check_comp s ps : p_check N (PComp N s true ps) = comp_check ps.
Proof.
  cbn [p_check]. induction ps as [|q ps IH]; [reflexivity|]. cbn [comp_check].
  destruct (p_check N q) as [[]| |]; cbn [bind]; [|reflexivity|reflexivity|reflexivity]. exact IH.
Qed.

(** A chromosome cut into pieces of given sizes. *)
Definition cut_into (sizes : list nat) (l : chromosome) (pieces : list chromosome) : Prop :=
  map (@length bool) pieces = sizes /\ concat pieces = l.

Lemma total_size_sizes ps n : total_size N ps = Ok n ->
  exists sizes, mapM (p_size N) ps = Ok sizes /\ list_sum sizes = n.
Proof.
  revert n; induction ps as [|p ps IH]; cbn [total_size mapM]; intros n H.
  - inversion H. exists []. auto.
  - apply bind_ok in H as (a & Ha & H). apply bind_ok in H as (b & Hb & H). inversion H; subst.
    destruct (IH b Hb) as (sz & Hsz & Hsum). exists (a :: sz). rewrite Ha, Hsz. split; [reflexivity|].
    change (a + list_sum sz = a + b)%nat. lia.
Qed.

Lemma cut_exists sizes l : length l = list_sum sizes -> exists pieces, cut_into sizes l pieces.
Proof.
  revert l; induction sizes as [|k sizes IH]; intros l Hl;
    [|change (list_sum (k :: sizes)) with (k + list_sum sizes)%nat in Hl].
  - exists []. destruct l; [split; reflexivity|discriminate].
  - destruct (IH (skipn k l)) as (ps & H1 & H2); [rewrite skipn_length; lia|].
    exists (firstn k l :: ps). split; cbn.
    + rewrite H1, firstn_length. f_equal. lia.
    + rewrite H2. apply firstn_skipn.
Qed.

Lemma set_chromosome_len p : forall old c, p_set_chromosome N p old = Ok c -> length c = length old.
Proof.
  induction p as [p|p|a|s i ps IH] using param_nested_ind; intros old c H.
  - cbn in H. apply (set_chromosome_length N (MkDouble N (Some p) (n_ofZ N 0) (n_ofZ N 0) (n_ofZ N 0) None)).
    exact H.
  - cbn in H. eapply set_chromosome_length; eauto.
  - cbn in H. unfold da_set_chromosome in H. apply bind_ok in H as ([] & Hc & H).
    apply bind_ok in H as (k & Hk & H). clear Hc Hk.
    revert old c H. generalize (da_sample N a). induction (da_values N a) as [|v vs IHv]; intros s old c H.
    + cbn in H. inversion H; reflexivity.
    + cbn [da_encode_loop] in H. apply bind_ok in H as (s1 & _ & H). apply bind_ok in H as (c1 & H1 & H).
      apply bind_ok in H as (c2 & H2 & H). inversion H; subst.
      rewrite app_length, (IHv _ _ _ H2), (set_chromosome_length N _ _ _ H1), <- app_length, firstn_skipn. reflexivity.
  - destruct i; [|discriminate]. rewrite set_chromosome_comp in H. apply bind_ok in H as ([] & _ & H).
    revert old c H. induction IH as [|q ps Hq Hps IHps]; intros old c H; cbn [comp_encode] in H.
    + inversion H; reflexivity.
    + apply bind_ok in H as (k & _ & H). destruct (k <=? length old)%nat; [|discriminate].
      apply bind_ok in H as (c1 & H1 & H). apply bind_ok in H as (c2 & H2 & H). inversion H; subst.
      rewrite app_length, (IHps _ _ H2), (Hq _ _ H1), <- app_length, firstn_skipn. reflexivity.
Qed.

Lemma firstn_app_len {A} (a b : list A) : firstn (length a) (a ++ b) = a.
Proof. rewrite firstn_app, Nat.sub_diag, firstn_all. cbn. apply app_nil_r. Qed.
Lemma skipn_app_len {A} (a b : list A) : skipn (length a) (a ++ b) = b.
Proof. rewrite skipn_app, Nat.sub_diag, skipn_all. reflexivity. Qed.

Lemma comp_encode_spec ps : forall sizes olds old out,
  mapM (p_size N) ps = Ok sizes -> cut_into sizes old olds ->
  (comp_encode ps old = Ok out <->
   exists outs, cut_into sizes out outs /\
     forall i p o r, nth_error ps i = Some p -> nth_error olds i = Some o -> nth_error outs i = Some r ->
       p_set_chromosome N p o = Ok r).
Proof.
  induction ps as [|q ps IH]; intros sizes olds old out Hs [Hc1 Hc2]; cbn [mapM] in Hs.
  - inversion Hs; subst. destruct olds; [|discriminate]. cbn. split.
    + intro H; inversion H; subst. exists []. split; [split; reflexivity|]. intros [|i] p o r Hp; discriminate.
    + intros (outs & [Ho1 Ho2] & _). destruct outs; [|discriminate]. cbn in Ho2. subst. reflexivity.
  - apply bind_ok in Hs as (k & Hk & Hs). apply bind_ok in Hs as (sz & Hsz & Hs). injection Hs as Hs; rewrite <- Hs in *; clear Hs.
    destruct olds as [|o olds]; [discriminate|]. cbn in Hc1, Hc2. inversion Hc1 as [[Hlo Hlos]]. subst old.
    cbn [comp_encode]. rewrite Hk. cbn [bind].
    replace (k <=? length (o ++ concat olds))%nat with true
      by (symmetry; apply Nat.leb_le; rewrite app_length; lia).
    rewrite <- Hlo, firstn_app_len, skipn_app_len.
    specialize (IH sz olds (concat olds)). split.
    + intro H. apply bind_ok in H as (c & Hc & H). apply bind_ok in H as (cs & Hcs & H). inversion H; subst out; clear H.
      apply (IH cs) in Hcs as (outs & [Ho1 Ho2] & Ho); [|exact Hsz|split; [exact Hlos|reflexivity]].
      exists (c :: outs). split.
      * split; cbn; [|rewrite Ho2; reflexivity]. rewrite (set_chromosome_len _ _ _ Hc). f_equal. congruence.
      * intros [|i] p x r Hp Hx Hr; cbn in Hp, Hx, Hr; [congruence|]. eapply Ho; eauto.
    + intros (outs & [Ho1 Ho2] & Ho). destruct outs as [|c outs]; [discriminate|]. cbn in Ho1, Ho2.
      inversion Ho1 as [[Hlc Hlcs]].
      rewrite (Ho 0%nat q o c) by reflexivity. cbn [bind].
      assert (Hr : comp_encode ps (concat olds) = Ok (concat outs)).
      { apply IH; [exact Hsz|split; [exact Hlos|reflexivity]|]. exists outs. split.
        - split; [rewrite <- Hlos; exact Hlcs|reflexivity].
        - intros i p x r Hp Hx Hr. apply (Ho (S i)); assumption. }
      rewrite Hr. cbn [bind]. rewrite <- Ho2. reflexivity.
Qed.

Lemma comp_decode_spec ps : forall sizes pieces bits ps',
  mapM (p_size N) ps = Ok sizes -> cut_into sizes bits pieces ->
  (comp_decode ps bits = (ps', Ok tt) <->
   length ps' = length ps /\
   forall i p b q, nth_error ps i = Some p -> nth_error pieces i = Some b -> nth_error ps' i = Some q ->
     p_set_from N p b = (q, Ok tt)).
Proof.
  induction ps as [|q ps IH]; intros sizes pieces bits ps' Hs [Hc1 Hc2]; cbn [mapM] in Hs.
  - cbn. split.
    + intro H; inversion H; subst. split; [reflexivity|]. intros [|i] p b r Hp; discriminate.
    + intros [H _]. destruct ps'; [reflexivity|discriminate].
  - apply bind_ok in Hs as (k & Hk & Hs). apply bind_ok in Hs as (sz & Hsz & Hs). injection Hs as Hs; rewrite <- Hs in *; clear Hs.
    destruct pieces as [|b pieces]; [discriminate|]. cbn in Hc1, Hc2. inversion Hc1 as [[Hlb Hlbs]]. subst bits.
    cbn [comp_decode]. rewrite Hk.
    replace (k <=? length (b ++ concat pieces))%nat with true
      by (symmetry; apply Nat.leb_le; rewrite app_length; lia).
    rewrite <- Hlb, firstn_app_len, skipn_app_len.
    split.
    + destruct (p_set_from N q b) as [q' [[]| |]] eqn:E; try (intro H; inversion H; fail).
      destruct (comp_decode ps (concat pieces)) as [r' o'] eqn:D. intro H; inversion H; subst ps' o'; clear H.
      apply (IH sz pieces) in D as [D1 D2]; [|exact Hsz|split; [exact Hlbs|reflexivity]].
      split; [cbn; congruence|].
      intros [|i] p x r Hp Hx Hr; cbn in Hp, Hx, Hr; [congruence|]. eapply D2; eauto.
    + intros [H1 H2]. destruct ps' as [|q' ps']; [discriminate|].
      rewrite (H2 0%nat q b q') by reflexivity.
      assert (D : comp_decode ps (concat pieces) = (ps', Ok tt)).
      { apply (IH sz pieces); [exact Hsz|split; [exact Hlbs|reflexivity]|]. split; [cbn in H1; lia|].
        intros i p x r Hp Hx Hr. apply (H2 (S i)); assumption. }
      rewrite D. reflexivity.
Qed.

Lemma comp_check_spec ps :
  (comp_check ps = Ok true <-> Forall (fun p => p_check N p = Ok true) ps) /\
  (comp_check ps = Ok false <->
     exists pre p post, ps = pre ++ p :: post /\ Forall (fun q => p_check N q = Ok true) pre /\ p_check N p = Ok false).
Proof.
  induction ps as [|q ps [IH1 IH2]]; cbn [comp_check].
  - split; [split; [constructor|reflexivity]|]. split; [discriminate|].
    intros (pre & p & post & H & _). destruct pre; discriminate.
  - destruct (p_check N q) as [[]|e|u] eqn:E; cbn [bind].
    + split; [rewrite IH1, Forall_cons_iff; tauto|]. rewrite IH2. split.
      * intros (pre & p & post & -> & Hp & Hf). exists (q :: pre), p, post. split; [reflexivity|]. split; [constructor; assumption|exact Hf].
      * intros (pre & p & post & H & Hp & Hf). destruct pre as [|x pre]; cbn in H; inversion H; subst.
        -- congruence.
        -- exists pre, p, post. split; [reflexivity|]. split; [eapply Forall_inv_tail; eauto|exact Hf].
    + split.
      * split; [discriminate|]. intro H. apply Forall_inv in H. congruence.
      * split; [|reflexivity]. intros _. exists [], q, ps. auto.
    + split.
      * split; [discriminate|]. intro H. apply Forall_inv in H. congruence.
      * split; [discriminate|]. intros (pre & p & post & H & Hp & Hf).
        destruct pre; cbn in H; inversion H; subst; [congruence|apply Forall_inv in Hp; congruence].
    + split.
      * split; [discriminate|]. intro H. apply Forall_inv in H. congruence.
      * split; [discriminate|]. intros (pre & p & post & H & Hp & Hf).
        destruct pre; cbn in H; inversion H; subst; [congruence|apply Forall_inv in Hp; congruence].
Qed.

(** What a successful Initialize of a fresh composite produces. *)
Lemma initialize_fresh ps c : comp_initialize N (comp_new N) ps = (c, Ok tt) ->
  exists ps' n, mapM (p_clone N) ps = Ok ps' /\ total_size N ps' = Ok n /\ c = PComp N (Some n) true ps'.
Proof.
  unfold comp_initialize, comp_new. destruct (mapM (p_clone N) ps) as [ps'| |]; try (intro H; inversion H; fail).
  unfold comp_finish_init. destruct (total_size N ps') as [n| |] eqn:E; cbn; try (intro H; inversion H; fail).
  intro H; inversion H; subst. exists ps', n. auto.
Qed.

Lemma composite_encode ps n old out :
  total_size N ps = Ok n ->
  (p_set_chromosome N (PComp N (Some n) true ps) old = Ok out <->
   exists sizes olds outs, mapM (p_size N) ps = Ok sizes /\ list_sum sizes = n /\
     cut_into sizes old olds /\ cut_into sizes out outs /\
     forall i p o r, nth_error ps i = Some p -> nth_error olds i = Some o -> nth_error outs i = Some r ->
       p_set_chromosome N p o = Ok r).
Proof.
  intro Ht. destruct (total_size_sizes _ _ Ht) as (sizes & Hs & Hsum).
  rewrite set_chromosome_comp. cbn [cs_check]. split.
  - destruct (Nat.eqb_spec (length old) n) as [E|E]; cbn [bind]; [|discriminate].
    destruct (cut_exists sizes old) as (olds & Hcut); [lia|]. intro H.
    apply (comp_encode_spec ps sizes olds old out Hs Hcut) in H as (outs & Ho & Hall).
    exists sizes, olds, outs. auto.
  - intros (sz & olds & outs & Hs' & Hsum' & Hcut & Hout & Hall). rewrite Hs in Hs'. inversion Hs'; subst sz.
    assert (E : length old = n).
    { destruct Hcut as [H1 H2]. rewrite <- H2, <- Hsum', <- H1. clear. induction olds; cbn; [reflexivity|].
      rewrite app_length, IHolds. reflexivity. }
    rewrite E, Nat.eqb_refl. cbn [bind]. apply (comp_encode_spec ps sizes olds old out Hs Hcut). exists outs. auto.
Qed.

Lemma composite_decode ps n bits c' :
  total_size N ps = Ok n ->
  (p_set_from N (PComp N (Some n) true ps) bits = (c', Ok tt) <->
   exists sizes pieces ps', mapM (p_size N) ps = Ok sizes /\ list_sum sizes = n /\ cut_into sizes bits pieces /\
     c' = PComp N (Some n) true ps' /\ length ps' = length ps /\
     forall i p b q, nth_error ps i = Some p -> nth_error pieces i = Some b -> nth_error ps' i = Some q ->
       p_set_from N p b = (q, Ok tt)).
Proof.
  intro Ht. destruct (total_size_sizes _ _ Ht) as (sizes & Hs & Hsum).
  rewrite set_from_comp. cbn [cs_check]. split.
  - destruct (Nat.eqb_spec (length bits) n) as [E|E]; [|intro H; inversion H].
    destruct (cut_exists sizes bits) as (pieces & Hcut); [lia|].
    destruct (comp_decode ps bits) as [ps' o] eqn:D. intro H; inversion H; subst c' o.
    apply (comp_decode_spec ps sizes pieces bits ps' Hs Hcut) in D as [D1 D2].
    exists sizes, pieces, ps'. auto 6.
  - intros (sz & pieces & ps' & Hs' & Hsum' & Hcut & -> & Hl & Hall). rewrite Hs in Hs'. inversion Hs'; subst sz.
    assert (E : length bits = n).
    { destruct Hcut as [H1 H2]. rewrite <- H2, <- Hsum', <- H1. clear. induction pieces; cbn; [reflexivity|].
      rewrite app_length, IHpieces. reflexivity. }
    rewrite E, Nat.eqb_refl.
    replace (comp_decode ps bits) with (ps', Ok tt : outcome unit); [reflexivity|].
    symmetry. apply (comp_decode_spec ps sizes pieces bits ps' Hs Hcut). auto.
Qed.

(** ** Sizes never change: every mutating call of the public interface *)

Inductive pcall :=
| CSetFrom (bits : chromosome)                (* SetFromChromosome *)
| CSetInt (v : Z)                             (* IntParameter::set_value *)
| CSetDouble (v : num N)                      (* DoubleParameter::SetValue *)
| CSetValues (vs : list (num N))              (* DoubleParametersArray::SetValues *)
| CInitialize (ps : list param)               (* CompositeDiscreteParameters::Initialize *)
| CInitializeN (p : param) (n : nat).

(** One call; calls not offered by the class of the object are skipped (they do not compile in C++). *)
Definition pcall_run (p : param) (c : pcall) : param * outcome unit :=
  match c, p with
  | CSetFrom bits, _ => p_set_from N p bits
  | CSetInt v, PInt _ ip => (PInt N (ip_set_value ip v), Ok tt)
  | CSetDouble v, PDouble _ d =>
      match dp_set_value N d v with Ok d' => (PDouble N d', Ok tt) | Throw e => (p, Throw e) | UB u => (p, UB u) end
  | CSetValues vs, PArr _ a => let (a', o) := da_set_values N a vs in (PArr N a', o)
  | CInitialize ps, PComp _ _ _ _ => comp_initialize N p ps
  | CInitializeN q n, PComp _ _ _ _ => comp_initialize_n N p q n
  | _, _ => (p, Ok tt)
  end.

Fixpoint pcalls (p : param) (cs : list pcall) : param :=
  match cs with [] => p | c :: r => pcalls (fst (pcall_run p c)) r end.

Lemma finish_init_size s i ps n : s = Some n -> p_size N (fst (comp_finish_init N s i ps)) = Ok n.
Proof.
  intros ->. unfold comp_finish_init. destruct (total_size N ps); cbn; reflexivity.
Qed.

Lemma set_from_size p : forall bits n, p_size N p = Ok n -> p_size N (fst (p_set_from N p bits)) = Ok n.
Proof.
  destruct p as [p|p|a|s i ps]; intros bits n H.
  - cbn in *. unfold ip_set_from.
    destruct (cs_check (ip_size p) (length bits)); cbn; auto.
    destruct (let! r := int_from_bits bits 0 0 in chk_int (r + ip_min p)); cbn; auto.
  - cbn in *. unfold dp_set_from. destruct (dp_base N p) as [b|]; cbn; auto.
    destruct (ip_set_from b bits); cbn; auto.
  - cbn in *. unfold da_set_from.
    destruct (let! _ := cs_check (da_size N a) (length bits) in
         let! k := cs_get (dp_size N (da_sample N a)) in
         da_decode_loop N (da_sample N a) k (length (da_values N a)) bits); cbn; auto.
  - destruct i; [|cbn in *; auto]. rewrite set_from_comp. cbn in H.
    destruct (cs_check s (length bits)); [|cbn; auto|cbn; auto].
    destruct (comp_decode ps bits); cbn; auto.
Qed.

Lemma pcall_size p c n : p_size N p = Ok n -> p_size N (fst (pcall_run p c)) = Ok n.
Proof.
  intro H. destruct c; cbn [pcall_run].
  - apply set_from_size; exact H.
  - destruct p; cbn in *; auto.
  - destruct p as [p|p|a|s i ps]; cbn [fst]; auto. destruct (dp_set_value N p v) as [d'| |] eqn:E; cbn; auto.
    destruct (set_value_shape N _ _ _ E) as (b & i & _ & ->). exact H.
  - destruct p as [p|p|a|s i ps]; cbn [fst]; auto. unfold da_set_values.
    destruct (negb (length vs =? length (da_values N a))%nat); [exact H|].
    destruct (da_check N (da_with_values N a vs)) as [[]| |]; exact H.
  - destruct p as [p|p|a|s i qs]; cbn [fst]; auto. unfold comp_initialize.
    destruct (mapM (p_clone N) ps); cbn [fst]; auto. apply finish_init_size.
    destruct s; cbn in H; inversion H; reflexivity.
  - destruct p as [p|p|a|s i qs]; cbn [fst]; auto. unfold comp_initialize_n, comp_initialize.
    destruct (mapM (p_clone N) (repeat p0 n0)); cbn [fst]; auto. apply finish_init_size.
    destruct s; cbn in H; inversion H; reflexivity.
Qed.

Lemma pcalls_size cs : forall p n, p_size N p = Ok n -> p_size N (pcalls p cs) = Ok n.
Proof.
  induction cs as [|c cs IH]; intros p n H; cbn [pcalls]; [exact H|]. apply IH, pcall_size, H.
Qed.

(** ** Clones *)

(** Objects as the constructors and later calls leave them (a composite that was re-initialised is not
    in this class, see C09). *)
Inductive wf_param : param -> Prop :=
| wf_int p k : count_chromosome_size (ip_min p) (ip_max p) = Ok k -> ip_size p = Some k -> wf_param (PInt N p)
| wf_double d b k : dp_base N d = Some b -> count_chromosome_size (ip_min b) (ip_max b) = Ok k ->
    ip_size b = Some k -> dp_size N d = Some k -> wf_param (PDouble N d)
| wf_arr a k : wf_param (PDouble N (da_sample N a)) -> dp_size N (da_sample N a) = Some k ->
    da_size N a = Some (k * length (da_values N a))%nat -> wf_param (PArr N a)
| wf_comp n ps : Forall wf_param ps -> total_size N ps = Ok n -> wf_param (PComp N (Some n) true ps).

Lemma clone_double d : wf_param (PDouble N d) -> dp_clone N d = Ok d.
Proof.
  intro H. inversion H as [|? b k Hb Hk Hs Hd| |]; subst. unfold dp_clone. rewrite Hb.
  unfold ip_clone, ip_make. rewrite Hk. cbn. rewrite <- Hs. 
  destruct d as [bb m x pr sz]; cbn in *. subst bb. destruct b; reflexivity.
Qed.

Lemma clone_id p : wf_param p -> p_clone N p = Ok p.
Proof.
  induction p as [p|p|a|s i ps IH] using param_nested_ind; intro H.
  - inversion H as [? k Hk Hs| | |]; subst. cbn. unfold ip_clone, ip_make. rewrite Hk. cbn.
    destruct p; cbn in *; subst; reflexivity.
  - cbn. rewrite clone_double by exact H. reflexivity.
  - inversion H as [| |? k Hs Hk Hz|]; subst. cbn. unfold da_clone. rewrite clone_double by exact Hs. cbn.
    rewrite Hk. cbn. rewrite <- Hz. destruct a; reflexivity.
  - inversion H as [| | |n qs Hall Ht]; subst. cbn [p_clone].
    match goal with |- bind (?f ps) _ = _ => assert (E : f ps = Ok ps) end.
    { clear H Ht. induction ps as [|q ps IHps]; [reflexivity|].
      inversion IH as [|? ? Hq Hqs]; subst. inversion Hall as [|? ? Wq Wqs]; subst.
      rewrite (Hq Wq). cbn [bind]. rewrite (IHps Hqs Wqs). reflexivity. }
    rewrite E. cbn [bind]. unfold comp_finish_init. rewrite Ht. reflexivity.
Qed.

Lemma wf_ip_make v mn mx p : ip_make v mn mx = Ok p -> wf_param (PInt N p).
Proof.
  unfold ip_make. intro H. apply bind_ok in H as (k & Hk & H). inversion H; subst.
  apply wf_int with k; [exact Hk|reflexivity].
Qed.

Lemma wf_dp_make v mn mx p d : dp_make N v mn mx p = Ok d -> wf_param (PDouble N d).
Proof.
  unfold dp_make. destruct (n_leb N mx mn); [discriminate|].
  destruct (negb (dp_check_bounds N mn mx v)); [discriminate|].
  intro H. apply bind_ok in H as (m & _ & H). apply bind_ok in H as (best & _ & H).
  apply bind_ok in H as (b & Hb & H). apply bind_ok in H as (i & _ & H). inversion H; subst; clear H.
  unfold ip_make2, ip_make in Hb. apply bind_ok in Hb as (k & Hk & Hb). inversion Hb; subst; clear Hb.
  eapply wf_double; [reflexivity|cbn; exact Hk|reflexivity|reflexivity].
Qed.

Lemma wf_da_make mn mx p n a : da_make N mn mx p n = Ok a -> wf_param (PArr N a).
Proof.
  unfold da_make. intro H. apply bind_ok in H as (s & Hs & H). apply bind_ok in H as (k & Hk & H).
  inversion H; subst; clear H. apply wf_arr with k; cbn.
  - eapply wf_dp_make; eauto.
  - destruct (dp_size N s); inversion Hk; reflexivity.
  - rewrite repeat_length. reflexivity.
Qed.

Lemma mapM_clone_wf ps : Forall wf_param ps -> mapM (p_clone N) ps = Ok ps.
Proof.
  induction 1 as [|p ps Hp Hps IH]; cbn [mapM]; [reflexivity|].
  rewrite (clone_id p Hp). cbn [bind]. rewrite IH. reflexivity.
Qed.

Lemma wf_size p : wf_param p -> exists n, p_size N p = Ok n.
Proof.
  intro H. destruct H as [p k Hk Hs|d b k Hb Hk Hs Hd|a k Hw Hk Hs|n ps Hall Ht]; cbn;
    [rewrite Hs|rewrite Hd|rewrite Hs|]; eexists; reflexivity.
Qed.

Lemma total_size_wf ps : Forall wf_param ps -> exists n, total_size N ps = Ok n.
Proof.
  induction 1 as [|p ps Hp Hps [n IH]]; cbn [total_size]; [eauto|].
  destruct (wf_size p Hp) as [k Hk]. rewrite Hk, IH. cbn. eauto.
Qed.

Lemma wf_initialize ps : Forall wf_param ps ->
  exists n, comp_initialize N (comp_new N) ps = (PComp N (Some n) true ps, Ok tt) /\
            total_size N ps = Ok n /\ wf_param (PComp N (Some n) true ps).
Proof.
  intro H. destruct (total_size_wf ps H) as [n Hn]. exists n.
  unfold comp_initialize, comp_new. rewrite mapM_clone_wf by exact H. unfold comp_finish_init. rewrite Hn. cbn.
  split; [reflexivity|]. split; [reflexivity|]. constructor; assumption.
Qed.

Lemma wf_set_from p : wf_param p -> forall bits, wf_param (fst (p_set_from N p bits)).
Proof.
  induction p as [p|p|a|s i ps IH] using param_nested_ind; intros H bits.
  - inversion H as [? k Hk Hs| | |]; subst. cbn. unfold ip_set_from.
    destruct (cs_check (ip_size p) (length bits)); cbn; [|exact H|exact H].
    destruct (let! r := int_from_bits bits 0 0 in chk_int (r + ip_min p)); cbn; [|exact H|exact H].
    apply wf_int with k; assumption.
  - inversion H as [|? b k Hb Hk Hs Hd| |]; subst. cbn. unfold dp_set_from. rewrite Hb.
    destruct (ip_set_from b bits) as [b' o] eqn:E. cbn.
    assert (Hb' : ip_min b' = ip_min b /\ ip_max b' = ip_max b /\ ip_size b' = ip_size b).
    { unfold ip_set_from in E. destruct (cs_check (ip_size b) (length bits)); [|inversion E; subst; auto|inversion E; subst; auto].
      destruct (let! r := int_from_bits bits 0 0 in chk_int (r + ip_min b)); inversion E; subst; auto. }
    destruct Hb' as (H1 & H2 & H3). eapply wf_double; [reflexivity|rewrite H1, H2; exact Hk|congruence|exact Hd].
  - cbn. destruct (da_set_from N a bits) as [a' o] eqn:E. cbn.
    inversion H as [| |? k Hw Hk Hs|]; subst. unfold da_set_from in E.
    destruct (let! _ := cs_check (da_size N a) (length bits) in
         let! k := cs_get (dp_size N (da_sample N a)) in
         da_decode_loop N (da_sample N a) k (length (da_values N a)) bits) as [vs| |] eqn:D;
      inversion E; subst; clear E; [|exact H|exact H].
    apply bind_ok in D as ([] & _ & D). apply bind_ok in D as (k' & _ & D).
    apply decode_loop_spec in D as [D _]. apply wf_arr with k; cbn; auto. rewrite D. exact Hs.
  - inversion H as [| | |n qs Hall Ht]; subst. rewrite set_from_comp.
    destruct (cs_check (Some n) (length bits)); [|exact H|exact H].
    destruct (comp_decode ps bits) as [ps' o] eqn:D. cbn.
    assert (G : Forall wf_param ps' /\ total_size N ps' = Ok n); [|destruct G; constructor; assumption].
    clear H. revert bits ps' o n Ht D. induction ps as [|q ps IHps]; intros bits ps' o n Ht D; cbn [comp_decode] in D.
    { inversion D; subst. auto. }
    inversion IH as [|? ? IHq IHqs]; subst. inversion Hall as [|? ? Wq Wqs]; subst.
    cbn [total_size] in Ht. apply bind_ok in Ht as (k & Hk & Ht). apply bind_ok in Ht as (m & Hm & Ht).
    inversion Ht; subst n; clear Ht. rewrite Hk in D.
    destruct (k <=? length bits)%nat.
    2:{ inversion D; subst. split; [constructor; assumption|]. cbn [total_size]. rewrite Hk, Hm. reflexivity. }
    specialize (IHq Wq (firstn k bits)). pose proof (set_from_size q (firstn k bits) k Hk) as Hsz.
    destruct (p_set_from N q (firstn k bits)) as [q' oq]; cbn [fst] in *.
    destruct oq as [[]|e|u].
    + destruct (comp_decode ps (skipn k bits)) as [r' o'] eqn:D'. inversion D; subst; clear D.
      destruct (IHps IHqs Wqs (skipn k bits) r' o m Hm D') as [F1 F2].
      split; [constructor; assumption|]. cbn [total_size]. rewrite Hsz, F2. reflexivity.
    + inversion D; subst. split; [constructor; assumption|]. cbn [total_size]. rewrite Hsz, Hm. reflexivity.
    + inversion D; subst. split; [constructor; assumption|]. cbn [total_size]. rewrite Hsz, Hm. reflexivity.
Qed.

(** Every call except re-initialising a composite keeps the object in the class. *)
Definition reinit (c : pcall) : bool :=
  match c with CInitialize _ => true | CInitializeN _ _ => true | _ => false end.

Lemma wf_pcall p c : wf_param p -> reinit c = false -> wf_param (fst (pcall_run p c)).
Proof.
  intros H Hc. destruct c; try discriminate; cbn [pcall_run].
  - apply wf_set_from; exact H.
  - destruct p as [p|p|a|s i ps]; cbn [fst]; auto. inversion H as [? k Hk Hs| | |]; subst.
    apply wf_int with k; assumption.
  - destruct p as [p|p|a|s i ps]; cbn [fst]; auto.
    destruct (dp_set_value N p v) as [d'| |] eqn:E; cbn [fst]; auto.
    destruct (set_value_shape N _ _ _ E) as (b & i & Hb & ->).
    inversion H as [|? b' k Hb' Hk Hs Hd| |]; subst. rewrite Hb in Hb'. inversion Hb'; subst b'.
    eapply wf_double; [reflexivity|cbn; exact Hk|exact Hs|exact Hd].
  - destruct p as [p|p|a|s i ps]; cbn [fst]; auto. unfold da_set_values.
    destruct (Nat.eqb_spec (length vs) (length (da_values N a))) as [E|E]; cbn [negb]; [|exact H].
    assert (W : wf_param (PArr N (da_with_values N a vs))).
    { inversion H as [| |? k Hw Hk Hs|]; subst. apply wf_arr with k; cbn; auto. rewrite E. exact Hs. }
    destruct (da_check N (da_with_values N a vs)) as [[]| |]; exact W.
Qed.

Lemma wf_pcalls cs : forall p, wf_param p -> forallb (fun c => negb (reinit c)) cs = true -> wf_param (pcalls p cs).
Proof.
  induction cs as [|c cs IH]; intros p H Hc; cbn [pcalls]; [exact H|].
  cbn in Hc. apply andb_prop in Hc as [H1 H2]. apply IH; [|exact H2].
  apply wf_pcall; [exact H|]. destruct (reinit c); [discriminate|reflexivity].
Qed.

End Composite.
