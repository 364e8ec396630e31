(** The heap of parameter objects represents a list of values. *)
From Verif Require Import Base Num Params Heap HeapSpec CompositeProofs.
Local Open Scope list_scope.

Section Proofs.
Context (N : Num).
Local Notation num := (num N).
Local Notation param := (param N).
Local Notation obj := (obj N).
Local Notation heap := (heap N).
Local Notation hop := (hop N).

Lemma upd_same {A} (l : list A) i a : nth_error l i = Some a -> upd l i a = l.
Proof. revert i; induction l as [|x l IH]; intros [|i] H; cbn in *; try discriminate; [congruence|]. f_equal. apply IH, H. Qed.
Lemma upd_upd {A} (l : list A) i a b : upd (upd l i a) i b = upd l i b.
Proof. revert i; induction l as [|x l IH]; intros [|i]; cbn; congruence. Qed.
Lemma nth_upd_eq {A} (l : list A) i a x : nth_error l i = Some x -> nth_error (upd l i a) i = Some a.
Proof. intro H. rewrite nth_error_upd, Nat.eqb_refl. assert (i < length l) by (apply nth_error_Some; congruence). destruct (Nat.ltb_spec i (length l)); [reflexivity|lia]. Qed.
Lemma nth_upd_ne {A} (l : list A) i j a : i <> j -> nth_error (upd l i a) j = nth_error l j.
Proof. intro H. rewrite nth_error_upd. destruct (Nat.eqb_spec i j); [contradiction|reflexivity]. Qed.
Lemma nth_lt {A} (l : list A) i x : nth_error l i = Some x -> i < length l.
Proof. intro H. apply nth_error_Some. congruence. Qed.

(** two IntParameters that differ in their value at most *)
Definition like (q q0 : IntParam) : Prop := ip_min q = ip_min q0 /\ ip_max q = ip_max q0 /\ ip_size q = ip_size q0.
Lemma like_refl q : like q q. Proof. firstorder. Qed.
Lemma like_set q q0 i : like q q0 -> ip_set_value q i = ip_set_value q0 i.
Proof. intros (A & B & C). unfold ip_set_value. congruence. Qed.
Lemma like_trans a b c : like a b -> like b c -> like a c.
Proof. unfold like. intuition congruence. Qed.
Lemma like_sym a b : like a b -> like b a.
Proof. unfold like. intuition congruence. Qed.
Lemma like_set_l q i : like (ip_set_value q i) q. Proof. firstorder. Qed.

(** a DoubleParameter at [l] whose IntParameter is at [b] *)
Definition dbl_at (h : heap) l b mn mx pr z q : Prop :=
  nth_error h l = Some (ODouble N (Some b) mn mx pr z) /\ nth_error h b = Some (OInt N q) /\ l <> b.

(** an IntParameter whose chromosome size is the computed one *)
Definition sized (q : IntParam) (k : nat) : Prop := ip_size q = Some k /\ count_chromosome_size (ip_min q) (ip_max q) = Ok k.
(** [repr h l p F]: the object at [l] represents the value [p]; [F] lists the heap cells it consists of. *)
Inductive repr (h : heap) : nat -> param -> list nat -> Prop :=
| R_int l p : nth_error h l = Some (OInt N p) -> repr h l (PInt N p) [l]
| R_double l b mn mx pr z q : dbl_at h l b mn mx pr z q -> repr h l (PDouble N (MkDouble N (Some q) mn mx pr z)) [l; b]
| R_default l mn mx pr z : nth_error h l = Some (ODouble N None mn mx pr z) -> repr h l (PDouble N (MkDouble N None mn mx pr z)) [l]
| R_arr l s b vs z mn mx pr k q q0 :
    nth_error h l = Some (OArr N (Some s) vs z) -> dbl_at h s b mn mx pr (Some k) q -> like q q0 -> l <> s -> l <> b ->
    sized q0 k -> z = Some (k * length vs)%nat ->
    repr h l (PArr N (MkArr N (MkDouble N (Some q0) mn mx pr (Some k)) vs z)) [l; s; b]
| R_comp l s cs ps F :
    nth_error h l = Some (OComp N s true (map Some cs)) -> reprs h cs ps F -> ~ In l F -> repr h l (PComp N s true ps) (l :: F)
| R_fresh l s ch ps : nth_error h l = Some (OComp N s false ch) -> repr h l (PComp N s false ps) [l]
with reprs (h : heap) : list nat -> list param -> list nat -> Prop :=
| RN : reprs h [] [] []
| RC c cs p ps F G : repr h c p F -> reprs h cs ps G -> (forall x, In x F -> In x G -> False) -> reprs h (c :: cs) (p :: ps) (F ++ G).
Scheme repr_ind2 := Minimality for repr Sort Prop with reprs_ind2 := Minimality for reprs Sort Prop.
Combined Scheme repr_mutind from repr_ind2, reprs_ind2.

Ltac inv H := inversion H; subst; clear H.

(** the frame *)
Lemma repr_frame_both h : 
  (forall l p F, repr h l p F -> forall h', (forall x, In x F -> nth_error h' x = nth_error h x) -> repr h' l p F) /\
  (forall cs ps F, reprs h cs ps F -> forall h', (forall x, In x F -> nth_error h' x = nth_error h x) -> reprs h' cs ps F).
Proof.
  apply repr_mutind.
  - intros l p H h' A. constructor. rewrite A; [exact H|now left].
  - intros l b mn mx pr z q (H1 & H2 & H3) h' A. constructor. split; [rewrite A; cbn; auto|]. split; [rewrite A; cbn; auto|exact H3].
  - intros l mn mx pr z H h' A. constructor. rewrite A; cbn; auto.
  - intros l s b vs z mn mx pr k q q0 H1 (H2 & H3 & H4) H5 H6 H7 H8 H9 h' A. econstructor; eauto; [rewrite A; cbn; auto|]. split; [rewrite A; cbn; auto|]. split; [rewrite A; cbn; auto|exact H4].
  - intros l s cs ps F H1 _ IH H2 h' A. econstructor; [rewrite A; [exact H1|now left]| |exact H2]. apply IH. intros x Hx. apply A. now right.
  - intros l s ch ps H h' A. econstructor. rewrite A; [exact H|now left].
  - intros h' A. constructor.
  - intros c cs p ps F G _ IH1 _ IH2 D h' A. constructor; [apply IH1|apply IH2|exact D]; intros x Hx; apply A, in_or_app; auto.
Qed.
Lemma repr_frame h l p F h' : repr h l p F -> (forall x, In x F -> nth_error h' x = nth_error h x) -> repr h' l p F.
Proof. intro H. apply (proj1 (repr_frame_both h) l p F H). Qed.
Lemma reprs_frame h cs ps F h' : reprs h cs ps F -> (forall x, In x F -> nth_error h' x = nth_error h x) -> reprs h' cs ps F.
Proof. intro H. apply (proj2 (repr_frame_both h) cs ps F H). Qed.

Lemma repr_bound_both h :
  (forall l p F, repr h l p F -> In l F /\ forall x, In x F -> x < length h) /\
  (forall cs ps F, reprs h cs ps F -> forall x, In x F -> x < length h).
Proof.
  apply repr_mutind; try (intros; cbn in *; try contradiction).
  - intros. split; [cbn; auto|]. intros x [<-|[]]. eapply nth_lt; eauto.
  - destruct H as (A & B & C). split; [auto|]. intros x [<-|[<-|[]]]; eapply nth_lt; eauto.
  - split; [auto|]. intros x [<-|[]]. eapply nth_lt; eauto.
  - destruct H0 as (A & B & C). split; [auto|]. intros x [<-|[<-|[<-|[]]]]; eapply nth_lt; eauto.
  - split; [auto|]. intros x [<-|Hx]; [eapply nth_lt; eauto|auto].
  - split; [auto|]. intros x [<-|[]]. eapply nth_lt; eauto.
  - apply in_app_or in H4 as [Hx|Hx]; [apply H0; exact Hx|auto].
Qed.
Lemma repr_bound h l p F x : repr h l p F -> In x F -> x < length h.
Proof. intros H. apply (proj1 (repr_bound_both h) l p F H). Qed.
Lemma repr_self h l p F : repr h l p F -> In l F.
Proof. intros H. apply (proj1 (repr_bound_both h) l p F H). Qed.
Lemma reprs_bound h cs ps F x : reprs h cs ps F -> In x F -> x < length h.
Proof. intros H. apply (proj2 (repr_bound_both h) cs ps F H). Qed.

(** nesting *)
Fixpoint depth (p : param) : nat :=
  match p with PComp _ _ true ps => S (fold_right Nat.max 0 (map depth ps)) | _ => 1 end.
Definition depths (ps : list param) : nat := fold_right Nat.max 0 (map depth ps).
Lemma repr_depth_both h :
  (forall l p F, repr h l p F -> NoDup F /\ depth p <= length F) /\
  (forall cs ps F, reprs h cs ps F -> NoDup F /\ depths ps <= length F).
Proof.
  apply repr_mutind.
  - intros. split; [constructor; [intros []|constructor]|cbn; lia].
  - intros l b mn mx pr z q (A & B & C). split; [|cbn; lia]. constructor; [intros [E|[]]; congruence|]. constructor; [intros []|constructor].
  - intros. split; [constructor; [intros []|constructor]|cbn; lia].
  - intros l s b vs z mn mx pr k q q0 H1 (H2 & H3 & H4) H5 H6 H7 H8 H9. split; [|cbn; lia]. constructor; [intros [E|[E|[]]]; congruence|]. constructor; [intros [E|[]]; congruence|]. constructor; [intros []|constructor].
  - intros l s cs ps F H1 _ [IH1 IH2] H2. split; [constructor; assumption|]. cbn [depth length]. fold (depths ps). lia.
  - intros. split; [constructor; [intros []|constructor]|cbn; lia].
  - split; [constructor|cbn; lia].
  - intros c cs p ps F G _ [A1 A2] _ [B1 B2] D. split.
    + clear A2 B2. induction F as [|x F IH]; [exact B1|]. inv A1. cbn [app]. constructor.
      * intro Hx. apply in_app_or in Hx as [Hx|Hx]; [contradiction|]. apply (D x); [now left|exact Hx].
      * apply IH; [assumption|]. intros y Hy. apply D. now right.
    + rewrite app_length. cbn [depths map fold_right]. fold (depths ps). lia.
Qed.
Lemma repr_depth h l p F : repr h l p F -> depth p <= length h.
Proof.
  intro H. destruct (proj1 (repr_depth_both h) l p F H) as [A B]. apply (Nat.le_trans _ _ _ B).
  rewrite <- (seq_length (length h) 0). apply NoDup_incl_length; [exact A|]. intros x Hx. apply in_seq. pose proof (repr_bound _ _ _ _ _ H Hx). lia.
Qed.
Lemma depths_in ps p : In p ps -> depth p <= depths ps.
Proof. unfold depths. induction ps as [|q ps IH]; intros []; cbn [map fold_right]; [subst; lia|specialize (IH H); lia]. Qed.

(** what a call may change: the cells [F]; new cells may appear *)
Definition same_but (h h' : heap) (F : list nat) : Prop :=
  length h <= length h' /\ forall x, x < length h -> ~ In x F -> nth_error h' x = nth_error h x.
Lemma same_refl h F : same_but h h F. Proof. split; auto. Qed.
Lemma same_trans a b c F : same_but a b F -> same_but b c F -> same_but a c F.
Proof. intros [A1 A2] [B1 B2]. split; [lia|]. intros x Hx Hn. rewrite B2 by (lia || assumption). apply A2; assumption. Qed.
Lemma same_incl a b F G : same_but a b F -> incl F G -> same_but a b G.
Proof. intros [A1 A2] I. split; [exact A1|]. intros x Hx Hn. apply A2; [exact Hx|]. intro Hf. apply Hn, I, Hf. Qed.
Lemma same_upd h l o F : In l F -> same_but h (upd h l o) F.
Proof. intro H. split; [rewrite upd_length; lia|]. intros x Hx Hn. apply nth_upd_ne. intros ->. contradiction. Qed.
Lemma same_new h o F : same_but h (h ++ [o]) F.
Proof. split; [rewrite app_length; lia|]. intros x Hx Hn. apply nth_error_app1, Hx. Qed.
Lemma repr_other h h' F l p G : repr h l p G -> same_but h h' F -> (forall x, In x F -> In x G -> False) -> repr h' l p G.
Proof. intros H [S1 S2] D. eapply repr_frame; [exact H|]. intros x Hx. apply S2; [eapply repr_bound; eauto|]. intro Hf. exact (D x Hf Hx). Qed.
Lemma reprs_other h h' F cs ps G : reprs h cs ps G -> same_but h h' F -> (forall x, In x F -> In x G -> False) -> reprs h' cs ps G.
Proof. intros H [S1 S2] D. eapply reprs_frame; [exact H|]. intros x Hx. apply S2; [eapply reprs_bound; eauto|]. intro Hf. exact (D x Hf Hx). Qed.

(** *** IntParameter and DoubleParameter *)
Ltac hs := unfold deref, hbind, rd, wr, new; unfold hlift, hret; cbv beta iota.

Lemma rd_int_at h b q : nth_error h b = Some (OInt N q) -> rd_int N b h = (Ok q, h).
Proof. intro H. unfold rd_int. hs. rewrite H. reflexivity. Qed.
Lemma rd_double_at h l b mn mx pr z : nth_error h l = Some (ODouble N b mn mx pr z) -> rd_double N l h = (Ok (b, (mn, mx, pr), z), h).
Proof. intro H. unfold rd_double. hs. rewrite H. reflexivity. Qed.
Lemma hd_get_value_at h l b mn mx pr z q : dbl_at h l b mn mx pr z q -> hd_get_value N l h = (Ok (dp_value_of N mn pr (ip_value q)), h).
Proof. intros (A & B & C). unfold hd_get_value, hbind. rewrite (rd_double_at _ _ _ _ _ _ _ A). hs. rewrite (rd_int_at _ _ _ B). reflexivity. Qed.
Lemma hd_check_at h l b mn mx pr z q : dbl_at h l b mn mx pr z q -> hd_check N l h = (Ok (dp_check_bounds N mn mx (dp_value_of N mn pr (ip_value q))), h).
Proof. intros H. unfold hd_check, hbind. rewrite (hd_get_value_at _ _ _ _ _ _ _ _ H). destruct H as (A & B & C). rewrite (rd_double_at _ _ _ _ _ _ _ A). reflexivity. Qed.
Lemma hd_set_value_at h l b mn mx pr z q v : dbl_at h l b mn mx pr z q ->
  hd_set_value N l v h = match dp_quantise N mn pr v with Ok i => (Ok tt, upd h b (OInt N (ip_set_value q i))) | Throw e => (Throw e, h) | UB u => (UB u, h) end.
Proof.
  intros (A & B & C). unfold hd_set_value, hbind at 1. rewrite (rd_double_at _ _ _ _ _ _ _ A). hs. destruct (dp_quantise N mn pr v); try reflexivity.
  unfold hi_set_value. hs. rewrite (rd_int_at _ _ _ B). reflexivity.
Qed.
Lemma hd_encode_at h l b mn mx pr z q old : dbl_at h l b mn mx pr z q -> hd_encode N l old h = (ip_set_chromosome q old, h).
Proof. intros (A & B & C). unfold hd_encode, hbind at 1. rewrite (rd_double_at _ _ _ _ _ _ _ A). hs. rewrite (rd_int_at _ _ _ B). reflexivity. Qed.
Lemma hi_set_from_at h b q bits : nth_error h b = Some (OInt N q) ->
  hi_set_from N b bits h = (snd (ip_set_from q bits), upd h b (OInt N (fst (ip_set_from q bits)))).
Proof. intro B. unfold hi_set_from. hs. rewrite (rd_int_at _ _ _ B). destruct (ip_set_from q bits) as [q' [[]| |]]; reflexivity. Qed.
Lemma hd_set_from_at h l b mn mx pr z q bits : dbl_at h l b mn mx pr z q ->
  hd_set_from N l bits h = (snd (ip_set_from q bits), upd h b (OInt N (fst (ip_set_from q bits)))).
Proof. intros (A & B & C). unfold hd_set_from, hbind at 1. rewrite (rd_double_at _ _ _ _ _ _ _ A). hs. apply hi_set_from_at, B. Qed.
Lemma dbl_at_upd h l b mn mx pr z q q' : dbl_at h l b mn mx pr z q -> dbl_at (upd h b (OInt N q')) l b mn mx pr z q'.
Proof. intros (A & B & C). split; [rewrite nth_upd_ne by auto; exact A|]. split; [eapply nth_upd_eq; exact B|exact C]. Qed.

Lemma ip_set_from_like q q0 bits : like q q0 -> snd (ip_set_from q bits) = snd (ip_set_from q0 bits) /\ like (fst (ip_set_from q bits)) q0 /\
  (snd (ip_set_from q0 bits) = Ok tt -> fst (ip_set_from q bits) = fst (ip_set_from q0 bits)).
Proof.
  intros L. pose proof L as (A & B & C). unfold ip_set_from. rewrite C. destruct (cs_check (ip_size q0) (length bits)); cbn; [|split; [reflexivity|split; [exact L|discriminate]]..].
  rewrite A. destruct (let! r := int_from_bits bits 0 0 in chk_int (r + ip_min q0)); cbn; [|split; [reflexivity|split; [exact L|discriminate]]..].
  split; [reflexivity|]. split; [apply (like_trans _ q); [apply like_set_l|exact L]|]. intros _. apply like_set, L.
Qed.

(** *** DoubleParametersArray: the loops over the values. They leave the sample with another value. *)
Definition not_ub {A} (o : outcome A) : Prop := match o with UB _ => False | _ => True end.
Lemma ha_check_loop_sim s b mn mx pr z vs : forall h q q0, dbl_at h s b mn mx pr z q -> like q q0 ->
  not_ub (da_check_loop N (MkDouble N (Some q0) mn mx pr z) vs) ->
  exists q', ha_check_loop N s vs h = (da_check_loop N (MkDouble N (Some q0) mn mx pr z) vs, upd h b (OInt N q')) /\ like q' q0.
Proof.
  induction vs as [|v vs IH]; intros h q q0 D L U; cbn [ha_check_loop da_check_loop] in *.
  - exists q. split; [|exact L]. unfold hret. rewrite upd_same; [reflexivity|apply D].
  - unfold hbind at 1. rewrite (hd_set_value_at _ _ _ _ _ _ _ _ _ D). unfold dp_set_value in *. cbn [dp_min dp_prec dp_base] in *.
    destruct (dp_quantise N mn pr v) as [i|e|u]; cbn [bind] in *; [|exists q; split; [rewrite upd_same; [reflexivity|apply D]|exact L]|contradiction].
    pose proof (dbl_at_upd _ _ _ _ _ _ _ _ (ip_set_value q i) D) as D'. unfold hbind at 1. rewrite (hd_check_at _ _ _ _ _ _ _ _ D').
    unfold dp_with_base in *. cbn [dp_min dp_max dp_prec dp_size] in *. unfold dp_check at 1 in U. unfold dp_check at 1. unfold dp_get_value at 1 in U. unfold dp_get_value at 1. cbn [dp_base dp_min dp_max dp_prec bind] in *.
    rewrite (like_set _ _ i L) in *. destruct (dp_check_bounds N mn mx (dp_value_of N mn pr (ip_value (ip_set_value q0 i)))).
    + destruct (IH _ _ _ D' (like_refl _) U) as (q' & E & L'). exists q'. rewrite E, upd_upd. split; [reflexivity|]. apply (like_trans _ _ _ L'), like_set_l.
    + exists (ip_set_value q0 i). split; [reflexivity|apply like_set_l].
Qed.
Lemma ha_encode_loop_sim s b mn mx pr z k vs : forall rest h q q0, dbl_at h s b mn mx pr z q -> like q q0 ->
  not_ub (da_encode_loop N (MkDouble N (Some q0) mn mx pr z) k vs rest) ->
  exists q', ha_encode_loop N s k vs rest h = (da_encode_loop N (MkDouble N (Some q0) mn mx pr z) k vs rest, upd h b (OInt N q')) /\ like q' q0.
Proof.
  induction vs as [|v vs IH]; intros rest h q q0 D L U; cbn [ha_encode_loop da_encode_loop] in *.
  - exists q. split; [|exact L]. unfold hret. rewrite upd_same; [reflexivity|apply D].
  - unfold hbind at 1. rewrite (hd_set_value_at _ _ _ _ _ _ _ _ _ D). unfold dp_set_value in *. cbn [dp_min dp_prec dp_base] in *.
    destruct (dp_quantise N mn pr v) as [i|e|u]; cbn [bind] in *; [|exists q; split; [rewrite upd_same; [reflexivity|apply D]|exact L]|contradiction].
    pose proof (dbl_at_upd _ _ _ _ _ _ _ _ (ip_set_value q i) D) as D'. unfold hbind at 1. rewrite (hd_encode_at _ _ _ _ _ _ _ _ _ D').
    unfold dp_with_base, dp_set_chromosome in *. cbn [dp_base dp_min dp_max dp_prec dp_size] in *. rewrite (like_set _ _ i L) in *.
    destruct (ip_set_chromosome (ip_set_value q0 i) (firstn k rest)) as [c|e|u]; cbn [bind] in *; [|exists (ip_set_value q0 i); split; [reflexivity|apply like_set_l]|contradiction].
    assert (U' : not_ub (da_encode_loop N (MkDouble N (Some (ip_set_value q0 i)) mn mx pr z) k vs (skipn k rest))).
    { destruct (da_encode_loop N _ k vs (skipn k rest)); cbn in *; auto. }
    destruct (IH (skipn k rest) _ _ _ D' (like_refl _) U') as (q' & E & L'). exists q'. unfold hbind at 1. rewrite E, upd_upd.
    split; [|apply (like_trans _ _ _ L'), like_set_l]. destruct (da_encode_loop N _ k vs (skipn k rest)); reflexivity.
Qed.
Lemma int_from_bits_no_throw bits : forall b r e, int_from_bits bits b r <> Throw e.
Proof. induction bits as [|g bits IH]; intros b r e; cbn [int_from_bits]; [discriminate|]. destruct (b <? 31); [apply IH|discriminate]. Qed.
Lemma ip_set_from_no_throw q k bits e : ip_size q = Some k -> length bits = k -> snd (ip_set_from q bits) <> Throw e.
Proof.
  intros S L. unfold ip_set_from, cs_check. rewrite S, L, Nat.eqb_refl. destruct (int_from_bits bits 0 0) as [r|x|u] eqn:E; cbn [bind]; [|exfalso; eapply int_from_bits_no_throw; eauto|cbn; discriminate].
  unfold chk_int. destruct (in_int _); cbn; discriminate.
Qed.
Lemma firstn_S_upd {A} (vs : list A) i v : i < length vs -> firstn (S i) (upd vs i v) = firstn i vs ++ [v].
Proof. revert i; induction vs as [|x vs IH]; intros [|i] H; cbn in *; try lia; [reflexivity|]. f_equal. apply IH. lia. Qed.
Lemma upd_comm {A} (l : list A) i j a b : i <> j -> upd (upd l i a) j b = upd (upd l j b) i a.
Proof. revert i j; induction l as [|x l IH]; intros [|i] [|j] H; cbn; try congruence. f_equal. apply IH. lia. Qed.

Lemma ha_decode_loop_sim l s b mn mx pr k z : l <> s -> l <> b -> forall n i bits h q q0 vs,
  nth_error h l = Some (OArr N (Some s) vs z) -> dbl_at h s b mn mx pr (Some k) q -> like q q0 -> ip_size q0 = Some k ->
  length bits = (n * k)%nat -> (i + n = length vs)%nat -> not_ub (da_decode_loop N (MkDouble N (Some q0) mn mx pr (Some k)) k n bits) ->
  exists out q', da_decode_loop N (MkDouble N (Some q0) mn mx pr (Some k)) k n bits = Ok out /\ length out = n /\ like q' q0 /\
    ha_decode_loop N l s k n i bits h = (Ok tt, upd (upd h b (OInt N q')) l (OArr N (Some s) (firstn i vs ++ out) z)).
Proof.
  intros Hls Hlb. induction n as [|n IH]; intros i bits h q q0 vs A D L SZ LB LV U; cbn [ha_decode_loop da_decode_loop] in *.
  - exists [], q. split; [reflexivity|]. split; [reflexivity|]. split; [exact L|]. unfold hret. rewrite (upd_same h b) by apply D.
    rewrite app_nil_r, firstn_all2 by lia. rewrite upd_same by exact A. reflexivity.
  - unfold hbind at 1. rewrite (hd_set_from_at _ _ _ _ _ _ _ _ _ D). unfold dp_set_from in *. cbn [dp_base] in *.
    destruct (ip_set_from_like q q0 (firstn k bits) L) as (E1 & E2 & E3). rewrite E1.
    assert (LF : length (firstn k bits) = k) by (rewrite firstn_length; nia).
    pose proof (ip_set_from_no_throw q0 k (firstn k bits)) as NT.
    destruct (ip_set_from q0 (firstn k bits)) as [q1 [[]|e|u]] eqn:EI; cbn [bind snd fst] in *; [|exfalso; exact (NT e SZ LF eq_refl)|contradiction].
    specialize (E3 eq_refl). rewrite E3 in *. pose proof (dbl_at_upd _ _ _ _ _ _ _ _ q1 D) as D'.
    unfold hbind at 1. rewrite (hd_get_value_at _ _ _ _ _ _ _ _ D'). unfold dp_with_base in *. cbn [dp_min dp_max dp_prec dp_size] in *.
    unfold dp_get_value at 1 in U. unfold dp_get_value at 1. cbn [dp_base dp_min dp_prec bind] in *. set (v := dp_value_of N mn pr (ip_value q1)) in *.
    unfold hbind at 1. assert (A1 : rd_arr N l (upd h b (OInt N q1)) = (Ok (Some s, vs, z), upd h b (OInt N q1))).
    { unfold rd_arr. hs. rewrite nth_upd_ne by auto. rewrite A. reflexivity. }
    rewrite A1. unfold hbind at 1, wr at 1. set (h1 := upd (upd h b (OInt N q1)) l (OArr N (Some s) (upd vs i v) z)).
    assert (D1 : dbl_at h1 s b mn mx pr (Some k) q1). { destruct D' as (X & Y & Z). unfold h1. split; [rewrite nth_upd_ne by auto; exact X|]. split; [rewrite nth_upd_ne by auto; exact Y|exact Z]. }
    assert (A2 : nth_error h1 l = Some (OArr N (Some s) (upd vs i v) z)). { unfold h1. eapply nth_upd_eq. rewrite nth_upd_ne by auto. exact A. }
    assert (U' : not_ub (da_decode_loop N (MkDouble N (Some q1) mn mx pr (Some k)) k n (skipn k bits))). { destruct (da_decode_loop N _ k n (skipn k bits)); cbn in *; auto. }
    assert (SZ1 : ip_size q1 = Some k). { destruct E2 as (_ & _ & E2). congruence. }
    destruct (IH (S i) (skipn k bits) h1 q1 q1 (upd vs i v) A2 D1 (like_refl _) SZ1) as (out & q' & R1 & R2 & R3 & R4).
    { rewrite skipn_length. nia. } { rewrite upd_length. lia. } { exact U'. }
    exists (v :: out), q'. rewrite R1. cbn [bind]. split; [reflexivity|]. split; [cbn; lia|]. split; [apply (like_trans _ _ _ R3), E2|].
    rewrite R4. unfold h1. rewrite (upd_comm _ l b) by auto. rewrite upd_upd. rewrite upd_upd. rewrite firstn_S_upd by lia. rewrite <- app_assoc. reflexivity.
Qed.

(** *** Calls on one object, its components included *)
Definition does {A} (h : heap) (l : nat) (F : list nat) (m : hop A) (o : outcome A) (p' : param) : Prop :=
  not_ub o -> exists h', m h = (o, h') /\ same_but h h' F /\ repr h' l p' F.

Lemma arr_after h l s b vs z mn mx pr k q q0 q' vs' :
  nth_error h l = Some (OArr N (Some s) vs z) -> dbl_at h s b mn mx pr (Some k) q -> l <> s -> l <> b -> like q' q0 ->
  sized q0 k -> z = Some (k * length vs)%nat -> length vs' = length vs ->
  repr (upd (upd h b (OInt N q')) l (OArr N (Some s) vs' z)) l (PArr N (MkArr N (MkDouble N (Some q0) mn mx pr (Some k)) vs' z)) [l; s; b].
Proof.
  intros A D H1 H2 L S Z E. pose proof (dbl_at_upd _ _ _ _ _ _ _ _ q' D) as (X & Y & W). apply (R_arr _ l s b vs' z mn mx pr k q' q0); auto.
  - eapply nth_upd_eq. rewrite nth_upd_ne by auto. exact A.
  - split; [rewrite nth_upd_ne by auto; exact X|]. split; [rewrite nth_upd_ne by auto; exact Y|exact W].
  - congruence.
Qed.
Lemma arr_after_scratch h l s b vs z mn mx pr k q q0 q' :
  nth_error h l = Some (OArr N (Some s) vs z) -> dbl_at h s b mn mx pr (Some k) q -> l <> s -> l <> b -> like q' q0 ->
  sized q0 k -> z = Some (k * length vs)%nat ->
  repr (upd h b (OInt N q')) l (PArr N (MkArr N (MkDouble N (Some q0) mn mx pr (Some k)) vs z)) [l; s; b].
Proof.
  intros A D H1 H2 L S Z. pose proof (arr_after _ _ _ _ _ _ _ _ _ _ _ _ _ vs A D H1 H2 L S Z eq_refl) as R.
  rewrite upd_same in R; [exact R|]. rewrite nth_upd_ne by auto. exact A.
Qed.
Lemma rd_arr_at h l s vs z : nth_error h l = Some (OArr N s vs z) -> rd_arr N l h = (Ok (s, vs, z), h).
Proof. intro H. unfold rd_arr. hs. rewrite H. reflexivity. Qed.
Lemma hd_size_at h l b mn mx pr z : nth_error h l = Some (ODouble N b mn mx pr z) -> hd_size N l h = (cs_get z, h).
Proof. intro H. unfold hd_size, hbind. rewrite (rd_double_at _ _ _ _ _ _ _ H). reflexivity. Qed.

Lemma repr_arr h l a F : repr h l (PArr N a) F -> exists s b vs mn mx pr k q q0,
  nth_error h l = Some (OArr N (Some s) vs (Some (k * length vs)%nat)) /\ dbl_at h s b mn mx pr (Some k) q /\ like q q0 /\ l <> s /\ l <> b /\
  sized q0 k /\ a = MkArr N (MkDouble N (Some q0) mn mx pr (Some k)) vs (Some (k * length vs)%nat) /\ F = [l; s; b].
Proof. intro R. inversion R as [| | |l0 s b vs z mn mx pr k q q0 A D L Hs Hb S Z| |]; subst. exists s, b, vs, mn, mx, pr, k, q, q0.
  split; [exact A|]. split; [exact D|]. split; [exact L|]. auto. Qed.
Lemma ha_check_does h l a F : repr h l (PArr N a) F -> does h l F (ha_check N l) (da_check N a) (PArr N a).
Proof.
  intros R U. apply repr_arr in R as (s & b & vs & mn & mx & pr & k & q & q0 & A & D & L & Hs & Hb & S & -> & ->). unfold da_check in *. cbn [da_sample da_values] in *.
  unfold ha_check, hbind at 1. rewrite (rd_arr_at _ _ _ _ _ A). destruct vs as [|v vs].
  - exists h. split; [reflexivity|]. split; [apply same_refl|]. econstructor; eauto.
  - unfold hbind at 1, deref at 1, hlift at 1. destruct (ha_check_loop_sim s b mn mx pr (Some k) (v :: vs) h q q0 D L U) as (q' & E & L').
    rewrite E. eexists. split; [reflexivity|]. split; [apply same_upd; cbn; auto|]. eapply arr_after_scratch; eauto.
Qed.
Lemma ha_encode_does h l a F old : repr h l (PArr N a) F -> does h l F (ha_encode N l old) (da_set_chromosome N a old) (PArr N a).
Proof.
  intros R U. apply repr_arr in R as (s & b & vs & mn & mx & pr & k & q & q0 & A & D & L & Hs & Hb & S & -> & ->). unfold da_set_chromosome in *. cbn [da_sample da_values da_size dp_size] in *.
  unfold ha_encode, hbind at 1. rewrite (rd_arr_at _ _ _ _ _ A). unfold hbind at 1, hlift at 1.
  destruct (cs_check (Some (k * length vs)%nat) (length old)) as [[]|e|u]; cbn [bind] in *; [|exists h; split; [reflexivity|]; split; [apply same_refl|econstructor; eauto]|contradiction].
  unfold hbind at 1, deref at 1, hlift at 1. unfold hbind at 1. rewrite (hd_size_at _ _ _ _ _ _ _ (proj1 D)). cbn [cs_get bind] in *.
  destruct (ha_encode_loop_sim s b mn mx pr (Some k) k vs old h q q0 D L U) as (q' & E & L').
  rewrite E. eexists. split; [reflexivity|]. split; [apply same_upd; cbn; auto|]. eapply arr_after_scratch; eauto.
Qed.
Lemma ha_set_from_does h l a F bits : repr h l (PArr N a) F ->
  does h l F (ha_set_from N l bits) (snd (da_set_from N a bits)) (PArr N (fst (da_set_from N a bits))).
Proof.
  intros R U. apply repr_arr in R as (s & b & vs & mn & mx & pr & k & q & q0 & A & D & L & Hs & Hb & S & -> & ->). unfold da_set_from in *. cbn [da_sample da_values da_size dp_size] in *.
  unfold ha_set_from, hbind at 1. rewrite (rd_arr_at _ _ _ _ _ A). unfold hbind at 1, hlift at 1.
  destruct (cs_check (Some (k * length vs)%nat) (length bits)) as [[]|e|u] eqn:EC; cbn [bind snd fst] in *; [|exists h; split; [reflexivity|]; split; [apply same_refl|econstructor; eauto]|contradiction].
  unfold cs_check in EC. destruct (Nat.eqb_spec (length bits) (k * length vs)) as [EL|]; [|discriminate].
  unfold hbind at 1, deref at 1, hlift at 1. unfold hbind at 1. rewrite (hd_size_at _ _ _ _ _ _ _ (proj1 D)). cbn [cs_get bind] in *.
  destruct (ha_decode_loop_sim l s b mn mx pr k (Some (k * length vs)%nat) Hs Hb (length vs) 0 bits h q q0 vs A D L (proj1 S)) as (out & q' & R1 & R2 & R3 & R4); [nia|lia| |].
  { destruct (da_decode_loop N _ k (length vs) bits); cbn in *; auto. }
  rewrite R1, R4 in *. cbn [snd fst firstn app]. eexists. split; [reflexivity|]. split; [eapply same_trans; apply same_upd; cbn; auto|].
  unfold da_with_values. cbn [da_sample da_size]. eapply arr_after; eauto.
Qed.
Lemma ha_set_values_does h l a F vs : repr h l (PArr N a) F ->
  does h l F (ha_set_values N l vs) (snd (da_set_values N a vs)) (PArr N (fst (da_set_values N a vs))).
Proof.
  intros R U. pose proof R as R0. apply repr_arr in R as (s & b & vs0 & mn & mx & pr & k & q & q0 & A & D & L & Hs & Hb & S & -> & ->). unfold da_set_values in *. cbn [da_values] in *.
  unfold ha_set_values, hbind at 1. rewrite (rd_arr_at _ _ _ _ _ A). destruct (Nat.eqb_spec (length vs) (length vs0)) as [E|E]; cbn [negb snd fst] in *.
  2:{ exists h. split; [reflexivity|]. split; [apply same_refl|exact R0]. }
  unfold hbind at 1, wr at 1. unfold da_with_values in *. cbn [da_sample da_size] in *.
  set (z := Some (k * length vs0)%nat) in *. set (h1 := upd h l (OArr N (Some s) vs z)).
  assert (R1 : repr h1 l (PArr N (MkArr N (MkDouble N (Some q0) mn mx pr (Some k)) vs z)) [l; s; b]).
  { pose proof (arr_after _ _ _ _ _ _ _ _ _ _ _ _ q vs A D Hs Hb L S eq_refl E) as X. rewrite (upd_same h b) in X by apply D. exact X. }
  assert (U' : not_ub (da_check N (MkArr N (MkDouble N (Some q0) mn mx pr (Some k)) vs z))). { destruct (da_check N _) as [[]| |]; cbn in *; auto. }
  destruct (ha_check_does _ _ _ _ R1 U') as (h' & E' & S' & R'). unfold hbind. rewrite E'.
  assert (same_but h h' [l; s; b]) by (eapply same_trans; [apply (same_upd h l (OArr N (Some s) vs z)); cbn; auto|exact S']).
  destruct (da_check N _) as [[]|e|u]; cbn [snd fst] in *; [| | |contradiction]; exists h'; (split; [reflexivity|split; [assumption|exact R']]).
Qed.

Lemma h_size_at h l p F : repr h l p F -> h_size N l h = (p_size N p, h).
Proof. intro R. unfold h_size. hs. inv R; cbn [p_size dp_size da_size]; try (rewrite H; reflexivity). destruct H as (H & _). rewrite H. reflexivity. Qed.
Lemma same_pair h h' F x : same_but h h' F -> x < length h -> ~ In x F -> nth_error h' x = nth_error h x.
Proof. intros [_ S]. apply S. Qed.
Lemma same_app_l a b F G : same_but a b F -> same_but a b (F ++ G).
Proof. intro H. eapply same_incl; [exact H|]. intros x Hx. apply in_or_app. now left. Qed.
Lemma same_app_r a b F G : same_but a b G -> same_but a b (F ++ G).
Proof. intro H. eapply same_incl; [exact H|]. intros x Hx. apply in_or_app. now right. Qed.

Lemma reprs_cons h c cs ps F : reprs h (c :: cs) ps F -> exists p ps0 F0 G,
  ps = p :: ps0 /\ F = F0 ++ G /\ repr h c p F0 /\ reprs h cs ps0 G /\ (forall x, In x F0 -> In x G -> False).
Proof. intro R. inv R. eauto 10. Qed.
Lemma reprs_nil h ps F : reprs h [] ps F -> ps = [] /\ F = [].
Proof. intro R. inv R. auto. Qed.
(** a call on every component in turn *)
Definition doess {A} (h : heap) (cs : list nat) (F : list nat) (m : hop A) (o : outcome A) (ps' : list param) : Prop :=
  not_ub o -> exists h', m h = (o, h') /\ same_but h h' F /\ reprs h' cs ps' F.

Lemma check_all_does f : (forall l p F h, repr h l p F -> depth p <= f -> does h l F (h_check N f l) (p_check N p) p) ->
  forall cs ps F h, reprs h cs ps F -> depths ps <= f -> doess h cs F (check_all N (h_check N f) (map Some cs)) (comp_check N ps) ps.
Proof.
  intros IHf. induction cs as [|c cs IH]; intros ps F h R D U.
  - apply reprs_nil in R as (-> & ->). exists h. split; [reflexivity|]. split; [apply same_refl|constructor].
  - apply reprs_cons in R as (p & ps0 & F0 & G & -> & -> & Rc & Rs & Dj). unfold depths in D. cbn [map fold_right] in D. fold (depths ps0) in D.
    cbn [map check_all comp_check] in *. unfold hbind at 1, deref at 1, hlift at 1.
    destruct (IHf c p F0 h Rc) as (h1 & E1 & S1 & R1); [lia|destruct (p_check N p); cbn in *; auto|].
    unfold hbind at 1. rewrite E1. pose proof (reprs_other _ _ _ _ _ _ Rs S1 Dj) as Rs1.
    destruct (p_check N p) as [[]|e|u]; cbn [bind] in *; [| | |contradiction].
    + destruct (IH ps0 G h1 Rs1) as (h2 & E2 & S2 & R2); [lia|exact U|]. exists h2. split; [exact E2|]. split.
      * eapply same_trans; [apply same_app_l, S1|apply same_app_r, S2].
      * constructor; [|exact R2|exact Dj]. eapply repr_other; [exact R1|exact S2|]. intros x Hx Hy. exact (Dj x Hy Hx).
    + exists h1. split; [reflexivity|]. split; [apply same_app_l, S1|]. constructor; assumption.
    + exists h1. split; [reflexivity|]. split; [apply same_app_l, S1|]. constructor; assumption.
Qed.
Lemma encode_all_does f : (forall l p F h old, repr h l p F -> depth p <= f -> does h l F (h_encode N f l old) (p_set_chromosome N p old) p) ->
  forall cs ps F h rest, reprs h cs ps F -> depths ps <= f -> doess h cs F (encode_all N (h_encode N f) (map Some cs) rest) (comp_encode N ps rest) ps.
Proof.
  intros IHf. induction cs as [|c cs IH]; intros ps F h rest R D U.
  - apply reprs_nil in R as (-> & ->). exists h. split; [reflexivity|]. split; [apply same_refl|constructor].
  - apply reprs_cons in R as (p & ps0 & F0 & G & -> & -> & Rc & Rs & Dj). unfold depths in D. cbn [map fold_right] in D. fold (depths ps0) in D.
    cbn [map encode_all comp_encode] in *. unfold hbind at 1, deref at 1, hlift at 1. unfold hbind at 1. rewrite (h_size_at _ _ _ _ Rc).
    destruct (p_size N p) as [k|e|u]; cbn [bind] in *; [|exists h; split; [reflexivity|]; split; [apply same_refl|constructor; assumption]|contradiction].
    destruct (k <=? length rest)%nat; [|contradiction].
    destruct (IHf c p F0 h (firstn k rest) Rc) as (h1 & E1 & S1 & R1); [lia|destruct (p_set_chromosome N p (firstn k rest)); cbn in *; auto|].
    unfold hbind at 1. rewrite E1. pose proof (reprs_other _ _ _ _ _ _ Rs S1 Dj) as Rs1.
    destruct (p_set_chromosome N p (firstn k rest)) as [x|e|u]; cbn [bind] in *; [| |contradiction].
    + destruct (IH ps0 G h1 (skipn k rest) Rs1) as (h2 & E2 & S2 & R2); [lia|destruct (comp_encode N ps0 (skipn k rest)); cbn in *; auto|]. exists h2. split; [|split].
      * unfold hbind. rewrite E2. destruct (comp_encode N ps0 (skipn k rest)); reflexivity.
      * eapply same_trans; [apply same_app_l, S1|apply same_app_r, S2].
      * constructor; [|exact R2|exact Dj]. eapply repr_other; [exact R1|exact S2|]. intros y Hx Hy. exact (Dj y Hy Hx).
    + exists h1. split; [reflexivity|]. split; [apply same_app_l, S1|]. constructor; assumption.
Qed.
Lemma decode_all_does f : (forall l p F h bits, repr h l p F -> depth p <= f -> does h l F (h_set_from N f l bits) (snd (p_set_from N p bits)) (fst (p_set_from N p bits))) ->
  forall cs ps F h rest, reprs h cs ps F -> depths ps <= f ->
  doess h cs F (decode_all N (h_set_from N f) (map Some cs) rest) (snd (comp_decode N ps rest)) (fst (comp_decode N ps rest)).
Proof.
  intros IHf. induction cs as [|c cs IH]; intros ps F h rest R D U.
  - apply reprs_nil in R as (-> & ->). exists h. split; [reflexivity|]. split; [apply same_refl|constructor].
  - apply reprs_cons in R as (p & ps0 & F0 & G & -> & -> & Rc & Rs & Dj). unfold depths in D. cbn [map fold_right] in D. fold (depths ps0) in D.
    cbn [map decode_all comp_decode] in *. unfold hbind at 1, deref at 1, hlift at 1. unfold hbind at 1. rewrite (h_size_at _ _ _ _ Rc).
    destruct (p_size N p) as [k|e|u]; cbn [bind snd fst] in *; [|exists h; split; [reflexivity|]; split; [apply same_refl|constructor; assumption]|contradiction].
    destruct (k <=? length rest)%nat; [|contradiction].
    pose proof (IHf c p F0 h (firstn k rest) Rc) as IHp.
    destruct (p_set_from N p (firstn k rest)) as [p' [[]|e|u]]; cbn [snd fst] in *; [| |contradiction].
    + destruct IHp as (h1 & E1 & S1 & R1); [lia|exact I|].
      unfold hbind at 1. rewrite E1. pose proof (reprs_other _ _ _ _ _ _ Rs S1 Dj) as Rs1.
      pose proof (IH ps0 G h1 (skipn k rest) Rs1) as IH2. destruct (comp_decode N ps0 (skipn k rest)) as [r' o']; cbn [snd fst] in *.
      destruct IH2 as (h2 & E2 & S2 & R2); [lia|exact U|]. exists h2. split; [exact E2|]. split.
      * eapply same_trans; [apply same_app_l, S1|apply same_app_r, S2].
      * constructor; [|exact R2|exact Dj]. eapply repr_other; [exact R1|exact S2|]. intros y Hx Hy. exact (Dj y Hy Hx).
    + destruct IHp as (h1 & E1 & S1 & R1); [lia|exact I|]. unfold hbind at 1. rewrite E1. pose proof (reprs_other _ _ _ _ _ _ Rs S1 Dj) as Rs1.
      exists h1. split; [reflexivity|]. split; [apply same_app_l, S1|]. constructor; assumption.
Qed.

Lemma repr_double h l d F : repr h l (PDouble N d) F ->
  (exists b q, dp_base N d = Some q /\ dbl_at h l b (dp_min N d) (dp_max N d) (dp_prec N d) (dp_size N d) q /\ F = [l; b]) \/
  (dp_base N d = None /\ nth_error h l = Some (ODouble N None (dp_min N d) (dp_max N d) (dp_prec N d) (dp_size N d)) /\ F = [l]).
Proof. intro R. inv R; [left; do 2 eexists; cbn; eauto|right; cbn; auto]. Qed.
Lemma repr_int h l p F : repr h l (PInt N p) F -> nth_error h l = Some (OInt N p) /\ F = [l].
Proof. intro R. inv R. auto. Qed.
Lemma repr_comp h l s ps F : repr h l (PComp N s true ps) F -> exists cs G,
  nth_error h l = Some (OComp N s true (map Some cs)) /\ reprs h cs ps G /\ ~ In l G /\ F = l :: G.
Proof. intro R. inv R. eauto 6. Qed.
Lemma repr_fresh h l s ps F : repr h l (PComp N s false ps) F -> exists ch, nth_error h l = Some (OComp N s false ch) /\ F = [l].
Proof. intro R. inv R. eauto. Qed.

Lemma h_check_does f : forall l p F h, repr h l p F -> depth p <= f -> does h l F (h_check N f l) (p_check N p) p.
Proof.
  induction f as [|f IH]; intros l p F h R D; [destruct p as [| | |? []]; cbn in D; lia|]. cbn [h_check].
  destruct p as [q|d|a|s [] ps].
  - intros U. destruct (repr_int _ _ _ _ R) as [H ->]. exists h. unfold hbind, rd. rewrite H. split; [reflexivity|]. split; [apply same_refl|exact R].
  - intros U. destruct (repr_double _ _ _ _ R) as [(b & q & B & H & ->)|(B & H & ->)].
    + unfold hbind, rd. rewrite (proj1 H). rewrite (hd_check_at _ _ _ _ _ _ _ _ H). exists h. cbn [p_check]. unfold dp_check, dp_get_value. rewrite B. cbn [bind]. split; [reflexivity|]. split; [apply same_refl|exact R].
    + cbn [p_check] in U. unfold dp_check, dp_get_value in U. rewrite B in U. contradiction.
  - intros U. unfold hbind, rd. destruct (repr_arr _ _ _ _ R) as (s & b & vs & mn & mx & pr & k & q & q0 & A & _). rewrite A. apply (ha_check_does _ _ _ _ R U).
  - intros U. destruct (repr_comp _ _ _ _ _ R) as (cs & G & H & Rs & Nl & ->). rewrite check_comp in U.
    unfold hbind, rd. rewrite H. destruct (check_all_does f IH cs ps G h Rs) as (h' & E & S & R'); [cbn [depth] in D; fold (depths ps) in D; lia|exact U|].
    exists h'. rewrite check_comp. split; [exact E|]. split; [eapply same_incl; [exact S|intros x Hx; now right]|].
    econstructor; [|exact R'|exact Nl]. rewrite (same_pair _ _ _ _ S); [exact H|eapply nth_lt; eauto|exact Nl].
  - intros U. destruct (repr_fresh _ _ _ _ _ R) as (ch & H & ->). exists h. unfold hbind, rd. rewrite H. split; [reflexivity|]. split; [apply same_refl|exact R].
Qed.
Lemma h_encode_does f : forall l p F h old, repr h l p F -> depth p <= f -> does h l F (h_encode N f l old) (p_set_chromosome N p old) p.
Proof.
  induction f as [|f IH]; intros l p F h old R D; [destruct p as [| | |? []]; cbn in D; lia|]. cbn [h_encode].
  destruct p as [q|d|a|s [] ps].
  - intros U. destruct (repr_int _ _ _ _ R) as [H ->]. exists h. unfold hbind, rd. rewrite H. split; [reflexivity|]. split; [apply same_refl|exact R].
  - intros U. destruct (repr_double _ _ _ _ R) as [(b & q & B & H & ->)|(B & H & ->)].
    + unfold hbind, rd. rewrite (proj1 H). rewrite (hd_encode_at _ _ _ _ _ _ _ _ _ H). exists h. cbn [p_set_chromosome]. unfold dp_set_chromosome. rewrite B. split; [reflexivity|]. split; [apply same_refl|exact R].
    + cbn [p_set_chromosome] in U. unfold dp_set_chromosome in U. rewrite B in U. contradiction.
  - intros U. unfold hbind, rd. destruct (repr_arr _ _ _ _ R) as (s & b & vs & mn & mx & pr & k & q & q0 & A & _). rewrite A. apply (ha_encode_does _ _ _ _ old R U).
  - intros U. destruct (repr_comp _ _ _ _ _ R) as (cs & G & H & Rs & Nl & ->). rewrite set_chromosome_comp in U.
    unfold hbind at 1, rd at 1. rewrite H. unfold hbind at 1, hlift at 1. rewrite set_chromosome_comp.
    destruct (cs_check s (length old)) as [[]|e|u]; cbn [bind] in *; [|exists h; split; [reflexivity|]; split; [apply same_refl|exact R]|contradiction].
    destruct (encode_all_does f IH cs ps G h old Rs) as (h' & E & S & R'); [cbn [depth] in D; fold (depths ps) in D; lia|exact U|].
    exists h'. split; [exact E|]. split; [eapply same_incl; [exact S|intros x Hx; now right]|].
    econstructor; [|exact R'|exact Nl]. rewrite (same_pair _ _ _ _ S); [exact H|eapply nth_lt; eauto|exact Nl].
  - intros U. destruct (repr_fresh _ _ _ _ _ R) as (ch & H & ->). exists h. unfold hbind, rd. rewrite H. split; [reflexivity|]. split; [apply same_refl|exact R].
Qed.
Lemma h_set_from_does f : forall l p F h bits, repr h l p F -> depth p <= f -> does h l F (h_set_from N f l bits) (snd (p_set_from N p bits)) (fst (p_set_from N p bits)).
Proof.
  induction f as [|f IH]; intros l p F h bits R D; [destruct p as [| | |? []]; cbn in D; lia|]. cbn [h_set_from].
  destruct p as [q|d|a|s [] ps].
  - intros U. destruct (repr_int _ _ _ _ R) as [H ->]. unfold hbind, rd. rewrite H. rewrite (hi_set_from_at _ _ _ _ H). cbn [p_set_from] in *.
    destruct (ip_set_from q bits) as [q' o]; cbn [fst snd] in *. eexists. split; [reflexivity|]. split; [apply same_upd; now left|]. constructor. eapply nth_upd_eq; eauto.
  - intros U. destruct (repr_double _ _ _ _ R) as [(b & q & B & H & ->)|(B & H & ->)].
    + unfold hbind, rd. rewrite (proj1 H). rewrite (hd_set_from_at _ _ _ _ _ _ _ _ _ H). cbn [p_set_from] in *. unfold dp_set_from in *. rewrite B in *.
      destruct (ip_set_from q bits) as [q' o]; cbn [fst snd] in *. eexists. split; [reflexivity|]. split; [apply same_upd; cbn; auto|]. constructor. eapply dbl_at_upd; eauto.
    + cbn [p_set_from] in U. unfold dp_set_from in U. rewrite B in U. contradiction.
  - intros U. unfold hbind, rd. destruct (repr_arr _ _ _ _ R) as (s & b & vs & mn & mx & pr & k & q & q0 & A & _). rewrite A. pose proof (ha_set_from_does _ _ _ _ bits R) as X. cbn [p_set_from] in *.
    destruct (da_set_from N a bits) as [a' o]; cbn [fst snd] in *. apply (X U).
  - intros U. destruct (repr_comp _ _ _ _ _ R) as (cs & G & H & Rs & Nl & ->). rewrite set_from_comp in *.
    unfold hbind at 1, rd at 1. rewrite H. unfold hbind at 1, hlift at 1.
    destruct (cs_check s (length bits)) as [[]|e|u]; cbn [fst snd] in *; [|exists h; split; [reflexivity|]; split; [apply same_refl|exact R]|contradiction].
    pose proof (decode_all_does f IH cs ps G h bits Rs) as X. destruct (comp_decode N ps bits) as [ps' o]; cbn [fst snd] in *.
    destruct X as (h' & E & S & R'); [cbn [depth] in D; fold (depths ps) in D; lia|exact U|].
    exists h'. split; [exact E|]. split; [eapply same_incl; [exact S|intros x Hx; now right]|].
    econstructor; [|exact R'|exact Nl]. rewrite (same_pair _ _ _ _ S); [exact H|eapply nth_lt; eauto|exact Nl].
  - intros U. destruct (repr_fresh _ _ _ _ _ R) as (ch & H & ->). exists h. unfold hbind, rd. rewrite H. split; [reflexivity|]. split; [apply same_refl|exact R].
Qed.

(** *** Clone *)
Lemma upd_app_len {A} (h : list A) a r x : upd (h ++ a :: r) (length h) x = h ++ x :: r.
Proof. induction h as [|y h IH]; cbn; congruence. Qed.
Lemma nth_app_len {A} (h : list A) a r : nth_error (h ++ a :: r) (length h) = Some a.
Proof. induction h as [|y h IH]; cbn; auto. Qed.
Lemma nth_app_S {A} (h : list A) a b r : nth_error (h ++ a :: b :: r) (S (length h)) = Some b.
Proof. induction h as [|y h IH]; cbn; auto. Qed.
Lemma same_more h r F : same_but h (h ++ r) F.
Proof. split; [rewrite app_length; lia|]. intros x Hx _. apply nth_error_app1, Hx. Qed.
Definition clones (h : heap) (m : hop nat) (o : outcome param) : Prop :=
  not_ub o -> exists h', same_but h h' [] /\
    match o with
    | Ok q => exists l G, m h = (Ok l, h') /\ repr h' l q G /\ (forall x, In x G -> length h <= x)
    | Throw e => m h = (Throw e, h')
    | UB _ => True
    end.
Lemma hi_clone_at h l q : nth_error h l = Some (OInt N q) ->
  hi_clone N l h = match ip_clone q with Ok q' => (Ok (length h), h ++ [OInt N q']) | Throw e => (Throw e, h) | UB u => (UB u, h) end.
Proof. intro H. unfold hi_clone, hbind at 1. rewrite (rd_int_at _ _ _ H). hs. destruct (ip_clone q); reflexivity. Qed.
Lemma hd_clone_at h l b mn mx pr z q : dbl_at h l b mn mx pr z q ->
  hd_clone N l h = match ip_clone q with
    | Ok q' => (Ok (length h), h ++ [ODouble N (Some (S (length h))) mn mx pr z; OInt N q'])
    | Throw e => (Throw e, h ++ [ODouble N None mn mx pr z]) | UB u => (UB u, h ++ [ODouble N None mn mx pr z]) end.
Proof.
  intros (A & B & C). unfold hd_clone, hbind at 1. rewrite (rd_double_at _ _ _ _ _ _ _ A). unfold hbind at 1, new at 1. unfold hbind at 1.
  rewrite (hi_clone_at _ b q) by (rewrite nth_error_app1 by (eapply nth_lt; eauto); exact B). destruct (ip_clone q); try reflexivity.
  hs. rewrite app_length. cbn [length]. rewrite Nat.add_1_r. rewrite <- app_assoc. cbn [app]. rewrite upd_app_len. reflexivity.
Qed.
Lemma dbl_at_new h mn mx pr z q r : dbl_at (h ++ ODouble N (Some (S (length h))) mn mx pr z :: OInt N q :: r) (length h) (S (length h)) mn mx pr z q.
Proof. split; [apply nth_app_len|]. split; [apply nth_app_S|lia]. Qed.
Lemma sized_clone q q0 k : like q q0 -> sized q0 k -> ip_clone q = Ok q.
Proof. intros (A & B & C) [S1 S2]. unfold ip_clone, ip_make. rewrite A, B, S2. cbn [bind]. destruct q; cbn in *. congruence. Qed.

Lemma ha_clone_clones h l a F : repr h l (PArr N a) F -> clones h (ha_clone N l) (omap (PArr N) (da_clone N a)).
Proof.
  intros R U. apply repr_arr in R as (s & b & vs & mn & mx & pr & k & q & q0 & A & D & L & Hs & Hb & Sz & -> & ->).
  unfold da_clone, dp_clone. cbn [da_sample da_values dp_base dp_size dp_min dp_max dp_prec]. rewrite (sized_clone q0 q0 k (like_refl _) Sz). cbn [bind cs_get omap].
  unfold ha_clone, hbind at 1. rewrite (rd_arr_at _ _ _ _ _ A). unfold hbind at 1, new at 1. unfold hbind at 1.
  set (h1 := h ++ [OArr N None vs None]). assert (L1 : length h1 = S (length h)) by (unfold h1; rewrite app_length; cbn; lia).
  assert (D1 : dbl_at h1 s b mn mx pr (Some k) q). { destruct D as (X & Y & Z). split; [|split; [|exact Z]]; unfold h1; rewrite nth_error_app1 by (eapply nth_lt; eauto); assumption. }
  rewrite (hd_clone_at _ _ _ _ _ _ _ _ D1). rewrite (sized_clone _ _ _ L Sz). unfold hbind at 1, wr at 1. unfold hbind at 1.
  rewrite L1. unfold h1. rewrite <- app_assoc. cbn [app]. rewrite upd_app_len.
  rewrite (hd_size_at _ s (Some b) mn mx pr (Some k)) by (rewrite nth_error_app1 by (eapply nth_lt; apply (proj1 D)); apply D). cbn [cs_get].
  unfold hbind at 1, wr at 1. unfold hret. rewrite upd_app_len. eexists. split; [apply same_more|]. exists (length h), [length h; S (length h); S (S (length h))]. split; [reflexivity|]. split.
  - eapply (R_arr _ (length h) (S (length h)) (S (S (length h))) vs _ mn mx pr k q q0); auto; try lia.
    + apply nth_app_len.
    + pose proof (dbl_at_new (h ++ [OArr N (Some (S (length h))) vs (Some (k * length vs)%nat)]) mn mx pr (Some k) q []) as X.
      rewrite app_length in X. cbn [length] in X. rewrite Nat.add_1_r in X. rewrite <- app_assoc in X. exact X.
  - intros x [<-|[<-|[<-|[]]]]; lia.
Qed.
Lemma hd_clone_clones h l d F : repr h l (PDouble N d) F -> clones h (hd_clone N l) (omap (PDouble N) (dp_clone N d)).
Proof.
  intros R U. unfold dp_clone in *. destruct (repr_double _ _ _ _ R) as [(b & q & B & H & ->)|(B & H & ->)]; rewrite B in *.
  - rewrite (hd_clone_at _ _ _ _ _ _ _ _ H). destruct (ip_clone q) as [q'|e|u]; cbn [bind omap] in *; [| |contradiction]; (eexists; split; [apply same_more|]); [|reflexivity].
    exists (length h), [length h; S (length h)]. split; [reflexivity|]. split; [|intros x [<-|[<-|[]]]; lia]. constructor. apply dbl_at_new.
  - cbn [omap]. unfold hd_clone, hbind at 1. rewrite (rd_double_at _ _ _ _ _ _ _ H). unfold hbind, new, hret. eexists. split; [apply same_more|].
    exists (length h), [length h]. split; [reflexivity|]. split; [|intros x [<-|[]]; lia]. constructor. apply nth_app_len.
Qed.
Lemma hi_clone_clones h l q F : repr h l (PInt N q) F -> clones h (hi_clone N l) (omap (PInt N) (ip_clone q)).
Proof.
  intros R U. destruct (repr_int _ _ _ _ R) as [H ->]. rewrite (hi_clone_at _ _ _ H). destruct (ip_clone q) as [q'|e|u]; cbn [omap] in *; [| |contradiction].
  - eexists. split; [apply same_more|]. exists (length h), [length h]. split; [reflexivity|]. split; [|intros x [<-|[]]; lia]. constructor. apply nth_app_len.
  - exists h. split; [apply same_refl|reflexivity].
Qed.

(** an argument of Initialize *)
Definition arg (f : nat) (h : heap) (t : nat) (l : nat) (p : param) : Prop := (exists F, repr h l p F /\ ~ In t F) /\ depth p <= f.
Lemma arg_other f h h' t l p : arg f h t l p -> same_but h h' [t] -> arg f h' t l p.
Proof. intros [(F & R & Nt) D] S. split; [|exact D]. exists F. split; [|exact Nt]. eapply repr_other; [exact R|exact S|]. intros x [<-|[]] Hx. contradiction. Qed.
Lemma reprs_snoc h cs ps F c p G : reprs h cs ps F -> repr h c p G -> (forall x, In x F -> In x G -> False) -> reprs h (cs ++ [c]) (ps ++ [p]) (F ++ G).
Proof.
  revert ps F; induction cs as [|c0 cs IH]; intros ps F Rs R D.
  - apply reprs_nil in Rs as (-> & ->). cbn [app]. rewrite <- (app_nil_r G). constructor; [exact R|constructor|]. intros x _ [].
  - apply reprs_cons in Rs as (p0 & ps0 & F0 & G0 & -> & -> & R0 & Rs & D0). cbn [app]. rewrite <- app_assoc. constructor; [exact R0| |].
    + apply IH; [exact Rs|exact R|]. intros x Hx Hy. apply (D x); [apply in_or_app; now right|exact Hy].
    + intros x Hx Hy. apply in_app_or in Hy as [Hy|Hy]; [exact (D0 x Hx Hy)|]. apply (D x); [apply in_or_app; now left|exact Hy].
Qed.
Lemma rd_comp_at h l s b ch : nth_error h l = Some (OComp N s b ch) -> rd_comp N l h = (Ok (s, b, ch), h).
Proof. intro H. unfold rd_comp. hs. rewrite H. reflexivity. Qed.
Lemma upd_done {A} (d : list A) x r y : upd (d ++ x :: r) (length d) y = d ++ y :: r.
Proof. apply upd_app_len. Qed.

Lemma fill_sim f clone t s b : (forall h l p F, repr h l p F -> depth p <= f -> clones h (clone l) (p_clone N p)) ->
  forall ls ps h n done dps Gd,
  nth_error h t = Some (OComp N s b (map Some done ++ repeat None (length ls))) -> reprs h done dps Gd -> ~ In t Gd ->
  n <= length h -> (forall x, In x Gd -> n <= x) -> Forall2 (arg f h t) ls ps -> not_ub (mapM (p_clone N) ps) ->
  exists h', same_but h h' [t] /\
    match mapM (p_clone N) ps with
    | Ok qs => exists new G, h_fill N clone t (map Some ls) (length done) h = (Ok tt, h') /\ nth_error h' t = Some (OComp N s b (map Some (done ++ new))) /\
                 reprs h' (done ++ new) (dps ++ qs) G /\ ~ In t G /\ (forall x, In x G -> n <= x) /\ length new = length ls
    | Throw e => h_fill N clone t (map Some ls) (length done) h = (Throw e, h') /\ exists ch, nth_error h' t = Some (OComp N s b ch)
    | UB _ => True
    end.
Proof.
  intros HC. induction ls as [|l ls IH]; intros ps h n done dps Gd Ht Rd Nt Hn Hg Ha U; inv Ha.
  - cbn [mapM]. exists h. split; [apply same_refl|]. exists [], Gd. cbn [length repeat] in Ht. rewrite !app_nil_r in *. split; [reflexivity|]. auto.
  - rename l' into ps0, y into p, H1 into Ap, H3 into As. cbn [mapM] in *. cbn [map h_fill]. unfold hbind, deref, hlift, wr.
    destruct Ap as [(Fp & Rp & Np) Dp].
    destruct (HC h l p Fp Rp Dp) as (h1 & S1 & X). { destruct (p_clone N p); cbn in *; auto. }
    destruct (p_clone N p) as [q|e|u]; cbn [bind] in *; [| |contradiction].
    + destruct X as (c & G & E & Rq & Fq). rewrite E.
      assert (Ht1 : nth_error h1 t = Some (OComp N s b (map Some done ++ repeat None (length (l :: ls))))). { rewrite (same_pair _ _ _ _ S1); [exact Ht|eapply nth_lt; eauto|intros []]. }
      rewrite (rd_comp_at _ _ _ _ _ Ht1). cbn [length repeat].
      assert (Eu : upd (map Some done ++ None :: repeat None (length ls)) (length done) (Some c) = map Some done ++ Some c :: repeat None (length ls)) by (rewrite <- (map_length Some done); apply upd_done).
      rewrite Eu. set (o := OComp N s b (map Some done ++ Some c :: repeat None (length ls))).
      assert (tl : t < length h) by (eapply nth_lt; eauto).
      assert (Ntq : ~ In t G) by (intro Hx; specialize (Fq t Hx); lia).
      assert (S2 : same_but h1 (upd h1 t o) [t]) by (apply same_upd; now left).
      assert (S12 : same_but h (upd h1 t o) [t]) by (eapply same_trans; [eapply same_incl; [exact S1|intros x []]|exact S2]).
      assert (Rd1 : reprs (upd h1 t o) done dps Gd). { eapply reprs_other; [exact Rd|exact S12|]. intros x [<-|[]] Hx. contradiction. }
      assert (Rq1 : repr (upd h1 t o) c q G). { eapply repr_other; [exact Rq|exact S2|]. intros x [<-|[]] Hx. contradiction. }
      assert (Dj : forall x, In x Gd -> In x G -> False). { intros x Hx Hy. pose proof (reprs_bound _ _ _ _ _ Rd Hx). specialize (Fq x Hy). lia. }
      pose proof (reprs_snoc _ _ _ _ _ _ _ Rd1 Rq1 Dj) as R1.
      destruct (IH ps0 (upd h1 t o) n (done ++ [c]) (dps ++ [q]) (Gd ++ G)) as (h' & S' & Y).
      * rewrite map_app. rewrite <- app_assoc. eapply nth_upd_eq; eauto.
      * exact R1.
      * intro Hx. apply in_app_or in Hx as [Hx|Hx]; contradiction.
      * rewrite upd_length. destruct S1. lia.
      * intros x Hx. apply in_app_or in Hx as [Hx|Hx]; [auto|]. specialize (Fq x Hx). lia.
      * clear -As S12. clearbody o. induction As; constructor; [eapply arg_other; eauto|assumption].
      * destruct (mapM (p_clone N) ps0); cbn in *; auto.
      * exists h'. split; [eapply same_trans; [exact S12|exact S']|]. rewrite app_length in Y. cbn [length] in Y. rewrite Nat.add_1_r in Y.
        destruct (mapM (p_clone N) ps0) as [qs|e|u]; cbn [bind] in *; [|exact Y|exact I].
        destruct Y as (new & G' & Y1 & Y2 & Y3 & Y4 & Y5 & Y6). exists (c :: new), G'. rewrite <- !app_assoc in *. cbn [app length] in *. repeat split; auto.
    + exists h1. split; [eapply same_incl; [exact S1|intros x []]|]. rewrite X. split; [reflexivity|]. eexists.
      rewrite (same_pair _ _ _ _ S1); [exact Ht|eapply nth_lt; eauto|intros []].
Qed.
Lemma h_total_at h cs : forall ps F, reprs h cs ps F -> h_total N (map Some cs) h = (total_size N ps, h).
Proof.
  induction cs as [|c cs IH]; intros ps F R.
  - apply reprs_nil in R as (-> & ->). reflexivity.
  - apply reprs_cons in R as (p & ps0 & F0 & G & -> & -> & Rc & Rs & Dj). cbn [map h_total total_size]. unfold hbind at 1, deref at 1, hlift at 1. unfold hbind at 1.
    rewrite (h_size_at _ _ _ _ Rc). destruct (p_size N p) as [k|e|u]; cbn [bind]; try reflexivity. unfold hbind at 1. rewrite (IH _ _ Rs). destruct (total_size N ps0); reflexivity.
Qed.

Definition init_value (s : csize) (b : bool) (ps : list param) : param * outcome unit :=
  match mapM (p_clone N) ps with
  | Ok qs => comp_finish_init N s b qs
  | Throw e => (PComp N s b [], Throw e)
  | UB u => (PComp N s b [], UB u)
  end.
Lemma init_sim f clone t s b ch0 ls ps h : (forall h l p F, repr h l p F -> depth p <= f -> clones h (clone l) (p_clone N p)) ->
  nth_error h t = Some (OComp N s b ch0) -> Forall2 (arg f h t) ls ps -> not_ub (snd (init_value s b ps)) ->
  (b = true -> is_ok (mapM (p_clone N) ps) = true) ->
  exists h' G, h_initialize_with N clone t (map Some ls) h = (snd (init_value s b ps), h') /\ same_but h h' [t] /\ repr h' t (fst (init_value s b ps)) G /\
    (forall x, In x G -> x = t \/ length h <= x).
Proof.
  intros HC Ht Ha U X. unfold h_initialize_with, hbind at 1. rewrite (rd_comp_at _ _ _ _ _ Ht). unfold hbind at 1, wr at 1. rewrite map_length.
  set (h0 := upd h t (OComp N s b (repeat None (length ls)))).
  assert (S0 : same_but h h0 [t]) by (apply same_upd; now left).
  unfold init_value in *.
  destruct (fill_sim f clone t s b HC ls ps h0 (length h) [] [] []) as (h1 & S1 & Y).
  - unfold h0. eapply nth_upd_eq; eauto.
  - constructor.
  - intros [].
  - unfold h0. rewrite upd_length. lia.
  - intros x [].
  - clear -Ha S0. clearbody h0. induction Ha; constructor; [eapply arg_other; eauto|assumption].
  - destruct (mapM (p_clone N) ps); cbn in *; auto.
  - pose proof (same_trans _ _ _ _ S0 S1) as S01. unfold hbind at 1. cbn [length app] in Y.
    destruct (mapM (p_clone N) ps) as [qs|e|u]; cbn [snd fst] in *; [| |contradiction].
    + destruct Y as (new & G & Y1 & Y2 & Y3 & Y4 & Y5 & Y6). rewrite Y1. unfold hbind at 1. rewrite (rd_comp_at _ _ _ _ _ Y2). unfold hbind at 1. rewrite (h_total_at _ _ _ _ Y3).
      unfold comp_finish_init in *.
      assert (Fin : forall s' b', exists h' G', wr N t (OComp N s' b' (map Some new)) h1 = (Ok tt, h') /\ same_but h h' [t] /\ repr h' t (PComp N s' b' qs) G' /\ forall x, In x G' -> x = t \/ length h <= x).
      { intros s' b'. assert (S2 : same_but h1 (upd h1 t (OComp N s' b' (map Some new))) [t]) by (apply same_upd; now left).
        exists (upd h1 t (OComp N s' b' (map Some new))). destruct b'.
        - exists (t :: G). split; [reflexivity|]. split; [exact (same_trans _ _ _ _ S01 S2)|]. split.
          + econstructor; [eapply nth_upd_eq; eauto| |exact Y4]. eapply reprs_other; [exact Y3|exact S2|]. intros x [<-|[]] Hx. contradiction.
          + intros x [<-|Hx]; auto.
        - exists [t]. split; [reflexivity|]. split; [exact (same_trans _ _ _ _ S01 S2)|]. split.
          + econstructor. eapply nth_upd_eq; eauto.
          + intros x [<-|[]]; auto. }
      destruct (total_size N qs) as [k|e|u]; cbn [snd fst] in *; [| |contradiction].
      2:{ destruct (Fin s b) as (h' & G' & E & A1 & A2 & A3). exists h', G'. unfold wr in E. rewrite upd_same in E by exact Y2. inv E. auto. }
      destruct (cs_set s k) as [s' [[]|e|u]]; cbn [snd fst] in *; [| |contradiction].
      * unfold hbind at 1. destruct b; cbn [snd fst] in *.
        -- destruct (Fin s' true) as (h' & G' & E & A1 & A2 & A3). exists h', G'. rewrite E. split; [reflexivity|]. auto.
        -- unfold wr at 1. unfold hbind at 1, hlift at 1. destruct (Fin s' true) as (h' & G' & E & A1 & A2 & A3). exists h', G'. unfold wr in *. rewrite upd_upd. rewrite E. split; [reflexivity|]. auto.
      * destruct (Fin s' b) as (h' & G' & E & A1 & A2 & A3). exists h', G'. unfold hbind at 1. rewrite E. split; [reflexivity|]. auto.
    + destruct Y as (E & ch & Y). exists h1, [t]. rewrite E. split; [reflexivity|]. split; [exact S01|]. destruct b; [discriminate (X eq_refl)|]. split; [econstructor; exact Y|]. intros x [<-|[]]; auto.
Qed.
Lemma clone_comp s ps : p_clone N (PComp N s true ps) =
  match init_value None false ps with (c, Ok _) => Ok c | (_, Throw e) => Throw e | (_, UB u) => UB u end.
Proof.
  cbn [p_clone]. unfold init_value.
  match goal with |- bind (?f ps) _ = _ => assert (E : forall ps, f ps = mapM (p_clone N) ps) end.
  { clear. induction ps as [|q ps IH]; [reflexivity|]. cbn [mapM]. destruct (p_clone N q); cbn [bind]; try reflexivity. rewrite IH. reflexivity. }
  rewrite E. destruct (mapM (p_clone N) ps); reflexivity.
Qed.
Lemma h_clone_clones f : forall h l p F, repr h l p F -> depth p <= f -> clones h (h_clone N f l) (p_clone N p).
Proof.
  induction f as [|f IH]; intros h l p F R D; [destruct p as [| | |? []]; cbn in D; lia|]. cbn [h_clone].
  destruct p as [q|d|a|s [] ps]; unfold clones, hbind, rd.
  - destruct (repr_int _ _ _ _ R) as [H _]. rewrite H. exact (hi_clone_clones _ _ _ _ R).
  - destruct (repr_double _ _ _ _ R) as [(b & q & B & (H & _) & _)|(B & H & _)]; rewrite H; exact (hd_clone_clones _ _ _ _ R).
  - destruct (repr_arr _ _ _ _ R) as (s & b & vs & mn & mx & pr & k & q & q0 & A & _). rewrite A. exact (ha_clone_clones _ _ _ _ R).
  - rewrite clone_comp. intros U. destruct (repr_comp _ _ _ _ _ R) as (cs & G & H & Rs & Nl & ->). rewrite H. unfold new, hret.
    set (h1 := h ++ [OComp N None false []]). assert (S1 : same_but h h1 []) by apply same_more.
    destruct (init_sim f (h_clone N f) (length h) None false [] cs ps h1 IH) as (h' & G' & E & S' & R' & B').
    + unfold h1. apply nth_app_len.
    + assert (Rs1 : reprs h1 cs ps G) by (eapply reprs_other; [exact Rs|exact S1|intros x []]).
      assert (Nn : ~ In (length h) G) by (intro Hx; pose proof (reprs_bound _ _ _ _ _ Rs Hx); lia).
      assert (Dp : depths ps <= f) by (cbn [depth] in D; fold (depths ps) in D; lia).
      clear -Rs1 Nn Dp. revert ps G Rs1 Nn Dp. induction cs as [|c cs IH]; intros ps G R Nn Dp.
      * apply reprs_nil in R as (-> & ->). constructor.
      * apply reprs_cons in R as (p & ps0 & F0 & G0 & -> & -> & Rc & Rs & Dj). unfold depths in Dp. cbn [map fold_right] in Dp. fold (depths ps0) in Dp. constructor.
        -- split; [|lia]. exists F0. split; [exact Rc|]. intro Hx. apply Nn, in_or_app. now left.
        -- apply (IH ps0 G0 Rs); [|lia]. intro Hx. apply Nn, in_or_app. now right.
    + destruct (init_value None false ps) as [c [[]| |]]; cbn in *; auto.
    + discriminate.
    + exists h'. assert (S2 : same_but h h' []).
      { split; [destruct S1, S'; lia|]. intros x Hx _. rewrite (same_pair _ _ _ _ S'); [apply S1; [exact Hx|intros []]|destruct S1; lia|]. intros [<-|[]]. lia. }
      split; [exact S2|]. fold h1. rewrite E. destruct (init_value None false ps) as [c [[]|e|u]]; cbn [snd fst] in *; [|reflexivity|contradiction].
      exists (length h), G'. split; [reflexivity|]. split; [exact R'|]. intros x Hx. destruct (B' x Hx) as [->|B]; [lia|]. unfold h1 in B. rewrite app_length in B. cbn in B. lia.
  - destruct (repr_fresh _ _ _ _ _ R) as (ch & H & ->). rewrite H. intros _. exists h. split; [apply same_refl|reflexivity].
Qed.

(** *** Handles *)
Definition within (n : nat) (G F : list nat) : Prop := forall x, In x G -> In x F \/ n <= x.
(** the object at [l] is part of a whole: replacing it by [q'] replaces it in the whole *)
Definition part (h : heap) (l : nat) (G : list nat) (whole : heap -> param -> list nat -> Prop) (F : list nat) : Prop :=
  incl G F /\ forall h' q' G', same_but h h' G -> repr h' l q' G' -> within (length h) G' G -> exists F', whole h' q' F' /\ within (length h) F' F.
Lemma reprs_nth h cs : forall ps F i p, reprs h cs ps F -> nth_error ps i = Some p ->
  exists c G, nth_error cs i = Some c /\ repr h c p G /\ part h c G (fun h' q' F' => reprs h' cs (upd ps i q') F') F.
Proof.
  induction cs as [|c cs IH]; intros ps F i p R H.
  - apply reprs_nil in R as (-> & ->). destruct i; discriminate.
  - apply reprs_cons in R as (p0 & ps0 & F0 & G0 & -> & -> & Rc & Rs & Dj). destruct i as [|i]; cbn [nth_error] in *.
    + inv H. exists c, F0. split; [reflexivity|]. split; [exact Rc|]. split; [intros x Hx; apply in_or_app; now left|].
      intros h' q' G' S R' W. exists (G' ++ G0). cbn [upd]. split.
      * constructor; [exact R'|eapply reprs_other; eauto|]. intros x Hx Hy. destruct (W x Hx) as [W'|W']; [exact (Dj x W' Hy)|]. pose proof (reprs_bound _ _ _ _ _ Rs Hy). lia.
      * intros x Hx. apply in_app_or in Hx as [Hx|Hx]; [destruct (W x Hx); [left; apply in_or_app; now left|now right]|left; apply in_or_app; now right].
    + destruct (IH ps0 G0 i p Rs H) as (c' & G & E & R' & I & K). exists c', G. split; [exact E|]. split; [exact R'|]. split; [intros x Hx; apply in_or_app; right; apply I, Hx|].
      intros h' q' G' S Rq W. destruct (K h' q' G' S Rq W) as (F' & RF & WF). exists (F0 ++ F'). cbn [upd]. split.
      * constructor; [eapply repr_other; [exact Rc|exact S|]; intros x Hx Hy; exact (Dj x Hy (I x Hx))|exact RF|].
        intros x Hx Hy. destruct (WF x Hy) as [W'|W']; [exact (Dj x Hx W')|]. pose proof (repr_bound _ _ _ _ _ Rc Hx). lia.
      * intros x Hx. apply in_app_or in Hx as [Hx|Hx]; [left; apply in_or_app; now left|]. destruct (WF x Hx); [left; apply in_or_app; now right|now right].
Qed.
Lemma reprs_length h cs : forall ps F, reprs h cs ps F -> length cs = length ps.
Proof.
  induction cs as [|c cs IH]; intros ps F R; [apply reprs_nil in R as (-> & ->); reflexivity|].
  apply reprs_cons in R as (p0 & ps0 & F0 & G0 & -> & -> & Rc & Rs & Dj). cbn. f_equal. eauto.
Qed.
Lemma same_within h h' G F : same_but h h' G -> incl G F -> same_but h h' F.
Proof. apply same_incl. Qed.
Lemma h_get_at h l s ps F i : repr h l (PComp N s true ps) F ->
  match nth_error ps i with
  | Some q => exists c G, h_get N l i h = (Ok c, h) /\ repr h c q G /\ part h c G (fun h' q' F' => repr h' l (PComp N s true (upd ps i q')) F') F
  | None => h_get N l i h = (Throw OutOfRange, h)
  end.
Proof.
  intro R. destruct (repr_comp _ _ _ _ _ R) as (cs & G & H & Rs & Nl & ->). unfold h_get, hbind. rewrite (rd_comp_at _ _ _ _ _ H). rewrite nth_error_map.
  destruct (nth_error ps i) as [q|] eqn:E.
  - destruct (reprs_nth _ _ _ _ _ _ Rs E) as (c & Gc & Ec & Rc & I & K). rewrite Ec. cbn [option_map]. exists c, Gc. split; [reflexivity|]. split; [exact Rc|]. split; [intros x Hx; right; apply I, Hx|].
    intros h' q' G' S Rq W. destruct (K h' q' G' S Rq W) as (F' & RF & WF). exists (l :: F').
    assert (ll : l < length h) by (eapply nth_lt; eauto). split.
    + econstructor; [|exact RF|]. * rewrite (same_pair _ _ _ _ S); [exact H|exact ll|]. intro Hx. apply Nl, I, Hx.
      * intro Hx. destruct (WF l Hx) as [Hy|Hy]; [contradiction|lia].
    + intros x [<-|Hx]; [left; now left|]. destruct (WF x Hx); [left; now right|now right].
  - assert (nth_error cs i = None) by (apply nth_error_None; apply nth_error_None in E; rewrite (reprs_length _ _ _ _ Rs); exact E). rewrite H0. reflexivity.
Qed.
Lemma resolve_sim path : forall h l p F, repr h l p F ->
  match v_at N p path with
  | Ok q => exists c G, h_resolve N l path h = (Ok c, h) /\ repr h c q G /\ part h c G (fun h' q' F' => repr h' l (v_put N p path q') F') F
  | Throw e => h_resolve N l path h = (Throw e, h)
  | UB _ => True
  end.
Proof.
  induction path as [|i path IH]; intros h l p F R; cbn [v_at h_resolve v_put].
  - exists l, F. split; [reflexivity|]. split; [exact R|]. split; [apply incl_refl|]. intros h' q' G' S R' W. exists G'. auto.
  - destruct p as [?|?|?|s [] ps]; try exact I.
    + pose proof (h_get_at _ _ _ _ _ i R) as X. unfold hbind at 1. destruct (nth_error ps i) as [q|] eqn:E.
      * destruct X as (c & G & E1 & R1 & I1 & K1). pose proof (IH h c q G R1) as Y. unfold hbind. rewrite E1. destruct (v_at N q path) as [q1|e|u]; [|exact Y|exact I].
        destruct Y as (c1 & G1 & E2 & R2 & I2 & K2). exists c1, G1. split; [exact E2|]. split; [exact R2|]. split; [eapply incl_tran; eauto|].
        intros h' q' G' S Rq W. destruct (K2 h' q' G' S Rq W) as (F2 & RF2 & WF2). destruct (K1 h' _ F2 (same_incl _ _ _ _ S I2) RF2 WF2) as (F1 & RF1 & WF1). exists F1. auto.
      * unfold hbind. rewrite X. reflexivity.
    + destruct (repr_fresh _ _ _ _ _ R) as (ch & H & ->). unfold h_get. unfold hbind. rewrite (rd_comp_at _ _ _ _ _ H). reflexivity.
Qed.
Lemma at_ok {A} (l : list A) i a : nth_error l i = Some a -> at_ l i = Ok a.
Proof. unfold at_. intros ->. reflexivity. Qed.
Lemma handle_sim h roots st F x : reprs h roots st F ->
  match v_get N st x with
  | Ok q => exists l G, h_handle N roots x h = (Ok l, h) /\ repr h l q G /\ part h l G (fun h' q' F' => reprs h' roots (v_set N st x q') F') F
  | Throw e => h_handle N roots x h = (Throw e, h)
  | UB _ => True
  end.
Proof.
  intros R. unfold v_get, h_handle, v_set, hbind, hlift. destruct x as [i path]; cbn [fst snd]. unfold at_ at 1. destruct (nth_error st i) as [p|] eqn:E; cbn [bind]; [|exact I].
  destruct (reprs_nth _ _ _ _ _ _ R E) as (c & G & Ec & Rc & I1 & K1). rewrite (at_ok _ _ _ Ec). pose proof (resolve_sim path h c p G Rc) as X.
  destruct (v_at N p path) as [q|e|u]; [|exact X|exact I]. destruct X as (c1 & G1 & E2 & R2 & I2 & K2). exists c1, G1. split; [exact E2|]. split; [exact R2|]. split; [eapply incl_tran; eauto|].
  intros h' q' G' S Rq W. destruct (K2 h' q' G' S Rq W) as (F2 & RF2 & WF2). destruct (K1 h' _ F2 (same_incl _ _ _ _ S I2) RF2 WF2) as (F1 & RF1 & WF1). exists F1. auto.
Qed.
(** two different objects *)
Lemma reprs_two h cs : forall ps F i j p q, reprs h cs ps F -> i <> j -> nth_error ps i = Some p -> nth_error ps j = Some q ->
  exists c d G H, nth_error cs i = Some c /\ nth_error cs j = Some d /\ repr h c p G /\ repr h d q H /\ (forall x, In x G -> In x H -> False).
Proof.
  induction cs as [|c cs IH]; intros ps F i j p q R N1 Hi Hj.
  - apply reprs_nil in R as (-> & ->). destruct i; discriminate.
  - apply reprs_cons in R as (p0 & ps0 & F0 & G0 & -> & -> & Rc & Rs & Dj). destruct i as [|i], j as [|j]; cbn [nth_error] in *; [congruence| | |].
    + inv Hi. destruct (reprs_nth _ _ _ _ _ _ Rs Hj) as (d & G & Ed & Rd & I & _). exists c, d, F0, G. repeat split; auto. intros x Hx Hy. exact (Dj x Hx (I x Hy)).
    + inv Hj. destruct (reprs_nth _ _ _ _ _ _ Rs Hi) as (d & G & Ed & Rd & I & _). exists d, c, G, F0. repeat split; auto. intros x Hx Hy. exact (Dj x Hy (I x Hx)).
    + apply (IH ps0 G0); auto.
Qed.
Lemma handle_two h roots st F x y p q : reprs h roots st F -> fst x <> fst y -> v_get N st x = Ok p -> v_get N st y = Ok q ->
  exists l m Gm, h_handle N roots x h = (Ok l, h) /\ h_handle N roots y h = (Ok m, h) /\ repr h m q Gm /\ ~ In l Gm.
Proof.
  intros R Ne Hx Hy. unfold v_get, at_ in *. destruct x as [i a], y as [j b]; cbn [fst snd] in *.
  destruct (nth_error st i) as [p0|] eqn:Ei; cbn [bind] in Hx; [|discriminate]. destruct (nth_error st j) as [q0|] eqn:Ej; cbn [bind] in Hy; [|discriminate].
  destruct (reprs_two _ _ _ _ _ _ _ _ R Ne Ei Ej) as (c & d & G & H & Ec & Ed & Rc & Rd & Dj).
  pose proof (resolve_sim a h c p0 G Rc) as X. rewrite Hx in X. destruct X as (l & Gl & X1 & X2 & X3 & _).
  pose proof (resolve_sim b h d q0 H Rd) as Y. rewrite Hy in Y. destruct Y as (m & Gm & Y1 & Y2 & Y3 & _).
  exists l, m, Gm. unfold h_handle, hbind, hlift. cbn [fst snd]. rewrite (at_ok _ _ _ Ec), (at_ok _ _ _ Ed). split; [exact X1|]. split; [exact Y1|]. split; [exact Y2|].
  intro Hl. apply (Dj l); [apply X3; eapply repr_self; eauto|apply Y3, Hl].
Qed.
Lemma handles_sim h roots st F x l c : reprs h roots st F -> v_get N st x = Ok c -> h_handle N roots x h = (Ok l, h) -> forall ys,
  match mapM (v_get N st) ys with
  | Ok ps => exists ms, h_handles N roots ys h = (Ok ms, h) /\ (forallb (other_object x) ys = true -> Forall2 (arg (length h) h l) ms ps) /\
               (forall y n, ys = repeat y n -> forall m, h_handle N roots y h = (Ok m, h) -> ms = repeat m n)
  | Throw e => h_handles N roots ys h = (Throw e, h)
  | UB _ => True
  end.
Proof.
  intros R Hx Hl. induction ys as [|y ys IH]; cbn [mapM h_handles forallb].
  - exists []. split; [reflexivity|]. split; [constructor|]. intros y n E m _. destruct n; [reflexivity|discriminate].
  - pose proof (handle_sim h roots st F y R) as X. unfold hbind. destruct (v_get N st y) as [p|e|u] eqn:Ey; cbn [bind]; [| |exact I].
    2:{ rewrite X. reflexivity. }
    destruct X as (m & G & E1 & R1 & _). rewrite E1. destruct (mapM (v_get N st) ys) as [ps|e|u]; cbn [bind]; [| |exact I].
    2:{ rewrite IH. reflexivity. }
    destruct IH as (ms & E2 & A2 & B2). rewrite E2. exists (m :: ms). split; [reflexivity|]. split.
    + intro H. apply andb_prop in H as [H1 H2]. constructor; [|apply A2, H2]. unfold other_object in H1. apply negb_true_iff, Nat.eqb_neq in H1.
      destruct (handle_two h roots st F x y c p R) as (l' & m' & Gm & X1 & X2 & X3 & X4); auto. rewrite Hl in X1. inv X1. rewrite E1 in X2. inv X2.
      split; [exists Gm; auto|]. eapply repr_depth; eauto.
    + intros z n E m0 Em. destruct n as [|n]; [discriminate|]. cbn [repeat] in E. inv E. rewrite E1 in Em. inv Em. cbn [repeat]. f_equal. eapply B2; eauto.
Qed.

(** *** One call *)
Definition step_ok (h : heap) (roots : list nat) (r : outcome (result N) * state N) (v : outcome (result N) * values N) : Prop :=
  not_ub (fst v) -> exists h' roots' F', r = (fst v, (h', roots')) /\ reprs h' roots' (snd v) F'.
Lemma keep_does {A} h roots st F x (m : nat -> hop A) (f : param -> param * outcome A) (g : A -> result N) : reprs h roots st F ->
  (forall l p G, repr h l p G -> does h l G (m l) (snd (f p)) (fst (f p))) ->
  step_ok h roots (keep N g roots (hbind N (h_handle N roots x) m) h)
    (match v_get N st x with Ok p => (omap g (snd (f p)), v_set N st x (fst (f p))) | Throw e => (Throw e, st) | UB u => (UB u, st) end).
Proof.
  intros R H U. pose proof (handle_sim h roots st F x R) as X. unfold keep, hbind. destruct (v_get N st x) as [p|e|u]; cbn [fst snd] in *; [| |contradiction].
  - destruct X as (l & G & E & Rl & I1 & K). rewrite E. destruct (H l p G Rl) as (h' & E' & S' & R'); [destruct (snd (f p)); cbn in *; auto|].
    rewrite E'. destruct (K h' _ G S' R') as (F' & RF & _); [intros y Hy; now left|]. exists h', roots, F'. auto.
  - rewrite X. exists h, roots, F. auto.
Qed.
Lemma v_put_same path : forall p q, v_at N p path = Ok q -> v_put N p path q = p.
Proof.
  induction path as [|i path IH]; intros p q H; cbn in *; [congruence|]. destruct p as [?|?|?|s [] ps]; try discriminate.
  destruct (nth_error ps i) as [c|] eqn:E; [|discriminate]. rewrite (IH _ _ H), (upd_same _ _ _ E). reflexivity.
Qed.
Lemma v_set_same st x p : v_get N st x = Ok p -> v_set N st x p = st.
Proof.
  unfold v_get, v_set, at_. destruct (nth_error st (fst x)) as [q|] eqn:E; cbn [bind]; [|discriminate]. intro H. rewrite (v_put_same _ _ _ H). apply upd_same, E.
Qed.
(** a call that returns something and leaves the value *)
Lemma keep_observes {A} h roots st F x (m : nat -> hop A) (f : param -> outcome A) (g : A -> result N) : reprs h roots st F ->
  (forall l p G, repr h l p G -> does h l G (m l) (f p) p) ->
  step_ok h roots (keep N g roots (hbind N (h_handle N roots x) m) h) (observes N st x f g).
Proof.
  intros R H. pose proof (keep_does h roots st F x m (fun p => (p, f p)) g R H) as X. cbn [fst snd] in X.
  unfold observes. unfold step_ok in *. destruct (v_get N st x) as [p|e|u] eqn:E; cbn [fst snd bind omap] in *; auto. rewrite (v_set_same _ _ _ E) in X. exact X.
Qed.
Lemma keep_changes h roots st F x (m : nat -> hop unit) (f : param -> param * outcome unit) : reprs h roots st F ->
  (forall l p G, repr h l p G -> does h l G (m l) (snd (f p)) (fst (f p))) ->
  step_ok h roots (keep N (fun _ => RUnit N) roots (hbind N (h_handle N roots x) m) h) (changes N st x f).
Proof.
  intros R H. pose proof (keep_does h roots st F x m f (fun _ => RUnit N) R H) as X. unfold changes. destruct (v_get N st x) as [p|e|u]; auto. destruct (f p). exact X.
Qed.
Lemma create_adds h roots st F m o : reprs h roots st F -> clones h m o -> step_ok h roots (create N roots m h) (adds N st o).
Proof.
  intros R H U. unfold adds in *. destruct (H ltac:(destruct o; cbn in *; auto)) as (h' & S & X). unfold create. assert (Rs : reprs h' roots st F) by (eapply reprs_other; [exact R|exact S|intros x []]).
  destruct o as [q|e|u]; cbn [fst snd] in *; [| |contradiction].
  - destruct X as (l & G & E & Rq & B). rewrite E. do 3 eexists. split; [reflexivity|]. eapply reprs_snoc; [exact Rs|exact Rq|].
    intros x Hx Hy. pose proof (reprs_bound _ _ _ _ _ R Hx). specialize (B x Hy). lia.
  - rewrite X. do 3 eexists. split; [reflexivity|exact Rs].
Qed.
Lemma new_clones h o q : repr (h ++ [o]) (length h) q [length h] -> clones h (new N o) (Ok q).
Proof. intros R _. exists (h ++ [o]). split; [apply same_more|]. exists (length h), [length h]. split; [reflexivity|]. split; [exact R|]. intros x [<-|[]]. lia. Qed.

Lemma observe_does {A} h l p G (m : hop A) o : repr h l p G -> (not_ub o -> m h = (o, h)) -> does h l G m o p.
Proof. intros R H U. exists h. split; [apply H, U|]. split; [apply same_refl|exact R]. Qed.

Lemma dp_make_sized v mn mx pr d : dp_make N v mn mx pr = Ok d -> exists q k, dp_base N d = Some q /\ dp_size N d = Some k /\ sized q k.
Proof.
  unfold dp_make. destruct (n_leb N mx mn); [discriminate|]. destruct (negb _); [discriminate|]. intro H.
  apply bind_ok in H as (m & _ & H). apply bind_ok in H as (best & _ & H). apply bind_ok in H as (base & Hb & H). apply bind_ok in H as (i & _ & H). inv H.
  unfold ip_make2, ip_make in Hb. apply bind_ok in Hb as (k & Hk & Hb). inv Hb. cbn. exists (ip_set_value (MkInt 0 0 best (Some k)) i), k. split; [reflexivity|]. split; [reflexivity|]. split; [reflexivity|exact Hk].
Qed.
Lemma hd_make_at h v mn mx pr : hd_make N v mn mx pr h =
  match dp_make N v mn mx pr with
  | Ok d => match dp_base N d with
            | Some q => (Ok (length h), h ++ [ODouble N (Some (S (length h))) (dp_min N d) (dp_max N d) (dp_prec N d) (dp_size N d); OInt N q])
            | None => (UB NullDeref, h)
            end
  | Throw e => (Throw e, h)
  | UB u => (UB u, h)
  end.
Proof.
  unfold hd_make, hbind, hlift, new, wr, hret. destruct (dp_make N v mn mx pr) as [d| |]; try reflexivity. destruct (dp_base N d); try reflexivity.
  rewrite app_length. cbn [length]. rewrite Nat.add_1_r, <- app_assoc. cbn [app]. rewrite upd_app_len. reflexivity.
Qed.
Lemma hd_make_clones h v mn mx pr : clones h (hd_make N v mn mx pr) (let! d := dp_make N v mn mx pr in Ok (PDouble N d)).
Proof.
  intros U. rewrite hd_make_at. destruct (dp_make N v mn mx pr) as [d|e|u] eqn:E; cbn [bind] in *; [| |contradiction].
  - destruct (dp_make_sized _ _ _ _ _ E) as (q & k & B & Z & _). rewrite B. eexists. split; [apply same_more|]. exists (length h), [length h; S (length h)]. split; [reflexivity|]. split; [|intros x [<-|[<-|[]]]; lia].
    destruct d; cbn in *. subst. constructor. apply dbl_at_new.
  - exists h. split; [apply same_refl|reflexivity].
Qed.
Lemma ha_make_clones h mn mx pr n : clones h (ha_make N mn mx pr n) (let! a := da_make N mn mx pr n in Ok (PArr N a)).
Proof.
  intros U. unfold ha_make, hbind. rewrite hd_make_at. unfold da_make in *. destruct (dp_make N mn mn mx pr) as [d|e|u] eqn:E; cbn [bind] in *; [| |contradiction].
  - destruct (dp_make_sized _ _ _ _ _ E) as (q & k & B & Z & Sz). rewrite B. rewrite Z. cbn [cs_get bind].
    rewrite (hd_size_at _ (length h) (Some (S (length h))) (dp_min N d) (dp_max N d) (dp_prec N d) (Some k)) by apply nth_app_len. cbn [cs_get]. unfold new. rewrite <- app_assoc. cbn [app].
    eexists. split; [apply same_more|]. exists (S (S (length h))), [S (S (length h)); length h; S (length h)].
    split; [rewrite app_length; cbn [length]; do 2 f_equal; lia|]. split; [|intros x [<-|[<-|[<-|[]]]]; lia].
    destruct d as [b0 mn0 mx0 pr0 z0]; cbn in *. subst. eapply (R_arr _ (S (S (length h))) (length h) (S (length h)) (repeat (n_ofZ N 0) n) _ mn0 mx0 pr0 k q q); try lia; try apply like_refl; auto.
    + pose proof (nth_app_len (h ++ [ODouble N (Some (S (length h))) mn0 mx0 pr0 (Some k); OInt N q]) (OArr N (Some (length h)) (repeat (n_ofZ N 0) n) (Some (k * n)%nat)) []) as X.
      rewrite app_length in X. cbn [length] in X. rewrite <- app_assoc in X. cbn [app] in X. replace (length h + 2)%nat with (S (S (length h))) in X by lia. exact X.
    + apply dbl_at_new.
    + rewrite repeat_length. reflexivity.
  - exists h. split; [apply same_refl|reflexivity].
Qed.
Lemma repr_comp_any h l s b ps F : repr h l (PComp N s b ps) F -> exists ch, nth_error h l = Some (OComp N s b ch) /\ (b = true -> exists cs G, ch = map Some cs /\ reprs h cs ps G).
Proof. intro R. inv R; eexists; (split; [eassumption|]); [intros _; eauto|discriminate]. Qed.
Lemma h_clone_create h roots st F x : reprs h roots st F ->
  step_ok h roots (create N roots (hbind N (h_handle N roots x) (h_clone N (length h))) h) (adds N st (let! p := v_get N st x in p_clone N p)).
Proof.
  intros R. apply create_adds with (F := F); [exact R|]. intros U. pose proof (handle_sim h roots st F x R) as X. unfold hbind. destruct (v_get N st x) as [p|e|u]; cbn [bind] in *; [| |contradiction].
  - destruct X as (l & G & E & Rl & _). rewrite E. apply (h_clone_clones (length h) h l p G Rl); [eapply repr_depth; eauto|exact U].
  - exists h. split; [apply same_refl|rewrite X; reflexivity].
Qed.
Lemma v_init_ok h roots st F x ys : reprs h roots st F -> forall m,
  (forall l, h_handle N roots x h = (Ok l, h) -> forall c, v_get N st x = Ok c -> match mapM (v_get N st) ys with
     | Ok ps => exists ms, m l h = h_initialize_with N (h_clone N (length h)) l (map Some ms) h /\ (forallb (other_object x) ys = true -> Forall2 (arg (length h) h l) ms ps)
     | Throw e => m l h = (Throw e, h) | UB _ => True end) ->
  step_ok h roots (keep N (fun _ => RUnit N) roots (hbind N (h_handle N roots x) m) h) (v_init N st x ys).
Proof.
  intros R m Hm U. pose proof (handle_sim h roots st F x R) as X. unfold v_init, changes in *. unfold keep, hbind. destruct (v_get N st x) as [c|e|u] eqn:Ec; cbn [bind] in *; [| |contradiction].
  2:{ rewrite X. exists h, roots, F. auto. }
  destruct X as (l & G & E & Rl & I1 & K). rewrite E. specialize (Hm l E c eq_refl). destruct (mapM (v_get N st) ys) as [ps|e|u]; cbn [bind] in *; [| |contradiction].
  2:{ rewrite Hm. exists h, roots, F. auto. }
  destruct Hm as (ms & Em & Am). rewrite Em. destruct (forallb (other_object x) ys); [|destruct U]. specialize (Am eq_refl).
  unfold v_initialize in *. destruct c as [?|?|?|s b old]; try (destruct (mapM (p_clone N) ps); cbn in U; contradiction).
  destruct (repr_comp_any _ _ _ _ _ _ Rl) as (ch & Hl & _).
  assert (Eq : b = true -> is_ok (mapM (p_clone N) ps) = true). { intros ->. unfold comp_initialize in U. destruct (mapM (p_clone N) ps); cbn in *; auto; contradiction. }
  assert (Iv : exists old', (match PComp N s b old, mapM (p_clone N) ps with PComp _ _ true _, Throw _ => (PComp N s b old, UB AssertFailed) | _, _ => comp_initialize N (PComp N s b old) ps end)
     = (match mapM (p_clone N) ps with Ok qs => comp_finish_init N s b qs | Throw e => (PComp N s b old', Throw e) | UB u => (PComp N s b old', UB u) end)).
  { exists old. unfold comp_initialize. destruct b, (mapM (p_clone N) ps); try reflexivity. discriminate (Eq eq_refl). }
  destruct Iv as (old' & Iv). rewrite Iv in *.
  destruct (init_sim (length h) (h_clone N (length h)) l s b ch ms ps h (h_clone_clones (length h)) Hl Am) as (h' & G' & E' & S' & R' & B').
  - unfold init_value. destruct (mapM (p_clone N) ps) as [qs|e|u]; cbn [fst snd] in *; auto. destruct (comp_finish_init N s b qs) as [c' [[]| |]]; cbn in *; auto.
  - exact Eq.
  - rewrite E'. destruct (K h' (fst (init_value s b ps)) G') as (F' & RF & _).
    + eapply same_incl; [exact S'|]. intros y [<-|[]]. eapply repr_self; eauto.
    + exact R'.
    + intros y Hy. destruct (B' y Hy) as [->|]; [left; eapply repr_self; eauto|now right].
    + unfold init_value in *. destruct (mapM (p_clone N) ps) as [qs|e|u] eqn:EM; cbn [fst snd] in *; [| |contradiction].
      * exists h', roots, F'. destruct (comp_finish_init N s b qs) as [c' o]; cbn [fst snd] in *. auto.
      * destruct b; [discriminate (Eq eq_refl)|]. assert (R2 : repr h' l (PComp N s false old') G') by (inv R'; econstructor; eassumption).
        destruct (K h' _ G' ltac:(eapply same_incl; [exact S'|]; intros y [<-|[]]; eapply repr_self; eauto) R2) as (F2 & RF2 & _).
        { intros y Hy. destruct (B' y Hy) as [->|]; [left; eapply repr_self; eauto|now right]. }
        exists h', roots, F2. auto.
Qed.

Lemma hd_same_meta_at h l m d e F G : repr h l (PDouble N d) F -> repr h m (PDouble N e) G -> not_ub (dp_same_meta N d e) -> hd_same_meta N l m h = (dp_same_meta N d e, h).
Proof.
  intros Rl Rm U. unfold hd_same_meta, hbind at 1. unfold dp_same_meta in *.
  destruct (repr_double _ _ _ _ Rl) as [(b & q & B & H & ->)|(B & H & ->)]; destruct (repr_double _ _ _ _ Rm) as [(b' & q' & B' & H' & ->)|(B' & H' & ->)]; rewrite B in U |- *; try rewrite B' in U |- *.
  - destruct H as (H1 & H2 & H3), H' as (H1' & H2' & H3'). rewrite (rd_double_at _ _ _ _ _ _ _ H1). unfold hbind at 1. rewrite (rd_double_at _ _ _ _ _ _ _ H1').
    destruct (_ && _)%bool; [|reflexivity]. unfold hbind, deref, hlift. rewrite (rd_int_at _ _ _ H2). rewrite (rd_int_at _ _ _ H2'). reflexivity.
  - destruct H as (H1 & H2 & H3). rewrite (rd_double_at _ _ _ _ _ _ _ H1). unfold hbind at 1. rewrite (rd_double_at _ _ _ _ _ _ _ H').
    destruct (_ && _)%bool; [|reflexivity]. unfold hbind, deref, hlift. rewrite (rd_int_at _ _ _ H2). reflexivity.
  - destruct H' as (H1' & H2' & H3'). rewrite (rd_double_at _ _ _ _ _ _ _ H). unfold hbind at 1. rewrite (rd_double_at _ _ _ _ _ _ _ H1').
    destruct (_ && _)%bool; [contradiction|reflexivity].
  - rewrite (rd_double_at _ _ _ _ _ _ _ H). unfold hbind at 1. rewrite (rd_double_at _ _ _ _ _ _ _ H'). destruct (_ && _)%bool; [contradiction|reflexivity].
Qed.
Lemma like_same_meta p q p0 q0 : like p p0 -> like q q0 -> ip_same_meta p q = ip_same_meta p0 q0.
Proof. intros (A & B & _) (C & D & _). unfold ip_same_meta. congruence. Qed.
Lemma ha_same_meta_at h l m a e F G : repr h l (PArr N a) F -> repr h m (PArr N e) G -> ha_same_meta N l m h = (da_same_meta N a e, h).
Proof.
  intros Rl Rm. apply repr_arr in Rl as (s & b & vs & mn & mx & pr & k & q & q0 & A & D & L & _ & _ & _ & -> & _). apply repr_arr in Rm as (s' & b' & vs' & mn' & mx' & pr' & k' & q' & q0' & A' & D' & L' & _ & _ & _ & -> & _).
  unfold ha_same_meta, da_same_meta, hbind. rewrite (rd_arr_at _ _ _ _ _ A), (rd_arr_at _ _ _ _ _ A'). cbn [da_values da_sample]. destruct (length vs =? length vs')%nat; [|reflexivity].
  unfold deref, hlift. pose proof (hd_same_meta_at h s s' _ _ _ _ (R_double _ _ _ _ _ _ _ _ D) (R_double _ _ _ _ _ _ _ _ D')) as X. unfold dp_same_meta in *. cbn [dp_base dp_min dp_max dp_prec] in *.
  rewrite (like_same_meta _ _ _ _ L L') in X. apply X. destruct (_ && _)%bool; exact I.
Qed.
Lemma h_same_meta_at h l m p q F G : repr h l p F -> repr h m q G -> not_ub (p_same_meta N p q) -> h_same_meta N l m h = (p_same_meta N p q, h).
Proof.
  intros Rl Rm U. assert (X : forall l p F, repr h l p F -> exists o, nth_error h l = Some o /\ match p, o with PInt _ p, OInt _ q => p = q | PDouble _ _, ODouble _ _ _ _ _ _ => True | PArr _ _, OArr _ _ _ _ => True | PComp _ _ _ _, OComp _ _ _ _ => True | _, _ => False end).
  { intros l0 p0 F0 R. inv R; eexists; (split; [eassumption || apply H|]); cbn; auto. }
  destruct (X _ _ _ Rl) as (o & Ho & Co), (X _ _ _ Rm) as (o' & Ho' & Co'). unfold h_same_meta, hbind, rd. rewrite Ho, Ho'.
  destruct p, o; try contradiction; destruct q, o'; try contradiction; try reflexivity; cbn [p_same_meta] in *; subst.
  - reflexivity.
  - eapply hd_same_meta_at; eauto.
  - eapply ha_same_meta_at; eauto.
Qed.

Lemma step_sim h roots st F c : reprs h roots st F -> step_ok h roots (hstep N c (h, roots)) (vstep N c st).
Proof.
  intro R. destruct c; cbn [hstep vstep].
  - apply create_adds with (F := F); [exact R|]. unfold hbind, hlift, clones. destruct (ip_make v mn mx) as [p|e|u]; cbn [bind]; intros U; [| |contradiction].
    + apply new_clones; [|exact I]. constructor. apply nth_app_len.
    + exists h. split; [apply same_refl|reflexivity].
  - eapply create_adds; [exact R|apply hd_make_clones].
  - eapply create_adds; [exact R|]. apply new_clones. constructor. apply nth_app_len.
  - eapply create_adds; [exact R|apply ha_make_clones].
  - eapply create_adds; [exact R|]. apply new_clones. econstructor. apply nth_app_len.
  - eapply h_clone_create; eauto.
  - apply v_init_ok with (F := F); [exact R|]. intros l Hl c Hc. pose proof (handles_sim h roots st F x l c R Hc Hl args) as X. unfold hbind.
    destruct (mapM (v_get N st) args) as [ps|e|u]; [| |exact I]. * destruct X as (ms & E & A & _). rewrite E. exists ms. auto. * rewrite X. reflexivity.
  - unfold step_ok. intros U. pose proof (handle_sim h roots st F x R) as X. destruct (v_get N st x) as [p|e|u] eqn:Ex; cbn [bind] in *; [| |contradiction].
    2:{ unfold keep, hbind. rewrite X. exists h, roots, F. auto. }
    destruct X as (lx & Gx & Elx & _). pose proof (handle_sim h roots st F sample R) as Y. destruct (v_get N st sample) as [q|e|u] eqn:Ey; [| |contradiction].
    2:{ unfold keep, hbind. rewrite Elx, Y. exists h, roots, F. auto. }
    destruct Y as (my & Gy & Emy & _).
    revert U. apply (v_init_ok h roots st F x (repeat sample n) R). intros l Hl c Hc. pose proof (handles_sim h roots st F x l c R Hc Hl (repeat sample n)) as Z. unfold hbind. rewrite Emy.
    destruct (mapM (v_get N st) (repeat sample n)) as [ps|e|u] eqn:EM.
    * destruct Z as (ms & E & A & B). rewrite (B sample n eq_refl my Emy) in *. exists (repeat my n). split; [|exact A]. f_equal. clear. induction n; cbn; congruence.
    * exfalso. clear -EM Ey. induction n as [|n IH]; [discriminate|]. cbn [repeat mapM] in EM. rewrite Ey in EM. cbn [bind] in EM. destruct (mapM (v_get N st) (repeat sample n)); try discriminate. apply IH. cbn in EM. congruence.
    * exact I.
  - eapply keep_changes; [exact R|]. intros l p G Rl. destruct p as [q|d|a|s b ps]; try (intros []; fail).
    destruct (repr_int _ _ _ _ Rl) as [H ->]. intros _. unfold hi_set_value, hbind. rewrite (rd_int_at _ _ _ H). cbn [fst snd]. eexists. split; [reflexivity|]. split; [apply same_upd; now left|]. constructor. eapply nth_upd_eq; eauto.
  - eapply keep_changes; [exact R|]. intros l p G Rl. destruct p as [q|d|a|s b ps]; try (intros []; fail). unfold dp_set_value.
    intros U. destruct (repr_double _ _ _ _ Rl) as [(b & q & B & H & ->)|(B & H & ->)]; rewrite B in *.
    + rewrite (hd_set_value_at _ _ _ _ _ _ _ _ _ H). destruct (dp_quantise N (dp_min N d) (dp_prec N d) v) as [i|e|u]; cbn [bind fst snd] in *; [| |contradiction].
      * eexists. split; [reflexivity|]. split; [apply same_upd; cbn; auto|]. constructor. eapply dbl_at_upd; eauto.
      * exists h. split; [reflexivity|]. split; [apply same_refl|exact Rl].
    + destruct (dp_quantise N (dp_min N d) (dp_prec N d) v) as [i|e|u] eqn:Q; cbn [bind fst snd] in *; try contradiction.
      exists h. unfold hd_set_value, hbind. rewrite (rd_double_at _ _ _ _ _ _ _ H). unfold hlift. rewrite Q. split; [reflexivity|]. split; [apply same_refl|exact Rl].
  - eapply keep_changes; [exact R|]. intros l p G Rl. destruct p as [q|d|a|s b ps]; try (intros []; fail). pose proof (ha_set_values_does _ _ _ _ vs Rl) as X. destruct (da_set_values N a vs). exact X.
  - eapply keep_changes; [exact R|]. intros l p G Rl. apply h_set_from_does; [exact Rl|eapply repr_depth; eauto].
  - eapply keep_observes; [exact R|]. intros l p G Rl. apply h_encode_does; [exact Rl|eapply repr_depth; eauto].
  - eapply keep_observes; [exact R|]. intros l p G Rl. apply h_check_does; [exact Rl|eapply repr_depth; eauto].
  - eapply keep_observes; [exact R|]. intros l p G Rl. apply observe_does; [exact Rl|]. intros _. eapply h_size_at; eauto.
  - eapply keep_observes; [exact R|]. intros l p G Rl. apply observe_does; [exact Rl|]. intros U. destruct p as [q|d|a|s b ps]; try contradiction. destruct (repr_int _ _ _ _ Rl) as [H _]. unfold hbind. rewrite (rd_int_at _ _ _ H). reflexivity.
  - eapply keep_observes; [exact R|]. intros l p G Rl. apply observe_does; [exact Rl|]. intros U. destruct p as [q|d|a|s b ps]; try contradiction. unfold dp_get_value in *. destruct (repr_double _ _ _ _ Rl) as [(b & q & B & H & _)|(B & H & _)]; rewrite B in *; [|contradiction].
    apply (hd_get_value_at _ _ _ _ _ _ _ _ H).
  - eapply keep_observes; [exact R|]. intros l p G Rl. apply observe_does; [exact Rl|]. intros U. destruct p as [q|d|a|s b ps]; try contradiction. destruct (repr_arr _ _ _ _ Rl) as (s & b & vs & mn & mx & pr & k & q & q0 & A & D & L & _ & _ & _ & -> & _). unfold hbind. rewrite (rd_arr_at _ _ _ _ _ A). reflexivity.
  - eapply keep_observes; [exact R|]. intros l p G Rl. apply observe_does; [exact Rl|]. intros U. destruct p as [q|d|a|s b ps]; try contradiction. cbn [comp_number]. destruct (repr_comp_any _ _ _ _ _ _ Rl) as (ch & H & X). unfold h_number, hbind. rewrite (rd_comp_at _ _ _ _ _ H).
    destruct b; [|reflexivity]. destruct (X eq_refl) as (cs & Gc & -> & Rc). rewrite map_length, (reprs_length _ _ _ _ Rc). reflexivity.
  - eapply keep_observes; [exact R|]. intros l p G Rl. apply observe_does; [exact Rl|]. intros U. pose proof (handle_sim h roots st F y R) as X. unfold hbind. destruct (v_get N st y) as [q|e|u]; cbn [bind] in *; [| |contradiction].
    + destruct X as (m & Gm & E & Rm & _). rewrite E. eapply h_same_meta_at; eauto.
    + rewrite X. reflexivity.
Qed.
Lemma run_sim cs : forall h roots st F, reprs h roots st F -> Forall not_ub (fst (vrun N cs st)) ->
  exists h' roots' F', hrun N cs (h, roots) = (fst (vrun N cs st), (h', roots')) /\ reprs h' roots' (snd (vrun N cs st)) F'.
Proof.
  induction cs as [|c cs IH]; intros h roots st F R U; cbn [vrun hrun] in *.
  - exists h, roots, F. auto.
  - pose proof (step_sim h roots st F c R) as X. unfold step_ok in X. destruct (vstep N c st) as [o st']; cbn [fst snd] in *. destruct o as [r|e|u]; cbn [fst] in *.
    + destruct (X I) as (h' & roots' & F' & E & R'). rewrite E. destruct (vrun N cs st') as [os st''] eqn:EV; cbn [fst snd] in *. inv U.
      destruct (IH h' roots' st' F' R') as (h2 & r2 & F2 & E2 & R2); [rewrite EV; assumption|]. rewrite EV in *. rewrite E2. cbn [fst snd] in *. exists h2, r2, F2. auto.
    + destruct (X I) as (h' & roots' & F' & E & R'). rewrite E. destruct (vrun N cs st') as [os st''] eqn:EV; cbn [fst snd] in *. inv U.
      destruct (IH h' roots' st' F' R') as (h2 & r2 & F2 & E2 & R2); [rewrite EV; assumption|]. rewrite EV in *. rewrite E2. cbn [fst snd] in *. exists h2, r2, F2. auto.
    + inv U. contradiction.
Qed.
End Proofs.
