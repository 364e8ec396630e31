(** C10: parameter objects are independent of each other, and clones of their originals, in every history of calls. The objects
    live in a heap with shared pointers (Heap.v); the specification (HeapSpec.v) is a list of separate values. *)
From Verif Require Import Base Num Params Heap HeapSpec CompositeProofs HeapProofs.
From Coq Require Import Reals.
Local Open Scope list_scope.

Section Independence.
Context (N : Num).

(** the calls [cs], on separate values, are all defined *)
Definition defined (cs : list (call N)) : Prop := forall u, ~ In (UB u) (fst (vrun N cs [])).
Lemma defined_not_ub cs : defined cs -> Forall not_ub (fst (vrun N cs [])).
Proof. intro D. apply Forall_forall. intros [a|e|u] H; cbn; auto. exact (D u H). Qed.

(** Whatever calls a program makes on parameter objects, every result and every exception is the one it would get if each object
    were a separate value and Clone made a copy of that value. *)
Theorem C10_value_semantics cs : defined cs -> fst (hrun N cs (empty_state N)) = fst (vrun N cs []).
Proof.
  intro D. destruct (run_sim N cs [] [] [] [] (RN _ _) (defined_not_ub cs D)) as (h & r & F & E & _).
  exact (f_equal fst E).
Qed.

(** the object (position in the order of creation) a call changes, if it changes one *)
Definition target (c : call N) : option nat :=
  match c with
  | Initialize _ x _ | InitializeN _ x _ _ | SetInt _ x _ | SetDouble _ x _ | SetArray _ x _ | SetFromChromosome _ x _ => Some (fst x)
  | _ => None
  end.
(** a call that looks at object [i] only *)
Definition looks_at (i : nat) (c : call N) : Prop :=
  match c with
  | SetChromosome _ x _ | CheckConstraints _ x | GetSize _ x | GetInt _ x | GetDouble _ x | GetArray _ x | GetNumber _ x => fst x = i
  | SameMeta _ x y => fst x = i /\ fst y = i
  | _ => False
  end.

Lemma vrun_app cs ds st : Forall not_ub (fst (vrun N cs st)) ->
  vrun N (cs ++ ds) st = (fst (vrun N cs st) ++ fst (vrun N ds (snd (vrun N cs st))), snd (vrun N ds (snd (vrun N cs st)))).
Proof.
  revert st; induction cs as [|c cs IH]; intros st U; cbn [vrun app fst snd] in *.
  - destruct (vrun N ds st); reflexivity.
  - destruct (vstep N c st) as [o st']. destruct o as [r|e|u].
    + specialize (IH st'). destruct (vrun N cs st') as [os st'']. cbn [fst snd] in *. inversion U; subst. rewrite IH by assumption. reflexivity.
    + specialize (IH st'). destruct (vrun N cs st') as [os st'']. cbn [fst snd] in *. inversion U; subst. rewrite IH by assumption. reflexivity.
    + cbn [fst] in U. inversion U; subst. contradiction.
Qed.
Lemma defined_app cs ds : Forall not_ub (fst (vrun N (cs ++ ds) [])) -> Forall not_ub (fst (vrun N cs [])) .
Proof.
  generalize (@nil (param N)). induction cs as [|c cs IH]; intros st U; cbn [vrun app] in *; [constructor|].
  destruct (vstep N c st) as [o st']. destruct o as [r|e|u].
  - specialize (IH st'). destruct (vrun N (cs ++ ds) st') as [os st2], (vrun N cs st') as [os' st2']. cbn [fst] in *. inversion U; subst. constructor; [exact I|auto].
  - specialize (IH st'). destruct (vrun N (cs ++ ds) st') as [os st2], (vrun N cs st') as [os' st2']. cbn [fst] in *. inversion U; subst. constructor; [exact I|auto].
  - cbn [fst] in *. exact U.
Qed.
Lemma v_set_other st x q i : fst x <> i -> nth_error (v_set N st x q) i = nth_error st i.
Proof. intro H. unfold v_set. destruct (nth_error st (fst x)); [apply nth_upd_ne; exact H|reflexivity]. Qed.
Lemma changes_other st x f i : fst x <> i -> nth_error (snd (changes N st x f)) i = nth_error st i.
Proof. intro H. unfold changes. destruct (v_get N st x); try reflexivity. destruct (f a). cbn [snd]. apply v_set_other, H. Qed.
Lemma adds_other st o i : i < length st -> nth_error (snd (adds N st o)) i = nth_error st i.
Proof. intro H. unfold adds. destruct o; cbn [snd]; try reflexivity. apply nth_error_app1, H. Qed.
Lemma v_init_other st x ys i : fst x <> i -> nth_error (snd (v_init N st x ys)) i = nth_error st i.
Proof. intro H. unfold v_init. destruct (let! c := v_get N st x in _); try reflexivity. destruct (forallb _ ys); [apply changes_other, H|reflexivity]. Qed.
Lemma vstep_other c st i : i < length st -> target c <> Some i -> nth_error (snd (vstep N c st)) i = nth_error st i.
Proof.
  intros Hi Ht. destruct c; cbn [vstep target] in *; try (apply adds_other; exact Hi); try (apply changes_other; congruence); try reflexivity.
  - apply v_init_other. congruence.
  - destruct (let! _ := v_get N st x in _); try reflexivity. apply v_init_other. congruence.
Qed.
Lemma vrun_other cs : forall st i, i < length st -> (forall c, In c cs -> target c <> Some i) -> nth_error (snd (vrun N cs st)) i = nth_error st i.
Proof.
  induction cs as [|c cs IH]; intros st i Hi Ht; cbn [vrun]; [reflexivity|].
  pose proof (vstep_other c st i Hi (Ht c (or_introl eq_refl))) as E. destruct (vstep N c st) as [o st']. cbn [snd] in E.
  assert (Hi' : i < length st') by (apply nth_error_Some; rewrite E; apply nth_error_Some; exact Hi).
  specialize (IH st' i Hi' (fun c' H => Ht c' (or_intror H))). destruct (vrun N cs st') as [os st'']. cbn [snd] in *. destruct o; cbn [snd]; congruence.
Qed.
Lemma look_same i c st st' : looks_at i c -> nth_error st i = nth_error st' i -> fst (vstep N c st) = fst (vstep N c st').
Proof.
  intros L E. assert (G : forall x, fst x = i -> v_get N st x = v_get N st' x) by (intros x <-; unfold v_get, at_; rewrite E; reflexivity).
  destruct c; cbn [looks_at vstep] in *; try contradiction; unfold observes; cbn [fst]; try (rewrite (G _ L); reflexivity).
  destruct L as [L1 L2]. rewrite (G _ L1), (G _ L2). reflexivity.
Qed.

(** the objects a program has after the calls [cs]: as many as calls that create one succeeded *)
Definition creates (c : call N) : bool :=
  match c with NewInt _ _ _ _ | NewDouble _ _ _ _ _ | NewDefault _ | NewArray _ _ _ _ _ | NewComposite _ | Clone _ _ => true | _ => false end.
Definition created (cs : list (call N)) : nat :=
  length (filter (fun co => creates (fst co) && is_ok (snd co))%bool (combine cs (fst (hrun N cs (empty_state N))))).
Lemma v_set_length st x q : length (v_set N st x q) = length st.
Proof. unfold v_set. destruct (nth_error st (fst x)); [apply upd_length|reflexivity]. Qed.
Lemma changes_length st x f : length (snd (changes N st x f)) = length st.
Proof. unfold changes. destruct (v_get N st x); try reflexivity. destruct (f a). apply v_set_length. Qed.
Lemma v_init_length st x ys : length (snd (v_init N st x ys)) = length st.
Proof. unfold v_init. destruct (let! c := v_get N st x in _); try reflexivity. destruct (forallb _ ys); [apply changes_length|reflexivity]. Qed.
Lemma adds_length st o : length (snd (adds N st o)) = (length st + if is_ok (fst (adds N st o)) then 1 else 0)%nat.
Proof. unfold adds. destruct o; cbn; try lia. rewrite app_length. reflexivity. Qed.
Lemma vstep_length c st : length (snd (vstep N c st)) = (length st + if (creates c && is_ok (fst (vstep N c st)))%bool then 1 else 0)%nat.
Proof.
  destruct c; cbn [vstep creates andb]; try apply adds_length; rewrite ?changes_length, ?v_init_length; try (unfold observes; cbn [snd]; lia); try lia.
  destruct (let! _ := v_get N st x in _); cbn [snd]; rewrite ?v_init_length; lia.
Qed.
Lemma vrun_length cs : forall st, length (snd (vrun N cs st)) =
  (length st + length (filter (fun co => creates (fst co) && is_ok (snd co))%bool (combine cs (fst (vrun N cs st)))))%nat.
Proof.
  induction cs as [|c cs IH]; intros st; cbn [vrun]; [cbn; lia|].
  pose proof (vstep_length c st) as E. destruct (vstep N c st) as [o st']. cbn [fst snd] in E. specialize (IH st'). destruct (vrun N cs st') as [os st'']. cbn [fst snd] in *.
  destruct o as [r|e|u]; cbn [fst snd combine filter] in *; rewrite ?combine_nil; cbn [is_ok] in *; destruct (creates c); cbn [andb length filter] in *; lia.
Qed.
Lemma created_values cs : defined cs -> created cs = length (snd (vrun N cs [])).
Proof. intro D. unfold created. rewrite (C10_value_semantics cs D), vrun_length. reflexivity. Qed.

(** the result of the last call *)
Definition answer (cs : list (call N)) : option (outcome (result N)) :=
  nth_error (fst (hrun N cs (empty_state N))) (length cs - 1).
Lemma vrun_all cs : forall st, Forall not_ub (fst (vrun N cs st)) -> length (fst (vrun N cs st)) = length cs.
Proof.
  induction cs as [|c cs IH]; intros st U; cbn [vrun] in *; [reflexivity|]. destruct (vstep N c st) as [o st']. specialize (IH st').
  destruct (vrun N cs st') as [os st'']. cbn [fst] in *. destruct o; cbn [fst length] in *; inversion U; subst; [rewrite IH by assumption; reflexivity..|contradiction].
Qed.
Lemma vrun_one c st : fst (vrun N [c] st) = [fst (vstep N c st)].
Proof. cbn [vrun]. destruct (vstep N c st) as [[]]; reflexivity. Qed.
Lemma vrun_one_snd c st : snd (vrun N [c] st) = snd (vstep N c st).
Proof. cbn [vrun]. destruct (vstep N c st) as [[]]; reflexivity. Qed.
Lemma answer_values cs c : defined (cs ++ [c]) -> answer (cs ++ [c]) = Some (fst (vstep N c (snd (vrun N cs [])))).
Proof.
  intro D. pose proof (defined_not_ub _ D) as U. pose proof (defined_app _ _ U) as U1. unfold answer. rewrite (C10_value_semantics _ D). rewrite (vrun_app _ _ _ U1). cbn [fst].
  rewrite app_length. cbn [length]. rewrite <- (vrun_all cs [] U1). rewrite nth_error_app2 by lia. replace (_ - _)%nat with 0%nat by lia. rewrite vrun_one. reflexivity.
Qed.

(** Calls that do not name object [i] as the one to be changed leave everything that can be observed of it as it was: *)
Theorem C10_independent pre mid ask i :
  defined (pre ++ [ask]) -> defined (pre ++ mid ++ [ask]) -> i < created pre -> (forall c, In c mid -> target c <> Some i) -> looks_at i ask ->
  answer (pre ++ mid ++ [ask]) = answer (pre ++ [ask]).
Proof.
  intros D1 D2 Hi Ht L. rewrite app_assoc in *. rewrite (answer_values _ _ D1), (answer_values _ _ D2). f_equal.
  assert (U2 : Forall not_ub (fst (vrun N (pre ++ mid) []))) by (eapply defined_app, defined_not_ub; exact D2).
  assert (U1 : Forall not_ub (fst (vrun N pre []))) by (eapply defined_app; exact U2).
  apply (look_same i); [exact L|]. rewrite (vrun_app _ _ _ U1). cbn [snd]. apply vrun_other; [|exact Ht].
  rewrite <- created_values; [exact Hi|]. intros u Hu. rewrite Forall_forall in U1. exact (U1 _ Hu).
Qed.

(** A clone: the object [created pre] right after [Clone x]. Whatever is done afterwards to other objects, the original included,
    the clone answers as it did at once; and whatever is done to the clone, the original does. *)
Theorem C10_clone_independent pre x mid ask i :
  let made := pre ++ [Clone N x] in
  i = created pre \/ i = fst x ->
  answer made = Some (Ok (RUnit N)) -> defined (made ++ [ask]) -> defined (made ++ mid ++ [ask]) ->
  (forall c, In c mid -> target c <> Some i) -> looks_at i ask ->
  answer (made ++ mid ++ [ask]) = answer (made ++ [ask]).
Proof.
  intros made Hi Hm D1 D2 Ht L. apply (C10_independent made mid ask i D1 D2); auto.
  assert (Um : Forall not_ub (fst (vrun N made []))) by (eapply defined_app, defined_not_ub; exact D1).
  assert (Dm : defined made) by (intros u Hu; rewrite Forall_forall in Um; exact (Um _ Hu)).
  assert (Up : Forall not_ub (fst (vrun N pre []))) by (eapply defined_app; exact Um).
  assert (Dp : defined pre) by (intros u Hu; rewrite Forall_forall in Up; exact (Up _ Hu)).
  unfold made in Hm. rewrite (answer_values _ _ Dm) in Hm. assert (Hv : fst (vstep N (Clone N x) (snd (vrun N pre []))) = Ok (RUnit N)) by congruence. clear Hm.
  rewrite (created_values _ Dm). unfold made. rewrite (vrun_app _ _ _ Up). cbn [snd]. rewrite vrun_one_snd, vstep_length, Hv. cbn [creates is_ok andb].
  destruct Hi as [->| ->]; [rewrite (created_values _ Dp); lia|].
  cbn [vstep] in Hv. unfold adds, v_get, at_ in Hv. destruct (nth_error (snd (vrun N pre [])) (fst x)) eqn:E; [|discriminate]. assert (fst x < length (snd (vrun N pre []))) by (apply nth_error_Some; congruence). lia.
Qed.

(** *** A clone equals its original *)
Definition initialises (c : call N) : bool := match c with Initialize _ _ _ | InitializeN _ _ _ _ => true | _ => false end.
(** every composite is initialised at most once, by a call that succeeds (C09: a second Initialize breaks the object) *)
Definition initialised_once (cs : list (call N)) : Prop :=
  forall c o, In (c, o) (combine cs (fst (hrun N cs (empty_state N)))) -> initialises c = true -> o = Ok (RUnit N).
(** the questions one can ask about an object *)
Inductive question : (handle -> call N) -> Prop :=
| Q_chromosome old : question (fun x => SetChromosome N x old)
| Q_check : question (CheckConstraints N) | Q_size : question (GetSize N) | Q_int : question (GetInt N) | Q_double : question (GetDouble N)
| Q_array : question (GetArray N) | Q_number : question (GetNumber N).

Definition sound (p : param N) : Prop := wf_param N p \/ p = PDouble N (dp_default N) \/ p = PComp N None false [].
Lemma wf_at path : forall p q, wf_param N p -> v_at N p path = Ok q -> wf_param N q.
Proof.
  induction path as [|i path IH]; intros p q W H; cbn [v_at] in H; [congruence|]. destruct p as [?|?|?|s [] ps]; try discriminate.
  destruct (nth_error ps i) as [c|] eqn:E; [|discriminate]. apply (IH c q); [|exact H]. inversion W as [| | |n qs Hall Ht]; subst.
  rewrite Forall_forall in Hall. apply Hall. eapply nth_error_In; eauto.
Qed.
Lemma total_upd ps : forall i c q, nth_error ps i = Some c -> p_size N q = p_size N c -> total_size N (upd ps i q) = total_size N ps.
Proof.
  induction ps as [|p ps IH]; intros [|i] c q H E; cbn [nth_error upd total_size] in *; try discriminate.
  - inversion H; subst. rewrite E. reflexivity.
  - rewrite (IH _ _ _ H E). reflexivity.
Qed.
Lemma Forall_upd {A} (P : A -> Prop) l i a : Forall P l -> P a -> Forall P (upd l i a).
Proof. intros H Ha. revert i. induction H; intros [|i]; cbn [upd]; constructor; auto. Qed.
Lemma put_size path p q q' : v_at N p path = Ok q -> p_size N q' = p_size N q -> p_size N (v_put N p path q') = p_size N p.
Proof. destruct path; cbn [v_at v_put]; intros H E; [congruence|]. destruct p; try discriminate. reflexivity. Qed.
Lemma wf_put path : forall p q q', wf_param N p -> v_at N p path = Ok q -> wf_param N q' -> p_size N q' = p_size N q -> wf_param N (v_put N p path q').
Proof.
  induction path as [|i path IH]; intros p q q' W H W' E; cbn [v_at v_put] in *; [exact W'|]. destruct p as [?|?|?|s [] ps]; try discriminate.
  destruct (nth_error ps i) as [c|] eqn:Ei; [|discriminate]. inversion W as [| | |n qs Hall Ht]; subst. constructor.
  - apply Forall_upd; [exact Hall|]. apply (IH c q q'); auto. rewrite Forall_forall in Hall. apply Hall. eapply nth_error_In; eauto.
  - rewrite (total_upd ps i c); [exact Ht|exact Ei|]. eapply put_size; eauto.
Qed.
Lemma sound_get st x q : Forall sound st -> v_get N st x = Ok q -> sound q.
Proof.
  unfold v_get, at_. intros S H. destruct (nth_error st (fst x)) as [p|] eqn:E; cbn [bind] in H; [|discriminate].
  assert (Sp : sound p) by (rewrite Forall_forall in S; apply S; eapply nth_error_In; eauto).
  destruct Sp as [W|[->| ->]]; [left; eapply wf_at; eauto|..]; destruct (snd x); cbn [v_at] in H; try discriminate; inversion H; subst; [right; left|right; right]; reflexivity.
Qed.
Lemma sound_set st x q q' : Forall sound st -> v_get N st x = Ok q -> (wf_param N q -> wf_param N q' /\ p_size N q' = p_size N q) -> (wf_param N q \/ sound q') -> Forall sound (v_set N st x q').
Proof.
  unfold v_get, v_set, at_. intros S H K1 K2. destruct (nth_error st (fst x)) as [p|] eqn:E; cbn [bind] in H; [|discriminate].
  assert (Sp : sound p) by (rewrite Forall_forall in S; apply S; eapply nth_error_In; eauto). apply Forall_upd; [exact S|].
  destruct Sp as [W|Sp].
  - left. pose proof (wf_at _ _ _ W H) as Wq. destruct (K1 Wq). eapply wf_put; eauto.
  - destruct (snd x) as [|i r]; [|destruct Sp as [->| ->]; discriminate]. cbn [v_at v_put] in *. inversion H; subst. destruct K2 as [W|K2]; [left; apply K1, W|exact K2].
Qed.
Lemma sound_clone p : sound p -> forall q, p_clone N p = Ok q -> q = p.
Proof. intros [W|[->| ->]] q H; [rewrite (clone_id N p W) in H; congruence| |]; cbn in H; [inversion H; reflexivity|discriminate]. Qed.
Lemma sound_changes st x f : Forall sound st ->
  (forall q, wf_param N q -> wf_param N (fst (f q)) /\ p_size N (fst (f q)) = p_size N q) ->
  (forall q, q = PDouble N (dp_default N) \/ q = PComp N None false [] -> sound (fst (f q))) -> Forall sound (snd (changes N st x f)).
Proof.
  intros S K1 K2. unfold changes. destruct (v_get N st x) as [q|e|u] eqn:E; [|exact S|exact S]. pose proof (K1 q) as Kq. pose proof (K2 q) as Kq2. destruct (f q) as [q' o] eqn:Ef. cbn [fst snd] in *.
  eapply sound_set; eauto. destruct (sound_get _ _ _ S E) as [W|D]; auto.
Qed.
Lemma wf_call c q (f : param N -> param N * outcome unit) : reinit N c = false -> (forall q, fst (f q) = fst (pcall_run N q c)) -> wf_param N q -> wf_param N (fst (f q)) /\ p_size N (fst (f q)) = p_size N q.
Proof. intros Hr Hf W. rewrite Hf. split; [apply wf_pcall; assumption|]. destruct (wf_size N q W) as (n & Hn). rewrite Hn. apply pcall_size, Hn. Qed.
Lemma sound_call c st x f : reinit N c = false -> (forall q, fst (f q) = fst (pcall_run N q c)) -> Forall sound st ->
  (forall q, q = PDouble N (dp_default N) \/ q = PComp N None false [] -> sound (fst (f q))) -> Forall sound (snd (changes N st x f)).
Proof. intros Hr Hf S. apply sound_changes; [exact S|]. intros q. apply (wf_call c); assumption. Qed.
Lemma sound_init st x ys : Forall sound st -> fst (v_init N st x ys) = Ok (RUnit N) -> Forall sound (snd (v_init N st x ys)).
Proof.
  intros S. unfold v_init. destruct (v_get N st x) as [c|e|u] eqn:E; cbn [bind]; try discriminate.
  destruct (mapM (v_get N st) ys) as [ps|e|u] eqn:Em; cbn [bind]; try discriminate. destruct (forallb _ ys); [|discriminate].
  unfold changes. rewrite E.
  assert (Sp : Forall sound ps).
  { clear -S Em. revert ps Em. induction ys as [|y ys IH]; intros ps Em; cbn [mapM] in Em; [inversion Em; constructor|].
    apply bind_ok in Em as (p & Hp & Em). apply bind_ok in Em as (ps' & Hps & Em). inversion Em; subst. constructor; [eapply sound_get; eauto|auto]. }
  unfold v_initialize. destruct (sound_get _ _ _ S E) as [W|[->| ->]].
  - destruct W as [? ? ?|? ? ?|? ? ?|n qs Hall Ht]; try (destruct (mapM (p_clone N) ps); discriminate).
    unfold comp_initialize. destruct (mapM (p_clone N) ps) as [qs'|e|u]; cbn [fst]; try discriminate. unfold comp_finish_init. destruct (total_size N qs'); cbn; discriminate.
  - destruct (mapM (p_clone N) ps); discriminate.
  - unfold comp_initialize. destruct (mapM (p_clone N) ps) as [qs|e|u] eqn:Ec; cbn [fst]; try discriminate. unfold comp_finish_init. destruct (total_size N qs) as [n|e|u] eqn:Et; cbn [cs_set fst snd]; try discriminate.
    intros _. eapply sound_set; [exact S|exact E|intro W; inversion W|]. right. left. constructor; [|exact Et].
    clear -Sp Ec Et. revert ps qs n Sp Ec Et. induction ps as [|p ps IH]; intros qs n Sp Ec Et; cbn [mapM] in Ec; [inversion Ec; constructor|].
    apply bind_ok in Ec as (q & Hq & Ec). apply bind_ok in Ec as (qs' & Hqs & Ec). inversion Ec; subst. inversion Sp as [|? ? S1 S2]; subst.
    cbn [total_size] in Et. apply bind_ok in Et as (a & Ha & Et). apply bind_ok in Et as (b & Hb & Et). constructor; [|eapply IH; eauto].
    rewrite (sound_clone p S1 q Hq) in *. destruct S1 as [W|[->| ->]]; [exact W|cbn in Ha; discriminate|discriminate].
Qed.
Lemma sound_adds st o : Forall sound st -> (forall p, o = Ok p -> sound p) -> Forall sound (snd (adds N st o)).
Proof. intros S H. destruct o; cbn [adds snd]; [apply Forall_app; split; [exact S|constructor; [apply H; reflexivity|constructor]]|exact S|exact S]. Qed.
Lemma sound_step c st : Forall sound st -> (initialises c = true -> fst (vstep N c st) = Ok (RUnit N)) -> Forall sound (snd (vstep N c st)).
Proof.
  intros S Hi. destruct c; cbn [vstep initialises] in *; try exact S.
  - apply sound_adds; [exact S|]. intros p H. apply bind_ok in H as (q & H & E). inversion E. left. eapply wf_ip_make; eauto.
  - apply sound_adds; [exact S|]. intros q H. apply bind_ok in H as (d & H & E). inversion E. left. eapply wf_dp_make; eauto.
  - apply sound_adds; [exact S|]. intros q H. inversion H. right. left. reflexivity.
  - apply sound_adds; [exact S|]. intros q H. apply bind_ok in H as (d & H & E). inversion E. left. eapply wf_da_make; eauto.
  - apply sound_adds; [exact S|]. intros q H. inversion H. right. right. reflexivity.
  - apply sound_adds; [exact S|]. intros q H. apply bind_ok in H as (p & Hp & H). pose proof (sound_get _ _ _ S Hp) as Sp. rewrite (sound_clone _ Sp _ H). exact Sp.
  - apply sound_init; auto.
  - destruct (let! _ := v_get N st x in v_get N st sample); [|exact S|exact S]. apply sound_init; auto.
  - apply (sound_call (CSetInt N v)); [reflexivity|intros []; reflexivity|exact S|intros q [->| ->]; [right; left|right; right]; reflexivity].
  - apply (sound_call (CSetDouble N v)); [reflexivity|intros []; reflexivity|exact S|].
    intros q [->| ->]; [right; left|right; right; reflexivity]. unfold dp_set_value, dp_default. cbn [dp_base dp_min dp_prec]. destruct (dp_quantise N (n_ofZ N 0) (n_ofZ N 0) v); reflexivity.
  - apply (sound_call (CSetValues N vs)); [reflexivity|intros []; reflexivity|exact S|intros q [->| ->]; [right; left|right; right]; reflexivity].
  - apply (sound_call (CSetFrom N bits)); [reflexivity|reflexivity|exact S|intros q [->| ->]; [right; left|right; right]; reflexivity].
Qed.
Lemma sound_run cs : forall st, Forall sound st -> (forall c o, In (c, o) (combine cs (fst (vrun N cs st))) -> initialises c = true -> o = Ok (RUnit N)) -> Forall sound (snd (vrun N cs st)).
Proof.
  induction cs as [|c cs IH]; intros st S H; cbn [vrun] in *; [exact S|]. pose proof (sound_step c st S) as Ss. destruct (vstep N c st) as [o st']. cbn [fst snd] in Ss. specialize (IH st').
  destruct (vrun N cs st') as [os st'']. cbn [fst snd] in *.
  assert (S' : Forall sound st'). { apply Ss. intro Hc. apply (H c); [|exact Hc]. destruct o; now left. }
  destruct o as [r|e|u]; cbn [fst snd combine] in *; [| |exact S']; apply IH; auto; intros c' o' Hin; apply (H c' o'); now right.
Qed.
Lemma question_answers q x y st : question q -> v_get N st x = v_get N st y -> fst (vstep N (q x) st) = fst (vstep N (q y) st).
Proof. intros Q E. destruct Q; cbn [vstep]; unfold observes; rewrite E; reflexivity. Qed.
Lemma v_at_app p a b : v_at N p (a ++ b) = (let! q := v_at N p a in v_at N q b).
Proof.
  revert p; induction a as [|i a IH]; intros p; cbn [app v_at bind]; [reflexivity|]. destruct p as [?|?|?|s [] ps]; try reflexivity. destruct (nth_error ps i); [apply IH|reflexivity].
Qed.

(** Right after [Clone x] the new object, and every component of it, answers every question as the original does. *)
Theorem C10_clone_answers pre x q path :
  let made := pre ++ [Clone N x] in
  initialised_once pre -> answer made = Some (Ok (RUnit N)) -> question q ->
  defined (made ++ [q (created pre, path)]) -> defined (made ++ [q (fst x, snd x ++ path)]) ->
  answer (made ++ [q (created pre, path)]) = answer (made ++ [q (fst x, snd x ++ path)]).
Proof.
  intros made Ho Hm Q D1 D2. rewrite (answer_values _ _ D1), (answer_values _ _ D2). f_equal. apply question_answers; [exact Q|].
  assert (Um : Forall not_ub (fst (vrun N made []))) by (eapply defined_app, defined_not_ub; exact D1).
  assert (Dm : defined made) by (intros u Hu; rewrite Forall_forall in Um; exact (Um _ Hu)).
  assert (Up : Forall not_ub (fst (vrun N pre []))) by (eapply defined_app; exact Um).
  assert (Dp : defined pre) by (intros u Hu; rewrite Forall_forall in Up; exact (Up _ Hu)).
  unfold made in Hm. rewrite (answer_values _ _ Dm) in Hm. assert (Hv : fst (vstep N (Clone N x) (snd (vrun N pre []))) = Ok (RUnit N)) by congruence. clear Hm.
  rewrite (created_values _ Dp). unfold made. rewrite (vrun_app _ _ _ Up). cbn [snd]. rewrite vrun_one_snd.
  assert (S : Forall sound (snd (vrun N pre []))). { apply sound_run; [constructor|]. rewrite <- (C10_value_semantics _ Dp). exact Ho. }
  set (st := snd (vrun N pre [])) in *. cbn [vstep] in *.
  destruct (v_get N st x) as [p|e|u] eqn:E; cbn [bind adds fst] in *; try discriminate.
  pose proof (sound_clone p (sound_get _ _ _ S E)) as Sc. destruct (p_clone N p) as [c|e|u]; cbn [adds fst snd] in *; try discriminate. rewrite (Sc c eq_refl).
  unfold v_get, at_ in *. cbn [fst snd]. destruct (nth_error st (fst x)) as [r|] eqn:En; cbn [bind] in E; [|discriminate].
  rewrite nth_error_app2, Nat.sub_diag by lia. cbn [nth_error bind]. rewrite nth_error_app1 by (apply nth_error_Some; congruence). rewrite En. cbn [bind]. rewrite v_at_app, E. reflexivity.
Qed.

(** Example: a composite of three IntParameters is cloned; the original is decoded, checked and set, the parameter it was
    built from too; the clone still gives the old value. *)
Definition ex_pre : list (call N) :=
  [NewInt N 5 0 10; NewInt N 1 0 3; NewComposite N; Initialize N (2%nat, []) [(0%nat, []); (1%nat, []); (0%nat, [])]; SetInt N (2%nat, [1%nat]) 2].
Definition ex_mid : list (call N) :=
  [SetInt N (2%nat, [0%nat]) 7; SetInt N (0%nat, []) 3; Initialize N (2%nat, []) [(1%nat, [])]; SetInt N (2%nat, [5%nat]) 7; CheckConstraints N (2%nat, []);
   SetFromChromosome N (2%nat, []) [true; true]; NewComposite N; CheckConstraints N (4%nat, []); InitializeN N (4%nat, []) (3%nat, []) 2].
Definition ex_ask : call N := GetInt N (3%nat, [1%nat]).
Ltac all_defined := intros u Hu; vm_compute in Hu; repeat (destruct Hu as [Hu|Hu]; [discriminate|]); exact Hu.
Theorem C10_example_clone :
  let made := ex_pre ++ [Clone N (2%nat, [])] in
  answer made = Some (Ok (RUnit N)) /\ defined (made ++ [ex_ask]) /\ defined (made ++ ex_mid ++ [ex_ask]) /\ created ex_pre = 3%nat /\
  initialised_once ex_pre /\ (forall c, In c ex_mid -> target c <> Some 3%nat) /\ looks_at 3 ex_ask /\
  answer (made ++ [ex_ask]) = Some (Ok (RZ N 2)) /\ answer (made ++ ex_mid ++ [ex_ask]) = Some (Ok (RZ N 2)) /\
  fst (hrun N ex_mid (snd (hrun N made (empty_state N)))) =
    [Ok (RUnit N); Ok (RUnit N); Throw LogicError; Throw OutOfRange; Ok (RBool N true); Throw InvalidArgument; Ok (RUnit N); Throw LogicError; Ok (RUnit N)].
Proof.
  cbv zeta. split; [vm_compute; reflexivity|]. split; [all_defined|]. split; [all_defined|]. split; [vm_compute; reflexivity|].
  split; [intros c o H Hc; vm_compute in H; repeat (destruct H as [H|H]; [inversion H; subst; discriminate || reflexivity|]); contradiction|].
  split; [|split; [reflexivity|split; [vm_compute; reflexivity|split; vm_compute; reflexivity]]].
  intros c H. cbn [ex_mid In] in H. repeat (destruct H as [<-|H]; [discriminate|]). contradiction.
Qed.
End Independence.
Print Assumptions C10_value_semantics.
Print Assumptions C10_independent.
Print Assumptions C10_clone_independent.
Print Assumptions C10_clone_answers.
Print Assumptions C10_example_clone.
