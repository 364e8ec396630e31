(** C78: const calls on DoubleParametersArray objects from several threads. *)
From Flocq Require Import Core.Core IEEE754.BinarySingleNaN.
From Verif Require Import Base Num Params ParamsSpec IntProofs DoubleProofs FDoubleProofs ArrShared.
Local Open Scope nat_scope.
Local Open Scope list_scope.

Section Arr.
Variable N : Num.
Notation arr := (DoubleArr N).
Notation objects := (objects N).
Notation ares := (ares N).
Notation athread := (athread N).
Notation astep := (astep N).
Notation arun := (arun N).
Notation ainit := (ainit N).

(** *** Specification *)
(** what the calls of one thread give when nobody else runs: the sequential functions of Params.v (C04-C10) *)
Fixpoint expected (m : objects) (P : list aop) : list ares :=
  match P with
  | [] => []
  | Check k :: r => match m k with None => NoObject N | Some a => Answer N (da_check N a) end :: expected m r
  | Encode k range :: r => match m k with None => NoObject N | Some a => Bits N (da_set_chromosome N a range) end :: expected m r
  | Values k :: r => match m k with None => NoObject N | Some a => Held N (da_values N a) end :: expected m r
  | Clone k j :: r =>
      match m k with
      | None => NoObject N :: expected m r
      | Some a => match da_clone N a with
                  | Ok b => Cloned N (Ok tt) :: expected (fun i => if Nat.eqb i j then Some b else m i) r
                  | Throw e => Cloned N (Throw e) :: expected m r
                  | UB u => Cloned N (UB u) :: expected m r
                  end
      end
  end.
Definition finished (t : athread) : Prop := at_prog N t = [] /\ at_pc N t = Idle.
(** no program makes [k] name a new object *)
Definition untouched (programs : list (list aop)) (k : nat) : Prop := forall P j, In P programs -> ~ In (Clone j k) P.
(** Every object is checked, encoded and assigned by its own thread only; objects that are never assigned may be cloned and read by everybody. *)
Definition private (user : nat -> nat) (programs : list (list aop)) : Prop := forall i P op, nth_error programs i = Some P -> In op P ->
  match op with
  | Check k | Encode k _ => user k = i
  | Values k => user k = i \/ untouched programs k
  | Clone k j => user j = i /\ (user k = i \/ untouched programs k)
  end.

(** *** Objects that differ in the sample's value only *)
Definition base_same (b c : option IntParam) : Prop :=
  match b, c with None, None => True | Some p, Some q => ip_min p = ip_min q /\ ip_max p = ip_max q /\ ip_size p = ip_size q | _, _ => False end.
Definition dsame (s s' : DoubleParam N) : Prop :=
  base_same (dp_base N s) (dp_base N s') /\ dp_min N s = dp_min N s' /\ dp_max N s = dp_max N s' /\ dp_prec N s = dp_prec N s' /\ dp_size N s = dp_size N s'.
Definition same (a b : arr) : Prop := dsame (da_sample N a) (da_sample N b) /\ da_values N a = da_values N b /\ da_size N a = da_size N b.
Definition osame (a b : option arr) : Prop := match a, b with None, None => True | Some x, Some y => same x y | _, _ => False end.
Lemma base_same_refl b : base_same b b. Proof. destruct b; cbn; auto. Qed.
Lemma base_same_trans a b c : base_same a b -> base_same b c -> base_same a c.
Proof. destruct a, b, c; cbn; try contradiction; auto. intros (? & ? & ?) (? & ? & ?). repeat split; congruence. Qed.
Lemma base_same_sym a b : base_same a b -> base_same b a.
Proof. destruct a, b; cbn; auto. intros (? & ? & ?). repeat split; congruence. Qed.
Lemma dsame_refl s : dsame s s. Proof. unfold dsame. pose proof (base_same_refl (dp_base N s)). tauto. Qed.
Lemma dsame_trans a b c : dsame a b -> dsame b c -> dsame a c.
Proof. unfold dsame. intros (B & ? & ? & ? & ?) (C & ? & ? & ? & ?). split; [exact (base_same_trans _ _ _ B C)|repeat split; congruence]. Qed.
Lemma dsame_sym a b : dsame a b -> dsame b a.
Proof. unfold dsame. intros (B & ? & ? & ? & ?). split; [exact (base_same_sym _ _ B)|repeat split; congruence]. Qed.
Lemma same_refl a : same a a. Proof. unfold same. pose proof (dsame_refl (da_sample N a)). tauto. Qed.
Lemma same_trans a b c : same a b -> same b c -> same a c.
Proof. unfold same. intros (B & ? & ?) (C & ? & ?). split; [exact (dsame_trans _ _ _ B C)|split; congruence]. Qed.
Lemma same_sym a b : same a b -> same b a.
Proof. unfold same. intros (B & ? & ?). split; [exact (dsame_sym _ _ B)|split; congruence]. Qed.
Lemma osame_refl a : osame a a. Proof. destruct a; cbn; auto using same_refl. Qed.
Lemma osame_trans a b c : osame a b -> osame b c -> osame a c.
Proof. destruct a, b, c; cbn; try contradiction; eauto using same_trans. Qed.

Lemma set_value_same s s' v : dsame s s' -> dp_set_value N s v = dp_set_value N s' v.
Proof.
  destruct s as [b mn mx pr z], s' as [b' mn' mx' pr' z']. unfold dsame; cbn. intros (B & -> & -> & -> & ->). unfold dp_set_value; cbn. destruct (dp_quantise N mn' pr' v); cbn; try reflexivity.
  destruct b as [[v0 a0 c0 d0]|], b' as [[v1 a1 c1 d1]|]; cbn in *; try contradiction; try reflexivity. destruct B as (-> & -> & ->). reflexivity.
Qed.
Lemma set_value_dsame s v s' : dp_set_value N s v = Ok s' -> dsame s' s.
Proof.
  destruct s as [b mn mx pr z]. unfold dp_set_value; cbn. destruct (dp_quantise N mn pr v); cbn; try discriminate. destruct b as [[v0 a0 c0 d0]|]; [|discriminate]. intro E. injection E as <-. unfold dsame; cbn. tauto.
Qed.
Lemma check_loop_same s s' vs : dsame s s' -> da_check_loop N s vs = da_check_loop N s' vs.
Proof. destruct vs as [|v r]; intro D; [reflexivity|]. cbn [da_check_loop]. rewrite (set_value_same _ _ v D). reflexivity. Qed.
Lemma encode_loop_same s s' g vs rest : dsame s s' -> da_encode_loop N s g vs rest = da_encode_loop N s' g vs rest.
Proof. destruct vs as [|v r]; intro D; [reflexivity|]. cbn [da_encode_loop]. rewrite (set_value_same _ _ v D). reflexivity. Qed.
Lemma clone_same a a' : same a a' -> match da_clone N a, da_clone N a' with Ok b, Ok b' => same b b' | Throw e, Throw e' => e = e' | UB u, UB u' => u = u' | _, _ => False end.
Proof.
  destruct a as [[b mn mx pr z] vs n], a' as [[b' mn' mx' pr' z'] vs' n']. unfold same, dsame; cbn. intros ((B & -> & -> & -> & ->) & -> & ->). unfold da_clone, dp_clone; cbn.
  destruct b as [[v0 a0 c0 d0]|], b' as [[v1 a1 c1 d1]|]; cbn in *; try contradiction.
  - destruct B as (-> & -> & ->). unfold ip_clone, ip_make; cbn. destruct (count_chromosome_size a1 c1); cbn; try reflexivity. destruct z'; cbn; [|reflexivity]. repeat split; cbn; auto.
  - destruct z'; cbn; [|reflexivity]. repeat split; cbn; auto.
Qed.
Lemma with_sample_same a s : dsame s (da_sample N a) -> same (with_sample N a s) a.
Proof. intro D. unfold same, with_sample; cbn. auto. Qed.

(** *** What one step can change *)
Definition uses (user : nat -> nat) (programs : list (list aop)) (i : nat) (op : aop) : Prop :=
  match op with
  | Check k | Encode k _ => user k = i
  | Values k => user k = i \/ untouched programs k
  | Clone k j => user j = i /\ (user k = i \/ untouched programs k) /\ ~ untouched programs j
  end.
(** the pc belongs to the call at the head of the program *)
Definition pc_ok (t : athread) : Prop :=
  match at_pc N t with
  | Idle => True
  | CheckSet k _ | CheckRead k _ => exists r, at_prog N t = Check k :: r
  | EncodeSet k _ _ _ | EncodeRead k _ _ _ => exists range r, at_prog N t = Encode k range :: r
  end.
Ltac some_obj := repeat match goal with
  | |- context [match ?x with _ => _ end] => lazymatch x with context [match _ with _ => _ end] => fail | _ => destruct x eqn:? end
  end.
Lemma step_pc_ok m t : pc_ok t -> pc_ok (snd (astep m t)).
Proof.
  unfold pc_ok, ArrShared.astep. intro H. destruct t as [P pc dn]. cbn in *. destruct pc as [|k i|k i|k i w r|k i w r].
  - destruct P as [|[k|k rg|k|k j] P]; cbn; [exact I|..].
    + destruct (m k); cbn; [eauto|exact I].
    + destruct (m k) as [a|]; cbn; [|exact I]. destruct (bind _ _); cbn; eauto.
    + destruct (m k); cbn; exact I.
    + destruct (m k) as [a|]; cbn; [|exact I]. destruct (da_clone N a); cbn; exact I.
  - destruct (m k) as [a|]; cbn; [|exact I]. destruct (nth_error _ _); cbn; [|exact I]. destruct (dp_set_value _ _ _); cbn; auto.
  - destruct (m k) as [a|]; cbn; [|exact I]. destruct (dp_check _ _) as [[]| |]; cbn; auto.
  - destruct (m k) as [a|]; cbn; [|exact I]. destruct (nth_error _ _); cbn; [|exact I]. destruct (dp_set_value _ _ _); cbn; auto.
  - destruct (m k) as [a|]; cbn; [|exact I]. destruct (dp_set_chromosome _ _ _); cbn; auto.
Qed.
(** A step leaves the objects of other threads alone, and changes at most the sample of those that are not assigned. *)
Lemma step_frame user programs j m t : pc_ok t -> (forall op, In op (at_prog N t) -> uses user programs j op) ->
  (forall k, user k <> j -> fst (astep m t) k = m k) /\ (forall k, untouched programs k -> osame (fst (astep m t) k) (m k)).
Proof.
  intros W U. destruct t as [P pc dn]. unfold pc_ok, ArrShared.astep in *. cbn in *. destruct pc as [|k i|k i|k i w r|k i w r].
  - destruct P as [|[k|k rg|k|k l] P]; cbn; try (split; auto using osame_refl; fail).
    + destruct (m k); cbn; split; auto using osame_refl.
    + destruct (m k) as [a|]; cbn; [|split; auto using osame_refl]. destruct (bind _ _); cbn; split; auto using osame_refl.
    + destruct (m k); cbn; split; auto using osame_refl.
    + destruct (U (Clone k l)) as (Ul & _ & Nl); [left; reflexivity|]. destruct (m k) as [a|]; cbn; [|split; auto using osame_refl].
      destruct (da_clone N a); cbn; split; auto using osame_refl; intros q Hq; unfold set_obj; destruct (Nat.eqb_spec q l) as [->|]; auto using osame_refl; [congruence|contradiction].
  - destruct W as [r ->]. pose proof (U (Check k) (or_introl eq_refl)) as Uk. cbn in Uk. destruct (m k) as [a|] eqn:Ek; cbn; [|split; auto using osame_refl].
    destruct (nth_error _ _); cbn; [|split; auto using osame_refl]. destruct (dp_set_value _ _ _) eqn:Ev; cbn; split; auto using osame_refl; intros q Hq; unfold set_obj; destruct (Nat.eqb_spec q k) as [->|]; auto using osame_refl; [congruence|].
    rewrite Ek. cbn. apply with_sample_same. exact (set_value_dsame _ _ _ Ev).
  - destruct (m k) as [a|]; cbn; [|split; auto using osame_refl]. destruct (dp_check _ _) as [[]| |]; cbn; split; auto using osame_refl.
  - destruct W as (rg & r' & ->). pose proof (U (Encode k rg) (or_introl eq_refl)) as Uk. cbn in Uk. destruct (m k) as [a|] eqn:Ek; cbn; [|split; auto using osame_refl].
    destruct (nth_error _ _); cbn; [|split; auto using osame_refl]. destruct (dp_set_value _ _ _) eqn:Ev; cbn; split; auto using osame_refl; intros q Hq; unfold set_obj; destruct (Nat.eqb_spec q k) as [->|]; auto using osame_refl; [congruence|].
    rewrite Ek. cbn. apply with_sample_same. exact (set_value_dsame _ _ _ Ev).
  - destruct (m k) as [a|]; cbn; [|split; auto using osame_refl]. destruct (dp_set_chromosome _ _ _); cbn; split; auto using osame_refl.
Qed.

(** *** The invariant of a thread that has its objects to itself *)
Section Private.
Variable user : nat -> nat.
Variable programs : list (list aop).
Variable m0 : objects.
Definition shape (m mi : objects) (t : athread) (pend : list ares) : Prop :=
  match at_pc N t with
  | Idle => pend = expected mi (at_prog N t)
  | CheckSet k n => exists a r, at_prog N t = Check k :: r /\ mi k = Some a /\ pend = Answer N (da_check_loop N (da_sample N a) (skipn n (da_values N a))) :: expected mi r
  | CheckRead k n => exists a a' r, at_prog N t = Check k :: r /\ mi k = Some a /\ m k = Some a' /\
      pend = Answer N (let! b := dp_check N (da_sample N a') in if b then da_check_loop N (da_sample N a') (skipn (S n) (da_values N a)) else Ok false) :: expected mi r
  | EncodeSet k n w rest => exists a r range g, at_prog N t = Encode k range :: r /\ mi k = Some a /\ dp_size N (da_sample N a) = Some g /\
      pend = Bits N (let! c := da_encode_loop N (da_sample N a) g (skipn n (da_values N a)) rest in Ok (w ++ c)) :: expected mi r
  | EncodeRead k n w rest => exists a a' r range g, at_prog N t = Encode k range :: r /\ mi k = Some a /\ m k = Some a' /\ dp_size N (da_sample N a) = Some g /\
      pend = Bits N (let! c := dp_set_chromosome N (da_sample N a') (firstn g rest) in
                     let! cs := da_encode_loop N (da_sample N a') g (skipn (S n) (da_values N a)) (skipn g rest) in Ok (w ++ c ++ cs)) :: expected mi r
  end.
Definition tinv (i : nat) (m : objects) (t : athread) (P : list aop) : Prop := pc_ok t /\ (forall op, In op (at_prog N t) -> uses user programs i op) /\
  exists mi pend, (forall k, user k = i \/ untouched programs k -> osame (m k) (mi k)) /\ shape m mi t pend /\ at_done N t ++ pend = expected m0 P.

Lemma skipn_nth {A} (l : list A) n x : nth_error l n = Some x -> skipn n l = x :: skipn (S n) l.
Proof. revert n; induction l as [|y l IH]; intros [|n] H; try discriminate; [injection H as ->; reflexivity|]. cbn [nth_error] in H. cbn [skipn]. rewrite (IH n H). reflexivity. Qed.
Lemma skipn_more {A} (l : list A) x y : skipn x (skipn y l) = skipn (y + x) l.
Proof. revert l; induction y as [|y IH]; intro l; [reflexivity|]. destruct l; [rewrite !skipn_nil; reflexivity|]. cbn. apply IH. Qed.
Lemma skipn_none {A} (l : list A) n : nth_error l n = None -> skipn n l = [].
Proof. intro H. apply skipn_all2. apply nth_error_None. exact H. Qed.

Lemma done_step t r rest : (at_done N t ++ [r]) ++ rest = at_done N t ++ r :: rest.
Proof. rewrite <- app_assoc. reflexivity. Qed.
Lemma own_step i m t P : tinv i m t P -> tinv i (fst (astep m t)) (snd (astep m t)) P.
Proof.
  intros (W & U & mi & pend & G & S & E). split; [exact (step_pc_ok m t W)|].
  destruct t as [Q pc dn]. unfold shape in S. unfold pc_ok in W. cbn [at_prog at_pc at_done] in *.
  assert (Fin : forall m' r Q0 pend0, Q = Q0 -> pend = r :: pend0 -> (exists mi', (forall k, user k = i \/ untouched programs k -> osame (m' k) (mi' k)) /\ pend0 = expected mi' (tl Q)) ->
    (forall op, In op (at_prog N (finish N (MkAT N Q pc dn) r)) -> uses user programs i op) /\
    exists mi' pend', (forall k, user k = i \/ untouched programs k -> osame (m' k) (mi' k)) /\ shape m' mi' (finish N (MkAT N Q pc dn) r) pend' /\ at_done N (finish N (MkAT N Q pc dn) r) ++ pend' = expected m0 P).
  { intros m' r Q0 pend0 -> -> (mi' & G' & E'). split; [intros op Ho; apply U; cbn in Ho; destruct Q0; [destruct Ho|right; exact Ho]|]. exists mi', pend0. split; [exact G'|]. split; [unfold shape; cbn; exact E'|]. cbn. rewrite <- app_assoc. exact E. }
  destruct pc as [|k n|k n|k n w rest|k n w rest].
  - (* a call starts *)
    destruct Q as [|[k|k rg|k|k l] Q].
    + unfold ArrShared.astep; cbn. split; [exact U|]. exists mi, pend. unfold shape; cbn. auto.
    + pose proof (U _ (or_introl eq_refl)) as Uk. cbn in Uk. pose proof (G k (or_introl Uk)) as Gk. cbn in S. unfold ArrShared.astep; cbn.
      destruct (m k) as [a'|] eqn:Em, (mi k) as [a|] eqn:Ei; cbn in Gk; try contradiction; cbn [fst snd].
      * split; [exact U|]. exists mi, pend. split; [exact G|]. split; [|exact E]. unfold shape; cbn. exists a, Q. repeat split; auto.
      * eapply Fin; [reflexivity|exact S|]. exists mi. auto.
    + pose proof (U _ (or_introl eq_refl)) as Uk. cbn in Uk. pose proof (G k (or_introl Uk)) as Gk. cbn in S. unfold ArrShared.astep; cbn.
      destruct (m k) as [a'|] eqn:Em, (mi k) as [a|] eqn:Ei; cbn in Gk; try contradiction; cbn [fst snd].
      * destruct Gk as ((B & D1 & D2 & D3 & D4) & Vs & Sz). unfold da_set_chromosome in S. rewrite Sz, D4. destruct (cs_check (da_size N a) (length rg)) as [[]|e|u]; cbn [bind] in *.
        -- destruct (dp_size N (da_sample N a)) as [g|] eqn:Eg; cbn [cs_get bind] in *.
           ++ cbn [fst snd]. split; [exact U|]. exists mi, pend. split; [exact G|]. split; [|exact E]. unfold shape; cbn. exists a, Q, rg, g. repeat split; auto. rewrite S.
              destruct (da_encode_loop N (da_sample N a) g (da_values N a) rg); reflexivity.
           ++ cbn [fst snd]. eapply Fin; [reflexivity|exact S|]. exists mi. auto.
        -- cbn [fst snd]. eapply Fin; [reflexivity|exact S|]. exists mi. auto.
        -- cbn [fst snd]. eapply Fin; [reflexivity|exact S|]. exists mi. auto.
      * eapply Fin; [reflexivity|exact S|]. exists mi. auto.
    + pose proof (U _ (or_introl eq_refl)) as Uk. cbn in Uk. pose proof (G k Uk) as Gk. cbn in S. unfold ArrShared.astep; cbn.
      destruct (m k) as [a'|] eqn:Em, (mi k) as [a|] eqn:Ei; cbn in Gk; try contradiction; cbn [fst snd].
      * destruct Gk as (_ & Vs & _). rewrite Vs. eapply Fin; [reflexivity|exact S|]. exists mi. auto.
      * eapply Fin; [reflexivity|exact S|]. exists mi. auto.
    + pose proof (U _ (or_introl eq_refl)) as Uk. cbn in Uk. destruct Uk as (Ul & Uk & Nl). pose proof (G k Uk) as Gk. cbn in S. unfold ArrShared.astep; cbn.
      destruct (m k) as [a'|] eqn:Em, (mi k) as [a|] eqn:Ei; cbn in Gk; try contradiction; cbn [fst snd].
      * pose proof (clone_same _ _ Gk) as C. destruct (da_clone N a') as [b'|e'|u'], (da_clone N a) as [b|e|u]; try contradiction; cbn [fst snd omap]; subst.
        -- eapply Fin; [reflexivity|reflexivity|]. exists (fun i => if Nat.eqb i l then Some b else mi i). split; [|reflexivity].
           intros q Hq. unfold set_obj. destruct (Nat.eqb_spec q l) as [->|]; [exact C|exact (G q Hq)].
        -- eapply Fin; [reflexivity|reflexivity|]. exists mi. auto.
        -- eapply Fin; [reflexivity|reflexivity|]. exists mi. auto.
      * eapply Fin; [reflexivity|exact S|]. exists mi. auto.
  - (* CheckSet *)
    destruct S as (a & r & -> & Ei & S). pose proof (U _ (or_introl eq_refl)) as Uk. cbn in Uk. pose proof (G k (or_introl Uk)) as Gk. rewrite Ei in Gk. unfold ArrShared.astep; cbn.
    destruct (m k) as [a'|] eqn:Em; cbn in Gk; [|contradiction]. pose proof Gk as (D & Vs & Sz). rewrite Vs. destruct (nth_error (da_values N a) n) as [v|] eqn:Ev.
    + rewrite (skipn_nth _ _ _ Ev) in S. cbn [da_check_loop] in S. rewrite (set_value_same _ _ v D). destruct (dp_set_value N (da_sample N a) v) as [s|e|u] eqn:Es; cbn [bind] in S; cbn [fst snd].
      * split; [exact U|]. exists mi, pend. split; [|split; [|exact E]].
        -- intros q Hq. unfold set_obj. destruct (Nat.eqb_spec q k) as [->|]; [|exact (G q Hq)]. rewrite Ei. cbn. apply same_trans with a'; [|exact Gk]. apply with_sample_same.
           apply dsame_trans with (da_sample N a); [exact (set_value_dsame _ _ _ Es)|apply dsame_sym; exact D].
        -- unfold shape; cbn. exists a, (with_sample N a' s), r. repeat split; auto. unfold set_obj. rewrite Nat.eqb_refl. reflexivity.
      * eapply Fin; [reflexivity|exact S|]. exists mi. auto.
      * eapply Fin; [reflexivity|exact S|]. exists mi. auto.
    + rewrite (skipn_none _ _ Ev) in S. cbn [fst snd]. eapply Fin; [reflexivity|exact S|]. exists mi. auto.
  - (* CheckRead *)
    destruct S as (a & a' & r & -> & Ei & Em & S). pose proof (U _ (or_introl eq_refl)) as Uk. cbn in Uk. pose proof (G k (or_introl Uk)) as Gk. rewrite Ei, Em in Gk. cbn in Gk. unfold ArrShared.astep; cbn. rewrite Em.
    destruct (dp_check N (da_sample N a')) as [[]|e|u] eqn:Ec; cbn [bind] in S; cbn [fst snd].
    + split; [exact U|]. exists mi, pend. split; [exact G|]. split; [|exact E]. unfold shape; cbn. exists a, r. repeat split; auto. rewrite S. f_equal. f_equal. apply check_loop_same. apply Gk.
    + eapply Fin; [reflexivity|exact S|]. exists mi. auto.
    + eapply Fin; [reflexivity|exact S|]. exists mi. auto.
    + eapply Fin; [reflexivity|exact S|]. exists mi. auto.
  - (* EncodeSet *)
    destruct S as (a & r & rg & g & -> & Ei & Eg & S). pose proof (U _ (or_introl eq_refl)) as Uk. cbn in Uk. pose proof (G k (or_introl Uk)) as Gk. rewrite Ei in Gk. unfold ArrShared.astep; cbn.
    destruct (m k) as [a'|] eqn:Em; cbn in Gk; [|contradiction]. pose proof Gk as (D & Vs & Sz). rewrite Vs. destruct (nth_error (da_values N a) n) as [v|] eqn:Ev.
    + rewrite (skipn_nth _ _ _ Ev) in S. cbn [da_encode_loop] in S. rewrite (set_value_same _ _ v D). destruct (dp_set_value N (da_sample N a) v) as [s|e|u] eqn:Es; cbn [bind] in S; cbn [fst snd].
      * split; [exact U|]. exists mi, pend. split; [|split; [|exact E]].
        -- intros q Hq. unfold set_obj. destruct (Nat.eqb_spec q k) as [->|]; [|exact (G q Hq)]. rewrite Ei. cbn. apply same_trans with a'; [|exact Gk]. apply with_sample_same.
           apply dsame_trans with (da_sample N a); [exact (set_value_dsame _ _ _ Es)|apply dsame_sym; exact D].
        -- unfold shape, goto; cbn [at_pc at_prog]. exists a, (with_sample N a' s), r, rg, g. repeat split; auto; [unfold set_obj; rewrite Nat.eqb_refl; reflexivity|]. rewrite S. cbn [with_sample da_sample].
           destruct (dp_set_chromosome N s (firstn g rest)); cbn [bind]; try reflexivity. destruct (da_encode_loop N s g (skipn (Datatypes.S n) (da_values N a)) (skipn g rest)); reflexivity.
      * eapply Fin; [reflexivity|exact S|]. exists mi. auto.
      * eapply Fin; [reflexivity|exact S|]. exists mi. auto.
    + rewrite (skipn_none _ _ Ev) in S. cbn [fst snd]. eapply Fin; [reflexivity|exact S|]. exists mi. auto.
  - (* EncodeRead *)
    destruct S as (a & a' & r & rg & g & -> & Ei & Em & Eg & S). pose proof (U _ (or_introl eq_refl)) as Uk. cbn in Uk. pose proof (G k (or_introl Uk)) as Gk. rewrite Ei, Em in Gk. cbn in Gk. unfold ArrShared.astep; cbn. rewrite Em.
    replace (dp_size N (da_sample N a')) with (Some g) by (rewrite <- Eg; symmetry; apply Gk).
    destruct (dp_set_chromosome N (da_sample N a') (firstn g rest)) as [c|e|u] eqn:Ec; cbn [bind] in S; cbn [fst snd].
    + split; [exact U|]. exists mi, pend. split; [exact G|]. split; [|exact E]. unfold shape, goto; cbn [at_pc at_prog]. exists a, r, rg, g. repeat split; auto. rewrite S. f_equal. f_equal.
      rewrite (encode_loop_same (da_sample N a') (da_sample N a) g _ _ (proj1 Gk)). destruct (da_encode_loop N (da_sample N a) g (skipn (Datatypes.S n) (da_values N a)) (skipn g rest)); cbn [bind]; try reflexivity. rewrite <- app_assoc. reflexivity.
    + eapply Fin; [reflexivity|exact S|]. exists mi. auto.
    + eapply Fin; [reflexivity|exact S|]. exists mi. auto.
Qed.
(** a step of another thread *)
Lemma other_step i j m u t P : i <> j -> tinv i m t P -> pc_ok u -> (forall op, In op (at_prog N u) -> uses user programs j op) -> tinv i (fst (astep m u)) t P.
Proof.
  intros Nij (W & U & mi & pend & G & S & E) Wu Uu. split; [exact W|]. split; [exact U|]. destruct (step_frame user programs j m u Wu Uu) as [F1 F2]. exists mi, pend. split; [|split; [|exact E]].
  - intros k [Hk|Hk]; [rewrite F1 by congruence; apply G; auto|]. apply osame_trans with (m k); [apply F2; exact Hk|apply G; auto].
  - unfold shape in *. destruct t as [Q pc dn]. unfold pc_ok in *. cbn in *. destruct pc as [|k n|k n|k n w rest|k n w rest]; auto.
    + destruct S as (a & a' & r & HQ & Ei & Em & S). exists a, a', r. repeat split; auto. rewrite F1; [exact Em|]. pose proof (U (Check k)) as X. rewrite HQ in X. specialize (X (or_introl eq_refl)). cbn in X. congruence.
    + destruct S as (a & a' & r & rg & g & HQ & Ei & Em & S). exists a, a', r, rg, g. repeat split; try tauto. rewrite F1; [exact Em|]. pose proof (U (Encode k rg)) as X. rewrite HQ in X. specialize (X (or_introl eq_refl)). cbn in X. congruence.
Qed.
Definition all_inv (s : astate N) : Prop := length (as_threads N s) = length programs /\ forall i t P, nth_error (as_threads N s) i = Some t -> nth_error programs i = Some P -> tinv i (as_objs N s) t P.
Lemma all_inv_step s j : all_inv s -> all_inv (asched1 N s j).
Proof.
  intros [L H]. unfold asched1. destruct (nth_error (as_threads N s) j) as [u|] eqn:Eu; [|split; assumption]. destruct (astep (as_objs N s) u) as [m' u'] eqn:Es.
  split; [cbn; rewrite upd_length; exact L|]. intros i t P Ht HP. cbn [as_objs as_threads] in *. rewrite nth_error_upd in Ht. destruct (Nat.eqb_spec j i) as [->|Nij].
  - destruct (Nat.ltb_spec i (length (as_threads N s))); [|discriminate]. injection Ht as <-. pose proof (own_step i _ u P (H i u P Eu HP)) as X. rewrite Es in X. exact X.
  - assert (j < length programs) as Hj by (rewrite <- L; apply nth_error_Some; congruence). destruct (nth_error programs j) as [Pj|] eqn:Ej; [|apply nth_error_None in Ej; lia].
    destruct (H j u Pj Eu Ej) as (Wu & Uu & _). pose proof (other_step i j _ u t P (fun e => Nij (eq_sym e)) (H i t P Ht HP) Wu Uu) as X. rewrite Es in X. exact X.
Qed.
End Private.

(** Whatever the schedule, a thread whose objects nobody else checks, encodes or assigns gets from every call what it would get alone; in particular threads may work on
    their own clones of a common object, also while its own thread is using that object. *)
Theorem C78_private : forall user programs m0 schedule, private user programs ->
  forall i t P, nth_error (as_threads N (arun schedule (ainit m0 programs))) i = Some t -> nth_error programs i = Some P ->
  exists rest, expected m0 P = at_done N t ++ rest /\ (finished t -> rest = []).
Proof.
  intros user programs m0 schedule Pr.
  assert (I0 : all_inv user programs m0 (ainit m0 programs)).
  { split; [cbn; apply map_length|]. intros i t P Ht HP. cbn in Ht. rewrite nth_error_map, HP in Ht. injection Ht as <-. split; [exact I|]. split.
    - cbn. intros op Ho. specialize (Pr i P op HP Ho). unfold uses. destruct op as [k|k rg|k|k j]; try exact Pr. destruct Pr as [A B]. split; [exact A|]. split; [exact B|]. intro Un. exact (Un P k (nth_error_In _ _ HP) Ho).
    - exists m0, (expected m0 P). repeat split; auto using osame_refl. }
  assert (I1 : all_inv user programs m0 (arun schedule (ainit m0 programs))).
  { unfold ArrShared.arun. revert I0. generalize (ainit m0 programs). induction schedule as [|j r IH]; intros s I0; [exact I0|]. cbn. apply IH. apply all_inv_step. exact I0. }
  intros i t P Ht HP. destruct (proj2 I1 i t P Ht HP) as (_ & _ & mi & pend & _ & S & E). exists pend. split; [symmetry; exact E|]. intros [F1 F2]. unfold shape in S. rewrite F2, F1 in S. exact S.
Qed.

(** *** Several threads on the same object *)
(** the single value [v] is (not) within the bounds; its bits *)
Definition within (a : arr) (v : num N) (b : bool) : Prop := exists s, dp_set_value N (da_sample N a) v = Ok s /\ dp_check N s = Ok b.
Definition encodes (a : arr) (v : num N) (old c : chromosome) : Prop := exists s, dp_set_value N (da_sample N a) v = Ok s /\ dp_set_chromosome N s old = Ok c.
(** an array whose elements of [g] bits can each be set, checked and encoded *)
Definition sane (a : arr) (g : nat) : Prop := dp_size N (da_sample N a) = Some g /\ da_size N a = Some (g * length (da_values N a)) /\
  forall v, In v (da_values N a) -> (exists b, within a v b) /\ forall old, length old = g -> exists c, encodes a v old c /\ length c = g.
Definition queries (P : list aop) : Prop := forall k j, ~ In (Clone k j) P.
(** what a call may give when others use the object: CheckConstraints judges each element by some element, SetChromosome writes some element in each place *)
Definition acceptable (m0 : objects) (g : nat) (op : aop) (r : ares) : Prop :=
  match op with
  | Check k => match m0 k with None => r = NoObject N | Some a => exists b, r = Answer N (Ok b) /\
      (b = false -> exists v, In v (da_values N a) /\ within a v false) /\ (b = true -> da_values N a = [] \/ exists v, In v (da_values N a) /\ within a v true) end
  | Encode k range => match m0 k with None => r = NoObject N | Some a =>
      if Nat.eqb (length range) (g * length (da_values N a)) then exists c, r = Bits N (Ok c) /\ length c = length range /\
        forall i, i < length (da_values N a) -> exists v, In v (da_values N a) /\ encodes a v (slice g i range) (slice g i c)
      else r = Bits N (Throw InvalidArgument) end
  | Values k => match m0 k with None => r = NoObject N | Some a => r = Held N (da_values N a) end
  | Clone _ _ => False
  end.

Section Shared.
Variable m0 : objects.
Variable g : nat.
Hypothesis all_sane : forall k a, m0 k = Some a -> sane a g.
Definition objs_ok (m : objects) : Prop := forall k, osame (m k) (m0 k).
Definition loaded (m : objects) (k : nat) (a : arr) : Prop := exists a' v, m k = Some a' /\ In v (da_values N a) /\ dp_set_value N (da_sample N a) v = Ok (da_sample N a').
Definition sshape (m : objects) (t : athread) : Prop :=
  match at_pc N t with
  | Idle => True
  | CheckSet k i => exists a r, at_prog N t = Check k :: r /\ m0 k = Some a /\ i <= length (da_values N a) /\ (i = 0 \/ exists v, In v (da_values N a) /\ within a v true)
  | CheckRead k i => exists a r, at_prog N t = Check k :: r /\ m0 k = Some a /\ i < length (da_values N a) /\ loaded m k a
  | EncodeSet k i w rest => exists a r range, at_prog N t = Encode k range :: r /\ m0 k = Some a /\ length range = g * length (da_values N a) /\ i <= length (da_values N a) /\
      length w = i * g /\ rest = skipn (i * g) range /\ forall j, j < i -> exists v, In v (da_values N a) /\ encodes a v (slice g j range) (slice g j w)
  | EncodeRead k i w rest => exists a r range, at_prog N t = Encode k range :: r /\ m0 k = Some a /\ length range = g * length (da_values N a) /\ i < length (da_values N a) /\
      length w = i * g /\ rest = skipn (i * g) range /\ (forall j, j < i -> exists v, In v (da_values N a) /\ encodes a v (slice g j range) (slice g j w)) /\ loaded m k a
  end.
Definition sinv (m : objects) (t : athread) (P : list aop) : Prop := queries P /\ (exists pre, P = pre ++ at_prog N t /\ Forall2 (acceptable m0 g) pre (at_done N t)) /\ sshape m t.

Lemma slice_app {A} (w c : list A) (i j : nat) : length w = i * g -> length c = g -> (j < i -> slice g j (w ++ c) = slice g j w) /\ slice g i (w ++ c) = c.
Proof.
  intros Lw Lc. unfold slice. split.
  - intro Hj. rewrite skipn_app, firstn_app. replace (g - length (skipn (j * g) w)) with 0. 2:{ rewrite skipn_length, Lw. nia. } rewrite firstn_O, app_nil_r. reflexivity.
  - rewrite skipn_app, <- Lw, Nat.sub_diag, skipn_all2 by lia. cbn. rewrite <- Lc. apply firstn_all.
Qed.
Lemma shared_step m t P : objs_ok m -> sinv m t P -> sinv (fst (astep m t)) (snd (astep m t)) P /\ objs_ok (fst (astep m t)) /\
  (forall k a, m0 k = Some a -> loaded m k a -> loaded (fst (astep m t)) k a).
Proof.
  intros O (Q & (pre & EP & A) & S). destruct t as [R pc dn]. cbn [at_prog at_pc at_done] in *.
  assert (Fin : forall op r R0, R = op :: R0 -> acceptable m0 g op r -> sinv m (finish N (MkAT N R pc dn) r) P).
  { intros op r R0 -> Ac. split; [exact Q|]. split; [|exact I]. exists (pre ++ [op]). cbn. split; [rewrite EP, <- app_assoc; reflexivity|]. apply Forall2_app; [exact A|]. constructor; [exact Ac|constructor]. }
  assert (Go : forall m' pc', sshape m' (goto N (MkAT N R pc dn) pc') -> sinv m' (goto N (MkAT N R pc dn) pc') P).
  { intros m' pc' H. split; [exact Q|]. split; [exists pre; cbn; auto|exact H]. }
  assert (Put : forall k a a' v s, m0 k = Some a -> m k = Some a' -> In v (da_values N a) -> dp_set_value N (da_sample N a') v = Ok s ->
    objs_ok (set_obj N m k (with_sample N a' s)) /\ (forall q b, m0 q = Some b -> loaded m q b -> loaded (set_obj N m k (with_sample N a' s)) q b) /\ loaded (set_obj N m k (with_sample N a' s)) k a).
  { intros k a a' v s E0 Em Hv Es. pose proof (O k) as Ok'. rewrite E0, Em in Ok'. cbn in Ok'. assert (L : loaded (set_obj N m k (with_sample N a' s)) k a).
    { exists (with_sample N a' s), v. split; [unfold set_obj; rewrite Nat.eqb_refl; reflexivity|]. split; [exact Hv|]. cbn. rewrite <- Es. apply set_value_same. apply dsame_sym. apply Ok'. }
    split; [|split; [|exact L]].
    - intro q. unfold set_obj. destruct (Nat.eqb_spec q k) as [->|]; [|apply O]. rewrite E0. cbn. apply same_trans with a'; [|exact Ok']. apply with_sample_same. exact (set_value_dsame _ _ _ Es).
    - intros q b Eb Lq. destruct (Nat.eq_dec q k) as [->|Nq]; [rewrite E0 in Eb; injection Eb as <-; exact L|]. destruct Lq as (b' & v' & Em' & H). exists b', v'. split; [|exact H]. unfold set_obj. destruct (Nat.eqb_spec q k); [contradiction|exact Em']. }
  assert (NC : forall k j R0, R = Clone k j :: R0 -> False). { intros k j R0 ->. apply (Q k j). rewrite EP. apply in_or_app. right. left. reflexivity. }
  unfold sshape in S. cbn [at_prog at_pc] in S. unfold ArrShared.astep; cbn [at_pc at_prog]. destruct pc as [|k i|k i|k i w rest|k i w rest].
  - destruct R as [|[k|k rg|k|k l] R]; cbn [fst snd].
    + split; [|split; [exact O|auto]]. split; [exact Q|]. split; [exists pre; auto|exact I].
    + pose proof (O k) as Ok'. destruct (m k) as [a'|] eqn:Em, (m0 k) as [a|] eqn:E0; cbn in Ok'; try contradiction; cbn [fst snd]; (split; [|split; [exact O|auto]]).
      * apply Go. unfold sshape; cbn [at_pc at_prog goto]. exists a, R. repeat split; auto. lia.
      * eapply Fin; [reflexivity|]. cbn. rewrite E0. reflexivity.
    + pose proof (O k) as Ok'. destruct (m k) as [a'|] eqn:Em, (m0 k) as [a|] eqn:E0; cbn in Ok'; try contradiction; cbn [fst snd].
      * destruct (all_sane k a E0) as (Hg & Hs & _). destruct Ok' as ((_ & _ & _ & _ & Dz) & Vs & Sz). rewrite Sz, Dz, Hg, Hs. cbn [cs_check cs_get]. destruct (Nat.eqb (length rg) (g * length (da_values N a))) eqn:El; cbn [bind fst snd]; (split; [|split; [exact O|auto]]).
        -- apply Go. unfold sshape; cbn [at_pc at_prog goto]. exists a, R, rg. apply Nat.eqb_eq in El. repeat split; auto; [lia|]. intros j Hj; lia.
        -- eapply Fin; [reflexivity|]. cbn. rewrite E0, El. reflexivity.
      * split; [|split; [exact O|auto]]. eapply Fin; [reflexivity|]. cbn. rewrite E0. reflexivity.
    + pose proof (O k) as Ok'. destruct (m k) as [a'|] eqn:Em, (m0 k) as [a|] eqn:E0; cbn in Ok'; try contradiction; cbn [fst snd]; (split; [|split; [exact O|auto]]); (eapply Fin; [reflexivity|]); cbn; rewrite E0; [|reflexivity].
      f_equal. apply Ok'.
    + exfalso. exact (NC _ _ _ eq_refl).
  - destruct S as (a & r & -> & E0 & Hi & Ex). pose proof (O k) as Ok'. rewrite E0 in Ok'. destruct (m k) as [a'|] eqn:Em; [|contradiction]. cbn in Ok'. pose proof Ok' as (D & Vs & Sz). rewrite Vs.
    destruct (nth_error (da_values N a) i) as [v|] eqn:Ev.
    + assert (Hv : In v (da_values N a)) by (eapply nth_error_In; exact Ev). destruct (all_sane k a E0) as (_ & _ & Al). destruct (Al v Hv) as [[b (s & Es & _)] _]. rewrite (set_value_same _ _ v D), Es. cbn [fst snd].
      destruct (Put k a a' v s E0 Em Hv) as (P1 & P2 & P3); [rewrite (set_value_same _ _ v D); exact Es|]. split; [|split; assumption]. apply Go. unfold sshape; cbn [at_pc at_prog goto]. exists a, r. repeat split; auto. apply nth_error_Some. congruence.
    + cbn [fst snd]. split; [|split; [exact O|auto]]. eapply Fin; [reflexivity|]. cbn. rewrite E0. exists true. split; [reflexivity|]. split; [discriminate|]. intros _. apply nth_error_None in Ev. destruct Ex as [->|Ex]; [left; destruct (da_values N a); [reflexivity|cbn in Ev; lia]|right; exact Ex].
  - destruct S as (a & r & -> & E0 & Hi & L). pose proof L as (a' & v & Em & Hv & Es). rewrite Em. destruct (all_sane k a E0) as (_ & _ & Al). destruct (Al v Hv) as [[b (s & Es' & Ec)] _]. rewrite Es in Es'. injection Es' as <-. rewrite Ec.
    destruct b; cbn [fst snd]; (split; [|split; [exact O|auto]]).
    + apply Go. unfold sshape; cbn [at_pc at_prog goto]. exists a, r. repeat split; auto. right. exists v. split; [exact Hv|]. exists (da_sample N a'). auto.
    + eapply Fin; [reflexivity|]. cbn. rewrite E0. exists false. split; [reflexivity|]. split; [|discriminate]. intros _. exists v. split; [exact Hv|]. exists (da_sample N a'). auto.
  - destruct S as (a & r & rg & -> & E0 & Lr & Hi & Lw & -> & Ex). pose proof (O k) as Ok'. rewrite E0 in Ok'. destruct (m k) as [a'|] eqn:Em; [|contradiction]. cbn in Ok'. pose proof Ok' as (D & Vs & Sz). rewrite Vs.
    destruct (nth_error (da_values N a) i) as [v|] eqn:Ev.
    + assert (Hv : In v (da_values N a)) by (eapply nth_error_In; exact Ev). destruct (all_sane k a E0) as (_ & _ & Al). destruct (Al v Hv) as [[b (s & Es & _)] _]. rewrite (set_value_same _ _ v D), Es. cbn [fst snd].
      destruct (Put k a a' v s E0 Em Hv) as (P1 & P2 & P3); [rewrite (set_value_same _ _ v D); exact Es|]. split; [|split; assumption]. apply Go. unfold sshape; cbn [at_pc at_prog goto]. exists a, r, rg. repeat split; auto. apply nth_error_Some. congruence.
    + cbn [fst snd]. split; [|split; [exact O|auto]]. eapply Fin; [reflexivity|]. cbn. rewrite E0, Lr, Nat.eqb_refl. apply nth_error_None in Ev. assert (i = length (da_values N a)) as -> by lia.
      rewrite skipn_all2 by (rewrite Lr; nia). rewrite app_nil_r. exists w. split; [reflexivity|]. split; [rewrite Lw; nia|exact Ex].
  - destruct S as (a & r & rg & -> & E0 & Lr & Hi & Lw & -> & Ex & L). pose proof L as (a' & v & Em & Hv & Es). rewrite Em. destruct (all_sane k a E0) as (Hg & _ & Al).
    pose proof (O k) as Ok'. rewrite E0, Em in Ok'. cbn in Ok'. pose proof Ok' as ((_ & _ & _ & _ & Dz) & _). rewrite Dz, Hg.
    assert (Lf : length (firstn g (skipn (i * g) rg)) = g) by (rewrite firstn_length, skipn_length, Lr; nia).
    destruct (Al v Hv) as [_ Al2]. destruct (Al2 _ Lf) as (c & (s & Es' & Ec) & Lc). rewrite Es in Es'. injection Es' as <-. rewrite Ec. cbn [fst snd]. split; [|split; [exact O|auto]].
    apply Go. unfold sshape; cbn [at_pc at_prog goto]. exists a, r, rg. repeat split; auto; [rewrite app_length, Lw, Lc; cbn; lia|rewrite skipn_more; f_equal; cbn; lia|].
    intros j Hj. destruct (slice_app w c i j Lw Lc) as [S1 S2]. destruct (Nat.eq_dec j i) as [->|Nj].
    + rewrite S2. exists v. split; [exact Hv|]. exists (da_sample N a'). auto.
    + rewrite S1 by lia. apply Ex. lia.
Qed.
End Shared.
(** Whatever the schedule: CheckConstraints says false only if some element is out of bounds, and true only if some element is within them; SetChromosome writes in every
    place the bits of some element; wrong sizes are refused and get_values is right. *)
Theorem C78_shared : forall m0 g programs schedule, (forall k a, m0 k = Some a -> sane a g) -> (forall P, In P programs -> queries P) ->
  forall i t P, nth_error (as_threads N (arun schedule (ainit m0 programs))) i = Some t -> nth_error programs i = Some P ->
  Forall2 (acceptable m0 g) (firstn (length (at_done N t)) P) (at_done N t) /\ (finished t -> length (at_done N t) = length P).
Proof.
  intros m0 g programs schedule Sa Qs.
  set (inv := fun s : astate N => objs_ok m0 (as_objs N s) /\ length (as_threads N s) = length programs /\ forall i t P, nth_error (as_threads N s) i = Some t -> nth_error programs i = Some P -> sinv m0 g (as_objs N s) t P).
  assert (I0 : inv (ainit m0 programs)).
  { split; [intro k; apply osame_refl|]. split; [cbn; apply map_length|]. intros i t P Ht HP. cbn in Ht. rewrite nth_error_map, HP in Ht. injection Ht as <-. split; [apply Qs; eapply nth_error_In; exact HP|]. split; [exists []; split; [reflexivity|constructor]|exact I]. }
  assert (Step : forall s j, inv s -> inv (asched1 N s j)).
  { intros s j (O & L & H). unfold asched1. destruct (nth_error (as_threads N s) j) as [u|] eqn:Eu; [|split; [exact O|split; assumption]].
    assert (j < length programs) as Hj by (rewrite <- L; apply nth_error_Some; congruence). destruct (nth_error programs j) as [Pj|] eqn:Ej; [|apply nth_error_None in Ej; lia].
    destruct (shared_step m0 g Sa _ u Pj O (H j u Pj Eu Ej)) as (S1 & S2 & S3). destruct (astep (as_objs N s) u) as [m' u'] eqn:Es. cbn [fst snd] in *. split; [exact S2|]. split; [cbn; rewrite upd_length; exact L|].
    intros i t P Ht HP. cbn [as_objs as_threads] in *. rewrite nth_error_upd in Ht. destruct (Nat.eqb_spec j i) as [->|Nij].
    - destruct (Nat.ltb_spec i (length (as_threads N s))); [|discriminate]. injection Ht as <-. rewrite HP in Ej. injection Ej as <-. exact S1.
    - destruct (H i t P Ht HP) as (A & B & C). split; [exact A|]. split; [exact B|]. unfold sshape in *. destruct (at_pc N t) as [|k n|k n|k n w rest|k n w rest]; auto.
      + destruct C as (a & r & C1 & C2 & C3 & C4). exists a, r. auto.
      + destruct C as (a & r & rg & C1 & C2 & C3 & C4 & C5 & C6 & C7 & C8). exists a, r, rg. repeat split; auto. }
  assert (I1 : inv (arun schedule (ainit m0 programs))).
  { unfold ArrShared.arun. revert I0. generalize (ainit m0 programs). induction schedule as [|j r IH]; intros s I0; [exact I0|]. cbn. apply IH. apply Step. exact I0. }
  intros i t P Ht HP. destruct (proj2 (proj2 I1) i t P Ht HP) as (_ & (pre & -> & F) & _). assert (L : length pre = length (at_done N t)) by (clear - F; induction F; cbn; congruence).
  rewrite <- L, firstn_app, Nat.sub_diag, firstn_all, firstn_O, app_nil_r. split; [exact F|]. intros [Fp _]. rewrite Fp, app_nil_r. reflexivity.
Qed.

(** For such arrays the right answer of CheckConstraints is whether all elements are within the bounds. *)
Lemma within_det a v b c : within a v b -> within a v c -> b = c.
Proof. intros (s & E & F) (s' & E' & F'). rewrite E in E'. injection E' as <-. rewrite F in F'. injection F' as <-. reflexivity. Qed.
Theorem C78_check_meaning : forall a g, sane a g -> exists b, da_check N a = Ok b /\
  (b = true <-> forall v, In v (da_values N a) -> within a v true) /\ (b = false <-> exists v, In v (da_values N a) /\ within a v false).
Proof.
  intros a g (_ & _ & Al). unfold da_check. assert (H : forall vs s, dsame s (da_sample N a) -> (forall v, In v vs -> exists b, within a v b) -> exists b, da_check_loop N s vs = Ok b /\
    (b = true <-> forall v, In v vs -> within a v true) /\ (b = false <-> exists v, In v vs /\ within a v false)).
  { induction vs as [|v vs IH]; intros s D H.
    - exists true. split; [reflexivity|]. split; split; try discriminate; [intros _ v []|reflexivity|intros (v & [] & _)].
    - destruct (H v (or_introl eq_refl)) as [b W]. pose proof W as (s' & Es & Ec). cbn [da_check_loop]. rewrite (set_value_same _ _ v D), Es. cbn [bind]. rewrite Ec. cbn [bind]. destruct b.
      + destruct (IH s') as (b & E & T & F); [exact (set_value_dsame _ _ _ Es)|intros w Hw; apply H; right; exact Hw|]. exists b. split; [exact E|]. split.
        * rewrite T. split; [intros X w [<-|Hw]; auto|intros X w Hw; apply X; right; exact Hw].
        * rewrite F. split; [intros (w & Hw & X); exists w; split; [right; exact Hw|exact X]|]. intros (w & [<-|Hw] & X); [pose proof (within_det _ _ _ _ W X); discriminate|]. exists w. auto.
      + exists false. split; [reflexivity|]. split; split; try discriminate; [|intros _; exists v; split; [left; reflexivity|exact W]|reflexivity].
        intro X. pose proof (within_det _ _ _ _ W (X v (or_introl eq_refl))). discriminate. }
  apply H; [apply dsame_refl|]. intros v Hv. exact (proj1 (Al v Hv)).
Qed.
(** Hence, on a shared object too: the answer false is always right, and on an array whose elements are all within their bounds every answer is. *)
Lemma Forall2_at {A B} (R : A -> B -> Prop) l l' : Forall2 R l l' -> forall n x y, nth_error l n = Some x -> nth_error l' n = Some y -> R x y.
Proof. induction 1 as [|x y l l' A0 F IH]; intros [|n] u v Hu Hv; try discriminate; cbn in *; [injection Hu as <-; injection Hv as <-; exact A0|eauto]. Qed.
Theorem C78_shared_check : forall m0 g programs schedule, (forall k a, m0 k = Some a -> sane a g) -> (forall P, In P programs -> queries P) ->
  forall i t P n k a b, nth_error (as_threads N (arun schedule (ainit m0 programs))) i = Some t -> nth_error programs i = Some P ->
  nth_error P n = Some (Check k) -> nth_error (at_done N t) n = Some (Answer N (Ok b)) -> m0 k = Some a ->
  (b = false -> da_check N a = Ok false) /\ (da_check N a = Ok true -> b = true).
Proof.
  intros m0 g programs schedule Sa Qs i t P n k a b Ht HP Hn Hr E0. destruct (C78_shared m0 g programs schedule Sa Qs i t P Ht HP) as [F _].
  assert (Ac : acceptable m0 g (Check k) (Answer N (Ok b))).
  { assert (Hl : n < length (at_done N t)) by (apply nth_error_Some; congruence). assert (Hf : nth_error (firstn (length (at_done N t)) P) n = Some (Check k)).
    { revert Hn Hl. generalize (length (at_done N t)). clear. revert P. induction n as [|n IH]; intros [|p P] [|l] Hn Hl; try discriminate; try lia; cbn in *; [exact Hn|apply IH; [exact Hn|lia]]. }
    exact (Forall2_at _ _ _ F n _ _ Hf Hr). }
  cbn in Ac. rewrite E0 in Ac. destruct Ac as (b' & Eb & A1 & A2). injection Eb as <-. destruct (C78_check_meaning a g (Sa k a E0)) as (c & -> & T & Fl). split.
  - intros ->. f_equal. apply Fl. exact (A1 eq_refl).
  - intro X. injection X as ->. destruct b; [reflexivity|]. assert (false = true -> False) by discriminate. exfalso. pose proof (proj2 Fl (A1 eq_refl)). discriminate.
Qed.

(** *** Nothing more can be promised *)
Section Mixture.
Variable a : arr.
Variable g : nat.
Hypothesis a_sane : sane a g.
Notation n := (length (da_values N a)).
Definition at_elem (m : objects) (j : nat) : Prop := exists a' v, m 0 = Some a' /\ same a' a /\ nth_error (da_values N a) j = Some v /\ dp_set_value N (da_sample N a) v = Ok (da_sample N a').
Definition held (m : objects) : Prop := exists a', m 0 = Some a' /\ same a' a.
Lemma at_held m j : at_elem m j -> held m.
Proof. intros (a' & v & H & S & _). exists a'. auto. Qed.
Lemma put_elem m j : held m -> j < n -> exists v s a', nth_error (da_values N a) j = Some v /\ m 0 = Some a' /\ da_values N a' = da_values N a /\ dp_set_value N (da_sample N a') v = Ok s /\ at_elem (set_obj N m 0 (with_sample N a' s)) j.
Proof.
  intros (a' & Em & S) Hj. destruct (nth_error (da_values N a) j) as [v|] eqn:Ev; [|apply nth_error_None in Ev; lia]. destruct a_sane as (_ & _ & Al). destruct (Al v (nth_error_In _ _ Ev)) as [[b (s & Es & _)] _].
  exists v, s, a'. pose proof S as (D & Vs & Sz). split; [reflexivity|]. split; [exact Em|]. split; [exact Vs|]. rewrite (set_value_same _ _ v D). split; [exact Es|].
  exists (with_sample N a' s), v. split; [reflexivity|]. split; [|split; [exact Ev|exact Es]]. apply same_trans with a'; [|exact S]. apply with_sample_same. apply dsame_trans with (da_sample N a); [exact (set_value_dsame _ _ _ Es)|apply dsame_sym; exact D].
Qed.
Lemma enc_set m t j w rest : held m -> j < n -> at_pc N t = EncodeSet 0 j w rest -> exists m', astep m t = (m', goto N t (EncodeRead 0 j w rest)) /\ at_elem m' j.
Proof.
  intros H Hj Hp. destruct (put_elem m j H Hj) as (v & s & a' & Ev & Em & Vs & Es & At). exists (set_obj N m 0 (with_sample N a' s)). split; [|exact At]. unfold ArrShared.astep. rewrite Hp, Em, Vs, Ev, Es. reflexivity.
Qed.
Lemma enc_read m t i j w rest : at_elem m j -> at_pc N t = EncodeRead 0 i w rest -> g <= length rest ->
  exists c v, astep m t = (m, goto N t (EncodeSet 0 (S i) (w ++ c) (skipn g rest))) /\ nth_error (da_values N a) j = Some v /\ encodes a v (firstn g rest) c /\ length c = g.
Proof.
  intros (a' & v & Em & Sm & Ev & Es) Hp Lr. destruct a_sane as (Hg & _ & Al). assert (Lf : length (firstn g rest) = g) by (rewrite firstn_length; lia).
  destruct (proj2 (Al v (nth_error_In _ _ Ev)) _ Lf) as (c & Enc & Lc). pose proof Enc as (s & Es' & Ec). rewrite Es in Es'. injection Es' as <-. exists c, v. split; [|auto].
  unfold ArrShared.astep. rewrite Hp, Em. pose proof Sm as ((_ & _ & _ & _ & Dz) & _). rewrite Dz, Hg, Ec. reflexivity.
Qed.
Lemma run_one m t0 t1 m' t1' sched : astep m t1 = (m', t1') -> arun (1 :: sched) (MkAS N m [t0; t1]) = arun sched (MkAS N m' [t0; t1']).
Proof. intro H. unfold ArrShared.arun. cbn [fold_left]. unfold asched1 at 2. cbn [as_threads nth_error as_objs]. rewrite H. reflexivity. Qed.
Lemma run_zero m t0 t1 m' t0' sched : astep m t0 = (m', t0') -> arun (0 :: sched) (MkAS N m [t0; t1]) = arun sched (MkAS N m' [t0'; t1]).
Proof. intro H. unfold ArrShared.arun. cbn [fold_left]. unfold asched1 at 2. cbn [as_threads nth_error as_objs]. rewrite H. reflexivity. Qed.
Lemma run_app x y s : arun (x ++ y) s = arun y (arun x s).
Proof. apply fold_left_app. Qed.
(** the second thread goes on alone until it has set element [j'] *)
Lemma solo1 t0 Q dn : forall d j w rest m, held m -> j + d < n -> length rest = (n - j) * g -> exists sched m' w' rest',
  arun sched (MkAS N m [t0; MkAT N Q (EncodeSet 0 j w rest) dn]) = MkAS N m' [t0; MkAT N Q (EncodeRead 0 (j + d) w' rest') dn] /\ at_elem m' (j + d) /\ length rest' = (n - (j + d)) * g.
Proof.
  induction d as [|d IH]; intros j w rest m H Hj Lr.
  - destruct (enc_set m (MkAT N Q (EncodeSet 0 j w rest) dn) j w rest H) as (m' & E & At); [lia|reflexivity|]. exists [1], m', w, rest. rewrite Nat.add_0_r in *. split; [|auto]. rewrite (run_one _ _ _ _ _ [] E). reflexivity.
  - destruct (enc_set m (MkAT N Q (EncodeSet 0 j w rest) dn) j w rest H) as (m' & E & At); [lia|reflexivity|]. unfold goto in E; cbn [at_prog at_done] in E.
    destruct (enc_read m' (MkAT N Q (EncodeRead 0 j w rest) dn) j j w rest At eq_refl) as (c & v & E' & _); [nia|]. unfold goto in E'; cbn [at_prog at_done] in E'.
    destruct (IH (S j) (w ++ c) (skipn g rest) m' (at_held _ _ At)) as (sched & m2 & w' & rest' & R & At' & Lr'); [lia|rewrite skipn_length, Lr; nia|].
    exists (1 :: 1 :: sched), m2, w', rest'. replace (j + S d) with (S j + d) by lia. split; [|auto]. rewrite (run_one _ _ _ _ _ _ E), (run_one _ _ _ _ _ _ E'). exact R.
Qed.
(** ... and to the end of its call *)
Lemma solo2 t0 Q dn : forall d j w rest m e, at_elem m e -> j + S d = n -> length rest = (n - j) * g -> exists sched m' r,
  arun sched (MkAS N m [t0; MkAT N Q (EncodeRead 0 j w rest) dn]) = MkAS N m' [t0; MkAT N (tl Q) Idle (dn ++ [r])] /\ held m'.
Proof.
  induction d as [|d IH]; intros j w rest m e At Hj Lr; destruct (enc_read m (MkAT N Q (EncodeRead 0 j w rest) dn) j e w rest At eq_refl) as (c & v & E & _); try nia; unfold goto in E; cbn [at_prog at_done] in E.
  - pose proof At as (a' & v' & Em & (_ & Vs & _) & _). exists [1; 1], m, (Bits N (Ok ((w ++ c) ++ skipn g rest))). split; [|exact (at_held _ _ At)]. rewrite (run_one _ _ _ _ _ _ E). rewrite (run_one _ _ _ m (MkAT N (tl Q) Idle (dn ++ [Bits N (Ok ((w ++ c) ++ skipn g rest))]))); [reflexivity|].
    unfold ArrShared.astep. cbn [at_pc]. rewrite Em, Vs. rewrite (proj2 (nth_error_None _ _)) by lia. reflexivity.
  - destruct (enc_set m (MkAT N Q (EncodeSet 0 (S j) (w ++ c) (skipn g rest)) dn) (S j) (w ++ c) (skipn g rest) (at_held _ _ At)) as (m' & E' & At'); [lia|reflexivity|]. unfold goto in E'; cbn [at_prog at_done] in E'.
    destruct (IH (S j) (w ++ c) (skipn g rest) m' (S j) At') as (sched & m2 & r & R & H); [lia|rewrite skipn_length, Lr; nia|]. exists (1 :: 1 :: sched), m2, r. split; [|exact H]. rewrite (run_one _ _ _ _ _ _ E), (run_one _ _ _ _ _ _ E'). exact R.
Qed.
(** the first thread, between its SetValue and its use of the sample, is overtaken by one whole call of the second up to element [j]; it then makes the step to [t0'] *)
Lemma overtaken range1 t0 t0' Q dn m j : length range1 = g * n -> held m -> j < n -> (forall m', at_elem m' j -> astep m' t0 = (m', t0')) ->
  exists sched m' r, arun sched (MkAS N m [t0; MkAT N (Encode 0 range1 :: Q) Idle dn]) = MkAS N m' [t0'; MkAT N Q Idle (dn ++ [r])] /\ held m'.
Proof.
  intros Lr1 H Hj St. pose proof H as (a' & Em & Sm). destruct a_sane as (Hg & Hs & _).
  assert (E1 : astep m (MkAT N (Encode 0 range1 :: Q) Idle dn) = (m, MkAT N (Encode 0 range1 :: Q) (EncodeSet 0 0 [] range1) dn)).
  { unfold ArrShared.astep. cbn [at_pc at_prog]. rewrite Em. pose proof Sm as ((_ & _ & _ & _ & Dz) & _ & Sz). rewrite Sz, Hs, Dz, Hg. cbn [cs_check cs_get]. rewrite (proj2 (Nat.eqb_eq _ _) Lr1). reflexivity. }
  destruct (solo1 t0 (Encode 0 range1 :: Q) dn j 0 [] range1 m H) as (s1 & m1 & w1 & r1 & R1 & At & Lr); [lia|rewrite Lr1; nia|]. cbn [Nat.add] in *.
  destruct (solo2 t0' (Encode 0 range1 :: Q) dn (n - S j) j w1 r1 m1 j At) as (s2 & m2 & r & R2 & H2); [lia|exact Lr|].
  exists (1 :: s1 ++ 0 :: s2), m2, r. split; [|exact H2]. rewrite (run_one _ _ _ _ _ _ E1), run_app, R1, (run_zero _ _ _ _ _ _ (St m1 At)). exact R2.
Qed.
Lemma mixture_from chosen range range1 R0 dn0 : (forall i, i < n -> chosen i < n) -> length range1 = g * n -> length range = g * n ->
  forall d i w m dn, held m -> i + d = n -> length w = i * g -> (forall j v, j < i -> nth_error (da_values N a) (chosen j) = Some v -> encodes a v (slice g j range) (slice g j w)) ->
  exists sched m' c t1, arun sched (MkAS N m [MkAT N (Encode 0 range :: R0) (EncodeSet 0 i w (skipn (i * g) range)) dn0; MkAT N (repeat (Encode 0 range1) d) Idle dn]) =
    MkAS N m' [MkAT N R0 Idle (dn0 ++ [Bits N (Ok c)]); t1] /\ length c = length range /\ forall j v, j < n -> nth_error (da_values N a) (chosen j) = Some v -> encodes a v (slice g j range) (slice g j c).
Proof.
  intros Hc Lr1 Lr. induction d as [|d IH]; intros i w m dn H Hi Lw Ex.
  - pose proof H as (a' & Em & (_ & Vs & _)). assert (i = n) as -> by lia. set (t1 := MkAT N (repeat (Encode 0 range1) 0) Idle dn). exists [0], m, w, t1. split; [|split; [rewrite Lw, Lr; nia|exact Ex]].
    rewrite (run_zero m _ t1 m (MkAT N R0 Idle (dn0 ++ [Bits N (Ok w)]))); [reflexivity|]. unfold ArrShared.astep. cbn [at_pc]. rewrite Em, Vs. rewrite (proj2 (nth_error_None _ _)) by lia. rewrite skipn_all2 by (rewrite Lr; nia). rewrite app_nil_r. reflexivity.
  - set (t0 := MkAT N (Encode 0 range :: R0) (EncodeSet 0 i w (skipn (i * g) range)) dn0). destruct (enc_set m t0 i w (skipn (i * g) range) H) as (m1 & E1 & At1); [lia|reflexivity|]. 
    destruct (nth_error (da_values N a) (chosen i)) as [v|] eqn:Ev; [|apply nth_error_None in Ev; specialize (Hc i); lia].
    assert (Lf : length (firstn g (skipn (i * g) range)) = g) by (rewrite firstn_length, skipn_length, Lr; nia). destruct a_sane as (Hg & _ & Al). destruct (proj2 (Al v (nth_error_In _ _ Ev)) _ Lf) as (c & Enc & Lc).
    destruct (overtaken range1 (goto N t0 (EncodeRead 0 i w (skipn (i * g) range))) (goto N t0 (EncodeSet 0 (S i) (w ++ c) (skipn (S i * g) range))) (repeat (Encode 0 range1) d) dn m1 (chosen i) Lr1 (at_held _ _ At1)) as (s1 & m2 & r & R1 & H2); [apply Hc; lia| |].
    { intros m' At'. destruct (enc_read m' (goto N t0 (EncodeRead 0 i w (skipn (i * g) range))) i (chosen i) w (skipn (i * g) range) At' eq_refl) as (c' & v' & E & Ev' & Enc' & _); [rewrite skipn_length, Lr; nia|].
      rewrite E. rewrite Ev in Ev'. injection Ev' as <-. destruct Enc as (s & Es & Ec), Enc' as (s' & Es' & Ec'). rewrite Es in Es'. injection Es' as <-. rewrite Ec in Ec'. injection Ec' as <-. rewrite skipn_more. replace (i * g + g) with (S i * g) by lia. reflexivity. }
    destruct (IH (S i) (w ++ c) m2 (dn ++ [r]) H2) as (s2 & m3 & c' & t1 & R2 & Lc' & Ex'); [lia|rewrite app_length, Lw, Lc; lia| |].
    { intros j u Hj Eu. destruct (slice_app g w c i j Lw Lc) as [S1 S2]. destruct (Nat.eq_dec j i) as [->|Nj]; [rewrite S2; rewrite Ev in Eu; injection Eu as <-; exact Enc|rewrite S1 by lia; apply Ex; [lia|exact Eu]]. }
    exists (0 :: s1 ++ s2), m3, c', t1. split; [|auto]. rewrite (run_zero _ _ _ _ _ _ E1), run_app. cbn [repeat]. rewrite R1. exact R2.
Qed.
Lemma check_from j v range1 R0 dn0 : nth_error (da_values N a) j = Some v -> within a v true -> length range1 = g * n ->
  forall d i m dn, held m -> i + d = n -> exists sched m' t1, arun sched (MkAS N m [MkAT N (Check 0 :: R0) (CheckSet 0 i) dn0; MkAT N (repeat (Encode 0 range1) d) Idle dn]) =
    MkAS N m' [MkAT N R0 Idle (dn0 ++ [Answer N (Ok true)]); t1].
Proof.
  intros Ev Wt Lr1. induction d as [|d IH]; intros i m dn H Hi.
  - pose proof H as (a' & Em & (_ & Vs & _)). set (t1 := MkAT N (repeat (Encode 0 range1) 0) Idle dn). exists [0], m, t1.
    rewrite (run_zero m _ t1 m (MkAT N R0 Idle (dn0 ++ [Answer N (Ok true)]))); [reflexivity|]. unfold ArrShared.astep. cbn [at_pc]. rewrite Em, Vs. rewrite (proj2 (nth_error_None _ _)) by lia. reflexivity.
  - set (t0 := MkAT N (Check 0 :: R0) (CheckSet 0 i) dn0). assert (X : exists m1, astep m t0 = (m1, goto N t0 (CheckRead 0 i)) /\ at_elem m1 i).
    { destruct (put_elem m i H) as (u & s & a' & Eu & Em & Vs & Es & At); [lia|]. eexists. split; [|exact At]. unfold ArrShared.astep. cbn [at_pc t0]. rewrite Em, Vs, Eu, Es. reflexivity. }
    destruct X as (m1 & E1 & At1). assert (Hj : j < n) by (apply nth_error_Some; congruence).
    destruct (overtaken range1 (goto N t0 (CheckRead 0 i)) (goto N t0 (CheckSet 0 (S i))) (repeat (Encode 0 range1) d) dn m1 j Lr1 (at_held _ _ At1) Hj) as (s1 & m2 & r & R1 & H2).
    { intros m' (a' & v' & Em & _ & Ev' & Es). rewrite Ev in Ev'. injection Ev' as <-. destruct Wt as (s & Es' & Ec). rewrite Es in Es'. injection Es' as <-. unfold ArrShared.astep. cbn [at_pc goto]. rewrite Em, Ec. reflexivity. }
    destruct (IH (S i) m2 (dn ++ [r]) H2) as (s2 & m3 & t1 & R2); [lia|]. exists (0 :: s1 ++ s2), m3, t1. rewrite (run_zero _ _ _ _ _ _ E1), run_app. cbn [repeat]. rewrite R1. exact R2.
Qed.
End Mixture.
(** Two threads, one of which encodes the same object over and over: any choice of elements can end up in the places of the other's chromosome... *)
Theorem C78_any_mixture_refuted : forall a g m0 chosen range range1, sane a g -> m0 0 = Some a -> let n := length (da_values N a) in
  (forall i, i < n -> chosen i < n) -> length range = g * n -> length range1 = g * n ->
  exists schedule t c, nth_error (as_threads N (arun schedule (ainit m0 [[Encode 0 range]; repeat (Encode 0 range1) n]))) 0 = Some t /\ finished t /\ at_done N t = [Bits N (Ok c)] /\
    length c = length range /\ forall i v, i < n -> nth_error (da_values N a) (chosen i) = Some v -> encodes a v (slice g i range) (slice g i c).
Proof.
  intros a g m0 chosen range range1 Sa E0 n Hc Lr Lr1. assert (H : held a m0) by (exists a; auto using same_refl).
  destruct (mixture_from a g Sa chosen range range1 [] [] Hc Lr1 Lr n 0 [] m0 [] H eq_refl eq_refl) as (sched & m' & c & t1 & R & Lc & Ex); [intros j v Hj; lia|].
  cbn [Nat.mul skipn app] in R.
  exists (0 :: sched), (MkAT N [] Idle [Bits N (Ok c)]), c. split; [|repeat split; auto]. unfold ArrShared.ainit. cbn [map]. erewrite run_zero; [|unfold ArrShared.astep; cbn [at_pc at_prog]; rewrite E0; destruct Sa as (Hg & Hs & _); rewrite Hs, Hg; cbn [cs_check cs_get]; fold n; rewrite (proj2 (Nat.eqb_eq _ _) Lr); cbn [bind]; reflexivity].
  unfold goto. cbn [at_prog at_done]. rewrite R. reflexivity.
Qed.
(** ... and CheckConstraints can say true if only one element is within the bounds. *)
Theorem C78_wrong_true_refuted : forall a g m0 v range1, sane a g -> m0 0 = Some a -> In v (da_values N a) -> within a v true -> length range1 = g * length (da_values N a) ->
  exists schedule t, nth_error (as_threads N (arun schedule (ainit m0 [[Check 0]; repeat (Encode 0 range1) (length (da_values N a))]))) 0 = Some t /\ finished t /\ at_done N t = [Answer N (Ok true)].
Proof.
  intros a g m0 v range1 Sa E0 Hv W Lr1. apply In_nth_error in Hv as [j Ev]. assert (H : held a m0) by (exists a; auto using same_refl).
  destruct (check_from a g Sa j v range1 [] [] Ev W Lr1 (length (da_values N a)) 0 m0 [] H eq_refl) as (sched & m' & t1 & R).
  exists (0 :: sched), (MkAT N [] Idle [Answer N (Ok true)]). split; [|repeat split; auto]. unfold ArrShared.ainit. cbn [map]. erewrite run_zero; [|unfold ArrShared.astep; cbn [at_pc at_prog]; rewrite E0; reflexivity].
  unfold goto. cbn [at_prog at_done]. rewrite R. reflexivity.
Qed.

(** *** Every call ends after a bounded number of steps of its own thread, whatever the others do *)
Definition cost (m0 : objects) (op : aop) : nat :=
  match op with Check k | Encode k _ => match m0 k with None => 1 | Some a => 2 * length (da_values N a) + 2 end | _ => 1 end.
Definition costs (m0 : objects) (P : list aop) : nat := fold_right (fun op c => cost m0 op + c) 0 P.
Definition size_of (m0 : objects) (k : nat) : nat := match m0 k with None => 0 | Some a => length (da_values N a) end.
Definition vals_ok (m0 m : objects) : Prop := forall k, match m k, m0 k with Some a', Some a => da_values N a' = da_values N a | None, None => True | _, _ => False end.
Definition within_loop (m0 : objects) (t : athread) : Prop :=
  match at_pc N t with Idle => True | CheckSet k i | EncodeSet k i _ _ => i <= size_of m0 k /\ at_prog N t <> [] /\ m0 k <> None | CheckRead k i | EncodeRead k i _ _ => i < size_of m0 k /\ at_prog N t <> [] /\ m0 k <> None end.
Definition left_over (m0 : objects) (t : athread) : nat :=
  match at_pc N t with
  | Idle => costs m0 (at_prog N t)
  | CheckSet k i | EncodeSet k i _ _ => (2 * (size_of m0 k - i) + 1) + costs m0 (tl (at_prog N t))
  | CheckRead k i | EncodeRead k i _ _ => 2 * (size_of m0 k - i) + costs m0 (tl (at_prog N t))
  end.
Ltac fin := cbn -[Nat.sub Nat.mul]; repeat match goal with E : ?m0 ?k = _ |- context [?m0 ?k] => rewrite E end; split; [repeat split; try discriminate; auto; lia|split; [assumption|left; unfold costs; cbn -[Nat.sub Nat.mul]; lia]].
Lemma cost_step m0 m t : vals_ok m0 m -> within_loop m0 t -> queries (at_prog N t) ->
  let (m', t') := astep m t in vals_ok m0 m' /\ within_loop m0 t' /\ queries (at_prog N t') /\ (left_over m0 t' < left_over m0 t \/ t' = t /\ finished t).
Proof.
  intros V W Q. destruct t as [P pc dn]. cbn [at_prog] in Q.
  assert (Qt : queries (tl P)) by (intros k j H; apply (Q k j); destruct P; [destruct H|right; exact H]).
  assert (Put : forall k a s, m k = Some a -> vals_ok m0 (set_obj N m k (with_sample N a s))).
  { intros k a s E q. unfold set_obj. destruct (Nat.eqb_spec q k) as [->|]; [|apply V]. specialize (V k). rewrite E in V. destruct (m0 k); [exact V|contradiction]. }
  assert (K : forall k j, In (Clone k j) P -> False) by exact Q. assert (Kt : forall k j, In (Clone k j) (tl P) -> False) by exact Qt.
  unfold ArrShared.astep, within_loop, left_over, size_of in *. cbn [at_pc at_prog] in *. destruct pc as [|k i|k i|k i w r|k i w r].
  - destruct P as [|[k|k rg|k|k j] P].
    + split; [exact V|]. split; [exact I|]. split; [exact Q|]. right. split; [reflexivity|split; reflexivity].
    + pose proof (V k) as Vk. destruct (m k) as [a'|], (m0 k) as [a|] eqn:E0; try contradiction; (split; [exact V|]).
      * fin.
      * fin.
    + pose proof (V k) as Vk. destruct (m k) as [a'|], (m0 k) as [a|] eqn:E0; try contradiction.
      * destruct (bind _ _); (split; [exact V|]); fin.
      * split; [exact V|]. fin.
    + pose proof (V k) as Vk. destruct (m k) as [a'|]; (split; [exact V|]); fin.
    + exfalso. apply (Q k j). left. reflexivity.
  - destruct W as (Hi & Ne & Nk). pose proof (V k) as Vk. destruct (m k) as [a'|] eqn:Em, (m0 k) as [a|] eqn:E0; try contradiction; try congruence. rewrite Vk. destruct (nth_error (da_values N a) i) as [v|] eqn:Ev.
    + assert (i < length (da_values N a)) by (apply nth_error_Some; congruence). destruct (dp_set_value N (da_sample N a') v); (split; [try exact V; apply Put; exact Em|]); fin.
    + split; [exact V|]. fin.
  - destruct W as (Hi & Ne & Nk). pose proof (V k) as Vk. destruct (m k) as [a'|] eqn:Em, (m0 k) as [a|] eqn:E0; try contradiction; try congruence. destruct (dp_check N (da_sample N a')) as [[]| |]; (split; [exact V|]); fin.
  - destruct W as (Hi & Ne & Nk). pose proof (V k) as Vk. destruct (m k) as [a'|] eqn:Em, (m0 k) as [a|] eqn:E0; try contradiction; try congruence. rewrite Vk. destruct (nth_error (da_values N a) i) as [v|] eqn:Ev.
    + assert (i < length (da_values N a)) by (apply nth_error_Some; congruence). destruct (dp_set_value N (da_sample N a') v); (split; [try exact V; apply Put; exact Em|]); fin.
    + split; [exact V|]. fin.
  - destruct W as (Hi & Ne & Nk). pose proof (V k) as Vk. destruct (m k) as [a'|] eqn:Em, (m0 k) as [a|] eqn:E0; try contradiction; try congruence. destruct (dp_set_chromosome _ _ _) as [c| |]; (split; [exact V|]); fin.
Qed.
Theorem C78_wait_free : forall m0 programs schedule, (forall P, In P programs -> queries P) ->
  forall i t P, nth_error (as_threads N (arun schedule (ainit m0 programs))) i = Some t -> nth_error programs i = Some P ->
  fold_right (fun op c => match op with Check k | Encode k _ => match m0 k with None => 1 | Some a => 2 * length (da_values N a) + 2 end | _ => 1 end + c) 0 P <= count_occ Nat.eq_dec schedule i ->
  finished t.
Proof.
  intros m0 programs schedule Qs i t P Ht HP Hc.
  assert (G : forall sched s, vals_ok m0 (as_objs N s) -> (forall u, In u (as_threads N s) -> within_loop m0 u /\ queries (at_prog N u)) ->
    forall u t, nth_error (as_threads N s) i = Some u -> nth_error (as_threads N (arun sched s)) i = Some t -> left_over m0 u <= count_occ Nat.eq_dec sched i -> finished t).
  { clear t P Ht HP Hc. induction sched as [|j sched IH]; intros s V W u t Hu Ht Hc.
    - cbn in Ht, Hc. rewrite Hu in Ht. injection Ht as <-. destruct (W u (nth_error_In _ _ Hu)) as [Wu _]. unfold left_over, within_loop, finished in *. destruct u as [P pc dn]. cbn [at_pc at_prog] in *. destruct pc; try lia.
      destruct P as [|[]]; cbn in Hc; auto; try lia; destruct (m0 k); lia.
    - cbn [ArrShared.arun fold_left] in Ht. change (fold_left (asched1 N) sched ?x) with (arun sched x) in Ht. unfold asched1 in Ht.
      destruct (nth_error (as_threads N s) j) as [x|] eqn:Ex.
      2:{ refine (IH s V W u t Hu Ht _). cbn in Hc. destruct (Nat.eq_dec j i) as [->|]; [congruence|exact Hc]. }
      destruct (W x (nth_error_In _ _ Ex)) as [Wx Qx]. pose proof (cost_step m0 (as_objs N s) x V Wx Qx) as C. destruct (astep (as_objs N s) x) as [m' x'] eqn:Es. destruct C as (V' & W' & Q' & C).
      assert (Wall : forall y, In y (upd (as_threads N s) j x') -> within_loop m0 y /\ queries (at_prog N y)).
      { intros y Hy. apply In_nth_error in Hy as [q Hy]. rewrite nth_error_upd in Hy. destruct (Nat.eqb_spec j q) as [->|]; [destruct (Nat.ltb q (length (as_threads N s))); [injection Hy as <-; auto|discriminate]|apply W; eapply nth_error_In; exact Hy]. }
      cbn in Hc. destruct (Nat.eq_dec j i) as [->|Nj].
      + rewrite Hu in Ex. injection Ex as <-. destruct C as [C|[-> Fin]].
        * refine (IH (MkAS N m' (upd (as_threads N s) i x')) V' Wall x' t _ Ht _); [|lia]. cbn. rewrite nth_error_upd, Nat.eqb_refl. assert (i < length (as_threads N s)) by (apply nth_error_Some; congruence). rewrite (proj2 (Nat.ltb_lt _ _) H). reflexivity.
        * refine (IH (MkAS N m' (upd (as_threads N s) i u)) V' Wall u t _ Ht _).
          -- cbn. rewrite nth_error_upd, Nat.eqb_refl. assert (i < length (as_threads N s)) by (apply nth_error_Some; congruence). rewrite (proj2 (Nat.ltb_lt _ _) H). reflexivity.
          -- destruct Fin as [F1 F2]. unfold left_over. rewrite F2, F1. cbn. lia.
      + refine (IH (MkAS N m' (upd (as_threads N s) j x')) V' Wall u t _ Ht _); [|exact Hc]. cbn. rewrite nth_error_upd. destruct (Nat.eqb_spec j i); [contradiction|exact Hu]. }
  refine (G schedule (ainit m0 programs) _ _ (MkAT N P Idle []) t _ Ht _).
  - intro k. cbn. destruct (m0 k); auto.
  - cbn. intros u Hu. apply in_map_iff in Hu as (Q & <- & HQ). split; [exact I|exact (Qs Q HQ)].
  - cbn. rewrite nth_error_map, HP. reflexivity.
  - exact Hc.
Qed.
End Arr.

(** *** Arrays built through the API are such arrays *)
Theorem C78_constructed : forall mn mx p n (a : DoubleArr FNum) vs, da_make FNum mn mx p n = Ok a -> length vs = n ->
  (forall v, In v vs -> exists i, n_toint FNum (n_div FNum (n_sub FNum v mn) (dp_prec FNum (da_sample FNum a))) = Ok i) ->
  exists g, sane FNum (da_with_values FNum a vs) g.
Proof.
  intros mn mx p n a vs Ha Hn Hq. unfold da_make in Ha. apply bind_ok in Ha as (s & Hs & Ha). apply bind_ok in Ha as (k & Hk & Ha). injection Ha as <-. cbn [da_sample] in Hq.
  destruct (dp_make_F_inv _ _ _ _ _ Hs) as (g & i & Hg & _ & _ & _ & _ & ->). cbn in Hk. injection Hk as <-. exists g. unfold sane, da_with_values. cbn [da_sample da_values da_size dp_size]. split; [reflexivity|]. split; [rewrite Hn; reflexivity|].
  intros v Hv. destruct (Hq v Hv) as (j & Hj). cbn [dp_prec] in Hj.
  assert (Es : dp_set_value FNum {| dp_base := Some (MkInt i 0 (2 ^ Z.of_nat g) (Some g)); dp_min := mn; dp_max := mx; dp_prec := d_div (d_sub mx mn) (d_ofZ (2 ^ Z.of_nat g)); dp_size := Some g |} v =
    Ok {| dp_base := Some (MkInt j 0 (2 ^ Z.of_nat g) (Some g)); dp_min := mn; dp_max := mx; dp_prec := d_div (d_sub mx mn) (d_ofZ (2 ^ Z.of_nat g)); dp_size := Some g |}).
  { unfold dp_set_value, dp_quantise. cbn [dp_min dp_prec dp_base]. rewrite Hj. reflexivity. }
  split.
  - eexists. eexists. split; [exact Es|]. reflexivity.
  - intros old Lo. assert (Ij : in_int j = true). { cbn [n_toint FNum] in Hj. unfold d_toint in Hj. destruct (is_finite _); [|discriminate]. destruct (in_int _) eqn:E in Hj; [|discriminate]. injection Hj as <-. exact E. }
    eexists. split; [eexists; split; [exact Es|]|].
    + unfold dp_set_chromosome, ip_set_chromosome. cbn [dp_base ip_size ip_value ip_min cs_check]. rewrite Lo, Nat.eqb_refl. cbn [bind]. rewrite chk_int_ok by (rewrite Z.sub_0_r; apply in_int_true; exact Ij). cbn [bind]. rewrite bits_from_int_spec by lia. reflexivity.
    + rewrite z_bits_length. exact Lo.
Qed.
Print Assumptions C78_private. Print Assumptions C78_shared. Print Assumptions C78_shared_check. Print Assumptions C78_any_mixture_refuted. Print Assumptions C78_wrong_true_refuted.
Print Assumptions C78_wait_free. Print Assumptions C78_constructed.

(** Three elements over [0,8] with precision 1, holding 5, 0 and 9: CheckConstraints is false, but with another thread encoding the object it can answer true. *)
Definition nine : list dbl := [d_ofZ 5; d_ofZ 0; d_ofZ 9].
Definition nine_test (a : DoubleArr FNum) : bool :=
  let a' := da_with_values FNum a nine in
  match da_check FNum a' with Ok false => true | _ => false end &&
  match (let! s := dp_set_value FNum (da_sample FNum a') (d_ofZ 5) in dp_check FNum s) with Ok true => true | _ => false end &&
  forallb (fun v => match n_toint FNum (n_div FNum (n_sub FNum v (d_ofZ 0)) (dp_prec FNum (da_sample FNum a))) with Ok _ => true | _ => false end) nine.
Example C78_witness : exists a g, sane FNum a g /\ da_values FNum a = nine /\ da_check FNum a = Ok false /\ within FNum a (d_ofZ 5) true.
Proof.
  assert (T : match da_make FNum (d_ofZ 0) (d_ofZ 8) (d_ofZ 1) 3 with Ok a => nine_test a | _ => false end = true) by (vm_compute; reflexivity).
  destruct (da_make FNum (d_ofZ 0) (d_ofZ 8) (d_ofZ 1) 3) as [a|e|u] eqn:Ea; try discriminate. unfold nine_test in T. apply andb_prop in T as [T T3]. apply andb_prop in T as [T1 T2].
  destruct (C78_constructed _ _ _ _ a nine Ea eq_refl) as [g Sa].
  { intros v Hv. apply (proj1 (forallb_forall _ _) T3) in Hv. destruct (n_toint FNum _) as [i| |]; try discriminate. exists i. reflexivity. }
  exists (da_with_values FNum a nine), g. split; [exact Sa|]. split; [reflexivity|]. split.
  - destruct (da_check FNum (da_with_values FNum a nine)) as [[]| |]; try discriminate. reflexivity.
  - destruct (dp_set_value FNum (da_sample FNum (da_with_values FNum a nine)) (d_ofZ 5)) as [s| |] eqn:Es; try discriminate. cbn [bind] in T2. exists s. split; [exact Es|]. destruct (dp_check FNum s) as [[]| |]; try discriminate. reflexivity.
Qed.
Example C78_witness_wrong : exists (a : DoubleArr FNum) m0 programs schedule t, m0 0 = Some a /\ (forall P, In P programs -> queries P) /\ da_check FNum a = Ok false /\
  nth_error (as_threads FNum (arun FNum schedule (ainit FNum m0 programs))) 0 = Some t /\ at_done FNum t = [Answer FNum (Ok true)].
Proof.
  destruct C78_witness as (a & g & Sa & Hv & Hc & W). set (m0 := fun k : nat => if Nat.eqb k 0 then Some a else None).
  destruct (C78_wrong_true_refuted FNum a g m0 (d_ofZ 5) (repeat false (g * length (da_values FNum a))) Sa eq_refl) as (schedule & t & Ht & _ & Hd); [rewrite Hv; left; reflexivity|exact W|apply repeat_length|].
  exists a, m0, [[Check 0]; repeat (Encode 0 (repeat false (g * length (da_values FNum a)))) (length (da_values FNum a))], schedule, t. split; [reflexivity|]. split; [|auto].
  intros P [<-|[<-|[]]] k j H; [destruct H as [H|[]]; discriminate|]. apply repeat_spec in H. discriminate.
Qed.
(** Each of two threads works on its own clone of a common object. *)
Example C78_witness_private : private (fun k => if Nat.eqb k 1 then 0 else if Nat.eqb k 2 then 1 else 0) [[Clone 0 1; Check 1; Values 0; Encode 1 []]; [Clone 0 2; Encode 2 []; Check 2]].
Proof.
  assert (U : untouched [[Clone 0 1; Check 1; Values 0; Encode 1 []]; [Clone 0 2; Encode 2 []; Check 2]] 0).
  { intros P j [<-|[<-|[]]] H; cbn in H; repeat (destruct H as [H|H]; try discriminate); exact H. }
  intros [|[|i]] P op HP Ho; cbn in HP; [injection HP as <-|injection HP as <-|destruct i; discriminate]; cbn in Ho; repeat (destruct Ho as [<-|Ho]; [cbn; auto|]); destruct Ho.
Qed.
