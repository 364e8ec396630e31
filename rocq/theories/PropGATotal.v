(** C79: the genetic algorithm always finishes. *)
From Coq Require Import Reals Psatz Permutation.
From Flocq Require Import Core.Core IEEE754.BinarySingleNaN.
From Flocq Require Import Mult_error.
From Verif Require Import Base Num DblOrder IntProofs FloatLemmas RoundError Random Params Mutators Cache Individual LibEnv GA CounterProofs PropIndividual PropSelect.
Local Open Scope Z_scope.
Local Open Scope list_scope.

(** What is asked of the parameters class, the random numbers and the mutator: chromosomes have [n] genes; every object
    ([ok]) can be cloned, and decoding any chromosome of [n] genes gives an object that satisfies its constraints; random
    numbers are within range and mutation keeps the number of genes, in every world that satisfies the invariant [I];
    std::sort permutes. *)
Record tame (E : env) (ok : e_par E -> Prop) (n : nat) (gens : Z) (I J : e_w E -> Prop) : Prop := MkTame {
  tm_size : forall p, ok p -> e_size E p = Ok n;
  tm_cln : forall p, ok p -> exists q, e_cln E p = Ok q /\ ok q /\ e_chk E q = e_chk E p;
  tm_dec : forall p c, ok p -> length c = n -> exists q, e_dec E p c = (q, Ok tt) /\ ok q /\ e_chk E q = Ok true;
  tm_rm : 0 < e_rm E <= INT_MAX;
  tm_rand : forall w, I w -> 0 <= fst (e_rand E w) <= e_rm E /\ I (snd (e_rand E w));
  tm_bool : forall w, I w -> exists b w', e_bool E w = (Ok b, w') /\ I w';
  tm_ctx : forall current w, 0 <= current < gens -> I w -> J (e_ctx E current gens w);
  tm_mut : forall w c, J w -> length c = n -> exists c' w', e_mut E c w = (Ok c', w') /\ length c' = n /\ J w';
  tm_back : forall w, J w -> I w;
  tm_sort : forall l, Forall (fun x => is_num (fst x) = true) l -> Permutation (e_sort E l) l;
  tm_genes : (1 <= n)%nat /\ Z.of_nat n <= INT_MAX }.

(** a value of the objective function that cannot make the sums of a generation overflow *)
Definition moderate (v : dbl) : Prop := is_finite v = true /\ (0 <= B2R v <= bpow radix2 990)%R.

Lemma moderate_ltb v : moderate v -> d_ltb v (d_ofZ 0) = false.
Proof.
  intros [F B]. destruct (d_ofZ_exact 0 ltac:(lia)) as [Z0 Z1]. destruct (d_ltb v (d_ofZ 0)) eqn:L; [|reflexivity].
  apply (d_ltb_R _ _ F Z0) in L. rewrite Z1 in L. lra.
Qed.
Lemma moderate_leb v : moderate v -> d_leb (d_ofZ 0) v = true.
Proof.
  intros [F B]. destruct (d_ofZ_exact 0 ltac:(lia)) as [Z0 Z1]. apply (d_leb_R _ _ Z0 F). rewrite Z1. lra.
Qed.
Lemma moderate_num v : moderate v -> is_num v = true.
Proof. intros [F _]. unfold is_num. destruct v; try reflexivity; discriminate. Qed.
Lemma sum_moderate : forall vs (acc : dbl) (j : Z), Forall moderate vs -> is_finite acc = true -> 0 <= j -> j + Z.of_nat (length vs) <= 2 ^ 31 ->
  (0 <= B2R acc <= IZR j * bpow radix2 990)%R -> is_finite (fold_left d_add vs acc) = true.
Proof.
  induction vs as [|v vs IH]; intros acc j Hv Fa Hj Hl Ba; [exact Fa|]. cbn [fold_left]. apply Forall_cons_iff in Hv as [[Fv Bv] Hv].
  cbn [length] in Hl. 
  assert (Fm : fmt64 (IZR (j + 1) * bpow radix2 990)).
  { apply mult_bpow_pos_exact_FLT; [apply fmt_IZR; change (2 ^ 53) with 9007199254740992; change (2 ^ 31) with 2147483648 in Hl; lia|lia]. }
  assert (X : (B2R acc + B2R v <= IZR (j + 1) * bpow radix2 990)%R) by (rewrite plus_IZR; lra).
  assert (Y : (IZR (j + 1) * bpow radix2 990 <= bpow radix2 1023)%R).
  { change 1023 with (33 + 990). rewrite bpow_plus. apply Rmult_le_compat_r; [apply bpow_ge_0|]. change (bpow radix2 33) with (IZR (2 ^ 33)). apply IZR_le.
    change (2 ^ 31) with 2147483648 in Hl. change (2 ^ 33) with 8589934592. lia. }
  destruct (d_add_finite acc v Fa Fv) as [F1 V1]; [apply no_overflow; rewrite Rabs_pos_eq; lra|].
  apply (IH _ (j + 1)); [exact Hv|exact F1|lia|lia|]. rewrite V1. split; [rewrite <- rnd_0; apply rnd_le; lra|apply rnd_le_fmt; [exact X|exact Fm]].
Qed.

Lemma wbind_run {W X Y} (m : wm W X) (g : X -> wm W Y) w x w1 : m w = (Ok x, w1) -> wbind m g w = g x w1.
Proof. intro H. unfold wbind. rewrite H. reflexivity. Qed.
Lemma lift_run {W X} (o : outcome X) (w : W) x : o = Ok x -> wlift o w = (Ok x, w).
Proof. intros ->. reflexivity. Qed.

Section Total.
Variable E : env.
Variable ok : e_par E -> Prop.
Variable n : nat.
Variable gens : Z.
Variables I J : e_w E -> Prop.
Hypothesis T : tame E ok n gens I J.
Hypothesis fuel : (1 <= e_fuel E)%nat.
Variable hash : list bool -> Z.
Variable f : e_par E -> outcome dbl.
Hypothesis total : forall p, ok p -> e_chk E p = Ok true -> exists v, f p = Ok v /\ moderate v.
Variable limit : dbl.
Notation indiv := (indiv E).
Notation heap := (heap E).
Notation counter := counter.

Definition iok (i : indiv) : Prop := ok (i_par E i) /\ length (i_chr E i) = n /\ (i_has E i = true -> moderate (i_fit E i)).
Definition hok (h : heap) : Prop := Forall iok h.
(** addresses of individuals that satisfy their constraints *)
Definition pok (h : heap) (pop : list nat) : Prop := forall a, In a pop -> exists i, nth_error h a = Some i /\ e_chk E (i_par E i) = Ok true.
Definition hasfit (h : heap) (a : nat) : Prop := exists i, nth_error h a = Some i /\ i_has E i = true.
Definition mono (h h' : heap) : Prop := length h' = length h /\ forall a i, nth_error h a = Some i ->
  exists i', nth_error h' a = Some i' /\ i_par E i' = i_par E i /\ i_chr E i' = i_chr E i /\ (i_has E i = true -> i_has E i' = true).
Lemma mono_refl h : mono h h.
Proof. split; [reflexivity|]. intros a i H. exists i. auto. Qed.
Lemma mono_trans h1 h2 h3 : mono h1 h2 -> mono h2 h3 -> mono h1 h3.
Proof.
  intros [L1 M1] [L2 M2]. split; [congruence|]. intros a i H. destruct (M1 a i H) as (i2 & A & B & C & D). destruct (M2 a i2 A) as (i3 & A' & B' & C' & D').
  exists i3. split; [exact A'|]. split; [congruence|]. split; [congruence|]. auto.
Qed.
Lemma mono_pok h h' pop : mono h h' -> pok h pop -> pok h' pop.
Proof. intros [_ M] P a Ha. destruct (P a Ha) as (i & A & B). destruct (M a i A) as (i' & A' & B' & _). exists i'. rewrite B'. auto. Qed.
Lemma mono_has h h' a : mono h h' -> hasfit h a -> hasfit h' a.
Proof. intros [_ M] (i & A & B). destruct (M a i A) as (i' & A' & _ & _ & D). exists i'. auto. Qed.
Lemma hok_nth h a i : hok h -> nth_error h a = Some i -> iok i.
Proof. intros H A. exact (proj1 (Forall_forall _ _) H _ (nth_error_In _ _ A)). Qed.
Lemma hok_upd h a i : hok h -> iok i -> hok (h_set E h a i).
Proof.
  intros H Hi. unfold h_set, hok. apply Forall_forall. intros x Hx. apply In_nth_error in Hx as [b Hb].
  destruct (Nat.eq_dec b a) as [->|N].
  - assert (La : (a < length h)%nat). { rewrite <- (upd_length h a i). apply nth_error_Some. congruence. }
    rewrite (upd_same h a i La) in Hb. injection Hb as <-. exact Hi.
  - rewrite (upd_other h a b i) in Hb by congruence. exact (hok_nth h b x H Hb).
Qed.
Lemma get_run h a i : nth_error h a = Some i -> h_get E h a = Ok i.
Proof. intro H. unfold h_get. rewrite H. reflexivity. Qed.
Lemma setfit_run i v : moderate v -> set_fitness E i v = Ok (MkInd E (i_par E i) (i_chr E i) true v (i_times E i)).
Proof. intro H. unfold set_fitness. rewrite (moderate_ltb v H). reflexivity. Qed.
Lemma setfit_mono h a i v : nth_error h a = Some i -> mono h (h_set E h a (MkInd E (i_par E i) (i_chr E i) true v (i_times E i))).
Proof.
  intro A. unfold h_set. split; [apply upd_length|]. intros b j Hb. assert (La : (a < length h)%nat) by (apply nth_error_Some; congruence).
  destruct (Nat.eq_dec b a) as [->|N].
  - rewrite upd_same by exact La. eexists. split; [reflexivity|]. assert (i = j) by congruence. subst j. cbn. auto.
  - rewrite upd_other by congruence. exists j. auto.
Qed.
Lemma setfit_has h a i v : nth_error h a = Some i -> hasfit (h_set E h a (MkInd E (i_par E i) (i_chr E i) true v (i_times E i))) a.
Proof. intro A. unfold hasfit, h_set. rewrite upd_same by (apply nth_error_Some; congruence). eexists. split; reflexivity. Qed.

(** the cache: at most [m] entries, all values moderate *)
Definition cinv (m : nat) (c : cache Z dbl) : Prop := c_limit Z dbl c = limit /\ c_bytes Z dbl c = 40 /\ (length (c_map Z dbl c) <= m)%nat /\
  Forall (fun e => forall v, sv_value dbl (snd e) = Some v -> moderate v) (c_map Z dbl c).
Definition kinv (m : nat) (k : counter) : Prop := match k_cache k with None => True | Some c => cinv m c end.
Lemma put_len key s mp : (length (put Z dbl Z.eqb key s mp) <= S (length mp))%nat.
Proof. induction mp as [|[k0 s0] r IH]; [cbn; lia|]. cbn [put]. destruct (Z.eqb key k0); cbn [length]; lia. Qed.
Lemma put_all key s mp (P : Z * stored dbl -> Prop) : (forall k0, P (k0, s)) -> Forall P mp -> Forall P (put Z dbl Z.eqb key s mp).
Proof.
  intros Hs H. induction H as [|[k0 s0] r H0 H IH]; [cbn; constructor; [apply Hs|constructor]|]. cbn [put]. destruct (Z.eqb key k0); constructor; auto.
Qed.
Lemma lookup_all key mp (P : stored dbl -> Prop) s : Forall (fun e => P (snd e)) mp -> lookup Z dbl Z.eqb key mp = Some s -> P s.
Proof.
  intros H. induction H as [|[k0 s0] r H0 H IH]; cbn [lookup]; [discriminate|]. destruct (Z.eqb key k0); [intro X; injection X as <-; exact H0|exact IH].
Qed.
Lemma touch_inv key mp m s mp' : touch Z dbl Z.eqb key mp = (s, mp') -> (length mp <= m)%nat ->
  Forall (fun e => forall v, sv_value dbl (snd e) = Some v -> moderate v) mp ->
  (length mp' <= S m)%nat /\ Forall (fun e => forall v, sv_value dbl (snd e) = Some v -> moderate v) mp' /\ (forall v, sv_value dbl s = Some v -> moderate v) /\
  (lookup Z dbl Z.eqb key mp <> None -> mp' = mp).
Proof.
  unfold touch. intros H L A. destruct (lookup Z dbl Z.eqb key mp) as [s0|] eqn:Lk; injection H as <- <-.
  - split; [lia|]. split; [exact A|]. split; [exact (lookup_all key mp (fun s => forall v, sv_value dbl s = Some v -> moderate v) s0 A Lk)|auto].
  - split; [pose proof (put_len key (MkStored dbl None 0) mp); lia|]. split; [apply put_all; [cbn; intros; discriminate|exact A]|]. split; [cbn; intros; discriminate|contradiction].
Qed.
Lemma process_total : forall pop h k m, hok h -> pok h pop -> kinv m k -> exists h' k' todo,
  process_population E hash h k pop = Ok (h', k', todo) /\ hok h' /\ mono h h' /\ kinv (m + 2 * length pop) k' /\ (forall a, In a todo -> In a pop) /\
  (forall a, In a pop -> In a todo \/ hasfit h' a) /\ (length todo <= length pop)%nat.
Proof.
  induction pop as [|a r IH]; intros h k m Hh Hp Hk.
  - exists h, k, []. split; [reflexivity|]. split; [exact Hh|]. split; [apply mono_refl|]. cbn [length]. rewrite Nat.add_0_r. split; [exact Hk|]. split; [auto|]. split; [intros a []|lia].
  - destruct (Hp a (or_introl eq_refl)) as (i & Hi & Ci). assert (Hp' : pok h r) by (intros b Hb; apply Hp; right; exact Hb).
    cbn [process_population]. rewrite (get_run h a i Hi). cbn [bind].
    assert (Cont : forall k1, kinv (m + 2) k1 -> exists h' k' todo,
      (let! x := process_population E hash h k1 r in Ok (fst (fst x), snd (fst x), a :: snd x)) = Ok (h', k', todo) /\ hok h' /\ mono h h' /\
      kinv (m + 2 * length (a :: r)) k' /\ (forall b, In b todo -> In b (a :: r)) /\ (forall b, In b (a :: r) -> In b todo \/ hasfit h' b) /\ (length todo <= length (a :: r))%nat).
    { intros k1 Hk1. destruct (IH h k1 (m + 2)%nat Hh Hp' Hk1) as (h' & k' & todo & E1 & A1 & A2 & A3 & A4 & A5 & A6). rewrite E1. cbn [bind fst snd].
      exists h', k', (a :: todo). split; [reflexivity|]. split; [exact A1|]. split; [exact A2|]. split; [cbn [length]; replace (m + 2 * S (length r))%nat with (m + 2 + 2 * length r)%nat by lia; exact A3|].
      split; [intros b [<-|Hb]; [left; reflexivity|right; auto]|]. split; [intros b [<-|Hb]; [left; left; reflexivity|destruct (A5 b Hb); [left; right; assumption|right; assumption]]|cbn [length]; lia]. }
    destruct (k_cache k) as [c|] eqn:Kc.
    2:{ apply Cont. unfold kinv. rewrite Kc. exact Logic.I. }
    assert (Hc : cinv m c) by (unfold kinv in Hk; rewrite Kc in Hk; exact Hk). destruct Hc as (C1 & C2 & C3 & C4).
    unfold is_cached. destruct (touch Z dbl Z.eqb (hash (i_chr E i)) (c_map Z dbl c)) as [s mp] eqn:Tc.
    destruct (touch_inv _ _ _ _ _ Tc C3 C4) as (D1 & D2 & D3 & D4).
    destruct (sv_value dbl s) as [v|] eqn:Sv.
    2:{ apply Cont. unfold kinv. cbn [k_cache]. split; [exact C1|]. split; [exact C2|]. cbn [with_map c_map]. split; [lia|exact D2]. }
    unfold get_cached. cbn [with_map c_map]. destruct (touch Z dbl Z.eqb (hash (i_chr E i)) mp) as [s2 mp2] eqn:Tc2.
    assert (Lk : exists s0, lookup Z dbl Z.eqb (hash (i_chr E i)) (c_map Z dbl c) = Some s0).
    { unfold touch in Tc. destruct (lookup Z dbl Z.eqb (hash (i_chr E i)) (c_map Z dbl c)); [eauto|]. injection Tc as <- _. discriminate Sv. }
    destruct Lk as [s0 Lk]. assert (Em : mp = c_map Z dbl c) by (apply D4; congruence). subst mp. rewrite Tc in Tc2. injection Tc2 as <- <-. rewrite Sv. cbn [bind].
    pose proof (D3 v eq_refl) as Mv. rewrite (setfit_run i v Mv). cbn [bind].
    set (i' := MkInd E (i_par E i) (i_chr E i) true v (i_times E i)).
    assert (Mo : mono h (h_set E h a i')) by (apply setfit_mono; exact Hi).
    assert (Hh' : hok (h_set E h a i')).
    { apply hok_upd; [exact Hh|]. destruct (hok_nth h a i Hh Hi) as (B1 & B2 & _). split; [exact B1|]. split; [exact B2|]. intros _. exact Mv. }
    destruct (IH (h_set E h a i') (MkCounter (Some (with_map Z dbl (with_map Z dbl c (c_map Z dbl c)) (put Z dbl Z.eqb (hash (i_chr E i)) (MkStored dbl (Some v) (S (sv_usage dbl s))) (c_map Z dbl c)))) (k_hits k + 1) (k_counts k)) (m + 2)%nat Hh')
      as (h' & k' & todo & E1 & A1 & A2 & A3 & A4 & A5 & A6).
    { exact (mono_pok _ _ _ Mo Hp'). }
    { unfold kinv. cbn [k_cache]. split; [exact C1|]. split; [exact C2|]. cbn [with_map c_map]. split.
      - pose proof (put_len (hash (i_chr E i)) (MkStored dbl (Some v) (S (sv_usage dbl s))) (c_map Z dbl c)). lia.
      - apply put_all; [|exact C4]. cbn. intros k0 v0 X. injection X as <-. exact Mv. }
    exists h', k', todo. split; [exact E1|]. split; [exact A1|]. split; [exact (mono_trans _ _ _ Mo A2)|].
    split; [cbn [length]; replace (m + 2 * S (length r))%nat with (m + 2 + 2 * length r)%nat by lia; exact A3|].
    split; [intros b Hb; right; auto|]. split; [|cbn [length]; lia]. intros b [<-|Hb]; [|exact (A5 b Hb)].
    right. apply (mono_has (h_set E h a i') h' a A2). apply setfit_has. exact Hi.
Qed.

Lemma count_total h todo : hok h -> pok h todo -> exists vs, count_values E f h todo = Ok vs /\ length vs = length todo /\ Forall moderate vs.
Proof.
  intros Hh. unfold count_values. induction todo as [|a r IH]; intro Hp; [exists []; split; [reflexivity|split; [reflexivity|constructor]]|].
  destruct (Hp a (or_introl eq_refl)) as (i & Hi & Ci). destruct (hok_nth h a i Hh Hi) as (B1 & _).
  destruct (total _ B1 Ci) as (v & Hv & Mv). destruct (IH (fun b Hb => Hp b (or_intror Hb))) as (vs & E1 & L & F).
  cbn [mapM]. rewrite (get_run h a i Hi). cbn [bind]. rewrite Hv. cbn [bind]. rewrite E1. cbn [bind].
  exists (v :: vs). split; [reflexivity|]. split; [cbn; congruence|constructor; assumption].
Qed.
Lemma assign_total : forall todo vs h, hok h -> pok h todo -> length vs = length todo -> Forall moderate vs ->
  exists h', assign_fitness E h todo vs = Ok h' /\ hok h' /\ mono h h' /\ forall a, In a todo -> hasfit h' a.
Proof.
  induction todo as [|a r IH]; intros [|v vs] h Hh Hp L F; try discriminate L.
  - exists h. split; [reflexivity|]. split; [exact Hh|]. split; [apply mono_refl|intros a []].
  - destruct (Hp a (or_introl eq_refl)) as (i & Hi & Ci). apply Forall_cons_iff in F as [Mv F].
    cbn [assign_fitness]. rewrite (get_run h a i Hi). cbn [bind]. rewrite (setfit_run i v Mv). cbn [bind].
    set (i' := MkInd E (i_par E i) (i_chr E i) true v (i_times E i)).
    assert (Mo : mono h (h_set E h a i')) by (apply setfit_mono; exact Hi).
    assert (Hh' : hok (h_set E h a i')).
    { apply hok_upd; [exact Hh|]. destruct (hok_nth h a i Hh Hi) as (B1 & B2 & _). split; [exact B1|]. split; [exact B2|]. intros _. exact Mv. }
    destruct (IH vs (h_set E h a i') Hh') as (h' & E1 & A1 & A2 & A3); [|cbn in L; congruence|exact F|].
    { apply (mono_pok h _ r Mo). intros b Hb. apply Hp. right. exact Hb. }
    exists h'. split; [exact E1|]. split; [exact A1|]. split; [exact (mono_trans _ _ _ Mo A2)|]. intros b [<-|Hb]; [|auto].
    apply (mono_has (h_set E h a i') h' a A2). apply setfit_has. exact Hi.
Qed.
Lemma fit_run h a i : nth_error h a = Some i -> i_has E i = true -> fit_of E h a = Ok (i_fit E i).
Proof. intros A B. unfold fit_of. rewrite (get_run h a i A). cbn [bind]. unfold get_fitness. rewrite B. reflexivity. Qed.
Lemma records_total h todo : hok h -> (forall a, In a todo -> hasfit h a) -> exists rs, cache_records E hash h todo = Ok rs /\ length rs = length todo /\ Forall (fun r => moderate (snd r)) rs.
Proof.
  intro Hh. unfold cache_records. induction todo as [|a r IH]; intro Hf; [exists []; split; [reflexivity|split; [reflexivity|constructor]]|].
  destruct (Hf a (or_introl eq_refl)) as (i & Hi & Ci). destruct (hok_nth h a i Hh Hi) as (_ & _ & B3).
  destruct (IH (fun b Hb => Hf b (or_intror Hb))) as (rs & E1 & L & F).
  cbn [mapM]. rewrite (get_run h a i Hi). cbn [bind]. unfold get_fitness at 1. rewrite Ci. cbn [bind]. rewrite E1. cbn [bind].
  eexists. split; [reflexivity|]. split; [cbn; congruence|]. constructor; [cbn; auto|exact F].
Qed.
Lemma fold_put : forall (rs : list (Z * dbl)) mp m, Forall (fun r => moderate (snd r)) rs -> (length mp <= m)%nat ->
  Forall (fun e : Z * stored dbl => forall v, sv_value dbl (snd e) = Some v -> moderate v) mp ->
  let mp' := fold_left (fun m r => put Z dbl Z.eqb (fst r) (MkStored dbl (Some (snd r)) 0) m) rs mp in
  (length mp' <= m + length rs)%nat /\ Forall (fun e => forall v, sv_value dbl (snd e) = Some v -> moderate v) mp'.
Proof.
  induction rs as [|r rs IH]; intros mp m F L A; cbn [fold_left length]; [split; [lia|exact A]|]. apply Forall_cons_iff in F as [F1 F].
  destruct (IH (put Z dbl Z.eqb (fst r) (MkStored dbl (Some (snd r)) 0) mp) (S m) F) as [B1 B2].
  - pose proof (put_len (fst r) (MkStored dbl (Some (snd r)) 0) mp). lia.
  - apply put_all; [|exact A]. cbn. intros k0 v X. injection X as <-. exact F1.
  - split; [lia|exact B2].
Qed.
Lemma obtain_total h k pop m : hok h -> pok h pop -> kinv m k -> (forall j, (j <= m + 2 * length pop)%nat -> over limit 40 j = false) ->
  exists h' k', obtain_fitness E hash f h k pop = Ok (h', k') /\ hok h' /\ mono h h' /\ kinv (m + 3 * length pop) k' /\ forall a, In a pop -> hasfit h' a.
Proof.
  intros Hh Hp Hk Ho. destruct (process_total pop h k m Hh Hp Hk) as (h1 & k1 & todo & E1 & A1 & A2 & A3 & A4 & A5 & A6).
  unfold obtain_fitness. rewrite E1. cbn [bind].
  assert (P1 : pok h1 todo) by (intros a Ha; apply (mono_pok h h1 pop A2 Hp); auto).
  destruct (count_total h1 todo A1 P1) as (vs & E2 & L2 & F2). rewrite E2. cbn [bind].
  destruct (assign_total todo vs h1 A1 P1 L2 F2) as (h2 & E3 & B1 & B2 & B3). rewrite E3. cbn [bind k_cache].
  assert (Fit : forall a, In a pop -> hasfit h2 a). { intros a Ha. destruct (A5 a Ha) as [X|X]; [auto|exact (mono_has _ _ _ B2 X)]. }
  unfold kinv in A3. destruct (k_cache k1) as [c|] eqn:Kc.
  2:{ eexists h2, _. split; [reflexivity|]. split; [exact B1|]. split; [exact (mono_trans _ _ _ A2 B2)|]. split; [exact Logic.I|exact Fit]. }
  destruct A3 as (C1 & C2 & C3 & C4).
  destruct (records_total h2 todo B1 B3) as (rs & E4 & L4 & F4). rewrite E4. cbn [bind].
  unfold add_values, clear_up_to_limit, exceeded. rewrite C1, C2, (Ho _ C3), C1, C2, (Ho _ C3). cbn [bind].
  destruct (fold_put rs (c_map Z dbl c) _ F4 C3 C4) as [G1 G2].
  eexists h2, _. split; [reflexivity|]. split; [exact B1|]. split; [exact (mono_trans _ _ _ A2 B2)|]. split; [|exact Fit].
  unfold kinv. cbn [k_cache]. split; [exact C1|]. split; [exact C2|]. cbn [with_map c_map]. split; [lia|exact G2].
Qed.

Lemma fuel_S : exists fu, e_fuel E = S fu.
Proof. destruct (e_fuel E); [lia|eauto]. Qed.

(** ** one generation *)
Definition ext (h h' : heap) : Prop := forall a i, nth_error h a = Some i ->
  exists i', nth_error h' a = Some i' /\ i_par E i' = i_par E i /\ i_chr E i' = i_chr E i /\ i_has E i' = i_has E i /\ i_fit E i' = i_fit E i.
Lemma ext_refl h : ext h h.
Proof. intros a i H. exists i. auto. Qed.
Lemma ext_trans h1 h2 h3 : ext h1 h2 -> ext h2 h3 -> ext h1 h3.
Proof.
  intros A B a i H. destruct (A a i H) as (i2 & X1 & X2 & X3 & X4 & X5). destruct (B a i2 X1) as (i3 & Y1 & Y2 & Y3 & Y4 & Y5).
  exists i3. repeat split; congruence.
Qed.
Lemma ext_new h i : ext h (h ++ [i]).
Proof. intros a j H. exists j. rewrite nth_error_app1 by (apply nth_error_Some; congruence). auto. Qed.
Lemma ext_times t h a : ext h (set_times E t h a).
Proof.
  intros b j H. unfold set_times. destruct (nth_error h a) as [i|] eqn:A; [|exists j; auto]. unfold h_set.
  destruct (Nat.eq_dec b a) as [->|N].
  - rewrite upd_same by (apply nth_error_Some; congruence). eexists. split; [reflexivity|]. assert (i = j) by congruence. subst j. cbn. auto.
  - rewrite upd_other by congruence. exists j. auto.
Qed.
Lemma hok_times t h a : hok h -> hok (set_times E t h a).
Proof.
  intro H. unfold set_times. destruct (nth_error h a) as [i|] eqn:A; [|exact H]. apply hok_upd; [exact H|]. exact (hok_nth h a i H A).
Qed.
Lemma len_times t h a : length (set_times E t h a) = length h.
Proof. unfold set_times. destruct (nth_error h a); [apply upd_length|reflexivity]. Qed.
Lemma hok_new h i : hok h -> iok i -> hok (h ++ [i]).
Proof. intros A B. apply Forall_app. split; [exact A|constructor; [exact B|constructor]]. Qed.
Lemma ext_fit h h' a v : ext h h' -> fit_of E h a = Ok v -> fit_of E h' a = Ok v.
Proof.
  intros X H. unfold fit_of, h_get in *. destruct (nth_error h a) as [i|] eqn:A; [|discriminate H]. destruct (X a i A) as (i' & B1 & _ & _ & B4 & B5).
  rewrite B1. cbn [bind] in *. unfold get_fitness in *. rewrite B4, B5. exact H.
Qed.
Lemma ext_fits h h' pop fits : ext h h' -> mapM (fit_of E h) pop = Ok fits -> mapM (fit_of E h') pop = Ok fits.
Proof.
  intros X. revert fits. induction pop as [|a r IH]; intros fits H; [exact H|]. cbn [mapM] in *.
  apply bind_ok in H as (v & H1 & H). apply bind_ok in H as (vs & H2 & H). rewrite (ext_fit _ _ _ _ X H1). cbn [bind]. rewrite (IH vs H2). exact H.
Qed.
Lemma ext_pok h h' pop : ext h h' -> pok h pop -> pok h' pop.
Proof. intros X P a Ha. destruct (P a Ha) as (i & A & B). destruct (X a i A) as (i' & A' & B' & _). exists i'. rewrite B'. auto. Qed.
Lemma fits_total h pop : hok h -> (forall a, In a pop -> hasfit h a) -> exists fits, mapM (fit_of E h) pop = Ok fits /\ length fits = length pop /\ Forall moderate fits.
Proof.
  intro Hh. induction pop as [|a r IH]; intro Hf; [exists []; split; [reflexivity|split; [reflexivity|constructor]]|].
  destruct (Hf a (or_introl eq_refl)) as (i & Hi & Ci). destruct (hok_nth h a i Hh Hi) as (_ & _ & B3).
  destruct (IH (fun b Hb => Hf b (or_intror Hb))) as (fs & E1 & L & F).
  cbn [mapM]. rewrite (fit_run h a i Hi Ci). cbn [bind]. rewrite E1. cbn [bind].
  eexists. split; [reflexivity|]. split; [cbn; congruence|]. constructor; [auto|exact F].
Qed.
Lemma copy_total i : iok i -> exists j, ind_copy E i = Ok j /\ iok j /\ e_chk E (i_par E j) = e_chk E (i_par E i) /\ i_chr E j = i_chr E i.
Proof.
  intros (A & B & C). destruct (tm_cln _ _ _ _ _ _ T _ A) as (q & Q1 & Q2 & Q3). unfold ind_copy. rewrite Q1. cbn [bind].
  eexists. split; [reflexivity|]. cbn. unfold iok. cbn. auto.
Qed.
Lemma set_total i c : iok i -> length c = n -> exists j, ind_set E i c = Ok j /\ iok j /\ e_chk E (i_par E j) = Ok true.
Proof.
  intros (A & _) L. destruct (tm_dec _ _ _ _ _ _ T _ c A L) as (q & Q1 & Q2 & Q3). unfold ind_set. rewrite Q1. cbn [bind].
  eexists. split; [reflexivity|]. unfold iok. cbn. split; [|exact Q3]. split; [exact Q2|]. split; [exact L|discriminate].
Qed.
Lemma cross_len : forall q a b, length a = length b -> length (fst (cross_from q a b)) = length a /\ length (snd (cross_from q a b)) = length b.
Proof.
  intros q a. revert q. induction a as [|x a IH]; intros q [|y b] L; try discriminate L; [split; reflexivity|]. cbn in L.
  cbn [cross_from]. destruct q as [|q].
  - destruct (IH O b ltac:(congruence)) as [X Y]. destruct (cross_from O a b) as [ra rb]. cbn in X, Y. destruct (Bool.eqb x y); cbn; split; congruence.
  - destruct (IH q b ltac:(congruence)) as [X Y]. destruct (cross_from q a b) as [ra rb]. cbn in X, Y. cbn; split; congruence.
Qed.
Lemma discrete_total r m : 0 <= r <= INT_MAX -> 1 <= m <= INT_MAX -> exists q, discrete_of r 0 (m - 1) = Ok q.
Proof.
  intros Hr Hm. unfold discrete_of. unfold INT_MAX in *. rewrite chk_int_ok by (unfold INT_MIN, INT_MAX; lia). cbn [bind].
  rewrite chk_int_ok by (unfold INT_MIN, INT_MAX; lia). cbn [bind].
  destruct (Z.eqb_spec (m - 1 - 0 + 1) 0) as [X|X]; [lia|].
  assert (0 <= Z.rem r (m - 1 - 0 + 1) < m - 1 - 0 + 1) by (apply Z.rem_bound_pos; lia).
  eexists. apply chk_int_ok. unfold INT_MIN, INT_MAX. lia.
Qed.
Lemma boolx_total a b w : I w -> length a = n -> length b = n -> exists a' b' w', bool_crossover E a b w = (Ok (a', b'), w') /\ length a' = n /\ length b' = n /\ I w'.
Proof.
  intros Hw La Lb. unfold bool_crossover. rewrite La, Lb, Nat.eqb_refl. cbn [negb].
  destruct (tm_rand _ _ _ _ _ _ T w Hw) as [R1 R2]. destruct (tm_rm _ _ _ _ _ _ T) as [R3 R4]. destruct (tm_genes _ _ _ _ _ _ T) as [G1 G2].
  destruct (e_rand E w) as [r w']. cbn [fst snd] in *.
  destruct (discrete_total r (Z.of_nat n) ltac:(lia) ltac:(lia)) as [q Q]. rewrite Q. cbn [bind].
  destruct (cross_len (Z.to_nat q) a b ltac:(congruence)) as [X Y]. destruct (cross_from (Z.to_nat q) a b) as [a' b']. cbn in X, Y.
  exists a', b', w'. split; [reflexivity|]. split; [congruence|]. split; [congruence|exact R2].
Qed.
Lemma crossover_total i j w : I w -> iok i -> iok j -> exists i' j' w', ind_crossover E i j w = (Ok (i', j', true), w') /\
  iok i' /\ iok j' /\ e_chk E (i_par E i') = Ok true /\ e_chk E (i_par E j') = Ok true /\ I w'.
Proof.
  intros Hw Hi Hj. destruct (boolx_total (i_chr E i) (i_chr E j) w Hw) as (a' & b' & w' & B1 & B2 & B3 & B4); [apply Hi|apply Hj|].
  destruct (set_total i a' Hi B2) as (i' & S1 & S2 & S3). destruct (set_total j b' Hj B3) as (j' & U1 & U2 & U3).
  exists i', j', w'. split; [|auto]. unfold ind_crossover. rewrite (wbind_run _ _ _ _ _ B1). cbn [fst snd].
  rewrite (wbind_run _ _ _ _ _ (lift_run _ _ _ S1)). rewrite (wbind_run _ _ _ _ _ (lift_run _ _ _ U1)). rewrite (wbind_run _ _ _ _ _ (lift_run _ _ _ S3)).
  cbv iota. rewrite (wbind_run _ _ _ _ _ (lift_run _ _ _ U3)). reflexivity.
Qed.

Section Gen.
Variable pop : list nat.
Variable fits : list dbl.
Hypothesis pop_ne : pop <> [].
Hypothesis fits_mod : Forall moderate fits.
Let sum := fold_left d_add fits (d_ofZ 0).
Hypothesis sum_fin : is_finite sum = true.

Lemma select_total h w : mapM (fit_of E h) pop = Ok fits -> I w -> exists i a w', select_index E h pop sum w = (Ok i, w') /\ at_ pop i = Ok a /\ In a pop /\ I w'.
Proof.
  intros Hm Hw. destruct (tm_rand _ _ _ _ _ _ T w Hw) as [R1 R2]. destruct (e_rand E w) as [r w'] eqn:Er. cbn [fst snd] in *.
  destruct (C27_never_throws E h pop fits w r w' (tm_rm _ _ _ _ _ _ T) Er R1 pop_ne Hm) as (i & X & Y); [|exact sum_fin|].
  { eapply Forall_impl; [|exact fits_mod]. intros v. apply moderate_leb. }
  destruct (nth_error pop i) as [a|] eqn:Ha; [|apply nth_error_None in Ha; lia].
  exists i, a, w'. split; [exact X|]. split; [unfold at_; rewrite Ha; reflexivity|]. split; [exact (nth_error_In _ _ Ha)|exact R2].
Qed.
Lemma cross_total h w : hok h -> pok h pop -> mapM (fit_of E h) pop = Ok fits -> I w -> exists h' c1 c2 w',
  cross_loop E (e_fuel E) h pop sum w = (Ok (h', (c1, c2)), w') /\ hok h' /\ ext h h' /\ iok c1 /\ iok c2 /\
  e_chk E (i_par E c1) = Ok true /\ e_chk E (i_par E c2) = Ok true /\ I w'.
Proof.
  intros Hh Hp Hm Hw. destruct fuel_S as [fu Fu]; rewrite Fu. cbn [cross_loop].
  destruct (select_total h w Hm Hw) as (i1 & a1 & w1 & S1 & S2 & S3 & S4). rewrite (wbind_run _ _ _ _ _ S1).
  destruct (select_total h w1 Hm S4) as (i2 & a2 & w2 & U1 & U2 & U3 & U4). rewrite (wbind_run _ _ _ _ _ U1).
  rewrite (wbind_run _ _ _ _ _ (lift_run _ _ _ S2)). rewrite (wbind_run _ _ _ _ _ (lift_run _ _ _ U2)).
  destruct (Hp a1 S3) as (p1 & P1 & Q1). destruct (Hp a2 U3) as (p2 & P2 & Q2).
  rewrite (wbind_run _ _ _ _ _ (lift_run _ _ _ (get_run h a1 p1 P1))). rewrite (wbind_run _ _ _ _ _ (lift_run _ _ _ (get_run h a2 p2 P2))).
  destruct (copy_total p1 (hok_nth _ _ _ Hh P1)) as (c1 & C1 & C2 & _). destruct (copy_total p2 (hok_nth _ _ _ Hh P2)) as (c2 & D1 & D2 & _).
  rewrite (wbind_run _ _ _ _ _ (lift_run _ _ _ C1)). rewrite (wbind_run _ _ _ _ _ (lift_run _ _ _ D1)).
  destruct (crossover_total c1 c2 w2 U4 C2 D2) as (i' & j' & w' & X1 & X2 & X3 & X4 & X5 & X6). cbv zeta.
  rewrite (wbind_run _ _ _ _ _ X1). cbn [fst snd]. eexists _, i', j', w'. split; [reflexivity|].
  split; [apply hok_times, hok_times, Hh|]. split; [eapply ext_trans; apply ext_times|]. auto.
Qed.
Lemma pairs_total elit : forall k sorted ready h w, length sorted = (2 * k)%nat -> (forall a, In a sorted -> In a pop) -> hok h -> pok h pop ->
  mapM (fit_of E h) pop = Ok fits -> I w -> exists h' ps w', next_pairs E elit pop sum sorted ready h w = (Ok (h', ps), w') /\ hok h' /\ ext h h' /\ pok h' ps /\
  length ps = length sorted /\ I w'.
Proof.
  induction k as [|k IH]; intros sorted ready h w L Hs Hh Hp Hm Hw.
  - destruct sorted; [|discriminate L]. exists h, [], w. split; [reflexivity|]. split; [exact Hh|]. split; [apply ext_refl|]. split; [intros a []|auto].
  - destruct sorted as [|a [|b r]]; [discriminate L|cbn in L; lia|]. assert (Lr : length r = (2 * k)%nat) by (cbn in L; lia).
    assert (Hr : forall x, In x r -> In x pop) by (intros x Hx; apply Hs; right; right; exact Hx).
    cbn [next_pairs].
    (* the two new individuals [c1], [c2] in the heap [h1] *)
    assert (Go : forall h1 c1 c2 w1 ready', hok h1 -> ext h h1 -> iok c1 -> iok c2 -> e_chk E (i_par E c1) = Ok true -> e_chk E (i_par E c2) = Ok true -> I w1 ->
      exists h' ps w', (let* rest := next_pairs E elit pop sum r ready' ((h1 ++ [c1]) ++ [c2]) in wret (fst rest, length h1 :: length (h1 ++ [c1]) :: snd rest)) w1 = (Ok (h', ps), w') /\
      hok h' /\ ext h h' /\ pok h' ps /\ length ps = length (a :: b :: r) /\ I w').
    { intros h1 c1 c2 w1 rd H1 X1 I1 I2 K1 K2 Hw1. set (h2 := (h1 ++ [c1]) ++ [c2]).
      assert (X2 : ext h1 h2) by (eapply ext_trans; apply ext_new). assert (X3 : ext h h2) by exact (ext_trans _ _ _ X1 X2).
      destruct (IH r rd h2 w1 Lr Hr) as (h' & ps & w' & E1 & A1 & A2 & A3 & A4 & A5).
      { apply hok_new; [apply hok_new; assumption|assumption]. }
      { exact (ext_pok _ _ _ X3 Hp). }
      { exact (ext_fits _ _ _ _ X3 Hm). }
      { exact Hw1. }
      rewrite (wbind_run _ _ _ _ _ E1). cbn [fst snd]. eexists h', _, w'. split; [reflexivity|]. split; [exact A1|]. split; [exact (ext_trans _ _ _ X3 A2)|].
      split; [|split; [cbn; congruence|exact A5]]. intros x [<-|[<-|Hx]]; [| |exact (A3 x Hx)].
      - destruct (A2 (length h1) c1) as (c' & B1 & B2 & _). { unfold h2. rewrite <- app_assoc. cbn [app]. rewrite nth_error_app2 by lia. rewrite Nat.sub_diag. reflexivity. }
        exists c'. rewrite B2. auto.
      - destruct (A2 (length (h1 ++ [c1])) c2) as (c' & B1 & B2 & _). { unfold h2. rewrite nth_error_app2 by lia. rewrite Nat.sub_diag. reflexivity. }
        exists c'. rewrite B2. auto. }
    destruct (ready <? elit).
    + destruct (Hp a (Hs a (or_introl eq_refl))) as (ia & Pa & Ka). destruct (copy_total ia (hok_nth _ _ _ Hh Pa)) as (ca & C1 & C2 & C3 & _).
      rewrite (wbind_run _ _ _ _ _ (lift_run _ _ _ (get_run h a ia Pa))). rewrite (wbind_run _ _ _ _ _ (lift_run _ _ _ C1)). unfold h_new at 1.
      destruct (Hp b (Hs b (or_intror (or_introl eq_refl)))) as (ib & Pb & Kb). destruct (ext_new h ca b ib Pb) as (ib' & Pb' & Q1 & Q2 & Q3 & Q4).
      assert (H1 : hok (h ++ [ca])) by (apply hok_new; assumption).
      destruct (copy_total ib' (hok_nth _ _ _ H1 Pb')) as (cb & D1 & D2 & D3 & _).
      rewrite (wbind_run _ _ _ _ _ (lift_run _ _ _ (get_run (h ++ [ca]) b ib' Pb'))). rewrite (wbind_run _ _ _ _ _ (lift_run _ _ _ D1)). unfold h_new.
      apply Go; [exact Hh|apply ext_refl|exact C2|exact D2|congruence|congruence|exact Hw].
    + destruct (cross_total h w Hh Hp Hm Hw) as (h1 & c1 & c2 & w1 & X1 & X2 & X3 & X4 & X5 & X6 & X7 & X8).
      rewrite (wbind_run _ _ _ _ _ X1). cbn [fst snd]. unfold h_new. apply Go; assumption.
Qed.
End Gen.

Lemma fold_times t : forall l h, hok h -> hok (fold_left (set_times E t) l h) /\ ext h (fold_left (set_times E t) l h).
Proof.
  induction l as [|a l IH]; intros h H; cbn [fold_left]; [split; [exact H|apply ext_refl]|]. destruct (IH _ (hok_times t h a H)) as [A B].
  split; [exact A|]. exact (ext_trans _ _ _ (ext_times t h a) B).
Qed.
Lemma combine_snd : forall (a : list dbl) (b : list nat), length a = length b -> map snd (combine a b) = b.
Proof. induction a as [|x a IH]; intros [|y b] L; try discriminate L; [reflexivity|]. cbn. f_equal. apply IH. cbn in L. congruence. Qed.
Lemma generate_total elit h pop k w : hok h -> pok h pop -> (forall a, In a pop -> hasfit h a) -> length pop = (2 * k)%nat -> (1 <= k)%nat -> Z.of_nat (length pop) <= 2 ^ 31 -> I w ->
  exists h' ps w', generate_next E elit h pop w = (Ok (h', ps), w') /\ hok h' /\ ext h h' /\ pok h' ps /\ length ps = length pop /\ I w'.
Proof.
  intros Hh Hp Hf L Hk Hl Hw. destruct (fits_total h pop Hh Hf) as (fits & E1 & L1 & F1). unfold generate_next. rewrite (wbind_run _ _ _ _ _ (lift_run _ _ _ E1)). cbv zeta.
  destruct (d_ofZ_exact 0 ltac:(lia)) as [Z0 Z1].
  assert (SF : is_finite (fold_left d_add fits (d_ofZ 0)) = true). { apply (sum_moderate fits _ 0 F1 Z0); [lia|rewrite L1; lia|]. rewrite Z1. rewrite Rmult_0_l. lra. }
  destruct (fold_times (fun _ => 0) pop h Hh) as [A B]. set (h1 := fold_left (set_times E (fun _ => 0)) pop h) in *.
  assert (Pm : Permutation (map snd (e_sort E (combine fits pop))) pop).
  { rewrite <- (combine_snd fits pop L1) at 2. apply Permutation_map. apply (tm_sort _ _ _ _ _ _ T). apply Forall_forall. intros [v b] Hx. apply in_combine_l in Hx. cbn.
    apply moderate_num. exact (proj1 (Forall_forall _ _) F1 v Hx). }
  destruct (pairs_total pop fits ltac:(intros ->; cbn in L; lia) F1 SF elit k (map snd (e_sort E (combine fits pop))) 0 h1 w) as (h' & ps & w' & X1 & X2 & X3 & X4 & X5 & X6).
  - rewrite (Permutation_length Pm). exact L.
  - intros a Ha. exact (Permutation_in a Pm Ha).
  - exact A.
  - exact (ext_pok _ _ _ B Hp).
  - exact (ext_fits _ _ _ _ B E1).
  - exact Hw.
  - exists h', ps, w'. split; [exact X1|]. split; [exact X2|]. split; [exact (ext_trans _ _ _ B X3)|]. split; [exact X4|]. split; [|exact X6]. rewrite X5. apply Permutation_length. exact Pm.
Qed.
Lemma mut1_total i w : iok i -> J w -> exists j c w', ind_mutate E i w = (Ok (j, c), w') /\ iok j /\ e_chk E (i_par E j) = Ok true /\ J w'.
Proof.
  intros Hi Hw. unfold ind_mutate. destruct fuel_S as [fu Fu]; rewrite Fu. cbn [mutate_loop].
  destruct (tm_mut _ _ _ _ _ _ T w (i_chr E i) Hw (proj1 (proj2 Hi))) as (c & w' & M1 & M2 & M3). rewrite (wbind_run _ _ _ _ _ M1).
  destruct (set_total i c Hi M2) as (j & S1 & S2 & S3). rewrite (wbind_run _ _ _ _ _ (lift_run _ _ _ S1)). rewrite (wbind_run _ _ _ _ _ (lift_run _ _ _ S3)).
  exists j, O, w'. split; [reflexivity|]. auto.
Qed.
Lemma mutate_total all : forall pop h w, (forall a, In a pop -> In a all) -> hok h -> pok h all -> J w ->
  exists h' w', mutate_all E h pop w = (Ok h', w') /\ hok h' /\ pok h' all /\ length h' = length h /\ J w'.
Proof.
  induction pop as [|a r IH]; intros h w Hs Hh Hp Hw.
  - exists h, w. split; [reflexivity|]. auto.
  - destruct (Hp a (Hs a (or_introl eq_refl))) as (i & Hi & _). cbn [mutate_all]. rewrite (wbind_run _ _ _ _ _ (lift_run _ _ _ (get_run h a i Hi))).
    destruct (mut1_total i w (hok_nth _ _ _ Hh Hi) Hw) as (j & c & w1 & M1 & M2 & M3 & M4). rewrite (wbind_run _ _ _ _ _ M1). cbn [fst].
    assert (La : (a < length h)%nat) by (apply nth_error_Some; congruence).
    destruct (IH (h_set E h a j) w1) as (h' & w' & E1 & A1 & A2 & A3 & A4).
    + intros x Hx. apply Hs. right. exact Hx.
    + apply hok_upd; assumption.
    + intros b Hb. unfold h_set. destruct (Nat.eq_dec b a) as [->|N]; [rewrite upd_same by exact La; exists j; auto|]. rewrite upd_other by congruence. exact (Hp b Hb).
    + exact M4.
    + exists h', w'. split; [exact E1|]. split; [exact A1|]. split; [exact A2|]. split; [|exact A4]. rewrite A3. apply upd_length.
Qed.
Lemma best_of_total h : hok h -> forall r cur, hasfit h cur -> (forall a, In a r -> hasfit h a) -> exists b, best_of E h cur r = Ok b /\ hasfit h b.
Proof.
  intros Hh r. induction r as [|a r IH]; intros cur Hc Hr; [exists cur; auto|]. cbn [best_of].
  destruct Hc as (i & Hi & Ci). destruct (Hr a (or_introl eq_refl)) as (j & Hj & Cj). rewrite (fit_run h cur i Hi Ci), (fit_run h a j Hj Cj). cbn [bind].
  apply IH; [|intros b Hb; apply Hr; right; exact Hb]. destruct (d_ltb (i_fit E i) (i_fit E j)); [exists j|exists i]; auto.
Qed.
Lemma update_total h pop best : hok h -> pop <> [] -> (forall a, In a pop -> hasfit h a) -> (best < length h)%nat -> exists b, update_best E h pop best = Ok b /\ hasfit h b.
Proof.
  intros Hh Hne Hf Hb. destruct pop as [|a r]; [contradiction|]. cbn [update_best].
  destruct (best_of_total h Hh r a (Hf a (or_introl eq_refl)) (fun b Hb => Hf b (or_intror Hb))) as (cur & B1 & B2). rewrite B1. cbn [bind].
  destruct (nth_error h best) as [b|] eqn:Nb; [|apply nth_error_None in Nb; lia]. rewrite (get_run h best b Nb). cbn [bind].
  destruct (i_has E b) eqn:Hs; cbn [negb]; [|exists cur; auto]. unfold get_fitness at 1. rewrite Hs. cbn [bind].
  destruct B2 as (i & Hi & Ci). rewrite (fit_run h cur i Hi Ci). cbn [bind]. eexists. split; [reflexivity|].
  destruct (d_ltb (i_fit E b) (i_fit E i)); [exists i|exists b]; auto.
Qed.
Lemma gets_total h pop : pok h pop -> exists is, mapM (h_get E h) pop = Ok is.
Proof.
  induction pop as [|a r IH]; intro P; [exists []; reflexivity|]. destruct (P a (or_introl eq_refl)) as (i & Hi & _). destruct (IH (fun b Hb => P b (or_intror Hb))) as [is E1].
  cbn [mapM]. rewrite (get_run h a i Hi). cbn [bind]. rewrite E1. cbn [bind]. eauto.
Qed.
Lemma gets_moderate h : hok h -> forall pop is, mapM (h_get E h) pop = Ok is -> (forall a, In a pop -> hasfit h a) -> Forall (fun i => moderate (i_fit E i)) is.
Proof.
  intros Hh. induction pop as [|a r IH]; intros is M F; cbn [mapM] in M.
  - assert (X : is = []) by (inversion M; reflexivity). rewrite X. constructor.
  - destruct (F a (or_introl eq_refl)) as (i & Hi & Ci). rewrite (get_run h a i Hi) in M. cbn [bind] in M. apply bind_ok in M as (js & M & X). assert (Y : is = i :: js) by (inversion X; reflexivity). rewrite Y.
    constructor; [exact (proj2 (proj2 (hok_nth h a i Hh Hi)) Ci)|]. exact (IH js M (fun b Hb => F b (or_intror Hb))).
Qed.
(** every individual of these populations has a fitness in the range asked of the objective function *)
Definition all_moderate (snaps : list (snap E)) : Prop := Forall (fun sn => Forall (fun i => moderate (i_fit E i)) (sn_pop E sn)) snaps.
Lemma kinv_mono m m' k : (m <= m')%nat -> kinv m k -> kinv m' k.
Proof. unfold kinv, cinv. destruct (k_cache k); [|auto]. intros L (A & B & C & D). split; [exact A|]. split; [exact B|]. split; [lia|exact D]. Qed.
Lemma run_total cfg half : (1 <= half)%nat -> Z.of_nat (2 * half) <= 2 ^ 31 -> cf_gens cfg = gens -> forall left g s w m, 0 <= g -> g + Z.of_nat left = gens -> hok (g_heap E s) -> pok (g_heap E s) (g_pop E s) ->
  length (g_pop E s) = (2 * half)%nat -> (g_best E s < length (g_heap E s))%nat -> kinv m (g_counter E s) ->
  (forall j, (j <= m + 3 * (2 * half) * left)%nat -> over limit 40 j = false) -> I w ->
  exists z snaps w', run_generations E hash f cfg left g s w = (Ok (z, snaps), w') /\ hok (g_heap E z) /\ (g_best E z < length (g_heap E z))%nat /\ I w' /\ (length snaps <= left)%nat /\
  kinv (m + 3 * (2 * half) * left) (g_counter E z) /\ all_moderate snaps.
Proof.
  intros Hk Hl Hg. induction left as [|left IH]; intros g [h pop best k] w m Hg0 Hg1 Hh Hp L Hb Hc Ho Hw; cbn [g_heap g_pop g_best g_counter] in *.
  - exists (MkG E h pop best k), [], w. cbn [g_heap g_best g_counter length]. repeat (split; [first [reflexivity|assumption|lia]|]). rewrite Nat.mul_0_r, Nat.add_0_r. split; [exact Hc|constructor].
  - cbn [run_generations g_heap g_pop g_best g_counter].
    assert (Nn : (2 * half <> 0)%nat) by lia. assert (Hne : pop <> []) by (intros ->; cbn in L; lia).
    destruct (obtain_total h k pop m Hh Hp Hc) as (h1 & k1 & O1 & O2 & O3 & O4 & O5). { intros j Hj. apply Ho. rewrite L in Hj. nia. }
    rewrite (wbind_run _ _ _ _ _ (lift_run _ _ _ O1)). cbn iota.
    assert (Hb1 : (best < length h1)%nat) by (rewrite (proj1 O3); exact Hb).
    destruct (update_total h1 pop best O2 Hne O5 Hb1) as (b & U1 & U2). rewrite (wbind_run _ _ _ _ _ (lift_run _ _ _ U1)).
    pose proof (mono_pok _ _ _ O3 Hp) as Hp1. destruct (gets_total h1 pop Hp1) as (is & G1). pose proof (gets_moderate h1 O2 pop is G1 O5) as Md. rewrite (wbind_run _ _ _ _ _ (lift_run _ _ _ G1)).
    destruct U2 as (ib & Ib & Cb). rewrite (wbind_run _ _ _ _ _ (lift_run _ _ _ (get_run h1 b ib Ib))). cbv zeta.
    assert (Gf : get_fitness E ib = Ok (i_fit E ib)) by (unfold get_fitness; rewrite Cb; reflexivity). rewrite (wbind_run _ _ _ _ _ (lift_run _ _ _ Gf)).
    assert (Lb : (b < length h1)%nat) by (apply nth_error_Some; congruence).
    destruct (d_leb (cf_stop cfg) (i_fit E ib)).
    + eexists _, _, w. split; [reflexivity|]. cbn [g_heap g_best length]. split; [exact O2|]. split; [exact Lb|]. split; [exact Hw|]. split; [lia|]. split; [apply (kinv_mono (m + 3 * length pop)); [nia|exact O4]|]. constructor; [exact Md|constructor].
    + destruct (generate_total (cf_elit cfg) h1 pop half w O2 Hp1 O5 L Hk ltac:(rewrite L; exact Hl) Hw) as (h2 & ps & w2 & N1 & N2 & N3 & N4 & N5 & N6).
      rewrite (wbind_run _ _ _ _ _ N1). cbn [fst snd]. unfold apply_context. rewrite (wbind_run _ _ _ tt (e_ctx E g (cf_gens cfg) w2)) by reflexivity.
      assert (W3 : J (e_ctx E g (cf_gens cfg) w2)) by (rewrite Hg; apply (tm_ctx _ _ _ _ _ _ T); [lia|exact N6]).
      destruct (mutate_total ps ps h2 (e_ctx E g (cf_gens cfg) w2) (fun a Ha => Ha) N2 N4 W3) as (h3 & w3 & M1 & M2 & M3 & M4 & M5). rewrite (wbind_run _ _ _ _ _ M1).
      destruct (IH (g + 1) (MkG E h3 ps b (MkCounter (k_cache k1) 0 (k_counts k1))) w3 (m + 3 * length pop)%nat) as (z & snaps & w' & R1 & R2 & R3 & R4 & R5 & R6 & R7).
      * lia.
      * lia.
      * exact M2.
      * exact M3.
      * cbn [g_pop]. congruence.
      * cbn [g_heap g_best]. rewrite M4. destruct (N3 b ib Ib) as (ib' & X & _). apply nth_error_Some. congruence.
      * exact O4.
      * intros j Hj. apply Ho. rewrite L in Hj. nia.
      * exact (tm_back _ _ _ _ _ _ T _ M5).
      * rewrite (wbind_run _ _ _ _ _ R1). cbn [fst snd]. eexists z, _, w'. split; [reflexivity|]. split; [exact R2|]. split; [exact R3|]. split; [exact R4|]. cbn [length]. split; [lia|]. split; [apply (kinv_mono (m + 3 * length pop + 3 * (2 * half) * left)); [nia|exact R6]|]. constructor; [exact Md|exact R7].
Qed.

(** ** the initial population *)
Lemma genes_total : forall k w, I w -> exists c w', random_genes E k w = (Ok c, w') /\ length c = k /\ I w'.
Proof.
  induction k as [|k IH]; intros w Hw; [exists [], w; cbn; auto|]. cbn [random_genes]. destruct (tm_bool _ _ _ _ _ _ T w Hw) as (b & w1 & B1 & B2).
  rewrite (wbind_run _ _ _ _ _ B1). destruct (IH w1 B2) as (c & w2 & C1 & C2 & C3). rewrite (wbind_run _ _ _ _ _ C1). exists (b :: c), w2. cbn. auto.
Qed.
Lemma random_total i w : iok i -> I w -> exists j c w', set_random E i w = (Ok (j, c), w') /\ iok j /\ e_chk E (i_par E j) = Ok true /\ I w'.
Proof.
  intros Hi Hw. unfold set_random. destruct fuel_S as [fu Fu]; rewrite Fu. cbn [set_random_loop].
  destruct (genes_total (length (i_chr E i)) w Hw) as (c & w' & M1 & M2 & M3). rewrite (wbind_run _ _ _ _ _ M1). rewrite (proj1 (proj2 Hi)) in M2.
  destruct (set_total i c Hi M2) as (j & S1 & S2 & S3). rewrite (wbind_run _ _ _ _ _ (lift_run _ _ _ S1)). rewrite (wbind_run _ _ _ _ _ (lift_run _ _ _ S3)).
  exists j, O, w'. split; [reflexivity|]. auto.
Qed.
Section Start.
Variable p : e_par E.
Hypothesis start_ok : ok p.
Hypothesis start_enc : exists c, e_enc E p (repeat false n) = Ok c /\ length c = n.
Lemma new_total : exists i, ind_new E p = Ok i /\ iok i.
Proof.
  destruct (tm_cln _ _ _ _ _ _ T p start_ok) as (q & Q1 & Q2 & _). destruct start_enc as (c & C1 & C2). unfold ind_new. rewrite Q1. cbn [bind].
  rewrite (tm_size _ _ _ _ _ _ T q Q2). cbn [bind]. rewrite C1. cbn [bind]. eexists. split; [reflexivity|]. unfold iok. cbn. split; [exact Q2|]. split; [exact C2|discriminate].
Qed.
Lemma init_total : forall k h w, hok h -> I w -> exists h' ps w', init_random E k p h w = (Ok (h', ps), w') /\ hok h' /\ ext h h' /\ pok h' ps /\ length ps = k /\ I w'.
Proof.
  induction k as [|k IH]; intros h w Hh Hw.
  - exists h, [], w. split; [reflexivity|]. split; [exact Hh|]. split; [apply ext_refl|]. split; [intros a []|auto].
  - cbn [init_random]. destruct new_total as (i & I1 & I2). rewrite (wbind_run _ _ _ _ _ (lift_run _ _ _ I1)).
    destruct (random_total i w I2 Hw) as (j & c & w1 & M1 & M2 & M3 & M4). rewrite (wbind_run _ _ _ _ _ M1). unfold h_new. cbn [fst].
    destruct (IH (h ++ [j]) w1 (hok_new h j Hh M2) M4) as (h' & ps & w' & E1 & A1 & A2 & A3 & A4 & A5). rewrite (wbind_run _ _ _ _ _ E1). cbn [fst snd].
    exists h', (length h :: ps), w'. split; [reflexivity|]. split; [exact A1|]. split; [exact (ext_trans _ _ _ (ext_new h j) A2)|]. split; [|cbn; auto].
    intros x [<-|Hx]; [|exact (A3 x Hx)]. destruct (A2 (length h) j) as (c' & B1 & B2 & _). { rewrite nth_error_app2 by lia. rewrite Nat.sub_diag. reflexivity. }
    exists c'. rewrite B2. auto.
Qed.
End Start.
End Total.

(** ** C79 *)
Theorem C79_completes : forall E ok n I J hash f same_type same_meta parse cfg limit p w,
  tame E ok n (cf_gens cfg) I J -> 0 < cf_gens cfg -> (1 <= e_fuel E)%nat ->
  (forall q, ok q -> e_chk E q = Ok true -> exists v, f q = Ok v /\ moderate v) ->
  (2 <= cf_pop cfg)%nat -> Nat.even (cf_pop cfg) = true -> Z.of_nat (cf_pop cfg) <= 2 ^ 31 ->
  (d_ltb (d_ofZ 0) limit = true -> forall j, (j <= 3 * cf_pop cfg * Z.to_nat (cf_gens cfg))%nat -> over limit 40 j = false) ->
  ok p -> (exists c, e_enc E p (repeat false n) = Ok c /\ length c = n) -> I w ->
  exists q snaps s w', ga_optimize E hash f same_type same_meta cfg None parse None (counter_new limit) p true w = (Ok (q, snaps, s), w') /\
    ok q /\ e_chk E q = Ok true /\ (length snaps <= Z.to_nat (cf_gens cfg))%nat /\ I w' /\
    (forall sn i, In sn snaps -> In i (sn_pop E sn) -> moderate (i_fit E i)).
Proof.
  intros E ok n I J hash f st sm parse cfg limit p w T Hgens Hf Ht H2 Hev Hl Ho Hp He Hw.
  apply Nat.even_spec in Hev as [half Hhalf].
  unfold ga_optimize. cbn [negb]. unfold ga_initialize.
  destruct (init_total E ok n _ I J T Hf p Hp He (cf_pop cfg) [] w (Forall_nil _) Hw) as (h & ps & w1 & E1 & A1 & A2 & A3 & A4 & A5).
  destruct (new_total E ok n _ I J T p Hp He) as (b & B1 & B2).
  assert (E2 : (let* x := init_random E (cf_pop cfg) p [] in let* b := wlift (ind_new E p) in let (h, best) := h_new E (fst x) b in wret (h, snd x, best)) w = (Ok (h ++ [b], ps, length h), w1)).
  { rewrite (wbind_run _ _ _ _ _ E1). cbn [fst snd]. rewrite (wbind_run _ _ _ _ _ (lift_run _ _ _ B1)). reflexivity. }
  rewrite (wbind_run _ _ _ _ _ E2). cbn iota. rewrite (wbind_run _ _ _ _ _ (lift_run (Ok (h ++ [b])) w1 _ eq_refl)).
  assert (X : hok E ok n (h ++ [b])) by (apply hok_new; assumption).
  assert (Kl : exists lim, kinv lim 0 (counter_new limit) /\ forall j, (j <= 3 * cf_pop cfg * Z.to_nat (cf_gens cfg))%nat -> over lim 40 j = false).
  { unfold counter_new, c_create. destruct (d_ltb (d_ofZ 0) limit) eqn:Li.
    - exists limit. split; [|exact (Ho eq_refl)]. unfold kinv, cinv. cbn. split; [reflexivity|]. split; [reflexivity|]. split; [lia|constructor].
    - exists d_inf. split; [exact Logic.I|]. intros j _. unfold over. destruct (d_div _ _) as [[]|[]| |[]]; reflexivity. }
  destruct Kl as (lim & K1 & K2).
  destruct (run_total E ok n _ I J T Hf hash f Ht lim cfg half ltac:(lia) ltac:(rewrite <- Hhalf; exact Hl) eq_refl (Z.to_nat (cf_gens cfg)) 0 (MkG E (h ++ [b]) ps (length h) (counter_new limit)) w1 0%nat)
    as (z & snaps & w' & R1 & R2 & R3 & R4 & R5 & _ & R7).
  - lia.
  - lia.
  - exact X.
  - cbn [g_heap g_pop]. exact (ext_pok E h (h ++ [b]) ps (ext_new E h b) A3).
  - cbn [g_pop]. congruence.
  - cbn [g_heap g_best]. rewrite app_length. cbn. lia.
  - exact K1.
  - intros j Hj. apply K2. rewrite <- Hhalf in Hj. lia.
  - exact A5.
  - rewrite (wbind_run _ _ _ _ _ R1). cbn [fst snd].
    destruct (nth_error (g_heap E z) (g_best E z)) as [bi|] eqn:Nb; [|apply nth_error_None in Nb; lia].
    rewrite (wbind_run _ _ _ _ _ (lift_run _ _ _ (get_run E _ _ bi Nb))).
    destruct (tm_dec _ _ _ _ _ _ T p (i_chr E bi) Hp (proj1 (proj2 (hok_nth _ _ _ _ _ _ R2 Nb)))) as (q & Q1 & Q2 & Q3). rewrite Q1.
    rewrite (wbind_run _ _ _ _ _ (lift_run (Ok tt) w' tt eq_refl)). exists q, snaps, z, w'. split; [reflexivity|].
    split; [exact Q2|]. split; [exact Q3|]. split; [exact R5|]. split; [exact R4|]. intros sn i Hsn Hin. exact (proj1 (Forall_forall _ _) (proj1 (Forall_forall _ _) R7 sn Hsn) i Hin).
Qed.
Print Assumptions C79_completes.
