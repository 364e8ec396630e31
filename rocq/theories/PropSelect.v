(** C27 (roulette selection) and C28 (objective function values reach the right individuals). *)
From Coq Require Import Reals Lra.
From Flocq Require Import Core IEEE754.BinarySingleNaN.
From Verif Require Import Base Num DblOrder FloatLemmas Random PropRandom Cache CacheProofs Individual GA CounterProofs.
Local Open Scope Z_scope.
Local Open Scope list_scope.

(** ** C27 *)

(** Sum of the first [n] fitness values, accumulated from the left starting with 0. *)
Definition partial_sum (N : Num) (fits : list (num N)) (n : nat) : num N := fold_left (n_add N) (firstn n fits) (n_ofZ N 0).

Lemma roulette_spec N : forall fits x cur i,
  (exists j, roulette N x cur fits i = Ok (i + j)%nat /\ (j < length fits)%nat /\
     n_leb N x (fold_left (n_add N) (firstn (S j) fits) cur) = true /\
     (forall l, (l < j)%nat -> n_leb N x (fold_left (n_add N) (firstn (S l) fits) cur) = false)) \/
  (roulette N x cur fits i = Throw LogicError /\
     (forall l, (l < length fits)%nat -> n_leb N x (fold_left (n_add N) (firstn (S l) fits) cur) = false)).
Proof.
  induction fits as [|v fits IH]; intros x cur i; cbn [roulette].
  - right. split; [reflexivity|]. cbn. lia.
  - destruct (n_leb N x (n_add N cur v)) eqn:Le.
    + left. exists 0%nat. rewrite Nat.add_0_r. split; [reflexivity|]. split; [cbn; lia|]. split; [exact Le|]. lia.
    + destruct (IH x (n_add N cur v) (S i)) as [(j & H1 & H2 & H3 & H4)|(H1 & H2)].
      * left. exists (S j). split; [rewrite H1; f_equal; lia|]. split; [cbn; lia|]. split; [exact H3|].
        intros [|l] Hl; [exact Le|]. apply H4. lia.
      * right. split; [exact H1|]. intros [|l] Hl; [exact Le|]. apply H2. cbn in Hl. lia.
Qed.

(** The walk returns the first individual at which the running sum reaches the drawn value, in any arithmetic (so also
    in binary64 with rounding, infinities and NaN); when there is none it throws. *)
Theorem C27_first_reaching : forall N fits x,
  (forall i, roulette N x (n_ofZ N 0) fits 0 = Ok i <->
     (i < length fits)%nat /\ n_leb N x (partial_sum N fits (S i)) = true /\
     forall l, (l < i)%nat -> n_leb N x (partial_sum N fits (S l)) = false) /\
  ((forall i, (i < length fits)%nat -> n_leb N x (partial_sum N fits (S i)) = false) <->
   roulette N x (n_ofZ N 0) fits 0 = Throw LogicError).
Proof.
  intros N fits x. unfold partial_sum.
  destruct (roulette_spec N fits x (n_ofZ N 0) 0) as [(j & H1 & H2 & H3 & H4)|(H1 & H2)]; cbn [Nat.add] in *.
  - split.
    + intro i. rewrite H1. split.
      * intro X. injection X as <-. auto.
      * intros (X1 & X2 & X3). f_equal. destruct (Nat.lt_trichotomy i j) as [L|[L|L]]; [|auto|].
        -- rewrite (H4 i L) in X2. discriminate.
        -- rewrite (X3 j L) in H3. discriminate.
    + rewrite H1. split; [|discriminate]. intro X. rewrite (X j H2) in H3. discriminate.
  - split.
    + intro i. rewrite H1. split; [discriminate|]. intros (X1 & X2 & _). rewrite (H2 i X1) in X2. discriminate.
    + tauto.
Qed.
Print Assumptions C27_first_reaching.

Lemma sum_nonneg : forall fits cur, Forall (fun v => d_leb (d_ofZ 0) v = true) fits -> d_leb (d_ofZ 0) cur = true ->
  is_finite (fold_left d_add fits cur) = true -> is_finite cur = true /\ Forall (fun v => is_finite v = true) fits /\
  d_leb (d_ofZ 0) (fold_left d_add fits cur) = true.
Proof.
  induction fits as [|v fits IH]; intros cur Hf Hc Ht; cbn [fold_left] in *; [auto|].
  inversion Hf as [|? ? Hv Hf']; subst.
  destruct (d_ofZ_exact 0) as [Z1 Z2]; [lia|].
  assert (A : d_leb (d_ofZ 0) (d_add cur v) = true).
  { destruct (is_finite cur) eqn:Fc; [destruct (is_finite v) eqn:Fv|].
    - pose proof (Bplus_correct dprec demax dprec_gt_0 dprec_lt_emax mode_NE cur v Fc Fv) as B. fold (d_add cur v) in B.
      apply d_leb_R in Hc, Hv; auto. rewrite Z2 in Hc, Hv.
      assert (Zs : forall u : dbl, is_finite u = true -> (0 <= B2R u)%R -> Bsign u = true -> B2R u = 0%R).
      { clear. intros [s|s| |s m e b] F P S; try discriminate; [reflexivity|]. cbn in S. subst s. exfalso.
        apply (Rle_not_lt _ _ P). apply F2R_lt_0. reflexivity. }
      match type of B with (if Rlt_bool ?u ?v then _ else _) => destruct (Rlt_bool_spec u v) as [Lt|Ge] end.
      + destruct B as (B1 & B2 & _). apply d_leb_R; auto. rewrite Z2, B1. apply rnd_ge_fmt; [lra|]. exact (fmt_IZR 0 ltac:(lia)).
      + destruct B as [B1 B2]. destruct (Bsign cur) eqn:Sc.
        * exfalso. rewrite (Zs cur Fc Hc Sc), (Zs v Fv Hv (eq_sym B2)), Rplus_0_r in Ge.
          change (round radix2 (FLT_exp (3 - demax - dprec) dprec) (round_mode mode_NE) 0%R) with (rnd64 0%R) in Ge || idtac.
          rewrite round_0 in Ge by apply valid_rnd_N. rewrite Rabs_R0 in Ge. pose proof (bpow_gt_0 radix2 demax). lra.
        * destruct (d_add cur v) as [s|[|]| |]; cbn in B1; try discriminate. reflexivity.
    - destruct v as [|[|]| |]; try discriminate. destruct cur; try discriminate; reflexivity.
    - destruct cur as [|[|]| |]; try discriminate. destruct v as [|[|]| |]; try discriminate; try reflexivity. }
  destruct (IH (d_add cur v) Hf' A Ht) as (I1 & I2 & I3).
  assert (F : is_finite cur = true /\ is_finite v = true).
  { destruct cur as [|[|]| |], v as [|[|]| |]; try discriminate; auto. }
  destruct F as [F1 F2]. auto.
Qed.

(** Fitness values that are non-negative with a finite sum, in binary64 as executed: whatever rand() returns, the
    selection succeeds; it never reaches the "unreachable" exception. *)
Theorem C27_never_throws : forall E (h : heap E) pop fits w r w',
  0 < e_rm E <= INT_MAX -> e_rand E w = (r, w') -> 0 <= r <= e_rm E ->
  pop <> [] -> mapM (fit_of E h) pop = Ok fits ->
  Forall (fun v => d_leb (d_ofZ 0) v = true) fits -> is_finite (fold_left d_add fits (d_ofZ 0)) = true ->
  exists i, select_index E h pop (fold_left d_add fits (d_ofZ 0)) w = (Ok i, w') /\ (i < length pop)%nat.
Proof.
  intros E h pop fits w r w' HRM Hr Hrr Hne Hm Hf Ht. unfold select_index. rewrite Hr, Hm. cbn [bind].
  set (T := fold_left d_add fits (d_ofZ 0)) in *.
  destruct (d_ofZ_exact 0) as [Z1 Z2]; [lia|].
  destruct (sum_nonneg fits (d_ofZ 0) Hf) as (_ & _ & Hp); [reflexivity|exact Ht|]. fold T in Hp.
  destruct (F_base (e_rm E) r HRM Hrr) as (B1 & B2 & B3).
  assert (X : d_leb (d_mul (base_of FNum (e_rm E) r) T) T = true).
  { apply d_leb_R in Hp; auto. rewrite Z2 in Hp.
    assert (LE : (rnd64 (B2R (base_of FNum (e_rm E) r) * B2R T) <= B2R T)%R).
    { apply rnd_le_fmt; [|apply fmt_dbl]. rewrite <- (Rmult_1_l (B2R T)) at 2. apply Rmult_le_compat_r; lra. }
    assert (GE : (0 <= rnd64 (B2R (base_of FNum (e_rm E) r) * B2R T))%R).
    { apply rnd_ge_fmt; [|exact (fmt_IZR 0 ltac:(lia))]. apply Rmult_le_pos; lra. }
    destruct (d_mul_finite (base_of FNum (e_rm E) r) T B1 Ht) as [M1 M2].
    { rewrite Rabs_pos_eq by exact GE. eapply Rle_lt_trans; [exact LE|]. eapply Rle_lt_trans; [apply Rle_abs|apply dbl_lt_max]. }
    apply d_leb_R; auto. rewrite M2. exact LE. }
  assert (Hl : length fits = length pop) by (apply mapM_ok_nth in Hm as [Hl _]; rewrite Hl; reflexivity).
  assert (Hpos : (0 < length fits)%nat) by (rewrite Hl; destruct pop; [contradiction|cbn; lia]).
  destruct (roulette_spec FNum fits (d_mul (base_of FNum (e_rm E) r) T) (d_ofZ 0) 0) as [(j & H1 & H2 & _)|(H1 & H2)].
  - exists j. split; [f_equal; exact H1|rewrite <- Hl; exact H2].
  - exfalso. change (list (num FNum)) with (list dbl) in *.
    destruct fits as [|u fs]; [cbn in Hpos; lia|]. specialize (H2 (length fs) (Nat.lt_succ_diag_r _)).
    change (S (length fs)) with (length (u :: fs)) in H2. rewrite firstn_all in H2.
    change (fold_left (n_add FNum) (u :: fs) (d_ofZ 0)) with T in H2. cbn [n_leb FNum] in H2. congruence.
Qed.
Print Assumptions C27_never_throws.

(** An infinite fitness (which set_fitness accepts) makes selection throw for the draw 0: 0 * infinity is NaN. *)
Theorem C27_infinite_fitness_refuted : forall RM, 0 < RM <= INT_MAX ->
  roulette FNum (d_mul (base_of FNum RM 0) (fold_left d_add [d_inf] (d_ofZ 0))) (d_ofZ 0) [d_inf] 0 = Throw LogicError.
Proof.
  intros RM H. destruct (F_base RM 0 H ltac:(lia)) as (B1 & B2 & _).
  assert (Z0 : B2R (base_of FNum RM 0) = 0%R).
  { rewrite B2. unfold Rdiv. rewrite Rmult_0_l. apply rnd_0. }
  destruct (base_of FNum RM 0) as [s|s| |s m e b] eqn:Eb; try discriminate; [reflexivity|].
  exfalso. cbn in Z0. apply Float_prop.eq_0_F2R in Z0. destruct s; discriminate.
Qed.
Print Assumptions C27_infinite_fitness_refuted.

(** With exact arithmetic and non-negative values: individual i is chosen exactly by the draws in its share
    (S_i, S_{i+1}] of [0, total], where S_i is the sum of the fitness values before it; the draw 0 chooses the first
    individual. Hence the share of i is exactly its fitness, and an individual without fitness is chosen only when it is
    the first one, by the draw 0. *)
Theorem C27_exact_share : forall (fits : list R) (x : R), Forall (fun v => 0 <= v)%R fits ->
  (0 <= x <= fold_left Rplus fits 0)%R -> fits <> [] ->
  (exists i, roulette RNum x 0%R fits 0 = Ok i) /\
  (forall i v, nth_error fits i = Some v ->
     let before := fold_left Rplus (firstn i fits) 0%R in
     (roulette RNum x 0%R fits 0 = Ok i <-> (before < x <= before + v)%R \/ (i = 0%nat /\ x = 0%R)) /\
     (roulette RNum x 0%R fits 0 = Ok i -> v = 0%R -> i = 0%nat /\ x = 0%R)).
Proof.
  intros fits x Hf Hx Hne.
  assert (Step : forall i v, nth_error fits i = Some v ->
     fold_left Rplus (firstn (S i) fits) 0%R = (fold_left Rplus (firstn i fits) 0 + v)%R).
  { intros i v Hv. rewrite <- (firstn_skipn i (firstn (S i) fits)), firstn_firstn, Nat.min_l by lia.
    rewrite fold_left_app. f_equal.
    assert (Es : skipn i (firstn (S i) fits) = [v]).
    { clear - Hv. revert i Hv. induction fits as [|u fits IH]; intros [|i] Hv; try discriminate; cbn in *; [congruence|]. apply IH. exact Hv. }
    rewrite Es. reflexivity. }
  assert (Pos : forall i, (0 <= fold_left Rplus (firstn i fits) 0)%R).
  { induction i as [|i IH]; [cbn; lra|]. destruct (nth_error fits i) as [v|] eqn:Hv.
    - rewrite (Step i v Hv). apply Forall_forall with (x := v) in Hf; [lra|eapply nth_error_In; eauto].
    - apply nth_error_None in Hv. rewrite firstn_all2 by lia. rewrite firstn_all2 in IH by lia. exact IH. }
  assert (Mono : forall j i, (i <= j)%nat -> (fold_left Rplus (firstn i fits) 0 <= fold_left Rplus (firstn j fits) 0)%R).
  { induction j as [|j IH]; intros i Hij.
    - replace i with 0%nat by lia. lra.
    - destruct (Nat.eq_dec i (S j)) as [->|Hn]; [lra|]. specialize (IH i ltac:(lia)).
      destruct (nth_error fits j) as [v|] eqn:Hv.
      + rewrite (Step j v Hv). apply Forall_forall with (x := v) in Hf; [lra|eapply nth_error_In; eauto].
      + apply nth_error_None in Hv. rewrite (@firstn_all2 _ (S j) fits) by lia.
        rewrite (@firstn_all2 _ j fits) in IH by lia. exact IH. }
  pose proof (C27_first_reaching RNum fits x) as [Iff Thr]. cbn [n_ofZ RNum] in *. unfold partial_sum in *. cbn [n_add n_ofZ n_leb RNum num] in *.
  assert (Char : forall i v, nth_error fits i = Some v ->
     (roulette RNum x 0%R fits 0 = Ok i <-> (fold_left Rplus (firstn i fits) 0 < x <= fold_left Rplus (firstn i fits) 0 + v)%R \/ (i = 0%nat /\ x = 0%R))).
  { intros i v Hv. rewrite Iff.
    assert (Li : (i < length fits)%nat) by (apply nth_error_Some; congruence). rewrite R_leb_true, (Step i v Hv). split.
    - intros (_ & H2 & H3). destruct i as [|i].
      + destruct (Req_dec x 0) as [->|Nx]; [right; auto|]. left. cbn. cbn in H2. lra.
      + left. specialize (H3 i ltac:(lia)). apply R_leb_false in H3. lra.
    - intros [[H1 H2]|[-> ->]].
      + split; [exact Li|]. split; [exact H2|]. intros l Hl. apply R_leb_false. pose proof (Mono i (S l) ltac:(lia)). lra.
      + split; [exact Li|]. split; [|lia]. apply Forall_forall with (x := v) in Hf; [cbn; lra|eapply nth_error_In; eauto]. }
  split.
  - destruct (roulette_spec RNum fits x 0%R 0) as [(j & H1 & _)|(H1 & H2)]; [eauto|].
    exfalso. change (num RNum) with R in *. destruct fits as [|u fs]; [contradiction|].
    specialize (H2 (length fs) (Nat.lt_succ_diag_r _)). change (S (length fs)) with (length (u :: fs)) in H2.
    rewrite firstn_all in H2. apply R_leb_false in H2. change (n_add RNum) with Rplus in H2. lra.
  - intros i v Hv. cbv zeta. split; [apply Char; exact Hv|]. intros Hi ->. apply (Char i 0%R Hv) in Hi as [Hi|Hi]; [lra|exact Hi].
Qed.
Print Assumptions C27_exact_share.
Example C27_witness : roulette RNum (IZR 4) 0%R [1%R; 0%R; 5%R] 0 = Ok 2%nat.
Proof.
  cbn. rewrite (proj2 (R_leb_false 4 (0 + 1))) by lra. rewrite (proj2 (R_leb_false 4 (0 + 1 + 0))) by lra.
  rewrite (proj2 (R_leb_true 4 (0 + 1 + 0 + 5))) by lra. reflexivity.
Qed.

(** ** C28 *)
Section Fitness.
Variable E : env.
Variable hash : list bool -> Z.

(** A history of ObtainFitness calls on one counter with one objective function; the individuals may be changed, created
    and removed at will between the calls. Each element: heap before, population, heap after. *)
Inductive history (f : e_par E -> outcome dbl) : counter -> list (heap E * list nat * heap E) -> counter -> Prop :=
| history_nil : forall k, history f k [] k
| history_cons : forall k h pop h' k1 r k2, obtain_fitness E hash f h k pop = Ok (h', k1) -> history f k1 r k2 ->
    history f k ((h, pop, h') :: r) k2.

(** the individuals presented for evaluation *)
Definition presented (calls : list (heap E * list nat * heap E)) (i : indiv E) : Prop :=
  exists h pop h' a, In (h, pop, h') calls /\ In a pop /\ nth_error h a = Some i.

(** When the cache keys of the chromosomes presented are different for different chromosomes, and an individual's
    chromosome determines its objective value, then after every call every individual of the population has the objective
    value of its own parameters as fitness and is otherwise unchanged, and no other individual is touched: whatever the
    cache limit, whatever was cached by earlier calls. *)
Theorem C28_right_individuals : forall f limit calls k, history f (counter_new limit) calls k ->
  (forall h pop h', In (h, pop, h') calls -> NoDup pop) ->
  (forall i j, presented calls i -> presented calls j -> hash (i_chr E i) = hash (i_chr E j) -> i_chr E i = i_chr E j) ->
  (forall i j, presented calls i -> presented calls j -> i_chr E i = i_chr E j -> f (i_par E i) = f (i_par E j)) ->
  forall h pop h', In (h, pop, h') calls ->
    length h' = length h /\
    (forall a, ~ In a pop -> nth_error h' a = nth_error h a) /\
    (forall a, In a pop -> exists i v, nth_error h a = Some i /\ f (i_par E i) = Ok v /\ d_ltb v (d_ofZ 0) = false /\
       nth_error h' a = Some (MkInd E (i_par E i) (i_chr E i) true v (i_times E i))).
Proof.
  intros f limit calls k Hh Hn Hinj Hdet.
  set (P := fun key v => forall i, presented calls i -> hash (i_chr E i) = key -> f (i_par E i) = Ok v).
  assert (Sub : forall calls', (forall x, In x calls' -> In x calls) -> forall k0, cinv P k0 -> history f k0 calls' k ->
    forall h pop h', In (h, pop, h') calls' ->
    length h' = length h /\ (forall a, ~ In a pop -> nth_error h' a = nth_error h a) /\
    (forall a, In a pop -> exists i v, nth_error h a = Some i /\ f (i_par E i) = Ok v /\ d_ltb v (d_ofZ 0) = false /\
       nth_error h' a = Some (MkInd E (i_par E i) (i_chr E i) true v (i_times E i)))).
  { induction calls' as [|[[h0 p0] h0'] calls' IH]; intros Hs k0 Hk Hist h pop h' Hin; [contradiction|].
    inversion Hist as [|? ? ? ? k1 ? ? Ho Hr]; subst.
    destruct (obtain_spec E hash f P _ _ _ _ _ Ho) as (O1 & O2 & O3 & O4 & O5).
    - eapply Hn. apply Hs. left. reflexivity.
    - exact Hk.
    - intros a i v Ha Hi Hv j Hj Ej. rewrite <- Hv.
      assert (Pi : presented calls i) by (exists h0, p0, h0', a; split; [apply Hs; left; reflexivity|auto]).
      apply Hdet; auto.
    - destruct Hin as [Hin|Hin].
      + injection Hin as <- <- <-. split; [exact O2|]. split; [exact O3|]. intros a Ha.
        destruct (O4 a Ha) as (i & v & I1 & I2 & I3 & I4 & _). exists i, v. split; [exact I1|]. split; [|split; [exact I3|exact I2]].
        apply I4; [|reflexivity]. exists h0, p0, h0', a. split; [apply Hs; left; reflexivity|auto].
      + eapply (IH ltac:(intros x Hx; apply Hs; right; exact Hx) k1); eauto. }
  apply (Sub calls (fun x H => H) (counter_new limit)); [|exact Hh].
  unfold cinv, counter_new. cbn [k_cache]. unfold c_create. destruct (d_ltb (d_ofZ 0) limit); [|exact Logic.I].
  split; [constructor|]. cbn. discriminate.
Qed.

Lemma process_counts : forall pop h k h1 k1 todo, process_population E hash h k pop = Ok (h1, k1, todo) ->
  k_hits k1 + Z.of_nat (length todo) = k_hits k + Z.of_nat (length pop) /\ k_counts k1 = k_counts k /\
  (k_cache k = None -> k_hits k1 = k_hits k /\ k_cache k1 = None).
Proof.
  induction pop as [|a pop IH]; intros h k h1 k1 todo H; cbn [process_population] in H.
  - injection H as <- <- <-. cbn. split; [lia|]. auto.
  - apply bind_ok in H as (i & _ & H). destruct (k_cache k) as [c|] eqn:Kc.
    + destruct (is_cached Z dbl Z.eqb (hash (i_chr E i)) c) as [c1 b]. destruct b.
      * destruct (get_cached Z dbl Z.eqb (hash (i_chr E i)) c1) as [c2 [v|e|u]]; cbn [bind] in H; try discriminate.
        apply bind_ok in H as (i' & _ & H). apply IH in H as (H1 & H2 & _). cbn in *. split; [lia|]. split; [exact H2|discriminate].
      * apply bind_ok in H as ([[h' k'] td] & H & X). cbn in X. injection X as <- <- <-.
        apply IH in H as (H1 & H2 & _). cbn in *. split; [lia|]. split; [exact H2|discriminate].
    + apply bind_ok in H as ([[h' k'] td] & H & X). cbn in X. injection X as <- <- <-.
      apply IH in H as (H1 & H2 & H3). cbn [length]. split; [lia|]. split; [exact H2|]. intros _. apply H3. exact Kc.
Qed.
Lemma obtain_counts f h k pop h' k' : obtain_fitness E hash f h k pop = Ok (h', k') ->
  k_hits k' + k_counts k' = k_hits k + k_counts k + Z.of_nat (length pop) /\ k_hits k <= k_hits k' /\ k_counts k <= k_counts k' /\
  (k_cache k = None -> k_hits k' = k_hits k /\ k_cache k' = None).
Proof.
  intro H. unfold obtain_fitness in H. apply bind_ok in H as ([[h1 k1] todo] & Hp & H). cbv iota beta in H.
  pose proof (process_counts _ _ _ _ _ _ Hp) as (C1 & C2 & C3).
  assert (C4 : k_hits k <= k_hits k1 <= k_hits k + Z.of_nat (length pop)).
  { clear - Hp. revert h k h1 k1 todo Hp. induction pop as [|a pop IH]; intros h k h1 k1 todo H; cbn [process_population] in H.
    - injection H as <- <- <-. cbn. lia.
    - apply bind_ok in H as (i & _ & H). destruct (k_cache k) as [c|] eqn:Kc.
      + destruct (is_cached Z dbl Z.eqb (hash (i_chr E i)) c) as [c1 b]. destruct b.
        * destruct (get_cached Z dbl Z.eqb (hash (i_chr E i)) c1) as [c2 [v|e|u]]; cbn [bind] in H; try discriminate.
          apply bind_ok in H as (i' & _ & H). apply IH in H. cbn [k_hits length] in *. lia.
        * apply bind_ok in H as ([[h' k'] td] & H & X). cbn in X. injection X as <- <- <-. apply IH in H. cbn [k_hits length] in *. lia.
      + apply bind_ok in H as ([[h' k'] td] & H & X). cbn in X. injection X as <- <- <-. apply IH in H. cbn [length]. lia. }
  apply bind_ok in H as (vs & _ & H). apply bind_ok in H as (h2 & _ & H). cbn [k_cache] in H.
  destruct (k_cache k1) as [c|] eqn:Kc.
  - apply bind_ok in H as (rs & _ & H). destruct (add_values Z dbl Z.eqb rs c) as [c' o]. apply bind_ok in H as (u & _ & H).
    injection H as <- <-. cbn. split; [lia|]. split; [lia|]. split; [lia|]. intro X. apply C3 in X as [_ X]. discriminate.
  - injection H as <- <-. cbn. split; [lia|]. split; [lia|]. split; [lia|]. intro X. apply C3 in X as [X _]. split; [exact X|reflexivity || exact Kc].
Qed.

(** Bookkeeping: over any history, cache hits plus objective evaluations is the number of individuals presented; without
    a cache every one of them is evaluated. *)
Theorem C28_counts : forall f limit calls k, history f (counter_new limit) calls k ->
  let n := fold_right (fun c s => Z.of_nat (length (snd (fst c))) + s) 0 calls in
  k_hits k + k_counts k = n /\ 0 <= k_hits k /\ 0 <= k_counts k /\
  (d_ltb (d_ofZ 0) limit = false -> k_hits k = 0 /\ k_counts k = n).
Proof.
  intros f limit calls k H. cbv zeta.
  assert (G : forall k0, history f k0 calls k ->
    k_hits k + k_counts k = k_hits k0 + k_counts k0 + fold_right (fun c s => Z.of_nat (length (snd (fst c))) + s) 0 calls /\
    k_hits k0 <= k_hits k /\ k_counts k0 <= k_counts k /\ (k_cache k0 = None -> k_hits k = k_hits k0)).
  { clear H. induction calls as [|[[h pop] h'] calls IH]; intros k0 H; inversion H as [|? ? ? ? k1 ? ? Ho Hr]; subst; cbn [fold_right fst snd].
    - split; [lia|]. split; [lia|]. split; [lia|auto].
    - apply IH in Hr as (R1 & R2 & R3 & R4). apply obtain_counts in Ho as (O1 & O2 & O3 & O4). split; [lia|]. split; [lia|]. split; [lia|].
      intro X. apply O4 in X as [X1 X2]. apply R4 in X2. lia. }
  apply G in H as (H1 & H2 & H3 & H4). cbn [counter_new k_hits k_counts k_cache] in *. split; [lia|]. split; [lia|]. split; [lia|].
  unfold c_create in H4. intro X. rewrite X in H4. specialize (H4 eq_refl). lia.
Qed.

(** With a cache, two chromosomes with equal keys are confused: after evaluating [i1] with [f], asking for the fitness of
    any [i2] with the same key, even with a different objective function [g], returns f's value for i1. *)
Theorem C28_collision_or_other_function_refuted : forall f g limit i1 i2 v,
  d_ltb (d_ofZ 0) limit = true -> over limit 40 1 = false ->
  f (i_par E i1) = Ok v -> d_ltb v (d_ofZ 0) = false -> hash (i_chr E i1) = hash (i_chr E i2) ->
  exists k1 k2, obtain_fitness E hash f [i1] (counter_new limit) [0%nat] = Ok ([with_fit E i1 v], k1) /\
    obtain_fitness E hash g [i2] k1 [0%nat] = Ok ([with_fit E i2 v], k2).
Proof.
  intros f g limit i1 i2 v Hl Ho Hf Hv Hh.
  assert (Sf : forall i, set_fitness E i v = Ok (with_fit E i v)) by (intro i; apply set_fitness_ok; auto).
  exists (MkCounter (Some (MkCache Z dbl [(hash (i_chr E i1), MkStored dbl (Some v) 0)] limit 40)) 0 1).
  exists (MkCounter (Some (MkCache Z dbl [(hash (i_chr E i1), MkStored dbl (Some v) 1)] limit 40)) 1 1).
  split.
  - unfold obtain_fitness, counter_new, c_create. rewrite Hl. cbn [process_population h_get nth_error bind k_cache].
    unfold is_cached, touch. cbn [c_map lookup put sv_value bind fst snd k_hits k_counts].
    unfold count_values. cbn [mapM h_get nth_error bind]. rewrite Hf. cbn [bind assign_fitness h_get nth_error]. rewrite Sf.
    cbn [bind h_set upd length k_cache with_map c_limit c_bytes]. unfold cache_records. cbn [mapM h_get nth_error bind get_fitness with_fit i_has i_fit i_chr].
    unfold add_values, clear_up_to_limit, exceeded, with_map. cbn [c_map length c_limit c_bytes]. rewrite Ho. cbn [c_map length c_limit c_bytes]. rewrite Ho.
    cbn [fold_left put fst snd with_map c_map]. rewrite Z.eqb_refl. reflexivity.
  - unfold obtain_fitness. cbn [process_population h_get nth_error bind k_cache]. rewrite <- Hh.
    unfold is_cached, touch. cbn [c_map lookup put sv_value bind fst snd k_hits k_counts]. rewrite Z.eqb_refl. unfold with_map. cbn [sv_value c_map].
    unfold get_cached, touch. cbn [c_map lookup put sv_value bind fst snd with_map]. rewrite Z.eqb_refl. cbn [sv_value bind]. rewrite Sf.
    cbn [bind h_set upd]. unfold count_values. cbn [mapM bind assign_fitness k_cache]. unfold cache_records. cbn [mapM bind].
    unfold add_values, clear_up_to_limit, exceeded, with_map. cbn [c_map length c_limit c_bytes put with_map]. rewrite Z.eqb_refl.
    cbn [length c_map c_limit c_bytes]. rewrite Ho. cbn [c_map length c_limit c_bytes]. rewrite Ho.
    cbn [fold_left with_map c_map c_limit c_bytes bind k_hits k_counts length sv_usage]. reflexivity.
Qed.
End Fitness.
Print Assumptions C28_right_individuals.
Print Assumptions C28_counts.
Print Assumptions C28_collision_or_other_function_refuted.

(** The hypotheses of C28 are met, with a cache hit: the same individual presented twice with a one megabyte cache. *)
Example C28_witness : forall E hash f (i : indiv E) v, f (i_par E i) = Ok v -> d_ltb v (d_ofZ 0) = false ->
  exists k, history E hash f (counter_new (d_ofZ 1)) [([i], [0%nat], [with_fit E i v]); ([i], [0%nat], [with_fit E i v])] k.
Proof.
  intros E hash f i v Hf Hv.
  destruct (C28_collision_or_other_function_refuted E hash f f (d_ofZ 1) i i v) as (k1 & k2 & H1 & H2); auto; try (vm_compute; reflexivity).
  exists k2. econstructor; [exact H1|]. econstructor; [exact H2|]. constructor.
Qed.
