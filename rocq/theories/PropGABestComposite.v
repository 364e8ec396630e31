(** C24: which composite parameters survive their own encoding, and which decode alike - the two conditions of C24_any_mutator_calls. *)
From Coq Require Import Reals Psatz.
From Verif Require Import Base Num DblOrder ParamsSpec Params IntProofs CompositeProofs PropIntParam PropParams LibEnv GAInit Mutators PropGALibrary PropGABestCalls.
Local Open Scope list_scope.

Lemma sizes_alike N : forall ps qs, Forall2 (fun p q => p_size N q = p_size N p) ps qs -> mapM (p_size N) qs = mapM (p_size N) ps /\ total_size N qs = total_size N ps.
Proof. induction 1 as [|p q ps qs A _ [B C]]; [auto|]. cbn [mapM total_size]. rewrite A, B, C. auto. Qed.
Lemma false_pieces : forall pieces sizes n, cut_into sizes (repeat false n) pieces -> forall i o s, nth_error pieces i = Some o -> nth_error sizes i = Some s -> o = repeat false s.
Proof.
  intros pieces sizes n [A B] i o s Ho Hs. subst sizes. pose proof (map_nth_error (@length bool) i pieces Ho) as X. assert (s = length o) by congruence. subst s. clear X.
  assert (F : forall x, In x o -> x = false).
  { intros x Hx. apply (repeat_spec n false). rewrite <- B. apply in_concat. exists o. split; [exact (nth_error_In _ _ Ho)|exact Hx]. }
  clear -F. induction o as [|x o IH]; [reflexivity|]. cbn. rewrite (F x (or_introl eq_refl)). f_equal. apply IH. intros y Hy. apply F. right. exact Hy.
Qed.

(** A composite parameter survives encoding when each of its parameters does. *)
Theorem C24_composite_survives : forall N ps n, total_size N ps = Ok n -> Forall (survives_encoding N) ps ->
  survives_encoding N (PComp N (Some n) true ps).
Proof.
  intros N ps n Ht F k bits Hk He. assert (k = n) by (cbn in Hk; congruence). subst k.
  apply (C08_encode N ps n (repeat false n) bits Ht) in He as (sizes & olds & outs & Ms & Hsum & Co & Cb & A).
  apply (C08_decode N ps n bits _ Ht). exists sizes, outs, ps. split; [exact Ms|]. split; [exact Hsum|]. split; [exact Cb|]. split; [reflexivity|]. split; [reflexivity|].
  intros i p b q Hp Hb Hq. assert (q = p) by congruence. subst q.
  assert (Lz : length sizes = length ps) by (apply mapM_ok_length in Ms; lia).
  assert (Li : (i < length ps)%nat) by (apply nth_error_Some; congruence).
  destruct (nth_error sizes i) as [s|] eqn:Hs; [|apply nth_error_None in Hs; lia].
  destruct (nth_error olds i) as [o|] eqn:Ho; [|apply nth_error_None in Ho; destruct Co as [Co _]; rewrite <- Co, map_length in Lz; unfold chromosome in *; lia].
  assert (So : p_size N p = Ok s).
  { clear -Ms Hp Hs. revert sizes i Ms Hp Hs. induction ps as [|p0 ps IH]; intros sizes [|i] Ms Hp Hs; try discriminate; cbn [mapM] in Ms; apply bind_ok in Ms as (a & Ha & Ms); apply bind_ok in Ms as (r & Hr & Ms); injection Ms as <-; cbn [nth_error] in *.
    - congruence.
    - exact (IH r i Hr Hp Hs). }
  rewrite Forall_forall in F. apply (F p (nth_error_In _ _ Hp) s b So). rewrite <- (false_pieces olds sizes n Co i o s Ho Hs). exact (A i p o b Hp Ho Hb).
Qed.

Lemma decode_along N ps qs n bits r : total_size N ps = Ok n -> Forall2 (fun p q => p_size N q = p_size N p) ps qs -> Forall2 (decodes_alike N) ps qs ->
  p_set_from N (PComp N (Some n) true ps) bits = (r, Ok tt) -> p_set_from N (PComp N (Some n) true qs) bits = (r, Ok tt).
Proof.
  intros Ht S A H. destruct (sizes_alike N ps qs S) as [S1 S2]. apply (C08_decode N ps n bits _ Ht) in H as (sizes & pieces & ps' & Ms & Hsum & Hc & -> & Hl & Hall).
  apply (C08_decode N qs n bits _ (eq_trans S2 Ht)). exists sizes, pieces, ps'. rewrite S1. split; [exact Ms|]. split; [exact Hsum|]. split; [exact Hc|]. split; [reflexivity|].
  split; [rewrite Hl; clear -A; induction A as [|p q ps qs _ _ IH]; [reflexivity|cbn; congruence]|]. intros i q b r0 Hq Hb Hr.
  assert (X : exists p, nth_error ps i = Some p /\ decodes_alike N p q).
  { clear -A Hq. revert i Hq. induction A as [|p0 q0 ps qs A0 _ IH]; intros [|i] Hq; try discriminate; cbn [nth_error] in *; [injection Hq as <-; eauto|exact (IH i Hq)]. }
  destruct X as (p & Hp & D). apply D. exact (Hall i p b r0 Hp Hb Hr).
Qed.
(** Two composite parameters decode alike when their parameters do, one by one, and have the same sizes. *)
Theorem C24_composite_alike : forall N ps qs n, total_size N ps = Ok n -> Forall2 (fun p q => p_size N q = p_size N p) ps qs -> Forall2 (decodes_alike N) ps qs ->
  decodes_alike N (PComp N (Some n) true ps) (PComp N (Some n) true qs).
Proof.
  intros N ps qs n Ht S A bits r. destruct (sizes_alike N ps qs S) as [_ S2]. split.
  - apply decode_along; [congruence| |].
    + clear -S. induction S; constructor; [congruence|assumption].
    + clear -A. induction A as [|p q ps qs A0 _ IH]; constructor; [intros b r; split; apply A0|exact IH].
  - apply decode_along; assumption.
Qed.

(** met by a pair of integers *)
Example C24_composite_meets : forall v w, (v = 3 \/ v = 5)%Z -> (w = 0 \/ w = 6)%Z ->
  total_size FNum [two_values v; two_values w] = Ok 6%nat /\ survives_encoding FNum (PComp FNum (Some 6%nat) true [two_values v; two_values w]) /\
  decodes_alike FNum (PComp FNum (Some 6%nat) true [two_values 3; two_values 6]) (PComp FNum (Some 6%nat) true [two_values v; two_values w]).
Proof.
  intros v w Hv Hw. split; [reflexivity|].
  assert (K : forall x, (x = 0 \/ x = 3 \/ x = 5 \/ x = 6)%Z -> survives_encoding FNum (two_values x) /\ decodes_alike FNum (two_values 3) (two_values x) /\ decodes_alike FNum (two_values 6) (two_values x)).
  { intros x Hx. assert (B : (0 <= x <= 7)%Z) by lia. assert (M : ip_make x 0 7 = Ok (MkInt x 0 7 (Some 3%nat))) by (destruct Hx as [->|[->|[->| ->]]]; reflexivity).
    destruct (C24_int_survives FNum x 0 7 3 _ M ltac:(unfold INT_MIN; lia) B ltac:(unfold INT_MAX; lia) eq_refl) as [S _].
    destruct (C24_int_survives FNum 3 0 7 3 _ eq_refl ltac:(unfold INT_MIN; lia) ltac:(lia) ltac:(unfold INT_MAX; lia) eq_refl) as [_ A3].
    destruct (C24_int_survives FNum 6 0 7 3 _ eq_refl ltac:(unfold INT_MIN; lia) ltac:(lia) ltac:(unfold INT_MAX; lia) eq_refl) as [_ A6].
    split; [apply S; cbn; lia|]. split; [exact (A3 x _ M)|exact (A6 x _ M)]. }
  split.
  - apply C24_composite_survives; [reflexivity|]. apply Forall_cons; [apply K; lia|]. apply Forall_cons; [apply K; lia|]. apply Forall_nil.
  - apply C24_composite_alike; [reflexivity| |].
    + constructor; [reflexivity|]. constructor; [reflexivity|constructor].
    + constructor; [apply K; lia|]. constructor; [apply K; lia|constructor].
Qed.
(** What Optimize returns survives: a parameter object that was decoded encodes to the chromosome it was decoded from. (Not so for arrays of
    doubles, whose values are quantised again: C05_binary64_reencode.) *)
Inductive no_arrays (N : Num) : param N -> Prop :=
| na_int p : no_arrays N (PInt N p)
| na_double d : no_arrays N (PDouble N d)
| na_comp s i ps : Forall (no_arrays N) ps -> no_arrays N (PComp N s i ps).
Lemma ip_decoded_encodes p k bits q : count_chromosome_size (ip_min p) (ip_max p) = Ok k -> ip_size p = Some k -> ip_set_from p bits = (q, Ok tt) ->
  forall old, length old = k -> ip_set_chromosome q old = Ok bits.
Proof.
  intros Hc Hs H old Ho.
  assert (Mk : ip_make 0 (ip_min p) (ip_max p) = Ok (MkInt 0 (ip_min p) (ip_max p) (Some k))) by (unfold ip_make; rewrite Hc; reflexivity).
  apply ip_make_inv in Mk as (_ & k' & Ek & Hk & _). assert (k' = k) by congruence. subst k'.
  unfold ip_set_from in H. destruct (cs_check (ip_size p) (length bits)) eqn:C; [|discriminate|discriminate].
  assert (Lb : length bits = k). { unfold cs_check in C. rewrite Hs in C. destruct (Nat.eqb (length bits) k) eqn:Q; [apply Nat.eqb_eq in Q; exact Q|discriminate]. }
  rewrite int_from_bits_0 in H by lia. cbn [bind] in H. unfold chk_int in H. destruct (in_int _) eqn:I; [|discriminate]. injection H as <-.
  pose proof (bits_val_range bits) as B. rewrite Lb in B. assert (K : (2 ^ Z.of_nat k <= 2 ^ 30)%Z) by (apply Z.pow_le_mono_r; lia).
  rewrite (ip_encode _ k); [|exact Hs|exact Hk|exact Ho|cbn [ip_value ip_min ip_set_value]; unfold INT_MIN, INT_MAX; lia].
  cbn [ip_value ip_min ip_set_value]. replace (bits_val bits + ip_min p - ip_min p)%Z with (bits_val bits) by lia. f_equal. rewrite <- Lb. apply bits_val_z_bits.
Qed.
Lemma sizes_nth N : forall ps sizes i p s, mapM (p_size N) ps = Ok sizes -> nth_error ps i = Some p -> nth_error sizes i = Some s -> p_size N p = Ok s.
Proof.
  induction ps as [|p0 ps IH]; intros sizes [|i] p s Ms Hp Hs; try discriminate; cbn [mapM] in Ms; apply bind_ok in Ms as (a & Ha & Ms); apply bind_ok in Ms as (r & Hr & Ms); injection Ms as <-; cbn [nth_error] in *.
  - congruence.
  - exact (IH r i p s Hr Hp Hs).
Qed.
Lemma decoded_encodes N : forall p, wf_param N p -> no_arrays N p -> forall bits r, p_set_from N p bits = (r, Ok tt) ->
  forall k old, p_size N p = Ok k -> length old = k -> p_set_chromosome N r old = Ok bits.
Proof.
  induction p as [p|d|a|s i ps IH] using (param_nested_ind N); intros W A bits r H k old Hk Ho.
  - inversion W as [? k0 W1 W2| | |]; subst. cbn [p_set_from] in H. destruct (ip_set_from p bits) as [q o] eqn:D. injection H as <- ->. cbn [p_size] in Hk. rewrite W2 in Hk. cbn in Hk. injection Hk as Hk.
    cbn [p_set_chromosome]. apply (ip_decoded_encodes p k0 bits q W1 W2 D). congruence.
  - inversion W as [|? b k0 W1 W2 W3 W4| |]; subst. cbn [p_set_from] in H. unfold dp_set_from in H. rewrite W1 in H. destruct (ip_set_from b bits) as [q o] eqn:D. injection H as <- ->.
    cbn [p_size] in Hk. rewrite W4 in Hk. cbn in Hk. injection Hk as Hk. cbn [p_set_chromosome]. unfold dp_set_chromosome. cbn [dp_base dp_with_base].
    apply (ip_decoded_encodes b k0 bits q W2 W3 D). congruence.
  - inversion A.
  - inversion W as [| | |n ps0 Wf Ht]; subst. inversion A as [| |? ? ? Af]; subst. cbn in Hk. injection Hk as Hk. subst n.
    destruct (C08_roundtrip N ps (length old) bits r old Ht H eq_refl) as (sizes & pieces & olds & ps' & Ms & Cb & Co & -> & L1 & L2 & L3 & Hall & R).
    apply R. intros j q b o Hq Hb Hol.
    assert (Lj : (j < length ps)%nat) by (rewrite <- L1; apply nth_error_Some; congruence).
    destruct (nth_error ps j) as [p|] eqn:Hp; [|apply nth_error_None in Hp; lia].
    rewrite Forall_forall in IH, Wf, Af. pose proof (nth_error_In _ _ Hp) as Ip.
    refine (IH p Ip (Wf p Ip) (Af p Ip) b q (Hall j p b q Hp Hb Hq) (length o) o _ eq_refl).
    apply (sizes_nth N ps sizes j p (length o) Ms Hp). destruct Co as [Co _]. rewrite <- Co. exact (map_nth_error (@length bool) j olds Hol).
Qed.
Theorem C24_decoded_survives : forall N p bits r, wf_param N p -> no_arrays N p -> p_set_from N p bits = (r, Ok tt) ->
  survives_encoding N r /\ decodes_alike N p r.
Proof.
  intros N p bits r W A H. split; [|intros c r'; exact (param_dec_over N p bits r H c r')].
  intros k c Hk He. pose proof (set_from_size N p bits) as Sz.
  assert (Idem : p_set_from N r bits = (r, Ok tt)) by exact (lw_idem _ _ (lib_lawful N 1 flip_bit (fun _ _ m => m) 1) p bits r W H).
  destruct (p_size N p) as [k0|e|u] eqn:Kp.
  - pose proof (Sz k0 eq_refl) as Kr. rewrite H in Kr. cbn [fst] in Kr. assert (k0 = k) by congruence. subst k0.
    assert (X : p_set_chromosome N r (repeat false k) = Ok bits) by (apply (decoded_encodes N p W A bits r H k); [exact Kp|apply repeat_length]).
    assert (c = bits) by congruence. subst c. exact Idem.
  - exfalso. inversion W as [? ? ? W2|? ? ? ? ? ? W4|? ? ? ? W5|]; subst; cbn in Kp; try rewrite W2 in Kp; try rewrite W4 in Kp; try rewrite W5 in Kp; discriminate.
  - exfalso. inversion W as [? ? ? W2|? ? ? ? ? ? W4|? ? ? ? W5|]; subst; cbn in Kp; try rewrite W2 in Kp; try rewrite W4 in Kp; try rewrite W5 in Kp; discriminate.
Qed.
(** met by a composite of an integer and a double, whatever the chromosome *)
Example C24_decoded_meets : exists c n, wf_param FNum c /\ no_arrays FNum c /\ (3 <= n)%nat /\
  forall bits, length bits = n -> exists r, p_set_from FNum c bits = (r, Ok tt) /\ survives_encoding FNum r /\ decodes_alike FNum c r.
Proof.
  destruct witness_par as (d & n & c & Hd & Hc & D & Hn). exists c, n. split; [exact (dc_wf _ _ _ D)|].
  assert (A : no_arrays FNum c).
  { destruct (C08_initialize FNum _ _ Hc) as (ps' & m & Cl & _ & ->). assert (E : ps' = [PInt FNum (MkInt 3 0 7 (Some 3%nat)); PDouble FNum d]).
    { cbn [mapM] in Cl. rewrite (clone_id FNum _ (wf_int FNum (MkInt 3 0 7 (Some 3%nat)) 3 eq_refl eq_refl)), (clone_id FNum _ (wf_dp_make FNum _ _ _ _ _ Hd)) in Cl. cbn [bind] in Cl. congruence. }
    rewrite E. constructor. constructor; [constructor|]. constructor; [constructor|constructor]. }
  split; [exact A|]. split; [lia|]. intros bits Hb. destruct (dc_dec _ _ _ D bits Hb) as (r & Hr & _). exists r. split; [exact Hr|].
  exact (C24_decoded_survives FNum c bits r (dc_wf _ _ _ D) A Hr).
Qed.
(** An array of doubles that was decoded need not survive in binary64: the value of the second chromosome is encoded as the first one. So the
    result of Optimize, given to SetInitialParameters, enters the population under a chromosome of another value. *)
Definition array_lost : bool :=
  match da_make FNum m512 p512 d001 1 with
  | Ok a => match p_set_from FNum (PArr FNum a) bits_of_one with
    | (PArr r, Ok _) => match da_check FNum r with
      | Ok true => match da_size FNum r, da_set_chromosome FNum r (repeat false 10) with
        | Some 10%nat, Ok c => match p_set_from FNum (PArr FNum r) c with
          | (PArr r2, Ok _) => match da_values FNum r, da_values FNum r2 with [x], [y] => d_ltb y x | _, _ => false end
          | _ => false end
        | _, _ => false end
      | _ => false end
    | _ => false end
  | _ => false end.
Theorem C24_array_survives_refuted : exists mn mx pr a bits r, da_make FNum mn mx pr 1 = Ok a /\ p_set_from FNum (PArr FNum a) bits = (r, Ok tt) /\ p_check FNum r = Ok true /\
  ~ survives_encoding FNum r.
Proof.
  assert (H : array_lost = true) by (vm_compute; reflexivity). unfold array_lost in H.
  exists m512, p512, d001. destruct (da_make FNum m512 p512 d001 1) as [a|e|u]; [|discriminate|discriminate].
  exists a, bits_of_one. destruct (p_set_from FNum (PArr FNum a) bits_of_one) as [r o]. destruct r as [|?|r|]; [discriminate|discriminate| |discriminate].
  destruct o as [[]|e|u]; [|discriminate|discriminate]. exists (PArr FNum r). split; [reflexivity|]. split; [reflexivity|].
  destruct (da_check FNum r) as [[]|e|u] eqn:C; [|discriminate|discriminate|discriminate]. split; [exact C|]. intro S.
  destruct (da_size FNum r) as [k|] eqn:Sz; [|discriminate].
  destruct (Nat.eq_dec k 10) as [->|Nk]; [|do 10 (destruct k as [|k]; [discriminate|]); destruct k; [congruence|discriminate]].
  destruct (da_set_chromosome FNum r (repeat false 10)) as [c|e|u] eqn:Ec; [|discriminate|discriminate].
  assert (X : p_set_from FNum (PArr FNum r) c = (PArr FNum r, Ok tt)). { apply (S 10%nat c); [cbn [p_size]; rewrite Sz; reflexivity|exact Ec]. }
  rewrite X in H. destruct (da_values FNum r) as [|x [|]]; [discriminate| |discriminate]. rewrite d_ltb_irrefl in H. discriminate.
Qed.
Print Assumptions C24_array_survives_refuted.
Print Assumptions C24_decoded_survives. Print Assumptions C24_decoded_meets.
Print Assumptions C24_composite_survives. Print Assumptions C24_composite_alike. Print Assumptions C24_composite_meets.
