(** C04-C10: double, array and composite parameters. *)
From Coq Require Import Reals Psatz.
From Flocq Require Import Core.Core IEEE754.BinarySingleNaN.
From Verif Require Import Base Num Params ParamsSpec IntProofs DoubleProofs ArrayProofs CompositeProofs
  FloatLemmas FDoubleProofs.

(** ** C04: construction and quantisation, exact arithmetic *)

Theorem C04_construction : forall v mn mx p : R,
  (mn < mx -> mn <= v <= mx -> 0 < p -> (Zceil ((mx - mn) / p) <= 2 ^ 30)%Z ->
     exists d k x, dp_make RNum v mn mx p = Ok d /\ dp_size _ d = Some k /\
       least_pow2_exp (Zceil ((mx - mn) / p)) k /\
       dp_min _ d = mn /\ dp_max _ d = mx /\
       dp_prec _ d = (mx - mn) / 2 ^ k /\ 0 < dp_prec _ d <= p /\
       dp_get_value RNum d = Ok x /\ x <= v < x + dp_prec _ d /\ mn <= x <= mx /\
       dp_check RNum d = Ok true)%R.
Proof.
  intros v mn mx p Hlt Hv Hp HM.
  destruct (dp_make_ok v mn mx p Hlt Hv Hp HM) as (d & k & Hd & Hl & Hg & Hpr & i & Hb & Hi & Hx).
  pose proof (dp_prec_pos _ _ _ _ Hg) as Hpos.
  pose proof Hg as (Hmn & Hmx & Hprec & Hs & Hk & _ & _).
  exists d, k, (mn + IZR i * dp_prec _ d)%R.
  assert (Hget : dp_get_value RNum d = Ok (mn + IZR i * dp_prec _ d)%R).
  { unfold dp_get_value, dp_value_of. rewrite Hb. cbn. rewrite Hmn. f_equal. ring. }
  assert (Hlo : (mn <= mn + IZR i * dp_prec _ d)%R).
  { assert (0 <= IZR i)%R by (apply IZR_le; lia). nra. }
  do 5 (split; [assumption|]). split; [exact Hprec|]. split; [lra|]. split; [exact Hget|].
  split; [exact Hx|]. split; [lra|].
  unfold dp_check. rewrite Hget. cbn [bind]. unfold dp_check_bounds. cbn [n_leb RNum]. rewrite Hmn, Hmx.
  f_equal. apply andb_true_iff. rewrite !R_leb_true. lra.
Qed.
Print Assumptions C04_construction.

Theorem C04_rejects : forall v mn mx p : R,
  (mx <= mn \/ v < mn \/ mx < v -> dp_make RNum v mn mx p = Throw InvalidArgument)%R /\
  (mn < mx -> mn <= v <= mx -> p < 0 -> (INT_MIN <= Zceil ((mx - mn) / p))%Z ->
     dp_make RNum v mn mx p = Throw InvalidArgument)%R /\
  (mn < mx -> mn <= v <= mx -> 0 < p -> (2 ^ 30 < Zceil ((mx - mn) / p))%Z ->
     exists u, dp_make RNum v mn mx p = UB u)%R.
Proof.
  intros v mn mx p. split; [|split].
  - intros [H|H]; [apply dp_make_bad_interval; exact H|apply dp_make_bad_value; exact H].
  - apply dp_make_neg_precision.
  - apply dp_make_overflow.
Qed.
Print Assumptions C04_rejects.

Example C04_meets : (0 < 10 /\ 0 <= 3 <= 10 /\ 0 < 1)%R /\ (Zceil ((10 - 0) / 1) <= 2 ^ 30)%Z.
Proof.
  split; [lra|]. replace ((10 - 0) / 1)%R with (IZR 10) by field. rewrite Zceil_IZR. lia.
Qed.
(** The same constructor evaluated in binary64: 3 in [0,10] with desired precision 1 has 16 steps of 0.625
    and holds 4 * 0.625 = 2.5. *)
Example C04_binary64 :
  match dp_make FNum (d_ofZ 3) (d_ofZ 0) (d_ofZ 10) (d_ofZ 1) with
  | Ok d => dp_size FNum d = Some 4%nat /\ d_eqb (dp_prec FNum d) (d_of 5 (-3)) = true /\
            match dp_get_value FNum d with Ok x => d_eqb x (d_of 5 (-1)) = true | _ => False end
  | _ => False
  end.
Proof. vm_compute. auto. Qed.

(** ** C05: chromosomes of a DoubleParameter *)

(** exact arithmetic: decode is total on chromosomes of the declared size, lies in [min, max), satisfies the
    constraints, and SetValue(GetValue()) followed by SetChromosome gives the chromosome back *)
Theorem C05_exact_roundtrip : forall v mn mx p d k bits,
  (mn < mx)%R -> (mn <= v <= mx)%R -> (0 < p)%R -> (Zceil ((mx - mn) / p) <= 2 ^ 30)%Z ->
  dp_make RNum v mn mx p = Ok d -> dp_size _ d = Some k -> length bits = k ->
  exists d' x, dp_set_from RNum d bits = (d', Ok tt) /\ dp_get_value RNum d' = Ok x /\
    x = (mn + IZR (bits_val bits) * dp_prec _ d)%R /\ (mn <= x < mx)%R /\ dp_check RNum d' = Ok true /\
    forall old, length old = k ->
      exists d'', dp_set_value RNum d x = Ok d'' /\ dp_set_chromosome RNum d'' old = Ok bits.
Proof.
  intros v mn mx p d k bits Hlt Hv Hp HM Hd Hs Hl.
  destruct (dp_make_ok v mn mx p Hlt Hv Hp HM) as (e & j & He & _ & Hg & _).
  rewrite Hd in He. inversion He; subst e; clear He.
  pose proof Hg as (_ & _ & _ & Hs' & _). rewrite Hs in Hs'. inversion Hs'; subst j.
  destruct (dp_decode d mn mx k bits Hg Hl) as (d' & Hf & _ & _ & _ & Hget & Hc & Hr).
  exists d', (mn + IZR (bits_val bits) * dp_prec _ d)%R.
  split; [exact Hf|]. split; [exact Hget|]. split; [reflexivity|]. split; [exact Hr|]. split; [exact Hc|].
  intros old Ho. eapply dp_reencode; eauto.
Qed.
Print Assumptions C05_exact_roundtrip.

(** binary64, as executed: whenever the constructor succeeds and max-min >= 2^-992, every chromosome of the
    declared size decodes to a finite value within [min,max], so CheckConstraints accepts it *)
Theorem C05_binary64_decode_valid : forall v mn mx p d k bits,
  dp_make FNum v mn mx p = Ok d -> (bpow radix2 (-992) <= B2R mx - B2R mn)%R ->
  dp_size FNum d = Some k -> length bits = k ->
  exists d', dp_set_from FNum d bits = (d', Ok tt) /\ dp_check FNum d' = Ok true /\
    exists x, dp_get_value FNum d' = Ok x /\ is_finite x = true /\ (B2R mn <= B2R x <= B2R mx)%R.
Proof. exact F_decode. Qed.
Print Assumptions C05_binary64_decode_valid.

(** binary64: the re-encoding law fails. DoubleParameter(-5.12, -5.12, 5.12, 0.01) (10 bits): the chromosome
    with value 1 decodes to a value that SetValue truncates back to 0. *)
Definition m512 : dbl := d_of (-5764607523034235) (-50).
Definition p512 : dbl := d_of 5764607523034235 (-50).
Definition d001 : dbl := d_of 5764607523034235 (-59).
Definition bits_of_one : chromosome := [true; false; false; false; false; false; false; false; false; false].

(** DoubleParameter(v=min,min,max,p) then SetFromChromosome(bits), x = GetValue(), SetValue(x),
    SetChromosome into a zero chromosome *)
Definition dp_reencode_run (mn mx p : dbl) (bits : chromosome) : outcome chromosome :=
  let! d := dp_make FNum mn mn mx p in
  let! _ := snd (dp_set_from FNum d bits) in
  let! x := dp_get_value FNum (fst (dp_set_from FNum d bits)) in
  let! d'' := dp_set_value FNum d x in
  dp_set_chromosome FNum d'' (repeat false (length bits)).

Theorem C05_binary64_reencode_refuted :
  dp_reencode_run m512 p512 d001 bits_of_one = Ok (repeat false 10) /\ repeat false 10 <> bits_of_one.
Proof. split; [vm_compute; reflexivity|discriminate]. Qed.
Print Assumptions C05_binary64_reencode_refuted.

(** ** C06: arrays *)

(** in any arithmetic: SetChromosome writes to slice i the encoding of element i *)
Theorem C06_encode_slices : forall (N : Num) (a : DoubleArr N) k old c,
  dp_size N (da_sample N a) = Some k -> da_size N a = Some (k * length (da_values N a))%nat ->
  da_set_chromosome N a old = Ok c ->
  length old = (k * length (da_values N a))%nat /\ length c = length old /\
  forall i v, nth_error (da_values N a) i = Some v ->
    exists s', dp_set_value N (da_sample N a) v = Ok s' /\
               dp_set_chromosome N s' (slice k i old) = Ok (slice k i c).
Proof. exact da_encode_spec. Qed.
Print Assumptions C06_encode_slices.

(** in any arithmetic: SetFromChromosome sets element i from slice i, and only the values change *)
Theorem C06_decode_slices : forall (N : Num) (a : DoubleArr N) k bits a',
  dp_size N (da_sample N a) = Some k -> da_size N a = Some (k * length (da_values N a))%nat ->
  da_set_from N a bits = (a', Ok tt) ->
  length bits = (k * length (da_values N a))%nat /\
  length (da_values N a') = length (da_values N a) /\ da_sample N a' = da_sample N a /\ da_size N a' = da_size N a /\
  forall i, (i < length (da_values N a))%nat ->
    exists s' x, dp_set_from N (da_sample N a) (slice k i bits) = (s', Ok tt) /\
                 dp_get_value N s' = Ok x /\ nth_error (da_values N a') i = Some x.
Proof. exact da_decode_spec. Qed.
Print Assumptions C06_decode_slices.

(** exact arithmetic: construction, size n*k, and encode after decode is the identity on chromosomes *)
Theorem C06_exact_roundtrip : forall mn mx p n, (mn < mx)%R -> (0 < p)%R -> (Zceil ((mx - mn) / p) <= 2 ^ 30)%Z ->
  exists a k, da_make RNum mn mx p n = Ok a /\ dp_size _ (da_sample _ a) = Some k /\
    da_size _ a = Some (k * n)%nat /\ length (da_values _ a) = n /\
    forall bits, length bits = (k * n)%nat ->
      exists a', da_set_from RNum a bits = (a', Ok tt) /\
        (forall old, length old = (k * n)%nat -> da_set_chromosome RNum a' old = Ok bits) /\
        Forall (fun v => mn <= v < mx)%R (da_values _ a').
Proof.
  intros mn mx p n Hlt Hp HM.
  destruct (da_make_good mn mx p n Hlt Hp HM) as (a & k & Ha & [Hg Hs] & Hn & _).
  exists a, k. pose proof Hg as (_ & _ & _ & Hk & _). rewrite Hn in Hs.
  do 4 (split; [assumption|]). intros bits Hb.
  destruct (da_roundtrip a mn mx k bits) as (a' & H1 & _ & _ & H2 & H3).
  - split; [exact Hg|rewrite Hn; exact Hs].
  - rewrite Hn; exact Hb.
  - exists a'. split; [exact H1|]. split; [|exact H3]. intros old Ho. apply H2. congruence.
Qed.
Print Assumptions C06_exact_roundtrip.

Theorem C06_wrong_size : forall (N : Num) (a : DoubleArr N) m bits,
  da_size N a = Some m -> length bits <> m ->
  da_set_from N a bits = (a, Throw InvalidArgument) /\ da_set_chromosome N a bits = Throw InvalidArgument.
Proof. exact da_wrong_size. Qed.
Print Assumptions C06_wrong_size.

(** binary64 run: three elements in [0,8], precision 1 (3 bits each) decode to 5, 0, 7 and encode back. *)
Example C06_binary64_run :
  match da_make FNum (d_ofZ 0) (d_ofZ 8) (d_ofZ 1) 3 with
  | Ok a =>
      let bits := [true; false; true; false; false; false; true; true; true] in
      match da_set_from FNum a bits with
      | (a', Ok _) => map (fun x => d_toint x) (da_values FNum a') = [Ok 5%Z; Ok 0%Z; Ok 7%Z] /\
                      da_set_chromosome FNum a' (repeat false 9) = Ok bits
      | _ => False
      end
  | _ => False
  end.
Proof. vm_compute. auto. Qed.

(** ** C07: SetValues *)

Theorem C07_set_values : forall mn mx p n a vs, (mn < mx)%R -> (0 < p)%R ->
  (Zceil ((mx - mn) / p) <= 2 ^ 30)%Z -> da_make RNum mn mx p n = Ok a ->
  let prec := dp_prec _ (da_sample _ a) in
  (length vs <> n -> da_set_values RNum a vs = (a, Throw InvalidArgument)) /\
  (length vs = n ->
     da_values _ (fst (da_set_values RNum a vs)) = vs /\
     (snd (da_set_values RNum a vs) = Ok tt <-> Forall (fun v => mn - prec < v < mx + prec)%R vs) /\
     ((forall v, In v vs -> in_int (Ztrunc ((v - mn) / prec)) = true) ->
        ~ Forall (fun v => mn - prec < v < mx + prec)%R vs ->
        snd (da_set_values RNum a vs) = Throw InvalidArgument)).
Proof.
  intros mn mx p n a vs Hlt Hp HM Ha prec.
  destruct (da_make_good mn mx p n Hlt Hp HM) as (b & k & Hb & Hg & Hn & _).
  rewrite Ha in Hb. inversion Hb; subst b; clear Hb. split.
  - intro H. apply da_set_values_wrong. rewrite Hn. exact H.
  - intro H. split; [apply da_set_values_stores; rewrite Hn; exact H|].
    apply (set_values_spec a mn mx k vs Hg). rewrite Hn; exact H.
Qed.
Print Assumptions C07_set_values.

(** "SetValues accepts only values within [min,max]" is false: in binary64, an array over [0,1] with precision
    1/2 accepts -1/4 and 5/4; and a rejected call leaves the rejected values stored. *)
Theorem C07_only_in_bounds_refuted :
  match da_make FNum (d_ofZ 0) (d_ofZ 1) (d_of 1 (-1)) 2 with
  | Ok a => 
      let out := [d_of (-1) (-2); d_of 5 (-2)] in
      let far := [d_ofZ 7; d_ofZ 0] in
      snd (da_set_values FNum a out) = Ok tt /\
      d_ltb (d_of (-1) (-2)) (da_sample FNum a).(dp_min FNum) = true /\
      d_ltb (da_sample FNum a).(dp_max FNum) (d_of 5 (-2)) = true /\
      snd (da_set_values FNum a far) = Throw InvalidArgument /\
      map d_toint (da_values FNum (fst (da_set_values FNum a far))) = [Ok 7%Z; Ok 0%Z]
  | _ => False
  end.
Proof. vm_compute. auto. Qed.
Print Assumptions C07_only_in_bounds_refuted.

(** ** C08: composites (any arithmetic) *)

(** the composite produced by Initialize: size = sum of component sizes; the components are clones *)
Theorem C08_initialize : forall (N : Num) ps c,
  comp_initialize N (comp_new N) ps = (c, Ok tt) ->
  exists ps' n, mapM (p_clone N) ps = Ok ps' /\ total_size N ps' = Ok n /\ c = PComp N (Some n) true ps'.
Proof. exact initialize_fresh. Qed.
Print Assumptions C08_initialize.

Theorem C08_encode : forall (N : Num) ps n old out,
  total_size N ps = Ok n ->
  (p_set_chromosome N (PComp N (Some n) true ps) old = Ok out <->
   exists sizes olds outs, mapM (p_size N) ps = Ok sizes /\ list_sum sizes = n /\
     cut_into sizes old olds /\ cut_into sizes out outs /\
     forall i p o r, nth_error ps i = Some p -> nth_error olds i = Some o -> nth_error outs i = Some r ->
       p_set_chromosome N p o = Ok r).
Proof. exact composite_encode. Qed.
Print Assumptions C08_encode.

Theorem C08_decode : forall (N : Num) ps n bits c',
  total_size N ps = Ok n ->
  (p_set_from N (PComp N (Some n) true ps) bits = (c', Ok tt) <->
   exists sizes pieces ps', mapM (p_size N) ps = Ok sizes /\ list_sum sizes = n /\ cut_into sizes bits pieces /\
     c' = PComp N (Some n) true ps' /\ length ps' = length ps /\
     forall i p b q, nth_error ps i = Some p -> nth_error pieces i = Some b -> nth_error ps' i = Some q ->
       p_set_from N p b = (q, Ok tt)).
Proof. exact composite_decode. Qed.
Print Assumptions C08_decode.

(** The composite round-trips exactly when every component does: after decoding [bits], encoding over any chromosome [old] of the right
    length gives [bits] back iff each component, having decoded its own slice, encodes that slice again over its slice of [old]. *)
Lemma cut_unique sizes l a b : cut_into sizes l a -> cut_into sizes l b -> a = b.
Proof.
  unfold cut_into. intros [A1 A2] [B1 B2]. subst l. revert b sizes A1 B1 B2. induction a as [|x a IH]; intros [|y b] sizes A1 B1 B2; cbn in *; try (subst sizes; discriminate); [reflexivity|].
  subst sizes. injection B1 as L B1. assert (X : y = x /\ concat b = concat a).
  { revert y L B2. induction x as [|c x IHx]; intros [|d y] L B2; cbn in *; try discriminate; [auto|]. injection L as L. injection B2 as -> B2. destruct (IHx y L B2) as [-> E]. auto. }
  destruct X as [-> E]. f_equal. exact (IH b _ eq_refl B1 E).
Qed.
Theorem C08_roundtrip : forall (N : Num) ps n bits c' old,
  total_size N ps = Ok n -> p_set_from N (PComp N (Some n) true ps) bits = (c', Ok tt) -> length old = n ->
  exists sizes pieces olds ps', mapM (p_size N) ps = Ok sizes /\ cut_into sizes bits pieces /\ cut_into sizes old olds /\
    c' = PComp N (Some n) true ps' /\ length ps' = length ps /\ length pieces = length ps /\ length olds = length ps /\
    (forall i p b q, nth_error ps i = Some p -> nth_error pieces i = Some b -> nth_error ps' i = Some q -> p_set_from N p b = (q, Ok tt)) /\
    (p_set_chromosome N c' old = Ok bits <->
     forall i q b o, nth_error ps' i = Some q -> nth_error pieces i = Some b -> nth_error olds i = Some o -> p_set_chromosome N q o = Ok b).
Proof.
  intros N ps n bits c' old Ht Hd Hl. apply (composite_decode N _ _ _ _ Ht) in Hd as (sizes & pieces & ps' & Hs & Hsum & Hcut & -> & Hlen & Hall).
  destruct (cut_exists sizes old) as (olds & Hold); [lia|].
  assert (Lz : length sizes = length ps) by (apply mapM_ok_length in Hs; lia).
  assert (Lp : length pieces = length ps) by (destruct Hcut as [E _]; rewrite <- Lz, <- E, map_length; reflexivity).
  assert (Lo : length olds = length ps) by (destruct Hold as [E _]; rewrite <- Lz, <- E, map_length; reflexivity).
  assert (Ms : mapM (p_size N) ps' = Ok sizes).
  { clear Hcut Hold Ht Hl. revert pieces ps' sizes Hs Hsum Hlen Hall Lz Lp Lo. revert n olds. induction ps as [|p ps IH]; intros n olds [|b pieces] [|q ps'] sizes Hs Hsum Hlen Hall Lz Lp Lo; try discriminate; [exact Hs|].
    cbn [mapM] in *. apply bind_ok in Hs as (a & Ha & Hs). apply bind_ok in Hs as (r & Hr & Hs). injection Hs as <-. destruct olds as [|o olds]; [discriminate|].
    pose proof (Hall 0%nat p b q eq_refl eq_refl eq_refl) as D. pose proof (set_from_size N p b a Ha) as Z. rewrite D in Z. cbn [fst] in Z. rewrite Z. cbn [bind].
    rewrite (IH (list_sum r) olds pieces ps' r Hr eq_refl); [reflexivity|cbn in *; lia| |cbn in *; lia|cbn in *; lia|cbn in *; lia].
    intros i p' b' q' H1 H2 H3. exact (Hall (S i) p' b' q' H1 H2 H3). }
  assert (Ht' : total_size N ps' = Ok n).
  { rewrite <- Hsum. clear -Ms. revert sizes Ms. induction ps' as [|q ps' IH]; intros sizes Ms; cbn [mapM total_size] in *; [injection Ms as <-; reflexivity|].
    apply bind_ok in Ms as (a & Ha & Ms). apply bind_ok in Ms as (r & Hr & Ms). injection Ms as <-. rewrite Ha. cbn [bind]. rewrite (IH r Hr). reflexivity. }
  exists sizes, pieces, olds, ps'. split; [exact Hs|]. split; [exact Hcut|]. split; [exact Hold|]. split; [reflexivity|]. split; [exact Hlen|]. split; [exact Lp|]. split; [exact Lo|]. split; [exact Hall|].
  rewrite (composite_encode N _ _ _ _ Ht'). split.
  - intros (sz & olds' & outs & M' & _ & C1 & C2 & A) i q b o H1 H2 H3. rewrite Ms in M'. injection M' as <-.
    rewrite (cut_unique _ _ _ _ C1 Hold) in A. rewrite (cut_unique _ _ _ _ C2 Hcut) in A. exact (A i q o b H1 H3 H2).
  - intro A. exists sizes, olds, pieces. split; [exact Ms|]. split; [exact Hsum|]. split; [exact Hold|]. split; [exact Hcut|]. intros i q o b H1 H2 H3. exact (A i q b o H1 H3 H2).
Qed.
Print Assumptions C08_roundtrip.

Theorem C08_check : forall (N : Num) s ps,
  (p_check N (PComp N s true ps) = Ok true <-> Forall (fun p => p_check N p = Ok true) ps) /\
  (p_check N (PComp N s true ps) = Ok false <->
     exists pre p post, ps = pre ++ p :: post /\ Forall (fun q => p_check N q = Ok true) pre /\ p_check N p = Ok false).
Proof. intros N s ps. rewrite check_comp. apply comp_check_spec. Qed.
Print Assumptions C08_check.

(** uninitialised use *)
Theorem C08_uninitialised : forall (N : Num) s ps bits,
  p_check N (PComp N s false ps) = Throw LogicError /\
  p_set_chromosome N (PComp N s false ps) bits = Throw LogicError /\
  p_set_from N (PComp N s false ps) bits = (PComp N s false ps, Throw LogicError) /\
  p_clone N (PComp N s false ps) = Throw LogicError.
Proof. intros. repeat split; reflexivity. Qed.
Print Assumptions C08_uninitialised.

(** GetParameter and GetNumberOfParameters: exactly the stored components; indices past the end are refused, except the largest size_t, for which
    the code's [index + 1] is 0 and the access is out of bounds *)
Theorem C08_access : forall (N : Num) s (ps : list (param N)) (i : Z), (0 <= i < 2 ^ 64)%Z -> (Z.of_nat (length ps) < 2 ^ 63)%Z ->
  comp_number N (PComp N s true ps) = Ok (length ps) /\
  comp_number N (PComp N s false ps) = Throw LogicError /\ comp_get N (PComp N s false ps) i = Throw LogicError /\
  (forall p, comp_get N (PComp N s true ps) i = Ok p <-> nth_error ps (Z.to_nat i) = Some p) /\
  (comp_get N (PComp N s true ps) i = Throw OutOfRange <-> (Z.of_nat (length ps) <= i < 2 ^ 64 - 1)%Z) /\
  (comp_get N (PComp N s true ps) i = UB OutOfBounds <-> i = (2 ^ 64 - 1)%Z).
Proof.
  intros N s ps i Hi Hl. repeat (split; [reflexivity|]). unfold comp_get, SIZE_MAX_succ, at_. change (2 ^ 64)%Z with 18446744073709551616%Z in *. change (2 ^ 63)%Z with 9223372036854775808%Z in *.
  destruct (Z.eq_dec i (18446744073709551616 - 1)) as [E|E].
  - replace ((i + 1) mod 18446744073709551616 >? Z.of_nat (length ps))%Z with false by (rewrite E; cbn; lia).
    assert (X : nth_error ps (Z.to_nat i) = None) by (apply nth_error_None; lia). rewrite X. split; [intro p; split; discriminate|]. split; split; (discriminate || lia || auto).
  - rewrite Z.mod_small by lia. destruct (Z.gtb_spec (i + 1) (Z.of_nat (length ps))) as [H|H].
    + assert (X : nth_error ps (Z.to_nat i) = None) by (apply nth_error_None; lia). rewrite X. split; [intro p; split; discriminate|]. split; split; intro; (discriminate || lia || reflexivity).
    + destruct (nth_error ps (Z.to_nat i)) as [q|] eqn:X; [|apply nth_error_None in X; lia]. split; [intro p; split; intro Y; injection Y as <-; reflexivity|]. split; split; intro; (discriminate || lia).
Qed.
Print Assumptions C08_access.
(** Initialize(sample, n): n clones of the sample *)
Theorem C08_initialize_n : forall (N : Num) (sample : param N) n c, comp_initialize_n N (comp_new N) sample n = (c, Ok tt) -> (0 < n)%nat ->
  exists q k, p_clone N sample = Ok q /\ p_size N q = Ok k /\ c = PComp N (Some (n * k)%nat) true (repeat q n).
Proof.
  intros N sample n c H Hn. apply C08_initialize in H as (ps' & m & M1 & M2 & ->).
  destruct (p_clone N sample) as [q| |] eqn:E; [|destruct n; [lia|cbn in M1; rewrite E in M1; discriminate]..].
  assert (R : mapM (p_clone N) (repeat sample n) = Ok (repeat q n)). { clear -E. induction n as [|n IH]; [reflexivity|]. cbn [repeat mapM]. rewrite E. cbn [bind]. rewrite IH. reflexivity. }
  rewrite R in M1. injection M1 as <-. assert (S0 : exists k, p_size N q = Ok k). { destruct n; [lia|]. cbn in M2. destruct (p_size N q); [eauto|discriminate|discriminate]. }
  destruct S0 as [k Ek]. exists q, k. split; [reflexivity|]. split; [exact Ek|]. assert (T : total_size N (repeat q n) = Ok (n * k)%nat). { clear -Ek. induction n as [|n IH]; [reflexivity|]. cbn [repeat total_size]. rewrite Ek. cbn [bind]. rewrite IH. reflexivity. }
  rewrite T in M2. injection M2 as <-. reflexivity.
Qed.
Print Assumptions C08_initialize_n.

(** a mixed composite round trip computed in binary64: int in [3,10] (3 bits) and double in [0,8] (3 bits) *)
Example C08_run :
  match ip_make2 3 10, dp_make FNum (d_ofZ 0) (d_ofZ 0) (d_ofZ 8) (d_ofZ 1) with
  | Ok a, Ok b =>
      match comp_initialize FNum (comp_new FNum) [PInt FNum a; PDouble FNum b] with
      | (c, Ok _) =>
          p_size FNum c = Ok 6%nat /\
          match p_set_from FNum c [true; false; true; false; true; true] with
          | (c', Ok _) => p_set_chromosome FNum c' (repeat false 6) = Ok [true; false; true; false; true; true] /\
                          p_check FNum c' = Ok true
          | _ => False
          end
      | _ => False
      end
  | _, _ => False
  end.
Proof. vm_compute. auto. Qed.

(** ** C09: chromosome size is fixed once set *)

(** over every history of mutating calls, successful or not, on any kind of parameter object *)
Theorem C09_size_constant : forall (N : Num) (p : param N) cs n,
  p_size N p = Ok n -> p_size N (pcalls N p cs) = Ok n.
Proof. intros N p cs n. apply pcalls_size. Qed.
Print Assumptions C09_size_constant.

Theorem C09_size_set_once : forall c n,
  (c = None -> cs_set c n = (Some n, Ok tt) /\ cs_get c = Throw LogicError /\ cs_check c n = Throw LogicError) /\
  (forall m, c = Some m -> cs_set c n = (c, Throw LogicError) /\ cs_get c = Ok m /\
     (cs_check c n = Ok tt <-> n = m) /\ (n <> m -> cs_check c n = Throw InvalidArgument)).
Proof.
  intros c n. split.
  - intros ->. auto.
  - intros m ->. cbn. split; [reflexivity|]. split; [reflexivity|].
    destruct (Nat.eqb_spec n m); split; try tauto; split; intros; try congruence; try reflexivity.
Qed.
Print Assumptions C09_size_set_once.

(** a second Initialize throws logic_error, but the components are already the new ones while the size is old *)
Theorem C09_second_initialize : forall (N : Num) n old ps ps' m,
  mapM (p_clone N) ps = Ok ps' -> total_size N ps' = Ok m ->
  comp_initialize N (PComp N (Some n) true old) ps = (PComp N (Some n) true ps', Throw LogicError).
Proof.
  intros N n old ps ps' m Hc Ht. unfold comp_initialize. rewrite Hc. unfold comp_finish_init. rewrite Ht. reflexivity.
Qed.
Print Assumptions C09_second_initialize.

(** ... after which writing a chromosome of the advertised size runs out of bounds *)
Theorem C09_reinitialise_breaks_refuted :
  match ip_make2 0 3, ip_make2 0 7 with
  | Ok a, Ok b =>
      let c1 := fst (comp_initialize FNum (comp_new FNum) [PInt FNum a]) in
      let (c2, o) := comp_initialize FNum c1 [PInt FNum a; PInt FNum b] in
      o = Throw LogicError /\ p_size FNum c2 = Ok 2%nat /\
      p_set_chromosome FNum c2 [false; false] = UB OutOfBounds
  | _, _ => False
  end.
Proof. vm_compute. auto. Qed.
Print Assumptions C09_reinitialise_breaks_refuted.

(** ** C10 (value part): a clone is equal to its original, for every object reachable through the API *)

Theorem C10_clone_equal : forall (N : Num) (p : param N) cs,
  (forall c, In c cs -> reinit N c = false) -> wf_param N p -> 
  p_clone N (pcalls N p cs) = Ok (pcalls N p cs).
Proof.
  intros N p cs Hcs Hp. apply clone_id. apply wf_pcalls; [exact Hp|].
  apply forallb_forall. intros c Hc. rewrite (Hcs c Hc). reflexivity.
Qed.
Print Assumptions C10_clone_equal.

(** objects delivered by the constructors are in the class *)
Theorem C10_constructed_wf : forall (N : Num),
  (forall v mn mx p, ip_make v mn mx = Ok p -> wf_param N (PInt N p)) /\
  (forall v mn mx pr d, dp_make N v mn mx pr = Ok d -> wf_param N (PDouble N d)) /\
  (forall mn mx pr n a, da_make N mn mx pr n = Ok a -> wf_param N (PArr N a)) /\
  (forall ps, Forall (wf_param N) ps ->
     exists n, comp_initialize N (comp_new N) ps = (PComp N (Some n) true ps, Ok tt) /\
               wf_param N (PComp N (Some n) true ps)).
Proof.
  intro N. split; [apply wf_ip_make|]. split; [apply wf_dp_make|]. split; [apply wf_da_make|].
  intros ps H. destruct (wf_initialize N ps H) as (n & H1 & _ & H2). eauto.
Qed.
Print Assumptions C10_constructed_wf.
