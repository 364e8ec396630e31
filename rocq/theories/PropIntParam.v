(** C01-C03: IntParameter. *)
From Verif Require Import Base Num Params ParamsSpec IntProofs.
Local Open Scope Z_scope.

(** C01. Writing value [v] of one parameter to a chromosome and reading it into another parameter with the
    same bounds gives back [v] iff v < min + 2^size, i.e. unless [v = max] and [max - min] is exactly 2^size;
    in that case the receiver gets [min]. *)
Theorem C01_int_roundtrip : forall v w mn mx p q k old,
  ip_make v mn mx = Ok p -> ip_make w mn mx = Ok q ->
  INT_MIN <= mn -> mx <= INT_MAX -> mn <= v <= mx ->
  ip_size p = Some k -> length old = k ->
  exists bits q',
    ip_set_chromosome p old = Ok bits /\ length bits = k /\
    ip_set_from q bits = (q', Ok tt) /\ ip_min q' = mn /\ ip_max q' = mx /\
    (ip_value q' = v <-> v < mn + 2 ^ Z.of_nat k) /\
    (ip_value q' = v <-> ~ (v = mx /\ mx - mn = 2 ^ Z.of_nat k)) /\
    (v = mx -> mx - mn = 2 ^ Z.of_nat k -> ip_value q' = mn).
Proof. exact int_roundtrip. Qed.
Print Assumptions C01_int_roundtrip.

(** A case that survives: 7 in [-5, 20]. *)
Example C01_survives :
  exists p q bits q', ip_make 7 (-5) 20 = Ok p /\ ip_make (-5) (-5) 20 = Ok q /\ ip_size p = Some 5%nat /\
    ip_set_chromosome p (repeat false 5) = Ok bits /\ ip_set_from q bits = (q', Ok tt) /\ ip_value q' = 7.
Proof. do 4 eexists. repeat split; vm_compute; reflexivity. Qed.

(** The simple claim "every value within the bounds survives the round trip" is false of the code:
    IntParameter(0,1) holding 1 has an empty chromosome and comes back as 0; likewise 8 in [0,8]. *)
Theorem C01_all_values_survive_refuted :
  ~ (forall v mn mx p q k old bits q', ip_make v mn mx = Ok p -> ip_make mn mn mx = Ok q ->
       mn <= v <= mx -> ip_size p = Some k -> length old = k ->
       ip_set_chromosome p old = Ok bits -> ip_set_from q bits = (q', Ok tt) -> ip_value q' = v).
Proof.
  intro H.
  specialize (H 8 0 8 (MkInt 8 0 8 (Some 3%nat)) (MkInt 0 0 8 (Some 3%nat)) 3%nat [true;true;true]
                [false;false;false] (MkInt 0 0 8 (Some 3%nat))).
  assert (E : 0 = 8); [|discriminate E].
  apply H; try reflexivity. lia.
Qed.
Print Assumptions C01_all_values_survive_refuted.

(** C02. The chromosome size is the least k with 2^k >= max-min, and the constructor is defined exactly for
    INT_MIN <= max-min <= 2^30; otherwise signed overflow occurs. *)
Theorem C02_size_minimal : forall v mn mx,
  (INT_MIN <= mx - mn <= 2 ^ 30 ->
     exists p k, ip_make v mn mx = Ok p /\ ip_size p = Some k /\ ip_value p = v /\
       ip_min p = mn /\ ip_max p = mx /\ least_pow2_exp (mx - mn) k) /\
  (~ (INT_MIN <= mx - mn <= 2 ^ 30) -> ip_make v mn mx = UB IntOverflow).
Proof.
  intros v mn mx. split; intro H.
  - destruct (count_size_ok mn mx H) as (k & Hk & _ & Hl).
    exists (MkInt v mn mx (Some k)), k. unfold ip_make. rewrite Hk.
    do 5 (split; [reflexivity|]). exact Hl.
  - unfold ip_make. rewrite (count_size_ub mn mx H). reflexivity.
Qed.
Print Assumptions C02_size_minimal.

Example C02_defined : INT_MIN <= 1000 - (-24) <= 2 ^ 30 /\ least_pow2_exp (1000 - (-24)) 10.
Proof.
  split; [unfold INT_MIN; lia|]. split; [vm_compute; discriminate|].
  intros j Hj. destruct (Nat.le_gt_cases 10 j) as [|Hlt]; auto.
  assert (2 ^ Z.of_nat j <= 2 ^ Z.of_nat 9) by (apply pow2_le; lia).
  change (2 ^ Z.of_nat 9) with 512 in *. lia.
Qed.
Example C02_overflow : ip_make2 0 1073741825 = UB IntOverflow /\ ip_make2 INT_MIN INT_MAX = UB IntOverflow.
Proof. split; vm_compute; reflexivity. Qed.

(** C03. Decoding any bit string of the declared size: value, range, constraint check, re-encoding; and the
    overflow case when min + decoded exceeds INT_MAX. *)
Theorem C03_decode : forall v mn mx p k bits,
  ip_make v mn mx = Ok p -> INT_MIN <= mn -> ip_size p = Some k -> length bits = k ->
  (mn + bits_val bits <= INT_MAX ->
   exists p', ip_set_from p bits = (p', Ok tt) /\
     ip_value p' = mn + bits_val bits /\ ip_min p' = mn /\ ip_max p' = mx /\ ip_size p' = Some k /\
     mn <= ip_value p' <= mn + 2 ^ Z.of_nat k - 1 /\
     (ip_check p' = true <-> ip_value p' <= mx) /\
     (forall old, length old = k -> ip_set_chromosome p' old = Ok bits)) /\
  (INT_MAX < mn + bits_val bits -> ip_set_from p bits = (p, UB IntOverflow)).
Proof. exact int_decode. Qed.
Print Assumptions C03_decode.

(** C03, injectivity: two bit strings of the same length that decode to the same value are equal. *)
Theorem C03_decode_injective : forall p k b1 b2 p1 p2,
  ip_size p = Some k -> (k <= 30)%nat -> length b1 = k -> length b2 = k ->
  ip_set_from p b1 = (p1, Ok tt) -> ip_set_from p b2 = (p2, Ok tt) ->
  ip_value p1 = ip_value p2 -> b1 = b2.
Proof.
  intros p k b1 b2 p1 p2 Hs Hk H1 H2 E1 E2 Hv.
  unfold ip_set_from, cs_check in E1, E2.
  rewrite Hs, H1, Nat.eqb_refl, int_from_bits_0 in E1 by lia.
  rewrite Hs, H2, Nat.eqb_refl, int_from_bits_0 in E2 by lia.
  cbn [bind] in E1, E2.
  destruct (chk_int (bits_val b1 + ip_min p)) as [v1| |] eqn:C1; inversion E1; subst; clear E1.
  destruct (chk_int (bits_val b2 + ip_min p)) as [v2| |] eqn:C2; inversion E2; subst; clear E2.
  apply chk_int_inv in C1 as [-> _]. apply chk_int_inv in C2 as [-> _]. cbn in Hv.
  apply bits_val_inj; [congruence|lia].
Qed.
Print Assumptions C03_decode_injective.

(** C03, wrong size: both conversions throw invalid_argument and the parameter is unchanged. *)
Theorem C03_wrong_size : forall p k bits,
  ip_size p = Some k -> length bits <> k ->
  ip_set_from p bits = (p, Throw InvalidArgument) /\ ip_set_chromosome p bits = Throw InvalidArgument.
Proof. exact ip_wrong_size. Qed.
Print Assumptions C03_wrong_size.

Example C03_meets :
  ip_make 3 3 10 = Ok (MkInt 3 3 10 (Some 3%nat)) /\
  ip_set_from (MkInt 3 3 10 (Some 3%nat)) [true; false; true] = (MkInt 8 3 10 (Some 3%nat), Ok tt) /\
  ip_check (MkInt 8 3 10 (Some 3%nat)) = true.
Proof. split; [|split]; vm_compute; reflexivity. Qed.
(** A chromosome whose value violates the constraints (10 = 3 + 7, max 9), and one that overflows. *)
Example C03_violating :
  ip_make 3 3 9 = Ok (MkInt 3 3 9 (Some 3%nat)) /\
  ip_set_from (MkInt 3 3 9 (Some 3%nat)) [true; true; true] = (MkInt 10 3 9 (Some 3%nat), Ok tt) /\
  ip_check (MkInt 10 3 9 (Some 3%nat)) = false.
Proof. split; [|split]; vm_compute; reflexivity. Qed.
Example C03_overflow :
  ip_make2 2147483642 INT_MAX = Ok (MkInt 2147483642 2147483642 INT_MAX (Some 3%nat)) /\
  ip_set_from (MkInt 2147483642 2147483642 INT_MAX (Some 3%nat)) [true; true; true]
    = (MkInt 2147483642 2147483642 INT_MAX (Some 3%nat), UB IntOverflow).
Proof. split; vm_compute; reflexivity. Qed.
