(** C80: the genetic algorithm on a DoubleParametersArray whose values were never set - what makes it defined - and the bundled program
    examples/genetic_algorithm/genetic_algorithm.cpp, for every sequence of random numbers. *)
From Coq Require Import Reals Psatz Permutation.
From Flocq Require Import Core.Core IEEE754.BinarySingleNaN.
From Verif Require Import Base Num DblOrder ParamsSpec IntProofs DoubleProofs FDoubleProofs FloatLemmas RoundError Random Params CompositeProofs Mutators Cache Individual LibEnv GA GAInit Optim Dsp Examples PropIntParam PropParams PropMutators PropQuantise PropExamples PropBinary64 PropGA PropGATotal PropGALibrary PropGABest.
Local Open Scope Z_scope.
Local Open Scope list_scope.

(** The values of a new DoubleParametersArray are zeros, inside its bounds or not. Individual::Initialize writes them into a chromosome and
    quantises them; [quantum a] is the distance between two neighbouring values of the array. *)
Definition quantum (a : DoubleArr FNum) : R := B2R (dp_prec FNum (da_sample FNum a)).

Section Zero.
Variables (mn mx : dbl) (k : nat).
Hypotheses (Fmn : fin mn) (Fmx : fin mx) (Bmn : (Rabs (B2R mn) <= bpow radix2 1022)%R) (Bmx : (Rabs (B2R mx) <= bpow radix2 1022)%R) (Hw : (bpow radix2 (-992) <= B2R mx - B2R mn)%R) (Hk : (k <= 30)%nat).
Local Notation P := (d_div (d_sub mx mn) (d_ofZ (2 ^ Z.of_nat k))).
Lemma P_pos : (0 < B2R P)%R.
Proof.
  destruct (P_val mn mx k Fmn Fmx Bmn Bmx Hw Hk) as [_ E]. rewrite E. pose proof (W_lo mn mx 0%nat Fmn Fmx Bmn Bmx Hw (Nat.le_0_l 30)) as L. pose proof (bpow_gt_0 radix2 (-992)).
  apply Rdiv_lt_0_compat; [lra|apply pow_lt; lra].
Qed.
Lemma minus_mn : fin (d_sub (d_ofZ 0) mn) /\ B2R (d_sub (d_ofZ 0) mn) = (- B2R mn)%R.
Proof.
  destruct (d_ofZ_exact 0 ltac:(lia)) as [Z0 Z1]. destruct (d_sub_finite (d_ofZ 0) mn Z0 Fmn) as [A B].
  - apply no_overflow. rewrite Z1. unfold Rminus. rewrite Rplus_0_l, Rabs_Ropp. apply Rle_trans with (1 := Bmn). apply bpow_le. lia.
  - split; [exact A|]. rewrite B, Z1. unfold Rminus. rewrite Rplus_0_l. apply rnd_id. apply generic_format_opp, generic_format_B2R.
Qed.
Lemma Btrunc_val (x : dbl) : Btrunc x = Ztrunc (B2R x).
Proof. pose proof (Btrunc_correct dprec demax dprec_lt_emax x) as T. rewrite round_FIX_IZR in T. apply eq_IZR in T. exact T. Qed.
Lemma fmt_int z : Z.abs z <= 2 ^ 53 -> fmt64 (IZR z).
Proof. intro H. destruct (d_ofZ_exact z H) as [_ E]. rewrite <- E. apply generic_format_B2R. Qed.
Lemma quantise_zero : (Rabs (B2R mn) <= 1073741824 * B2R P)%R -> exists i, dp_quantise FNum mn P (n_ofZ FNum 0) = Ok i /\ INT_MIN <= i <= INT_MAX.
Proof.
  intro H. pose proof P_pos as PP. destruct minus_mn as [A B].
  assert (Q : (Rabs (- B2R mn / B2R P) <= 1073741824)%R).
  { unfold Rdiv. rewrite Rabs_mult, Rabs_Ropp, Rabs_inv, (Rabs_pos_eq (B2R P)) by lra. apply Rmult_le_reg_r with (B2R P); [exact PP|]. rewrite Rmult_assoc, Rinv_l by lra. lra. }
  assert (R : (Rabs (rnd64 (- B2R mn / B2R P)) <= 1073741824)%R).
  { apply Rabs_le_inv in Q. apply Rabs_le. split; [apply rnd_ge_fmt; [lra|exact (fmt_int (-1073741824) ltac:(cbn; lia))]|apply rnd_le_fmt; [lra|exact (fmt_int 1073741824 ltac:(cbn; lia))]]. }
  destruct (d_div_finite (d_sub (d_ofZ 0) mn) P A) as [C D]; [lra| |].
  { rewrite B. apply Rle_lt_trans with (1 := R). apply Rlt_le_trans with (bpow radix2 31); [cbn; lra|apply bpow_le; lia]. }
  rewrite B in D. rewrite <- D in R. apply Rabs_le_inv in R. exists (Btrunc (d_div (d_sub (d_ofZ 0) mn) P)).
  assert (T : INT_MIN <= Btrunc (d_div (d_sub (d_ofZ 0) mn) P) <= INT_MAX).
  { rewrite Btrunc_val. split.
    - rewrite <- (Ztrunc_IZR INT_MIN). apply Ztrunc_le. unfold INT_MIN. lra.
    - rewrite <- (Ztrunc_IZR INT_MAX). apply Ztrunc_le. unfold INT_MAX. lra. }
  split; [|exact T]. unfold dp_quantise. cbn [n_toint n_div n_sub n_ofZ FNum]. unfold d_toint. rewrite C, (proj2 (in_int_true _) T). reflexivity.
Qed.
Lemma quantise_zero_undefined : (2147483649 * B2R P <= Rabs (B2R mn))%R -> dp_quantise FNum mn P (n_ofZ FNum 0) = UB BadCast.
Proof.
  intro H. pose proof P_pos as PP. destruct minus_mn as [A B].
  unfold dp_quantise. cbn [n_toint n_div n_sub n_ofZ FNum]. unfold d_toint. destruct (is_finite (d_div (d_sub (d_ofZ 0) mn) P)) eqn:F; [|reflexivity].
  assert (D : B2R (d_div (d_sub (d_ofZ 0) mn) P) = rnd64 (- B2R mn / B2R P)).
  { rewrite <- B. apply div_finite_val; [exact A| |lra|exact F]. exact (proj1 (P_val mn mx k Fmn Fmx Bmn Bmx Hw Hk)). }
  destruct (in_int (Btrunc _)) eqn:I; [|reflexivity]. exfalso. apply in_int_true in I. rewrite Btrunc_val, D in I.
  assert (Q : (2147483649 <= Rabs (B2R mn) / B2R P)%R).
  { apply Rmult_le_reg_r with (B2R P); [exact PP|]. unfold Rdiv. rewrite Rmult_assoc, Rinv_l by lra. lra. }
  destruct (Rle_or_lt (B2R mn) 0) as [L|L].
  - rewrite Rabs_left1 in Q by exact L. assert (X : (IZR 2147483649 <= rnd64 (- B2R mn / B2R P))%R) by (apply rnd_ge_fmt; [exact Q|exact (fmt_int 2147483649 ltac:(cbn; lia))]).
    apply Ztrunc_le in X. rewrite Ztrunc_IZR in X. unfold INT_MAX in I. lia.
  - rewrite Rabs_pos_eq in Q by lra. assert (X : (rnd64 (- B2R mn / B2R P) <= IZR (-2147483649))%R).
    { apply rnd_le_fmt; [|exact (fmt_int (-2147483649) ltac:(cbn; lia))]. unfold Rdiv in *. rewrite Ropp_mult_distr_l_reverse. lra. }
    apply Ztrunc_le in X. rewrite Ztrunc_IZR in X. unfold INT_MIN in I. lia.
Qed.
End Zero.

(** The array as the constructor leaves it: the sample parameter and zeros. *)
Lemma fresh_shape mn mx pr n a : da_make FNum mn mx pr n = Ok a -> exists k i, (k <= 30)%nat /\ fin mn /\ fin mx /\ dp_make FNum mn mn mx pr = Ok (st mn mx k i) /\
  a = {| da_sample := st mn mx k i; da_values := repeat (n_ofZ FNum 0) n; da_size := Some (k * n)%nat |}.
Proof.
  intro H. unfold da_make in H. apply bind_ok in H as (s & Hs & H). apply bind_ok in H as (k' & Hk' & H).
  destruct (dp_make_F_inv _ _ _ _ _ Hs) as (_ & _ & _ & Fmn & Fmx & _).
  destruct (st_of mn mx pr s Hs) as (k & i0 & Hk & E). rewrite E in Hk'. cbn in Hk'. injection Hk' as <-. injection H as <-. exists k, i0. rewrite E in Hs |- *. auto.
Qed.
Lemma set_values_inv mn mx k i n ws x : da_set_values FNum {| da_sample := st mn mx k i; da_values := repeat (n_ofZ FNum 0) n; da_size := Some (k * n)%nat |} ws = (x, Ok tt) ->
  length ws = n /\ x = {| da_sample := st mn mx k i; da_values := ws; da_size := Some (k * n)%nat |} /\ da_check FNum x = Ok true.
Proof.
  unfold da_set_values. destruct (Nat.eqb (length ws) _) eqn:Q; cbn [negb]; [|discriminate]. apply Nat.eqb_eq in Q. cbn [da_values] in Q. rewrite repeat_length in Q.
  unfold da_with_values. cbn [da_sample da_size]. destruct (da_check _ _) as [[]| |] eqn:Dc; intro X; inversion X. subst x. auto.
Qed.
(** every chromosome decodes to values in range that pass the check, whatever values the array holds *)
Lemma array_decodes mn mx pr n k i vs bits : dp_make FNum mn mn mx pr = Ok (st mn mx k i) -> fin pr -> (k <= 30)%nat ->
  (Rabs (B2R mn) <= bpow radix2 1022)%R -> (Rabs (B2R mx) <= bpow radix2 1022)%R -> (bpow radix2 (-992) <= B2R mx - B2R mn)%R ->
  (3 * slack (B2R mn) (B2R mx) < B2R (dp_prec FNum (st mn mx k i)))%R -> length vs = n -> length bits = (k * n)%nat ->
  exists ws, p_set_from FNum (PArr FNum {| da_sample := st mn mx k i; da_values := vs; da_size := Some (k * n)%nat |}) bits =
      (PArr FNum {| da_sample := st mn mx k i; da_values := ws; da_size := Some (k * n)%nat |}, Ok tt) /\
    length ws = n /\ Forall (in_range mn mx) ws /\ p_check FNum (PArr FNum {| da_sample := st mn mx k i; da_values := ws; da_size := Some (k * n)%nat |}) = Ok true.
Proof.
  intros Hs Fp Hk Bmn Bmx Hw Sl Lv Lb.
  assert (Hmk : da_make FNum mn mx pr n = Ok {| da_sample := st mn mx k i; da_values := repeat (n_ofZ FNum 0) n; da_size := Some (k * n)%nat |}) by (unfold da_make; rewrite Hs; reflexivity).
  destruct (dec_all mn mx pr _ Hs Bmn Bmx Hw Sl k i eq_refl Hk n i bits Lb) as (ws & Dw & Lw & Fw).
  destruct (C07_binary64 mn mx pr n _ Hmk Fp Bmn Bmx Hw ws Lw Fw) as (a2 & S2 & _). destruct (set_values_inv _ _ _ _ _ _ _ S2) as (_ & -> & Ck).
  exists ws. split; [|split; [exact Lw|split; [exact Fw|exact Ck]]]. cbn [p_set_from]. unfold da_set_from. cbn [da_sample da_size da_values]. unfold cs_check. rewrite Lb, Nat.eqb_refl. cbn [bind st dp_size cs_get].
  rewrite Lv. change {| dp_base := Some (MkInt i 0 (2 ^ Z.of_nat k) (Some k)); dp_min := mn : num FNum; dp_max := mx; dp_prec := d_div (d_sub mx mn) (d_ofZ (2 ^ Z.of_nat k)) : num FNum; dp_size := Some k |} with (st mn mx k i). rewrite Dw. reflexivity.
Qed.
Lemma zeros_encode mn mx k q : (k <= 30)%nat -> dp_quantise FNum mn (d_div (d_sub mx mn) (d_ofZ (2 ^ Z.of_nat k))) (n_ofZ FNum 0) = Ok q -> INT_MIN <= q <= INT_MAX ->
  forall n i old, length old = (k * n)%nat -> exists c, da_encode_loop FNum (st mn mx k i) k (repeat (n_ofZ FNum 0) n) old = Ok c.
Proof.
  intros Hk Hq Rq. induction n as [|n IH]; intros i old L; [exists old; reflexivity|]. rewrite Nat.mul_succ_r in L. cbn [repeat da_encode_loop].
  assert (X : dp_set_value FNum (st mn mx k i) (n_ofZ FNum 0) = Ok (st mn mx k q)) by (unfold dp_set_value, st; cbn [dp_min dp_prec dp_base]; rewrite Hq; reflexivity).
  rewrite X. cbn [bind]. unfold dp_set_chromosome at 1. cbn [st dp_base].
  rewrite (ip_encode _ k); [|reflexivity|exact Hk|apply firstn_length_le; lia|cbn; lia]. cbn [bind].
  destruct (IH q (skipn k old)) as [c C]; [rewrite skipn_length; lia|]. exists (z_bits k (q - 0) ++ c). cbn [ip_value ip_min]. 
  change {| dp_base := Some (MkInt q 0 (2 ^ Z.of_nat k) (Some k)); dp_min := mn : num FNum; dp_max := mx; dp_prec := d_div (d_sub mx mn) (d_ofZ (2 ^ Z.of_nat k)) : num FNum; dp_size := Some k |} with (st mn mx k q).
  rewrite C. reflexivity.
Qed.

(** An array whose values were never set can be given to the algorithm when the smaller bound is not more than 2^30 quanta away from zero ... *)
Theorem C80_unset_array : forall mn mx pr n a, da_make FNum mn mx pr n = Ok a -> fin pr ->
  (Rabs (B2R mn) <= bpow radix2 1022)%R -> (Rabs (B2R mx) <= bpow radix2 1022)%R -> (bpow radix2 (-992) <= B2R mx - B2R mn)%R ->
  (3 * slack (B2R mn) (B2R mx) < quantum a)%R -> (Rabs (B2R mn) <= 1073741824 * quantum a)%R ->
  exists k, dp_size FNum (da_sample FNum a) = Some k /\ (k <= 30)%nat /\ decodable FNum (k * n) (PArr FNum a).
Proof.
  intros mn mx pr n a H Fp Bmn Bmx Hw Sl Z. pose proof (wf_da_make FNum mn mx pr n a H) as Wa. destruct (fresh_shape _ _ _ _ _ H) as (k & i & Hk & Fmn & Fmx & Hs & ->).
  unfold quantum in Sl, Z. cbn [da_sample] in *. exists k. split; [reflexivity|]. split; [exact Hk|]. constructor; [exact Wa|reflexivity| |].
  - intros old Lo. cbn [p_set_chromosome]. unfold da_set_chromosome. cbn [da_sample da_size da_values]. unfold cs_check. rewrite Lo, Nat.eqb_refl. cbn [bind st dp_size cs_get].
    destruct (quantise_zero mn mx k Fmn Fmx Bmn Bmx Hw Hk Z) as (q & Q1 & Q2). exact (zeros_encode mn mx k q Hk Q1 Q2 n i old Lo).
  - intros bits Lb. destruct (array_decodes mn mx pr n k i (repeat (n_ofZ FNum 0) n) bits Hs Fp Hk Bmn Bmx Hw Sl (repeat_length _ _) Lb) as (ws & D & _ & _ & C). eexists. split; [exact D|exact C].
Qed.
(** ... and when it is more than 2^31 quanta away, the conversion of the quotient to int is undefined, and with it every call of Optimize. *)
Theorem C80_unset_array_undefined : forall mn mx pr n a, da_make FNum mn mx pr n = Ok a -> (1 <= n)%nat ->
  (Rabs (B2R mn) <= bpow radix2 1022)%R -> (Rabs (B2R mx) <= bpow radix2 1022)%R -> (bpow radix2 (-992) <= B2R mx - B2R mn)%R ->
  (2147483649 * quantum a <= Rabs (B2R mn))%R ->
  forall RM M ctx fuel hash f same_type same_meta parse cfg limit w, (1 <= cf_pop cfg)%nat ->
  fst (ga_optimize (lib_env FNum RM M ctx fuel) hash f same_type same_meta cfg None parse None (counter_new limit) (PArr FNum a) true w) = UB BadCast.
Proof.
  intros mn mx pr n a H Hn Bmn Bmx Hw Z RM M ctx fuel hash f st0 sm parse cfg limit w Hp. pose proof (wf_da_make FNum mn mx pr n a H) as Wa. destruct (fresh_shape _ _ _ _ _ H) as (k & i & Hk & Fmn & Fmx & Hs & ->).
  unfold quantum in Z. cbn [da_sample] in Z. pose proof (quantise_zero_undefined mn mx k Fmn Fmx Bmn Bmx Hw Hk Z) as Q.
  set (a := {| da_sample := st mn mx k i; da_values := repeat (n_ofZ FNum 0) n; da_size := Some (k * n)%nat |}) in *.
  assert (S : ind_new (lib_env FNum RM M ctx fuel) (PArr FNum a) = UB BadCast).
  { unfold ind_new. cbn [lib_env e_cln e_size e_enc]. rewrite (clone_id FNum _ Wa). cbn [bind p_size p_set_chromosome]. unfold da_set_chromosome, a at 1. cbn [da_sample da_size da_values cs_get bind].
    unfold a, cs_check. cbn [da_sample da_size da_values]. rewrite repeat_length, Nat.eqb_refl. cbn [bind st dp_size cs_get]. destruct n as [|n']; [lia|]. cbn [repeat da_encode_loop].
    
    assert (X : dp_set_value FNum (st mn mx k i) (n_ofZ FNum 0) = UB BadCast) by (unfold dp_set_value, st; cbn [dp_min dp_prec dp_base]; rewrite Q; reflexivity).
    change {| dp_base := Some (MkInt i 0 (2 ^ Z.of_nat k) (Some k)); dp_min := mn : num FNum; dp_max := mx; dp_prec := d_div (d_sub mx mn) (d_ofZ (2 ^ Z.of_nat k)) : num FNum; dp_size := Some k |} with (st mn mx k i).
    rewrite X. reflexivity. }
  unfold ga_optimize. cbn [negb]. unfold ga_initialize. destruct (cf_pop cfg) as [|pop]; [lia|]. cbn [init_random].
  unfold wbind at 1 2 3 4. unfold wlift at 1. change (e_par (lib_env FNum RM M ctx fuel)) with (param FNum) in *. rewrite S. reflexivity.
Qed.

(** Neither case is empty: DoubleParametersArray(-64, 64, 1, n) and DoubleParametersArray(2^40, 2^40 + 4, 1, n). *)
Lemma fmake_ok mn mx pr n k : match dp_make FNum mn mn mx pr with Ok d => dp_size FNum d | _ => None end = Some k ->
  exists a i, da_make FNum mn mx pr n = Ok a /\ da_values FNum a = repeat (n_ofZ FNum 0) n /\ da_sample FNum a = st mn mx k i.
Proof.
  intro H. destruct (dp_make FNum mn mn mx pr) as [d|e|u] eqn:E; [|discriminate H|discriminate H].
  assert (M : da_make FNum mn mx pr n = Ok {| da_sample := d; da_values := repeat (n_ofZ FNum 0) n; da_size := Some (k * n)%nat |}) by (unfold da_make; rewrite E; cbn [bind]; rewrite H; reflexivity).
  eexists. destruct (fresh_shape _ _ _ _ _ M) as (k' & i & _ & _ & _ & _ & X). exists i. split; [exact M|]. split; [reflexivity|]. cbn [da_sample].
  apply (f_equal (da_sample FNum)) in X. cbn [da_sample] in X. rewrite X in H |- *. cbn [st dp_size] in H. injection H as ->. reflexivity.
Qed.
Lemma quantum_of mn mx k i a : fin mn -> fin mx -> (Rabs (B2R mn) <= bpow radix2 1022)%R -> (Rabs (B2R mx) <= bpow radix2 1022)%R -> (bpow radix2 (-992) <= B2R mx - B2R mn)%R -> (k <= 30)%nat ->
  da_sample FNum a = st mn mx k i -> (Rabs (quantum a * 2 ^ k - (B2R mx - B2R mn)) <= bpow radix2 (-53) * (B2R mx - B2R mn))%R.
Proof.
  intros Fmn Fmx Bmn Bmx Hw Hk E. unfold quantum. rewrite E. cbn [st dp_prec]. destruct (P_val mn mx k Fmn Fmx Bmn Bmx Hw Hk) as [_ ->].
  unfold Rdiv. rewrite Rmult_assoc, Rinv_l by (apply pow_nonzero; lra). rewrite Rmult_1_r. exact (W_err mn mx Fmn Fmx Bmn Bmx Hw).
Qed.
Lemma bpow_big e : (0 <= e <= 1022)%Z -> forall x, (Rabs x <= bpow radix2 e)%R -> (Rabs x <= bpow radix2 1022)%R.
Proof. intros H x L. apply Rle_trans with (1 := L). apply bpow_le. lia. Qed.
Lemma wide_of x : (bpow radix2 (-10) <= x)%R -> (bpow radix2 (-992) <= x)%R.
Proof. intro H. apply Rle_trans with (2 := H). apply bpow_le. lia. Qed.
Example C80_unset_meets : forall n, exists a, da_make FNum (d_ofZ (-64)) (d_ofZ 64) (d_ofZ 1) n = Ok a /\ decodable FNum (7 * n) (PArr FNum a).
Proof.
  intro n. destruct (fmake_ok (d_ofZ (-64)) (d_ofZ 64) (d_ofZ 1) n 7) as (a & i & Ha & _ & Es); [vm_compute; reflexivity|]. exists a. split; [exact Ha|].
  destruct (d_ofZ_exact (-64) ltac:(lia)) as [A0 A1]. destruct (d_ofZ_exact 64 ltac:(lia)) as [B0 B1]. destruct (d_ofZ_exact 1 ltac:(lia)) as [C0 C1].
  assert (N1 : (Rabs (B2R (d_ofZ (-64))) <= bpow radix2 1022)%R) by (apply (bpow_big 6); [lia|]; rewrite A1, Rabs_left by lra; cbn; lra).
  assert (N2 : (Rabs (B2R (d_ofZ 64)) <= bpow radix2 1022)%R) by (apply (bpow_big 6); [lia|]; rewrite B1, Rabs_pos_eq by lra; cbn; lra).
  assert (W : (bpow radix2 (-992) <= B2R (d_ofZ 64) - B2R (d_ofZ (-64)))%R) by (apply wide_of; rewrite A1, B1; cbn; lra).
  pose proof (quantum_of _ _ 7 i a A0 B0 N1 N2 W ltac:(lia) Es) as Q.
  destruct (C80_unset_array _ _ _ n a Ha C0 N1 N2 W) as (k & Sk & _ & D).
  - rewrite A1, B1 in *. unfold slack. rewrite (Rabs_left (-64)), (Rabs_pos_eq 64), Rmax_left by lra. clear - Q. apply Rabs_le_inv in Q. change (bpow radix2 (-53)) with (/ 9007199254740992)%R in *. lra.
  - rewrite A1, B1 in *. rewrite (Rabs_left (-64)) by lra. clear - Q. apply Rabs_le_inv in Q. change (bpow radix2 (-53)) with (/ 9007199254740992)%R in *. lra.
  - rewrite Es in Sk. cbn [st dp_size] in Sk. injection Sk as <-. exact D.
Qed.
Example C80_undefined_meets : forall n, exists a, da_make FNum (d_ofZ 1099511627776) (d_ofZ 1099511627780) (d_ofZ 1) n = Ok a /\ (2147483649 * quantum a <= Rabs (B2R (d_ofZ 1099511627776)))%R.
Proof.
  intro n. destruct (fmake_ok (d_ofZ 1099511627776) (d_ofZ 1099511627780) (d_ofZ 1) n 2) as (a & i & Ha & _ & Es); [vm_compute; reflexivity|]. exists a. split; [exact Ha|].
  destruct (d_ofZ_exact 1099511627776 ltac:(cbn; lia)) as [A0 A1]. destruct (d_ofZ_exact 1099511627780 ltac:(cbn; lia)) as [B0 B1].
  assert (N1 : (Rabs (B2R (d_ofZ 1099511627776)) <= bpow radix2 1022)%R) by (apply (bpow_big 40); [lia|]; rewrite A1, Rabs_pos_eq by lra; cbn; lra).
  assert (N2 : (Rabs (B2R (d_ofZ 1099511627780)) <= bpow radix2 1022)%R) by (apply (bpow_big 41); [lia|]; rewrite B1, Rabs_pos_eq by lra; cbn; lra).
  assert (W : (bpow radix2 (-992) <= B2R (d_ofZ 1099511627780) - B2R (d_ofZ 1099511627776))%R) by (apply wide_of; rewrite A1, B1; cbn; lra).
  pose proof (quantum_of _ _ 2 i a A0 B0 N1 N2 W ltac:(lia) Es) as Q. rewrite A1, B1 in *. rewrite Rabs_pos_eq by lra.
  clear - Q. apply Rabs_le_inv in Q. change (bpow radix2 (-53)) with (/ 9007199254740992)%R in *. lra.
Qed.

(** ** examples/genetic_algorithm/genetic_algorithm.cpp *)
(** genetic_algorithm.cpp:21 and 112: the doubles nearest to 0.0001 and 0.000001 *)
Definition ten_minus_4 : dbl := d_of 7378697629483821 (-66).
Definition ten_minus_6 : dbl := d_of 4722366482869645 (-72).
(** std::numeric_limits<double>::max() *)
Definition dbl_max : dbl := d_of 9007199254740991 971.
(** genetic_algorithm.cpp:21-25, 117: DoubleParametersArray parameters(GlobalMinValue, GlobalMaxValue, GlobalPrecision, GlobalNumberOfParameters) *)
Definition program_array : outcome (DoubleArr FNum) := da_make FNum ten_minus_4 (d_ofZ 100) ten_minus_4 2.
(** genetic_algorithm.cpp:109-114, 128-131: Create(300, 25, 10, mutator, 1, max()) *)
Definition program_config : option ga_cfg := ga_create 300 25 10 true dbl_max.
Section Program.
Variables fexp fcos fsin fasin fln : dbl -> dbl.
Definition program_square (vs : list dbl) : dbl := square (MkTNum FMath fexp fcos fsin fasin fln) vs.
(** genetic_algorithm.cpp:34-51 *)
Definition program_objective (p : param FNum) : outcome dbl :=
  match p with PArr a => Ok (program_square (da_values FNum a)) | _ => Throw LogicError end.

Lemma ten_minus_4_V : fin ten_minus_4 /\ B2R ten_minus_4 = (7378697629483821 * / 73786976294838206464)%R.
Proof. destruct (PropExamples.d_of_exact 7378697629483821 (-66)) as [A B]; [lia|lia|]. split; [exact A|exact B]. Qed.
Lemma program_values (vs : list dbl) : length vs = 2%nat -> Forall (fun x => fin x) vs -> fin (program_square vs) /\ (0 <= B2R (program_square vs) <= bpow radix2 52)%R.
Proof.
  intros L F. destruct (C73_square fexp fcos fsin fasin fln vs) as ((A & B) & _).
  - intros x Hx. pose proof (proj1 (Forall_forall _ _) F x Hx) as Fx. cbn in Fx. destruct x; try reflexivity; discriminate Fx.
  - rewrite L. cbn. lia.
  - split; [exact A|]. rewrite L in B. change (bpow radix2 52) with (2 * bpow radix2 51)%R. exact B.
Qed.
Theorem C80_program : forall RM fuel hash same_type same_meta parse s g0,
  0 < RM <= INT_MAX -> (1 <= fuel)%nat -> rnd_ok s -> rvalid RM g0 ->
  exists a cfg m g, program_array = Ok a /\ program_config = Some cfg /\ flip_new FNum ten_minus_6 g0 = (Ok m, g) /\
  exists b snaps z w' v, ga_optimize (flip_env FNum RM fuel) hash program_objective same_type same_meta cfg None parse None (counter_new (d_ofZ 1)) (PArr FNum a) true (s, g, m) = (Ok (PArr FNum b, snaps, z), w') /\
    (length snaps <= 10)%nat /\ length (da_values FNum b) = 2%nat /\
    Forall (fun x : dbl => fin x /\ (B2R ten_minus_4 <= B2R x < 100)%R) (da_values FNum b) /\
    program_objective (PArr FNum b) = Ok v /\ fin v /\ (0 <= B2R v <= bpow radix2 52)%R /\
    (* it is the best of everything evaluated, when the hash function of the cache tells the chromosomes apart *)
    ((forall c c', length c = 40%nat -> length c' = 40%nat -> hash c = hash c' -> c = c') ->
     forall sn i, In sn snaps -> In i (sn_pop _ sn) -> program_objective (i_par _ i) = Ok (i_fit _ i) /\ (B2R (i_fit _ i) <= B2R v)%R).
Proof.
  intros RM fuel hash sty smt parse s g0 HR Hf Hs Hr.
  destruct (fmake_ok ten_minus_4 (d_ofZ 100) ten_minus_4 2 20) as (a & i & Ha & _ & Es); [vm_compute; reflexivity|].
  destruct ten_minus_4_V as [A0 A1]. destruct (d_ofZ_exact 100 ltac:(lia)) as [B0 B1].
  assert (T : (0 < B2R ten_minus_4 < / 9999)%R) by (rewrite A1; lra).
  assert (N1 : (Rabs (B2R ten_minus_4) <= bpow radix2 1022)%R) by (apply (bpow_big 0); [lia|]; rewrite Rabs_pos_eq by lra; change (bpow radix2 0) with 1%R; lra).
  assert (N2 : (Rabs (B2R (d_ofZ 100)) <= bpow radix2 1022)%R) by (apply (bpow_big 7); [lia|]; rewrite B1, Rabs_pos_eq by lra; cbn; lra).
  assert (W : (bpow radix2 (-992) <= B2R (d_ofZ 100) - B2R ten_minus_4)%R) by (apply wide_of; rewrite B1; change (bpow radix2 (-10)) with (/ 1024)%R; lra).
  pose proof (quantum_of _ _ 20 i a A0 B0 N1 N2 W ltac:(lia) Es) as Q. apply Rabs_le_inv in Q. rewrite B1 in Q.
  assert (Q1 : (/ 20000 < quantum a)%R) by (clear - Q T; change (bpow radix2 (-53)) with (/ 9007199254740992)%R in *; lra).
  assert (Sl : (3 * slack (B2R ten_minus_4) (B2R (d_ofZ 100)) < quantum a)%R).
  { rewrite B1. unfold slack. rewrite (Rabs_pos_eq 100), (Rabs_pos_eq (B2R ten_minus_4)), Rmax_right by lra. clear - Q1 T. change (bpow radix2 (-53)) with (/ 9007199254740992)%R in *. lra. }
  destruct (C80_unset_array _ _ _ 2 a Ha A0 N1 N2 W Sl) as (k & Sk & Hk & D); [rewrite Rabs_pos_eq by lra; lra|]. rewrite Es in Sk. cbn [st dp_size] in Sk. injection Sk as <-.
  destruct (fresh_shape _ _ _ _ _ Ha) as (k' & i' & _ & _ & _ & Hmk & Ea).
  assert (X : st ten_minus_4 (d_ofZ 100) 20 i = st ten_minus_4 (d_ofZ 100) k' i') by (rewrite <- Es, Ea; reflexivity).
  assert (k' = 20%nat) by (apply (f_equal (dp_size FNum)) in X; cbn [st dp_size] in X; injection X as ->; reflexivity). subst k'. clear X.
  set (arr := fun vs : list dbl => PArr FNum {| da_sample := st ten_minus_4 (d_ofZ 100) 20 i'; da_values := vs; da_size := Some 40%nat |}).
  assert (Ea' : PArr FNum a = arr (repeat (d_ofZ 0) 2)) by (rewrite Ea; reflexivity).
  assert (Fl : exists m g, flip_new FNum ten_minus_6 g0 = (Ok m, g)).
  { assert (E : (let! q := n_toint FNum (n_floor FNum (n_div FNum (n_ofZ FNum 1) ten_minus_6)) in chk_int (q - 1)) = Ok 999999) by (vm_compute; reflexivity).
    unfold flip_new. rewrite E. cbv iota. change (999999 <=? 0) with false. cbv iota. destruct (flip_set_ok 999999 g0 ltac:(unfold INT_MAX; lia) (proj1 (Hr 0%nat))) as [-> _]. eexists _, _. reflexivity. }
  destruct Fl as (m & g & Hm). destruct (flip_start RM ten_minus_6 g0 m g Hr Hm) as [M1 M2].
  exists a, (MkCfg 300 25 10 dbl_max), m, g. split; [exact Ha|]. split; [reflexivity|]. split; [exact Hm|].
  set (ok := fun p : param FNum => exists vs, p = arr vs /\ length vs = 2%nat /\ (vs = repeat (d_ofZ 0) 2 \/ Forall (in_range ten_minus_4 (d_ofZ 100)) vs)).
  assert (F0 : fin (d_ofZ 0)) by (exact (proj1 (d_ofZ_exact 0 ltac:(lia)))).
  assert (OF : forall vs, (vs = repeat (d_ofZ 0) 2 \/ Forall (in_range ten_minus_4 (d_ofZ 100)) vs) -> Forall (fun x => fin x) vs).
  { intros vs [->|H]; [repeat constructor; exact F0|]. eapply Forall_impl; [|exact H]. intros x [Fx _]. exact Fx. }
  assert (Wf : forall vs, length vs = 2%nat -> wf_param FNum (arr vs)).
  { intros vs Lv. pose proof (dc_wf _ _ _ D) as Wa. rewrite Ea in Wa. inversion Wa as [| |? k1 W1 W2 W3|]; subst. apply wf_arr with k1; [exact W1|exact W2|]. cbn [da_size da_values] in *. exact (eq_trans W3 (f_equal (fun x => Some (k1 * x)%nat) (eq_sym Lv))). }
  pose proof (lib_tame FNum RM flip_bit (fun _ _ m0 => m0) fuel 10 fl_ok fl_ok HR (fun _ m0 _ H => H) (flip_total RM) (fun m0 H => H) 40 ltac:(unfold INT_MAX; lia)) as TL.
  assert (TM : tame (flip_env FNum RM fuel) ok 40 10 (wI RM flip_bit fl_ok) (wI RM flip_bit fl_ok)).
  { destruct TL as [_ _ _ T1 T2 T3 T4 T5 T6 T7 T8]. constructor; try assumption; cbn [flip_env lib_env e_par e_size e_cln e_chk e_dec].
    - intros p (vs & -> & _). reflexivity.
    - intros p (vs & -> & Lv & Hv). exists (arr vs). split; [exact (clone_id FNum _ (Wf vs Lv))|]. split; [exists vs; auto|reflexivity].
    - intros p c (vs & -> & Lv & Hv) Lc. destruct (array_decodes _ _ _ 2 20 i' vs c Hmk A0 Hk N1 N2 W) as (ws & D1 & D2 & D3 & D4); [|exact Lv|exact Lc|].
      + unfold quantum in Sl. rewrite Ea in Sl. exact Sl.
      + exists (arr ws). split; [exact D1|]. split; [exists ws; auto|exact D4]. }
  destruct (C79_completes (flip_env FNum RM fuel) ok 40 (wI RM flip_bit fl_ok) (wI RM flip_bit fl_ok) hash program_objective sty smt parse (MkCfg 300 25 10 dbl_max) (d_ofZ 1) (PArr FNum a) (s, g, m) TM) as (q & snaps & z & w' & E1 & (vs & -> & Lv & Hv) & C1 & L1 & _ & Md).
  - reflexivity.
  - exact Hf.
  - intros q (vs & -> & Lv & Hv) _. exists (program_square vs). split; [reflexivity|]. destruct (program_values vs Lv (OF vs Hv)) as [P1 P2]. split; [exact P1|]. split; [apply P2|]. apply Rle_trans with (1 := proj2 P2). apply bpow_le. lia.
  - cbn. lia.
  - reflexivity.
  - cbn. lia.
  - intro L. apply (roomy_over (d_ofZ 1) 300 10); [|exact L]. destruct (d_ofZ_exact 1 ltac:(lia)) as [O0 O1]. split; [exact O0|]. right. rewrite O1. split; [cbn; lia|cbn; lra].
  - exists (repeat (d_ofZ 0) 2). split; [exact Ea'|]. split; [reflexivity|]. left. reflexivity.
  - destruct (dc_enc _ _ _ D (repeat false 40) (repeat_length _ _)) as [c C]. exists c. split; [exact C|]. rewrite (set_chromosome_len FNum _ _ _ C). apply repeat_length.
  - split; [exact Hs|]. split; [exact M2|exact M1].
  - destruct Hv as [->|Hv].
    + exfalso. cbn [flip_env lib_env e_chk] in C1. assert (Y : p_check FNum (arr (repeat (d_ofZ 0) 2)) = Ok false) by (vm_compute; reflexivity). rewrite Y in C1. discriminate C1.
    + unfold arr in E1. eexists _, snaps, z, w', (program_square vs). split; [exact E1|]. split; [exact L1|]. split; [exact Lv|]. split.
      * eapply Forall_impl; [|exact Hv]. intros x (X1 & X2 & X3). split; [exact X1|]. split; [exact X2|]. rewrite B1 in X3. pose proof (bpow_gt_0 radix2 (-53)).
        assert (0 <= 4 * bpow radix2 (-53) * (100 - B2R ten_minus_4))%R by (apply Rmult_le_pos; lra). lra.
      * destruct (program_values vs Lv (OF vs (or_intror Hv))) as [V1 V2]. split; [reflexivity|]. split; [exact V1|]. split; [exact V2|]. intro Inj.
        destruct (best_from_run (flip_env FNum RM fuel) (wf_param FNum) (lib_lawful FNum RM flip_bit (fun _ _ m0 => m0) fuel) hash program_objective sty smt (MkCfg 300 25 10 dbl_max) None parse (counter_new (d_ofZ 1)) (PArr FNum a) (arr vs) (s, g, m) w' snaps z) as ((_ & v & Fv & Mv & Best) & _).
        -- cbn. lia.
        -- reflexivity.
        -- reflexivity.
        -- exact (dc_wf _ _ _ D).
        -- discriminate.
        -- exact E1.
        -- exact Md.
        -- exists (program_square vs). split; [reflexivity|]. split; [exact V1|]. split; [apply V2|]. apply Rle_trans with (1 := proj2 V2). apply bpow_le. lia.
        -- apply fitting_new. intros _ c c' r r' Dc Dc' Hh.
           assert (Len : forall c0 r0, e_dec (flip_env FNum RM fuel) (PArr FNum a) c0 = (r0, Ok tt) -> length c0 = 40%nat).
           { intros c0 r0 X. rewrite Ea in X. cbn [flip_env lib_env e_dec p_set_from] in X. unfold da_set_from, cs_check in X. cbn [da_size] in X.
             destruct (Nat.eqb (length c0) (20 * 2)) eqn:Q2; [apply Nat.eqb_eq in Q2; exact Q2|discriminate X]. }
           exact (Inj c c' (Len c r Dc) (Len c' r' Dc') Hh).
        -- assert (Xo : forall x y : dbl, Ok x = Ok y -> x = y) by (intros x y e; injection e; auto). apply Xo in Fv. intros sn0 i0 Hsn Hin. destruct (Best sn0 i0 Hsn Hin) as (T1 & _ & T2). split; [exact T1|]. rewrite <- Fv in T2. exact T2.
Qed.
End Program.
Print Assumptions C80_program. Print Assumptions C80_unset_array. Print Assumptions C80_unset_array_undefined. Print Assumptions C80_unset_meets. Print Assumptions C80_undefined_meets.
