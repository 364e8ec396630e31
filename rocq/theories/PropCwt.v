(** C55: Wavelet and ContiniousWaveletTransformation. *)
From Coq Require Import Reals Psatz.
From Coquelicot Require Import Complex.
From Verif Require Import Base Num Optim Dsp PropDsp PropSpline Cwt.
Local Open Scope nat_scope.
Local Open Scope list_scope.

(** *** Specification *)
(** the number of windows for n samples and a step: the least k with k*step >= n *)
Definition window_count (n step : nat) : nat := (n + step - 1) / step.
Lemma window_count_spec n step : 0 < step -> n <= window_count n step * step /\ forall k, k < window_count n step -> k * step < n.
Proof.
  intro H. unfold window_count. pose proof (Nat.div_mod (n + step - 1) step ltac:(lia)) as D. pose proof (Nat.mod_upper_bound (n + step - 1) step ltac:(lia)).
  split; [nia|]. intros k Hk. nia.
Qed.
(** element j of the signal padded with [front] zeros before it and zeros after it *)
Definition padded {A} (zero : A) (front : nat) (x : list A) (j : nat) : A := if Nat.ltb j front then zero else nth (j - front) x zero.

Section Any.
Variable T : TNum.
Lemma pad_ok (x : list (num T)) max : (0 <= max)%Z -> exists data, pad T x max = Ok data /\ length data = length x + Z.to_nat max /\
  forall j, nth j data (n_ofZ T 0) = padded (n_ofZ T 0) (Z.to_nat max / 2) x j.
Proof.
  intro H. unfold pad. set (n := Z.of_nat (length x)). assert (0 <= n)%Z by (unfold n; lia).
  assert (Q : Z.quot max 2 = (max / 2)%Z) by (apply Z.quot_div_nonneg; lia). assert (0 <= max / 2 <= max)%Z by (split; [apply Z.div_pos|apply Z.div_le_upper_bound]; lia).
  rewrite Q. destruct (Z.ltb_spec (n + max) 0); [lia|]. destruct (Z.ltb_spec (max / 2) 0); [lia|]. destruct (Z.ltb_spec (n + max) (max / 2 + n)); [lia|]. cbn [orb].
  eexists. split; [reflexivity|]. split; [rewrite !app_length, !repeat_length; unfold n; lia|]. intro j.
  replace (Z.to_nat (max / 2)) with (Z.to_nat max / 2) by (rewrite Z2Nat.inj_div by lia; reflexivity).
  unfold padded. destruct (Nat.ltb_spec j (Z.to_nat max / 2)).
  - rewrite app_nth1 by (rewrite repeat_length; assumption). apply nth_repeat.
  - rewrite app_nth2 by (rewrite repeat_length; assumption). rewrite repeat_length. set (i := j - Z.to_nat max / 2). destruct (Nat.lt_ge_cases i (length x)).
    + apply app_nth1. assumption.
    + rewrite app_nth2, nth_repeat by assumption. rewrite nth_overflow by assumption. reflexivity.
Qed.

Lemma loop_windows w data n step : (0 < step <= INT_MAX)%Z -> (n < 2 ^ 63)%Z -> forall m i fuel, (0 <= i)%Z ->
  (forall k, k < m -> (i + Z.of_nat k * step < n)%Z) -> (n <= i + Z.of_nat m * step)%Z -> m <= fuel ->
  cwt_loop T fuel w data n step i = mapM (fun k => let! row := w_transform T w (skipn (Z.to_nat (i + Z.of_nat k * step)) data) in Ok ((i + Z.of_nat k * step)%Z, row)) (seq 0 m).
Proof.
  intros Hs Hn. induction m as [|m IH]; intros i fuel Hi Hk He Hf.
  - destruct fuel; cbn [cwt_loop]; (destruct (Z.ltb_spec i n); [lia|reflexivity]).
  - destruct fuel as [|fuel]; [lia|]. cbn [cwt_loop]. pose proof (Hk 0 ltac:(lia)) as H0. destruct (Z.ltb_spec i n); [|lia].
    replace (seq 0 (S m)) with (0 :: map S (seq 0 m)) by (cbn [seq]; rewrite seq_shift; reflexivity). cbn [mapM].
    replace (i + Z.of_nat 0 * step)%Z with i by lia. destruct (w_transform T w (skipn (Z.to_nat i) data)) as [row|e|u]; cbn [bind]; [|reflexivity..].
    assert (Hmod : ((i + step) mod SIZE_MOD = i + step)%Z) by (apply Z.mod_small; unfold SIZE_MOD, INT_MAX in *; lia). rewrite Hmod.
    rewrite IH; [| lia | |lia|lia].
    2:{ intros k Hk'. pose proof (Hk (S k) ltac:(lia)). lia. }
    replace (mapM (fun k => let! row0 := w_transform T w (skipn (Z.to_nat (i + Z.of_nat k * step)) data) in Ok ((i + Z.of_nat k * step)%Z, row0)) (map S (seq 0 m)))
      with (mapM (fun k => let! row0 := w_transform T w (skipn (Z.to_nat (i + step + Z.of_nat k * step)) data) in Ok ((i + step + Z.of_nat k * step)%Z, row0)) (seq 0 m)); [reflexivity|].
    clear. induction (seq 0 m) as [|k l IHl]; [reflexivity|]. cbn [map mapM]. rewrite IHl. replace (i + Z.of_nat (S k) * step)%Z with (i + step + Z.of_nat k * step)%Z by lia. reflexivity.
Qed.
Lemma mapM_map_snd {A B} (f : nat -> outcome A) (g : nat -> B) l :
  (let! r := mapM (fun k => let! row := f k in Ok (g k, row)) l in Ok (map snd r)) = mapM f l.
Proof.
  induction l as [|k l IH]; [reflexivity|]. cbn [mapM]. rewrite <- IH. destruct (f k) as [row|e|u]; cbn [bind]; [|reflexivity..].
  destruct (mapM (fun k0 => let! row0 := f k0 in Ok (g k0, row0)) l) as [r|e|u]; reflexivity.
Qed.

(** ** Windows, in any arithmetic, for any wavelet object with a non-negative maximal length: the windows start at 0, step,
    2*step, ... and there are [window_count] of them; the first failing one, if any, decides the outcome. *)
Theorem C55_windows : forall (w : wavelet T) (x : list (num T)) step fuel, 0 < step -> (Z.of_nat step <= INT_MAX)%Z -> (Z.of_nat (length x) < 2 ^ 63)%Z -> (0 <= w_max T w)%Z ->
  length x <= fuel ->
  exists data, length data = length x + Z.to_nat (w_max T w) /\
    (forall j, nth j data (n_ofZ T 0) = padded (n_ofZ T 0) (Z.to_nat (w_max T w) / 2) x j) /\
    cwt T fuel x w (Z.of_nat step) = mapM (fun k => w_transform T w (skipn (k * step) data)) (seq 0 (window_count (length x) step)).
Proof.
  intros w x step fuel H0 H1 Hn Hm Hf. destruct (pad_ok x (w_max T w) Hm) as (data & E & L & P). exists data. split; [exact L|]. split; [exact P|].
  destruct (window_count_spec (length x) step H0) as [W1 W2].
  unfold cwt, cwt_windows. rewrite E. cbn [bind].
  rewrite (loop_windows w data (Z.of_nat (length x)) (Z.of_nat step) ltac:(lia) Hn (window_count (length x) step) 0%Z fuel).
  - rewrite (mapM_map_snd (fun k => w_transform T w (skipn (Z.to_nat (0 + Z.of_nat k * Z.of_nat step)) data)) (fun k => (0 + Z.of_nat k * Z.of_nat step)%Z)).
    generalize (seq 0 (window_count (length x) step)). induction l as [|k l IHl]; [reflexivity|]. cbn [mapM]. rewrite IHl.
    replace (Z.to_nat (0 + Z.of_nat k * Z.of_nat step)) with (k * step) by lia. reflexivity.
  - lia.
  - intros k Hk. apply W2 in Hk. lia.
  - lia.
  - transitivity (length x); [|exact Hf]. unfold window_count. apply Nat.lt_succ_r. apply Nat.div_lt_upper_bound; [lia|]. nia.
Qed.
(** step 0 never terminates on a non-empty signal: no number of iterations is enough *)
Theorem C55_step_zero : forall (w : wavelet T) (x : list (num T)) fuel r, x <> [] -> cwt T fuel x w 0 <> Ok r.
Proof.
  intros w x fuel r Hx. unfold cwt, cwt_windows. destruct (pad T x (w_max T w)) as [data|e|u]; cbn [bind]; try discriminate.
  assert (N : forall fuel l, cwt_loop T fuel w data (Z.of_nat (length x)) 0 0 <> Ok l).
  { induction fuel0 as [|fuel0 IH]; intro l; cbn [cwt_loop]; (destruct (Z.ltb_spec 0 (Z.of_nat (length x))) as [Hl|Hl]; [|destruct x; [contradiction|cbn in Hl; lia]]); [discriminate|].
    destruct (w_transform T w (skipn (Z.to_nat 0) data)) as [row|e|u]; cbn [bind]; try discriminate.
    replace ((0 + 0) mod SIZE_MOD)%Z with 0%Z by reflexivity. specialize (IH). destruct (cwt_loop T fuel0 w data (Z.of_nat (length x)) 0 0) as [l'|e|u]; cbn [bind]; try discriminate. exfalso. eapply IH. reflexivity. }
  specialize (N fuel). destruct (cwt_loop T fuel w data (Z.of_nat (length x)) 0 0) as [l|e|u]; cbn [bind]; try discriminate. exfalso. eapply N. reflexivity.
Qed.
(** a negative step evaluates the window at 0 and no other *)
Theorem C55_step_negative : forall (w : wavelet T) (x : list (num T)) step fuel, x <> [] -> (INT_MIN <= step < 0)%Z -> (Z.of_nat (length x) < 2 ^ 63)%Z -> 1 <= fuel ->
  cwt T fuel x w step = let! data := pad T x (w_max T w) in let! row := w_transform T w data in Ok [row].
Proof.
  intros w x step fuel Hx Hs Hn Hf. unfold cwt, cwt_windows. destruct (pad T x (w_max T w)) as [data|e|u]; cbn [bind]; try reflexivity.
  destruct fuel as [|fuel]; [lia|]. cbn [cwt_loop]. destruct (Z.ltb_spec 0 (Z.of_nat (length x))) as [Hl|Hl]; [|destruct x; [contradiction|cbn in Hl; lia]].
  cbn [Z.to_nat skipn]. destruct (w_transform T w data) as [row|e|u]; cbn [bind]; try reflexivity.
  assert (Hmod : ((0 + step) mod SIZE_MOD = SIZE_MOD + step)%Z).
  { replace (0 + step)%Z with (SIZE_MOD + step + (-1) * SIZE_MOD)%Z by ring. rewrite Z_mod_plus_full. apply Z.mod_small. unfold SIZE_MOD, INT_MIN in *. lia. }
  rewrite Hmod. destruct fuel; cbn [cwt_loop]; (destruct (Z.ltb_spec (SIZE_MOD + step) (Z.of_nat (length x))) as [Hc|Hc]; [exfalso; unfold SIZE_MOD, INT_MIN in *; lia|reflexivity]).
Qed.

(** ** Building a wavelet *)
Lemma inner_ok : forall (row data : list (num T)) acc, length row <= length data -> exists r, inner_product T row data acc = Ok r.
Proof.
  induction row as [|a row IH]; intros [|d data] acc H; cbn [inner_product]; cbn in H; try lia; eauto. apply IH. lia.
Qed.
Lemma inner_ub : forall (row data : list (num T)) acc, length data < length row -> inner_product T row data acc = UB OutOfBounds.
Proof.
  induction row as [|a row IH]; intros [|d data] acc H; cbn [inner_product]; cbn in H; try lia; eauto. apply IH. lia.
Qed.
Lemma create_scale_length type count max min scales : create_scale T type count max min = Ok scales -> length scales = Z.to_nat count.
Proof.
  unfold create_scale. destruct type.
  - intro H. injection H as <-. rewrite map_length, seq_length. reflexivity.
  - destruct (min =? 0)%Z; [discriminate|]. destruct (chk_int (Z.quot max min)); cbn [bind]; try discriminate. intro H. injection H as <-. rewrite map_length, seq_length. reflexivity.
Qed.
(** what a successful BuildWavelet leaves *)
Lemma build_shape f min max count type w : build_wavelet T (Some f) min max count type = Ok w ->
  (0 <= count)%Z /\ w_count T w = count /\ w_max T w = max /\ exists scales rows,
  create_scale T type count max min = Ok scales /\ w_scale T w = scales /\ w_real T w = map (map fst) rows /\ w_imaj T w = map (map snd) rows /\
  length rows = Z.to_nat count /\ (forall i row, nth_error rows i = Some row -> exists s, nth_error scales i = Some s /\
     length row = Z.to_nat max /\ forall j z, nth_error row j = Some z -> f (sample_point T max s j) = Ok z).
Proof.
  unfold build_wavelet, create_wavelet, set_min, set_max, set_count, set_base, new_wavelet. cbn [w_base w_count w_max w_min w_real w_imaj w_scale].
  destruct (Z.ltb_spec count 0); [discriminate|]. destruct ((0 <? count) && (max <? 0))%Z; [discriminate|].
  intro E. apply bind_ok in E as (scales & Es & E). apply bind_ok in E as (rows & Er & E). injection E as <-. cbn [w_count w_max w_scale w_real w_imaj].
  split; [assumption|]. split; [reflexivity|]. split; [reflexivity|]. exists scales, rows. split; [exact Es|]. do 3 (split; [reflexivity|]).
  split; [apply mapM_ok_length in Er; rewrite seq_length in Er; exact Er|].
  intros i row Hi. destruct (mapM_seq_nth _ _ _ _ _ Er Hi) as [_ Q]. apply bind_ok in Q as (s & Hs & Q). exists s. split; [|split].
  - unfold at_ in Hs. destruct (nth_error scales i); [congruence|discriminate].
  - apply mapM_ok_length in Q. rewrite seq_length in Q. exact Q.
  - intros j z Hz. destruct (mapM_seq_nth _ _ _ _ _ Q Hz) as [_ Z']. exact Z'.
Qed.
Lemma build_ok f min max count type : (forall t, exists z, f t = Ok z) -> (0 <= count <= INT_MAX)%Z -> (0 <= max <= INT_MAX)%Z -> (type = Linear -> min <> 0 /\ INT_MIN <= min <= INT_MAX)%Z -> 
  exists w, build_wavelet T (Some f) min max count type = Ok w.
Proof.
  intros Hf Hc Hm Hl. unfold build_wavelet, create_wavelet, set_min, set_max, set_count, set_base, new_wavelet. cbn [w_base w_count w_max w_min w_real w_imaj w_scale].
  destruct (Z.ltb_spec count 0); [lia|]. destruct (Z.ltb_spec max 0); [lia|]. rewrite andb_false_r.
  assert (S : exists scales, create_scale T type count max min = Ok scales).
  { unfold create_scale. destruct type; [eauto|]. destruct (Hl eq_refl) as [M1 M2]. destruct (Z.eqb_spec min 0); [contradiction|].
    unfold chk_int. destruct (in_int (Z.quot max min)) eqn:I; [cbn [bind]; eauto|]. exfalso. unfold in_int, INT_MIN, INT_MAX in *.
    assert (Z.abs (Z.quot max min) <= max)%Z.
    { rewrite <- Z.quot_abs by assumption. rewrite (Z.abs_eq max) by lia. transitivity (Z.quot max 1); [|rewrite Z.quot_1_r; lia]. apply Z.quot_le_compat_l; lia. }
    apply andb_false_iff in I as [I|I]; apply Z.leb_gt in I; lia. }
  destruct S as (scales & Es). rewrite Es. cbn [bind]. apply create_scale_length in Es.
  destruct (mapM_total (fun i => let! s := at_ scales i in mapM (fun j => f (sample_point T max s j)) (seq 0 (Z.to_nat max))) (seq 0 (Z.to_nat count))) as (rows & ->); [|cbn [bind]; eauto].
  intros i Hi. apply in_seq in Hi. unfold at_. destruct (nth_error scales i) as [s|] eqn:E; [|apply nth_error_None in E; lia]. cbn [bind].
  apply mapM_total. intros j _. apply Hf.
Qed.
Lemma transform_total w f min max count type data : build_wavelet T (Some f) min max count type = Ok w -> (0 < count)%Z -> Z.to_nat max <= length data ->
  exists row, w_transform T w data = Ok row /\ length row = Z.to_nat count.
Proof.
  intros Hb Hc Hd. destruct (build_shape _ _ _ _ _ _ Hb) as (_ & Ec & _ & scales & rows & Es & E1 & E2 & E3 & L & F).
  unfold w_transform. rewrite E1, E2, E3, Ec. apply create_scale_length in Es.
  destruct rows as [|r0 rows]; [cbn in L; lia|]. destruct scales as [|s0 scales]; [cbn in Es; lia|]. cbn [map].
  destruct (Z.ltb_spec count 0); [lia|].
  edestruct (mapM_total (fun i => let! re := at_ (map fst r0 :: map (map fst) rows) i in let! r := inner_product T re data (n_ofZ T 0) in
             let! im := at_ (map snd r0 :: map (map snd) rows) i in let! q := inner_product T im data (n_ofZ T 0) in
             Ok (m_sqrt T (n_add T (n_mul T r r) (n_mul T q q)))) (seq 0 (Z.to_nat count))) as (row & Er).
  { intros i Hi. apply in_seq in Hi. destruct (nth_error (r0 :: rows) i) as [z|] eqn:Ez; [|apply nth_error_None in Ez; rewrite L in Ez; lia].
    destruct (F i z Ez) as (s & _ & Lz & _). unfold at_. change (map fst r0 :: map (map fst) rows) with (map (map fst) (r0 :: rows)). change (map snd r0 :: map (map snd) rows) with (map (map snd) (r0 :: rows)).
    rewrite !nth_error_map, Ez. cbn [option_map bind]. destruct (inner_ok (map fst z) data (n_ofZ T 0)) as (r & ->); [rewrite map_length; unfold cplx in *; lia|]. cbn [bind].
    destruct (inner_ok (map snd z) data (n_ofZ T 0)) as (q & ->); [rewrite map_length; unfold cplx in *; lia|]. cbn [bind]. eauto. }
  exists row. split; [exact Er|]. apply mapM_ok_length in Er. rewrite seq_length in Er. exact Er.
Qed.

(** A built wavelet with at least one scale never reads outside the padded data and every signal has a transform,
    whatever the arithmetic: one row per window, each with one value per scale. *)
Theorem C55_total : forall f min max count type w (x : list (num T)) step fuel, build_wavelet T (Some f) min max count type = Ok w ->
  (0 < count)%Z -> (0 <= max)%Z -> 0 < step -> (Z.of_nat step <= INT_MAX)%Z -> (Z.of_nat (length x) < 2 ^ 63)%Z -> length x <= fuel ->
  exists rows, cwt T fuel x w (Z.of_nat step) = Ok rows /\ length rows = window_count (length x) step /\ Forall (fun row => length row = Z.to_nat count) rows.
Proof.
  intros f min max count type w x step fuel Hb Hc Hm H0 H1 Hn Hf. pose proof (build_shape _ _ _ _ _ _ Hb) as (_ & _ & Em & _).
  destruct (C55_windows w x step fuel H0 H1 Hn ltac:(lia) Hf) as (data & L & _ & ->). rewrite Em in L.
  destruct (window_count_spec (length x) step H0) as [_ W2].
  assert (Tt : forall k, k < window_count (length x) step -> exists row, w_transform T w (skipn (k * step) data) = Ok row /\ length row = Z.to_nat count).
  { intros k Hk. apply (transform_total w f min max count type _ Hb Hc). rewrite skipn_length, L. apply W2 in Hk. lia. }
  destruct (mapM_total (fun k => w_transform T w (skipn (k * step) data)) (seq 0 (window_count (length x) step))) as (rows & Er).
  { intros k Hk. apply in_seq in Hk. destruct (Tt k ltac:(lia)) as (row & E & _). eauto. }
  exists rows. split; [exact Er|]. split; [apply mapM_ok_length in Er; rewrite seq_length in Er; exact Er|].
  apply Forall_forall. intros row Hr. apply In_nth_error in Hr as (k & Hk). destruct (mapM_seq_nth _ _ _ _ _ Er Hk) as [Hk' E].
  destruct (Tt k Hk') as (row' & E' & L'). congruence.
Qed.
(** Exceptions and undefined behaviour when building *)
Theorem C55_build : forall f min max count type, 
  (forall w, build_wavelet T None min max count type <> Ok w) /\
  ((count < 0)%Z -> build_wavelet T (Some f) min max count type = Throw LengthError) /\
  ((0 < count)%Z -> (max < 0)%Z -> build_wavelet T (Some f) min max count type = Throw LengthError) /\
  ((0 < count)%Z -> (0 <= max)%Z -> build_wavelet T (Some f) 0 max count Linear = UB DivByZero) /\
  (forall w, build_wavelet T (Some f) min max 0 type = Ok w -> forall data, w_transform T w data = Throw StringLiteral) /\
  ((0 <= count <= INT_MAX)%Z -> (0 <= max <= INT_MAX)%Z -> (type = Linear -> min <> 0 /\ INT_MIN <= min <= INT_MAX)%Z -> (forall t, exists z, f t = Ok z) ->
     exists w, build_wavelet T (Some f) min max count type = Ok w).
Proof.
  intros f min max count type. split; [discriminate|]. split; [|split; [|split; [|split]]].
  - intro H. unfold build_wavelet, create_wavelet. cbn. destruct (Z.ltb_spec count 0); [reflexivity|lia].
  - intros H H'. unfold build_wavelet, create_wavelet. cbn [w_base w_count w_max set_min set_max set_count set_base]. destruct (Z.ltb_spec count 0); [lia|].
    destruct (Z.ltb_spec 0 count); [|lia]. destruct (Z.ltb_spec max 0); [reflexivity|lia].
  - intros H H'. unfold build_wavelet, create_wavelet. cbn [w_base w_count w_max w_min set_min set_max set_count set_base]. destruct (Z.ltb_spec count 0); [lia|].
    destruct (Z.ltb_spec max 0); [lia|]. rewrite andb_false_r. reflexivity.
  - intros w Hb data. destruct (build_shape _ _ _ _ _ _ Hb) as (_ & _ & _ & scales & rows & _ & _ & E2 & _ & L & _). destruct rows; [|discriminate].
    unfold w_transform. rewrite E2. reflexivity.
  - intros. apply build_ok; assumption.
Qed.
(** Changing the maximal length after building: a signal shorter than the built length is read out of bounds. *)
Theorem C55_max_changed_refuted : forall f min max count type w (x : list (num T)) step fuel, build_wavelet T (Some f) min max count type = Ok w -> (0 < count)%Z ->
  x <> [] -> length x < Z.to_nat max -> 1 <= fuel -> cwt T fuel x (set_max T 0 w) step = UB OutOfBounds.
Proof.
  intros f min max count type w x step fuel Hb Hc Hx Hl Hf. destruct (build_shape _ _ _ _ _ _ Hb) as (_ & Ec & _ & scales & rows & Es & E1 & E2 & E3 & L & F).
  unfold cwt, cwt_windows. destruct (pad_ok x 0 ltac:(lia)) as (data & E & Ld & _). unfold set_max. cbn [w_max]. rewrite E. cbn [bind].
  destruct fuel as [|fuel]; [lia|]. cbn [cwt_loop]. destruct (Z.ltb_spec 0 (Z.of_nat (length x))) as [H|H]; [|destruct x; [contradiction|cbn in H; lia]].
  cbn [Z.to_nat skipn]. unfold w_transform. cbn [w_real w_imaj w_scale w_count]. rewrite E1, E2, E3, Ec. apply create_scale_length in Es.
  destruct rows as [|r0 rows]; [cbn in L; lia|]. destruct scales as [|s0 scales]; [cbn in Es; lia|]. cbn [map].
  destruct (Z.ltb_spec count 0); [lia|]. destruct (Z.to_nat count) as [|c] eqn:Ecn; [lia|]. cbn [seq mapM]. unfold at_ at 1. cbn [nth_error bind].
  destruct (F 0 r0 eq_refl) as (s & _ & Lr & _). rewrite inner_ub by (rewrite map_length; unfold cplx in *; cbn in Ld; lia). reflexivity.
Qed.
End Any.

(** ** Values, exact arithmetic *)
Lemma csum_head n (f : nat -> C) : csum (S n) f = Cplus (f 0) (csum n (fun i => f (S i))).
Proof. induction n as [|n IH]; [cbn [csum]; ring|]. cbn [csum] in *. rewrite IH. ring. Qed.
Lemma inner_csum : forall (z : list C) (data : list R) a b, length z <= length data -> exists r q,
  inner_product RTrig (map fst z) data a = Ok r /\ inner_product RTrig (map snd z) data b = Ok q /\
  (r, q) = Cplus (a, b) (csum (length z) (fun j => Cmult (nth j z (RtoC 0)) (RtoC (nth j data 0%R)))).
Proof.
  induction z as [|c z IH]; intros [|d data] a b H; cbn [length] in H; try lia.
  - exists a, b. repeat split. cbn [length csum]. rewrite Cplus_0_r. reflexivity.
  - exists a, b. repeat split. cbn [length csum]. rewrite Cplus_0_r. reflexivity.
  - cbn [map inner_product length]. destruct (IH data (a + fst c * d)%R (b + snd c * d)%R ltac:(lia)) as (r & q & E1 & E2 & E). exists r, q.
    split; [exact E1|]. split; [exact E2|]. rewrite E, csum_head. cbn [nth]. rewrite Cplus_assoc. f_equal. apply injective_projections; cbn; ring.
Qed.
Definition psi_total (psi : R -> C) : num RTrig -> outcome (cplx RTrig) := fun t => Ok (psi t).

Lemma nth_skipn_R (l : list R) : forall k j, nth j (skipn k l) 0%R = nth (k + j) l 0%R.
Proof. induction l as [|a l IH]; intros [|k] j; cbn [skipn nth Nat.add]; auto. destruct j; reflexivity. Qed.

(** The number of the k-th row for the i-th scale is the modulus of the inner product of the window of the padded signal
    that starts at k*step with the wavelet sampled on [-4 s, 4 s). *)
Theorem C55_values : forall (psi : R -> C) min max count type w (x : list R) step fuel rows,
  build_wavelet RTrig (Some (psi_total psi)) min max count type = Ok w -> (2 <= max)%Z ->
  (0 < count)%Z -> 0 < step -> (Z.of_nat step <= INT_MAX)%Z -> (Z.of_nat (length x) < 2 ^ 63)%Z -> length x <= fuel ->
  cwt RTrig fuel x w (Z.of_nat step) = Ok rows ->
  forall k i row v (s : R), nth_error rows k = Some row -> nth_error row i = Some v -> nth_error (w_scale RTrig w) i = Some s ->
  v = Cmod (csum (Z.to_nat max) (fun j =>
        Cmult (psi (4 * s * (INR j - IZR max / 2) / IZR (max / 2))%R) (RtoC (padded 0%R (Z.to_nat max / 2) x (k * step + j))))).
Proof.
  intros psi min max count type w x step fuel rows Hb Hm Hc H0 H1 Hn Hf Hr k i row v s Hk Hv Hs.
  pose proof (build_shape _ _ _ _ _ _ _ Hb) as (_ & Ec & Em & scales & zs & Es & E1 & E2 & E3 & L & F).
  destruct (C55_windows RTrig w x step fuel H0 H1 Hn ltac:(lia) Hf) as (data & Ld & P & E). rewrite Em in Ld, P. change (num RTrig) with R in *.
  pose proof (eq_trans (eq_sym E) Hr) as Q. destruct (mapM_seq_nth _ _ _ _ _ Q Hk) as [Hk' Tk]. clear Q E.
  destruct (window_count_spec (length x) step H0) as [_ W2]. apply W2 in Hk'.
  unfold w_transform in Tk. rewrite E1, E2, E3, Ec in Tk. rewrite E1 in Hs. apply (create_scale_length RTrig) in Es.
  destruct zs as [|z0 zs]; [cbn in L; lia|]. destruct scales as [|s0 scales]; [cbn in Es; lia|].
  change (map (map fst) (z0 :: zs)) with (map fst z0 :: map (map fst) zs) in Tk. change (map (map snd) (z0 :: zs)) with (map snd z0 :: map (map snd) zs) in Tk. cbv iota in Tk.
  destruct (Z.ltb_spec count 0); [lia|]. destruct (mapM_seq_nth _ _ _ _ _ Tk Hv) as [Hi Ti]. clear Tk.
  change (map fst z0 :: map (map fst) zs) with (map (map fst) (z0 :: zs)) in Ti. change (map snd z0 :: map (map snd) zs) with (map (map snd) (z0 :: zs)) in Ti.
  destruct (nth_error (z0 :: zs) i) as [z|] eqn:Ez; [|apply nth_error_None in Ez; lia].
  destruct (F i z Ez) as (s' & Hs' & Lz & Fz). assert (s' = s) by congruence. subst s'.
  unfold at_ in Ti. rewrite !nth_error_map, Ez in Ti. cbn [option_map bind] in Ti.
  destruct (inner_csum z (skipn (k * step) data) 0%R 0%R) as (r & q & I1 & I2 & I); [apply Nat.le_trans with (Z.to_nat max); [apply Nat.eq_le_incl; exact Lz|rewrite skipn_length, Ld; lia]|].
  change (n_ofZ RTrig 0) with 0%R in *. change (num RTrig) with R in *. change (num RTrig * num RTrig)%type with C in *.
  rewrite I1 in Ti. cbn [bind] in Ti. rewrite I2 in Ti. cbn [bind] in Ti. injection Ti as <-.
  change (m_sqrt RTrig) with sqrt. change (n_add RTrig) with Rplus. change (n_mul RTrig) with Rmult.
  replace (csum (Z.to_nat max) _) with (r, q); [unfold Cmod; cbn [fst snd]; f_equal; ring|].
  rewrite I. change (0%R, 0%R) with (RtoC 0). rewrite Cplus_0_l. replace (@length C z) with (Z.to_nat max) by (first [exact Lz|symmetry; exact Lz]). apply csum_ext. intros j Hj.
  rewrite nth_skipn_R, P. f_equal.
  destruct (nth_error z j) as [c|] eqn:Ej; [|apply nth_error_None in Ej; lia]. replace (@nth C j z (RtoC 0)) with c by (first [exact (nth_error_nth z j (RtoC 0) Ej)|symmetry; exact (nth_error_nth z j (RtoC 0) Ej)]).
  pose proof (Fz j c Ej) as Q. unfold psi_total in Q. injection Q as <-. f_equal. unfold sample_point. cbn [n_div n_ofZ n_add n_mul n_sub RTrig t_math RMath m_num RNum].
  rewrite Z.quot_div_nonneg by lia. rewrite <- INR_IZR_INZ. match goal with |- ?a = ?b => change (@eq R a b) end; unfold Rdiv; ring.
Qed.
(** The scales: (max/min)^(i/count) for the logarithmic type, (i+1)/count * (max div min) for the linear one. *)
Theorem C55_scales : forall f min max count w, (0 < min)%Z -> (0 < max)%Z ->
  (build_wavelet RTrig (Some f) min max count Log = Ok w -> forall i (s : R), nth_error (w_scale RTrig w) i = Some s -> s = Rpower (IZR max / IZR min) (INR i / IZR count)) /\
  (build_wavelet RTrig (Some f) min max count Linear = Ok w -> forall i (s : R), nth_error (w_scale RTrig w) i = Some s -> s = (INR (S i) / IZR count * IZR (max / min))%R).
Proof.
  intros f min max count w H1 H2. split; intros Hb i s Hs; destruct (build_shape _ _ _ _ _ _ _ Hb) as (_ & _ & _ & scales & rows & Es & E1 & _); rewrite E1 in Hs; unfold create_scale in Es.
  - injection Es as <-. rewrite nth_error_map in Hs. destruct (nth_error (seq 0 (Z.to_nat count)) i) as [j|] eqn:E; [|discriminate]. 
    assert (Hi : i < Z.to_nat count) by (rewrite <- (seq_length (Z.to_nat count) 0); apply nth_error_Some; congruence).
    rewrite (nth_error_nth' _ 0) in E by (rewrite seq_length; exact Hi). rewrite seq_nth in E by exact Hi. injection E as <-. cbn [option_map] in Hs.
    assert (Q : s = exp (IZR (Z.of_nat i) / IZR count * ln (IZR max / IZR min))%R) by (injection Hs as <-; reflexivity). rewrite Q, <- INR_IZR_INZ. reflexivity.
  - destruct (Z.eqb_spec min 0); [lia|]. destruct (chk_int (Z.quot max min)) as [k|e|u] eqn:Ek; cbn [bind] in Es; try discriminate. injection Es as <-.
    unfold chk_int in Ek. destruct (in_int (Z.quot max min)); [|discriminate]. injection Ek as <-. rewrite nth_error_map in Hs. destruct (nth_error (seq 1 (Z.to_nat count)) i) as [j|] eqn:E; [|discriminate]. 
    assert (Hi : i < Z.to_nat count) by (rewrite <- (seq_length (Z.to_nat count) 1); apply nth_error_Some; congruence).
    rewrite (nth_error_nth' _ 0) in E by (rewrite seq_length; exact Hi). rewrite seq_nth in E by exact Hi. injection E as <-. cbn [option_map] in Hs.
    assert (Q : s = (IZR (Z.of_nat (1 + i)) / IZR count * IZR (Z.quot max min))%R) by (injection Hs as <-; reflexivity). rewrite Q, <- INR_IZR_INZ, Z.quot_div_nonneg by lia. reflexivity.
Qed.
(** The overload with a callback returns the same rows and calls it once per row with the percentage 100*k*step/n, which is
    at least 0 and less than 100. *)
Theorem C55_progress : forall (w : wavelet RTrig) (x : list R) step fuel rows, 0 < step -> (Z.of_nat step <= INT_MAX)%Z -> (Z.of_nat (length x) < 2 ^ 63)%Z -> length x <= fuel ->
  cwt RTrig fuel x w (Z.of_nat step) = Ok rows -> (0 <= w_max RTrig w)%Z -> exists progress : list R,
  cwt_callback RTrig fuel x w (Z.of_nat step) = Ok (rows, progress) /\ length progress = length rows /\
  forall k p, nth_error progress k = Some p -> p = (100 * INR (k * step) / INR (length x))%R /\ (0 <= p < 100)%R.
Proof.
  intros w x step fuel rows H0 H1 Hn Hf Hr Hm. destruct (window_count_spec (length x) step H0) as [W1 W2].
  unfold cwt in Hr. apply bind_ok in Hr as (ws & Ew & E). injection E as <-. unfold cwt_callback. rewrite Ew. cbn [bind].
  eexists. split; [reflexivity|]. split; [rewrite !map_length; reflexivity|]. intros k p Hp. rewrite nth_error_map in Hp.
  destruct (nth_error ws k) as [e|] eqn:Ek; [|discriminate].
  assert (He : fst e = Z.of_nat (k * step) /\ k * step < length x).
  { unfold cwt_windows in Ew. apply bind_ok in Ew as (data & Ep & Ew).
    pose proof (loop_windows RTrig w data (Z.of_nat (length x)) (Z.of_nat step) ltac:(lia) Hn (window_count (length x) step) 0%Z fuel) as LW.
    change (num RTrig) with R in *. rewrite LW in Ew; clear LW.
    - destruct (mapM_seq_nth _ _ _ _ _ Ew Ek) as [Hk Q]. apply bind_ok in Q as (row & _ & Q). injection Q as <-. cbn [fst]. split; [lia|]. apply W2. exact Hk.
    - lia.
    - intros j Hj. apply W2 in Hj. change (num RTrig) with R in *. lia.
    - change (num RTrig) with R in *. lia.
    - transitivity (length x); [|exact Hf]. unfold window_count. apply Nat.lt_succ_r. apply Nat.div_lt_upper_bound; [lia|]. nia. }
  destruct He as [He1 He2]. cbn [option_map] in Hp.
  assert (Q : p = (100 * IZR (fst e) * (1 / IZR (Z.of_nat (length x))))%R) by (injection Hp as <-; reflexivity).
  rewrite He1, <- !INR_IZR_INZ in Q. assert (Hl : (0 < INR (length x))%R) by (apply lt_0_INR; lia).
  assert (Q' : p = (100 * INR (k * step) / INR (length x))%R) by (rewrite Q; unfold Rdiv; ring). split; [exact Q'|]. rewrite Q'.
  apply lt_INR in He2. pose proof (pos_INR (k * step)). split.
  - unfold Rdiv. apply Rmult_le_pos; [lra|]. left. apply Rinv_0_lt_compat. exact Hl.
  - apply Rmult_lt_reg_r with (INR (length x)); [exact Hl|]. unfold Rdiv. rewrite Rmult_assoc, Rinv_l by lra. lra.
Qed.
(** The hypotheses are met: a wavelet with 2 scales and length 4 over 3 samples with step 2. *)
Example C55_example : exists w rows, build_wavelet RTrig (Some (psi_total (fun t => RtoC t))) 1 4 2 Log = Ok w /\ w_scale RTrig w <> [] /\
  cwt RTrig 3 [1%R; 2%R; 3%R] w (Z.of_nat 2) = Ok rows /\ length rows = 2.
Proof.
  destruct (proj2 (proj2 (proj2 (proj2 (proj2 (C55_build RTrig (psi_total (fun t => RtoC t)) 1 4 2 Log)))))) as (w & Hw);
    [unfold INT_MAX; lia|unfold INT_MAX; lia|discriminate|intro t; unfold psi_total; eauto|].
  destruct (C55_total RTrig (psi_total (fun t => RtoC t)) 1 4 2 Log w [1%R; 2%R; 3%R] 2 3 Hw) as (rows & E & L & _); [lia|lia|lia|unfold INT_MAX; lia|cbn; lia|cbn; lia|].
  exists w, rows. split; [exact Hw|]. split; [|split; [exact E|rewrite L; reflexivity]].
  destruct (build_shape _ _ _ _ _ _ _ Hw) as (_ & _ & _ & scales & rows' & Es & E1 & _). rewrite E1. unfold create_scale in Es. injection Es as <-. cbn. discriminate.
Qed.
Print Assumptions C55_windows. Print Assumptions C55_step_zero. Print Assumptions C55_step_negative. Print Assumptions C55_total. Print Assumptions C55_build.
Print Assumptions C55_max_changed_refuted. Print Assumptions C55_values. Print Assumptions C55_scales. Print Assumptions C55_progress.
