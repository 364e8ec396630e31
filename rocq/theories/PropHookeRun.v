(** C45: what the Hooke-Jeeves method does, and what the vector it returns is. *)
From Coq Require Import Reals.
From Flocq Require Import IEEE754.BinarySingleNaN.
From Verif Require Import Base Num DblOrder Misc Optim Hooke PropHooke.
Local Open Scope Z_scope.
Local Open Scope list_scope.

(** *** Specification *)

(** exploratory search: coordinate by coordinate, a step up if that is better, else a step down if that is better *)
Definition try_step (f : list dbl -> dbl) (steps : list dbl) (v : list dbl) (i : nat) : list dbl :=
  let up := upd v i (d_add (nth i v d_nan) (nth i steps d_nan)) in
  let down := upd v i (d_sub (nth i v d_nan) (nth i steps d_nan)) in
  if d_ltb (f up) (f v) then up else if d_ltb (f down) (f v) then down else v.
Definition explore (f : list dbl -> dbl) (steps v : list dbl) : list dbl := fold_left (try_step f steps) (seq 0 (length v)) v.

(** the point reached from [a] by going [acceleration] times as far as [b] *)
Definition beyond (acceleration : dbl) (a b p : list dbl) : Prop :=
  length p = length b /\
  forall i x y, nth_error a i = Some x -> nth_error b i = Some y -> nth_error p i = Some (d_add x (d_mul acceleration (d_sub y x))).

(** the steps after [k] reductions, and their Euclidean length *)
Fixpoint reduced (c : hooke) (n k : nat) : list dbl :=
  match k with O => repeat (hj_init_step c) n | S j => map (fun s => d_div s (hj_divider c)) (reduced c n j) end.
Definition norm (v : list dbl) : dbl := Bsqrt mode_NE (fold_left (fun t s => d_add t (d_mul s s)) v (d_ofZ 0)).
Definition small (c : hooke) (v : list dbl) : Prop := d_leb (norm v) (hj_precision c) = true.

(** a successful pattern move, made with the [k] times reduced steps: from [a] through [b] and beyond, explored, and
    strictly better than [b] *)
Record move : Type := MkMove { mv_k : nat; mv_from : list dbl; mv_via : list dbl; mv_to : list dbl }.
Definition successful (f : list dbl -> dbl) (c : hooke) (n : nat) (m : move) : Prop :=
  exists p, beyond (hj_acceleration c) (mv_from m) (mv_via m) p /\ mv_to m = explore f (reduced c n (mv_k m)) p /\
    d_ltb (f (mv_to m)) (f (mv_via m)) = true.

(** *** Proofs *)
Lemma squares_fold v : forall t, squares t v = fold_left (fun t s => d_add t (d_mul s s)) v t.
Proof. induction v as [|x v IH]; intro t; [reflexivity|]. apply IH. Qed.
Lemma exit_small c v : hj_exit c v = true <-> small c v.
Proof. unfold hj_exit, small, norm. rewrite squares_fold. reflexivity. Qed.

Section HJ.
Variable f : list dbl -> dbl.
Variable n : nat.
Hypothesis f_num : forall v, length v = n -> is_num (f v) = true.
Notation go := (fun v => Ok (f v)).
Notation run := (pure FNum go).

Lemma try_length s v i : length (try_step f s v i) = length v.
Proof. unfold try_step. repeat destruct (d_ltb _ _); rewrite ?upd_length; reflexivity. Qed.
Lemma fold_try_length s l : forall v, length (fold_left (try_step f s) l v) = length v.
Proof. induction l as [|i l IH]; intro v; [reflexivity|]. cbn. rewrite IH. apply try_length. Qed.

Lemma coord_loop_explore steps : length steps = n -> forall todo args i, length args = n -> (i + todo = n)%nat ->
  run (coord_loop steps args i todo) = Ok (fold_left (try_step f steps) (seq i todo) args).
Proof.
  intros Ls. induction todo as [|t IH]; intros args i La Hi; [reflexivity|].
  cbn [coord_loop seq fold_left]. rewrite pure_bind, pure_ask. cbn [bind].
  destruct (at_in args i) as (a & Ea & Na); [lia|]. destruct (at_in steps i) as (s & Es & Ns); [lia|].
  rewrite pure_bind, pure_lift, Ea. cbn [bind]. rewrite pure_bind, pure_lift, Es. cbn [bind].
  rewrite pure_bind, pure_ask. cbn [bind]. unfold try_step at 2.
  rewrite (nth_error_nth _ _ d_nan Na), (nth_error_nth _ _ d_nan Ns).
  destruct (d_ltb (f (upd args i (d_add a s))) (f args)); [apply IH; [rewrite upd_length; exact La|lia]|].
  rewrite pure_bind, pure_ask. cbn [bind].
  destruct (d_ltb (f (upd args i (d_sub a s))) (f args)); apply IH; rewrite ?upd_length; auto; lia.
Qed.
Lemma coordinatewise_explore steps args : length steps = n -> length args = n ->
  run (coordinatewise steps args) = Ok (explore f steps args).
Proof. intros Ls La. unfold coordinatewise, explore. rewrite La. apply coord_loop_explore; auto. Qed.
Lemma explore_length s v : length (explore f s v) = length v.
Proof. apply fold_try_length. Qed.

Lemma pattern_beyond c : forall a b, length a = length b -> beyond (hj_acceleration c) a b (pattern c a b).
Proof.
  intros a b H. split; [rewrite <- H; apply (pattern_length c a b H)|].
  revert b H. induction a as [|x a IH]; intros [|y b] H [|i] u v Hu Hv; cbn in *; try discriminate.
  - injection Hu as ->. injection Hv as ->. reflexivity.
  - eapply IH; eauto.
Qed.
Lemma reduced_length c k : length (reduced c n k) = n.
Proof. induction k; cbn; [apply repeat_length|rewrite map_length; assumption]. Qed.
Lemma not_leb_ltb x y : is_num x = true -> is_num y = true -> d_leb x y = false -> d_ltb y x = true.
Proof.
  intros A B H. apply is_num_nan in A, B. rewrite d_leb_nkey in H by auto. apply Z.leb_gt in H. apply d_ltb_key. auto.
Qed.

(** what the inner loop does: its successful moves *)
Lemma inner_moves c k : forall fuel args after it r,
  length args = n -> length after = n -> run (hj_inner fuel c (reduced c n k) args after it) = Ok r ->
  exists ms, Forall (successful f c n) ms /\ Forall (fun m => mv_k m = k) ms /\
  (it < hj_max_iterations c -> it + Z.of_nat (length ms) <= hj_max_iterations c) /\
  match r with
  | Broke args' after' it' => length after' = n /\ args' = after' /\ it' = it + Z.of_nat (length ms) /\
      (it < hj_max_iterations c -> it' < hj_max_iterations c)
  | Returned v => it + Z.of_nat (length ms) = hj_max_iterations c /\ exists m0 m, ms = m0 ++ [m] /\ mv_to m = v
  end.
Proof.
  induction fuel as [|fu IH]; intros args after it r La Lf H; [discriminate|].
  cbn [hj_inner] in H. rewrite pure_bind in H.
  assert (Lp : length (pattern c args after) = n) by (rewrite (pattern_length c args after); congruence).
  rewrite coordinatewise_explore in H; [|apply reduced_length|exact Lp]. cbn [bind] in H.
  set (next := explore f (reduced c n k) (pattern c args after)) in *.
  assert (Ln : length next = n) by (unfold next; rewrite explore_length; exact Lp).
  rewrite pure_bind, pure_ask in H. cbn [bind] in H. rewrite pure_bind, pure_ask in H. cbn [bind] in H.
  destruct (d_leb (f after) (f next)) eqn:D.
  - cbn in H. injection H as <-. exists []. cbn. repeat split; auto; try constructor; lia.
  - pose proof (not_leb_ltb _ _ (f_num after Lf) (f_num next Ln) D) as Lt.
    assert (S : successful f c n (MkMove k args after next)).
    { exists (pattern c args after). split; [apply pattern_beyond; congruence|]. split; [reflexivity|exact Lt]. }
    destruct (Z.eqb_spec (it + 1) (hj_max_iterations c)) as [Em|Em].
    + cbn in H. injection H as <-. exists [MkMove k args after next]. cbn [length]. repeat split; auto; try lia.
      exists [], (MkMove k args after next). auto.
    + apply IH in H as (ms & A & B & C & R); auto.
      exists (MkMove k args after next :: ms). cbn [length]. split; [auto|]. split; [auto|]. split; [lia|].
      destruct r as [a' f' i'|v].
      * destruct R as (R1 & R2 & R3 & R4). repeat split; auto; lia.
      * destruct R as (R1 & m0 & m & R2 & R3). split; [lia|]. exists (MkMove k args after next :: m0), m. subst. auto.
Qed.

Definition ending (c : hooke) (k0 : nat) (ms : list move) (before : Z) (v : list dbl) : Prop :=
  (exists k a, (k0 <= k)%nat /\ v = explore f (reduced c n k) a /\ vectors_equal a v = true /\ small c (reduced c n (S k)) /\
     forall j, (k0 < j <= k)%nat -> ~ small c (reduced c n j)) \/
  small c (reduced c n k0) \/
  (before + Z.of_nat (length ms) = hj_max_iterations c /\ exists m0 m, ms = m0 ++ [m] /\ mv_to m = v).

Lemma outer_moves c : forall fuel k args it v, length args = n ->
  run (hj_outer fuel c (reduced c n k) args it) = Ok v ->
  exists ms, Forall (successful f c n) ms /\ (it < hj_max_iterations c -> it + Z.of_nat (length ms) <= hj_max_iterations c) /\
    ending c k ms it v.
Proof.
  induction fuel as [|fu IH]; intros k args it v La H; [discriminate|].
  cbn [hj_outer] in H. rewrite pure_bind, coordinatewise_explore in H; [|apply reduced_length|exact La]. cbn [bind] in H.
  set (after := explore f (reduced c n k) args) in *.
  assert (Lf : length after = n) by (unfold after; rewrite explore_length; exact La).
  destruct (vectors_equal args after) eqn:V.
  - change (map (fun s : dbl => d_div s (hj_divider c)) (reduced c n k)) with (reduced c n (S k)) in H.
    cbv zeta in H. destruct (hj_exit c (reduced c n (S k))) eqn:X.
    + cbn in H. injection H as <-. exists []. cbn [length]. split; [constructor|]. split; [lia|]. left. exists k, args.
      split; [lia|]. split; [reflexivity|]. split; [exact V|]. split; [apply exit_small; exact X|lia].
    + apply IH in H as (ms & A & B & C); [|exact La]. exists ms. split; [exact A|]. split; [exact B|].
      assert (NS : ~ small c (reduced c n (S k))) by (rewrite <- exit_small; congruence).
      destruct C as [(k1 & a & C1 & C2 & C3 & C4 & C5)|[C|C]]; [left| contradiction |right; right; exact C].
      exists k1, a. split; [lia|]. split; [exact C2|]. split; [exact C3|]. split; [exact C4|].
      intros j Hj. destruct (Nat.eq_dec j (S k)) as [->|]; [exact NS|apply C5; lia].
  - rewrite pure_bind in H. destruct (run (hj_inner (S fu) c (reduced c n k) args after it)) as [e|e|u] eqn:R; try discriminate.
    cbn [bind] in H. apply inner_moves in R as (ms & A & B & C & R); auto. destruct e as [a' f' i'|w].
    + destruct R as (R1 & R2 & R3 & R4). destruct (hj_exit c (reduced c n k)) eqn:X.
      * cbn in H. injection H as <-. exists ms. split; [exact A|]. split; [exact C|]. right. left. apply exit_small. exact X.
      * apply IH in H as (ms2 & A2 & B2 & C2); [|congruence].
        exists (ms ++ ms2). rewrite app_length. split; [apply Forall_app; auto|]. split; [intro Hi; specialize (R4 Hi); specialize (B2 R4); lia|].
        assert (NS : ~ small c (reduced c n k)) by (rewrite <- exit_small; congruence).
        destruct C2 as [C2|[C2|(C2 & m0 & m & C3 & C4)]]; [left; exact C2|contradiction|right; right].
        split; [rewrite app_length; lia|]. exists (ms ++ m0), m. rewrite <- app_assoc. subst. auto.
    + cbn in H. injection H as <-. destruct R as (R1 & R2). exists ms. split; [exact A|]. split; [exact C|].
      right. right. split; [exact R1|exact R2].
Qed.
End HJ.

(** ** C45 The exploratory search is exactly the one of the specification. *)
Theorem C45_explore : forall f steps a, length steps = length a ->
  pure FNum (fun v => Ok (f v)) (coordinatewise steps a) = Ok (explore f steps a).
Proof. intros f steps a H. apply (coordinatewise_explore f (length a)); auto. Qed.

(** ** C45 Minimising a function free of NaN: there is a list of successful pattern moves, never more than the
    configured maximum (when that is positive), and the vector [q] returned is
    - the result of an exploratory search that found nothing better (up to the tolerance of Equal), made when the steps,
      reduced once more, become small for the first time; or
    - anything, if the initial steps were small already; or
    - the end of the last of exactly max_iterations successful pattern moves. *)
Theorem C45_result : forall fuel c f p q, nan_free (length p) f ->
  pure FNum (fun v => Ok (f v)) (hj_find fuel c p) = Ok q ->
  let n := length p in
  exists moves, Forall (successful f c n) moves /\
    (0 < hj_max_iterations c -> Z.of_nat (length moves) <= hj_max_iterations c) /\
    ((exists k a, q = explore f (reduced c n k) a /\ vectors_equal a q = true /\ small c (reduced c n (S k)) /\
        forall j, (1 <= j <= k)%nat -> ~ small c (reduced c n j)) \/
     small c (repeat (hj_init_step c) n) \/
     (Z.of_nat (length moves) = hj_max_iterations c /\ exists before m, moves = before ++ [m] /\ mv_to m = q)).
Proof.
  intros fuel c f p q NF H n. unfold hj_find in H. change (repeat (hj_init_step c) (length p)) with (reduced c n 0) in H.
  destruct (outer_moves f n NF c fuel 0 p 0 q eq_refl H) as (ms & A & B & C). exists ms. split; [exact A|]. split; [exact B|].
  destruct C as [(k & a & C1 & C2 & C3 & C4 & C5)|[C|C]]; [left|right; left; exact C|right; right; exact C].
  exists k, a. split; [exact C2|]. split; [exact C3|]. split; [exact C4|]. intros j Hj. apply C5. lia.
Qed.
Print Assumptions C45_result.

(** met: C45's example ends in the first way (k = 0) or by its iteration limit *)
Example C45_result_witness : nan_free 1 C45_f /\
  exists q, pure FNum (fun v => Ok (C45_f v)) (hj_find 10 C45_cfg [d_ofZ 1]) = Ok q.
Proof.
  split; [apply C45_example_nan_free|].
  assert (H : match pure FNum (fun v => Ok (C45_f v)) (hj_find 10 C45_cfg [d_ofZ 1]) with Ok _ => true | _ => false end = true)
    by (vm_compute; reflexivity).
  destruct (pure FNum _ _) as [q|e|u]; try discriminate. exists q. reflexivity.
Qed.

(** ** The whole run as a process *)
(** Pattern moves with the [k] times reduced steps, from [a] through [b], [it] pattern moves having been made before: where they end, with the number made,
    or [None] for the number when the configured number was reached. *)
Inductive chase (f : list dbl -> dbl) (c : hooke) (k : nat) : list dbl -> list dbl -> Z -> list dbl -> option Z -> Prop :=
| chase_stop : forall a b it p, beyond (hj_acceleration c) a b p ->
    d_leb (f b) (f (explore f (reduced c (length b) k) p)) = true -> chase f c k a b it b (Some it)
| chase_limit : forall a b it p, beyond (hj_acceleration c) a b p ->
    d_leb (f b) (f (explore f (reduced c (length b) k) p)) = false -> it + 1 = hj_max_iterations c ->
    chase f c k a b it (explore f (reduced c (length b) k) p) None
| chase_on : forall a b it p q r, beyond (hj_acceleration c) a b p ->
    d_leb (f b) (f (explore f (reduced c (length b) k) p)) = false -> it + 1 <> hj_max_iterations c ->
    chase f c k b (explore f (reduced c (length b) k) p) (it + 1) q r -> chase f c k a b it q r.
(** The run from the base point [a] with the [k] times reduced steps: an exploratory search that leaves the base point where it is reduces the steps; any other
    is followed by pattern moves, which leave a new base point; it ends when the steps in use have become small, or when the pattern moves are used up. *)
Inductive hj_run (f : list dbl -> dbl) (c : hooke) : nat -> list dbl -> Z -> list dbl -> Prop :=
| hj_reduce : forall k a it q, vectors_equal a (explore f (reduced c (length a) k) a) = true -> ~ small c (reduced c (length a) (S k)) ->
    hj_run f c (S k) a it q -> hj_run f c k a it q
| hj_reduced : forall k a it, vectors_equal a (explore f (reduced c (length a) k) a) = true -> small c (reduced c (length a) (S k)) ->
    hj_run f c k a it (explore f (reduced c (length a) k) a)
| hj_move : forall k a it b it' q, vectors_equal a (explore f (reduced c (length a) k) a) = false ->
    chase f c k a (explore f (reduced c (length a) k) a) it b (Some it') -> ~ small c (reduced c (length a) k) ->
    hj_run f c k b it' q -> hj_run f c k a it q
| hj_moved : forall k a it b it', vectors_equal a (explore f (reduced c (length a) k) a) = false ->
    chase f c k a (explore f (reduced c (length a) k) a) it b (Some it') -> small c (reduced c (length a) k) ->
    hj_run f c k a it b
| hj_used_up : forall k a it b, vectors_equal a (explore f (reduced c (length a) k) a) = false ->
    chase f c k a (explore f (reduced c (length a) k) a) it b None -> hj_run f c k a it b.

Section Process.
Variable f : list dbl -> dbl.
Variable c : hooke.
Notation go := (fun v => Ok (f v)).
Notation run := (pure FNum go).
Lemma beyond_unique a b p : length a = length b -> beyond (hj_acceleration c) a b p -> p = pattern c a b.
Proof.
  intros L [Lp H]. destruct (pattern_beyond c a b L) as [Lq Q]. apply nth_ext_eq. intro i.
  destruct (nth_error a i) as [x|] eqn:Ea.
  - assert (i < length b)%nat by (rewrite <- L; apply nth_error_Some; congruence). destruct (nth_error b i) as [y|] eqn:Eb; [|apply nth_error_None in Eb; lia].
    rewrite (H _ _ _ Ea Eb), (Q _ _ _ Ea Eb). reflexivity.
  - apply nth_error_None in Ea. rewrite (proj2 (nth_error_None p i)) by lia. symmetry. apply nth_error_None. lia.
Qed.
Definition end_of (r : option Z) (q : list dbl) : inner_end := match r with Some it => Broke q q it | None => Returned q end.
Lemma chase_length k a b it q r : chase f c k a b it q r -> length a = length b -> length q = length b.
Proof.
  intros H. induction H as [a b it p B D|a b it p B D E|a b it p q r B D E H IH]; intro L; [reflexivity|..]; rewrite ?explore_length; destruct B as [B _].
  - exact B.
  - rewrite IH; rewrite ?explore_length; auto.
Qed.
Lemma inner_chase k : forall fuel a b it e, length a = length b -> run (hj_inner fuel c (reduced c (length b) k) a b it) = Ok e ->
  exists q r, e = end_of r q /\ chase f c k a b it q r.
Proof.
  induction fuel as [|fu IH]; intros a b it e L H; [discriminate|]. cbn [hj_inner] in H. rewrite pure_bind in H.
  assert (Lp : length (pattern c a b) = length b) by (rewrite pattern_length; congruence).
  rewrite (coordinatewise_explore f (length b)) in H; [|apply reduced_length|exact Lp]. cbn [bind] in H. rewrite pure_bind, pure_ask in H. cbn [bind] in H. rewrite pure_bind, pure_ask in H. cbn [bind] in H.
  assert (B := pattern_beyond c a b L). destruct (d_leb (f b) _) eqn:D.
  - cbn in H. injection H as <-. exists b, (Some it). split; [reflexivity|eapply chase_stop; eassumption].
  - destruct (Z.eqb_spec (it + 1) (hj_max_iterations c)) as [E|E].
    + cbn in H. injection H as <-. eexists. exists None. split; [reflexivity|eapply chase_limit; eassumption].
    + assert (Ln : length b = length (explore f (reduced c (length b) k) (pattern c a b))) by (rewrite explore_length; congruence).
      rewrite Ln in H at 1. apply IH in H; [|exact Ln]. destruct H as (q & r & -> & H). exists q, r. split; [reflexivity|eapply chase_on; eassumption].
Qed.
Lemma chase_inner k a b it q r : chase f c k a b it q r -> length a = length b ->
  exists fuel, forall more, run (hj_inner (fuel + more) c (reduced c (length b) k) a b it) = Ok (end_of r q).
Proof.
  intros H. induction H as [a b it p B D|a b it p B D E|a b it p q r B D E H IH]; intro L;
    pose proof (beyond_unique _ _ _ L B) as ->; assert (Lp : length (pattern c a b) = length b) by (rewrite pattern_length; congruence).
  3: destruct IH as [fu IH]; [rewrite explore_length; congruence|]; exists (S fu).
  1,2: exists 1%nat.
  all: intro more; cbn [Nat.add hj_inner]; rewrite pure_bind, (coordinatewise_explore f (length b)) by (exact Lp || apply reduced_length); cbn [bind]; rewrite pure_bind, pure_ask; cbn [bind]; rewrite pure_bind, pure_ask; cbn [bind]; rewrite D.
  - reflexivity.
  - rewrite (proj2 (Z.eqb_eq _ _) E). reflexivity.
  - rewrite (proj2 (Z.eqb_neq _ _) E). rewrite explore_length in IH. rewrite Lp in IH. apply IH.
Qed.
Lemma outer_run : forall fuel k a it q, run (hj_outer fuel c (reduced c (length a) k) a it) = Ok q -> hj_run f c k a it q.
Proof.
  induction fuel as [|fu IH]; intros k a it q H; [discriminate|]. cbn [hj_outer] in H.
  rewrite pure_bind, (coordinatewise_explore f (length a)) in H by (reflexivity || apply reduced_length). cbn [bind] in H.
  destruct (vectors_equal a _) eqn:V.
  - change (map (fun s : dbl => d_div s (hj_divider c)) (reduced c (length a) k)) with (reduced c (length a) (S k)) in H. cbv zeta in H.
    destruct (hj_exit c _) eqn:X.
    + cbn in H. injection H as <-. apply hj_reduced; [exact V|apply exit_small; exact X].
    + apply hj_reduce; [exact V|rewrite <- exit_small; congruence|apply IH; exact H].
  - rewrite pure_bind in H. assert (Lx : length a = length (explore f (reduced c (length a) k) a)) by (rewrite explore_length; reflexivity).
    destruct (run (hj_inner (S fu) c _ _ _ _)) as [e|e|u] eqn:R; try discriminate. cbn [bind] in H.
    rewrite Lx in R at 1. apply inner_chase in R; [|exact Lx]. destruct R as (b & r & -> & R). destruct r as [it'|]; cbn [end_of] in H.
    + destruct (hj_exit c _) eqn:X.
      * cbn in H. injection H as <-. eapply hj_moved; [exact V|exact R|apply exit_small; exact X].
      * eapply hj_move; [exact V|exact R|rewrite <- exit_small; congruence|]. apply IH. rewrite (chase_length _ _ _ _ _ _ R Lx), <- Lx. exact H.
    + cbn in H. injection H as <-. eapply hj_used_up; eassumption.
Qed.
Lemma run_outer k a it q : hj_run f c k a it q -> exists fuel, forall more, run (hj_outer (fuel + more) c (reduced c (length a) k) a it) = Ok q.
Proof.
  intro H. induction H as [k a it q V S H IH|k a it V S|k a it b it' q V C S H IH|k a it b it' V C S|k a it b V C].
  - destruct IH as [fu IH]. exists (Datatypes.S fu). intro more. cbn [Nat.add hj_outer].
    rewrite pure_bind, (coordinatewise_explore f (length a)) by (reflexivity || apply reduced_length). cbn [bind]. rewrite V. cbv zeta.
    change (map (fun s : dbl => d_div s (hj_divider c)) (reduced c (length a) k)) with (reduced c (length a) (Datatypes.S k)).
    destruct (hj_exit c _) eqn:X; [apply exit_small in X; contradiction|apply IH].
  - exists 1%nat. intro more. cbn [Nat.add hj_outer]. rewrite pure_bind, (coordinatewise_explore f (length a)) by (reflexivity || apply reduced_length). cbn [bind]. rewrite V. cbv zeta.
    change (map (fun s : dbl => d_div s (hj_divider c)) (reduced c (length a) k)) with (reduced c (length a) (Datatypes.S k)). apply exit_small in S. rewrite S. reflexivity.
  - assert (Lx : length a = length (explore f (reduced c (length a) k) a)) by (rewrite explore_length; reflexivity).
    destruct IH as [f1 IH]. destruct (chase_inner _ _ _ _ _ _ C Lx) as [f2 I]. exists (Datatypes.S (f1 + f2)). intro more. cbn [Nat.add hj_outer].
    rewrite pure_bind, (coordinatewise_explore f (length a)) by (reflexivity || apply reduced_length). cbn [bind]. rewrite V, pure_bind.
    replace (Datatypes.S (f1 + f2 + more)) with (f2 + Datatypes.S (f1 + more))%nat by lia. rewrite Lx at 1. rewrite I. cbn [bind end_of].
    destruct (hj_exit c _) eqn:X; [apply exit_small in X; contradiction|]. replace (f1 + f2 + more)%nat with (f1 + (f2 + more))%nat by lia.
    rewrite (chase_length _ _ _ _ _ _ C Lx), <- Lx in IH. apply IH.
  - assert (Lx : length a = length (explore f (reduced c (length a) k) a)) by (rewrite explore_length; reflexivity).
    destruct (chase_inner _ _ _ _ _ _ C Lx) as [f2 I]. exists (Datatypes.S f2). intro more. cbn [Nat.add hj_outer].
    rewrite pure_bind, (coordinatewise_explore f (length a)) by (reflexivity || apply reduced_length). cbn [bind]. rewrite V, pure_bind.
    replace (Datatypes.S (f2 + more)) with (f2 + Datatypes.S more)%nat by lia. rewrite Lx at 1. rewrite I. cbn [bind end_of]. apply exit_small in S. rewrite S. reflexivity.
  - assert (Lx : length a = length (explore f (reduced c (length a) k) a)) by (rewrite explore_length; reflexivity).
    destruct (chase_inner _ _ _ _ _ _ C Lx) as [f2 I]. exists (Datatypes.S f2). intro more. cbn [Nat.add hj_outer].
    rewrite pure_bind, (coordinatewise_explore f (length a)) by (reflexivity || apply reduced_length). cbn [bind]. rewrite V, pure_bind.
    replace (Datatypes.S (f2 + more)) with (f2 + Datatypes.S more)%nat by lia. rewrite Lx at 1. rewrite I. reflexivity.
Qed.
End Process.

(** ** C45 For every objective function, NaN included: FindOptimalParameters returns [q] exactly when the process started in the initial point ends in [q]
    (from some number of loop turns on, whatever the bound on them); so it runs for ever exactly when the process does. *)
Theorem C45_process : forall f c p q,
  (exists fuel, pure FNum (fun v => Ok (f v)) (hj_find fuel c p) = Ok q) <-> hj_run f c 0 p 0 q.
Proof.
  intros f c p q. split.
  - intros [fuel H]. apply (outer_run f c fuel). exact H.
  - intro H. destruct (run_outer f c _ _ _ _ H) as [fuel F]. exists (fuel + 0)%nat. exact (F 0%nat).
Qed.
(** The process has one end at most. *)
Theorem C45_process_unique : forall f c p q q', hj_run f c 0 p 0 q -> hj_run f c 0 p 0 q' -> q = q'.
Proof.
  intros f c p q q' H H'. destruct (run_outer f c _ _ _ _ H) as [n F]. destruct (run_outer f c _ _ _ _ H') as [n' F'].
  specialize (F n'). specialize (F' n). rewrite Nat.add_comm in F'. congruence.
Qed.
Print Assumptions C45_process.
Example C45_process_witness : exists q, hj_run C45_f C45_cfg 0 [d_ofZ 1] 0 q.
Proof. destruct C45_result_witness as [_ [q H]]. exists q. apply C45_process. exists 10%nat. exact H. Qed.
