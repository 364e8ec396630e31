(** C59: the sign convention, constraint check and result of a continuous optimiser. *)
From Coq Require Import Reals Psatz.
From Flocq Require Import Core.Zaux Core.Raux Core.Defs Core.Generic_fmt IEEE754.BinarySingleNaN.
From Verif Require Import Base Num DblOrder FloatLemmas Optim.
Local Open Scope Z_scope.
Local Open Scope list_scope.

(** (-1)*x is exactly the opposite of x, for every double *)
Lemma negate_opp (x : dbl) : negate FNum x = Bopp x.
Proof.
  change (d_mul (d_ofZ (-1)) x = Bopp x).
  destruct (d_ofZ_exact (-1) ltac:(lia)) as [F1 R1].
  destruct (is_finite x) eqn:Fx.
  - pose proof (d_mul_finite (d_ofZ (-1)) x F1 Fx) as H. rewrite R1 in H.
    assert (E : (IZR (-1) * B2R x = B2R (Bopp x))%R) by (rewrite B2R_Bopp; lra).
    rewrite E, rnd_id in H by apply fmt_dbl. destruct H as [Fm B]; [apply dbl_lt_max|].
    apply B2R_Bsign_inj.
    + exact Fm.
    + rewrite is_finite_Bopp. exact Fx.
    + exact B.
    + unfold d_mul. pose proof (Bmult_correct dprec demax _ _ mode_NE (d_ofZ (-1)) x) as C.
      rewrite Rlt_bool_true in C.
      2:{ rewrite R1. rewrite E. change (Rabs (rnd64 (B2R (Bopp x))) < bpow radix2 1024)%R. rewrite rnd_id by apply fmt_dbl. apply dbl_lt_max. }
      destruct C as (_ & _ & C). rewrite C.
      2:{ unfold d_mul in Fm. destruct (Bmult mode_NE (d_ofZ (-1)) x); cbn in Fm |- *; auto; discriminate. }
      assert (S1 : Bsign (d_ofZ (-1)) = true) by (vm_compute; reflexivity). rewrite S1.
      destruct x; cbn; try reflexivity; discriminate.
  - assert (S1 : exists m e H, d_ofZ (-1) = B754_finite true m e H).
    { destruct (d_ofZ (-1)) as [s|s| |s m e H] eqn:E; cbn in F1; try discriminate.
      assert (S : Bsign (d_ofZ (-1)) = true) by (vm_compute; reflexivity). rewrite E in S. cbn in S. subst s. eauto. }
    destruct S1 as (m & e & H & ->). destruct x as [s|s| |s mx ex Hx]; cbn in Fx; try discriminate; destruct s || idtac; reflexivity.
Qed.
Lemma negate_negate (x : dbl) : negate FNum (negate FNum x) = x.
Proof. rewrite !negate_opp. destruct x as [s|s| |s m e H]; cbn; rewrite ?Bool.negb_involutive; reflexivity. Qed.

Section Facts.
Variable N : Num.
Variable P : Type.
Variable p_set : list (num N) -> P -> outcome unit * P.
Variable p_get : P -> list (num N).
Variable p_check : P -> bool.

Lemma run_opposite f : (forall x, negate N (negate N x) = x) -> forall A (s : search N A) p l,
  run N P p_set p_get p_check f true s p l =
  run N P p_set p_get p_check (fun v => omap (negate N) (f v)) false s p l.
Proof.
  intros NN A s. induction s as [a|m v k IH|e|u]; intros p l; cbn [run]; try reflexivity.
  unfold count_value. destruct (p_set v p) as [[[]|e|u] q]; try reflexivity.
  destruct (p_check q); [|reflexivity]. destruct (f (p_get q)) as [y|e|u]; cbn [omap]; try reflexivity.
  rewrite IH. unfold signed. destruct m; [rewrite NN|]; reflexivity.
Qed.

(** every vector the objective function is applied to is the content of an object that satisfies its constraints *)
Lemma run_log f mx : forall A (s : search N A) p l o q l', run N P p_set p_get p_check f mx s p l = (o, q, l') ->
  exists new, l' = l ++ new /\ Forall (fun v => exists p0, p_check p0 = true /\ v = p_get p0) new.
Proof.
  intros A s. induction s as [a|m v k IH|e|u]; intros p l o q l' H; cbn [run] in H;
    try (injection H as _ _ <-; exists []; rewrite app_nil_r; auto; fail).
  unfold count_value in H. destruct (p_set v p) as [[[]|e|u] q1];
    try (injection H as _ _ <-; exists []; rewrite app_nil_r; auto; fail).
  destruct (p_check q1) eqn:C; [|injection H as _ _ <-; exists []; rewrite app_nil_r; auto].
  destruct (f (p_get q1)) as [y|e|u].
  - apply IH in H as (new & -> & F). exists (p_get q1 :: new). rewrite <- app_assoc. split; [reflexivity|]. constructor; [eauto|exact F].
  - injection H as _ _ <-. exists [p_get q1]. split; [reflexivity|]. repeat constructor. eauto.
  - injection H as _ _ <-. exists [p_get q1]. split; [reflexivity|]. repeat constructor. eauto.
Qed.
End Facts.

(** ** C59 Maximising f is minimising -f: same outcome, same final parameters, same evaluated points; for every search
    program, whatever object and objective function (binary64, -f being the exact opposite). *)
Theorem C59_maximise_is_minimise_opposite : forall P p_set p_get p_check f find p,
  optimize FNum P p_set p_get p_check f true find p =
  optimize FNum P p_set p_get p_check (fun v => omap (fun y : dbl => Bopp y) (f v)) false find p.
Proof.
  intros. unfold optimize. rewrite (run_opposite FNum P p_set p_get p_check f negate_negate).
  assert (E : forall A (s : search FNum A) q l,
    run FNum P p_set p_get p_check (fun v => omap (negate FNum) (f v)) false s q l =
    run FNum P p_set p_get p_check (fun v => omap (fun y : dbl => Bopp y) (f v)) false s q l).
  { intros A s. induction s as [a|m v k IH|e|u]; intros q l; cbn [run]; try reflexivity.
    unfold count_value. destruct (p_set v q) as [[[]|e|u] q1]; try reflexivity. destruct (p_check q1); [|reflexivity].
    destruct (f (p_get q1)) as [y|e|u]; cbn [omap]; try reflexivity. change (n_mul FNum) with d_mul. rewrite negate_opp. apply IH. }
  rewrite E. reflexivity.
Qed.

(** ** C59 The first query at a point whose constraints do not hold throws std::logic_error and the function is not
    applied there; no vector is ever passed to the function whose object violates its constraints. *)
Theorem C59_constraints_guard : forall N P p_set p_get p_check f maximize m v k p log q,
  p_set v p = (Ok tt, q) -> p_check q = false ->
  run N P p_set p_get p_check f maximize (Ask m v k : search N (list (num N))) p log = (Throw LogicError, q, log).
Proof. intros * S C. cbn [run]. unfold count_value. rewrite S, C. reflexivity. Qed.
Theorem C59_only_admissible_points : forall N P p_set p_get p_check f maximize find p o q log,
  optimize N P p_set p_get p_check f maximize find p = (o, q, log) ->
  Forall (fun v => exists p0, p_check p0 = true /\ v = p_get p0) log.
Proof.
  intros * H. unfold optimize in H. destruct (run N P p_set p_get p_check f maximize (find (p_get p)) p []) as [[[v|e|u] q1] l] eqn:R.
  - destruct (p_set v q1) as [o1 q2]. injection H as _ _ <-. apply run_log in R as (new & -> & F). exact F.
  - injection H as _ _ <-. apply run_log in R as (new & -> & F). exact F.
  - injection H as _ _ <-. apply run_log in R as (new & -> & F). exact F.
Qed.

(** ** C59 On normal return the object is what SetValues of the vector returned by the search leaves. *)
Theorem C59_result_stored : forall N P p_set p_get p_check f maximize find p q log,
  optimize N P p_set p_get p_check f maximize find p = (Ok tt, q, log) ->
  exists v q0, run N P p_set p_get p_check f maximize (find (p_get p)) p [] = (Ok v, q0, log) /\ p_set v q0 = (Ok tt, q).
Proof.
  intros * H. unfold optimize in H. destruct (run N P p_set p_get p_check f maximize (find (p_get p)) p []) as [[[v|e|u] q1] l] eqn:R; try discriminate.
  destruct (p_set v q1) as [o1 q2] eqn:S. injection H as -> -> ->. eauto.
Qed.

(** the value to minimise, as a function of the vector asked for *)
Definition value_of (N : Num) (f : list (num N) -> outcome (num N)) (maximize : bool) (n : nat) (v : list (num N)) : outcome (num N) :=
  if Nat.eqb (length v) n then omap (fun y => if maximize then negate N y else y) (f v) else Throw InvalidArgument.

Lemma run_array N f maximize n : (forall x, negate N (negate N x) = x) -> forall A (s : search N A) p l, length p = n ->
  exists q l', run N (list (num N)) (arr_set N) (arr_get N) (arr_check N) f maximize s p l =
               (pure N (value_of N f maximize n) s, q, l') /\ length q = n.
Proof.
  intros NN A s. induction s as [a|m v k IH|e|u]; intros p l Hp; cbn [run pure]; eauto.
  unfold count_value, arr_set, arr_get, arr_check. rewrite Hp.
  destruct (Nat.eqb_spec (length v) n) as [E|E].
  - assert (G : value_of N f maximize n v = omap (fun y => if maximize then negate N y else y) (f v)) by (unfold value_of; rewrite E, Nat.eqb_refl; reflexivity).
    rewrite G. destruct (f v) as [y|e|u]; cbn [omap bind].
    + destruct (IH (signed N maximize m y) v (l ++ [v]) E) as (q & l' & R & Lq).
      exists q, l'. split; [|exact Lq]. etransitivity; [exact R|].
      destruct m, maximize; cbn [signed]; rewrite ?NN; reflexivity.
    + destruct m; eauto.
    + destruct m; eauto.
  - assert (G : value_of N f maximize n v = Throw InvalidArgument) by (unfold value_of; destruct (Nat.eqb_spec (length v) n); [contradiction|reflexivity]).
    rewrite G. destruct m; cbn [bind]; eauto.
Qed.

Lemma pure_ext N g1 g2 : (forall v, g1 v = g2 v) -> forall A (s : search N A), pure N g1 s = pure N g2 s.
Proof.
  intros E A s. induction s as [a|m v k IH|e|u]; cbn [pure]; try reflexivity.
  rewrite E. destruct m, (g2 v); cbn [bind]; auto.
Qed.

(** ** C59 On a ContinuousParametersArray the optimiser is its search applied to f (to -f when maximising): it ends
    normally exactly when the search returns a vector of the right length, which the array then holds. *)
Theorem C59_array : forall f maximize (find : list dbl -> search FNum (list dbl)) (p q : list dbl),
  (exists log, optimize FNum (list dbl) (arr_set FNum) (arr_get FNum) (arr_check FNum) f maximize find p = (Ok tt, q, log)) <->
  (pure FNum (fun v => if Nat.eqb (length v) (length p) then omap (fun y : dbl => if maximize then Bopp y else y) (f v) else Throw InvalidArgument) (find p) = Ok q
   /\ length q = length p).
Proof.
  intros f mx find p q. unfold optimize.
  destruct (run_array FNum f mx (length p) negate_negate _ (find (arr_get FNum p)) p [] eq_refl) as (q0 & l' & R & L0).
  change (num FNum) with dbl in *. rewrite R.
  assert (EV : forall A (s : search FNum A), pure FNum (value_of FNum f mx (length p)) s =
     pure FNum (fun v => if Nat.eqb (length v) (length p) then omap (fun y : dbl => if mx then Bopp y else y) (f v) else Throw InvalidArgument) s).
  { intros A s. apply pure_ext. intro v.
    unfold value_of. change (num FNum) with dbl in *. destruct (Nat.eqb (length v) (length p)); [|reflexivity].
    destruct (f v); cbn [omap]; try reflexivity. destruct mx; [|reflexivity]. change (n_mul FNum) with d_mul. f_equal. apply negate_opp. }
  rewrite EV. change (arr_get FNum p) with p.
  destruct (pure FNum _ (find p)) as [v|e|u] eqn:E.
  - unfold arr_set. change (num FNum) with dbl. rewrite L0. destruct (Nat.eqb_spec (length v) (length p)) as [L|L].
    + split; [intros (log & H); injection H as <- _; auto|intros [H _]; injection H as <-; eauto].
    + split; [intros (log & H); discriminate|intros [H Lq]; injection H as <-; contradiction].
  - split; [intros (log & H); discriminate|intros [H _]; discriminate].
  - split; [intros (log & H); discriminate|intros [H _]; discriminate].
Qed.

(** concrete instances: a search that asks at one point and returns it; the object rejects points above 1 *)
Definition C59_find (v : list dbl) : search FNum (list dbl) := @Ask FNum (list dbl) false (map (d_add (d_ofZ 1)) v) (fun y => Ret [y]).
Example C59_example_run : exists log, optimize FNum (list dbl) (arr_set FNum) (arr_get FNum) (arr_check FNum) (fun v => Ok (hd (d_ofZ 7) v)) true C59_find [d_ofZ 2] =
   (Ok tt, [Bopp (d_add (d_ofZ 1) (d_ofZ 2))], log) /\ log <> [].
Proof. eexists. split; [unfold optimize, C59_find, run, count_value, arr_set, arr_get, arr_check, signed; cbn [map length Nat.eqb hd]; rewrite negate_opp; reflexivity|discriminate]. Qed.
Example C59_example_guard : optimize FNum (list dbl) (arr_set FNum) (arr_get FNum) (fun p => d_leb (hd d_nan p) (d_ofZ 1)) (fun v => Ok (hd (d_ofZ 7) v)) false
   C59_find [d_ofZ 2] = (Throw LogicError, [d_add (d_ofZ 1) (d_ofZ 2)], []).
Proof.
  unfold optimize, C59_find, run, count_value, arr_set, arr_get. cbn [map length Nat.eqb hd].
  assert (E : d_leb (d_add (d_ofZ 1) (d_ofZ 2)) (d_ofZ 1) = false) by (vm_compute; reflexivity). rewrite E. reflexivity.
Qed.
Print Assumptions C59_maximise_is_minimise_opposite. Print Assumptions C59_constraints_guard. Print Assumptions C59_only_admissible_points.
Print Assumptions C59_result_stored. Print Assumptions C59_array.
