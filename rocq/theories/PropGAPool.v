(** C67: what an optimiser computes does not depend on the worker pool, the number of workers or the schedule. *)
From Coq Require Import Permutation Classical_Prop.
From Verif Require Import Base Num Random Params Cache Individual LibEnv GA PropGA Misc Queue PropQueue Pool PropPool LockPool PropLockPool Parallel Mpi PropMpi PropIndividual GAPool.
Local Open Scope list_scope.

Lemma nth_error_ext_eq {A} : forall l m : list A, (forall n, nth_error l n = nth_error m n) -> l = m.
Proof. induction l as [|x l IH]; intros [|y m] H; [reflexivity|discriminate (H 0)|discriminate (H 0)|]. f_equal; [injection (H 0); auto|apply IH; intro n; exact (H (S n))]. Qed.

Section Client.
Variables X R : Type.
Variable f : X -> outcome R.
Notation performs := (performs X R f).
Notation thread_session := (thread_session X R f).

Lemma frun_trans perform n m n' m' (s1 s2 s3 : fstate R) : frun R perform n m s1 s2 -> frun R perform n' m' s2 s3 -> frun R perform (n' + n) (m' + m) s1 s3.
Proof. intros H1 H2. induction H2 as [|n' m' s2 s3 s4 H2 IH Hs|n' m' s2 s3 s4 H2 IH Hs]; cbn; [exact H1|eapply frun_step; eauto|eapply frun_spurious; eauto]. Qed.

(** All calls but those of [held], which have not begun, have returned: their results are in place. *)
Lemma results_held perform (held : nat -> bool) w ns n m s : frun R perform n m (finit R w ns) s ->
  (forall c x, nth_error (f_calls R s) c = Some x -> if held c then funtouched x else freturned x) ->
  forall t, is_task ns t -> held (fst t) = false -> exists v, perform t = Some v /\ last_write R t (f_writes R s) = Some v.
Proof.
  intros H Ret. destruct (PropLockPool.reach R perform _ _ _ _ _ H) as (k & p & Hr & F & _).
  assert (PI := pinv_run _ _ _ _ _ _ _ (pinv_init _ _ (fun t => perform t = None) w ns) Hr).
  destruct (returned_held_inv R perform _ held w ns p PI) as (_ & _ & C).
  { intros c y Hy. destruct (nth_some (f_calls R s) c) as [x Hx]; [rewrite <- (fr_lc _ _ _ F); eapply nth_lt; exact Hy|]. specialize (Ret _ _ Hx). destruct (held c).
    - eapply untouched_rel; eassumption.
    - destruct (returned_rel R perform _ _ _ _ PI F _ _ Hx Ret) as (y' & Hy' & Ry). congruence. }
  intros t Ht Hh. destruct (C t Ht Hh) as (_ & v & A & B). exists v. split; [exact A|]. rewrite (fr_writes _ _ _ F). exact B.
Qed.

Lemma session_reach w bs c rs s : thread_session w bs c rs s ->
  (exists n m, frun R (performs bs) n m (finit R w (map (@length X) bs)) s) /\
  (forall d x, nth_error (f_calls R s) d = Some x -> if d <? c then freturned x else funtouched x).
Proof.
  induction 1 as [|c rs s b n m s' x H IH Hb Hr Ho Hx Rx].
  - split; [exists 0, 0; constructor|]. intros d x Hx. destruct (Nat.ltb_spec d 0); [lia|]. unfold finit in Hx. cbn [f_calls] in Hx. apply nth_error_In in Hx. apply in_map_iff in Hx. destruct Hx as (k & <- & _). repeat split.
  - destruct IH as [(n0 & m0 & H0) IH]. split; [eexists; eexists; eapply frun_trans; eassumption|].
    intros d y Hy. destruct (Nat.eq_dec d c) as [->|Nd].
    + destruct (Nat.ltb_spec c (S c)); [|lia]. congruence.
    + rewrite (Ho d Nd) in Hy. specialize (IH _ _ Hy). destruct (Nat.ltb_spec d c); destruct (Nat.ltb_spec d (S c)); try lia; exact IH.
Qed.

(** The vector a call returns has the value of every task in its place, and no task threw. *)
Theorem C67_thread_answers : forall w bs c rs s, thread_session w bs c rs s ->
  Forall2 (fun b r => exists vs, mapM f b = Ok vs /\ r = map Some vs) (firstn c bs) rs.
Proof.
  assert (MP : forall (b : list X) (g : nat -> option R), (forall i x, nth_error b i = Some x -> exists v, f x = Ok v /\ g i = Some v) -> exists vs, mapM f b = Ok vs /\ map g (seq 0 (length b)) = map Some vs).
  { induction b as [|x b IH]; intros g H; [exists []; split; reflexivity|]. destruct (H 0 x eq_refl) as (v & Hv & Hg). destruct (IH (fun i => g (S i))) as (vs & A & B); [intros i y Hy; exact (H (S i) y Hy)|].
    exists (v :: vs). cbn [mapM length seq map]. rewrite Hv. cbn [bind]. rewrite A. split; [reflexivity|]. rewrite Hg, <- seq_shift, map_map, B. reflexivity. }
  intros w bs c rs s H. induction H as [|c rs s b n m s' x H IH Hb Hr Ho Hx Rx]; [constructor|].
  assert (H' := TS_call X R f w bs c rs s b n m s' x H Hb Hr Ho Hx Rx). destruct (session_reach _ _ _ _ _ H') as [(n1 & m1 & H1) C1].
  assert (Ef : firstn (S c) bs = firstn c bs ++ [b]).
  { clear -Hb. revert c Hb; induction bs as [|a bs IH]; intros [|c] Hb; cbn in *; try discriminate; [congruence|f_equal; auto]. }
  rewrite Ef. apply Forall2_app; [exact IH|]. constructor; [|constructor].
  destruct (MP b (fun i => last_write R (c, i) (f_writes R s'))) as (vs & A & B); [|exists vs; auto].
  intros i y Hy. destruct (results_held (performs bs) (fun d => negb (d <? S c)) w _ n1 m1 s' H1) with (t := (c, i)) as (v & A & B).
  - intros d z Hz. specialize (C1 _ _ Hz). destruct (d <? S c); exact C1.
  - exists (length b). cbn [fst snd]. rewrite nth_error_map, Hb. split; [reflexivity|]. apply nth_error_Some. congruence.
  - cbn [fst]. destruct (Nat.ltb_spec c (S c)); [reflexivity|lia].
  - unfold GAPool.performs in A. cbn [fst snd] in A. rewrite Hb, Hy in A. destruct (f y) as [v'| |] eqn:Ef'; try discriminate. exists v'. split; [reflexivity|]. congruence.
Qed.

(** Once call [c] has begun, with at least one worker and no task of it throwing: whenever nothing but a spurious wake-up can happen (the later
    calls apart), it has returned; and it takes finitely many steps (C66_runs_finite). *)
Lemma session_stuck w bs c rs s b n m s1 : thread_session w bs c rs s -> nth_error bs c = Some b -> 1 <= w -> (forall x, In x b -> exists v, f x = Ok v) ->
  frun R (performs bs) n m s s1 -> (forall d, d <> c -> nth_error (f_calls R s1) d = nth_error (f_calls R s) d) ->
  (forall s2, fstep R (performs bs) false s1 s2 -> (forall d, d <> c -> nth_error (f_calls R s2) d = nth_error (f_calls R s1) d) -> False) ->
  exists x, nth_error (f_calls R s1) c = Some x /\ freturned x.
Proof.
  intros H Hb Hw Hf Hr Ho Stuck. destruct (session_reach _ _ _ _ _ H) as [(n0 & m0 & H0) C0]. assert (H1 := frun_trans _ _ _ _ _ _ _ _ H0 Hr).
  destruct (PropLockPool.reach R (performs bs) _ _ _ _ _ H1) as (k & p & Hp & F & _).
  assert (PI := pinv_run _ _ _ _ _ _ _ (pinv_init _ _ (fun t => performs bs t = None) w _) Hp).
  assert (Lc : length (f_calls R s1) = length bs). { rewrite <- (fr_lc _ _ _ F). rewrite <- (map_length k_n), (iv_ns _ _ _ _ _ _ PI). apply map_length. }
  destruct (nth_some (f_calls R s1) c) as [x Hx]; [rewrite Lc; apply nth_error_Some; congruence|]. exists x. split; [exact Hx|].
  assert (Top : forall d y, nth_error (f_calls R s1) d = Some y -> freturned y -> fc_at y = CTop).
  { intros d y Hy [R1 R2]. destruct (the_call _ _ _ _ _ _ _ _ PI F Hy) as (t1 & t2 & K & Q1 & Q2 & Hk & Xr & B1 & B2). revert Xr. generalize (view t1) (view t2). intros v1 v2 Xr. inversion Xr; subst; cbn in *; try reflexivity; lia. }
  apply (fstuck_held R (performs bs) (fun d => c <? d) w _ _ _ s1 H1 Hw) with (c := c); [| | |exact Hx|destruct (Nat.ltb_spec c c); [lia|reflexivity]].
  - intros [d i] (l & Hl & Li) Hd. cbn [fst snd] in *. rewrite nth_error_map in Hl. destruct (nth_error bs d) as [b'|] eqn:Eb; cbn in Hl; [|discriminate]. injection Hl as <-.
    destruct (Nat.ltb_spec c d) as [|Ld]; [discriminate|]. destruct (nth_some b' i Li) as [y Hy]. unfold GAPool.performs. cbn [fst snd]. rewrite Eb, Hy.
    destruct (Nat.eq_dec d c) as [->|Nd].
    + assert (b' = b) by congruence. subst b'. destruct (Hf y (nth_error_In _ _ Hy)) as [v ->]. discriminate.
    + assert (Rd : exists v, performs bs (d, i) = Some v /\ last_write R (d, i) (f_writes R s) = Some v).
      { apply (results_held (performs bs) (fun e => negb (e <? c)) w (map (@length X) bs) n0 m0 s H0).
        - intros e z Hz. specialize (C0 _ _ Hz). destruct (e <? c); exact C0.
        - exists (length b'). cbn [fst snd]. rewrite nth_error_map, Eb. auto.
        - cbn [fst]. destruct (Nat.ltb_spec d c); [reflexivity|lia]. }
      destruct Rd as (v & A & _). unfold GAPool.performs in A. cbn [fst snd] in A. rewrite Eb, Hy in A. rewrite A. discriminate.
  - intros d y Hy Hd. destruct (Nat.ltb_spec c d) as [Ld|]; [|discriminate]. rewrite Ho in Hy by lia. specialize (C0 _ _ Hy). destruct (Nat.ltb_spec d c); [lia|exact C0].
  - intros s2 Hs Hh. apply (Stuck s2 Hs). intros d Nd. destruct (Nat.ltb_spec c d) as [Ld|Ld]; [apply Hh; destruct (Nat.ltb_spec c d); [reflexivity|lia]|].
    (* a call that has returned takes no step *)
    assert (Ld' : d < c) by lia. clear Ld Hh. destruct (nth_error (f_calls R s1) d) as [y|] eqn:Hy.
    2:{ apply nth_error_None in Hy. rewrite Lc in Hy. assert (c < length bs) by (apply nth_error_Some; congruence). lia. }
    assert (Ry : freturned y). { rewrite Ho in Hy by lia. specialize (C0 _ _ Hy). destruct (Nat.ltb_spec d c); [exact C0|lia]. }
    assert (Ty := Top _ _ Hy Ry). destruct Ry as [R1 R2].
    assert (Up : forall e z, nth_error (f_calls R s1) e = Some z -> (fc_at z <> CTop \/ fc_sent z < fc_n z \/ fc_taken z < fc_n z) -> forall z', nth_error (upd (f_calls R s1) e z') d = Some y).
    { intros e z He Hz z'. destruct (Nat.eq_dec e d) as [->|Ne]; [|rewrite nth_upd_other by congruence; exact Hy]. assert (z = y) by congruence. subst z. destruct Hz as [Hz|[Hz|Hz]]; [contradiction|lia|lia]. }
    inversion Hs; subst; cbn [f_calls]; try exact Hy; (eapply Up; [eassumption|]; cbn [fc_at fc_sent fc_n fc_taken]; first [left; discriminate|right; left; lia|right; right; lia]).
Qed.

(** So the session goes on: with at least one worker, a batch whose tasks do not throw is answered. *)
Theorem C67_thread_goes_on : forall w bs c rs s b, thread_session w bs c rs s -> nth_error bs c = Some b -> 1 <= w -> (forall x, In x b -> exists v, f x = Ok v) ->
  exists r s', thread_session w bs (S c) (rs ++ [r]) s'.
Proof.
  intros w bs c rs s b H Hb Hw Hf. destruct (session_reach _ _ _ _ _ H) as [(n0 & m0 & H0) _].
  set (B := 155 * sumf (fun x => x) (map (@length X) bs) + 6 * w + 9 * length (map (@length X) bs) + 3 * m0).
  assert (G : forall fuel n s1, frun R (performs bs) n 0 s s1 -> (forall d, d <> c -> nth_error (f_calls R s1) d = nth_error (f_calls R s) d) -> B < fuel + n + n0 ->
    exists n' s', frun R (performs bs) n' 0 s s' /\ (forall d, d <> c -> nth_error (f_calls R s') d = nth_error (f_calls R s) d) /\ exists x, nth_error (f_calls R s') c = Some x /\ freturned x).
  { induction fuel as [|fuel IH]; intros n s1 Hr Ho L.
    - exfalso. assert (H1 := frun_trans _ _ _ _ _ _ _ _ H0 Hr). apply C66_runs_finite in H1. unfold B in L. lia.
    - destruct (classic (exists s2, fstep R (performs bs) false s1 s2 /\ forall d, d <> c -> nth_error (f_calls R s2) d = nth_error (f_calls R s1) d)) as [(s2 & Hs & Hd)|No].
      + apply (IH (S n) s2); [eapply frun_step; eassumption|intros d Nd; rewrite Hd, Ho by exact Nd; reflexivity|lia].
      + exists n, s1. split; [exact Hr|]. split; [exact Ho|]. eapply session_stuck; eauto. }
  destruct (G (S B) 0 s) as (n' & s' & A1 & A2 & x & A3 & A4); [constructor|reflexivity|lia|].
  eexists. exists s'. eapply TS_call; eassumption.
Qed.
Theorem C67_thread_completes : forall w bs, 1 <= w -> (forall b x, In b bs -> In x b -> exists v, f x = Ok v) ->
  exists rs s, thread_session w bs (length bs) rs s.
Proof.
  intros w bs Hw Hf. assert (G : forall c, c <= length bs -> exists rs s, thread_session w bs c rs s); [|apply G; lia].
  induction c as [|c IH]; intro L; [eexists; eexists; constructor|]. destruct IH as (rs & s & H); [lia|]. destruct (nth_some bs c) as [b Hb]; [lia|].
  destruct (C67_thread_goes_on _ _ _ _ _ _ H Hb Hw) as (r & s' & H'); [intros x Hx; eapply Hf; [eapply nth_error_In; exact Hb|exact Hx]|]. eexists. eexists. exact H'.
Qed.
(** A batch with a throwing task is never answered, nor any batch after it. *)
Theorem C67_thread_throw : forall w bs c rs s i b x e, thread_session w bs c rs s -> nth_error bs i = Some b -> In x b -> f x = Throw e -> c <= i.
Proof.
  intros w bs c rs s i b x e H Hb Hx He. destruct (Nat.le_gt_cases c i) as [L|L]; [exact L|exfalso].
  assert (A := C67_thread_answers _ _ _ _ _ H). assert (Hi : nth_error (firstn c bs) i = Some b). { rewrite <- Hb. clear -L. revert i bs L. induction c as [|c IH]; intros i bs L; [lia|]. destruct bs, i; cbn; try reflexivity. apply IH. lia. }
  clear -A Hi Hx He. revert i Hi. induction A as [|b' r l l' (vs & V & _) A IH]; intros [|i] Hi; cbn in Hi; try discriminate; [|eauto].
  injection Hi as ->. clear -Hx He V. revert vs V. induction b as [|y b IH]; intros vs V; [destruct Hx|]. cbn in V. apply bind_ok in V as (v & V1 & V2). apply bind_ok in V2 as (vs' & V3 & _). destruct Hx as [->|Hx]; [congruence|eauto].
Qed.

(** The other two pools give the same values. *)
Theorem C67_sequential_answers : forall bs rs, seq_session X R f bs rs <-> Forall2 (fun b r => mapM f b = Ok r) bs rs.
Proof.
  assert (S : forall b k, match mapM f b with Ok r => exists c, seq_do_tasks X R unit (fun x u => (f x, u)) b k tt = (Ok r, c, tt) | _ => forall r c, seq_do_tasks X R unit (fun x u => (f x, u)) b k tt <> (Ok r, c, tt) end).
  { induction b as [|x b IH]; intro k; cbn [mapM seq_do_tasks]; [eexists; reflexivity|]. destruct (f x) as [v|e|u]; cbn [bind]; [|discriminate..]. specialize (IH (k + 1)%Z).
    destruct (mapM f b) as [vs|e|u]; cbn [bind].
    - destruct IH as [c ->]. eexists. reflexivity.
    - intros r c. destruct (seq_do_tasks _ _ _ _ b (k + 1)%Z tt) as [[[?|?|?] ?] []] eqn:E; try discriminate. exfalso. eapply IH. reflexivity.
    - intros r c. destruct (seq_do_tasks _ _ _ _ b (k + 1)%Z tt) as [[[?|?|?] ?] []] eqn:E; try discriminate. exfalso. eapply IH. reflexivity. }
  intros bs rs. unfold seq_session. split; intro H; induction H as [|b r bs rs Hb H IH]; constructor; auto.
  - destruct Hb as [c Hb]. specialize (S b 0%Z). destruct (mapM f b) as [vs|e|u]; [|exfalso; eapply S; exact Hb..]. destruct S as [c' S]. congruence.
  - specialize (S b 0%Z). rewrite Hb in S. exact S.
Qed.
Theorem C67_mpi_answers : forall size g bs rs, 2 <= size -> mpi_session X R size g bs rs -> rs = map (map g) bs.
Proof.
  intros size g bs rs Hs H. induction H as [|b r bs rs (ms & k & s & Hn & Hm & Hr & Hret & Hl & Hv) H IH]; [reflexivity|]. cbn [map]. f_equal; [|exact IH].
  destruct (C37_results R ms (length b) size Hs Hn k s Hr Hret) as (_ & Once & _). apply nth_error_ext_eq.
  intro i. rewrite nth_error_map. destruct (nth_error b i) as [x|] eqn:Ex; cbn.
  - assert (L : i < length b) by (apply nth_error_Some; congruence). destruct (nth_some r i) as [v Ev]; [lia|]. rewrite Ev. f_equal.
    destruct (Once i L) as [O1 O2]. specialize (Hv _ _ Ev). rewrite (Hm _ _ Ex) in O2.
    destruct (C37_dispatch R ms (length b) size Hs Hn k s Hr) as (_ & _ & _ & _ & Vals). assert (Q := Vals _ _ Hv). rewrite (Hm _ _ Ex) in Q. congruence.
  - apply nth_error_None. apply nth_error_None in Ex. lia.
Qed.
(** And it does answer ([d]: there is some message). *)
Theorem C67_mpi_completes : forall size g bs (d : R), 2 <= size -> mpi_session X R size g bs (map (map g) bs).
Proof.
  intros size g bs d Hs. induction bs as [|b bs IH]; [constructor|]. constructor; [|exact IH].
  set (ms := fun i => match nth_error b i with Some x => [g x] | None => [d] end).
  assert (Hn : forall i, ms i <> []) by (intro i; unfold ms; destruct (nth_error b i); discriminate).
  assert (G : exists k s, mrun R ms (length b) size k (minit R size) s /\ mreturned R (length b) s).
  { set (B := sumf (left_cost R ms) (seq 0 (length b))).
    assert (G : forall fuel k s, mrun R ms (length b) size k (minit R size) s -> B < fuel + k -> exists k s, mrun R ms (length b) size k (minit R size) s /\ mreturned R (length b) s).
    { induction fuel as [|fuel IHf]; intros k s H L.
      - exfalso. assert (Q := C37_runs_finite R ms (length b) size Hs Hn k s H). unfold B in L. lia.
      - destruct (C37_no_deadlock R ms (length b) size Hs Hn k s H) as [Rt|[s' Hst]]; [eauto|]. apply (IHf (S k) s'); [econstructor; eassumption|lia]. }
    apply (G (S B) 0 (minit R size)); [constructor|lia]. }
  destruct G as (k & s & Hr & Hret). exists ms, k, s. split; [exact Hn|]. split; [intros i x Hx; unfold ms; rewrite Hx; reflexivity|]. split; [exact Hr|]. split; [exact Hret|]. split; [apply map_length|].
  intros i v Hv. rewrite nth_error_map in Hv. destruct (nth_error b i) as [x|] eqn:Ex; [|discriminate]. injection Hv as <-.
  destruct (C37_results R ms (length b) size Hs Hn k s Hr Hret) as (_ & Once & _). destruct (Once i) as [_ O2]; [apply nth_error_Some; congruence|]. replace (ms i) with [g x] in O2 by (unfold ms; rewrite Ex; reflexivity). exact O2.
Qed.
End Client.
Print Assumptions C67_thread_answers.
Print Assumptions C67_thread_completes.
Print Assumptions C67_mpi_answers.

(** ** The genetic algorithm *)
Section Genetic.
Variable E : env.
Variable f : e_par E -> outcome dbl.
Variable hash : list bool -> Z.

Lemma count_batch h todo : (forall b vs, batch_of E h todo = Ok b -> mapM f b = Ok vs -> count_values E f h todo = Ok vs) /\
  (forall vs, count_values E f h todo = Ok vs -> exists b, batch_of E h todo = Ok b /\ mapM f b = Ok vs).
Proof.
  unfold batch_of, count_values. induction todo as [|a todo [IH1 IH2]]; split.
  - cbn. intros b vs [= <-] H. exact H.
  - cbn. intros vs [= <-]. exists []. split; reflexivity.
  - intros b vs Hb Hv. cbn [mapM] in *. destruct (h_get E h a) as [i|e|u] eqn:Ei; cbn [bind] in *; try discriminate.
    apply bind_ok in Hb as (b' & Hb & [= <-]). cbn [mapM] in Hv. apply bind_ok in Hv as (v & Hv & Hvs). apply bind_ok in Hvs as (vs' & Hvs & [= <-]).
    rewrite Hv. cbn [bind]. rewrite (IH1 _ _ Hb Hvs). reflexivity.
  - intros vs Hv. cbn [mapM] in *. destruct (h_get E h a) as [i|e|u] eqn:Ei; cbn [bind] in *; try discriminate.
    apply bind_ok in Hv as (v & Hv & Hvs). apply bind_ok in Hvs as (vs' & Hvs & [= <-]). destruct (IH2 _ Hvs) as (b & A & B).
    exists (i_par E i :: b). rewrite A. cbn [bind mapM]. rewrite Hv. cbn [bind]. rewrite B. split; reflexivity.
Qed.

Lemma obtain_on h k pop vs h' k' b : obtain_fitness_on E hash vs h k pop = Ok (h', k', b) -> mapM f b = Ok vs -> obtain_fitness E hash f h k pop = Ok (h', k').
Proof.
  unfold obtain_fitness_on, obtain_fitness. intros H Hv. destruct (process_population E hash h k pop) as [[[h1 k1] todo]|e|u]; cbn [bind] in *; try discriminate.
  apply bind_ok in H as (b1 & Hb & H). cbv zeta in H. apply bind_ok in H as (h2 & Ha & H).
  assert (b1 = b) as ->. { destruct (k_cache k1) as [c|]; cbn [k_cache] in H; [|congruence]. apply bind_ok in H as (rs & _ & H). destruct (add_values Z dbl Z.eqb rs c) as [c' o]. apply bind_ok in H as (u & _ & H). congruence. }
  rewrite (proj1 (count_batch h1 todo) _ _ Hb Hv). cbn [bind k_cache] in *. rewrite Ha. cbn [bind].
  destruct (k_cache k1) as [c|]; [|congruence]. destruct (cache_records E hash h2 todo) as [rs|e|u]; cbn [bind] in *; try discriminate. destruct (add_values Z dbl Z.eqb rs c) as [c' o]. destruct o as [u|e|u]; cbn [bind] in *; congruence.
Qed.
Lemma obtain_off h k pop h' k' : obtain_fitness E hash f h k pop = Ok (h', k') -> exists b vs, obtain_fitness_on E hash vs h k pop = Ok (h', k', b) /\ mapM f b = Ok vs.
Proof.
  unfold obtain_fitness_on, obtain_fitness. intro H. destruct (process_population E hash h k pop) as [[[h1 k1] todo]|e|u]; cbn [bind] in *; try discriminate.
  apply bind_ok in H as (vs & Hc & H). cbv zeta in H. apply bind_ok in H as (h2 & Ha & H). destruct (proj2 (count_batch h1 todo) _ Hc) as (b & Hb & Hv). exists b, vs. split; [|exact Hv].
  rewrite Hb. cbn [bind k_cache] in *. rewrite Ha. cbn [bind].
  destruct (k_cache k1) as [c|]; [|congruence]. destruct (cache_records E hash h2 todo) as [rs|e|u]; cbn [bind] in *; try discriminate. destruct (add_values Z dbl Z.eqb rs c) as [c' o]. destruct o as [u|e|u]; cbn [bind] in *; congruence.
Qed.


Lemma lift_step {W A B} (o : outcome A) (k : A -> wm W B) a w : o = Ok a -> wbind (wlift o) k w = k a w.
Proof. intros ->. reflexivity. Qed.
Lemma wstep {W A B} (m : wm W A) (k : A -> wm W B) a w w1 : m w = (Ok a, w1) -> wbind m k w = k a w1.
Proof. intro H. unfold wbind. rewrite H. reflexivity. Qed.

(** A run of the generations with the pool's answers. *)
Lemma generations_on cfg : forall left n s answers s' snaps bs w w', run_generations_on E hash cfg left n s answers w = (Ok (s', snaps, bs), w') ->
  Forall2 (fun b r => mapM f b = Ok r) bs (firstn (length bs) answers) -> run_generations E hash f cfg left n s w = (Ok (s', snaps), w').
Proof.
  induction left as [|left IH]; intros n s answers s' snaps bs w w' H; cbn [run_generations_on run_generations] in *.
  { apply wret_ok in H as [[= -> -> ->] ->]. intros _. reflexivity. }
  destruct answers as [|vs answers]; [discriminate|].
  apply wbind_ok in H as ([[h1 k1] bt] & w1 & H1 & H). apply wlift_ok in H1 as [H1 ->].
  apply wbind_ok in H as (best & w2 & H2 & H). apply wlift_ok in H2 as [H2 ->].
  apply wbind_ok in H as (is & w3 & H3 & H). apply wlift_ok in H3 as [H3 ->].
  apply wbind_ok in H as (b & w4 & H4 & H). apply wlift_ok in H4 as [H4 ->].
  cbv zeta in H. apply wbind_ok in H as (fb & w5 & H5 & H). apply wlift_ok in H5 as [H5 ->].
  assert (G : mapM f bt = Ok vs -> obtain_fitness E hash f (g_heap E s) (g_counter E s) (g_pop E s) = Ok (h1, k1)) by (intro V; eapply obtain_on; eassumption).
  destruct (d_leb (cf_stop cfg) fb) eqn:Es.
  - apply wret_ok in H as [[= -> -> ->] ->]. intro F. cbn [length firstn] in F. inversion F as [|? ? ? ? F1 _]; subst. rewrite (lift_step _ _ _ _ (G F1)). cbv beta iota.
    rewrite (lift_step _ _ _ _ H2), (lift_step _ _ _ _ H3), (lift_step _ _ _ _ H4). cbv zeta. rewrite (lift_step _ _ _ _ H5), Es. reflexivity.
  - apply wbind_ok in H as (y & w6 & H6 & H). apply wbind_ok in H as (u & w7 & H7 & H). apply wbind_ok in H as (h3 & w8 & H8 & H). apply wbind_ok in H as ([[s2 sn2] bs2] & w9 & H9 & H).
    apply wret_ok in H as [[= -> -> ->] ->]. intro F. cbn [length firstn snd] in F. inversion F as [|? ? ? ? F1 F2]; subst.
    rewrite (lift_step _ _ _ _ (G F1)). cbv beta iota.
    rewrite (lift_step _ _ _ _ H2), (lift_step _ _ _ _ H3), (lift_step _ _ _ _ H4). cbv zeta. rewrite (lift_step _ _ _ _ H5), Es.
    rewrite (wstep _ _ _ _ _ H6), (wstep _ _ _ _ _ H7), (wstep _ _ _ _ _ H8). rewrite (wstep _ _ _ _ _ (IH _ _ _ _ _ _ _ _ H9 F2)). reflexivity.
Qed.
Lemma generations_off cfg : forall left n s s' snaps w w', run_generations E hash f cfg left n s w = (Ok (s', snaps), w') ->
  exists bs answers, run_generations_on E hash cfg left n s answers w = (Ok (s', snaps, bs), w') /\ Forall2 (fun b r => mapM f b = Ok r) bs answers.
Proof.
  induction left as [|left IH]; intros n s s' snaps w w' H; cbn [run_generations_on run_generations] in *.
  { apply wret_ok in H as [[= -> ->] ->]. exists [], []. split; [reflexivity|constructor]. }
  apply wbind_ok in H as ([h1 k1] & w1 & H1 & H). apply wlift_ok in H1 as [H1 ->].
  apply wbind_ok in H as (best & w2 & H2 & H). apply wlift_ok in H2 as [H2 ->].
  apply wbind_ok in H as (is & w3 & H3 & H). apply wlift_ok in H3 as [H3 ->].
  apply wbind_ok in H as (b & w4 & H4 & H). apply wlift_ok in H4 as [H4 ->].
  cbv zeta in H. apply wbind_ok in H as (fb & w5 & H5 & H). apply wlift_ok in H5 as [H5 ->].
  destruct (obtain_off _ _ _ _ _ H1) as (bt & vs & Ho & Hv).
  destruct (d_leb (cf_stop cfg) fb) eqn:Es.
  - apply wret_ok in H as [[= -> ->] ->]. exists [bt], [vs]. split; [|repeat constructor; exact Hv].
    rewrite (lift_step _ _ _ _ Ho). cbv beta iota. rewrite (lift_step _ _ _ _ H2), (lift_step _ _ _ _ H3), (lift_step _ _ _ _ H4). cbv zeta. rewrite (lift_step _ _ _ _ H5), Es. reflexivity.
  - apply wbind_ok in H as (y & w6 & H6 & H). apply wbind_ok in H as (u & w7 & H7 & H). apply wbind_ok in H as (h3 & w8 & H8 & H). apply wbind_ok in H as ([s2 sn2] & w9 & H9 & H).
    apply wret_ok in H as [[= -> ->] ->]. destruct (IH _ _ _ _ _ _ H9) as (bs2 & an2 & R2 & F2). exists (bt :: bs2), (vs :: an2). split; [|constructor; assumption].
    rewrite (lift_step _ _ _ _ Ho). cbv beta iota. rewrite (lift_step _ _ _ _ H2), (lift_step _ _ _ _ H3), (lift_step _ _ _ _ H4). cbv zeta. rewrite (lift_step _ _ _ _ H5), Es.
    rewrite (wstep _ _ _ _ _ H6), (wstep _ _ _ _ _ H7), (wstep _ _ _ _ _ H8), (wstep _ _ _ _ _ R2). reflexivity.
Qed.

Variable same_type : e_par E -> e_par E -> bool.
Variable same_meta : e_par E -> e_par E -> outcome bool.

(** What the algorithm computes when each call of the pool answers with the values of its batch. *)
Theorem C67_ga : forall cfg initial parse file k p maximize answers q snaps s bs w w',
  ga_optimize_on E hash same_type same_meta cfg initial parse file k p maximize answers w = (Ok (q, snaps, s, bs), w') ->
  Forall2 (fun b r => mapM f b = Ok r) bs (firstn (length bs) answers) ->
  ga_optimize E hash f same_type same_meta cfg initial parse file k p maximize w = (Ok (q, snaps, s), w').
Proof.
  intros cfg initial parse file k p mx answers q snaps s bs w w' H F. unfold ga_optimize_on, ga_optimize in *. destruct (negb mx); [discriminate|].
  apply wbind_ok in H as ([[h pop] best] & w1 & H1 & H). rewrite (wstep _ _ _ _ _ H1). cbv beta iota.
  apply wbind_ok in H as (h1 & w2 & H2 & H). apply wlift_ok in H2 as [H2 ->]. rewrite (lift_step _ _ _ _ H2).
  apply wbind_ok in H as ([[s2 sn2] bs2] & w3 & H3 & H).
  apply wbind_ok in H as (b & w4 & H4 & H). apply wlift_ok in H4 as [H4 ->]. cbn [fst snd] in H4, H.
  assert (Eb : bs2 = bs /\ s2 = s /\ sn2 = snaps). { destruct (e_dec E p (i_chr E b)) as [q' o]. apply wbind_ok in H as (u & w5 & H5 & H). apply wret_ok in H as [[= -> -> -> ->] _]. auto. }
  destruct Eb as (-> & -> & ->). rewrite (wstep _ _ _ _ _ (generations_on _ _ _ _ _ _ _ _ _ _ H3 F)). cbn [fst snd]. rewrite (lift_step _ _ _ _ H4).
  destruct (e_dec E p (i_chr E b)) as [q' o]. apply wbind_ok in H as (u & w5 & H5 & H). apply wret_ok in H as [[= -> ] ->]. rewrite (wstep _ _ _ _ _ H5). reflexivity.
Qed.
Theorem C67_ga_converse : forall cfg initial parse file k p maximize q snaps s w w',
  ga_optimize E hash f same_type same_meta cfg initial parse file k p maximize w = (Ok (q, snaps, s), w') ->
  exists bs answers, ga_optimize_on E hash same_type same_meta cfg initial parse file k p maximize answers w = (Ok (q, snaps, s, bs), w') /\ Forall2 (fun b r => mapM f b = Ok r) bs answers.
Proof.
  intros cfg initial parse file k p mx q snaps s w w' H. unfold ga_optimize_on, ga_optimize in *. destruct (negb mx); [discriminate|].
  apply wbind_ok in H as ([[h pop] best] & w1 & H1 & H).
  apply wbind_ok in H as (h1 & w2 & H2 & H). apply wlift_ok in H2 as [H2 ->].
  apply wbind_ok in H as ([s2 sn2] & w3 & H3 & H). destruct (generations_off _ _ _ _ _ _ _ _ H3) as (bs & answers & R & F). exists bs, answers. split; [|exact F].
  rewrite (wstep _ _ _ _ _ H1). cbv beta iota. rewrite (lift_step _ _ _ _ H2), (wstep _ _ _ _ _ R). cbn [fst snd] in *.
  apply wbind_ok in H as (b & w4 & H4 & H). apply wlift_ok in H4 as [H4 ->]. rewrite (lift_step _ _ _ _ H4).
  destruct (e_dec E p (i_chr E b)) as [q' o]. apply wbind_ok in H as (u & w5 & H5 & H). apply wret_ok in H as [[= -> -> ->] ->]. rewrite (wstep _ _ _ _ _ H5). reflexivity.
Qed.

(** The genetic algorithm on the thread pool of [nw] workers, one DoTasks call per generation: it computes what the sequential one does, whatever the schedule. *)
Theorem C67_ga_threads : forall nw cfg initial parse file k p maximize rs t answers q snaps s bs w w',
  thread_session (e_par E) dbl f nw bs (length bs) rs t -> rs = map (map Some) answers ->
  ga_optimize_on E hash same_type same_meta cfg initial parse file k p maximize answers w = (Ok (q, snaps, s, bs), w') ->
  ga_optimize E hash f same_type same_meta cfg initial parse file k p maximize w = (Ok (q, snaps, s), w').
Proof.
  intros nw cfg initial parse file k p mx rs t answers q snaps s bs w w' T -> H. apply (C67_ga _ _ _ _ _ _ _ _ _ _ _ _ _ _ H).
  assert (A := C67_thread_answers _ _ _ _ _ _ _ _ T). rewrite firstn_all in A.
  assert (L : length bs = length answers). { assert (Q : length bs = length (map (map (@Some dbl)) answers)); [|rewrite map_length in Q; exact Q]. clear -A. induction A; cbn; congruence. }
  rewrite L, firstn_all. clear -A. remember (map (map Some) answers) as rs eqn:Er. revert answers Er. induction A as [|b r l l' (vs & V & ->) A IH]; intros [|a answers] Er; cbn in Er; try discriminate; constructor.
  - injection Er as Ea _. rewrite V. f_equal. clear -Ea. revert a Ea. induction vs as [|v vs IH]; intros [|a0 a] Ea; cbn in Ea; try discriminate; [reflexivity|]. injection Ea as -> Ea. f_equal. apply IH; exact Ea.
  - injection Er as _ Er. apply IH; exact Er.
Qed.
(** And such a run exists whenever the sequential one returns; so with one worker or more the pool does not change what is computed, nor whether anything is. *)
Theorem C67_ga_threads_complete : forall nw cfg initial parse file k p maximize q snaps s w w', 1 <= nw ->
  ga_optimize E hash f same_type same_meta cfg initial parse file k p maximize w = (Ok (q, snaps, s), w') ->
  exists bs answers t, thread_session (e_par E) dbl f nw bs (length bs) (map (map Some) answers) t /\
    ga_optimize_on E hash same_type same_meta cfg initial parse file k p maximize answers w = (Ok (q, snaps, s, bs), w').
Proof.
  intros nw cfg initial parse file k p mx q snaps s w w' Hn H. destruct (C67_ga_converse _ _ _ _ _ _ _ _ _ _ _ _ H) as (bs & answers & R & F).
  destruct (C67_thread_completes _ _ f nw bs Hn) as (rs & t & T).
  { clear -F. intros b x Hb Hx. induction F as [|b' r l l' V F IH]; [destruct Hb|]. destruct Hb as [->|Hb]; [|auto]. clear -V Hx. revert r V. induction b as [|y b IH]; intros r V; [destruct Hx|].
    cbn in V. apply bind_ok in V as (v & V1 & V2). apply bind_ok in V2 as (vs' & V3 & _). destruct Hx as [->|Hx]; [eauto|eauto]. }
  exists bs, answers, t. split; [|exact R]. assert (A := C67_thread_answers _ _ _ _ _ _ _ _ T). rewrite firstn_all in A.
  assert (rs = map (map Some) answers) as <-; [|exact T]. clear -A F. revert answers F. induction A as [|b r l l' (vs & V & ->) A IH]; intros answers F; inversion F; subst; cbn; [reflexivity|]. f_equal; [congruence|auto].
Qed.

(** The genetic algorithm on [size] MPI processes: the same. *)
Theorem C67_ga_mpi : forall size g cfg initial parse file k p maximize answers q snaps s bs w w', 2 <= size -> (forall x, f x = Ok (g x)) ->
  mpi_session (e_par E) dbl size g bs answers ->
  ga_optimize_on E hash same_type same_meta cfg initial parse file k p maximize answers w = (Ok (q, snaps, s, bs), w') ->
  ga_optimize E hash f same_type same_meta cfg initial parse file k p maximize w = (Ok (q, snaps, s), w').
Proof.
  intros size g cfg initial parse file k p mx answers q snaps s bs w w' Hs Hg S H. apply C67_mpi_answers in S; [|exact Hs]. subst answers. apply (C67_ga _ _ _ _ _ _ _ _ _ _ _ _ _ _ H).
  rewrite <- (map_length (map g) bs), firstn_all. clear -Hg. induction bs as [|b bs IH]; constructor; [|exact IH]. induction b as [|x b IHb]; [reflexivity|]. cbn. rewrite Hg. cbn [bind]. rewrite IHb. reflexivity.
Qed.
(** The three pools with the same batches give the same vectors; so the number of workers or processes changes nothing. *)
Theorem C67_ga_pools_agree : forall nw size g cfg initial parse file k p maximize w bs1 a1 t r1 w1 bs2 a2 r2 w2, 2 <= size -> (forall x, f x = Ok (g x)) ->
  thread_session (e_par E) dbl f nw bs1 (length bs1) (map (map Some) a1) t ->
  ga_optimize_on E hash same_type same_meta cfg initial parse file k p maximize a1 w = (Ok (r1, bs1), w1) ->
  mpi_session (e_par E) dbl size g bs2 a2 ->
  ga_optimize_on E hash same_type same_meta cfg initial parse file k p maximize a2 w = (Ok (r2, bs2), w2) ->
  r1 = r2 /\ w1 = w2.
Proof.
  intros nw size g cfg initial parse file k p mx w bs1 a1 t [[q1 sn1] s1] w1 bs2 a2 [[q2 sn2] s2] w2 Hs Hg T1 H1 T2 H2.
  assert (Q1 := C67_ga_threads _ _ _ _ _ _ _ _ _ _ _ _ _ _ _ _ _ T1 eq_refl H1). assert (Q2 := C67_ga_mpi _ _ _ _ _ _ _ _ _ _ _ _ _ _ _ _ Hs Hg T2 H2).
  rewrite Q1 in Q2. injection Q2 as -> -> -> ->. split; reflexivity.
Qed.
End Genetic.

(** ** The parameters processors *)
Section Processors.
Context {P : Type}.
Variable f : P -> outcome dbl.
Theorem C67_simple : forall nw ps maximize vs t, thread_session P dbl f nw [ps] 1 [map Some vs] t ->
  simple_process_on vs ps maximize = simple_process P f ps maximize.
Proof.
  intros nw ps mx vs t T. assert (A := C67_thread_answers _ _ _ _ _ _ _ _ T). cbn [firstn] in A. inversion A as [|? ? ? ? (vs' & V & Q) _]; subst.
  assert (vs = vs') as ->. { clear -Q. revert vs' Q. induction vs as [|v vs IH]; intros [|a0 a] Ea; cbn in Ea; try discriminate; [reflexivity|]. injection Ea as -> Ea. f_equal. apply IH; exact Ea. }
  unfold simple_process_on, simple_process. destruct ps as [|p ps]; [reflexivity|]. rewrite V. reflexivity.
Qed.
Lemma some_inj {A} (l m : list A) : map Some l = map Some m -> l = m.
Proof. revert m. induction l as [|v l IH]; intros [|a0 a] Ea; cbn in Ea; try discriminate; [reflexivity|]. injection Ea as -> Ea. f_equal. apply IH; exact Ea. Qed.
(** With one worker or more, what GridSearch's and RandomSearch's processor returns on the sequential pool it returns on the thread pool too. *)
Theorem C67_simple_complete : forall nw ps maximize q, 1 <= nw -> simple_process P f ps maximize = Ok q ->
  exists vs t, thread_session P dbl f nw [ps] 1 [map Some vs] t /\ simple_process_on vs ps maximize = Ok q.
Proof.
  intros nw ps mx q Hn H. unfold simple_process in H. destruct ps as [|p ps]; [discriminate|]. apply bind_ok in H as (vs & V & H).
  destruct (C67_thread_completes _ _ f nw [p :: ps] Hn) as (rs & t & T).
  { intros b x [<-|[]] Hx. revert V Hx. generalize (p :: ps). intros l V Hx. revert vs V H. induction l as [|y l IH]; intros vs V H; [destruct Hx|]. cbn in V. apply bind_ok in V as (v & V1 & V2). destruct Hx as [->|Hx]; [eauto|].
    apply bind_ok in V2 as (vs' & V3 & _). clear -V3 Hx. revert vs' V3. induction l as [|z l IH]; intros vs' V3; [destruct Hx|]. cbn in V3. apply bind_ok in V3 as (v & V1 & V2). destruct Hx as [->|Hx]; [eauto|]. apply bind_ok in V2 as (vs'' & V2 & _). eauto. }
  assert (A := C67_thread_answers _ _ _ _ _ _ _ _ T). cbn [length firstn] in *. inversion A as [|? ? ? ? (vs' & V' & ->) A']; subst. inversion A'; subst. exists vs', t. split; [exact T|]. unfold simple_process_on. congruence.
Qed.
(** The processor that runs an optimiser from each point: the tasks are the optimisations. *)
Theorem C67_optimization : forall nw cln opt ps maximize rs t, thread_session P P (optimization_task P cln opt maximize) nw [ps] 1 [map Some rs] t ->
  optimization_process_on f rs maximize = optimization_process P f cln opt ps maximize.
Proof.
  intros nw cln opt ps mx rs t T. assert (A := C67_thread_answers _ _ _ _ _ _ _ _ T). cbn [firstn] in A. inversion A as [|? ? ? ? (rs' & V & Q) _]; subst.
  apply some_inj in Q as ->. unfold optimization_process_on, optimization_process. rewrite V. reflexivity.
Qed.
End Processors.
Print Assumptions C67_thread_goes_on.
Print Assumptions C67_thread_throw.
Print Assumptions C67_mpi_completes.
Print Assumptions C67_sequential_answers.
Print Assumptions C67_ga.
Print Assumptions C67_ga_converse.
Print Assumptions C67_ga_threads.
Print Assumptions C67_ga_threads_complete.
Print Assumptions C67_ga_mpi.
Print Assumptions C67_ga_pools_agree.
Print Assumptions C67_simple.
Print Assumptions C67_simple_complete.
Print Assumptions C67_optimization.

(** The run of C24_witness (five generations of six individuals) on a pool of three threads: its hypotheses are met. *)
Example C67_witness : exists q snaps s w' bs answers t, thread_session (e_par wE) dbl (int_objective RNum) 3 bs (length bs) (map (map Some) answers) t /\
  ga_optimize_on wE (fun _ => 0%Z) (p_same_type RNum) (p_same_meta RNum) w_cfg None (fun t => (d_ofZ 0, t)) None (MkCounter None 0 0) w_par true answers w_world = (Ok (q, snaps, s, bs), w') /\
  length snaps = 5 /\ int_of RNum q = 98%Z.
Proof.
  destruct C24_witness as (_ & _ & q & snaps & s & w' & H & _ & L & V). unfold w_run in H.
  destruct (C67_ga_threads_complete _ _ _ _ _ 3 _ _ _ _ _ _ _ _ _ _ _ _ ltac:(lia) H) as (bs & answers & t & T & R). exists q, snaps, s, w', bs, answers, t. auto.
Qed.
