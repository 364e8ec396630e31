(** C71: calling optimisers and objective functions through their common interfaces. *)
From Verif Require Import Base Num Misc Optim Dispatch.
Local Open Scope list_scope.

Section C71.
Variables P D O : Type.
Variable p_get : P -> list dbl.
Variable p_set : list dbl -> P -> outcome unit * P.
Variable p_check : P -> bool.
Notation iparams := (iparams P D O). Notation ifunction := (ifunction P D O). Notation ioptimizer := (ioptimizer D).
Notation i_optimize := (i_optimize P D O p_get p_set p_check).
Notation call := (call P D O p_get).

(** *** Specification: which kinds go together *)
Inductive family : Type := Continuous | Discrete.
Definition optimizer_family (o : ioptimizer) : family := match o with OCont _ _ _ => Continuous | ODisc _ _ _ => Discrete end.
Definition params_family (p : iparams) : option family := match p with ICont _ _ _ _ => Some Continuous | IDisc _ _ _ _ => Some Discrete | _ => None end.
Definition function_family (fn : ifunction) : option family := match fn with FCont _ _ _ _ => Some Continuous | FDisc _ _ _ _ => Some Discrete | FOther _ _ _ _ => None end.
Definition clones (o : ioptimizer) : bool := match o with OCont _ c _ => c | ODisc _ c _ => c end.

(** Parameters of the wrong kind (or null) are refused with logic_error, whatever the function is; then a function of the wrong kind with bad_cast. Nothing
    is evaluated and the parameters stay as they are. *)
Theorem C71_wrong_parameters : forall o fn p maximize, params_family p <> Some (optimizer_family o) ->
  i_optimize o fn p maximize = (GThrow (Std LogicError), p, []).
Proof. intros [c find|c typed] fn [q|d|x|] m H; cbn in *; try reflexivity; congruence. Qed.
Theorem C71_wrong_function : forall o fn p maximize, params_family p = Some (optimizer_family o) -> function_family fn <> Some (optimizer_family o) ->
  i_optimize o fn p maximize = (GThrow StdBadCast, p, []).
Proof. intros [c find|c typed] [f|g|h] [q|d|x|] m Hp Hf; cbn in *; try reflexivity; try congruence. Qed.
(** Otherwise the call is the typed one: bad_cast never comes from a call whose kinds agree, and the parameters keep their kind. *)
Theorem C71_continuous : forall c find f q maximize r q' log, optimize FNum P p_set p_get p_check f maximize (find maximize) q = (r, q', log) ->
  i_optimize (OCont D c find) (FCont P D O f) (ICont P D O q) maximize = (of_outcome r, ICont P D O q', map (AskedVector D) log).
Proof. intros c find f q m r q' log H. cbn. rewrite H. reflexivity. Qed.
Theorem C71_discrete : forall c typed g d maximize r d' log, typed g d maximize = (r, d', log) ->
  i_optimize (ODisc D c typed) (FDisc P D O g) (IDisc P D O d) maximize = (r, IDisc P D O d', map (AskedObject D) log).
Proof. intros c typed g d m r d' log H. cbn. rewrite H. reflexivity. Qed.
Theorem C71_family_kept : forall o fn p maximize, params_family (snd (fst (i_optimize o fn p maximize))) = params_family p.
Proof.
  intros [c find|c typed] fn p m; destruct p as [q|d|x|], fn as [f|g|h]; cbn; try reflexivity.
  - destruct (optimize FNum P p_set p_get p_check f m (find m) q) as [[r q'] log]. reflexivity.
  - destruct (typed g d m) as [[r d'] log]. reflexivity.
Qed.

(** A function called through the interface: of parameters of its own kind, the value of the typed operator; of any others, logic_error. *)
Theorem C71_call : forall fn p fam, function_family fn = Some fam ->
  call fn p = match fn, p with FCont _ _ _ f, ICont _ _ _ q => f (p_get q) | FDisc _ _ _ g, IDisc _ _ _ d => g d | _, _ => Throw LogicError end /\
  (params_family p <> Some fam -> call fn p = Throw LogicError).
Proof. intros [f|g|h] [q|d|x|] fam H; cbn in *; (split; [try reflexivity; discriminate|intro N; try reflexivity; congruence]). Qed.

(** Optimisers nested in a search (RandomSearch with an optimiser): an optimiser that can be cloned, called through the interface on points and with a
    function of its kind, never fails because of the interface: the results are those of the typed calls, in the same order, up to the first that fails. *)
Fixpoint typed_tasks (find : list dbl -> search FNum (list dbl)) (f : list dbl -> outcome dbl) (maximize : bool) (qs : list P) : outcome (list P) :=
  match qs with
  | [] => Ok []
  | q :: r => match optimize FNum P p_set p_get p_check f maximize find q with
              | (Ok _, q', _) => match typed_tasks find f maximize r with Ok rs => Ok (q' :: rs) | Throw e => Throw e | UB u => UB u end
              | (Throw e, _, _) => Throw e
              | (UB u, _, _) => UB u
              end
  end.
Theorem C71_nested : forall find f maximize qs,
  nested_tasks P D O p_get p_set p_check (OCont D true find) (FCont P D O f) maximize (map (ICont P D O) qs) =
  of_outcome (match typed_tasks (find maximize) f maximize qs with Ok rs => Ok (map (ICont P D O) rs) | Throw e => Throw e | UB u => UB u end).
Proof.
  intros find f m qs. induction qs as [|q qs IH]; [reflexivity|]. cbn [map nested_tasks typed_tasks]. unfold nested_task. cbn [clone_optimizer of_outcome gbind Dispatch.i_optimize].
  destruct (optimize FNum P p_set p_get p_check f m (find m) q) as [[r q'] log]. destruct r; cbn [of_outcome gbind]; try reflexivity.
  rewrite IH. destruct (typed_tasks (find m) f m qs); reflexivity.
Qed.
(** ... and one that cannot be cloned (RandomSearch, SimulatedAnnealing) makes every search with at least one point fail, before anything is evaluated. *)
Theorem C71_not_nestable : forall o fn maximize p ps, clones o = false ->
  nested_tasks P D O p_get p_set p_check o fn maximize (p :: ps) = GThrow (Std LogicError).
Proof. intros [c find|c typed] fn m p ps H; cbn in H; subst c; reflexivity. Qed.
End C71.

(** Concrete cases: a continuous optimiser that tries one point and returns it, on an array of two numbers. *)
Example C71_ex : let find := fun (_ : bool) (v : list dbl) => Ask (N := FNum) false (rev v) (fun _ => Ret (rev v)) in
  let opt := Dispatch.i_optimize (list dbl) nat unit (arr_get FNum) (arr_set FNum) (arr_check FNum) in
  let a := d_ofZ 1 in let b := d_ofZ 2 in let f := fun _ : list dbl => Ok a in
  opt (OCont nat true find) (FCont _ _ _ f) (ICont _ _ _ [a; b]) false = (GOk tt, ICont _ _ _ [b; a], [AskedVector nat [b; a]]) /\
  opt (OCont nat true find) (FDisc _ _ _ (fun _ => Ok a)) (ICont _ _ _ [a; b]) false = (GThrow StdBadCast, ICont _ _ _ [a; b], []) /\
  opt (OCont nat true find) (FDisc _ _ _ (fun _ => Ok a)) (IDisc _ _ _ 7) true = (GThrow (Std LogicError), IDisc _ _ _ 7, []).
Proof. repeat split. Qed.
Print Assumptions C71_nested.
