(** Specification for C10: parameter objects as separate values. Every object a program has created is an entry of a list of
    values (Params.v); a call on an object changes the entry of that object only, and Clone adds a new entry. *)
From Verif Require Import Base Num Params Heap.
Local Open Scope list_scope.

Section Values.
Context (N : Num).
Local Notation param := (param N).
Definition values : Type := list param.

(** the component reached by a chain of GetParameter calls *)
Fixpoint v_at (p : param) (path : list nat) : outcome param :=
  match path with
  | [] => Ok p
  | i :: r =>
      match p with
      | PComp _ _ true ps => match nth_error ps i with Some q => v_at q r | None => Throw OutOfRange end
      | PComp _ _ false _ => Throw LogicError
      | _ => UB BadCast
      end
  end.
(** the object with that component replaced *)
Fixpoint v_put (p : param) (path : list nat) (q : param) : param :=
  match path with
  | [] => q
  | i :: r =>
      match p with
      | PComp _ s b ps => PComp N s b (match nth_error ps i with Some c => upd ps i (v_put c r q) | None => ps end)
      | _ => p
      end
  end.
Definition v_get (st : values) (x : handle) : outcome param := let! p := at_ st (fst x) in v_at p (snd x).
Definition v_set (st : values) (x : handle) (q : param) : values :=
  match nth_error st (fst x) with Some p => upd st (fst x) (v_put p (snd x) q) | None => st end.

(** a call that changes the object *)
Definition changes (st : values) (x : handle) (f : param -> param * outcome unit) : outcome (result N) * values :=
  match v_get st x with
  | Ok p => let (q, o) := f p in (omap (fun _ => RUnit N) o, v_set st x q)
  | Throw e => (Throw e, st)
  | UB u => (UB u, st)
  end.
(** a call that returns something *)
Definition observes {A} (st : values) (x : handle) (f : param -> outcome A) (g : A -> result N) : outcome (result N) * values :=
  (omap g (let! p := v_get st x in f p), st).
Definition adds (st : values) (o : outcome param) : outcome (result N) * values :=
  match o with Ok p => (Ok (RUnit N), st ++ [p]) | Throw e => (Throw e, st) | UB u => (UB u, st) end.
(** Initialize. Two uses are outside of this specification (here: UB): arguments that belong to the object that is being
    initialised, and a second Initialize with an argument that cannot be cloned (it leaves null components behind). *)
Definition v_initialize (c : param) (ps : list param) : param * outcome unit :=
  match c, mapM (p_clone N) ps with
  | PComp _ _ true _, Throw _ => (c, UB AssertFailed)
  | _, _ => comp_initialize N c ps
  end.
Definition other_object (x y : handle) : bool := negb (Nat.eqb (fst y) (fst x)).
Definition v_init (st : values) (x : handle) (args : list handle) : outcome (result N) * values :=
  match (let! c := v_get st x in let! ps := mapM (v_get st) args in Ok ps) with
  | Ok ps => if forallb (other_object x) args then changes st x (fun c => v_initialize c ps) else (UB AssertFailed, st)
  | Throw e => (Throw e, st)
  | UB u => (UB u, st)
  end.

Definition vstep (c : call N) (st : values) : outcome (result N) * values :=
  match c with
  | NewInt _ v mn mx => adds st (let! p := ip_make v mn mx in Ok (PInt N p))
  | NewDouble _ v mn mx p => adds st (let! d := dp_make N v mn mx p in Ok (PDouble N d))
  | NewDefault _ => adds st (Ok (PDouble N (dp_default N)))
  | NewArray _ mn mx p n => adds st (let! a := da_make N mn mx p n in Ok (PArr N a))
  | NewComposite _ => adds st (Ok (comp_new N))
  | Clone _ x => adds st (let! p := v_get st x in p_clone N p)
  | Initialize _ x args => v_init st x args
  | InitializeN _ x y n =>
      match (let! _ := v_get st x in v_get st y) with
      | Ok _ => v_init st x (repeat y n)
      | Throw e => (Throw e, st)
      | UB u => (UB u, st)
      end
  | SetInt _ x v => changes st x (fun p => match p with PInt _ p => (PInt N (ip_set_value p v), Ok tt) | _ => (p, UB BadCast) end)
  | SetDouble _ x v =>
      changes st x (fun p => match p with
        | PDouble _ d => match dp_set_value N d v with Ok d' => (PDouble N d', Ok tt) | Throw e => (p, Throw e) | UB u => (p, UB u) end
        | _ => (p, UB BadCast) end)
  | SetArray _ x vs => changes st x (fun p => match p with PArr _ a => let (a', o) := da_set_values N a vs in (PArr N a', o) | _ => (p, UB BadCast) end)
  | SetFromChromosome _ x bits => changes st x (fun p => p_set_from N p bits)
  | SetChromosome _ x old => observes st x (fun p => p_set_chromosome N p old) (RBits N)
  | CheckConstraints _ x => observes st x (p_check N) (RBool N)
  | GetSize _ x => observes st x (p_size N) (RNat N)
  | GetInt _ x => observes st x (fun p => match p with PInt _ p => Ok (ip_value p) | _ => UB BadCast end) (RZ N)
  | GetDouble _ x => observes st x (fun p => match p with PDouble _ d => dp_get_value N d | _ => UB BadCast end) (RNum N)
  | GetArray _ x => observes st x (fun p => match p with PArr _ a => Ok (da_values N a) | _ => UB BadCast end) (RNums N)
  | GetNumber _ x => observes st x (comp_number N) (RNat N)
  | SameMeta _ x y => observes st x (fun p => let! q := v_get st y in p_same_meta N p q) (RBool N)
  end.
Fixpoint vrun (cs : list (call N)) (st : values) : list (outcome (result N)) * values :=
  match cs with
  | [] => ([], st)
  | c :: r => let (o, st') := vstep c st in
              match o with
              | UB u => ([UB u], st')
              | _ => let (os, st'') := vrun r st' in (o :: os, st'')
              end
  end.
End Values.
