(** Model of the parameter classes as objects with identity: DoubleParameter holds a pointer to its IntParameter,
    DoubleParametersArray a pointer to a sample DoubleParameter that its const methods overwrite, CompositeDiscreteParameters
    a vector of pointers. Numerical work that touches one object only is that of Params.v. Memory is never reused: an object that
    nothing points to any more stays in the heap. *)
From Verif Require Import Base Num Params.
Local Open Scope list_scope.

Section Heap.
Context (N : Num).
Local Notation num := (num N).

(** int_parameter.h (values), double_parameter.h:44-48, double_parameters_array.h (sample_parameter_, values_),
    composite_discrete_parameters.h (initialization_checker_, parameters_set_), each with the members of
    const_chromosome_size_paremeters.h. Pointers are positions in the heap, [None] is null. *)
Inductive obj : Type :=
| OInt (p : IntParam)
| ODouble (base : option nat) (mn mx prec : num) (size : csize)
| OArr (sample : option nat) (values : list num) (size : csize)
| OComp (size : csize) (inited : bool) (children : list (option nat)).
Definition heap : Type := list obj.
(** A call: its outcome and the heap it leaves, also when it throws. *)
Definition hop (A : Type) : Type := heap -> outcome A * heap.
Definition hret {A} (a : A) : hop A := fun h => (Ok a, h).
Definition hlift {A} (o : outcome A) : hop A := fun h => (o, h).
Definition hbind {A B} (m : hop A) (f : A -> hop B) : hop B := fun h =>
  match m h with (Ok a, h') => f a h' | (Throw e, h') => (Throw e, h') | (UB u, h') => (UB u, h') end.
Notation "'do' x <- m ; f" := (hbind m (fun x => f)) (at level 200, x binder, m at level 100, f at level 200).

Definition rd (l : nat) : hop obj := fun h => match nth_error h l with Some o => (Ok o, h) | None => (UB NullDeref, h) end.
Definition wr (l : nat) (o : obj) : hop unit := fun h => (Ok tt, upd h l o).
Definition new (o : obj) : hop nat := fun h => (Ok (length h), h ++ [o]).
Definition deref (p : option nat) : hop nat := hlift (match p with Some l => Ok l | None => UB NullDeref end).
Definition rd_int (l : nat) : hop IntParam := do o <- rd l; hlift (match o with OInt p => Ok p | _ => UB BadCast end).
Definition rd_double (l : nat) : hop (option nat * (num * num * num) * csize) :=
  do o <- rd l; hlift (match o with ODouble b mn mx pr s => Ok (b, (mn, mx, pr), s) | _ => UB BadCast end).

(** *** IntParameter *)
(** int_parameter.cpp:26-29 set_value *)
Definition hi_set_value (l : nat) (v : Z) : hop unit := do p <- rd_int l; wr l (OInt (ip_set_value p v)).
(** int_parameter.cpp:71-77 SetFromChromosome *)
Definition hi_set_from (l : nat) (bits : chromosome) : hop unit :=
  do p <- rd_int l; let (p', o) := ip_set_from p bits in do _ <- wr l (OInt p'); hlift o.
(** int_parameter.cpp:41-45 Clone *)
Definition hi_clone (l : nat) : hop nat := do p <- rd_int l; do q <- hlift (ip_clone p); new (OInt q).

(** *** DoubleParameter *)
(** double_parameter.cpp:93-96 GetValue *)
Definition hd_get_value (l : nat) : hop num :=
  do d <- rd_double l; let '(b, (mn, _, pr), _) := d in
  do b <- deref b; do p <- rd_int b; hret (dp_value_of N mn pr (ip_value p)).
(** double_parameter.cpp:98-102 SetValue *)
Definition hd_set_value (l : nat) (v : num) : hop unit :=
  do d <- rd_double l; let '(b, (mn, _, pr), _) := d in
  do i <- hlift (dp_quantise N mn pr v); do b <- deref b; hi_set_value b i.
(** double_parameter.cpp:78-81 CheckConstraints *)
Definition hd_check (l : nat) : hop bool :=
  do v <- hd_get_value l;
  do d <- rd_double l; let '(_, (mn, mx, _), _) := d in hret (dp_check_bounds N mn mx v).
(** double_parameter.cpp:83-86 SetChromosome *)
Definition hd_encode (l : nat) (old : chromosome) : hop chromosome :=
  do d <- rd_double l; let '(b, _, _) := d in do b <- deref b; do p <- rd_int b; hlift (ip_set_chromosome p old).
(** double_parameter.cpp:88-91 SetFromChromosome *)
Definition hd_set_from (l : nat) (bits : chromosome) : hop unit :=
  do d <- rd_double l; let '(b, _, _) := d in do b <- deref b; hi_set_from b bits.
(** double_parameter.cpp:44-63 Clone *)
Definition hd_clone (l : nat) : hop nat :=
  do d <- rd_double l; let '(b, (mn, mx, pr), s) := d in
  do n <- new (ODouble None mn mx pr s);
  match b with
  | None => hret n
  | Some b => do b' <- hi_clone b; do _ <- wr n (ODouble (Some b') mn mx pr s); hret n
  end.
(** double_parameter.cpp:12-16 and 18-42, the constructors *)
Definition hd_default : hop nat := new (ODouble None (n_ofZ N 0) (n_ofZ N 0) (n_ofZ N 0) None).
Definition hd_make (v mn mx p : num) : hop nat :=
  do d <- hlift (dp_make N v mn mx p);
  match dp_base N d with
  | None => hlift (UB NullDeref)
  | Some q => do n <- new (ODouble None (dp_min N d) (dp_max N d) (dp_prec N d) (dp_size N d));
              do b <- new (OInt q); do _ <- wr n (ODouble (Some b) (dp_min N d) (dp_max N d) (dp_prec N d) (dp_size N d)); hret n
  end.
(** double_parameter.cpp:65-76 HasSameMetaParameters of a DoubleParameter *)
Definition hd_same_meta (l m : nat) : hop bool :=
  do d <- rd_double l; let '(b, (mn, mx, pr), _) := d in
  do e <- rd_double m; let '(b', (mn', mx', pr'), _) := e in
  if (n_eqb N mx mx' && n_eqb N mn mn' && n_eqb N pr pr')%bool then
    do b <- deref b; do p <- rd_int b;
    match b' with
    | None => hlift (Throw RuntimeError)
    | Some b' => do q <- rd_int b'; hret (ip_same_meta p q)
    end
  else hret false.

(** *** DoubleParametersArray *)
Definition rd_arr (l : nat) : hop (option nat * list num * csize) :=
  do o <- rd l; hlift (match o with OArr s vs z => Ok (s, vs, z) | _ => UB BadCast end).
(** GetChromosomeSize of the sample *)
Definition hd_size (l : nat) : hop nat := do d <- rd_double l; hlift (cs_get (snd d)).
(** double_parameters_array.cpp:45-56 CheckConstraints (const, but sets the sample) *)
Fixpoint ha_check_loop (s : nat) (vs : list num) : hop bool :=
  match vs with
  | [] => hret true
  | v :: r => do _ <- hd_set_value s v; do b <- hd_check s; if b then ha_check_loop s r else hret false
  end.
Definition ha_check (l : nat) : hop bool :=
  do a <- rd_arr l; let '(s, vs, _) := a in
  match vs with [] => hret true | _ => do s <- deref s; ha_check_loop s vs end.
(** double_parameters_array.cpp:58-76 SetChromosome (const, but sets the sample) *)
Fixpoint ha_encode_loop (s : nat) (k : nat) (vs : list num) (rest : chromosome) : hop chromosome :=
  match vs with
  | [] => hret rest
  | v :: r => do _ <- hd_set_value s v;
              do c <- hd_encode s (firstn k rest);
              do cs <- ha_encode_loop s k r (skipn k rest);
              hret (c ++ cs)
  end.
Definition ha_encode (l : nat) (old : chromosome) : hop chromosome :=
  do a <- rd_arr l; let '(s, vs, z) := a in
  do _ <- hlift (cs_check z (length old));
  do s <- deref s; do k <- hd_size s; ha_encode_loop s k vs old.
(** double_parameters_array.cpp:78-96 SetFromChromosome: [values_[i] = ...] one after the other *)
Fixpoint ha_decode_loop (l s : nat) (k : nat) (n i : nat) (bits : chromosome) : hop unit :=
  match n with
  | O => hret tt
  | S n' =>
      do _ <- hd_set_from s (firstn k bits);
      do v <- hd_get_value s;
      do a <- rd_arr l; let '(sp, vs, z) := a in
      do _ <- wr l (OArr sp (upd vs i v) z);
      ha_decode_loop l s k n' (S i) (skipn k bits)
  end.
Definition ha_set_from (l : nat) (bits : chromosome) : hop unit :=
  do a <- rd_arr l; let '(s, vs, z) := a in
  do _ <- hlift (cs_check z (length bits));
  do s <- deref s; do k <- hd_size s; ha_decode_loop l s k (length vs) 0 bits.
(** double_parameters_array.cpp:98-111 SetValues *)
Definition ha_set_values (l : nat) (vs : list num) : hop unit :=
  do a <- rd_arr l; let '(s, old, z) := a in
  if negb (Nat.eqb (length vs) (length old)) then hlift (Throw InvalidArgument)
  else
    do _ <- wr l (OArr s vs z);
    do b <- ha_check l; if b then hret tt else hlift (Throw InvalidArgument).
(** double_parameters_array.cpp:20-32 Clone *)
Definition ha_clone (l : nat) : hop nat :=
  do a <- rd_arr l; let '(s, vs, z) := a in
  do n <- new (OArr None vs None);
  match s with
  | None => hlift (UB NullDeref)
  | Some s =>
      do s' <- hd_clone s;
      do _ <- wr n (OArr (Some s') vs None);
      do k <- hd_size s;
      do _ <- wr n (OArr (Some s') vs (Some (k * length vs)%nat));
      hret n
  end.
(** double_parameters_array.cpp:10-18, the constructor *)
Definition ha_make (mn mx p : num) (n : nat) : hop nat :=
  do s <- hd_make mn mn mx p; do k <- hd_size s; new (OArr (Some s) (repeat (n_ofZ N 0) n) (Some (k * n)%nat)).
(** double_parameters_array.cpp:34-43 HasSameMetaParameters of a DoubleParametersArray *)
Definition ha_same_meta (l m : nat) : hop bool :=
  do a <- rd_arr l; let '(s, vs, _) := a in
  do b <- rd_arr m; let '(t, ws, _) := b in
  if Nat.eqb (length vs) (length ws) then do s <- deref s; do t <- deref t; hd_same_meta s t else hret false.

(** *** All classes, by virtual call. [fuel] bounds the nesting of composites. *)
(** GetChromosomeSize *)
Definition h_size (l : nat) : hop nat :=
  do o <- rd l; hlift (cs_get (match o with OInt p => ip_size p | ODouble _ _ _ _ s => s | OArr _ _ s => s | OComp s _ _ => s end)).
(** composite_discrete_parameters.cpp:28-35, 49-57, 71-79: the loops over the components *)
Fixpoint check_all (check : nat -> hop bool) (ch : list (option nat)) : hop bool :=
  match ch with
  | [] => hret true
  | c :: r => do c <- deref c; do b <- check c; if b then check_all check r else hret false
  end.
Fixpoint encode_all (encode : nat -> chromosome -> hop chromosome) (ch : list (option nat)) (rest : chromosome) : hop chromosome :=
  match ch with
  | [] => hret rest
  | c :: r =>
      do c <- deref c;
      do k <- h_size c;
      if (k <=? length rest)%nat then
        do x <- encode c (firstn k rest);
        do xs <- encode_all encode r (skipn k rest);
        hret (x ++ xs)
      else hlift (UB OutOfBounds)
  end.
Fixpoint decode_all (decode : nat -> chromosome -> hop unit) (ch : list (option nat)) (rest : chromosome) : hop unit :=
  match ch with
  | [] => hret tt
  | c :: r =>
      do c <- deref c;
      do k <- h_size c;
      if (k <=? length rest)%nat then do _ <- decode c (firstn k rest); decode_all decode r (skipn k rest)
      else hlift (UB OutOfBounds)
  end.
(** CheckConstraints; composite_discrete_parameters.cpp:24-36 *)
Fixpoint h_check (fuel : nat) (l : nat) : hop bool :=
  match fuel with
  | O => hlift (UB OutOfFuel)
  | S f =>
      do o <- rd l;
      match o with
      | OInt p => hret (ip_check p)
      | ODouble _ _ _ _ _ => hd_check l
      | OArr _ _ _ => ha_check l
      | OComp _ inited ch =>
          if inited then check_all (h_check f) ch
          else hlift (Throw LogicError)
      end
  end.
(** SetChromosome; composite_discrete_parameters.cpp:38-58 *)
Fixpoint h_encode (fuel : nat) (l : nat) (old : chromosome) : hop chromosome :=
  match fuel with
  | O => hlift (UB OutOfFuel)
  | S f =>
      do o <- rd l;
      match o with
      | OInt p => hlift (ip_set_chromosome p old)
      | ODouble _ _ _ _ _ => hd_encode l old
      | OArr _ _ _ => ha_encode l old
      | OComp s inited ch =>
          if inited then
            do _ <- hlift (cs_check s (length old));
            encode_all (h_encode f) ch old
          else hlift (Throw LogicError)
      end
  end.
(** SetFromChromosome; composite_discrete_parameters.cpp:60-80 *)
Fixpoint h_set_from (fuel : nat) (l : nat) (bits : chromosome) : hop unit :=
  match fuel with
  | O => hlift (UB OutOfFuel)
  | S f =>
      do o <- rd l;
      match o with
      | OInt _ => hi_set_from l bits
      | ODouble _ _ _ _ _ => hd_set_from l bits
      | OArr _ _ _ => ha_set_from l bits
      | OComp s inited ch =>
          if inited then
            do _ <- hlift (cs_check s (length bits));
            decode_all (h_set_from f) ch bits
          else hlift (Throw LogicError)
      end
  end.

Definition rd_comp (l : nat) : hop (csize * bool * list (option nat)) :=
  do o <- rd l; hlift (match o with OComp s i ch => Ok (s, i, ch) | _ => UB BadCast end).
(** composite_discrete_parameters.cpp:129-137 CountTotalChromosomeSize *)
Fixpoint h_total (ch : list (option nat)) : hop nat :=
  match ch with
  | [] => hret O
  | c :: r => do c <- deref c; do a <- h_size c; do b <- h_total r; hret (a + b)%nat
  end.
(** composite_discrete_parameters.cpp:86-89: the loop of Initialize; [i] is the position. *)
Fixpoint h_fill (clone : nat -> hop nat) (l : nat) (args : list (option nat)) (i : nat) : hop unit :=
  match args with
  | [] => hret tt
  | a :: r =>
      do a <- deref a; do c <- clone a;
      do o <- rd_comp l; let '(s, b, ch) := o in
      do _ <- wr l (OComp s b (upd ch i (Some c)));
      h_fill clone l r (S i)
  end.
(** composite_discrete_parameters.cpp:82-94 Initialize(parameters); const_chromosome_size_paremeters.cpp:22-33;
    initialization_checker.cpp:23-33 *)
Definition h_initialize_with (clone : nat -> hop nat) (l : nat) (args : list (option nat)) : hop unit :=
  do o <- rd_comp l; let '(s, b, _) := o in
  do _ <- wr l (OComp s b (repeat None (length args)));
  do _ <- h_fill clone l args 0;
  do o <- rd_comp l; let '(s, b, ch) := o in
  do t <- h_total ch;
  let (s', r) := cs_set s t in
  do _ <- wr l (OComp s' b ch);
  do _ <- hlift r;
  if b then hlift (Throw LogicError) else wr l (OComp s' true ch).
(** Clone; composite_discrete_parameters.cpp:10-17 *)
Fixpoint h_clone (fuel : nat) (l : nat) : hop nat :=
  match fuel with
  | O => hlift (UB OutOfFuel)
  | S f =>
      do o <- rd l;
      match o with
      | OInt _ => hi_clone l
      | ODouble _ _ _ _ _ => hd_clone l
      | OArr _ _ _ => ha_clone l
      | OComp _ inited ch =>
          if inited then
            do n <- new (OComp None false []);
            do _ <- h_initialize_with (h_clone f) n ch; hret n
          else hlift (Throw LogicError)
      end
  end.
(** HasSameMetaParameters of each class; a failed dynamic_cast throws *)
Definition h_same_meta (l m : nat) : hop bool :=
  do o <- rd l; do q <- rd m;
  match o, q with
  | OInt a, OInt b => hret (ip_same_meta a b)
  | ODouble _ _ _ _ _, ODouble _ _ _ _ _ => hd_same_meta l m
  | OArr _ _ _, OArr _ _ _ => ha_same_meta l m
  | _, _ => hlift (Throw RuntimeError)
  end.
(** composite_discrete_parameters.cpp:117-127 GetParameter (indexes below SIZE_MAX) *)
Definition h_get (l : nat) (i : nat) : hop nat :=
  do o <- rd_comp l; let '(_, b, ch) := o in
  if b then match nth_error ch i with None => hlift (Throw OutOfRange) | Some c => deref c end
  else hlift (Throw LogicError).
(** a chain of GetParameter calls *)
Fixpoint h_resolve (l : nat) (path : list nat) : hop nat :=
  match path with [] => hret l | i :: r => do c <- h_get l i; h_resolve c r end.
(** composite_discrete_parameters.cpp:110-115 *)
Definition h_number (l : nat) : hop nat :=
  do o <- rd_comp l; let '(_, b, ch) := o in if b then hret (length ch) else hlift (Throw LogicError).

(** *** A program that works with parameter objects. It holds shared pointers to the objects it has created, in the order of
    their creation; it reaches the components of composites by GetParameter. *)
Definition handle : Type := (nat * list nat)%type.
Inductive call : Type :=
| NewInt (v mn mx : Z) | NewDouble (v mn mx p : num) | NewDefault | NewArray (mn mx p : num) (n : nat) | NewComposite
| Clone (x : handle)
| Initialize (x : handle) (args : list handle) | InitializeN (x : handle) (sample : handle) (n : nat)
| SetInt (x : handle) (v : Z) | SetDouble (x : handle) (v : num) | SetArray (x : handle) (vs : list num)
| SetFromChromosome (x : handle) (bits : chromosome)
| SetChromosome (x : handle) (old : chromosome) | CheckConstraints (x : handle) | GetSize (x : handle)
| GetInt (x : handle) | GetDouble (x : handle) | GetArray (x : handle) | GetNumber (x : handle)
| SameMeta (x y : handle).
(** What a call returns. *)
Inductive result : Type :=
| RUnit | RZ (z : Z) | RNum (v : num) | RNums (vs : list num) | RBits (c : chromosome) | RBool (b : bool) | RNat (n : nat).

Definition state : Type := (heap * list nat)%type.
Definition h_handle (roots : list nat) (x : handle) : hop nat :=
  do l <- hlift (at_ roots (fst x)); h_resolve l (snd x).
Fixpoint h_handles (roots : list nat) (xs : list handle) : hop (list nat) :=
  match xs with [] => hret [] | x :: r => do l <- h_handle roots x; do ls <- h_handles roots r; hret (l :: ls) end.
Definition keep {A} (f : A -> result) (roots : list nat) (m : hop A) (h : heap) : outcome result * state :=
  let (o, h') := m h in (omap f o, (h', roots)).
(** a call that creates an object *)
Definition create (roots : list nat) (m : hop nat) (h : heap) : outcome result * state :=
  match m h with
  | (Ok l, h') => (Ok RUnit, (h', roots ++ [l]))
  | (Throw e, h') => (Throw e, (h', roots))
  | (UB u, h') => (UB u, (h', roots))
  end.
Definition hstep (c : call) (st : state) : outcome result * state :=
  let (h, roots) := st in
  let fuel := length h in
  match c with
  | NewInt v mn mx => create roots (do p <- hlift (ip_make v mn mx); new (OInt p)) h
  | NewDouble v mn mx p => create roots (hd_make v mn mx p) h
  | NewDefault => create roots hd_default h
  | NewArray mn mx p n => create roots (ha_make mn mx p n) h
  | NewComposite => create roots (new (OComp None false [])) h
  | Clone x => create roots (do l <- h_handle roots x; h_clone fuel l) h
  | Initialize x args =>
      keep (fun _ => RUnit) roots (do l <- h_handle roots x; do ls <- h_handles roots args; h_initialize_with (h_clone fuel) l (map Some ls)) h
  | InitializeN x y n =>
      keep (fun _ => RUnit) roots (do l <- h_handle roots x; do m <- h_handle roots y; h_initialize_with (h_clone fuel) l (repeat (Some m) n)) h
  | SetInt x v => keep (fun _ => RUnit) roots (do l <- h_handle roots x; hi_set_value l v) h
  | SetDouble x v => keep (fun _ => RUnit) roots (do l <- h_handle roots x; hd_set_value l v) h
  | SetArray x vs => keep (fun _ => RUnit) roots (do l <- h_handle roots x; ha_set_values l vs) h
  | SetFromChromosome x bits => keep (fun _ => RUnit) roots (do l <- h_handle roots x; h_set_from fuel l bits) h
  | SetChromosome x old => keep RBits roots (do l <- h_handle roots x; h_encode fuel l old) h
  | CheckConstraints x => keep RBool roots (do l <- h_handle roots x; h_check fuel l) h
  | GetSize x => keep RNat roots (do l <- h_handle roots x; h_size l) h
  | GetInt x => keep RZ roots (do l <- h_handle roots x; do p <- rd_int l; hret (ip_value p)) h
  | GetDouble x => keep RNum roots (do l <- h_handle roots x; hd_get_value l) h
  | GetArray x => keep RNums roots (do l <- h_handle roots x; do a <- rd_arr l; hret (snd (fst a))) h
  | GetNumber x => keep RNat roots (do l <- h_handle roots x; h_number l) h
  | SameMeta x y => keep RBool roots (do l <- h_handle roots x; do m <- h_handle roots y; h_same_meta l m) h
  end.
(** A run of calls: exceptions are caught by the program, undefined behaviour ends everything. *)
Fixpoint hrun (cs : list call) (st : state) : list (outcome result) * state :=
  match cs with
  | [] => ([], st)
  | c :: r => let (o, st') := hstep c st in
              match o with
              | UB u => ([UB u], st')
              | _ => let (os, st'') := hrun r st' in (o :: os, st'')
              end
  end.
Definition empty_state : state := ([], []).
End Heap.
