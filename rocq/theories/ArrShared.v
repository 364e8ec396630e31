(** Model of the const member functions of optimization/params/double_parameters_array.cpp when several threads call them: CheckConstraints and SetChromosome are const but
    go through the one sample_parameter_ of the object (double_parameters_array.cpp:50, 70), whose value they overwrite. One step is one statement that touches the
    sample. *)
From Verif Require Import Base Num Params.
Local Open Scope list_scope.

Section Arr.
Variable N : Num.
Notation num := (num N).
Notation arr := (DoubleArr N).

(** What a thread does with the objects, which it names by numbers: CheckConstraints(), SetChromosome on a range with the given contents, get_values(), and
    [j = k.Clone()]. *)
Inductive aop : Type := Check (k : nat) | Encode (k : nat) (range : chromosome) | Values (k : nat) | Clone (k j : nat).
(** What the calls give back; [NoObject] is a call on a name that holds no object. *)
Inductive ares : Type := Answer (o : outcome bool) | Bits (o : outcome chromosome) | Held (vs : list num) | Cloned (o : outcome unit) | NoObject.
(** Where a thread is: *)
Inductive apc : Type :=
| Idle
| CheckSet (k i : nat)   (* double_parameters_array.cpp:47-49, before SetValue(values_[i]) *)
| CheckRead (k i : nat)  (* line 50: before CheckConstraints of the sample *)
| EncodeSet (k i : nat) (written rest : chromosome)  (* lines 67-71, before SetValue(values_[i]) *)
| EncodeRead (k i : nat) (written rest : chromosome) (* line 72, before SetChromosome of the sample *).
Record athread : Type := MkAT { at_prog : list aop; at_pc : apc; at_done : list ares }.
Definition objects : Type := nat -> option arr.
Definition set_obj (m : objects) (k : nat) (a : arr) : objects := fun j => if Nat.eqb j k then Some a else m j.
Definition with_sample (a : arr) (s : DoubleParam N) : arr := MkArr N s (da_values N a) (da_size N a).
(** the call at the head of the program returns [r] *)
Definition finish (t : athread) (r : ares) : athread := MkAT (tl (at_prog t)) Idle (at_done t ++ [r]).
Definition goto (t : athread) (pc : apc) : athread := MkAT (at_prog t) pc (at_done t).
(** an exception or undefined behaviour of an inner call ends the call *)
Definition check_ends (t : athread) {X} (o : outcome X) : athread :=
  finish t (Answer (match o with Ok _ => UB NullDeref | Throw e => Throw e | UB u => UB u end)).
Definition encode_ends (t : athread) {X} (o : outcome X) : athread :=
  finish t (Bits (match o with Ok _ => UB NullDeref | Throw e => Throw e | UB u => UB u end)).

(** One step of a thread. *)
Definition astep (m : objects) (t : athread) : objects * athread :=
  match at_pc t with
  | Idle =>
      match at_prog t with
      | [] => (m, t)
      | Check k :: _ => match m k with None => (m, finish t NoObject) | Some _ => (m, goto t (CheckSet k 0)) end
      (* double_parameters_array.cpp:58-65: CheckForConstChromosomeSize, then the chromosome size of the sample *)
      | Encode k range :: _ =>
          match m k with
          | None => (m, finish t NoObject)
          | Some a => match (let! _ := cs_check (da_size N a) (length range) in cs_get (dp_size N (da_sample N a))) with
                      | Ok _ => (m, goto t (EncodeSet k 0 [] range))
                      | o => (m, encode_ends t o)
                      end
          end
      (* lines 113-116 *)
      | Values k :: _ => match m k with None => (m, finish t NoObject) | Some a => (m, finish t (Held (da_values N a))) end
      (* lines 20-32; the value of the sample is read once *)
      | Clone k j :: _ =>
          match m k with
          | None => (m, finish t NoObject)
          | Some a => match da_clone N a with Ok b => (set_obj m j b, finish t (Cloned (Ok tt))) | o => (m, finish t (Cloned (omap (fun _ => tt) o))) end
          end
      end
  | CheckSet k i =>
      match m k with
      | None => (m, finish t NoObject)
      | Some a => match nth_error (da_values N a) i with
                  | None => (m, finish t (Answer (Ok true)))
                  | Some v => match dp_set_value N (da_sample N a) v with Ok s => (set_obj m k (with_sample a s), goto t (CheckRead k i)) | o => (m, check_ends t o) end
                  end
      end
  | CheckRead k i =>
      match m k with
      | None => (m, finish t NoObject)
      | Some a => match dp_check N (da_sample N a) with
                  | Ok true => (m, goto t (CheckSet k (S i)))
                  | Ok false => (m, finish t (Answer (Ok false)))
                  | o => (m, check_ends t o)
                  end
      end
  | EncodeSet k i written rest =>
      match m k with
      | None => (m, finish t NoObject)
      | Some a => match nth_error (da_values N a) i with
                  | None => (m, finish t (Bits (Ok (written ++ rest))))
                  | Some v => match dp_set_value N (da_sample N a) v with Ok s => (set_obj m k (with_sample a s), goto t (EncodeRead k i written rest)) | o => (m, encode_ends t o) end
                  end
      end
  | EncodeRead k i written rest =>
      match m k with
      | None => (m, finish t NoObject)
      | Some a =>
          let g := match dp_size N (da_sample N a) with Some g => g | None => 0 end in
          match dp_set_chromosome N (da_sample N a) (firstn g rest) with
          | Ok c => (m, goto t (EncodeSet k (S i) (written ++ c) (skipn g rest)))
          | o => (m, encode_ends t o)
          end
      end
  end.

Record astate : Type := MkAS { as_objs : objects; as_threads : list athread }.
Definition ainit (m : objects) (programs : list (list aop)) : astate := MkAS m (map (fun p => MkAT p Idle []) programs).
(** A schedule says which thread makes each step; a step of a thread that has finished changes nothing. *)
Definition asched1 (s : astate) (i : nat) : astate :=
  match nth_error (as_threads s) i with
  | None => s
  | Some t => let (m, t') := astep (as_objs s) t in MkAS m (upd (as_threads s) i t')
  end.
Definition arun (schedule : list nat) (s : astate) : astate := fold_left asched1 schedule s.
End Arr.
