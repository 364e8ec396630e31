(** Model of common/cache.h and common/stored_value.h. *)
From Verif Require Import Base Num.

Section CacheModel.
Variables K V : Type.
Variable keqb : K -> K -> bool.

(** common/stored_value.h:9-29 StoredValue: has_value_/value_ as an option, number_of_usage_ (an int in the code;
    the overflow of the counter after 2^31-1 reads of one entry is not modelled). *)
Record stored : Type := MkStored { sv_value : option V; sv_usage : nat }.

(** cache.h:34,54-55: cache_map_ (an unordered map: an association list with distinct keys whose order is
    irrelevant) and data_limit_in_megabytes_. [rec_bytes] stands for sizeof(key_type)+sizeof(value_type). *)
Record cache : Type := MkCache { c_map : list (K * stored); c_limit : dbl; c_bytes : Z }.
Definition with_map (c : cache) m := MkCache m (c_limit c) (c_bytes c).

(** cache.h:62-73 Create: null pointer unless limit > 0. *)
Definition c_create (bytes : Z) (limit : dbl) : option cache :=
  if d_ltb (d_ofZ 0) limit then Some (MkCache [] limit bytes) else None.

Fixpoint lookup (k : K) (m : list (K * stored)) : option stored :=
  match m with
  | [] => None
  | (k', s) :: r => if keqb k k' then Some s else lookup k r
  end.
(** operator[] assignment: overwrite or insert. *)
Fixpoint put (k : K) (s : stored) (m : list (K * stored)) : list (K * stored) :=
  match m with
  | [] => [(k, s)]
  | (k', s') :: r => if keqb k k' then (k', s) :: r else (k', s') :: put k s r
  end.
(** operator[] read access: inserts a default StoredValue when the key is absent. *)
Definition touch (k : K) (m : list (K * stored)) : stored * list (K * stored) :=
  match lookup k m with
  | Some s => (s, m)
  | None => (MkStored None 0, put k (MkStored None 0) m)
  end.

(** cache.h:75-80 IsCached. *)
Definition is_cached (k : K) (c : cache) : cache * bool :=
  let (s, m) := touch k (c_map c) in
  (with_map c m, match sv_value s with Some _ => true | None => false end).

(** cache.h:82-95 GetCachedValue. *)
Definition get_cached (k : K) (c : cache) : cache * outcome V :=
  let (s, m) := touch k (c_map c) in
  match sv_value s with
  | Some v => (with_map c (put k (MkStored (Some v) (S (sv_usage s))) m), Ok v)
  | None => (with_map c m, Throw RuntimeError)
  end.

(** cache.h:136-145 IsSizeLimitExceeded for a map of [n] entries (size_t wrap-around not modelled). *)
Definition over (limit : dbl) (bytes : Z) (n : nat) : bool :=
  d_ltb limit (d_div (d_ofZ (bytes * Z.of_nat n)) (d_ofZ 1048576)).
Definition exceeded (c : cache) : bool := over (c_limit c) (c_bytes c) (length (c_map c)).

(** cache.h:147-167 ClearUnusedCacheValues(1): erase the entries with fewer than [min_usage] reads. *)
Definition clear_unused (min_usage : nat) (c : cache) : cache :=
  with_map c (filter (fun e => negb (Nat.ltb (sv_usage (snd e)) min_usage)) (c_map c)).

(** cache.h:120-134 ClearCacheUpToLimit. *)
Definition clear_up_to_limit (c : cache) : cache * outcome unit :=
  let c1 := if exceeded c then clear_unused 1 c else c in
  if exceeded c1 then (c1, Throw RuntimeError) else (c1, Ok tt).

(** cache.h:97-104 AddValue. *)
Definition add_value (k : K) (v : V) (c : cache) : cache * outcome unit :=
  match clear_up_to_limit c with
  | (c1, Ok _) => (with_map c1 (put k (MkStored (Some v) 0) (c_map c1)), Ok tt)
  | (c1, Throw e) => (c1, Throw e)
  | (c1, UB u) => (c1, UB u)
  end.

(** cache.h:106-118 AddValues. *)
Definition add_values (rs : list (K * V)) (c : cache) : cache * outcome unit :=
  match clear_up_to_limit c with
  | (c1, Ok _) => (with_map c1 (fold_left (fun m r => put (fst r) (MkStored (Some (snd r)) 0) m) rs (c_map c1)), Ok tt)
  | (c1, Throw e) => (c1, Throw e)
  | (c1, UB u) => (c1, UB u)
  end.

(** The public operations, and their observable results. *)
Inductive cop : Type := IsCached (k : K) | Get (k : K) | Add (k : K) (v : V) | AddMany (rs : list (K * V)).
Inductive cres : Type := RBool (b : bool) | RGet (o : outcome V) | RAdd (o : outcome unit).

Definition cstep (c : cache) (o : cop) : cache * cres :=
  match o with
  | IsCached k => let (c', b) := is_cached k c in (c', RBool b)
  | Get k => let (c', r) := get_cached k c in (c', RGet r)
  | Add k v => let (c', r) := add_value k v c in (c', RAdd r)
  | AddMany rs => let (c', r) := add_values rs c in (c', RAdd r)
  end.

(** the cache after a history, and the observable trace of the history *)
Fixpoint cafter (c : cache) (os : list cop) : cache :=
  match os with [] => c | o :: r => cafter (fst (cstep c o)) r end.
Fixpoint ctrace (c : cache) (os : list cop) : list (cop * cres) :=
  match os with [] => [] | o :: r => (o, snd (cstep c o)) :: ctrace (fst (cstep c o)) r end.

End CacheModel.
