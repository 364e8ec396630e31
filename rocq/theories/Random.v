(** Model of common/random.{h,cpp}. [rand()] is an explicit stream [nat -> Z] of future results; drawing
    consumes its head. RAND_MAX is the parameter [RM]. srand/time only choose the stream (not modelled). *)
From Verif Require Import Base Num.
Local Open Scope Z_scope.

Definition rstream : Type := nat -> Z.
(** rand(): the head of the stream and the remaining stream. *)
Definition draw (g : rstream) : Z * rstream := (g 0%nat, fun n => g (S n)).
(** every rand() result lies in [0, RAND_MAX] *)
Definition rvalid (RM : Z) (g : rstream) : Prop := forall n, 0 <= g n <= RM.

(** src/common/random.cpp:20-26 ValidateProbability. *)
Definition validate_probability (N : Num) (p : num N) : outcome unit :=
  if orb (n_ltb N p (n_ofZ N 0)) (n_ltb N (n_ofZ N 1) p) then Throw InvalidArgument else Ok tt.

(** random.cpp:28-31 GetBaseRandomQuantity, as a function of the rand() result [r]. *)
Definition base_of (N : Num) (RM r : Z) : num N := n_div N (n_ofZ N r) (n_ofZ N RM).
Definition get_base (N : Num) (RM : Z) (g : rstream) : num N * rstream :=
  let (r, g') := draw g in (base_of N RM r, g').

(** random.cpp:33-37 GetContinuousRandomQuantity. *)
Definition continuous_of (N : Num) (RM r : Z) (mn mx : num N) : num N :=
  n_add N (n_mul N (base_of N RM r) (n_sub N mx mn)) mn.
Definition get_continuous (N : Num) (RM : Z) (mn mx : num N) (g : rstream) : num N * rstream :=
  let (r, g') := draw g in (continuous_of N RM r mn mx, g').

(** random.cpp:39-47 GenerateRandomVector. *)
Fixpoint random_vector (N : Num) (RM : Z) (n : nat) (mn mx : num N) (g : rstream) : list (num N) * rstream :=
  match n with
  | O => ([], g)
  | S k => let (x, g1) := get_continuous N RM mn mx g in
           let (xs, g2) := random_vector N RM k mn mx g1 in (x :: xs, g2)
  end.

(** random.cpp:55-58 GetUniformlyDistributedDiscreteRandomQuantity: [max-min] and [+1] are int operations,
    [%] by zero is undefined, [%] is C++ remainder (Z.rem), the final sum is an int operation. *)
Definition discrete_of (r mn mx : Z) : outcome Z :=
  let! w := chk_int (mx - mn) in
  let! w1 := chk_int (w + 1) in
  if w1 =? 0 then UB DivByZero else chk_int (Z.rem r w1 + mn).
Definition get_discrete (mn mx : Z) (g : rstream) : outcome Z * rstream :=
  let (r, g') := draw g in (discrete_of r mn mx, g').

(** random.cpp:60-65 CheckEventOutcome. rand() is not called when validation throws. *)
Definition check_event (N : Num) (RM : Z) (p : num N) (g : rstream) : outcome bool * rstream :=
  match validate_probability N p with
  | Ok _ => let (b, g') := get_base N RM g in (Ok (n_leb N b p), g')
  | Throw e => (Throw e, g)
  | UB u => (UB u, g)
  end.

(** The Random object: bool_base_, next_bit_in_bool_base_, max_bit_in_bool_base_ (random.h). *)
Record rnd : Type := MkRnd { bool_base : Z; next_bit : Z; max_bit : Z }.

(** random.cpp:78-86: the constructor's doubling loop, [fuel] iterations left (sizeof(int)*8 = 32). *)
Fixpoint max_bit_loop (RM : Z) (fuel : nat) (m mb : Z) : outcome Z :=
  match fuel with
  | O => Ok mb
  | S k => let! m' := chk_int (m * 2) in
           if RM <? m' then Ok mb else max_bit_loop RM k m' (mb + 1)
  end.

(** random.cpp:67-87 constructor. *)
Definition rnd_new (RM : Z) (g : rstream) : outcome rnd * rstream :=
  let (b, g') := draw g in
  (omap (MkRnd b 0) (max_bit_loop RM 32 1 0), g').

(** random.cpp:89-101 GetNextBitFromBoolBase: shifting an int by 32 or more (or a negative count) is undefined,
    and so is shifting 1 into the sign bit (count 31) in the language standard of the project. *)
Definition next_bit_from_base (s : rnd) (g : rstream) : outcome (Z * rnd) * rstream :=
  let '(s, g) := if max_bit s <? next_bit s
                 then let (b, g') := draw g in (MkRnd b 0 (max_bit s), g') else (s, g) in
  if orb (next_bit s <? 0) (30 <? next_bit s) then (UB BadShift, g)
  else (Ok (Z.land (bool_base s) (Z.shiftl 1 (next_bit s)), MkRnd (bool_base s) (next_bit s + 1) (max_bit s)), g).

(** random.cpp:49-53 GetRandomBool. *)
Definition get_bool (s : rnd) (g : rstream) : outcome (bool * rnd) * rstream :=
  let (o, g') := next_bit_from_base s g in
  (omap (fun x => (fst x =? 0, snd x)) o, g').

(** A history of uses of the one Random object: a call of GetRandomBool, or any other call of its methods,
    which consumes some number of rand() results and does not touch the object. *)
Inductive rcall : Type := CBool | COther (n : nat).
Definition skip (n : nat) (g : rstream) : rstream := fun k => g (n + k)%nat.
(** the results of the GetRandomBool calls of the history, in order *)
Fixpoint rrun (s : rnd) (g : rstream) (cs : list rcall) : outcome (list bool) :=
  match cs with
  | [] => Ok []
  | CBool :: r => let (o, g') := get_bool s g in
                  let! x := o in let! bs := rrun (snd x) g' r in Ok (fst x :: bs)
  | COther n :: r => rrun s (skip n g) r
  end.
(** construct the object from a fresh stream, then run the history *)
Definition rhistory (RM : Z) (g : rstream) (cs : list rcall) : outcome (list bool) :=
  let (o, g') := rnd_new RM g in let! s := o in rrun s g' cs.
