(** Shared vocabulary of the model: outcomes of C++ calls, 32-bit integers. *)
From Coq Require Export List ZArith Lia Bool Arith.
Export ListNotations.

(** Exception classes thrown by the library (std::logic_error and its subclasses, std::runtime_error; LengthError is
    std::length_error of a vector resized to a negative int, StringLiteral a thrown string literal). *)
Inductive exn : Set :=
| LogicError | InvalidArgument | OutOfRange | RuntimeError | LengthError | StringLiteral.

(** Kinds of undefined behaviour (and of non-termination) the model distinguishes. *)
Inductive ub : Set :=
| IntOverflow | DivByZero | BadShift | BadCast | OutOfBounds | NullDeref | AssertFailed | OutOfFuel.

(** Result of a call: a value, an escaping exception, or undefined behaviour. *)
Inductive outcome (A : Type) : Type :=
| Ok (a : A) | Throw (e : exn) | UB (u : ub).
Arguments Ok {A} a.
Arguments Throw {A} e.
Arguments UB {A} u.

Definition bind {A B} (x : outcome A) (f : A -> outcome B) : outcome B :=
  match x with Ok a => f a | Throw e => Throw e | UB u => UB u end.
Notation "'let!' x := e 'in' f" := (bind e (fun x => f))
  (at level 200, x binder, e at level 100, f at level 200).

Definition omap {A B} (f : A -> B) (x : outcome A) : outcome B :=
  match x with Ok a => Ok (f a) | Throw e => Throw e | UB u => UB u end.

(** Run an outcome-returning function over a list, left to right, stopping at the first failure. *)
Fixpoint mapM {A B} (f : A -> outcome B) (l : list A) : outcome (list B) :=
  match l with
  | [] => Ok []
  | x :: r => let! y := f x in let! ys := mapM f r in Ok (y :: ys)
  end.

Definition is_ok {A} (x : outcome A) : bool := match x with Ok _ => true | _ => false end.

(** C++ [int] on the supported platforms: 32 bits, two's complement; overflow is undefined. *)
Definition INT_MAX : Z := 2147483647%Z.
Definition INT_MIN : Z := (-2147483648)%Z.
Definition in_int (z : Z) : bool := ((INT_MIN <=? z) && (z <=? INT_MAX))%Z.
(** Result of a signed int operation whose mathematical value is [z]. *)
Definition chk_int (z : Z) : outcome Z := if in_int z then Ok z else UB IntOverflow.

(** Indexing a vector with operator[]: out of bounds is undefined. *)
Definition at_ {A} (l : list A) (i : nat) : outcome A :=
  match nth_error l i with Some a => Ok a | None => UB OutOfBounds end.

(** Write one position of a list. *)
Fixpoint upd {A} (l : list A) (i : nat) (a : A) : list A :=
  match l, i with
  | [], _ => []
  | _ :: r, O => a :: r
  | x :: r, S j => x :: upd r j a
  end.

Lemma upd_length {A} (l : list A) i a : length (upd l i a) = length l.
Proof. revert i; induction l as [|x l IH]; intros [|i]; simpl; auto. Qed.

Lemma nth_error_upd {A} (l : list A) i j a :
  nth_error (upd l i a) j =
  if Nat.eqb i j then (if Nat.ltb j (length l) then Some a else None) else nth_error l j.
Proof.
  revert i j; induction l as [|x l IH]; intros [|i] [|j]; simpl; auto.
  - destruct (Nat.eqb i j); reflexivity.
  - rewrite IH. reflexivity.
Qed.

Lemma bind_ok {A B} (x : outcome A) (f : A -> outcome B) b :
  bind x f = Ok b <-> exists a, x = Ok a /\ f a = Ok b.
Proof.
  destruct x as [a|e|u]; simpl; split; intro H.
  - exists a; auto.
  - destruct H as (a' & Ha & Hf). inversion Ha; subst; exact Hf.
  - discriminate.
  - destruct H as (a' & Ha & _); discriminate.
  - discriminate.
  - destruct H as (a' & Ha & _); discriminate.
Qed.

Lemma mapM_ok_length {A B} (f : A -> outcome B) l r : mapM f l = Ok r -> length r = length l.
Proof.
  revert r; induction l as [|x l IH]; simpl; intros r H.
  - inversion H; reflexivity.
  - apply bind_ok in H as (y & _ & H). apply bind_ok in H as (ys & Hys & H).
    inversion H; subst; simpl. f_equal. apply IH; exact Hys.
Qed.

Lemma mapM_ok_nth {A B} (f : A -> outcome B) l r :
  mapM f l = Ok r <->
  (length r = length l /\ forall i a b, nth_error l i = Some a -> nth_error r i = Some b -> f a = Ok b).
Proof.
  revert r; induction l as [|x l IH]; simpl; intros r; split.
  - intro H; inversion H; subst; split; auto. intros [|i] a b Ha; discriminate.
  - intros [H _]. destruct r; [reflexivity|discriminate].
  - intro H. apply bind_ok in H as (y & Hy & H). apply bind_ok in H as (ys & Hys & H).
    inversion H; subst. apply IH in Hys as [Hl Hn]. split; [simpl; congruence|].
    intros [|i] a b Ha Hb; simpl in *; [congruence|]. eapply Hn; eauto.
  - intros [Hl Hn]. destruct r as [|b r]; [discriminate|].
    assert (Hb : f x = Ok b) by (apply (Hn 0%nat); reflexivity).
    rewrite Hb; simpl.
    assert (Hr : mapM f l = Ok r).
    { apply IH; split; [simpl in Hl; lia|]. intros i a c Ha Hc. apply (Hn (S i)); assumption. }
    rewrite Hr; reflexivity.
Qed.
