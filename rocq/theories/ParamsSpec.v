(** Specification vocabulary for the parameter classes, independent of the model's code. *)
From Verif Require Import Base.
Local Open Scope Z_scope.

(** Little-endian value of a bit string: gene 0 has weight 1, gene 1 weight 2, ... *)
Fixpoint bits_val (bits : list bool) : Z :=
  match bits with
  | [] => 0
  | b :: r => (if b then 1 else 0) + 2 * bits_val r
  end.

(** [k] is the least exponent with 2^k >= d. *)
Definition least_pow2_exp (d : Z) (k : nat) : Prop :=
  d <= 2 ^ Z.of_nat k /\ forall j : nat, d <= 2 ^ Z.of_nat j -> (k <= j)%nat.

(** Slice [i*k, (i+1)*k) of a bit string. *)
Definition slice {A} (k i : nat) (l : list A) : list A := firstn k (skipn (i * k) l).

Lemma bits_val_range bits : 0 <= bits_val bits < 2 ^ Z.of_nat (length bits).
Proof.
  induction bits as [|b r IH]; cbn [bits_val]; [cbn; lia|].
  change (length (b :: r)) with (S (length r)). rewrite Nat2Z.inj_succ, Z.pow_succ_r by lia.
  destruct b; lia.
Qed.

Lemma bits_val_inj a b : length a = length b -> bits_val a = bits_val b -> a = b.
Proof.
  revert b; induction a as [|x a IH]; destruct b as [|y b]; cbn [bits_val length]; intros Hl Hv; try discriminate; auto.
  assert (x = y) by (destruct x, y; auto; lia). subst. f_equal. apply IH; destruct y; lia.
Qed.

Lemma least_pow2_exp_unique d k j : least_pow2_exp d k -> least_pow2_exp d j -> k = j.
Proof. intros [H1 H2] [H3 H4]. apply H2 in H3. apply H4 in H1. lia. Qed.
