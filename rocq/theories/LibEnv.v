(** The environment built from the library's own classes: parameter objects of Params.v, the Random object, a gene
    mutator of Mutators.v. *)
From Verif Require Import Base Num Random Params Mutators Individual.
Local Open Scope Z_scope.

(** world: the Random singleton, the future rand() results, the state of the mutator *)
Definition lib_world (M : genmut) : Type := (rnd * rstream * gm_st M)%type.

Definition lib_rand (M : genmut) (w : lib_world M) : Z * lib_world M :=
  let '(s, g, m) := w in let (r, g') := draw g in (r, (s, g', m)).
Definition lib_bool (M : genmut) : wm (lib_world M) bool := fun w =>
  let '(s, g, m) := w in
  match get_bool s g with
  | (Ok (b, s'), g') => (Ok b, (s', g', m))
  | (Throw e, g') => (Throw e, (s, g', m))
  | (UB u, g') => (UB u, (s, g', m))
  end.
Definition lib_mut (M : genmut) (c : list bool) : wm (lib_world M) (list bool) := fun w =>
  let '(s, g, m) := w in
  match mutate_chromosome M c m g with
  | (Ok (c', m'), g') => (Ok c', (s, g', m'))
  | (Throw e, g') => (Throw e, (s, g', m))
  | (UB u, g') => (UB u, (s, g', m))
  end.

(** insertion sort by decreasing fitness, as one possible std::sort *)
Fixpoint insert_desc (x : dbl * nat) (l : list (dbl * nat)) : list (dbl * nat) :=
  match l with
  | [] => [x]
  | y :: r => if d_ltb (fst y) (fst x) then x :: l else y :: insert_desc x r
  end.
Definition sort_desc (l : list (dbl * nat)) : list (dbl * nat) := fold_right insert_desc [] l.

Definition lib_env (N : Num) (RM : Z) (M : genmut) (ctx : Z -> Z -> gm_st M -> gm_st M) (fuel : nat) : env := {|
  e_par := param N; e_size := p_size N; e_enc := p_set_chromosome N; e_dec := p_set_from N;
  e_chk := p_check N; e_cln := p_clone N;
  e_w := lib_world M; e_rm := RM; e_rand := lib_rand M; e_bool := lib_bool M; e_mut := lib_mut M;
  e_ctx := fun cur mx w => let '(s, g, m) := w in (s, g, ctx cur mx m);
  e_sort := sort_desc; e_fuel := fuel |}.

(** the two mutators of the library *)
Definition flip_env (N : Num) (RM : Z) (fuel : nat) : env := lib_env N RM flip_bit (fun _ _ s => s) fuel.
Definition linear_env (N : Num) (RM : Z) (fuel : nat) : env :=
  lib_env N RM (linear N RM) (fun cur mx m => lin_context N m cur mx) fuel.
