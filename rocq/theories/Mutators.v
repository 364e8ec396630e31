(** Model of optimization/genetic_algorithm/{gen_mutator_base,flip_bit_mutator,linear_mutator}.cpp. *)
From Verif Require Import Base Num Random.
Local Open Scope Z_scope.

Definition genes : Type := list bool.

(** A gene mutator (gen_mutator_base.h): the virtual functions ShouldMutateCurrentGen and AfterGenProcessed as
    functions of the mutator's state and of the rand() stream. *)
Record genmut : Type := MkGenMut {
  gm_st : Type;
  gm_should : gm_st -> rstream -> outcome bool * rstream;
  gm_after : gm_st -> bool -> rstream -> outcome gm_st * rstream }.

(** gen_mutator_base.cpp:16-29 MutateChromosome. When a virtual function throws, the genes already flipped stay
    flipped in the code; the model drops the chromosome of a failed call. *)
Fixpoint mutate_chromosome (M : genmut) (c : genes) (s : gm_st M) (g : rstream)
  : outcome (genes * gm_st M) * rstream :=
  match c with
  | [] => (Ok ([], s), g)
  | b :: r =>
      let (o, g1) := gm_should M s g in
      match o with
      | Throw e => (Throw e, g1)
      | UB u => (UB u, g1)
      | Ok m =>
          let (o2, g2) := gm_after M s m g1 in
          match o2 with
          | Throw e => (Throw e, g2)
          | UB u => (UB u, g2)
          | Ok s' =>
              let (o3, g3) := mutate_chromosome M r s' g2 in
              (let! x := o3 in Ok ((if m then negb b else b) :: fst x, snd x), g3)
          end
      end
  end.

(** flip_bit_mutator.h: max_number_of_skipped_gens_, gens_to_skip_now_, currently_skipped_gens_. *)
Record flip : Type := MkFlip { fl_max : Z; fl_skip : Z; fl_cur : Z }.

(** flip_bit_mutator.cpp:45-49 SetGensToSkipNow. *)
Definition flip_set (mx : Z) (g : rstream) : outcome flip * rstream :=
  let (o, g') := get_discrete 0 mx g in (omap (fun k => MkFlip mx k 0) o, g').

(** flip_bit_mutator.cpp:14-26 constructor. *)
Definition flip_new (N : Num) (p : num N) (g : rstream) : outcome flip * rstream :=
  match (let! q := n_toint N (n_floor N (n_div N (n_ofZ N 1) p)) in chk_int (q - 1)) with
  | Ok mx => if mx <=? 0 then (Throw InvalidArgument, g) else flip_set mx g
  | Throw e => (Throw e, g)
  | UB u => (UB u, g)
  end.

(** flip_bit_mutator.cpp:28-43 ShouldMutateCurrentGen and AfterGenProcessed. *)
Definition flip_bit : genmut := {|
  gm_st := flip;
  gm_should := fun s g => (Ok (fl_skip s <=? fl_cur s), g);
  gm_after := fun s m g => if m then flip_set (fl_max s) g
                           else (omap (MkFlip (fl_max s) (fl_skip s)) (chk_int (fl_cur s + 1)), g) |}.

(** linear_mutator.h + gen_mutator_base.h: start/end probability and the mutation context
    (current_generation, max_number_of_generations). *)
Record lin (N : Num) : Type := MkLin { li_start : num N; li_end : num N; li_cur : Z; li_maxgen : Z }.

(** linear_mutator.cpp:12-17 constructor. *)
Definition lin_new (N : Num) (s e : num N) (cur maxgen : Z) : outcome (lin N) :=
  let! _ := validate_probability N s in let! _ := validate_probability N e in Ok (MkLin N s e cur maxgen).

(** gen_mutator_base.cpp:11-14 ApplyNewMutationContext. *)
Definition lin_context (N : Num) (m : lin N) (cur maxgen : Z) : lin N := MkLin N (li_start N m) (li_end N m) cur maxgen.

(** linear_mutator.cpp:24-29 GetCurrentGenMutationProbability ([maxgen - 1] is an int operation; it cannot overflow
    for a positive number of generations, and is modelled without the check). *)
Definition lin_probability (N : Num) (m : lin N) : num N :=
  n_add N (n_div N (n_mul N (n_sub N (li_end N m) (li_start N m)) (n_ofZ N (li_cur N m))) (n_ofZ N (li_maxgen N m - 1)))
          (li_start N m).

(** linear_mutator.cpp:19-22. AfterGenProcessed is the empty base version (gen_mutator_base.cpp:31-33). *)
Definition linear (N : Num) (RM : Z) : genmut := {|
  gm_st := lin N;
  gm_should := fun s g => check_event N RM (lin_probability N s) g;
  gm_after := fun s m g => (Ok s, g) |}.
