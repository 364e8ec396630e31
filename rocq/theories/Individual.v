(** Model of optimization/genetic_algorithm/individual.cpp, over any implementation of IDiscreteParameters, any
    source of random numbers and any mutator. *)
From Coq Require Import Ascii String DecimalString DecimalNat.
From Verif Require Import Base Num Random.
Local Open Scope Z_scope.
Local Open Scope list_scope.

(** Computations that draw random numbers: world-passing with outcomes. The state of objects at the moment an
    exception escapes is not modelled here. *)
Definition wm (W X : Type) : Type := W -> outcome X * W.
Definition wret {W X} (x : X) : wm W X := fun w => (Ok x, w).
Definition wlift {W X} (o : outcome X) : wm W X := fun w => (o, w).
Definition wbind {W X Y} (m : wm W X) (f : X -> wm W Y) : wm W Y :=
  fun w => match m w with (Ok x, w') => f x w' | (Throw e, w') => (Throw e, w') | (UB u, w') => (UB u, w') end.
Notation "'let*' x := e 'in' f" := (wbind e (fun x => f)) (at level 200, x binder, e at level 100, f at level 200).
Fixpoint wmapM {W A B} (f : A -> wm W B) (l : list A) : wm W (list B) :=
  match l with
  | [] => wret []
  | x :: r => let* y := f x in let* ys := wmapM f r in wret (y :: ys)
  end.

(** The environment of the genetic algorithm:
    - an implementation of i_discrete_parameters.h / i_parameters.h (state type and the five operations used);
    - the random numbers ([e_rand]: rand() through Random; [e_bool]: Random::GetRandomBool);
    - the mutator (i_mutator.h): MutateChromosome and ApplyNewMutationContext (current, max generations);
    - [e_sort]: std::sort with GreaterFitness on (fitness, pointer) pairs;
    - [e_fuel]: bound on the iterations of the retry loops (do ... while(!success)) that the code does not bound. *)
Record env : Type := MkEnv {
  e_par : Type;
  e_size : e_par -> outcome nat;
  e_enc : e_par -> list bool -> outcome (list bool);
  e_dec : e_par -> list bool -> e_par * outcome unit;
  e_chk : e_par -> outcome bool;
  e_cln : e_par -> outcome e_par;
  e_w : Type;
  e_rm : Z;
  e_rand : e_w -> Z * e_w;
  e_bool : wm e_w bool;
  e_mut : list bool -> wm e_w (list bool);
  e_ctx : Z -> Z -> e_w -> e_w;
  e_sort : list (dbl * nat) -> list (dbl * nat);
  e_fuel : nat }.

Section Ind.
Variable E : env.
Notation M := (wm (e_w E)).

(** individual.h: parameters_, chromosome_, has_fitness_, fitness_, times_chosen_for_crossover_. Only initialised
    individuals are modelled (every method of an uninitialised one throws logic_error). *)
Record indiv : Type := MkInd {
  i_par : e_par E; i_chr : list bool; i_has : bool; i_fit : dbl; i_times : Z }.

(** individual.cpp:62-72 Initialize (the clone is stored, the chromosome is written by the original). *)
Definition ind_new (p : e_par E) : outcome indiv :=
  let! q := e_cln E p in
  let! n := e_size E q in
  let! c := e_enc E p (repeat false n) in
  Ok (MkInd q c false (d_ofZ 0) 0).

(** individual.cpp:37-60 copy constructor / assignment: parameters are cloned, everything else copied. *)
Definition ind_copy (i : indiv) : outcome indiv :=
  let! q := e_cln E (i_par i) in Ok (MkInd q (i_chr i) (i_has i) (i_fit i) (i_times i)).

(** individual.cpp:227-232 SetParametersAccordingToChromosome, for a new chromosome [c]; fitness dropped by the
    callers before. *)
Definition ind_set (i : indiv) (c : list bool) : outcome indiv :=
  let (q, o) := e_dec E (i_par i) c in
  let! _ := o in Ok (MkInd q c false (i_fit i) (i_times i)).

Fixpoint random_genes (n : nat) : M (list bool) :=
  match n with
  | O => wret []
  | S k => let* b := e_bool E in let* r := random_genes k in wret (b :: r)
  end.

(** individual.cpp:88-115 SetRandomChromosome; returns the number of invalid chromosomes met. *)
Fixpoint set_random_loop (fuel : nat) (i : indiv) (inv : nat) : M (indiv * nat) :=
  match fuel with
  | O => wlift (UB OutOfFuel)
  | S k =>
      let* c := random_genes (length (i_chr i)) in
      let* j := wlift (ind_set i c) in
      let* ok := wlift (e_chk E (i_par j)) in
      if (ok : bool) then wret (j, inv) else set_random_loop k j (S inv)
  end.
Definition set_random (i : indiv) : M (indiv * nat) := set_random_loop (e_fuel E) i 0.

(** individual.cpp:140-163 Mutate: mutates again, cumulatively, until the constraints hold. *)
Fixpoint mutate_loop (fuel : nat) (i : indiv) (inv : nat) : M (indiv * nat) :=
  match fuel with
  | O => wlift (UB OutOfFuel)
  | S k =>
      let* c := e_mut E (i_chr i) in
      let* j := wlift (ind_set i c) in
      let* ok := wlift (e_chk E (i_par j)) in
      if (ok : bool) then wret (j, inv) else mutate_loop k j (S inv)
  end.
Definition ind_mutate (i : indiv) : M (indiv * nat) := mutate_loop (e_fuel E) i 0.

(** individual.cpp:243-251: the loop of BoolCrossover from position [q] on. *)
Fixpoint cross_from (q : nat) (a b : list bool) : list bool * list bool :=
  match a, b with
  | x :: a', y :: b' =>
      match q with
      | O => let (ra, rb) := cross_from O a' b' in
             if Bool.eqb x y then (x :: ra, y :: rb) else (negb x :: ra, x :: rb)
      | S q' => let (ra, rb) := cross_from q' a' b' in (x :: ra, y :: rb)
      end
  | _, _ => (a, b)
  end.

(** individual.cpp:234-252 BoolCrossover. [size()-1] for size 0 becomes -1 as an int. *)
Definition bool_crossover (a b : list bool) : M (list bool * list bool) :=
  if negb (Nat.eqb (length a) (length b)) then wlift (Throw InvalidArgument)
  else fun w => let (r, w') := e_rand E w in
                (let! q := discrete_of r 0 (Z.of_nat (length a) - 1) in Ok (cross_from (Z.to_nat q) a b), w').

(** individual.cpp:117-138 Crossover: new states of both individuals, and success. *)
Definition ind_crossover (i j : indiv) : M (indiv * indiv * bool) :=
  let* ab := bool_crossover (i_chr i) (i_chr j) in
  let* i' := wlift (ind_set i (fst ab)) in
  let* j' := wlift (ind_set j (snd ab)) in
  let* ok1 := wlift (e_chk E (i_par i')) in
  let* ok2 := (if (ok1 : bool) then wlift (e_chk E (i_par j')) else wret false) in
  wret (i', j', andb ok1 ok2).

(** individual.cpp:185-200 get_fitness / set_fitness. *)
Definition get_fitness (i : indiv) : outcome dbl := if i_has i then Ok (i_fit i) else Throw LogicError.
Definition set_fitness (i : indiv) (f : dbl) : outcome indiv :=
  if d_ltb f (d_ofZ 0) then Throw LogicError else Ok (MkInd (i_par i) (i_chr i) true f (i_times i)).

(** ** Text form, individual.cpp:254-305. [show] is ostream << double, [parse] istream >> double: the number at
    the beginning of a text, after white space, and what remains of the text; 0 (or the largest number, when it is
    too large) and no text when there is none: the stream has failed, and nothing more is read from it. *)
Definition text : Type := list ascii.
Definition tab : ascii := "009"%char.
Definition newline : ascii := "010"%char.
Definition is_space (a : ascii) : bool :=
  let n := nat_of_ascii a in orb (Nat.eqb n 32) (andb (Nat.leb 9 n) (Nat.leb n 13)).
Definition of_string (s : string) : text := list_ascii_of_string s.

(** istream >> std::string: skip white space, then take a maximal run of other characters. *)
Fixpoint skip_spaces (t : text) : text :=
  match t with [] => [] | a :: r => if is_space a then skip_spaces r else t end.
Fixpoint take_word (t : text) : text * text :=
  match t with
  | [] => ([], [])
  | a :: r => if is_space a then ([], t) else let (w, r') := take_word r in (a :: w, r')
  end.
Definition next_word (t : text) : text * text := take_word (skip_spaces t).

Definition bit_char (b : bool) : ascii := if b then "1"%char else "0"%char.

(** individual.cpp:254-264 operator<<. *)
Definition write_ind (show : dbl -> text) (i : indiv) : outcome text :=
  let! f := get_fitness i in
  Ok (of_string "Chromosome:" ++ tab :: map bit_char (i_chr i) ++ tab :: of_string "Fitness:" ++ tab :: show f ++ [newline]).

(** individual.cpp:282-298: decode the word of 0 and 1. *)
Fixpoint parse_bits (t : text) : outcome (list bool) :=
  match t with
  | [] => Ok []
  | a :: r => if Ascii.eqb a "1"%char then let! bs := parse_bits r in Ok (true :: bs)
              else if Ascii.eqb a "0"%char then let! bs := parse_bits r in Ok (false :: bs)
              else Throw LogicError
  end.

(** individual.cpp:266-305 operator>>. *)
Definition read_ind (parse : text -> dbl * text) (i : indiv) (t : text) : outcome indiv * text :=
  let (_, t1) := next_word t in
  let (cw, t2) := next_word t1 in
  let (_, t3) := next_word t2 in
  let (fv, t4) := parse t3 in
  (if negb (Nat.eqb (length cw) (length (i_chr i))) then Throw LogicError
   else let! c := parse_bits cw in
        let! j := set_fitness (MkInd (i_par i) c (i_has i) (i_fit i) (i_times i)) fv in
        let (q, o) := e_dec E (i_par j) (i_chr j) in
        let! _ := o in Ok (MkInd q (i_chr j) (i_has j) (i_fit j) (i_times j)), t4).

(** ** Population files, genetic_algorithm.cpp:461-500. A count is written in decimal. *)
Definition show_nat (n : nat) : text := list_ascii_of_string (NilZero.string_of_uint (Nat.to_uint n)).
(** istream >> std::size_t (of 64 bits, in the "C" locale): white space, a sign, decimal digits; what follows them stays in the stream. A negative
    number wraps around. No digit: 0; too large: the largest number; in both cases the stream fails and nothing more is read from it (as if it had ended). *)
Definition is_digit (a : ascii) : bool := let n := nat_of_ascii a in andb (Nat.leb 48 n) (Nat.leb n 57).
Fixpoint take_digits (v : Z) (t : text) : Z * text :=
  match t with
  | [] => (v, [])
  | a :: r => if is_digit a then take_digits (10 * v + (Z.of_nat (nat_of_ascii a) - 48)) r else (v, t)
  end.
Definition next_count (t : text) : Z * text :=
  let t0 := skip_spaces t in
  let (neg, t1) := match t0 with
    | a :: r => if Ascii.eqb a "-"%char then (true, r) else if Ascii.eqb a "+"%char then (false, r) else (false, t0)
    | [] => (false, []) end in
  match t1 with
  | a :: _ =>
      if is_digit a then
        let (v, t2) := take_digits 0 t1 in
        if v <? 2 ^ 64 then (if (neg : bool) then (- v) mod 2 ^ 64 else v, t2) else (2 ^ 64 - 1, [])
      else (0, [])
  | [] => (0, [])
  end.

(** genetic_algorithm.cpp:461-471 OutputPopulation. *)
Definition write_population (show : dbl -> text) (pop : list indiv) : outcome text :=
  let! first := at_ pop 0 in
  let! ts := mapM (write_ind show) pop in
  Ok (of_string "Population_size: " ++ newline :: show_nat (length pop) ++ newline ::
      of_string "Chromosome_size: " ++ newline :: show_nat (length (i_chr first)) ++ newline :: concat ts).

(** genetic_algorithm.cpp:489-497: the loop of InputPopulation; IsValid is individual.cpp:202-207. *)
Fixpoint read_individuals (parse : text -> dbl * text) (pop : list indiv) (t : text) : outcome (list indiv) * text :=
  match pop with
  | [] => (Ok [], t)
  | i :: r =>
      match read_ind parse i t with
      | (Ok j, t1) =>
          match e_chk E (i_par j) with
          | Ok true => let (o, t2) := read_individuals parse r t1 in (let! js := o in Ok (j :: js), t2)
          | Ok false => (Throw LogicError, t1)
          | Throw e => (Throw e, t1)
          | UB u => (UB u, t1)
          end
      | (Throw e, t1) => (Throw e, t1)
      | (UB u, t1) => (UB u, t1)
      end
  end.

(** genetic_algorithm.cpp:473-500 InputPopulation. *)
Definition read_population (parse : text -> dbl * text) (pop : list indiv) (t : text) : outcome (list indiv) :=
  let (_, t1) := next_word t in
  let (size, t2) := next_count t1 in
  let (_, t3) := next_word t2 in
  let (chromosome_size, t4) := next_count t3 in
  let! first := at_ pop 0 in
  if negb ((Z.of_nat (length pop) =? size) && (chromosome_size =? Z.of_nat (length (i_chr first))))
  then Throw LogicError
  else fst (read_individuals parse pop t4).

End Ind.
