(** Saving the population: optimization/genetic_algorithm/genetic_algorithm.cpp:437-471, called between generations (by the
    call-back, see GAStats.v) or after Optimize has returned. *)
From Verif Require Import Base Num Random Cache Individual GA.
Local Open Scope list_scope.

Section Save.
Variable E : env.
Variable show : dbl -> text.

(** genetic_algorithm.cpp:437-445 SavePopulationToFile and 461-471 OutputPopulation. [opens]: whether the file can be opened for
    writing. The text is what the file contains afterwards; None: nothing was written. What the file (truncated when it was
    opened) contains after an exception is not modelled. *)
Definition save_population (h : heap E) (pop : list nat) (opens : bool) : outcome (option text) :=
  if opens then let! is := mapM (h_get E h) pop in let! t := write_population E show is in Ok (Some t)
  else Ok None.

Variable hash : list bool -> Z.
Variable f : e_par E -> outcome dbl.
Variable same_type : e_par E -> e_par E -> bool.
Variable same_meta : e_par E -> e_par E -> outcome bool.

(** genetic_algorithm.cpp:122-143 Optimize and 447-459 ReadPopulationFromFile. [name]: None when no file name was given; the
    contents of the file, or None when it cannot be opened. *)
Definition optimize_named (cfg : ga_cfg) (initial : option (list (e_par E))) (parse : text -> dbl * text) (name : option (option text))
    (k : counter) (p : e_par E) (maximize : bool) : wm (e_w E) (e_par E * list (snap E) * gstate E) :=
  match name with
  | None => ga_optimize E hash f same_type same_meta cfg initial parse None k p maximize
  | Some (Some t) => ga_optimize E hash f same_type same_meta cfg initial parse (Some t) k p maximize
  | Some None => if negb maximize then wlift (Throw InvalidArgument)
                 else let* _ := ga_initialize E same_type same_meta cfg initial p in wlift (Throw RuntimeError)
  end.
End Save.
