(** Model of optimization/hleborodov_rosenbrock_method.cpp, in any arithmetic with a square root and an absolute value.
    All vectors of the code have dimension_ elements (they are created with that size in FindOptimalParameters); loops over
    j < dimension_ that touch corresponding elements are [zip_with]. The console message (line 92) is not modelled. *)
From Verif Require Import Base Num Optim NelderMead.
Local Open Scope Z_scope.
Local Open Scope list_scope.

Section Rosenbrock.
Variable M : MNum.
Notation num := (num M).
Notation "0" := (n_ofZ M 0).
Notation "x + y" := (n_add M x y). Notation "x - y" := (n_sub M x y).
Notation "x * y" := (n_mul M x y). Notation "x / y" := (n_div M x y).
Notation zip_with := (zip_with M).
Notation search := (search M).

(** The configuration (hleborodov_rosenbrock_method.cpp:31-41) and the constants 1.5 and -0.5 (lines 22-23). *)
Record rb_cfg : Type := MkRb { rb_precision : num; rb_max_iterations : Z; rb_first_step : num; rb_max_step : num }.
Definition rb_increase : num := n_ofZ M 3 / n_ofZ M 2.
Definition rb_decrease : num := n_ofZ M (-1) / n_ofZ M 2.

(** hleborodov_rosenbrock_method.cpp:103-114 InitializeBasisAndSteps. *)
Definition rb_init_basis (n : nat) : list (list num) :=
  map (fun i => map (fun j => if Nat.eqb i j then n_ofZ M 1 else 0) (seq 0 n)) (seq 0 n).
(** hleborodov_rosenbrock_method.cpp:116-130 IsExitCriteriaFulfilled. *)
Definition rb_exit (c : rb_cfg) (args prev : list num) : bool :=
  forallb (fun d => negb (n_ltb M (rb_precision c) (m_abs M d))) (zip_with (fun a p => a - p) args prev).
(** hleborodov_rosenbrock_method.cpp:169-175 MakeStepPerCoordinate. *)
Definition rb_move (step : num) (dir args : list num) : list num := zip_with (fun a b => a + step * b) args dir.
(** hleborodov_rosenbrock_method.cpp:253-260 CorrectStep. *)
Definition rb_correct (c : rb_cfg) (s : num) : num :=
  if n_ltb M (rb_max_step c) (m_abs M s) then rb_max_step c * s / m_abs M s else s.
(** hleborodov_rosenbrock_method.cpp:140 std::sort with std::greater: in descending order. *)
Fixpoint insert_desc (x : num) (l : list num) : list num :=
  match l with [] => [x] | y :: r => if n_ltb M y x then x :: l else y :: insert_desc x r end.
Fixpoint sort_desc (l : list num) : list num :=
  match l with [] => [] | x :: r => insert_desc x (sort_desc r) end.
(** hleborodov_rosenbrock_method.cpp:142-164: the loop of MakeStep; the new steps and tested_arguments2. *)
Fixpoint rb_directions (c : rb_cfg) (start : num) (args : list num) (steps : list num) (basis : list (list num)) (args2 : list num)
  : search (list num * list num) :=
  match steps, basis with
  | s :: ss, dir :: ds =>
      ask! v := ask_min M (rb_move s dir args) in
      let s' := rb_correct c (s * (if n_ltb M v start then rb_increase else rb_decrease)) in
      ask! r := rb_directions c start args ss ds (rb_move s' dir args2) in
      Ret (s' :: fst r, snd r)
  | _, _ => Ret ([], args2)
  end.
(** hleborodov_rosenbrock_method.cpp:132-167 MakeStep: the new steps and the new arguments. *)
Definition rb_make_step (c : rb_cfg) (args steps : list num) (basis : list (list num)) : search (list num * list num) :=
  ask! start := ask_min M args in rb_directions c start args (sort_desc steps) basis args.

(** hleborodov_rosenbrock_method.cpp:182-191: rows of matrix_of_coeff; row j sums steps_[i]*basis_[i] over i >= j. *)
Fixpoint rb_row (steps : list num) (basis : list (list num)) (acc : list num) : list num :=
  match steps, basis with s :: ss, dir :: ds => rb_row ss ds (rb_move s dir acc) | _, _ => acc end.
Fixpoint rb_matrix (n : nat) (steps : list num) (basis : list (list num)) : list (list num) :=
  match steps, basis with
  | s :: ss, dir :: ds => rb_row steps basis (repeat 0 n) :: rb_matrix n ss ds
  | _, _ => []
  end.
(** hleborodov_rosenbrock_method.cpp:241-251 ScalarComposition. *)
Fixpoint rb_scalar (acc : num) (a b : list num) : num :=
  match a, b with x :: r, y :: s => rb_scalar (acc + x * y) r s | _, _ => acc end.
(** hleborodov_rosenbrock_method.cpp:224-239 NormalizeVector. *)
Definition rb_normalize (v : list num) : list num :=
  let norm := m_sqrt M (rb_scalar 0 v v) in if n_eqb M norm 0 then v else map (fun x => x / norm) v.
(** hleborodov_rosenbrock_method.cpp:193-221: orthogonalisation; [done] are the rows of basis_ already replaced. *)
Fixpoint rb_gram_schmidt (done rows : list (list num)) : list (list num) :=
  match rows with
  | [] => done
  | m :: r =>
      let u := fold_left (fun u e => zip_with (fun a b => a - rb_scalar 0 m e * b) u e) done m in
      rb_gram_schmidt (done ++ [rb_normalize u]) r
  end.
(** hleborodov_rosenbrock_method.cpp:177-222 CreateNewBasis. *)
Definition rb_new_basis (n : nat) (steps : list num) (basis : list (list num)) : list (list num) :=
  rb_gram_schmidt [] (rb_matrix n steps basis).

(** hleborodov_rosenbrock_method.cpp:79-98: the loop of FindOptimalParameters with [todo] iterations left; the result
    (next_step_arguments), and steps_array_ and basis_ as they are left in the object. *)
Fixpoint rb_loop (todo : nat) (c : rb_cfg) (args next : list num) (steps : list num) (basis : list (list num))
  : search (list num * list num * list (list num)) :=
  match todo with
  | O => Ret (next, steps, basis)
  | S t =>
      ask! r := rb_make_step c next steps basis in
      let (steps', next') := (r : list num * list num) in
      if rb_exit c next' args then Ret (next', steps', basis)
      else rb_loop t c next' next' steps' (rb_new_basis (length next') steps' basis)
  end.
(** hleborodov_rosenbrock_method.cpp:71-101 FindOptimalParameters, with the state it leaves behind. *)
Definition rb_run (c : rb_cfg) (init : list num) : search (list num * list num * list (list num)) :=
  rb_loop (Z.to_nat (rb_max_iterations c)) c init init (repeat (rb_first_step c) (length init)) (rb_init_basis (length init)).
Definition rb_find (c : rb_cfg) (init : list num) : search (list num) :=
  ask! r := rb_run c init in Ret (fst (fst r)).
End Rosenbrock.
