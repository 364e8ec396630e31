(** Models of optimization/grid_search.cpp and optimization/random_search.cpp, on parameters of class
    ContinuousParametersArray (a vector of doubles; Clone copies it). *)
From Verif Require Import Base Num Random Misc Optim.
Local Open Scope Z_scope.
Local Open Scope list_scope.

(** std::max_element: position of the first greatest element, as a loop over positions [i ..]. *)
Fixpoint max_loop (N : Num) (largest : num N) (index i : nat) (rest : list (num N)) : nat :=
  match rest with
  | [] => index
  | v :: r => if n_ltb N largest v then max_loop N v i (S i) r else max_loop N largest index (S i) r
  end.
(** of an empty range: the end, position 0 *)
Definition max_element (N : Num) (vs : list (num N)) : nat :=
  match vs with [] => 0%nat | v :: r => max_loop N v 0 1 r end.

(** ** grid_search.cpp *)
(** 26-46: (int)std::floor((upper_bound_ - lower_bound_)/precision_) + 1. *)
Definition grid_size (N : Num) (precision lower upper : num N) : outcome Z :=
  let! k := n_toint N (n_floor N (n_div N (n_sub N upper lower) precision)) in chk_int (k + 1).
(** 94-104 IntegerPow on size_t: wraps modulo 2^64. *)
Fixpoint integer_pow (value : Z) (pow : nat) : Z :=
  match pow with O => 1 | S k => (integer_pow value k * value) mod 2 ^ 64 end.
(** 54-58: the values of point number [i], one coordinate [j]. *)
Definition grid_coordinate (N : Num) (precision lower : num N) (size i : Z) (j : nat) : outcome (num N) :=
  let p := integer_pow size j in
  if p =? 0 then UB DivByZero else Ok (n_add N (n_mul N (n_ofZ N ((i / p) mod size)) precision) lower).
Definition grid_point (N : Num) (precision lower : num N) (size : Z) (n : nat) (i : Z) : outcome (list (num N)) :=
  mapM (grid_coordinate N precision lower size i) (seq 0 n).
(** 48-66: all points, in order. *)
Definition grid_points (N : Num) (precision lower : num N) (size : Z) (n : nat) : outcome (list (list (num N))) :=
  mapM (fun i => grid_point N precision lower size n (Z.of_nat i)) (seq 0 (Z.to_nat (integer_pow size n))).
(** 26-71 Optimize: the points examined and the vector the parameters hold at the end. The values come from the worker
    pool in order (C32-C37). GridSearch::Optimize has no [maximize] argument (so the class cannot be instantiated as an
    IOptimizer at this commit): it always takes the greatest value. *)
Definition grid_optimize (N : Num) (precision lower upper : num N) (f : list (num N) -> outcome (num N)) (p : list (num N))
  : outcome (list (list (num N)) * list (num N)) :=
  let! size := grid_size N precision lower upper in
  if size <=? 0 then Throw InvalidArgument
  else
    let! points := grid_points N precision lower size (length p) in
    let! values := mapM f points in
    let! best := at_ points (max_element N values) in
    if Nat.eqb (length best) (length p) then Ok (points, best) else Throw InvalidArgument.

(** ** random_search.cpp *)
(** 45-51: the random vectors, drawn one after the other. *)
Fixpoint random_points (N : Num) (RM : Z) (count n : nat) (lo hi : num N) (g : rstream) : list (list (num N)) * rstream :=
  match count with
  | O => ([], g)
  | S k => let (v, g1) := random_vector N RM n lo hi g in
           let (vs, g2) := random_points N RM k n lo hi g1 in (v :: vs, g2)
  end.
(** 41-66 FindOptimalParameters followed by SetValues (continuous_optimizer.cpp:39), without a nested optimiser. *)
Definition random_search (RM : Z) (count : nat) (lo hi : dbl) (f : list dbl -> outcome dbl) (maximize : bool) (p : list dbl) (g : rstream)
  : outcome (list dbl) :=
  simple_process (list dbl) f (fst (random_points FNum RM count (length p) lo hi g)) maximize.
(** The same with a nested optimiser (constructor argument [optimizer] not null): [opt] is its Optimize on a vector. *)
Definition random_search_with (RM : Z) (count : nat) (lo hi : dbl) (f : list dbl -> outcome dbl) (opt : list dbl -> bool -> outcome (list dbl))
  (maximize : bool) (p : list dbl) (g : rstream) : outcome (list dbl) :=
  optimization_process (list dbl) f (fun v => Ok v) opt (fst (random_points FNum RM count (length p) lo hi g)) maximize.
