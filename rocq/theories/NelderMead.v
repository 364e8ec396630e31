(** Model of optimization/bounded_nelder_mead.cpp, in any arithmetic with a square root and an absolute value.
    OutputPolygon (writes a plot file) and the console warnings are not modelled. *)
From Verif Require Import Base Num Misc Optim Searches.
Local Open Scope Z_scope.
Local Open Scope list_scope.

Section NM.
Variable M : MNum.
Notation num := (num M).
Notation "0" := (n_ofZ M 0). Notation "1" := (n_ofZ M 1). Notation "2" := (n_ofZ M 2).
Notation "x + y" := (n_add M x y). Notation "x - y" := (n_sub M x y).
Notation "x * y" := (n_mul M x y). Notation "x / y" := (n_div M x y).
(** Constants::Eps. *)
Variable eps : num.
(** The configuration (bounded_nelder_mead.cpp:26-32). *)
Record nm_cfg : Type := MkNM { nm_l : num; nm_precision : num; nm_lower : num; nm_upper : num }.

(** bounded_nelder_mead.cpp:168-181 CorrectByProjectingToBounds. *)
Definition project (c : nm_cfg) (v : list num) : list num :=
  map (fun x => if n_ltb M (nm_upper c) x then nm_upper c else if n_ltb M x (nm_lower c) then nm_lower c else x) v.

(** bounded_nelder_mead.cpp:253-290 GetIndexes: (first_max, second_max, min). *)
Fixpoint indexes_loop (values : list num) (i : nat) (rest : list num) (fm sm mn : nat) : outcome (nat * nat * nat) :=
  match rest with
  | [] => Ok (fm, sm, mn)
  | v :: r =>
      let! vf := at_ values fm in
      let! vs := at_ values sm in
      let! vm := at_ values mn in
      let '(fm', sm') := if n_ltb M vf v then (i, fm) else if n_ltb M vs v then (fm, i) else (fm, sm) in
      let mn' := if n_ltb M v vm then i else mn in
      indexes_loop values (S i) r fm' sm' mn'
  end.
Definition get_indexes (values : list num) : outcome (nat * nat * nat) :=
  match values with
  | v0 :: v1 :: r => if n_ltb M v1 v0 then indexes_loop values 2 r 0 1 1 else indexes_loop values 2 r 1 0 0
  | _ => Throw InvalidArgument
  end.

(** bounded_nelder_mead.cpp:292-322 GetRegularSimplex. *)
Definition simplex_r1 (n : nat) (l : num) : num :=
  let s := m_sqrt M (n_ofZ M (Z.of_nat n + 1)%Z) in
  (l * (s + n_ofZ M (Z.of_nat n) - 1)) / (n_ofZ M (Z.of_nat n) * m_sqrt M 2).
Definition simplex_r2 (n : nat) (l : num) : num :=
  let s := m_sqrt M (n_ofZ M (Z.of_nat n + 1)%Z) in
  (l * (s - 1)) / (n_ofZ M (Z.of_nat n) * m_sqrt M 2).
(** the vertex that gets r1 at coordinate [i] and r2 elsewhere; [j] counts coordinates *)
Fixpoint vertex (r1 r2 : num) (i j : nat) (base : list num) : list num :=
  match base with [] => [] | b :: r => (b + (if Nat.eqb j i then r1 else r2)) :: vertex r1 r2 i (S j) r end.
Definition regular_simplex (base : list num) (l : num) : list (list num) :=
  let n := length base in
  base :: map (fun i => vertex (simplex_r1 n l) (simplex_r2 n l) i 0 base) (seq 0 n).

(** coordinatewise combination of two vectors of the same length *)
Fixpoint zip_with (op : num -> num -> num) (a b : list num) : list num :=
  match a, b with x :: r, y :: s => op x y :: zip_with op r s | _, _ => [] end.
(** bounded_nelder_mead.cpp:324-336, 338-350, 352-364: arguments center_of_mass, target_point. *)
Definition reflexion (c t : list num) : list num := zip_with (fun x y => x + 1 * (x - y)) c t.
Definition expansion (c t : list num) : list num := zip_with (fun x y => x + 2 * (y - x)) c t.
Definition half : num := 1 / 2.
Definition contraction (c t : list num) : list num := zip_with (fun x y => x + half * (y - x)) c t.

(** bounded_nelder_mead.cpp:366-387 Reduction: every vertex but number [k] moves halfway to it. *)
Definition reduction (polygon : list (list num)) (k : nat) : outcome (list (list num)) :=
  match nth_error polygon k with
  | None => Throw InvalidArgument
  | Some p => Ok (map (fun iv => if Nat.eqb (fst iv) k then snd iv else zip_with (fun x y => x + half * (y - x)) p (snd iv))
                      (combine (seq 0 (length polygon)) polygon))
  end.

(** bounded_nelder_mead.cpp:422-449 GetCenterOfMass. [sum_without k i0 s polygon i]: the sum of coordinate [i] over the
    vertices but number [k]. *)
Fixpoint sum_without (k j : nat) (s : num) (polygon : list (list num)) (i : nat) : outcome num :=
  match polygon with
  | [] => Ok s
  | v :: r => if Nat.eqb j k then sum_without k (S j) s r i
              else let! x := at_ v i in sum_without k (S j) (s + x) r i
  end.
Definition center_of_mass (polygon : list (list num)) (k : nat) : outcome (list num) :=
  match polygon with
  | [] => Throw InvalidArgument
  | v0 :: _ =>
      if (length polygon <=? k)%nat then Throw InvalidArgument
      else mapM (fun i => let! s := sum_without k 0 0 (firstn (S (length v0)) polygon) i in Ok (s / n_ofZ M (Z.of_nat (length v0)))) (seq 0 (length v0))
  end.

(** bounded_nelder_mead.cpp:389-405 CountDifferance. *)
Fixpoint sum_from (s : num) (l : list num) : num := match l with [] => s | x :: r => sum_from (s + x) r end.
Definition difference (values : list num) : num :=
  let n := n_ofZ M (Z.of_nat (length values)) in
  let average := sum_from 0 values / n in
  m_sqrt M (sum_from 0 (map (fun v => (v - average) * (v - average)) values) / n).
(** bounded_nelder_mead.cpp:407-420 CountPolygonDifferance: the previous polygon is read at the positions of the
    present one. *)
Fixpoint vector_difference (s : num) (v w : list num) : outcome num :=
  match v, w with
  | [], _ => Ok s
  | x :: r, y :: t => vector_difference (s + m_abs M (x - y)) r t
  | _ :: _, [] => UB OutOfBounds
  end.
Fixpoint polygon_difference (s : num) (p q : list (list num)) : outcome num :=
  match p, q with
  | [], _ => Ok s
  | v :: r, w :: t => let! s' := vector_difference s v w in polygon_difference s' r t
  | [] :: r, [] => polygon_difference s r []
  | (_ :: _) :: _, [] => UB OutOfBounds
  end.
(** bounded_nelder_mead.cpp:229-251 WasSamePolygonBefore: the answer and the new list of previous polygons (at most 10). *)
Fixpoint same_before (polygon : list (list num)) (prev : list (list (list num))) : outcome bool :=
  match prev with
  | [] => Ok false
  | q :: r => let! d := polygon_difference 0 polygon q in if n_ltb M d eps then Ok true else same_before polygon r
  end.
Definition remember (polygon : list (list num)) (prev : list (list (list num))) : list (list (list num)) :=
  (if (10 <=? length prev)%nat then tl prev else prev) ++ [polygon].
(** bounded_nelder_mead.cpp:206-227 GetTerminationCriteria ([true] = go on). *)
Definition go_on (c : nm_cfg) (r : Z) (values : list num) (polygon : list (list num)) (prev : list (list (list num)))
  : outcome (bool * list (list (list num))) :=
  let! v0 := at_ polygon 0 in
  if (1000 * Z.of_nat (length v0) <? r)%Z then Ok (false, prev)
  else
    let! b := same_before polygon prev in
    let prev' := remember polygon prev in
    if b then Ok (false, prev') else Ok (n_ltb M (nm_precision c) (difference values), prev').

Notation search := (search M).
Notation ask := (ask_min M).
(** bounded_nelder_mead.cpp:183-196 CountObjectiveFunctionValues. *)
Fixpoint ask_all (vs : list (list num)) : search (list num) :=
  match vs with [] => Ret [] | v :: r => ask! y := ask v in ask! ys := ask_all r in Ret (y :: ys) end.

(** One pass through the loop body, bounded_nelder_mead.cpp:83-160: the new polygon and values, and whether the
    simplex was reduced (a remark of the model, not state of the program). *)
Definition nm_body (c : nm_cfg) (polygon : list (list num)) (values : list num) : search (list (list num) * list num * bool) :=
  ask! idx := lift (get_indexes values) in
  let '(fm, sm, mn) := idx in
  ask! highest := lift (at_ values fm) in
  ask! second := lift (at_ values sm) in
  ask! lowest := lift (at_ values mn) in
  ask! center := lift (center_of_mass polygon fm) in
  ask! worst := lift (at_ polygon fm) in
  let reflected := project c (reflexion center worst) in
  ask! rv := ask reflected in
  if n_ltb M rv lowest then
    let expanded := project c (expansion center reflected) in
    ask! ev := ask expanded in
    if n_ltb M ev rv then Ret (upd polygon fm expanded, upd values fm ev, false)
    else Ret (upd polygon fm reflected, upd values fm rv, false)
  else if n_leb M rv second then Ret (upd polygon fm reflected, upd values fm rv, false)
  else
    let better := n_ltb M rv highest in
    let polygon1 := if better then upd polygon fm reflected else polygon in
    let values1 := if better then upd values fm rv else values in
    let highest1 := if better then rv else highest in
    ask! target := lift (at_ polygon1 fm) in
    let contracted := contraction center target in
    ask! cv := ask contracted in
    if n_ltb M highest1 cv then
      ask! reduced := lift (reduction polygon1 mn) in Ret (reduced, values1, true)
    else Ret (upd polygon1 fm contracted, upd values1 fm cv, false).

(** bounded_nelder_mead.cpp:81-161: the do/while loop; [r] counts iterations. *)
Fixpoint nm_loop (fuel : nat) (c : nm_cfg) (r : Z) (polygon : list (list num)) (values : list num) (prev : list (list (list num))) (reduced : bool)
  : search (list (list num) * list num * list (list (list num)) * bool) :=
  match fuel with
  | O => Undef OutOfFuel
  | S fu =>
      ask! b := nm_body c polygon values in
      let '(polygon', values', red) := b in
      ask! t := lift (go_on c (r + 1)%Z values' polygon' prev) in
      let '(continue, prev') := t in
      if continue then nm_loop fu c (r + 1)%Z polygon' values' prev' (reduced || red)
      else Ret (polygon', values', prev', (reduced || red)%bool)
  end.

(** bounded_nelder_mead.cpp:72-162: the whole search up to the choice of the result. previous_polygons_ is a member of
    the optimiser: [prev] is its content when Optimize is called (empty for a new object). The loop makes at most
    1000*n+1 passes, so the fuel is never exhausted (C46_terminates). *)
Definition nm_run (c : nm_cfg) (prev : list (list (list num))) (init : list num)
  : search (list (list num) * list num * list (list (list num)) * bool) :=
  let polygon := regular_simplex init (nm_l c) in
  ask! values := ask_all polygon in
  nm_loop (S (1000 * length init)) c 0%Z polygon values prev false.
(** bounded_nelder_mead.cpp:164-165: the vertex with the greatest value. *)
Definition nm_find (c : nm_cfg) (prev : list (list (list num))) (init : list num) : search (list num) :=
  ask! r := nm_run c prev init in
  let '(polygon, values, _, _) := r in
  lift (at_ polygon (max_element M values)).
End NM.
