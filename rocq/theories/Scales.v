(** Model of dsp/transform/wavelet/linear_scale.cpp and logarithmic_scale.cpp. *)
From Verif Require Import Base Num.
Local Open Scope Z_scope.
Local Open Scope list_scope.

Section Scales.
Variable N : Num.
Notation num := (num N).

(** linear_scale.cpp:44-55 CalculateScales. The count is a size_t (at least 2 here): count-1 is converted to double. *)
Definition calculate_linear (min max : num) (count : nat) : list num :=
  let step := n_div N (n_sub N max min) (n_ofZ N (Z.of_nat count - 1)) in
  map (fun i => n_add N min (n_mul N step (n_ofZ N (Z.of_nat i)))) (seq 0 count).
(** linear_scale.cpp:12-37 the constructor; the result is what GetScales (39-42) returns. *)
Definition linear_scale (min max : num) (count : nat) : outcome (list num) :=
  if n_leb N min (n_ofZ N 0) then Throw InvalidArgument
  else if n_leb N max (n_ofZ N 0) then Throw InvalidArgument
  else if n_leb N max min then Throw InvalidArgument
  else if (count <? 2)%nat then Throw InvalidArgument
  else Ok (calculate_linear min max count).

(** pow(2, e) for an int e. *)
Variable pow2 : Z -> num.
(** logarithmic_scale.cpp:28-42 CalculateScales, the loop: [scales_loop n s] lists s, s*2, ... *)
Fixpoint scales_loop (n : nat) (s : num) : list num :=
  match n with O => [] | S m => s :: scales_loop m (n_mul N s (n_ofZ N 2)) end.
(** logarithmic_scale.cpp:13-21 and 28-42; size = max - min + 1 is computed in int. *)
Definition logarithmic_scale (min max : Z) : outcome (list num) :=
  if max <=? min then Throw InvalidArgument
  else
    let! d := chk_int (max - min) in
    let! size := chk_int (d + 1) in
    Ok (scales_loop (Z.to_nat size) (pow2 min)).
End Scales.
