(** Model of optimization/simulated_annealing.cpp. std::exp is the parameter [xexp]; rand() is an explicit stream. *)
From Flocq Require Import IEEE754.BinarySingleNaN.
From Verif Require Import Base Num Random Misc Optim Hooke.
Local Open Scope Z_scope.
Local Open Scope list_scope.

Section Annealing.
Variable xexp : dbl -> dbl.
Variable RM : Z.

(** simulated_annealing.cpp:67-71 CountTemperature (size_t subtraction of current <= max). *)
Definition temperature (max i : Z) : dbl := d_div (d_ofZ (max - i)) (d_ofZ max).
(** simulated_annealing.cpp:73-88 CountAcceptanceProbability. *)
Definition acceptance (current new t : dbl) : outcome dbl :=
  if d_ltb t (d_ofZ 0) then Throw RuntimeError
  else if d_ltb new current then Ok (d_ofZ 1) else Ok (xexp (d_div (d_sub current new) t)).
(** simulated_annealing.cpp:90-98 GetRandomNeighbour; vectors of at most 2^31 elements (values.size()-1 is an int). *)
Definition neighbour (lo hi : dbl) (v : list dbl) (g : rstream) : outcome (list dbl) * rstream :=
  let (oi, g1) := get_discrete 0 (Z.of_nat (length v) - 1) g in
  let (x, g2) := get_continuous FNum RM lo hi g1 in
  (let! i := oi in
   if (Z.to_nat i <? length v)%nat && (0 <=? i) then Ok (upd v (Z.to_nat i) x) else UB OutOfBounds, g2).
(** simulated_annealing.cpp:49-62: the loop from iteration [i], [left] iterations left; returns the successive values of
    current_parameters after each iteration. *)
Fixpoint sa_loop (lo hi : dbl) (max : Z) (left : nat) (i : Z) (current : list dbl) (g : rstream) : dsearch (list (list dbl)) :=
  match left with
  | O => Ret []
  | S k =>
      let (onb, g1) := neighbour lo hi current g in
      ask! nb := lift onb in
      ask! cv := ask_d current in
      ask! nv := ask_d nb in
      ask! p := lift (acceptance cv nv (temperature max i)) in
      let (ob, g2) := check_event FNum RM p g1 in
      ask! b := lift ob in
      let current' := if b then nb else current in
      ask! rest := sa_loop lo hi max k (i + 1) current' g2 in
      Ret (current' :: rest)
  end.
(** simulated_annealing.cpp:45-65 FindOptimalParameters: the last value of current_parameters. [sa_trace] is the model
    of the run (all values of current_parameters), [sa_find] its result. *)
Definition sa_trace (max : nat) (lo hi : dbl) (g : rstream) (init : list dbl) : dsearch (list (list dbl)) :=
  ask! r := sa_loop lo hi (Z.of_nat max) max 1 init g in Ret (init :: r).
Definition sa_find (max : nat) (lo hi : dbl) (g : rstream) (init : list dbl) : dsearch (list dbl) :=
  ask! r := sa_trace max lo hi g init in Ret (last r init).
End Annealing.
