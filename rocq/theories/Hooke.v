(** Model of optimization/hooke_jeeves_method.cpp. *)
From Flocq Require Import IEEE754.BinarySingleNaN.
From Verif Require Import Base Num Misc Optim.
Local Open Scope list_scope.

Notation dsearch := (search FNum).
Definition ask_d (v : list dbl) : dsearch dbl := ask_min FNum v.

(** The configuration (hooke_jeeves_method.cpp:24-37). *)
Record hooke : Type := MkHooke { hj_acceleration : dbl; hj_init_step : dbl; hj_max_iterations : Z; hj_precision : dbl; hj_divider : dbl }.

(** hooke_jeeves_method.cpp:124-138 IsExitCriteriaFulfilled. *)
Fixpoint squares (t : dbl) (steps : list dbl) : dbl :=
  match steps with [] => t | s :: r => squares (d_add t (d_mul s s)) r end.
Definition hj_exit (c : hooke) (steps : list dbl) : bool := d_leb (Bsqrt mode_NE (squares (d_ofZ 0) steps)) (hj_precision c).

(** hooke_jeeves_method.cpp:140-163 CoordinatewiseSearch, coordinates [i ..]; [todo] counts the coordinates left. *)
Fixpoint coord_loop (steps : list dbl) (args : list dbl) (i todo : nat) : dsearch (list dbl) :=
  match todo with
  | O => Ret args
  | S t =>
      ask! v := ask_d args in
      ask! a := lift (at_ args i) in
      ask! s := lift (at_ steps i) in
      let up := upd args i (d_add a s) in
      ask! vu := ask_d up in
      if d_ltb vu v then coord_loop steps up (S i) t
      else
        let down := upd args i (d_sub a s) in
        ask! vd := ask_d down in
        if d_ltb vd v then coord_loop steps down (S i) t else coord_loop steps args (S i) t
  end.
Definition coordinatewise (steps args : list dbl) : dsearch (list dbl) := coord_loop steps args 0 (length args).

(** hooke_jeeves_method.cpp:97-101: next_step_arguments. *)
Fixpoint pattern (c : hooke) (args after : list dbl) : list dbl :=
  match args, after with
  | a :: r, b :: s => d_add a (d_mul (hj_acceleration c) (d_sub b a)) :: pattern c r s
  | _, _ => []
  end.

(** How the inner loop ends: by [break] (with the current [arguments], [arguments_after_search] and counter) or by the
    return of line 117. *)
Inductive inner_end : Type := Broke (args after : list dbl) (iteration : Z) | Returned (v : list dbl).

(** hooke_jeeves_method.cpp:93-119: the inner [while (true)]. The counter is a size_t (wraps at 2^64, unreachable). *)
Fixpoint hj_inner (fuel : nat) (c : hooke) (steps args after : list dbl) (iteration : Z) : dsearch inner_end :=
  match fuel with
  | O => Undef OutOfFuel
  | S fu =>
      ask! next := coordinatewise steps (pattern c args after) in
      let args' := after in
      ask! va := ask_d after in
      ask! vn := ask_d next in
      if d_leb va vn then Ret (Broke args' after iteration)
      else
        let it := (iteration + 1)%Z in
        if (it =? hj_max_iterations c)%Z then Ret (Returned next) else hj_inner fu c steps args' next it
  end.

(** hooke_jeeves_method.cpp:81-121: the outer do/while. [continue] jumps to the loop condition. *)
Fixpoint hj_outer (fuel : nat) (c : hooke) (steps args : list dbl) (iteration : Z) : dsearch (list dbl) :=
  match fuel with
  | O => Undef OutOfFuel
  | S fu =>
      ask! after := coordinatewise steps args in
      if vectors_equal args after then
        let steps' := map (fun s => d_div s (hj_divider c)) steps in
        if hj_exit c steps' then Ret after else hj_outer fu c steps' args iteration
      else
        ask! e := hj_inner fuel c steps args after iteration in
        match e with
        | Returned v => Ret v
        | Broke args' after' it => if hj_exit c steps then Ret after' else hj_outer fu c steps args' it
        end
  end.

(** hooke_jeeves_method.cpp:74-122 FindOptimalParameters; [fuel] bounds both loops. *)
Definition hj_find (fuel : nat) (c : hooke) (init : list dbl) : dsearch (list dbl) :=
  hj_outer fuel c (repeat (hj_init_step c) (length init)) init 0.
