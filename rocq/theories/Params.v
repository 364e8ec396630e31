(** Model of src/optimization/params: integer, double, array and composite discrete parameters.
    Definitions only. *)
From Verif Require Import Base Num.
Local Open Scope Z_scope.

(** include/k52/optimization/chromosome.h:8-12: a chromosome is a vector<bool>. *)
Definition chromosome := list bool.

(** ** Constant chromosome size: const_chromosome_size_paremeters.cpp *)

(** was_chromosome_size_set_/chromosome_size_ (const_chromosome_size_paremeters.cpp:10-14);
    [None] means "not set". *)
Definition csize := option nat.

(** const_chromosome_size_paremeters.cpp:16-20 *)
Definition cs_get (c : csize) : outcome nat :=
  match c with Some n => Ok n | None => Throw LogicError end.

(** const_chromosome_size_paremeters.cpp:22-33; returns the state left behind as well. *)
Definition cs_set (c : csize) (n : nat) : csize * outcome unit :=
  match c with Some _ => (c, Throw LogicError) | None => (Some n, Ok tt) end.

(** const_chromosome_size_paremeters.cpp:35-43 *)
Definition cs_check (c : csize) (n : nat) : outcome unit :=
  match c with
  | None => Throw LogicError
  | Some m => if Nat.eqb n m then Ok tt else Throw InvalidArgument
  end.

(** ** IntParameter *)

Record IntParam := MkInt { ip_value : Z; ip_min : Z; ip_max : Z; ip_size : csize }.

(** int_parameter.cpp:93-97, the loop [while(target>x){x*=2; power++;}]; [fuel] exceeds the number of
    doublings after which [x] overflows. *)
Fixpoint count_size_loop (fuel : nat) (target x : Z) (power : nat) : outcome nat :=
  match fuel with
  | O => UB OutOfFuel
  | S f => if target >? x then let! x' := chk_int (x * 2) in count_size_loop f target x' (S power)
           else Ok power
  end.

(** int_parameter.cpp:88-99 *)
Definition count_chromosome_size (mn mx : Z) : outcome nat :=
  let! target := chk_int (mx - mn) in count_size_loop 33 target 1 0.

(** int_parameter.cpp:16-19, 79-86 (constructor with explicit value) *)
Definition ip_make (v mn mx : Z) : outcome IntParam :=
  let! k := count_chromosome_size mn mx in
  Ok {| ip_value := v; ip_min := mn; ip_max := mx; ip_size := Some k |}.

(** int_parameter.cpp:11-14 *)
Definition ip_make2 (mn mx : Z) : outcome IntParam := ip_make mn mn mx.

(** int_parameter.cpp:26-29 *)
Definition ip_set_value (p : IntParam) (v : Z) : IntParam :=
  {| ip_value := v; ip_min := ip_min p; ip_max := ip_max p; ip_size := ip_size p |}.

(** int_parameter.cpp:41-45 *)
Definition ip_clone (p : IntParam) : outcome IntParam := ip_make (ip_value p) (ip_min p) (ip_max p).

(** int_parameter.cpp:47-56, when the argument is an IntParameter *)
Definition ip_same_meta (p q : IntParam) : bool := (ip_max p =? ip_max q) && (ip_min p =? ip_min q).

(** int_parameter.cpp:58-61 *)
Definition ip_check (p : IntParam) : bool := (ip_value p <=? ip_max p) && (ip_min p <=? ip_value p).

(** int_parameter.cpp:124-141: bit [b] of the gene range from the int [value]
    ([value >> b & 1]; a shift of 32 or more is undefined; >> of a negative int is arithmetic). *)
Fixpoint bits_from_int (old : chromosome) (b : nat) (value : Z) : outcome chromosome :=
  match old with
  | [] => Ok []
  | _ :: r =>
      if (b <? 32)%nat then
        let! tl := bits_from_int r (S b) value in Ok (Z.testbit value (Z.of_nat b) :: tl)
      else UB BadShift
  end.

(** int_parameter.cpp:101-122: [result |= 1<<b] or [result &= ~(1<<b)]; a left shift of the int 1 by 31
    or more is undefined. *)
Fixpoint int_from_bits (bits : chromosome) (b : nat) (result : Z) : outcome Z :=
  match bits with
  | [] => Ok result
  | g :: r =>
      if (b <? 31)%nat then
        int_from_bits r (S b)
          (if g then Z.lor result (Z.shiftl 1 (Z.of_nat b)) else Z.ldiff result (Z.shiftl 1 (Z.of_nat b)))
      else UB BadShift
  end.

(** int_parameter.cpp:63-69; [old] is the range to be overwritten, the result its new contents. *)
Definition ip_set_chromosome (p : IntParam) (old : chromosome) : outcome chromosome :=
  let! _ := cs_check (ip_size p) (length old) in
  let! d := chk_int (ip_value p - ip_min p) in
  bits_from_int old 0 d.

(** int_parameter.cpp:71-77 *)
Definition ip_set_from (p : IntParam) (bits : chromosome) : IntParam * outcome unit :=
  match cs_check (ip_size p) (length bits) with
  | Ok _ =>
      match (let! r := int_from_bits bits 0 0 in chk_int (r + ip_min p)) with
      | Ok v => (ip_set_value p v, Ok tt)
      | Throw e => (p, Throw e)
      | UB u => (p, UB u)
      end
  | Throw e => (p, Throw e)
  | UB u => (p, UB u)
  end.

(** ** DoubleParameter, over the arithmetic [N] *)
Section Double.
Context (N : Num).
Local Notation num := (num N).

(** double_parameter.h:44-48. [dp_base = None] is the null pointer of the default constructor. *)
Record DoubleParam := MkDouble {
  dp_base : option IntParam; dp_min : num; dp_max : num; dp_prec : num; dp_size : csize }.

(** double_parameter.cpp:12-16 *)
Definition dp_default : DoubleParam :=
  {| dp_base := None; dp_min := n_ofZ N 0; dp_max := n_ofZ N 0; dp_prec := n_ofZ N 0; dp_size := None |}.

(** double_parameter.cpp:141-144 *)
Definition dp_check_bounds (mn mx v : num) : bool := n_leb N mn v && n_leb N v mx.

(** double_parameter.cpp:119-127 *)
Definition get_max_int (mn mx p : num) : outcome Z :=
  let! i := n_toint N (n_ceil N (n_div N (n_sub N mx mn) p)) in
  if i <? 1 then Throw InvalidArgument else Ok i.

(** double_parameter.cpp:129-139 *)
Fixpoint best_max_loop (fuel : nat) (initial best : Z) : outcome Z :=
  match fuel with
  | O => UB OutOfFuel
  | S f => if initial >? best then let! b := chk_int (best * 2) in best_max_loop f initial b else Ok best
  end.
Definition count_best_max_int (initial : Z) : outcome Z := best_max_loop 33 initial 1.

(** double_parameter.cpp:93-96 *)
Definition dp_value_of (mn prec : num) (i : Z) : num := n_add N (n_mul N (n_ofZ N i) prec) mn.
Definition dp_get_value (p : DoubleParam) : outcome num :=
  match dp_base p with
  | None => UB NullDeref
  | Some b => Ok (dp_value_of (dp_min p) (dp_prec p) (ip_value b))
  end.

(** double_parameter.cpp:98-102: the quantisation [(int)((value - min_value_)/precision_)] *)
Definition dp_quantise (mn prec v : num) : outcome Z := n_toint N (n_div N (n_sub N v mn) prec).
Definition dp_with_base (p : DoubleParam) (b : IntParam) : DoubleParam :=
  {| dp_base := Some b; dp_min := dp_min p; dp_max := dp_max p; dp_prec := dp_prec p; dp_size := dp_size p |}.
Definition dp_set_value (p : DoubleParam) (v : num) : outcome DoubleParam :=
  let! i := dp_quantise (dp_min p) (dp_prec p) v in
  match dp_base p with
  | None => UB NullDeref
  | Some b => Ok (dp_with_base p (ip_set_value b i))
  end.

(** double_parameter.cpp:18-42 *)
Definition dp_make (v mn mx p : num) : outcome DoubleParam :=
  if n_leb N mx mn then Throw InvalidArgument
  else if negb (dp_check_bounds mn mx v) then Throw InvalidArgument
  else
    let! m := get_max_int mn mx p in
    let! best := count_best_max_int m in
    let prec := n_div N (n_sub N mx mn) (n_ofZ N best) in
    let! base := ip_make2 0 best in
    let! i := dp_quantise mn prec v in
    Ok {| dp_base := Some (ip_set_value base i); dp_min := mn; dp_max := mx; dp_prec := prec;
          dp_size := ip_size base |}.

(** double_parameter.cpp:44-63 *)
Definition dp_clone (p : DoubleParam) : outcome DoubleParam :=
  match dp_base p with
  | None => Ok {| dp_base := None; dp_min := dp_min p; dp_max := dp_max p; dp_prec := dp_prec p; dp_size := dp_size p |}
  | Some b => let! b' := ip_clone b in
      Ok {| dp_base := Some b'; dp_min := dp_min p; dp_max := dp_max p; dp_prec := dp_prec p; dp_size := dp_size p |}
  end.

(** double_parameter.cpp:65-76, when the argument is a DoubleParameter; && stops at the first false *)
Definition dp_same_meta (p q : DoubleParam) : outcome bool :=
  if n_eqb N (dp_max p) (dp_max q) && n_eqb N (dp_min p) (dp_min q) && n_eqb N (dp_prec p) (dp_prec q) then
    match dp_base p, dp_base q with
    | Some a, Some b => Ok (ip_same_meta a b)
    | None, _ => UB NullDeref
    | Some _, None => Throw RuntimeError
    end
  else Ok false.

(** double_parameter.cpp:78-81 *)
Definition dp_check (p : DoubleParam) : outcome bool :=
  let! v := dp_get_value p in Ok (dp_check_bounds (dp_min p) (dp_max p) v).

(** double_parameter.cpp:83-86 *)
Definition dp_set_chromosome (p : DoubleParam) (old : chromosome) : outcome chromosome :=
  match dp_base p with None => UB NullDeref | Some b => ip_set_chromosome b old end.

(** double_parameter.cpp:88-91 *)
Definition dp_set_from (p : DoubleParam) (bits : chromosome) : DoubleParam * outcome unit :=
  match dp_base p with
  | None => (p, UB NullDeref)
  | Some b => let (b', o) := ip_set_from b bits in (dp_with_base p b', o)
  end.

(** ** DoubleParametersArray *)

(** double_parameters_array.h: sample_parameter_ and values_. Const methods overwrite the value held in the
    sample before every use, so the model does not carry that scratch value from call to call. *)
Record DoubleArr := MkArr { da_sample : DoubleParam; da_values : list num; da_size : csize }.

(** double_parameters_array.cpp:10-18, 140-143; values_ start as zeros. *)
Definition da_make (mn mx p : num) (n : nat) : outcome DoubleArr :=
  let! s := dp_make mn mn mx p in
  let! k := cs_get (dp_size s) in
  Ok {| da_sample := s; da_values := repeat (n_ofZ N 0) n; da_size := Some (k * n)%nat |}.

(** double_parameters_array.cpp:20-32 *)
Definition da_clone (a : DoubleArr) : outcome DoubleArr :=
  let! s := dp_clone (da_sample a) in
  let! k := cs_get (dp_size (da_sample a)) in
  Ok {| da_sample := s; da_values := da_values a; da_size := Some (k * length (da_values a))%nat |}.

(** double_parameters_array.cpp:34-43, when the argument is a DoubleParametersArray *)
Definition da_same_meta (a b : DoubleArr) : outcome bool :=
  if Nat.eqb (length (da_values a)) (length (da_values b)) then dp_same_meta (da_sample a) (da_sample b)
  else Ok false.

(** double_parameters_array.cpp:45-56: the loop over the values, stopping at the first violation *)
Fixpoint da_check_loop (s : DoubleParam) (vs : list num) : outcome bool :=
  match vs with
  | [] => Ok true
  | v :: r => let! s' := dp_set_value s v in
              let! b := dp_check s' in
              if b then da_check_loop s' r else Ok false
  end.
Definition da_check (a : DoubleArr) : outcome bool := da_check_loop (da_sample a) (da_values a).

(** double_parameters_array.cpp:58-76: [rest] is the unwritten part of the range *)
Fixpoint da_encode_loop (s : DoubleParam) (k : nat) (vs : list num) (rest : chromosome) : outcome chromosome :=
  match vs with
  | [] => Ok rest
  | v :: r => let! s' := dp_set_value s v in
              let! c := dp_set_chromosome s' (firstn k rest) in
              let! cs := da_encode_loop s' k r (skipn k rest) in
              Ok (c ++ cs)
  end.
Definition da_set_chromosome (a : DoubleArr) (old : chromosome) : outcome chromosome :=
  let! _ := cs_check (da_size a) (length old) in
  let! k := cs_get (dp_size (da_sample a)) in
  da_encode_loop (da_sample a) k (da_values a) old.

(** double_parameters_array.cpp:78-96 *)
Fixpoint da_decode_loop (s : DoubleParam) (k : nat) (n : nat) (bits : chromosome) : outcome (list num) :=
  match n with
  | O => Ok []
  | S n' =>
      let (s', o) := dp_set_from s (firstn k bits) in
      let! _ := o in
      let! v := dp_get_value s' in
      let! r := da_decode_loop s' k n' (skipn k bits) in
      Ok (v :: r)
  end.
Definition da_with_values (a : DoubleArr) (vs : list num) : DoubleArr :=
  {| da_sample := da_sample a; da_values := vs; da_size := da_size a |}.
Definition da_set_from (a : DoubleArr) (bits : chromosome) : DoubleArr * outcome unit :=
  match (let! _ := cs_check (da_size a) (length bits) in
         let! k := cs_get (dp_size (da_sample a)) in
         da_decode_loop (da_sample a) k (length (da_values a)) bits) with
  | Ok vs => (da_with_values a vs, Ok tt)
  | Throw e => (a, Throw e)
  | UB u => (a, UB u)
  end.

(** double_parameters_array.cpp:98-111: the values are stored before they are checked *)
Definition da_set_values (a : DoubleArr) (vs : list num) : DoubleArr * outcome unit :=
  if negb (Nat.eqb (length vs) (length (da_values a))) then (a, Throw InvalidArgument)
  else
    let a' := da_with_values a vs in
    match da_check a' with
    | Ok true => (a', Ok tt)
    | Ok false => (a', Throw InvalidArgument)
    | Throw e => (a', Throw e)
    | UB u => (a', UB u)
    end.

(** ** CompositeDiscreteParameters and the common interface *)

(** Any discrete parameter object of the library. A composite carries its chromosome size, the
    initialisation flag (initialization_checker.cpp:10-33) and its components. *)
Inductive param :=
| PInt (p : IntParam)
| PDouble (p : DoubleParam)
| PArr (a : DoubleArr)
| PComp (size : csize) (inited : bool) (ps : list param).

(** GetChromosomeSize of each class (const_chromosome_size_paremeters.cpp:16-20) *)
Definition p_size (p : param) : outcome nat :=
  match p with
  | PInt p => cs_get (ip_size p)
  | PDouble p => cs_get (dp_size p)
  | PArr a => cs_get (da_size a)
  | PComp s _ _ => cs_get s
  end.

(** composite_discrete_parameters.cpp:129-137 *)
Fixpoint total_size (ps : list param) : outcome nat :=
  match ps with
  | [] => Ok O
  | p :: r => let! a := p_size p in let! b := total_size r in Ok (a + b)%nat
  end.

(** CheckConstraints; composite_discrete_parameters.cpp:24-36 *)
Fixpoint p_check (p : param) : outcome bool :=
  match p with
  | PInt p => Ok (ip_check p)
  | PDouble p => dp_check p
  | PArr a => da_check a
  | PComp _ inited ps =>
      if inited then
        (fix go (ps : list param) : outcome bool :=
           match ps with
           | [] => Ok true
           | q :: r => let! b := p_check q in if b then go r else Ok false
           end) ps
      else Throw LogicError
  end.

(** SetChromosome; composite_discrete_parameters.cpp:38-58. A slice that reaches beyond the range is
    out of bounds. *)
Fixpoint p_set_chromosome (p : param) (old : chromosome) : outcome chromosome :=
  match p with
  | PInt p => ip_set_chromosome p old
  | PDouble p => dp_set_chromosome p old
  | PArr a => da_set_chromosome a old
  | PComp s inited ps =>
      if inited then
        let! _ := cs_check s (length old) in
        (fix go (ps : list param) (rest : chromosome) : outcome chromosome :=
           match ps with
           | [] => Ok rest
           | q :: r =>
               let! k := p_size q in
               if (k <=? length rest)%nat then
                 let! c := p_set_chromosome q (firstn k rest) in
                 let! cs := go r (skipn k rest) in
                 Ok (c ++ cs)
               else UB OutOfBounds
           end) ps old
      else Throw LogicError
  end.

(** SetFromChromosome; composite_discrete_parameters.cpp:60-80. Components processed before a failing one
    keep their new values. *)
Fixpoint p_set_from (p : param) (bits : chromosome) : param * outcome unit :=
  match p with
  | PInt p => let (p', o) := ip_set_from p bits in (PInt p', o)
  | PDouble p => let (p', o) := dp_set_from p bits in (PDouble p', o)
  | PArr a => let (a', o) := da_set_from a bits in (PArr a', o)
  | PComp s inited ps =>
      if inited then
        match cs_check s (length bits) with
        | Ok _ =>
            let (ps', o) :=
              (fix go (ps : list param) (rest : chromosome) : list param * outcome unit :=
                 match ps with
                 | [] => ([], Ok tt)
                 | q :: r =>
                     match p_size q with
                     | Ok k =>
                         if (k <=? length rest)%nat then
                           let (q', o) := p_set_from q (firstn k rest) in
                           match o with
                           | Ok _ => let (r', o') := go r (skipn k rest) in (q' :: r', o')
                           | Throw e => (q' :: r, Throw e)
                           | UB u => (q' :: r, UB u)
                           end
                         else (q :: r, UB OutOfBounds)
                     | Throw e => (q :: r, Throw e)
                     | UB u => (q :: r, UB u)
                     end
                 end) ps bits in
            (PComp s inited ps', o)
        | Throw e => (p, Throw e)
        | UB u => (p, UB u)
        end
      else (p, Throw LogicError)
  end.

(** composite_discrete_parameters.cpp:82-94 after the clones were made: set the size, then the flag.
    The components are already replaced when the size check throws. *)
Definition comp_finish_init (s : csize) (inited : bool) (ps : list param) : param * outcome unit :=
  match total_size ps with
  | Ok n =>
      match cs_set s n with
      | (s', Ok _) =>
          if inited then (PComp s' inited ps, Throw LogicError)      (* initialization_checker.cpp:23-33 *)
          else (PComp s' true ps, Ok tt)
      | (s', Throw e) => (PComp s' inited ps, Throw e)
      | (s', UB u) => (PComp s' inited ps, UB u)
      end
  | Throw e => (PComp s inited ps, Throw e)
  | UB u => (PComp s inited ps, UB u)
  end.

(** Clone; composite_discrete_parameters.cpp:10-17 *)
Fixpoint p_clone (p : param) : outcome param :=
  match p with
  | PInt p => omap PInt (ip_clone p)
  | PDouble p => omap PDouble (dp_clone p)
  | PArr a => omap PArr (da_clone a)
  | PComp _ inited ps =>
      if inited then
        let! ps' := (fix go (ps : list param) : outcome (list param) :=
                       match ps with
                       | [] => Ok []
                       | q :: r => let! q' := p_clone q in let! r' := go r in Ok (q' :: r')
                       end) ps in
        match comp_finish_init None false ps' with
        | (c, Ok _) => Ok c
        | (_, Throw e) => Throw e
        | (_, UB u) => UB u
        end
      else Throw LogicError
  end.

(** HasSameMetaParameters of each class (int_parameter.cpp:47-56, double_parameter.cpp:65-76,
    double_parameters_array.cpp:34-43, composite_discrete_parameters.cpp:19-22); a failed dynamic_cast throws. *)
Definition p_same_meta (p q : param) : outcome bool :=
  match p, q with
  | PInt p, PInt q => Ok (ip_same_meta p q)
  | PDouble p, PDouble q => dp_same_meta p q
  | PArr p, PArr q => da_same_meta p q
  | _, _ => Throw RuntimeError
  end.
(** typeid( *p ) == typeid( *q ), when the dynamic types are these four classes *)
Definition p_same_type (p q : param) : bool :=
  match p, q with PInt _, PInt _ => true | PDouble _, PDouble _ => true | PArr _, PArr _ => true | PComp _ _ _, PComp _ _ _ => true | _, _ => false end.

(** A freshly constructed composite *)
Definition comp_new : param := PComp None false [].

(** Initialize(parameters); composite_discrete_parameters.cpp:82-94. [c] is the composite. *)
Definition comp_initialize (c : param) (ps : list param) : param * outcome unit :=
  match c with
  | PComp s inited old =>
      match mapM p_clone ps with
      | Ok ps' => comp_finish_init s inited ps'
      | Throw e => (PComp s inited old, Throw e)     (* components already cloned are left; not used *)
      | UB u => (PComp s inited old, UB u)
      end
  | _ => (c, UB NullDeref)
  end.

(** Initialize(sample, n); composite_discrete_parameters.cpp:96-108 *)
Definition comp_initialize_n (c : param) (sample : param) (n : nat) : param * outcome unit :=
  comp_initialize c (repeat sample n).

(** composite_discrete_parameters.cpp:110-115 *)
Definition comp_number (c : param) : outcome nat :=
  match c with PComp _ inited ps => if inited then Ok (length ps) else Throw LogicError | _ => UB NullDeref end.

(** composite_discrete_parameters.cpp:117-127: [index+1 > size] wraps for index = SIZE_MAX *)
Definition SIZE_MAX_succ : Z := 18446744073709551616.
Definition comp_get (c : param) (index : Z) : outcome param :=
  match c with
  | PComp _ inited ps =>
      if inited then
        if ((index + 1) mod SIZE_MAX_succ) >? Z.of_nat (length ps) then Throw OutOfRange
        else at_ ps (Z.to_nat index)
      else Throw LogicError
  | _ => UB NullDeref
  end.

(** discrete_parameters.cpp:14-21 and 23-29: transfer sends the chromosome; [old] buffer is all false *)
Definition p_send (p : param) : outcome chromosome :=
  let! n := p_size p in p_set_chromosome p (repeat false n).
Definition p_receive (p : param) (sent : chromosome) : param * outcome unit := p_set_from p sent.

End Double.
