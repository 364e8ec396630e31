(** The arithmetic of [double], once as a record of operations and twice instantiated:
    [RNum] (exact reals) and [FNum] (bit-exact IEEE binary64, round to nearest even). *)
From Coq Require Import Reals Psatz.
From Flocq Require Import Core.Zaux Core.Raux.
From Flocq Require Import IEEE754.BinarySingleNaN.
From Verif Require Import Base.

(** Operations of the C++ type [double] used by the library. [n_toint] is the cast [(int)x]:
    truncation toward zero, undefined when the result is not an [int]. *)
Record Num : Type := MkNum {
  num : Type;
  n_ofZ : Z -> num;
  n_add : num -> num -> num;
  n_sub : num -> num -> num;
  n_mul : num -> num -> num;
  n_div : num -> num -> num;
  n_ltb : num -> num -> bool;      (* x <  y *)
  n_leb : num -> num -> bool;      (* x <= y *)
  n_eqb : num -> num -> bool;      (* x == y *)
  n_ceil : num -> num;             (* std::ceil *)
  n_floor : num -> num;            (* std::floor *)
  n_toint : num -> outcome Z;      (* (int)x *)
}.

(** ** Exact real arithmetic *)
Definition R_ltb (x y : R) : bool := if Rlt_dec x y then true else false.
Definition R_leb (x y : R) : bool := if Rle_dec x y then true else false.
Definition R_eqb (x y : R) : bool := if Req_EM_T x y then true else false.

Definition RNum : Num := {|
  num := R; n_ofZ := IZR; n_add := Rplus; n_sub := Rminus; n_mul := Rmult; n_div := Rdiv;
  n_ltb := R_ltb; n_leb := R_leb; n_eqb := R_eqb;
  n_ceil := fun x => IZR (Zceil x); n_floor := fun x => IZR (Zfloor x);
  n_toint := fun x => if in_int (Ztrunc x) then Ok (Ztrunc x) else UB BadCast |}.

Lemma R_ltb_true x y : R_ltb x y = true <-> (x < y)%R.
Proof. unfold R_ltb; destruct (Rlt_dec x y); split; intros; auto; discriminate. Qed.
Lemma R_ltb_false x y : R_ltb x y = false <-> (y <= x)%R.
Proof. unfold R_ltb; destruct (Rlt_dec x y); split; intros; auto; try discriminate; lra. Qed.
Lemma R_leb_true x y : R_leb x y = true <-> (x <= y)%R.
Proof. unfold R_leb; destruct (Rle_dec x y); split; intros; auto; discriminate. Qed.
Lemma R_leb_false x y : R_leb x y = false <-> (y < x)%R.
Proof. unfold R_leb; destruct (Rle_dec x y); split; intros; auto; try discriminate; lra. Qed.
Lemma R_eqb_true x y : R_eqb x y = true <-> x = y.
Proof. unfold R_eqb; destruct (Req_EM_T x y); split; intros; auto; discriminate. Qed.

(** ** IEEE binary64 *)
Definition dprec : Z := 53%Z.
Definition demax : Z := 1024%Z.
Definition dbl : Type := binary_float dprec demax.

Lemma dprec_gt_0 : FLX.Prec_gt_0 dprec.
Proof. reflexivity. Qed.
Lemma dprec_lt_emax : Prec_lt_emax dprec demax.
Proof. reflexivity. Qed.
#[global] Existing Instance dprec_gt_0.
#[global] Existing Instance dprec_lt_emax.

Definition d_add (x y : dbl) : dbl := Bplus mode_NE x y.
Definition d_sub (x y : dbl) : dbl := Bminus mode_NE x y.
Definition d_mul (x y : dbl) : dbl := Bmult mode_NE x y.
Definition d_div (x y : dbl) : dbl := Bdiv mode_NE x y.
Definition d_ltb (x y : dbl) : bool := Bltb x y.
Definition d_leb (x y : dbl) : bool := Bleb x y.
Definition d_eqb (x y : dbl) : bool := Beqb x y.
(** Nearest double to [m * 2^e]; used for literals and int-to-double conversion. *)
Definition d_of (m e : Z) : dbl := binary_normalize dprec demax _ _ mode_NE m e false.
Definition d_ofZ (z : Z) : dbl := d_of z 0.
Definition d_toint (x : dbl) : outcome Z :=
  if is_finite x then (if in_int (Btrunc x) then Ok (Btrunc x) else UB BadCast) else UB BadCast.
Definition d_nan : dbl := B754_nan.
Definition d_inf : dbl := B754_infinity false.
(** A double that is a number (not NaN). *)
Definition is_num (x : dbl) : bool := negb (is_nan x).

Definition FNum : Num := {|
  num := dbl; n_ofZ := d_ofZ; n_add := d_add; n_sub := d_sub; n_mul := d_mul; n_div := d_div;
  n_ltb := d_ltb; n_leb := d_leb; n_eqb := d_eqb;
  n_ceil := Bnearbyint mode_UP; n_floor := Bnearbyint mode_DN;
  n_toint := d_toint |}.
