(** IEEE-754 binary64 arithmetic (round to nearest even) as an instance of
    [arith]: what the C doubles of mrcal.c:3984-4381 do.  Flocq's
    BinarySingleNaN: one NaN, since the code never looks at NaN payloads. *)
From Coq Require Import ZArith Bool.
From Flocq Require Import BinarySingleNaN.
From Verif Require Import M_Mark.
Open Scope Z_scope.

Definition dprec : Z := 53.
Definition demax : Z := 1024.
#[global] Instance dprec_gt_0 : FLX.Prec_gt_0 dprec := eq_refl.
#[global] Instance dprec_lt_emax : Prec_lt_emax dprec demax := eq_refl.

Definition double := binary_float dprec demax.
Definition d_ofZ (k : Z) : double := binary_normalize dprec demax _ _ mode_NE k 0 false.
Definition d_add : double -> double -> double := Bplus mode_NE.
Definition d_mul : double -> double -> double := Bmult mode_NE.
Definition d_div : double -> double -> double := Bdiv mode_NE.
(** C's a > b: false if either is NaN *)
Definition d_gt (a b : double) : bool := match Bcompare a b with Some Gt => true | _ => false end.
(** C's a <= b *)
Definition d_le (a b : double) : bool := match Bcompare a b with Some Lt => true | Some Eq => true | _ => false end.

Definition doubleA : arith := {|
  T := double; n0 := B754_zero false; add := d_add; mul := d_mul; div := d_div; ofZ := d_ofZ;
  gtb := d_gt; le0 := fun w => d_le w (B754_zero false);
  neg := fun w => d_mul w (d_ofZ (-1)) |}.
