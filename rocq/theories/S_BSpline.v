(** Independent specification: cardinal B-splines by the Cox-de Boor recursion
    (knots at the integers). *)
From Coq Require Import Reals ZArith.
Open Scope R_scope.

Fixpoint bspline (n : nat) (t : R) : R :=
  match n with
  | O => if Rle_dec 0 t then if Rlt_dec t 1 then 1 else 0 else 0
  | S m => t / INR n * bspline m t + (INR n + 1 - t) / INR n * bspline m (t - 1)
  end.
