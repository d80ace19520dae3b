(** Specification vocabulary: the gradient of a lens model with respect to the
    point and to all its intrinsics at once. *)
From Coq Require Import Reals List.
From Coquelicot Require Import Coquelicot.
From Verif Require Import S_Vec S_Curve.
Open Scope R_scope.

Fixpoint tot (n : nat) (f : nat -> R) : R := match n with O => 0 | S m => tot m f + f m end.

(** one output coordinate [f intrinsics point] has gradient (h, g): its rate of change, along every way of moving
    the point and the N intrinsics simultaneously, is the inner product *)
Definition lens_gradient (N : nat) (f : (nat -> R) -> v3 -> R) (intr : nat -> R) (p : v3) (h : nat -> R) (g : v3) : Prop :=
  forall (I : R -> nat -> R) (P : R -> v3) (t : R) (dI : nat -> R) (dP : v3),
    I t = intr -> P t = p -> (forall i, (i < N)%nat -> is_derive (fun s => I s i) t (dI i)) -> moves3 P t dP ->
    is_derive (fun s => f (I s) (P s)) t (tot N (fun i => h i * dI i) + dot g dP).
