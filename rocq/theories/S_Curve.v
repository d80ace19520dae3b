(** Specification vocabulary: what it means for a function of a 3-vector (or of
    a pixel) to have a given gradient.  The gradient must give the rate of change
    along every differentiable path, not only along the coordinate axes. *)
From Coq Require Import Reals.
From Coquelicot Require Import Coquelicot.
From Verif Require Import S_Vec.
Open Scope R_scope.

Definition moves3 (v : R -> v3) (t : R) (d : v3) : Prop :=
  is_derive (fun s => vx (v s)) t (vx d) /\ is_derive (fun s => vy (v s)) t (vy d) /\ is_derive (fun s => vz (v s)) t (vz d).
Definition has_gradient3 (f : v3 -> R) (v : v3) (g : v3) : Prop :=
  forall (path : R -> v3) (t : R) (d : v3), path t = v -> moves3 path t d -> is_derive (fun s => f (path s)) t (dot g d).
Definition has_gradient2 (f : R -> R -> R) (x y gx gy : R) : Prop :=
  forall (a b : R -> R) (t da db : R), a t = x -> b t = y -> is_derive a t da -> is_derive b t db ->
    is_derive (fun s => f (a s) (b s)) t (gx * da + gy * db).

(** it contains the three partial derivatives *)
Lemma has_gradient3_partials : forall f v g, has_gradient3 f v g ->
  forall j, (j < 3)%nat -> is_derive (fun s => f (vset v j s)) (vget v j) (vget g j).
Proof.
  intros f v g H j J. pose (d := vset v0 j 1).
  assert (is_derive (fun s => f (vset v j s)) (vget v j) (dot g d)) as E.
  { apply H.
    - destruct v, j as [|[|j]]; reflexivity.
    - destruct j as [|[|[|j]]]; [| | |exfalso; Lia.lia]; (split; [|split]); cbn; first [apply (is_derive_id (K := R_AbsRing)) | apply (is_derive_const (K := R_AbsRing) (V := R_NormedModule))]. }
  replace (vget g j) with (dot g d); [exact E|]. destruct j as [|[|[|j]]]; [| | |exfalso; Lia.lia]; cbn; unfold dot; cbn; ring.
Qed.
