(* What a resampled polyline is; nothing here mentions the code. *)

From Coq Require Import Reals List.
Import ListNotations.
Open Scope R_scope.

Definition distance (a b : R * R) : R :=
  sqrt ((fst b - fst a) ^ 2 + (snd b - snd a) ^ 2).

(* The point at the fraction t of the way from a to b *)
Definition between (a b : R * R) (t : R) : R * R :=
  ((1 - t) * fst a + t * fst b, (1 - t) * snd a + t * snd b).

(* x0 <= t1 < t2 < ... < tn < 1, with no step longer than `step` *)
Fixpoint climbs (step x0 : R) (ts : list R) : Prop :=
  match ts with
  | [] => x0 < 1 /\ 1 - x0 <= step
  | t :: ts' => x0 < t /\ t - x0 <= step /\ climbs step t ts'
  end.

(* Consecutive elements of a list *)
Definition next_to {A} (a b : A) (l : list A) : Prop :=
  exists l1 l2, l = l1 ++ a :: b :: l2.

(* `out` goes along the polyline p from its first to its last point, through all
   of its points in their order, stopping also at points inside of segments, so
   that no step is longer than `gap`. Repeated points may be merged. *)
Inductive walk (gap : R) : list (R * R) -> list (R * R) -> Prop :=
| walk_end : forall a, walk gap [a] [a]
| walk_same : forall a rest out, walk gap (a :: rest) out -> walk gap (a :: a :: rest) out
| walk_segment : forall a b rest out ts,
    0 < distance a b ->
    climbs (gap / distance a b) 0 ts ->
    walk gap (b :: rest) (b :: out) ->
    walk gap (a :: b :: rest) (a :: map (between a b) ts ++ b :: out).
