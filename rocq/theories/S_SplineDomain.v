(* Rectangles and the set of points that a polyline goes through; nothing here mentions the code. *)
From Coq Require Import Reals List.
From Verif Require Import S_Densify.
Import ListNotations.
Open Scope R_scope.

Definition in_rectangle (x0 x1 y0 y1 : R) (q : R * R) : Prop := x0 <= fst q <= x1 /\ y0 <= snd q <= y1.
Definition on_outline (x0 x1 y0 y1 : R) (q : R * R) : Prop :=
  in_rectangle x0 x1 y0 y1 q /\ (fst q = x0 \/ fst q = x1 \/ snd q = y0 \/ snd q = y1).

(* q is on one of the segments of the polyline *)
Definition on_polyline (l : list (R * R)) (q : R * R) : Prop :=
  exists a b t, next_to a b l /\ 0 <= t <= 1 /\ q = between a b t.
Definition closed (l : list (R * R)) : Prop := exists a m, l = a :: m ++ [a].
