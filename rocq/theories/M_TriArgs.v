(** Model of _parse_args() (mrcal/triangulation.py:27-58), and of the functions that call it: triangulate_geometric()
    (:61-203), triangulate_leecivera_l1() (:206-353), ..._linf() (:356-504), ..._mid2() (:507-650), ..._wmid2() (:653-796).
    An exception is None.  The C routine is the argument [core].  Simplification: with get_gradients a separate _withgrad routine is
    called; here its point is taken to be that of the routine without gradients, and the gradients are left out.  C63 is about those
    routines (for the two leecivera_l* methods only under its regularity conditions).  Not modelled: broadcasting, [out]. *)
From Coq Require Import Reals.
From Verif Require Import S_Vec M_Pose.
Open Scope R_scope.

Definition parse_args (v1 : v3) (t01 : option v3) (get_gradients v_are_local : bool) (Rt01 : option Rt) : option (v3 * v3) :=
  match Rt01, t01 with
  | Some _, Some _ => None
  | None, None => None
  | _, _ =>
      if v_are_local then
        if get_gradients then None
        else match Rt01 with
             | None => None
             | Some p => Some (rotate_point_R (Rt_R p) v1 false, Rt_t p)
             end
      else
        match t01 with
        | Some t => Some (v1, t)
        | None => if get_gradients then None else match Rt01 with Some p => Some (v1, Rt_t p) | None => None end
        end
  end.
(** :197-203, 347-353, 498-504, 644-650, 790-796 *)
Definition triangulate_with (core : v3 -> v3 -> v3 -> v3) (v0 v1 : v3) (t01 : option v3) (get_gradients v_are_local : bool) (Rt01 : option Rt) : option v3 :=
  match parse_args v1 t01 get_gradients v_are_local Rt01 with
  | Some (v1, t) => Some (core v0 v1 t)
  | None => None
  end.
