(** Specification vocabulary for packing (C06, C07). *)
From Coq Require Import ZArith List Bool Reals.
From Verif Require Import M_Lens M_Layout S_Layout M_Pack.
Open Scope Z_scope.

(** j-th scalar of an item of the state vector, as a scalar of the caller's
    structures.  With a locked core only the distortions are in the state. *)
Definition item_loc (p : problem) (it : sitem) (j : Z) : loc :=
  match it with
  | SI_intr i => LIntr (i * num_params (p_lens p) + (if do_core (p_sel p) then j else j + 4))
  | SI_ext i => LExt (6 * i + j)
  | SI_frame i => LFrame (6 * i + j)
  | SI_point i => LPoint (3 * i + j)
  | SI_warp => LWarp j
  end.

(** the documented scale of a scalar *)
Definition scale_of (p : problem) (l : loc) : skind :=
  match l with
  | LIntr i => let j := i mod num_params (p_lens p) in
               if j <? 2 then S_focal else if j <? 4 then S_center else S_dist
  | LExt i => if i mod 6 <? 3 then S_rot_cam else S_trans_cam
  | LFrame i => if i mod 6 <? 3 then S_rot_frame else S_trans_frame
  | LPoint _ => S_point
  | LWarp _ => S_warp
  end.

(** quantities that are not being optimized (or do not exist) *)
Definition locked (p : problem) (l : loc) : Prop :=
  match l with
  | LIntr i => ~ (0 <= i < p_Nci p * num_params (p_lens p)) \/
               (i mod num_params (p_lens p) < 4 /\ do_core (p_sel p) = false) \/
               (4 <= i mod num_params (p_lens p) /\ do_dist (p_sel p) = false)
  | LExt i => ~ (0 <= i < p_Nce p * 6) \/ do_ext (p_sel p) = false
  | LFrame i => ~ (0 <= i < p_Nframes p * 6) \/ do_frames (p_sel p) = false
  | LPoint i => ~ (0 <= i < (p_Npoints p - p_Npoints_fixed p) * 3) \/ do_frames (p_sel p) = false
  | LWarp i => ~ (0 <= i < 2) \/ do_warp (p_sel p) = false \/ p_boards p = nil
  end.
