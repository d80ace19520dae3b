(** Specification vocabulary: which variables each residual depends on (C57) and
    where it is stored (C58). *)
From Coq Require Import ZArith List Bool.
From Verif Require Import M_Lens M_Layout S_Layout M_Callback.
Import ListNotations.
Open Scope Z_scope.

(** The (order+1) control points around the query, in one direction.  [t]: the
    integer part of the grid coordinate; the window is pushed back into the grid
    at the edges. *)
Definition window_start (order N t : Z) : Z := Z.max 0 (Z.min (t - 1) (N - order - 1)).
(** intrinsics parameter number k is the [ixy] component of a control point in the
    window around [sp] *)
Definition in_window (c : spline_cfg) (sp : Z * Z) (ixy k : Z) : Prop :=
  exists ix iy,
    0 <= ix - window_start (sp_order c) (sp_Nx c) (fst sp) <= sp_order c /\
    0 <= iy - window_start (sp_order c) (sp_Ny c) (snd sp) <= sp_order c /\
    k = 4 + 2 * (iy * sp_Nx c + ix) + ixy.

(** Does projected coordinate ixy (0: x, 1: y) depend on intrinsics parameter k?
    Parameters 0..3 are fx fy cx cy. *)
Definition proj_param (m : lensmodel) (sp : Z * Z) (ixy k : Z) : Prop :=
  k = ixy \/ k = 2 + ixy \/
  (4 <= k < num_params m /\ match m with SPLINED c => in_window c sp ixy k | _ => True end).

(** Where parameter k is stored inside a camera's block of the state *)
Definition param_offset (s : selections) (k off : Z) : Prop :=
  (do_core s = true /\ 0 <= k < 4 /\ off = k) \/
  (do_dist s = true /\ 4 <= k /\ off = k - (if do_core s then 0 else 4)).

(** Residual [id] depends on scalar number [off] of thing [it]. *)
Definition depends (p : problem) (osp_b : Z -> Z -> Z * Z) (osp_p : Z -> Z * Z)
    (id : rowid) (it : sitem) (off : Z) : Prop :=
  match id with
  | R_board i ipt ixy => exists o, nth_error (p_boards p) (Z.to_nat i) = Some o /\
      ((it = SI_intr (bo_icam_i o) /\ exists k, proj_param (p_lens p) (osp_b i ipt) ixy k /\ param_offset (p_sel p) k off) \/
       (it = SI_ext (bo_icam_e o) /\ 0 <= off < 6) \/
       (it = SI_frame (bo_iframe o) /\ 0 <= off < 6) \/
       (it = SI_warp /\ 0 <= off < 2))
  | R_point i ixy => exists o, nth_error (p_points p) (Z.to_nat i) = Some o /\
      ((it = SI_intr (po_icam_i o) /\ exists k, proj_param (p_lens p) (osp_p i) ixy k /\ param_offset (p_sel p) k off) \/
       (it = SI_ext (po_icam_e o) /\ 0 <= off < 6) \/
       (it = SI_point (po_ipoint o) /\ 0 <= off < 3))
  | R_tri i0 i1 => exists o, (nth_error (p_tri p) (Z.to_nat i0) = Some o \/ nth_error (p_tri p) (Z.to_nat i1) = Some o) /\
      it = SI_ext (to_icam_e o) /\ 0 <= off < 6
  | R_reg_dist icam j => it = SI_intr icam /\ param_offset (p_sel p) (4 + j) off
  | R_reg_splined icam ivar _ => it = SI_intr icam /\ (param_offset (p_sel p) (4 + ivar) off \/ param_offset (p_sel p) (4 + ivar + 1) off)
  | R_reg_center icam ixy => it = SI_intr icam /\ param_offset (p_sel p) (2 + ixy) off
  | R_unity => it = SI_ext 0 /\ 3 <= off < 6
  end.
