(** Model: lens models and their parameter counts.
    Source: /repo/types.h (lens model lists), /repo/mrcal.c. *)
From Coq Require Import ZArith List Bool QArith.
Import ListNotations.
Open Scope Z_scope.

(** types.h:33-50 MRCAL_LENSMODEL_*_LIST and the two config structs
    (types.h:64-96): CAHVORE has one [double linearity]; the splined
    model has four [uint16_t].  A finite double is a rational, hence [Q]. *)
Record spline_cfg := { sp_order : Z; sp_Nx : Z; sp_Ny : Z; sp_fov : Z }.

Inductive lensmodel :=
| PINHOLE | STEREOGRAPHIC | LONLAT | LATLON
| OPENCV4 | OPENCV5 | OPENCV8 | OPENCV12
| CAHVOR
| CAHVORE (linearity : Q)
| SPLINED (c : spline_cfg).

(** mrcal.c:303-336 mrcal_lensmodel_num_params().  The invalid types (for
    which the code returns -1) are not part of [lensmodel]. *)
Definition num_params (m : lensmodel) : Z :=
  match m with
  | PINHOLE | STEREOGRAPHIC | LONLAT | LATLON => 4
  | OPENCV4 => 8 | OPENCV5 => 9 | OPENCV8 => 12 | OPENCV12 => 16
  | CAHVOR => 9
  | CAHVORE _ => 12
  | SPLINED c => sp_Nx c * sp_Ny c * 2 + 4
  end.

(** mrcal.c:290-295 modelHasCore_fxfycxcy(): metadata.has_core, which is true
    for each of these models (mrcal.c:255-288). *)
Definition has_core (m : lensmodel) : bool := true.

(** [uint16_t] fields. *)
Definition u16 (x : Z) : Prop := 0 <= x < 65536.
Definition lens_ok (m : lensmodel) : Prop :=
  match m with
  | SPLINED c => u16 (sp_order c) /\ u16 (sp_Nx c) /\ u16 (sp_Ny c) /\ u16 (sp_fov c)
  | _ => True
  end.

(** types.h mrcal_problem_selections_t. *)
Record selections := {
  do_core : bool;        (* do_optimize_intrinsics_core *)
  do_dist : bool;        (* do_optimize_intrinsics_distortions *)
  do_ext  : bool;        (* do_optimize_extrinsics *)
  do_frames : bool;      (* do_optimize_frames *)
  do_warp : bool;        (* do_optimize_calobject_warp *)
  do_reg  : bool;        (* do_apply_regularization *)
  do_unity: bool         (* do_apply_regularization_unity_cam01 *)
}.

(** mrcal.c:338-348 *)
Definition num_distortions_opt (s : selections) (m : lensmodel) : Z :=
  if do_dist s then num_params m - (if has_core m then 4 else 0) else 0.

(** mrcal.c:350-359 mrcal_num_intrinsics_optimization_params() *)
Definition num_intrinsics_opt (s : selections) (m : lensmodel) : Z :=
  num_distortions_opt s m + (if do_core s && has_core m then 4 else 0).
