(** Model: layout queries of the state vector and of the measurement vector.
    Source: /repo/mrcal.c:361-741 and 3737-3882.
    C [int] is modelled as unbounded [Z] (no overflow). *)
From Coq Require Import ZArith List Bool.
From Verif Require Import M_Lens.
Import ListNotations.
Open Scope Z_scope.

(** types.h mrcal_camera_index_t, mrcal_observation_board_t,
    mrcal_observation_point_t, mrcal_observation_point_triangulated_t.  Only
    the integer/flag members appear here. *)
Record board_obs := { bo_icam_i : Z; bo_icam_e : Z; bo_iframe : Z }.
Record point_obs := { po_icam_i : Z; po_icam_e : Z; po_ipoint : Z }.
Record tri_obs := { to_icam_i : Z; to_icam_e : Z; to_last : bool; to_outlier : bool }.

(** The arguments common to all these functions. *)
Record problem := {
  p_lens : lensmodel;
  p_sel  : selections;
  p_Nci  : Z;       (* Ncameras_intrinsics *)
  p_Nce  : Z;       (* Ncameras_extrinsics *)
  p_Nframes : Z;
  p_Npoints : Z;
  p_Npoints_fixed : Z;
  p_boards : list board_obs;     (* observations_board, Nobservations_board = length *)
  p_points : list point_obs;     (* observations_point *)
  p_tri    : list tri_obs;       (* observations_point_triangulated; [] also stands for NULL *)
  p_w : Z; p_h : Z               (* calibration_object_width_n, height_n *)
}.

Definition Nobs_board (p : problem) : Z := Z.of_nat (length (p_boards p)).
Definition Nobs_point (p : problem) : Z := Z.of_nat (length (p_points p)).
Definition Nobs_tri   (p : problem) : Z := Z.of_nat (length (p_tri p)).

(** mrcal.c:737-741 *)
Definition has_warp (p : problem) : bool := do_warp (p_sel p) && (0 <? Nobs_board p).

(** mrcal.c:3754-3761 *)
Definition num_states_intrinsics (p : problem) : Z :=
  p_Nci p * num_intrinsics_opt (p_sel p) (p_lens p).
(** mrcal.c:3784-3788 *)
Definition num_states_extrinsics (p : problem) : Z :=
  if do_ext (p_sel p) then 6 * p_Nce p else 0.
(** mrcal.c:3813-3817 *)
Definition num_states_frames (p : problem) : Z :=
  if do_frames (p_sel p) then 6 * p_Nframes p else 0.
(** mrcal.c:3846-3851 *)
Definition num_states_points (p : problem) : Z :=
  if do_frames (p_sel p) then (p_Npoints p - p_Npoints_fixed p) * 3 else 0.
(** mrcal.c:3874-3880 *)
Definition num_states_warp (p : problem) : Z :=
  if has_warp p then 2 else 0.
(** mrcal.c:361-379 *)
Definition num_states (p : problem) : Z :=
  num_states_intrinsics p + num_states_extrinsics p + num_states_frames p
  + num_states_points p + num_states_warp p.

(** mrcal.c:3737-3752 *)
Definition state_index_intrinsics (p : problem) (icam : Z) : Z :=
  if p_Nci p <=? 0 then -1 else
  let N := num_intrinsics_opt (p_sel p) (p_lens p) in
  if N <=? 0 then -1 else
  if negb ((0 <=? icam) && (icam <? p_Nci p)) then -1 else
  icam * N.
(** mrcal.c:3763-3782 *)
Definition state_index_extrinsics (p : problem) (icam : Z) : Z :=
  if p_Nce p <=? 0 then -1 else
  if negb (do_ext (p_sel p)) then -1 else
  if negb ((0 <=? icam) && (icam <? p_Nce p)) then -1 else
  num_states_intrinsics p + icam * 6.
(** mrcal.c:3790-3811 *)
Definition state_index_frames (p : problem) (iframe : Z) : Z :=
  if p_Nframes p <=? 0 then -1 else
  if negb (do_frames (p_sel p)) then -1 else
  if negb ((0 <=? iframe) && (iframe <? p_Nframes p)) then -1 else
  num_states_intrinsics p + num_states_extrinsics p + iframe * 6.
(** mrcal.c:3819-3844 *)
Definition state_index_points (p : problem) (i : Z) : Z :=
  let Nv := p_Npoints p - p_Npoints_fixed p in
  if Nv <=? 0 then -1 else
  if negb (do_frames (p_sel p)) then -1 else
  if negb ((0 <=? i) && (i <? Nv)) then -1 else
  num_states_intrinsics p + num_states_extrinsics p + num_states_frames p + i * 3.
(** mrcal.c:3853-3872 *)
Definition state_index_warp (p : problem) : Z :=
  if negb (has_warp p) then -1 else
  num_states_intrinsics p + num_states_extrinsics p + num_states_frames p + num_states_points p.

(** mrcal.c:381-393 *)
Definition num_reg_percam (p : problem) : Z :=
  if negb (do_reg (p_sel p)) then 0 else
  num_distortions_opt (p_sel p) (p_lens p) + (if do_core (p_sel p) then 2 else 0).

(** mrcal.c:412-430; argument N instead of the number in the problem since
    it is also called for an observation index. *)
Definition num_measurements_boards (p : problem) (N : Z) : Z :=
  if N <=? 0 then 0 else N * p_w p * p_h p * 2.
(** mrcal.c:395-410 *)
Definition measurement_index_boards (p : problem) (i : Z) : Z :=
  if Nobs_board p <=? 0 then -1 else 0 + num_measurements_boards p i.
(** mrcal.c:453-457 *)
Definition num_measurements_points (N : Z) : Z := N * 2.
(** mrcal.c:432-447 *)
Definition measurement_index_points (p : problem) (i : Z) : Z :=
  if Nobs_point p <=? 0 then -1 else
  num_measurements_boards p (Nobs_board p) + i * 2.

(** mrcal.c:506-520: the two nested loops, over the remaining part of the
    array.  [None]: the code reads past the end of the array (the last
    observation is not marked last_in_set). *)
Fixpoint tri_inner (obs : list tri_obs) (Nset Nmeas : Z) : option (Z * list tri_obs) :=
  match obs with
  | [] => None
  | o :: rest => if to_last o then Some (Nmeas, rest)
                 else tri_inner rest (Nset + 1) (Nmeas + Nset)
  end.
Fixpoint tri_outer (fuel : nat) (obs : list tri_obs) (Npoints ipoint Nmeas : Z) : option Z :=
  match obs with
  | [] => Some Nmeas
  | _ =>
    if (Npoints <? 0) || (ipoint <? Npoints) then
      match tri_inner obs 1 Nmeas with
      | None => None
      | Some (Nmeas', rest) =>
        match fuel with
        | O => None     (* excluded: fuel = length suffices, see P_Layout *)
        | S f => tri_outer f rest Npoints (ipoint + 1) Nmeas'
        end
      end
    else Some Nmeas
  end.
(** mrcal.c:490-523 *)
Definition num_measurements_tri_initial (obs : list tri_obs) (Npoints : Z) : option Z :=
  tri_outer (length obs) obs Npoints 0 0.
(** mrcal.c:525-533 *)
Definition num_measurements_tri (obs : list tri_obs) : option Z :=
  num_measurements_tri_initial obs (-1).
(** mrcal.c:462-485 *)
Definition measurement_index_tri (p : problem) (i : Z) : option Z :=
  if Nobs_tri p <=? 0 then Some (-1) else
  match num_measurements_tri_initial (p_tri p) i with
  | None => None
  | Some n => Some (num_measurements_boards p (Nobs_board p)
                    + num_measurements_points (Nobs_point p) + n)
  end.
(** mrcal.c:693-706 *)
Definition num_measurements_reg (p : problem) : Z :=
  p_Nci p * num_reg_percam p
  + (if do_unity (p_sel p) && do_ext (p_sel p) && (0 <? p_Nce p) then 1 else 0).
(** mrcal.c:660-691 *)
Definition measurement_index_reg (p : problem) : option Z :=
  if num_measurements_reg p <=? 0 then Some (-1) else
  match num_measurements_tri (p_tri p) with
  | None => None
  | Some n => Some (num_measurements_boards p (Nobs_board p)
                    + num_measurements_points (Nobs_point p) + n)
  end.
(** mrcal.c:708-735 *)
Definition num_measurements (p : problem) : option Z :=
  match num_measurements_tri (p_tri p) with
  | None => None
  | Some n => Some (num_measurements_boards p (Nobs_board p)
                    + num_measurements_points (Nobs_point p) + n
                    + num_measurements_reg p)
  end.

(** mrcal.c:538-656: decoding.  Result: (iobservation0, iobservation1,
    iobservation_point0, Nobservations_this_point, Nmeasurements_this_point,
    ipoint).  Outer [option]: out-of-bounds read; inner [option]: returned false. *)
Record decoded := { d_o0 : Z; d_o1 : Z; d_first : Z; d_No : Z; d_Nm : Z; d_ipoint : Z }.

(** mrcal.c:571-575: scan one set; returns (Nset, rest of the array after the
    last observation of this set). *)
Fixpoint tri_scan (obs : list tri_obs) (Nset : Z) : option (Z * list tri_obs) :=
  match obs with
  | [] => None
  | o :: rest => if to_last o then Some (Nset, rest) else tri_scan rest (Nset + 1)
  end.

(** mrcal.c:631-633.  [(int)((x - sqrt(x*x - 8m))/2)] evaluated exactly:
    floor((x-r)/2) = (x - ceil r) / 2 for integer x. The double-precision
    evaluation is treated separately (P_TriDouble). C [/] truncates. *)
Definition decode_pair (No m : Z) : Z * Z :=
  let x := 2 * No - 1 in
  let o0 := Z.quot (x - Z.sqrt_up (x * x - 8 * m)) 2 in
  (o0, m + Z.quot (o0 * (o0 + 3 - 2 * No)) 2 + 1).

Fixpoint decode_loop (fuel : nat) (obs : list tri_obs) (imeas iobs Nmeas ipoint : Z)
  : option (option decoded) :=
  match obs with
  | [] => Some None
  | _ =>
    match tri_scan obs 1 with
    | None => None
    | Some (Nset, rest) =>
      let iobs_last := iobs + Nset - 1 in
      let Nm := Z.quot (Nset * (Nset - 1)) 2 in
      if imeas <? Nmeas + Nm then
        let (o0, o1) := decode_pair Nset (imeas - Nmeas) in
        let first := iobs_last - Nset + 1 in
        Some (Some {| d_o0 := o0 + first; d_o1 := o1 + first; d_first := first;
                      d_No := Nset; d_Nm := Nm; d_ipoint := ipoint |})
      else
        match fuel with
        | O => None
        | S f => decode_loop f rest imeas (iobs_last + 1) (Nmeas + Nm) (ipoint + 1)
        end
    end
  end.
Definition decode_tri (obs : list tri_obs) (imeas : Z) : option (option decoded) :=
  if (Z.of_nat (length obs) <=? 0) then Some None
  else decode_loop (length obs) obs imeas 0 0 0.
