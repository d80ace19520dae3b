(** Model: image_transforms.py image_transformation_map() (276-512).
    Doubles are real numbers; the final conversion to 32-bit floats is not modelled.  mrcal.unproject() of the pixels is a parameter
    (modelled in M_Unproject.v), and so are cv2.initUndistortRectifyMap() and matplotlib's Path.contains_points(). *)
From Coq Require Import Reals ZArith List Bool.
From Verif Require Import S_Vec M_Pose M_Lens M_OpenCV M_Project M_Unproject.
Open Scope R_scope.

(** what is read of a cameramodel: intrinsics(), rt_cam_ref(), imagersize(); [cm_inside]: the pixel is in valid_intrinsics_region() *)
Record camera := { cm_lens : lensmodel; cm_intr : nat -> R; cm_rt_cam_ref : rt; cm_W : Z; cm_H : Z; cm_inside : p2 -> bool }.

(** np.linalg.inv() of a 3x3 matrix *)
Definition adjugate (m : m33) : m33 :=
  M33 (m11 m * m22 m - m12 m * m21 m) (m02 m * m21 m - m01 m * m22 m) (m01 m * m12 m - m02 m * m11 m)
      (m12 m * m20 m - m10 m * m22 m) (m00 m * m22 m - m02 m * m20 m) (m02 m * m10 m - m00 m * m12 m)
      (m10 m * m21 m - m11 m * m20 m) (m01 m * m20 m - m00 m * m21 m) (m00 m * m11 m - m01 m * m10 m).
Definition mscale (k : R) (m : m33) : m33 :=
  M33 (k * m00 m) (k * m01 m) (k * m02 m) (k * m10 m) (k * m11 m) (k * m12 m) (k * m20 m) (k * m21 m) (k * m22 m).
Definition mplus (a b : m33) : m33 :=
  M33 (m00 a + m00 b) (m01 a + m01 b) (m02 a + m02 b) (m10 a + m10 b) (m11 a + m11 b) (m12 a + m12 b) (m20 a + m20 b) (m21 a + m21 b) (m22 a + m22 b).
(** nps.outer() *)
Definition outer (a b : v3) : m33 :=
  M33 (vx a * vx b) (vx a * vy b) (vx a * vz b) (vy a * vx b) (vy a * vy b) (vy a * vz b) (vz a * vx b) (vz a * vy b) (vz a * vz b).
(** nps.matmult(v, M) for a row vector *)
Definition row_times (v : v3) (m : m33) : v3 :=
  V3 (vx v * m00 m + vy v * m10 m + vz v * m20 m) (vx v * m01 m + vy v * m11 m + vz v * m21 m) (vx v * m02 m + vy v * m12 m + vz v * m22 m).
Definition np_trace (m : m33) : R := m00 m + m11 m + m22 m.

(** re.match("LENSMODEL_OPENCV", ...), with the number of distortion coefficients *)
Definition opencv_coeffs (m : lensmodel) : option nat :=
  match m with OPENCV4 => Some 4%nat | OPENCV5 => Some 5%nat | OPENCV8 => Some 8%nat | OPENCV12 => Some 12%nat | _ => None end.
Definition is_pinhole (m : lensmodel) : bool := match m with PINHOLE => true | _ => false end.

(** Exceptions: the three checks; LinAlgError from np.linalg.inv() *)
Inductive answer := Plane_half_given | Plane_intrinsics_only | Distance_misused | Singular | Map (mapxy : Z -> Z -> p2).

Section ImageMap.
  Variable unproject : lensmodel -> (nat -> R) -> p2 -> v3.
  (** cv2.initUndistortRectifyMap(cameraMatrix_from, distortion_coeffs, R, cameraMatrix_to, ...) at pixel (x,y) *)
  Variable cv2_map : nat -> (nat -> R) -> option m33 -> core -> Z -> Z -> p2.
  Variables from to : camera.

  (** image_transforms.py:413-417 *)
  Definition Rt_to_from : Rt := compose_Rt2 (Rt_from_rt (cm_rt_cam_ref to)) (invert_Rt (Rt_from_rt (cm_rt_cam_ref from))) false false.
  (** 422-466 *)
  Definition fast_map (Nd : nat) (intrinsics_only : bool) : Z -> Z -> p2 :=
    let R_to_from := if intrinsics_only then None else if Rlt_dec (3 - 1 / 1000000000000) (np_trace (Rt_R Rt_to_from)) then None else Some (Rt_R Rt_to_from) in
    cv2_map Nd (cm_intr from) R_to_from (core_of (cm_intr to)).
  (** 471-496, one pixel *)
  Definition moved (intrinsics_only : bool) (distance : option R) (v : v3) : v3 :=
    if intrinsics_only then v else
    match distance with
    | Some d => transform_point_Rt (invert_Rt Rt_to_from) (V3 (vx v / norm v * d) (vy v / norm v * d) (vz v / norm v * d)) false
    | None => row_times v (Rt_R Rt_to_from)
    end.
  Definition A_to_from (plane_n : v3) (plane_d : R) : m33 := mplus (mscale plane_d (Rt_R Rt_to_from)) (outer (Rt_t Rt_to_from) plane_n).
  (** 497-512 *)
  Definition finish (mask : bool) (move : v3 -> v3) (x y : Z) : p2 :=
    let q := lens_pixel (cm_lens from) (cm_intr from) (move (unproject (cm_lens to) (cm_intr to) (P2 (IZR x) (IZR y)))) in
    if mask && negb (cm_inside from q) then P2 (-1) (-1) else q.
  Definition image_transformation_map (intrinsics_only : bool) (distance : option R) (plane_n : option v3) (plane_d : option R) (mask : bool) : answer :=
    match plane_n, plane_d with
    | None, Some _ | Some _, None => Plane_half_given
    | Some n, Some d =>
      if intrinsics_only then Plane_intrinsics_only else
      match distance with
      | Some _ => Distance_misused
      | None =>
        if Req_EM_T (det (A_to_from n d)) 0 then Singular
        else let A_from_to := mscale (/ det (A_to_from n d)) (adjugate (A_to_from n d)) in
             Map (finish mask (fun v => row_times v (mT A_from_to)))
      end
    | None, None =>
      if (match distance with Some _ => true | None => false end && intrinsics_only)%bool then Distance_misused else
      let slow := Map (finish mask (moved intrinsics_only distance)) in
      match distance, opencv_coeffs (cm_lens from) with
      | None, Some Nd => if (is_pinhole (cm_lens to) && negb mask)%bool then Map (fast_map Nd intrinsics_only) else slow
      | _, _ => slow
      end
    end.
End ImageMap.
