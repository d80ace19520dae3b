(** Model: the seed of the poses in a calibration: calibration.py _estimate_camera_poses() (925-1100), estimate_joint_frame_poses() (1186-1395)
    and the part of seed_stereographic() that uses them (1571-1608).
    Doubles are real numbers.  A Python exception is [None].  Each row of indices_frame_camera is kept together with its pose in calobject_poses_local_Rt_cf.
    LAPACK's SVD and the C++ heap functions are parameters. *)
From Coq Require Import Reals ZArith List Bool.
From Verif Require Import S_Vec M_Pose M_Align M_Traverse M_Connect M_Perfect.
Import ListNotations.
Open Scope R_scope.

Section Seed.
Variable svd : m33 -> option (m33 * v3 * m33).
Variables push_heap pop_heap make_heap : (nat -> Z) -> list nat -> list nat.

(** nps.clump(ref_calibration_object(w,h,spacing), n=2) *)
Definition board (w h : Z) (spacing : R) : list v3 :=
  flat_map (fun iy => map (fun ix => ref_calibration_object w h spacing None ix iy) (zrange 0 w)) (zrange 0 h).

(** align_procrustes_points_Rt01(), as Python sees it: poseutils-genpywrap.py:1201-1222.  A poorly-defined problem is reported with zeros. *)
Definition fit (ps : list (v3 * v3)) : option Rt :=
  match align_points svd ps None with
  | Solved p => Some p
  | Degenerate => Some (mkRt zero33 v0)
  | Fatal => None
  end.

Section Problem.
(** object_width_n, object_height_n, object_spacing; ((iframe,icam), Rt_cf) *)
Variables (w h : Z) (spacing : R).
Variable obs : list ((Z * Z) * Rt).

(** calibration.py:996-1000 *)
Record pst := { l_frame : Z; l_0 : option Rt; l_1 : option Rt; l_ab : list (v3 * v3) }.
(** calibration.py:1001-1028: one iteration *)
Definition pair_step (icam_to icam_from : Z) (s : pst) (o : (Z * Z) * Rt) : option pst :=
  let '((iframe_this, icam_this), Rt_cf) := o in
  let s := if (iframe_this =? l_frame s)%Z then s
           else {| l_frame := iframe_this; l_0 := None; l_1 := None; l_ab := l_ab s |} in
  if (icam_this =? icam_to)%Z then
    match l_0 s with
    | Some _ => None
    | None => Some {| l_frame := l_frame s; l_0 := Some Rt_cf; l_1 := l_1 s; l_ab := l_ab s |}
    end
  else if (icam_this =? icam_from)%Z then
    match l_0 s with
    | None => Some s
    | Some Rt_cam0_frame =>
      match l_1 s with
      | Some _ => None
      | None =>
        let ref_object := board w h spacing in
        let A := map (fun x => transform_point_Rt Rt_cam0_frame x false) ref_object in
        let B := map (fun x => transform_point_Rt Rt_cf x false) ref_object in
        Some {| l_frame := l_frame s; l_0 := l_0 s; l_1 := Some Rt_cf; l_ab := (l_ab s ++ combine A B)%list |}
      end
    end
  else Some s.
(** calibration.py:976-1030, icam_from > icam_to.  Without any data the arrays have shape (0,) and align_procrustes_points_Rt01() throws *)
Definition pair_Rt (icam_to icam_from : Z) : option Rt :=
  match foldo (pair_step icam_to icam_from) obs {| l_frame := -1; l_0 := None; l_1 := None; l_ab := [] |} with
  | Some s => match l_ab s with [] => None | ab => fit ab end
  | None => None
  end.
(** calibration.py:964-1030 *)
Definition compute_pairwise_Rt (icam_to icam_from : Z) : option Rt :=
  if (icam_to >? icam_from)%Z then option_map invert_Rt (pair_Rt icam_from icam_to)
  else if (icam_to =? icam_from)%Z then None
  else pair_Rt icam_to icam_from.

(** Rt_0c[]: camera -> pose *)
Definition poses := Z -> option Rt.
(** calibration.py:1066-1079 *)
Definition found_best_path_to_node (p : poses) (link : nat * nat) : option poses :=
  let camera_idx := Z.of_nat (fst link) in
  let from_idx := Z.of_nat (snd link) in
  if (camera_idx =? 0)%Z then Some p
  else match compute_pairwise_Rt from_idx camera_idx with
    | None => None
    | Some Rt_fc =>
      if (from_idx =? 0)%Z then Some (fun i => if (i =? camera_idx)%Z then Some Rt_fc else p i)
      else match p from_idx with
        | None => None
        | Some Rt_0f => Some (fun i => if (i =? camera_idx)%Z then Some (compose_Rt2 Rt_0f Rt_fc false false) else p i)
        end
    end.
(** the callbacks so far, first one first *)
Definition callbacks (log : list (nat * nat)) : option poses := foldo found_best_path_to_node log (fun _ => None).

(** mrcal-pywrap.c:4288-4296: the upper triangle, row by row *)
Definition upper (N : Z) (m : mat) : list Z := flat_map (fun i => map (fun j => m i j) (zrange (i + 1) N)) (zrange 0 N).
Definition cm_of (N : Z) (m : mat) (k : Z) : Z := nth (Z.to_nat k) (upper N m) 0%Z.
(** mrcal.traverse_sensor_links(): mrcal-pywrap.c:4208-4311.  An exception in the callback stops the traversal *)
Definition traverse_links (N : Z) (m : mat) : option poses :=
  let cb log i p := match callbacks (rev ((i, p) :: log)) with Some _ => true | None => false end in
  match traverse push_heap pop_heap make_heap cb (Z.to_nat N) (cm_of N m) (Z.to_nat N) with
  | Some (true, log) => callbacks log
  | _ => None
  end.
Fixpoint all_some {A} (l : list (option A)) : option (list A) :=
  match l with
  | [] => Some []
  | Some a :: l => match all_some l with Some r => Some (a :: r) | None => None end
  | None :: _ => None
  end.
(** calibration.py:945; 1081-1100 *)
Definition num_cameras : option Z :=
  match obs with [] => None | o :: r => Some (fold_left (fun m o => Z.max m (snd (fst o))) r (snd (fst o)) + 1)%Z end.
Definition estimate_camera_poses : option (list Rt) :=
  match num_cameras with
  | None => None
  | Some N =>
    match compute_connectivity_matrix N (map fst obs) with
    | None => None
    | Some m =>
      match traverse_links N (drop_sparse m) with
      | None => None
      | Some p => all_some (map p (zrange 1 N))
      end
    end
  end.

(** estimate_joint_frame_poses() *)
Section Frames.
Variable Rt_cam_ref : list Rt.
(** calibration.py:1316, 1325-1333 *)
Definition Rt_ref_frame__single (o : (Z * Z) * Rt) : option Rt :=
  let '((iframe, icam), Rt_cam_frame) := o in
  if (icam =? 0)%Z then Some Rt_cam_frame
  else match py_get (map invert_Rt Rt_cam_ref) (icam - 1) with
    | Some Rt_ref_cam => Some (compose_Rt2 Rt_ref_cam Rt_cam_frame false false)
    | None => None
    end.
(** a[i0:i1] *)
Definition slice {A} (l : list A) (i0 i1 : Z) : list A := firstn (Z.to_nat (i1 - i0)) (skipn (Z.to_nat i0) l).
(** calibration.py:1319-1364 *)
Definition add_transformed (obj : list v3) (sum : list v3) (o : (Z * Z) * Rt) : option (list v3) :=
  match Rt_ref_frame__single o with
  | None => None
  | Some p => Some (map (fun sx => vadd (fst sx) (transform_point_Rt p (snd sx) false)) (combine sum obj))
  end.
Definition Rt_ref_frame (i0 i1 : Z) : option Rt :=
  if (i1 - i0 =? 1)%Z then match py_get obs i0 with Some o => Rt_ref_frame__single o | None => None end
  else
    let obj := board w h spacing in
    match foldo (add_transformed obj) (slice obs i0 i1) (map (fun x => vscale 0 x) obj) with
    | None => None
    | Some sum_obj_unproj =>
      let mean_obj_ref := map (fun x => vscale (/ IZR (i1 - i0)) x) sum_obj_unproj in
      fit (combine mean_obj_ref obj)
    end.
Record fst_ := { f_current : Z; f_start : Z; f_out : list rt }.
Definition emit (s : fst_) (i : Z) : option (list rt) :=
  if (f_start s >=? 0)%Z then match Rt_ref_frame (f_start s) i with Some p => Some (f_out s ++ [rt_from_Rt p])%list | None => None end
  else Some (f_out s).
(** calibration.py:1374-1386 *)
Definition frame_step (s : fst_) (i : Z) : option fst_ :=
  match py_get obs i with
  | None => None
  | Some ((iframe, icam), _) =>
    if (iframe =? f_current s)%Z then Some s
    else match emit s i with
      | Some out => Some {| f_current := iframe; f_start := i; f_out := out |}
      | None => None
      end
  end.
(** calibration.py:1369-1395 *)
Definition estimate_joint_frame_poses : option (list rt) :=
  match foldo frame_step (zrange 0 (Z.of_nat (length obs))) {| f_current := -1; f_start := -1; f_out := [] |} with
  | Some s => emit s (Z.of_nat (length obs))
  | None => None
  end.
End Frames.

(** seed_stereographic() from the poses of the board in each camera on: rt_cam_ref, rt_ref_frame.  calibration.py:1571-1608 *)
Definition seed_poses : option (list rt * list rt) :=
  match estimate_camera_poses with
  | None => None
  | Some Rt_0c =>
    let Rt_cam_ref := map invert_Rt Rt_0c in
    match estimate_joint_frame_poses Rt_cam_ref with
    | None => None
    | Some fr => Some (map rt_from_Rt Rt_cam_ref, fr)
    end
  end.
End Problem.
End Seed.
