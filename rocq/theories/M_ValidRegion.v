(** Model of _report_regional_statistics() (calibration.py:1720-1866) and _compute_valid_intrinsics_region()
    (calibration.py:1611-1717).  Numbers are real numbers; None is a value that isn't finite.
    Arrays of shape (Nheight,Nwidth) are lists in raster order.
    As arguments: the residuals (from optimizer_callback(), here in each observation), the lens ([unproject], normalized),
    projection_uncertainty() with what='worstdirection-stdev' ([uncertainty]), cv2.findContours() and cv2.contourArea().
    sample_imager() and the height of the grid are those of M_Diff; np.round() is that of M_Match. *)
From Coq Require Import Reals ZArith List Bool.
From Verif Require Import S_Vec M_Pose M_Match M_Diff.
Import ListNotations.
Open Scope R_scope.

(** one corner of one board observation: the camera, observations_board[...,:2], observations_board[...,2], the residual (2 numbers) *)
Record corner := Corner { c_cam : Z; c_q : pixel; c_weight : R; c_err : pixel }.

(** calibration.py:1847-1857: this camera, and not outliers *)
Definition select (icam : Z) (l : list corner) : list corner :=
  filter (fun c => Z.eqb (c_cam c) icam && rltb 0 (c_weight c)) l.

Definition sum (l : list R) : R := fold_right Rplus 0 l.
(** np.mean(), np.std() *)
Definition npmean (l : list R) : R := sum l / INR (length l).
Definition npstd (l : list R) : R := sqrt (npmean (map (fun e => (e - npmean l) * (e - npmean l)) l)).

(** stats() (calibration.py:1806-1827) *)
Definition stats (rcell : pixel) (l : list corner) (center : pixel) : R * R * nat :=
  let l := filter (fun c => rltb (Rabs (fst (c_q c) - fst center)) (fst rcell) && rltb (Rabs (snd (c_q c) - snd center)) (snd rcell)) l in
  let err := flat_map (fun c => [fst (c_err c); snd (c_err c)]) l in
  if Nat.leb (length err) 5 then (0, 0, length err) else (npmean err, npstd err, length err).

(** calibration.py:1794-1866 *)
Definition regional_statistics (W H gw gh : Z) (icam : Z) (l : list corner) : list (R * R * nat) :=
  let rcell := (IZR (W - 1) / IZR (gw - 1) / 2, IZR (H - 1) / IZR (gh - 1) / 2) in
  map (stats rcell (select icam l)) (sample_imager gw (Some gh) W H).

Record thresholds := Thresholds { t_uncertainty : R; t_mean : R; t_stdev : R; t_count : R }.

(** calibration.py:1671-1684, for one cell *)
Definition cell_valid (splined : bool) (t : thresholds) (u : option R) (s : R * R * nat) : bool :=
  let '(mean, stdev, count) := s in
  let u := match u with Some u => u | None => 1000000000 end in
  rltb u (t_uncertainty t) && (splined || (rltb mean (t_mean t) && rltb stdev (t_stdev t) && rltb (t_count t) (INR count))).

Section Region.
Variable unproject : pixel -> v3.
Variable uncertainty : bool -> v3 -> option R.    (* atinfinity, pcam *)
Variable find_contours : Z -> list bool -> list (list (Z * Z)).  (* the width of the image, the image *)
Variable contour_area : list (Z * Z) -> R.

(** calibration.py:1655-1669: the uncertainty at each point of the grid *)
Definition uncertainties (distance : R) (q : list pixel) : list (option R) :=
  map (fun q => if Rle_dec distance 0 then uncertainty true (unproject q) else uncertainty false (vscale distance (unproject q))) q.

(** calibration.py:1645-1684 *)
Definition mask (W H gw gh icam : Z) (l : list corner) (splined : bool) (t : thresholds) (distance : R) : list bool :=
  map (fun us => cell_valid splined t (fst us) (snd us))
      (combine (uncertainties distance (sample_imager gw (Some gh) W H)) (regional_statistics W H gw gh icam l)).

(** close_contour() (utils.py:993-998): the points are integers here, so they are closer than 1e-6 if they are the same *)
Definition close_contour (c : list (Z * Z)) : list (Z * Z) :=
  match c with
  | [] => []
  | p :: _ => if (Z.eqb (fst p) (fst (last c p)) && Z.eqb (snd p) (snd (last c p)))%bool then c else c ++ [p]
  end.

(** calibration.py:1694-1717, from the mask *)
Definition region_of_mask (W H gw gh : Z) (m : list bool) : list (Z * Z) :=
  let contours := find_contours gw m in
  match contours with
  | [] => []
  | _ =>
      let areas := map contour_area contours in
      let c := close_contour (nth (arg_opt (fun a b => rltb b a) areas) contours []) in
      if Nat.ltb (length c) 4 then []
      else map (fun p => (rint (IZR (fst p) * (IZR (W - 1) / IZR (gw - 1))), rint (IZR (snd p) * (IZR (H - 1) / IZR (gh - 1))))) c
  end.

(** _compute_valid_intrinsics_region() *)
Definition valid_region (W H gw : Z) (gh : option Z) (icam : Z) (l : list corner) (splined : bool) (t : thresholds) (distance : R) : list (Z * Z) :=
  let gh := grid_height gh gw W H in
  region_of_mask W H gw gh (mask W H gw gh icam l splined t distance).
End Region.
