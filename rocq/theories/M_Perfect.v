(** Model: synthetic_data.py ref_calibration_object() (25-233) and make_perfect_observations() (594-748),
    utils.py hypothesis_board_corner_positions() (440-585).
    Doubles are real numbers.  ref_calibration_object() with a scalar spacing, one warp and the default grid; no broadcasting.
    np.random.randn() is an argument.  nps.dummy() returns a view, as numpysane does. *)
From Coq Require Import Reals ZArith List Bool.
From Verif Require Import S_Vec M_Pose M_Lens M_Layout M_Project M_Unproject M_Callback M_Residuals.
Import ListNotations.
Open Scope R_scope.

(** np.linspace(a, b, n)[i] *)
Definition linspace (a b : R) (n i : Z) : R := if (n =? 1)%Z then a else IZR i * ((b - a) / IZR (n - 1)) + a.
(** full_object[iy,ix,:]: synthetic_data.py:193-233 *)
Definition ref_calibration_object (w h : Z) (spacing : R) (warp : option (R * R)) (ix iy : Z) : v3 :=
  let xx := linspace 0 (IZR (w - 1)) w ix in
  let yy := linspace 0 (IZR (h - 1)) h iy in
  let z := match warp with
    | None => 0
    | Some (x2, y2) =>
      let xr := xx / IZR (w - 1) in
      let yr := yy / IZR (h - 1) in
      let dx := 4 * xr * (1 - xr) in
      let dy := 4 * yr * (1 - yr) in
      0 + x2 * dx + y2 * dy
    end in
  V3 (xx * spacing) (yy * spacing) z.

(** a[i] in an array of length n *)
Definition py_index (n i : Z) : Z := if (i <? 0)%Z then (i + n)%Z else i.

Section Perfect.
  Variable c : context.       (* optimization_inputs *)
  Let p := c_p c.
  (** nps.glue(identity_Rt(), Rt_from_rt(rt_cam_ref))[i]: utils.py:541-545, synthetic_data.py:693-697 *)
  Definition glued_cam (i : Z) : Rt :=
    let k := py_index (p_Nce p + 1) i in if (k =? 0)%Z then identity_Rt else Rt_from_rt (c_cam c (k - 1)).
  (** p_cam_calobjects[iobs,iy,ix]: utils.py:525-551 *)
  Definition board_pcam (o : board_obs) (ix iy : Z) : v3 :=
    let full_object := ref_calibration_object (p_w p) (p_h p) (c_spacing c) (c_warp c) ix iy in
    let Rt_ref_frame := Rt_from_rt (c_frame c (py_index (p_Nframes p) (bo_iframe o))) in
    let Rt_cam_frame := compose_Rt2 (glued_cam (bo_icam_e o + 1)) Rt_ref_frame false false in
    transform_point_Rt Rt_cam_frame full_object false.
  (** synthetic_data.py:671-681; cell k of the array of features *)
  Definition perfect_board (k : Z) (z : v3) : v3 :=
    let n := (p_w p * p_h p)%Z in
    if ((0 <=? k) && (k <? Z.of_nat (length (p_boards p)) * n))%Z then
      let o := nth (Z.to_nat (k / n)) (p_boards p) {| bo_icam_i := 0; bo_icam_e := 0; bo_iframe := 0 |} in
      let q := lens_pixel (p_lens p) (c_intr c (py_index (p_Nci p) (bo_icam_i o))) (board_pcam o ((k mod n) mod p_w p) ((k mod n) / p_w p)) in
      V3 (px q) (py q) (vz z)
    else z.
  (** synthetic_data.py:683-708 *)
  Definition point_pcam (o : point_obs) : v3 := transform_point_Rt (glued_cam (po_icam_e o + 1)) (c_point c (py_index (p_Npoints p) (po_ipoint o))) false.
  Definition perfect_point (k : Z) (z : v3) : v3 :=
    if ((0 <=? k) && (k <? Z.of_nat (length (p_points p))))%Z then
      let o := nth (Z.to_nat k) (p_points p) {| po_icam_i := 0; po_icam_e := 0; po_ipoint := 0 |} in
      let q := lens_pixel (p_lens p) (c_intr c (py_index (p_Nci p) (po_icam_i o))) (point_pcam o) in
      V3 (px q) (py q) (vz z)
    else z.
  (** synthetic_data.py:730-748: [weight] is a view: assigning to it changes the observations *)
  Definition add_noise (sigma : R) (randn : p2) (z : v3) : v3 :=
    let weight := if Rle_dec (vz z) 0 then 1 else vz z in
    V3 (vx z + sigma * px randn / weight) (vy z + sigma * py randn / weight) weight.
  Definition set_pools (bp pp : Z -> v3) : context :=
    {| c_p := c_p c; c_intr := c_intr c; c_cam := c_cam c; c_frame := c_frame c; c_point := c_point c; c_warp := c_warp c; c_imager := c_imager c;
       c_spacing := c_spacing c; c_bpool := bp; c_ppool := pp; c_tri_px := c_tri_px c |}.
  Definition make_perfect_observations (sigma : R) (randn_board randn_point : Z -> p2) : context :=
    let bp k := perfect_board k (c_bpool c k) in
    let pp k := perfect_point k (c_ppool c k) in
    if Req_EM_T sigma 0 then set_pools bp pp
    else set_pools (fun k => add_noise sigma (randn_board k) (bp k)) (fun k => add_noise sigma (randn_point k) (pp k)).
End Perfect.
