(** Model: stereo rectification and ranging (stereo.c, mrcal/stereo.py), over the
    reals; stereo_range over the reals extended with the non-finite doubles. *)
From Coq Require Import Reals ZArith List Bool.
From Verif Require Import S_Vec M_Pose M_Project.
Import ListNotations.
Open Scope R_scope.

(** the lens models the rectification functions tell apart *)
Inductive rmodel := LATLON | PINHOLE | OTHER.

(** *** mrcal_rectified_system2: the axes, stereo.c:495-550 *)
Record axes := Axes { ax_baseline : R; ax_R : m33 (* R_rect0_cam0 *); ax_forward01 : v3; ax_proj : R (* forward01_proj_right *) }.
Inductive axes_result := Axes_ok (a : axes) | Axes_small_baseline
| Axes_nan.  (** norm2_forward == 0: the code does not test for it and carries NaN on *)

Definition rectified_axes (Rt_cam0_ref Rt_cam1_ref : Rt) : axes_result :=
  let Rt_ref_cam1 := invert_Rt Rt_cam1_ref in
  let Rt01 := compose_Rt2 Rt_cam0_ref Rt_ref_cam1 false false in
  let t := Rt_t Rt01 in
  let baseline := sqrt (vx t * vx t + vy t * vy t + vz t * vz t) in
  if Rlt_dec baseline (1 / 1000000) then Axes_small_baseline
  else
    let right := V3 (vx t / baseline) (vy t / baseline) (vz t / baseline) in
    let forward01 := V3 (m02 (Rt_R Rt01)) (m12 (Rt_R Rt01)) (m22 (Rt_R Rt01) + 1) in
    let proj := vx forward01 * vx right + vy forward01 * vy right + vz forward01 * vz right in
    let f := V3 (vx forward01 - proj * vx right) (vy forward01 - proj * vy right) (vz forward01 - proj * vz right) in
    let norm2_forward := vx f * vx f + vy f * vy f + vz f * vz f in
    if Req_EM_T norm2_forward 0 then Axes_nan
    else
      let n := sqrt norm2_forward in
      let forward := V3 (vx f / n) (vy f / n) (vz f / n) in
      let down := V3 (vy forward * vz right - vz forward * vy right)
                     (vz forward * vx right - vx forward * vz right)
                     (vx forward * vy right - vy forward * vx right) in
      Axes_ok (Axes baseline
        (M33 (vx right) (vy right) (vz right) (vx down) (vy down) (vz down) (vx forward) (vy forward) (vz forward))
        forward01 proj).

(** *** the center azimuth, stereo.c:552-627: the new azel0_deg->x and azel0.x, or failure *)
Definition deg (x : R) : R := x * PI / 180.
Definition fov_ok (margin az0_deg fov_deg : R) : Prop :=
  az0_deg - fov_deg / 2 > -90 + (margin - 1 / 1000) /\ az0_deg + fov_deg / 2 < 90 - (margin - 1 / 1000).
Definition choose_az0 (auto : bool) (margin az0_deg fov_deg : R) (proj : R) (forward01 : v3) : option (R * R) :=
  let loose := margin - 1 / 1000 in
  let low_ok x := Rgt_dec (x - fov_deg / 2) (-90 + loose) in
  let high_ok x := Rlt_dec (x + fov_deg / 2) (90 - loose) in
  if auto then
    let norm2_forward01 := vx forward01 * vx forward01 + vy forward01 * vy forward01 + vz forward01 * vz forward01 in
    let az0 := asin (proj / sqrt norm2_forward01) in
    let az0_deg := az0 * 180 / PI in
    if low_ok az0_deg then
      if high_ok az0_deg then Some (az0_deg, az0)
      else if Rgt_dec fov_deg (180 - 2 * margin) then None
      else let az0_deg := 90 - margin - fov_deg / 2 in Some (az0_deg, az0_deg / 180 * PI)
    else if Rgt_dec fov_deg (180 - 2 * margin) then None
    else let az0_deg := -90 + margin + fov_deg / 2 in Some (az0_deg, az0_deg / 180 * PI)
  else
    if low_ok az0_deg then (if high_ok az0_deg then Some (az0_deg, az0_deg * PI / 180) else None) else None.

(** libm's round(): to nearest, halfway away from zero.  The cast to int is taken to be in range. *)
Definition round_away (x : R) : Z :=
  if Rle_dec 0 x then Int_part (x + 1 / 2) else (- Int_part (- x + 1 / 2))%Z.

(** *** mrcal_rectified_resolution, stereo.c:23-171.  [dq_dv]: the gradient
    mrcal_project() reports for camera 0's lens. *)
Definition center_vector (model : rmodel) (az0 el0 : R) : v3 * j32 :=
  let unit_core := Core 1 1 0 0 in
  match model with
  | LATLON => (unproject_latlon unit_core (P2 az0 el0), unproject_latlon_J unit_core (P2 az0 el0))
  | _ =>
    let q := P2 (tan az0) (tan el0) in
    let J := unproject_pinhole_J unit_core q in
    let ca := cos az0 * cos az0 in let ce := cos el0 * cos el0 in
    (unproject_pinhole unit_core q,
     J32 (P2 (px (dvx J) / ca) (py (dvx J) / ce)) (P2 (px (dvy J) / ca) (py (dvy J) / ce)) (P2 (px (dvz J) / ca) (py (dvz J) / ce)))
  end.
Definition rectified_resolution (dq_dv : v3 -> j23) (model : rmodel) (ppd_az ppd_el fov_az fov_el az0_deg el0_deg : R)
    (R_cam0_rect0 : m33) : R * R :=
  let '(v, J) := center_vector model (az0_deg * PI / 180) (el0_deg * PI / 180) in
  let v0 := rotate_point_R R_cam0_rect0 v false in
  let dv0_daz := mul_Rv R_cam0_rect0 (V3 (px (dvx J)) (px (dvy J)) (px (dvz J))) in
  let dv0_del := mul_Rv R_cam0_rect0 (V3 (py (dvx J)) (py (dvy J)) (py (dvz J))) in
  let row g d := vx g * vx d + vy g * vy d + vz g * vz d in
  let G := dq_dv v0 in
  let size d := sqrt (row (dqx G) d * row (dqx G) d + row (dqy G) d * row (dqy G) d) * PI / 180 in
  let ppd_az := if Rlt_dec ppd_az 0 then ppd_az * - size dv0_daz else ppd_az in
  let ppd_el := if Rlt_dec ppd_el 0 then ppd_el * - size dv0_del else ppd_el in
  match model with
  | LATLON => (IZR (round_away (fov_az * ppd_az)) / fov_az, IZR (round_away (fov_el * ppd_el)) / fov_el)
  | _ => (ppd_az, ppd_el)
  end.

(** *** roots_real_polynomial, stereo.c:206-275, and compute_pinhole_cxy, 299-385.
    [eig]: what dgeev_() returns for the companion matrix of
    c0 + c1 x + c2 x^2 + c3 x^3 + x^4: (wr,wi) pairs, None on error. *)
Section Pinhole.
  Variable eig : R -> R -> R -> R -> option (list (R * R)).
  Definition roots_real (c0 c1 c2 c3 : R) : option (list R) :=
    match eig c0 c1 c2 c3 with
    | None => None
    | Some w => Some (map fst (filter (fun r => if Rle_dec (Rabs (snd r)) (1 / 10000000) then true else false) w))
    end.
  (** the loops that discard candidates: the last one is moved into the hole and
      looked at next.  At most [length l] elements are looked at. *)
  Fixpoint discard (ok : R -> bool) (fuel : nat) (l : list R) : list R :=
    match fuel, l with
    | S fuel, x :: t =>
      if ok x then x :: discard ok fuel t
      else match t with [] => [] | _ :: _ => discard ok fuel (last t 0 :: removelast t) end
    | _, _ => []
    end.
  (** the most positive one; the first among equals *)
  Fixpoint pick (val : R -> R) (best : option R) (l : list R) : option R :=
    match l with
    | [] => best
    | c :: t => pick val (match best with None => Some c | Some b => if Rgt_dec (val c) (val b) then Some c else Some b end) t
    end.
  Definition pinhole_cxy (fxy tanazel0 fov_deg : R) : option R :=
    let cosfov := cos (fov_deg * PI / 180) in
    let cos2fov := cosfov * cosfov in
    let K := 2 * tanazel0 in
    match roots_real (K * K + 1 + K * K / (cos2fov - 1)) (2 * K + K * 4 / (cos2fov - 1)) (K * K + 2 + 4 / (cos2fov - 1)) (2 * K) with
    | None => None
    | Some C =>
      let val c := cosfov * (1 - K * c - c * c) in
      let C := discard (fun c => if Rge_dec (val c) (- (1 / 1000000000)) then true else false) (length C) C in
      let C := discard (fun c => if Rgt_dec ((tanazel0 * fxy + c * fxy) * 2 + 1) 0 then true else false) (length C) C in
      match pick val None C with None => None | Some c => Some (c * fxy) end
    end.

  (** *** mrcal_rectified_system2, stereo.c:390-718, without the checks of
      lensmodel0 (LENSMODEL_CAHVORE) *)
  Variable dq_dv : v3 -> j23.
  Record rect := Rect { r_Naz : Z; r_Nel : Z; r_core : core; r_Rt_rect0_ref : Rt; r_rt_rect0_ref : rt; r_baseline : R; r_az0_deg : R }.
  Inductive rect_result := Rect_ok (r : rect) | Rect_fail | Rect_nan.
  Definition rectified_system (model : rmodel) (auto : bool) (ppd_az ppd_el fov_az fov_el az0_deg el0_deg margin : R)
      (rt_cam0_ref rt_cam1_ref : rt) : rect_result :=
    match model with OTHER => Rect_fail | _ =>
    if Req_EM_T ppd_az 0 then Rect_fail else
    if Req_EM_T ppd_el 0 then Rect_fail else
    if Rle_dec fov_az 0 then Rect_fail else
    if Rle_dec fov_el 0 then Rect_fail else
    let Rt_cam0_ref := Rt_from_rt rt_cam0_ref in
    let Rt_cam1_ref := Rt_from_rt rt_cam1_ref in
    match rectified_axes Rt_cam0_ref Rt_cam1_ref with
    | Axes_small_baseline => Rect_fail
    | Axes_nan => Rect_nan
    | Axes_ok ax =>
      match choose_az0 auto margin az0_deg fov_az (ax_proj ax) (ax_forward01 ax) with
      | None => Rect_fail
      | Some (az0_deg, az0) =>
        let el0 := el0_deg * PI / 180 in
        let R_cam0_rect0 := invert_R (ax_R ax) in
        let '(ppd_az, ppd_el) := rectified_resolution dq_dv model ppd_az ppd_el fov_az fov_el az0_deg el0_deg R_cam0_rect0 in
        let fx := ppd_az / PI * 180 in
        let fy := ppd_el / PI * 180 in
        let Rt_rect0_ref := compose_Rt2 (mkRt (ax_R ax) (V3 0 0 0)) Rt_cam0_ref false false in
        let finish Naz Nel c :=
          if Z.eqb Nel 0 then Rect_fail  (* imagersize_rectified is unsigned: <=0 means ==0 *)
          else Rect_ok (Rect Naz Nel c Rt_rect0_ref (rt_from_Rt Rt_rect0_ref) (ax_baseline ax) az0_deg) in
        match model with
        | LATLON =>
          let Naz := round_away (fov_az * ppd_az) in
          let Nel := round_away (fov_el * ppd_el) in
          finish Naz Nel (Core fx fy ((IZR Naz - 1) / 2 - az0 * fx) ((IZR Nel - 1) / 2 - el0 * fy))
        | _ =>
          let fx := fx * (cos az0 * cos az0) in
          let fy := fy * (cos el0 * cos el0) in
          match pinhole_cxy fx (tan az0) fov_az with
          | None => Rect_fail
          | Some cx =>
            match pinhole_cxy fy (tan el0) fov_el with
            | None => Rect_fail
            | Some cy =>
              finish (round_away ((tan az0 * fx + cx) * 2) + 1)%Z (round_away ((tan el0 * fy + cy) * 2) + 1)%Z (Core fx fy cx cy)
            end
          end
        end
      end
    end
    end.
End Pinhole.
(** mrcal/stereo.py:451-452: the pose of the second rectified camera *)
Definition rt_rect1_ref (rt_rect0_ref : rt) (baseline : R) : rt :=
  mkrt (rt_r rt_rect0_ref) (V3 (vx (rt_t rt_rect0_ref) - baseline) (vy (rt_t rt_rect0_ref)) (vz (rt_t rt_rect0_ref))).

(** *** mrcal_rectification_maps, stereo.c:824-971.  The output is an array of
    floats (the cast from double is not modelled) indexed with 32-bit unsigned
    arithmetic.  [project0], [project1]: mrcal_project() with each lens. *)
Definition u32 (x : Z) : Z := (x mod 4294967296)%Z.
Section Maps.
  Variables project0 project1 : v3 -> p2.
  Definition mem := Z -> R.
  Definition store (m : mem) (a : Z) (x : R) : mem := fun b => if Z.eqb b a then x else m b.
  (** stereo.c:846-862: mul_genN3_gen33t_vout(R_cam_ref, R_rect0_ref) = R_cam_ref R_rect0_ref^T *)
  Definition R_cam_rect (R_cam_ref R_rect0_ref : m33) : m33 := mul_RR R_cam_ref (swap_strides R_rect0_ref).
  (** set_rectification_map_pixel, stereo.c:783-822 *)
  Definition set_pixel (R0 R1 : m33) (W H i j : Z) (v : v3) (m : mem) : mem :=
    let map1 := u32 (u32 (W * H) * 2) in
    let at_ := u32 (u32 (u32 (i * W) + j) * 2) in
    let q0 := project0 (rotate_point_R R0 v false) in
    let m := store m at_ (px q0) in
    let m := store m (u32 (at_ + 1)) (py q0) in
    let q1 := project1 (rotate_point_R R1 v false) in
    let m := store m (map1 + at_)%Z (px q1) in
    store m (map1 + u32 (at_ + 1))%Z (py q1).
  (** the column loop and the row loop; LATLON: the sines and cosines are advanced incrementally *)
  Definition sc := (R * R)%type.
  Definition advance (s : sc) (sd cd : R) : sc := let '(s, c) := s in (s * cd + c * sd, c * cd - s * sd).
  Definition row_latlon (R0 R1 : m33) (W H i : Z) (lon : sc) (sd cd : R) (lat0 : sc) (n : nat) (m : mem) : sc * mem :=
    for_loop n (fun j '(lat, m) =>
      (advance lat sd cd, set_pixel R0 R1 W H i (Z.of_nat j) (V3 (fst lat) (snd lat * fst lon) (snd lat * snd lon)) m)) (lat0, m).
  Definition maps_latlon (R0 R1 : m33) (c : core) (W H : nat) (m : mem) : mem :=
    let fx_recip := 1 / fx c in let fy_recip := 1 / fy c in
    let lon0 := - (cy c * fy_recip) in let lat0 := - (cx c * fx_recip) in
    snd (for_loop H (fun i '(lon, m) =>
      (advance lon (sin fy_recip) (cos fy_recip),
       snd (row_latlon R0 R1 (Z.of_nat W) (Z.of_nat H) (Z.of_nat i) lon (sin fx_recip) (cos fx_recip) (sin lat0, cos lat0) W m)))
      ((sin lon0, cos lon0), m)).
  Definition maps_pinhole (R0 R1 : m33) (c : core) (W H : nat) (m : mem) : mem :=
    let fx_recip := 1 / fx c in let fy_recip := 1 / fy c in
    let cfx := cx c * fx_recip in let cfy := cy c * fy_recip in
    for_loop H (fun i m => for_loop W (fun j m =>
      set_pixel R0 R1 (Z.of_nat W) (Z.of_nat H) (Z.of_nat i) (Z.of_nat j)
        (V3 (INR j * fx_recip - cfx) (INR i * fy_recip - cfy) 1) m) m) m.
  Definition rectification_maps (model : rmodel) (r_cam0_ref r_cam1_ref r_rect0_ref : v3) (c : core) (W H : nat) (m : mem) : option mem :=
    let R0 := R_cam_rect (R_from_r r_cam0_ref) (R_from_r r_rect0_ref) in
    let R1 := R_cam_rect (R_from_r r_cam1_ref) (R_from_r r_rect0_ref) in
    match model with
    | LATLON => Some (maps_latlon R0 R1 c W H m)
    | PINHOLE => Some (maps_pinhole R0 R1 c W H m)
    | OTHER => None
    end.
End Maps.

(** *** doubles without rounding: reals, infinities, NaN.  The sign of zero is
    not kept: x/0 is some non-finite value, which is all the code looks at. *)
Inductive xr := Fin (r : R) | PInf | MInf | NaN.
Definition xneg (a : xr) : xr := match a with Fin x => Fin (- x) | PInf => MInf | MInf => PInf | NaN => NaN end.
Definition xadd (a b : xr) : xr :=
  match a, b with
  | Fin x, Fin y => Fin (x + y)
  | NaN, _ | _, NaN => NaN
  | PInf, MInf | MInf, PInf => NaN
  | PInf, _ | _, PInf => PInf
  | MInf, _ | _, MInf => MInf
  end.
Definition xsub (a b : xr) : xr := xadd a (xneg b).
Definition xinf_times (pos : bool) (x : R) : xr :=
  if Req_EM_T x 0 then NaN else if Rlt_dec 0 x then (if pos then PInf else MInf) else (if pos then MInf else PInf).
Definition xmul (a b : xr) : xr :=
  match a, b with
  | Fin x, Fin y => Fin (x * y)
  | NaN, _ | _, NaN => NaN
  | PInf, Fin x | Fin x, PInf => xinf_times true x
  | MInf, Fin x | Fin x, MInf => xinf_times false x
  | PInf, PInf | MInf, MInf => PInf
  | PInf, MInf | MInf, PInf => MInf
  end.
Definition xdiv (a b : xr) : xr :=
  match a, b with
  | NaN, _ | _, NaN => NaN
  | Fin x, Fin y => if Req_EM_T y 0 then (if Req_EM_T x 0 then NaN else if Rlt_dec 0 x then PInf else MInf) else Fin (x / y)
  | Fin x, _ => Fin 0
  | PInf, Fin y => if Req_EM_T y 0 then PInf else xinf_times true y
  | MInf, Fin y => if Req_EM_T y 0 then MInf else xinf_times false y
  | _, _ => NaN
  end.
Definition xsqrt (a : xr) : xr := match a with Fin x => if Rlt_dec x 0 then NaN else Fin (sqrt x) | PInf => PInf | _ => NaN end.
Definition xsin (a : xr) : xr := match a with Fin x => Fin (sin x) | _ => NaN end.
Definition xcos (a : xr) : xr := match a with Fin x => Fin (cos x) | _ => NaN end.
Definition isfinite (a : xr) : bool := match a with Fin _ => true | _ => false end.
(** C's a <= b and a < b *)
Definition xle (a b : xr) : bool :=
  match a, b with
  | NaN, _ | _, NaN => false
  | Fin x, Fin y => if Rle_dec x y then true else false
  | MInf, _ | _, PInf => true
  | _, _ => false
  end.
Definition xlt (a b : xr) : bool :=
  match a, b with
  | NaN, _ | _, NaN => false
  | Fin x, Fin y => if Rlt_dec x y then true else false
  | MInf, MInf | PInf, PInf => false
  | MInf, _ | _, PInf => true
  | _, _ => false
  end.

(** *** _stereo_range_one, stereo.c:1263-1308 *)
Definition stereo_range_one (disparity qx qy : xr) (model : rmodel) (fx fy cx cy baseline : xr) : xr :=
  match model with
  | LATLON =>
    let az0 := xdiv (xsub qx cx) fx in
    let disparity_rad := xdiv disparity fx in
    let range := xdiv (xmul baseline (xcos (xsub az0 disparity_rad))) (xsin disparity_rad) in
    if isfinite range then range else Fin 0
  | _ =>
    let tanaz0 := xdiv (xsub qx cx) fx in
    let tanel := xdiv (xsub qy cy) fy in
    let s_sq_recip := xadd (xmul tanel tanel) (Fin 1) in
    let tanaz0_tanaz1 := xdiv disparity fx in
    let tanaz1 := xsub tanaz0 tanaz0_tanaz1 in
    let range := xmul (xdiv baseline (xsqrt (xadd s_sq_recip (xmul tanaz0 tanaz0))))
                      (xadd (xdiv (xadd s_sq_recip (xmul tanaz0 tanaz1)) tanaz0_tanaz1) tanaz0) in
    if isfinite range then range else Fin 0
  end.
(** mrcal_stereo_range_sparse, stereo.c:1310-1352: None = returns false *)
Definition stereo_range_sparse (disparity : list xr) (q : list (xr * xr)) (dmin dmax : xr) (model : rmodel) (fx fy cx cy baseline : xr) : option (list xr) :=
  match model with
  | OTHER => None
  | _ =>
    if xle dmax dmin then None
    else Some (map (fun '(d, (qx, qy)) =>
      if (xle d (Fin 0) || xlt d dmin || xlt dmax d)%bool then Fin 0 else stereo_range_one d qx qy model fx fy cx cy baseline) (combine disparity q))
  end.
(** mrcal_stereo_range_dense, stereo.c:1354-1417, on images as functions of (row, column); the
    disparities are uint16_t *)
Definition stereo_range_dense (disparity_scaled : nat -> nat -> Z) (scale smin smax : Z) (model : rmodel) (fx fy cx cy baseline : xr)
    (i j : nat) : option xr :=
  match model with
  | OTHER => None
  | _ =>
    if Z.leb smax smin then None
    else
      let d := disparity_scaled i j in
      Some (if (Z.leb d 0 || Z.ltb d smin || Z.ltb smax d)%bool then Fin 0
            else stereo_range_one (xdiv (Fin (IZR d)) (Fin (IZR scale))) (Fin (INR j)) (Fin (INR i)) model fx fy cx cy baseline)
  end.
(** mrcal/stereo.py:1211-1296: the conversions before the dense call.  Int16
    disparities: two's-complement reinterpretation, and 0x7FFF as the default
    upper limit.  Floating-point disparities: astype(np.uint16) truncates. *)
Inductive disparity_image := I16 (d : nat -> nat -> Z) | F64 (d : nat -> nat -> R).
Definition u16 (x : Z) : Z := (x mod 65536)%Z.
Definition trunc0 (x : R) : Z := if Rle_dec 0 x then Int_part x else (- Int_part (- x))%Z.
Definition stereo_range_py (im : disparity_image) (scale : Z) (model : rmodel) (fx fy cx cy baseline : xr) (i j : nat) : option xr :=
  match im with
  | I16 d => stereo_range_dense (fun i j => u16 (d i j)) (u16 scale) 0 32767 model fx fy cx cy baseline i j
  | F64 d => stereo_range_dense (fun i j => u16 (trunc0 (d i j))) (u16 scale) 0 65535 model fx fy cx cy baseline i j
  end.
(** mrcal/stereo.py:1453-1606 stereo_unproject, one pixel: unproject(normalize=True) times the range *)
Definition stereo_unproject_one (model : rmodel) (c : core) (q : p2) (range : R) : v3 :=
  let v := match model with LATLON => unproject_latlon c q | _ => unproject_pinhole c q end in
  let n := sqrt (vx v * vx v + vy v * vy v + vz v * vz v) in
  V3 (vx v / n * range) (vy v / n * range) (vz v / n * range).
