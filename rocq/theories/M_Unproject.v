(** Model: the unprojection, mrcal.c:3040-3290: the iterative one for any projection (a parameter), and
    _mrcal_unproject_internal() with the projections of all the lens models.  The optimizer (libdogleg) is an oracle. *)
From Coq Require Import Reals Bool Arith ZArith QArith Qreals.
From Verif Require Import S_Vec M_Project M_Lens M_OpenCV M_Cahvore M_Splined.
Open Scope R_scope.

(** a double that may be NaN; an output slot *)
Record slot := Slot { sx : option R; sy : option R; sz : option R }.
Definition of_v3 (v : v3) : slot := Slot (Some (vx v)) (Some (vy v)) (Some (vz v)).

(** the double norm2x that the optimizer returns *)
Inductive cost := Cost (r : R) | Cost_inf | Cost_nan.
(** mrcal.c:3237: norm2x/2.0 > 1e-4 *)
Definition too_high (n : cost) : bool :=
  match n with Cost r => if Rlt_dec (1 / 10000) (r / 2) then true else false | Cost_inf => true | Cost_nan => false end.

Section Unproject.
  (** project() of one point in camera coordinates and its gradient *)
  Variable proj : v3 -> p2.
  Variable proj_J : v3 -> j23.
  Variable c : core.
  (** model_supports_projection_behind_camera(lensmodel) *)
  Variable behind : bool.
  (** dogleg_optimize_dense2: from the callback and the initial state, the final state and norm2(x) there *)
  Variable optimize : (p2 -> p2 * (p2 * p2)) -> p2 -> p2 * cost.

  (** mrcal.c:3103-3160: the residual and its 2x2 Jacobian (row by row) *)
  Definition unproject_callback (q : p2) (u : p2) : p2 * (p2 * p2) :=
    let t := unproject_stereographic c u in
    let dv_du := unproject_stereographic_J c u in
    let q_hypothesis := proj t in
    let dq_dtframe := proj_J t in
    (P2 (px q_hypothesis - px q) (py q_hypothesis - py q),
     (P2 (vx (dqx dq_dtframe) * px (dvx dv_du) + vy (dqx dq_dtframe) * px (dvy dv_du) + vz (dqx dq_dtframe) * px (dvz dv_du))
         (vx (dqx dq_dtframe) * py (dvx dv_du) + vy (dqx dq_dtframe) * py (dvy dv_du) + vz (dqx dq_dtframe) * py (dvz dv_du)),
      P2 (vx (dqy dq_dtframe) * px (dvx dv_du) + vy (dqy dq_dtframe) * px (dvy dv_du) + vz (dqy dq_dtframe) * px (dvz dv_du))
         (vx (dqy dq_dtframe) * py (dvx dv_du) + vy (dqy dq_dtframe) * py (dvy dv_du) + vz (dqy dq_dtframe) * py (dvz dv_du)))).

  (** One iteration of the loop, mrcal.c:3215-3264, on the slot that [out] points to *)
  Definition unproject_step (q : p2) (old : slot) : slot :=
    let u0 := project_stereographic c (V3 ((px q - cx c) / fx c) ((py q - cy c) / fy c) 1) in
    let '(u, norm2x) := optimize (unproject_callback q) u0 in
    if too_high norm2x then Slot None None (sz old)
    else
      let v := unproject_stereographic c u in
      if (negb behind && if Rlt_dec (vz v) 0 then true else false)%bool
      then of_v3 (V3 (vx v * -1) (vy v * -1) (vz v * -1)) else of_v3 v.

  (** the loop: [out] advances by one slot after every point *)
  Definition unproject_loop (q : nat -> p2) (N : nat) (out : buf slot) : buf slot :=
    snd (for_loop N (fun i '(o, b) => (S o, put b o (unproject_step (q i) (b o)))) (0%nat, out)).
End Unproject.

(** mrcal.c:255-288: can_project_behind_camera *)
Definition can_project_behind_camera (m : lensmodel) : bool :=
  match m with SPLINED _ | STEREOGRAPHIC | LONLAT | LATLON => true | _ => false end.
(** _project_point(), mrcal.c:2415-2525, for a point given in camera coordinates; CAHVORE: (0,0) if it fails *)
Definition lens_pixel (m : lensmodel) (intr : nat -> R) (p : v3) : p2 :=
  match m with
  | PINHOLE => project_pinhole (core_of intr) p
  | STEREOGRAPHIC => project_stereographic (core_of intr) p
  | LONLAT => project_lonlat (core_of intr) p
  | LATLON => project_latlon (core_of intr) p
  | OPENCV4 => opencv_project 4 intr p
  | OPENCV5 => opencv_project 5 intr p
  | OPENCV8 => opencv_project 8 intr p
  | OPENCV12 => opencv_project 12 intr p
  | CAHVOR => cahvor_project intr p
  | CAHVORE lin => match cahvore_project (Q2R lin) intr p with Some q => q | None => P2 0 0 end
  | SPLINED cfg => splined_project cfg (fun z => intr (Z.to_nat z)) p
  end.
(** its gradient dq_dtframe with the camera at the identity; [stale]: what the array held before, some of which survives a
    failed CAHVORE projection *)
Definition lens_pixel_J (stale : j23) (m : lensmodel) (intr : nat -> R) (p : v3) : j23 :=
  match m with
  | PINHOLE => project_pinhole_J (core_of intr) p
  | STEREOGRAPHIC => project_stereographic_J (core_of intr) p
  | LONLAT => project_lonlat_J (core_of intr) p
  | LATLON => project_latlon_J (core_of intr) p
  | OPENCV4 => opencv_dq_dp 4 intr p
  | OPENCV5 => opencv_dq_dp 5 intr p
  | OPENCV8 => opencv_dq_dp 8 intr p
  | OPENCV12 => opencv_dq_dp 12 intr p
  | CAHVOR => cahvor_dq_dp intr p
  | CAHVORE lin => snd (cahvore_project_point (Q2R lin) intr p stale)
  | SPLINED cfg => splined_dq_dp cfg (fun z => intr (Z.to_nat z)) p
  end.

(** _mrcal_unproject_internal(), mrcal.c:3167-3290.  None: it returns false and has written nothing. *)
Definition unproject_internal (stale : j23) (optimize : (p2 -> p2 * (p2 * p2)) -> p2 -> p2 * cost)
    (m : lensmodel) (intr : nat -> R) (q : nat -> p2) (N : nat) (out : buf slot) : option (buf slot) :=
  let c := core_of intr in
  let closed (f : p2 -> v3) := Some (for_loop N (fun i b => put b i (of_v3 (f (q i)))) out) in
  let iterate := Some (unproject_loop (lens_pixel m intr) (lens_pixel_J stale m intr) c (can_project_behind_camera m) optimize q N out) in
  match m with
  | PINHOLE => closed (unproject_pinhole c)
  | STEREOGRAPHIC => closed (unproject_stereographic c)
  | LONLAT => closed (unproject_lonlat c)
  | LATLON => closed (unproject_latlon c)
  | CAHVORE _ =>
      if Req_EM_T (intr 9%nat) 0 then if Req_EM_T (intr 10%nat) 0 then if Req_EM_T (intr 11%nat) 0 then iterate else None else None else None
  | _ => iterate
  end.
