(** Model: the values computed by one evaluation of the cost function: every residual and every Jacobian entry.
    Source: mrcal.c:2302-2862 (project() and what it calls), 4520-4598 (the parameters come from the packed state or,
    if not optimized, from the arguments), 4600-4899 (boards), 4903-5176 (points), 5195-5505 (triangulated points),
    5655-5950 (regularization).  Which rows there are and which columns they have is M_Callback; here its value
    oracles are defined.  Doubles are real numbers.  A matrix product is modelled by its mathematical meaning. *)
From Coq Require Import Reals ZArith QArith Qreals List Bool.
From Verif Require Import S_Vec M_Dual M_Pose M_Lens M_Layout M_SplineIdx M_Spline M_Project M_OpenCV M_Cahvore M_Splined M_Unproject M_Callback M_Pack M_Triangulate.
Import ListNotations.
Open Scope R_scope.

(** ** One lens *)
Definition p2get (q : p2) (ixy : Z) : R := if (ixy =? 0)%Z then px q else py q.
Definition jget (J : j23) (ixy : Z) : v3 := if (ixy =? 0)%Z then dqx J else dqy J.
(** a row vector times a 3x3 matrix (mul_vec3_gen33_vout, mul_vec3t_gen33) *)
Definition vecmat (a : v3) (D : m33) : v3 :=
  V3 (vx a * m00 D + vy a * m10 D + vz a * m20 D) (vx a * m01 D + vy a * m11 D + vz a * m21 D) (vx a * m02 D + vy a * m12 D + vz a * m22 D).
(** mul_genN3_gen33_vout(2, ...) *)
Definition j23mat (J : j23) (D : m33) : j23 := J23 (vecmat (dqx J) D) (vecmat (dqy J) D).
Section Lens.
  (** what the caller's gradient array held before; see M_Cahvore.cahvore_project_point *)
  Variable stale : j23.
  Variable m : lensmodel.
  Variable intr : nat -> R.
  Variable p : v3.
  (** mrcal.c:1421-1432, 1233-1239, 1311-1317, 2240-2246; 0 if a CAHVORE projection failed (2508) *)
  Definition lens_dfxy : p2 :=
    match m with
    | SPLINED cfg => splined_dq_dfxy cfg (fun z => intr (Z.to_nat z)) p
    | CAHVORE lin => match cahvore_project (Q2R lin) intr p with Some q => dq_dfxy_of (core_of intr) q | None => P2 0 0 end
    | _ => dq_dfxy_of (core_of intr) (lens_pixel m intr p)
    end.
  (** dq_dintrinsics_nocore[i_xy][i] *)
  Definition lens_nocore (i : nat) : R * R :=
    match m with
    | PINHOLE | STEREOGRAPHIC | LONLAT | LATLON => (0, 0)     (* there are none *)
    | OPENCV4 => nth i (opencv_dq_dnocore 4 intr p) (0, 0)
    | OPENCV5 => nth i (opencv_dq_dnocore 5 intr p) (0, 0)
    | OPENCV8 => nth i (opencv_dq_dnocore 8 intr p) (0, 0)
    | OPENCV12 => nth i (opencv_dq_dnocore 12 intr p) (0, 0)
    | CAHVOR => cahvor_dq_dnocore intr p i
    | CAHVORE lin => match cahvore_dq_dnocore (Q2R lin) intr p i with Some x => x | None => (0, 0) end
    | SPLINED _ => (0, 0)                                     (* a NULL pointer; see lens_sparse *)
    end.
  (** dq_deee = dq_dp dp_deee: mrcal.c:1402-1418, 1193-1219, 1298-1326, 2027-2049 *)
  Definition lens_deee (D : m33) : j23 :=
    match m with
    | SPLINED cfg => splined_dq_deee cfg (fun z => intr (Z.to_nat z)) p D
    | CAHVORE lin => match cahvore_dq_dp (Q2R lin) intr p with Some J => j23mat J D | None => J23 (V3 0 0 0) (dqy stale) end
    | _ => j23mat (lens_pixel_J stale m intr p) D
    end.
End Lens.

(** ** The pose of the point: mrcal.c:2302-2410 *)
(** pt^t d_Rj_rj[9*i..]: row i, column k is sum_j pt_j dRj[i][j]/drj[k] *)
Definition dRpt (rj pt : v3) : m33 :=
  let e (i k : nat) := vx pt * mget (R_from_r_J rj k) i 0%nat + vy pt * mget (R_from_r_J rj k) i 1%nat + vz pt * mget (R_from_r_J rj k) i 2%nat in
  M33 (e 0 0)%nat (e 0 1)%nat (e 0 2)%nat (e 1 0)%nat (e 1 1)%nat (e 1 2)%nat (e 2 0)%nat (e 2 1)%nat (e 2 2)%nat.
Definition madd (a b : m33) : m33 :=
  M33 (m00 a + m00 b) (m01 a + m01 b) (m02 a + m02 b) (m10 a + m10 b) (m11 a + m11 b) (m12 a + m12 b) (m20 a + m20 b) (m21 a + m21 b) (m22 a + m22 b).
(** the matrix product, row by row a vecmat (mul_vec3_gen33) *)
Definition matmat (a b : m33) : m33 :=
  let r0 := vecmat (mrow a 0) b in let r1 := vecmat (mrow a 1) b in let r2 := vecmat (mrow a 2) b in
  M33 (vx r0) (vy r0) (vz r0) (vx r1) (vy r1) (vz r1) (vx r2) (vy r2) (vz r2).

(** camera poses: None: camera_at_identity.  mrcal.c:2670-2706 *)
Definition joint_pose (cam : option rt) (frame : rt) : rt := match cam with Some c => compose_rt2 c frame false false | None => frame end.
Definition camera_point (cam : option rt) (frame : rt) (pt : v3) : v3 :=
  let j := joint_pose cam frame in vadd (mul_Rv (R_from_r (rt_r j)) pt) (rt_t j).
(** dp/d(r camera), dp/d(t camera), dp/d(r frame), dp/d(t frame); the first two are not there for a camera at the identity *)
Record pose_grads := { pg_rc : m33; pg_tc : m33; pg_rf : m33; pg_tf : m33 }.
Definition camera_point_grads (cam : rt) (frame : rt) (pt : v3) : pose_grads :=
  let gg := snd (compose_rt2_grad cam frame false false) in
  let D := dRpt (rt_r (joint_pose (Some cam) frame)) pt in
  {| pg_rc := madd (matmat D (dr_r0 gg)) (dt_r0 gg); pg_tc := M33 1 0 0 0 1 0 0 0 1; pg_rf := matmat D (dr_r1 gg); pg_tf := dt_t1 gg |}.

(** ** project() for one point: mrcal.c:2415-2560, 2572-2862 *)
Record projected := { pr_q : p2; pr_rc : j23; pr_tc : j23; pr_rf : j23; pr_tf : j23; pr_warp : p2 * p2 }.
Definition j0 : j23 := J23 (V3 0 0 0) (V3 0 0 0).
Definition project_one (stale : j23) (m : lensmodel) (intr : nat -> R) (cam : option rt) (frame : rt) (pt : v3) (dz : p2) : projected :=
  let p := camera_point cam frame pt in
  let Rj := R_from_r (rt_r (joint_pose cam frame)) in
  let '(rc, tc, rf, tf) := match cam with
    | Some c => let g := camera_point_grads c frame pt in
        (lens_deee stale m intr p (pg_rc g), lens_deee stale m intr p (pg_tc g), lens_deee stale m intr p (pg_rf g), lens_deee stale m intr p (pg_tf g))
    | None => (j0, j0, lens_deee stale m intr p (dRpt (rt_r frame) pt), lens_pixel_J stale m intr p)
    end in
  let dq_dt := match cam with Some _ => tc | None => tf end in
  let d (a : v3) := vx a * m02 Rj + vy a * m12 Rj + vz a * m22 Rj in
  {| pr_q := lens_pixel m intr p; pr_rc := rc; pr_tc := tc; pr_rf := rf; pr_tf := tf;
     pr_warp := (P2 (d (dqx dq_dt) * px dz) (d (dqx dq_dt) * py dz), P2 (d (dqy dq_dt) * px dz) (d (dqy dq_dt) * py dz)) |}.

(** mrcal.c:2783-2812: corner (x,y) of the board, and how its z depends on the warp *)
Definition board_dz (w h : Z) (warp : option (R * R)) (ix iy : Z) : p2 :=
  match warp with
  | None => P2 0 0
  | Some _ => let xr := IZR ix / IZR (w - 1) in let yr := IZR iy / IZR (h - 1) in P2 (4 * xr * (1 - xr)) (4 * yr * (1 - yr))
  end.
Definition board_corner (w h : Z) (spacing : R) (warp : option (R * R)) (ix iy : Z) : v3 :=
  V3 (IZR ix * spacing) (IZR iy * spacing)
     (match warp with None => 0 | Some (x2, y2) => let d := board_dz w h warp ix iy in 0 + x2 * px d + y2 * py d end).

(** ** The arguments that are not in the packed state *)
Record context := {
  c_p : problem;
  c_intr : Z -> nat -> R;           (* ctx->intrinsics *)
  c_cam : Z -> rt;                  (* ctx->rt_cam_ref *)
  c_frame : Z -> rt;                (* ctx->rt_ref_frame *)
  c_point : Z -> v3;                (* ctx->points *)
  c_warp : option (R * R);          (* ctx->calobject_warp; None: NULL *)
  c_imager : Z -> Z;                (* ctx->imagersizes *)
  c_spacing : R;
  c_bpool : Z -> v3;                (* observations_board_pool: x, y, weight *)
  c_ppool : Z -> v3;
  c_tri_px : Z -> v3                (* observations_point_triangulated[i].px *)
}.

Section Values.
  Variable stale : j23.
  Variable c : context.
  Let p := c_p c.
  Let sel := p_sel p.
  Let m := p_lens p.
  Let Ncore_state := if has_core m && do_core sel then 4%Z else 0%Z.

  Section State.
    Variable b : Z -> R.    (* packed_state *)
    (** mrcal.c:4539-4576 *)
    Definition intr_of (icam : Z) (i : nat) : R :=
      let iv := state_index_intrinsics p icam in
      if Nat.ltb i 4
      then if do_core sel then b (iv + Z.of_nat i)%Z * scale (if Nat.ltb i 2 then S_focal else S_center) else c_intr c icam i
      else if do_dist sel then b (iv + Ncore_state + (Z.of_nat i - 4))%Z * scale S_dist else c_intr c icam i.
    Definition three (iv : Z) (k : skind) : v3 := V3 (b iv * scale k) (b (iv + 1)%Z * scale k) (b (iv + 2)%Z * scale k).
    (** mrcal.c:4577-4597 *)
    Definition cam_of (icam : Z) : rt :=
      let iv := state_index_extrinsics p icam in
      if do_ext sel then mkrt (three iv S_rot_cam) (three (iv + 3) S_trans_cam) else c_cam c icam.
    (** mrcal.c:4613-4625 *)
    Definition frame_of (iframe : Z) : rt :=
      let iv := state_index_frames p iframe in
      if do_frames sel then mkrt (three iv S_rot_frame) (three (iv + 3) S_trans_frame) else c_frame c iframe.
    (** mrcal.c:5026-5030 *)
    Definition point_of (o : point_obs) : v3 :=
      if use_position_from_state p o then three (state_index_points p (po_ipoint o)) S_point else c_point c (po_ipoint o).
    (** mrcal.c:4528-4537, 4690: the argument of project() *)
    Definition warp_of : option (R * R) :=
      match c_warp c with
      | None => None
      | Some w => Some (if has_warp p then let iv := state_index_warp p in (b iv * scale S_warp, b (iv + 1)%Z * scale S_warp) else w)
      end.
    Definition extr_of (icam : Z) : option rt := if (icam <? 0)%Z then None else Some (cam_of icam).

    Definition entries3 (col : Z) (g : v3) (s : R) : list (Z * R) := [(col, vx g * s); ((col + 1)%Z, vy g * s); ((col + 2)%Z, vz g * s)].
    (** mrcal.c:4715-4773: the columns for the intrinsics of camera icam that sees the point q *)
    Definition intr_entries (icam ixy : Z) (q : v3) (w : R) : list (Z * R) :=
      let iv := state_index_intrinsics p icam in let intr := intr_of icam in
      ((if do_core sel then [((iv + ixy)%Z, p2get (lens_dfxy m intr q) ixy * w * scale S_focal); ((iv + ixy + 2)%Z, w * scale S_center)] else []) ++
      (if do_dist sel then
         match m with
         | SPLINED cfg => map (fun e => ((iv + (fst e - (if do_core sel then 0 else 4)))%Z, snd e * w * scale S_dist)) (splined_entries cfg (fun z => intr (Z.to_nat z)) q ixy)
         | _ => map (fun i => ((iv + Ncore_state + Z.of_nat i)%Z, (if (ixy =? 0)%Z then fst (lens_nocore m intr q i) else snd (lens_nocore m intr q i)) * w * scale S_dist))
                    (seq 0 (Z.to_nat (num_params m - 4)))
         end
       else []))%list.

    (** ** boards *)
    Definition board_at (iobs : Z) : board_obs := nth (Z.to_nat iobs) (p_boards p) {| bo_icam_i := 0; bo_icam_e := 0; bo_iframe := 0 |}%Z.
    (** i_pt counts x first; i_feature counts over all observations *)
    Definition feature (iobs ipt : Z) : Z := (iobs * (p_w p * p_h p) + ipt)%Z.
    Definition board_pt (ipt : Z) : v3 := board_corner (p_w p) (p_h p) (c_spacing c) warp_of (ipt mod p_w p) (ipt / p_w p).
    Definition board_seen (iobs ipt : Z) : v3 :=
      let o := board_at iobs in camera_point (extr_of (bo_icam_e o)) (frame_of (bo_iframe o)) (board_pt ipt).
    Definition board_proj (iobs ipt : Z) : projected :=
      let o := board_at iobs in
      project_one stale m (intr_of (bo_icam_i o)) (extr_of (bo_icam_e o)) (frame_of (bo_iframe o)) (board_pt ipt)
                  (board_dz (p_w p) (p_h p) warp_of (ipt mod p_w p) (ipt / p_w p)).
    (** mrcal.c:4706 *)
    Definition board_x (iobs ipt ixy : Z) : R :=
      let z := c_bpool c (feature iobs ipt) in
      (p2get (pr_q (board_proj iobs ipt)) ixy - vget z (Z.to_nat ixy)) * vz z.
    (** mrcal.c:4715-4815 *)
    Definition board_entries (iobs ipt ixy : Z) : list (Z * R) :=
      let o := board_at iobs in let w := vz (c_bpool c (feature iobs ipt)) in let pr := board_proj iobs ipt in
      let ive := state_index_extrinsics p (bo_icam_e o) in let ivf := state_index_frames p (bo_iframe o) in
      (intr_entries (bo_icam_i o) ixy (board_seen iobs ipt) w ++
       (if do_ext sel then if (0 <=? bo_icam_e o)%Z then
          entries3 (ive + 0) (jget (pr_rc pr) ixy) (w * scale S_rot_cam) ++ entries3 (ive + 3) (jget (pr_tc pr) ixy) (w * scale S_trans_cam) else [] else []) ++
       (if do_frames sel then
          entries3 (ivf + 0) (jget (pr_rf pr) ixy) (w * scale S_rot_frame) ++ entries3 (ivf + 3) (jget (pr_tf pr) ixy) (w * scale S_trans_frame) else []) ++
       (if has_warp p then
          let d := if (ixy =? 0)%Z then fst (pr_warp pr) else snd (pr_warp pr) in let iv := state_index_warp p in
          [((iv + 0)%Z, w * scale S_warp * px d); ((iv + 1)%Z, w * scale S_warp * py d)] else []))%list.

    (** ** points: mrcal.c:4903-5176 *)
    Definition point_at (iobs : Z) : point_obs := nth (Z.to_nat iobs) (p_points p) {| po_icam_i := 0; po_icam_e := 0; po_ipoint := 0 |}%Z.
    (** calibration_object_width_n is 0: the frame is not rotated, and the point is its origin *)
    Definition point_frame (o : point_obs) : rt := mkrt (V3 0 0 0) (point_of o).
    Definition point_seen (iobs : Z) : v3 := let o := point_at iobs in camera_point (extr_of (po_icam_e o)) (point_frame o) (V3 0 0 0).
    Definition point_proj (iobs : Z) : projected :=
      let o := point_at iobs in project_one stale m (intr_of (po_icam_i o)) (extr_of (po_icam_e o)) (point_frame o) (V3 0 0 0) (P2 0 0).
    Definition point_x (iobs ixy : Z) : R :=
      let z := c_ppool c iobs in (p2get (pr_q (point_proj iobs)) ixy - vget z (Z.to_nat ixy)) * vz z.
    Definition point_entries (iobs ixy : Z) : list (Z * R) :=
      let o := point_at iobs in let w := vz (c_ppool c iobs) in let pr := point_proj iobs in
      let ive := state_index_extrinsics p (po_icam_e o) in let ivp := state_index_points p (po_ipoint o) in
      (intr_entries (po_icam_i o) ixy (point_seen iobs) w ++
       (if do_ext sel then if (0 <=? po_icam_e o)%Z then
          entries3 (ive + 0) (jget (pr_rc pr) ixy) (w * scale S_rot_cam) ++ entries3 (ive + 3) (jget (pr_tc pr) ixy) (w * scale S_trans_cam) else [] else []) ++
       (if use_position_from_state p o then entries3 ivp (jget (pr_tf pr) ixy) (w * scale S_point) else []))%list.

    (** ** triangulated points: mrcal.c:5195-5505 *)
    Definition tri_at (i : Z) : tri_obs := nth (Z.to_nat i) (p_tri p) {| to_icam_i := 0; to_icam_e := 0; to_last := true; to_outlier := false |}%Z.
    (** mrcal.c:5226-5262: -t_r0 and v0_ref, with their gradients; None: t_r0 is NULL *)
    Definition tri_origin (i0 : Z) : option v3 :=
      match extr_of (to_icam_e (tri_at i0)) with
      | Some e => Some (vscale (-1) (rotate_point_r (rt_r e) (rt_t e) true))
      | None => None
      end.
    Definition tri_v0_ref (i0 : Z) : v3 :=
      match extr_of (to_icam_e (tri_at i0)) with Some e => rotate_point_r (rt_r e) (c_tri_px c i0) true | None => c_tri_px c i0 end.
    (** mrcal.c:5277-5325: None: NULL is passed to _mrcal_triangulated_error(), which dereferences it *)
    Definition tri_t10 (i0 i1 : Z) : option v3 :=
      match extr_of (to_icam_e (tri_at i1)), tri_origin i0 with
      | Some e, Some t => Some (transform_point_rt e t false)
      | Some e, None => Some (rt_t e)
      | None, t => t
      end.
    Definition tri_v0_cam1 (i0 i1 : Z) : v3 :=
      match extr_of (to_icam_e (tri_at i1)) with Some e => rotate_point_r (rt_r e) (tri_v0_ref i0) false | None => tri_v0_ref i0 end.
    (** mrcal.c:5327-5333 *)
    Definition tri_dual (i0 i1 : Z) : option dual :=
      option_map (fun t => triangulated_error dualops (nvconst dualops (c_tri_px c i1)) (d_vars (tri_v0_cam1 i0 i1) 0) (d_vars t 3)) (tri_t10 i0 i1).
    Definition tri_x (i0 i1 : Z) : R := match tri_dual i0 i1 with Some e => dx e | None => 0 end.
    Definition dgrad (e : dual) (i : nat) : v3 := V3 (dj e i) (dj e (i + 1)) (dj e (i + 2)).
    (** mrcal.c:5365-5505 *)
    Definition tri_entries (i0 i1 : Z) : list (Z * R) :=
      match tri_dual i0 i1 with
      | None => []
      | Some e =>
        let derr_dv0 := dgrad e 0 in let derr_dt10 := dgrad e 3 in
        let e0 := to_icam_e (tri_at i0) in let e1 := to_icam_e (tri_at i1) in
        let iv0 := state_index_extrinsics p e0 in let iv1 := state_index_extrinsics p e1 in
        ((match extr_of e0 with
          | None => []
          | Some rt_0r =>
            let '(_, dnegt_dr, dnegt_dt) := rotJ (rt_r rt_0r) (rt_t rt_0r) true in
            let '(_, dv0ref_dr, _) := rotJ (rt_r rt_0r) (c_tri_px c i0) true in
            let '(derr_dt_r0, derr_dv0ref) := match extr_of e1 with
              | Some rt_1r =>
                let '(_, _, dt10_dtr0) := rotJ (rt_r rt_1r) (match tri_origin i0 with Some t => t | None => V3 0 0 0 end) false in
                let '(_, _, dv0cam1_dv0ref) := rotJ (rt_r rt_1r) (tri_v0_ref i0) false in
                (vecmat derr_dt10 dt10_dtr0, vecmat derr_dv0 dv0cam1_dv0ref)
              | None => (derr_dt10, derr_dv0)
              end in
            entries3 (iv0 + 0) (vadd (vecmat derr_dv0ref dv0ref_dr) (vscale (-1) (vecmat derr_dt_r0 dnegt_dr))) (scale S_rot_cam) ++
            entries3 (iv0 + 3) (vscale (-1) (vecmat derr_dt_r0 dnegt_dt)) (scale S_trans_cam)
          end) ++
         (match extr_of e1 with
          | None => []
          | Some rt_1r =>
            let '(_, dv0cam1_dr, _) := rotJ (rt_r rt_1r) (tri_v0_ref i0) false in
            match tri_origin i0 with
            | Some t =>
              (* mrcal_transform_point_rt(): J_rt is (J_r of the rotation, identity) *)
              let '(_, dt10_dr, _) := rotJ (rt_r rt_1r) t false in
              entries3 (iv1 + 0) (vadd (vecmat derr_dv0 dv0cam1_dr) (vecmat derr_dt10 dt10_dr)) (scale S_rot_cam) ++
              entries3 (iv1 + 3) (vecmat derr_dt10 identity_R) (scale S_trans_cam)
            | None =>
              entries3 (iv1 + 0) (vecmat derr_dv0 dv0cam1_dr) (scale S_rot_cam) ++
              entries3 (iv1 + 3) derr_dt10 (scale S_trans_cam)
            end
          end))%list
      end.

    (** ** regularization: mrcal.c:5703-5950 *)
    Definition nominal_pixel_error : R := 1 / 10.
    (** mrcal.c:5797-5822 *)
    Definition reg_scale (j : Z) : R :=
      let scale := nominal_pixel_error / 1 in
      match m with OPENCV8 | OPENCV12 => if ((5 <=? j) && (j <=? 7))%Z then scale * 5 else scale | _ => scale end.
    (** mrcal.c:5741-5758: the direction from the center of the grid to knot (ix,iy), and scale_extra *)
    Definition reg_dir (cfg : spline_cfg) (ix iy : Z) : p2 * R :=
      let ux := IZR (2 * ix - sp_Nx cfg + 1) in let uy := IZR (2 * iy - sp_Ny cfg + 1) in
      if ((2 * ix =? sp_Nx cfg - 1) && (2 * iy =? sp_Ny cfg - 1))%Z then (P2 1 uy, 1)
      else let mag := sqrt (ux * ux + uy * uy) in (P2 (ux / mag) (uy / mag), 10).
    (** ivar = 2 (iy Nx + ix) *)
    Definition reg_splined (cfg : spline_cfg) (icam ivar k : Z) : R * (R * R) :=
      let scale_ := nominal_pixel_error / 10 in
      let '(u, extra) := reg_dir cfg ((ivar / 2) mod sp_Nx cfg) (ivar / 2 / sp_Nx cfg) in
      let d0 := intr_of icam (Z.to_nat (4 + ivar)) in let d1 := intr_of icam (Z.to_nat (4 + ivar + 1)) in
      if (k =? 0)%Z then (scale_ * (d0 * px u + d1 * py u), (scale_ * px u * scale S_dist, scale_ * py u * scale S_dist))
      else (scale_ * extra * (d0 * py u - d1 * px u), (scale_ * extra * py u * scale S_dist, - scale_ * extra * px u * scale S_dist)).
    (** mrcal.c:5861-5895 *)
    Definition reg_center_scale : R := nominal_pixel_error / (IZR (c_imager c 0) * (1 / 10)).
    Definition reg_center_x (icam ixy : Z) : R :=
      reg_center_scale * (intr_of icam (Z.to_nat (2 + ixy)) - 1 / 2 * IZR (c_imager c (icam * 2 + ixy)%Z - 1)).
    (** mrcal.c:5903-5950 *)
    Definition unity_scale : R := nominal_pixel_error / (1 * (1 / 100)).
    Definition unity_x : R := let t := rt_t (cam_of 0) in unity_scale * (vx t * vx t + vy t * vy t + vz t * vz t - 1).

    (** ** the oracles of M_Callback *)
    Definition row_x (id : rowid) : R :=
      match id with
      | R_board iobs ipt ixy => board_x iobs ipt ixy
      | R_point iobs ixy => point_x iobs ixy
      | R_tri i0 i1 => tri_x i0 i1
      | R_reg_dist icam j => reg_scale j * intr_of icam (Z.to_nat (4 + j))
      | R_reg_splined icam ivar k => match m with SPLINED cfg => fst (reg_splined cfg icam ivar k) | _ => 0 end
      | R_reg_center icam ixy => reg_center_x icam ixy
      | R_unity => unity_x
      end.
    Definition row_entries (id : rowid) : list (Z * R) :=
      match id with
      | R_board iobs ipt ixy => board_entries iobs ipt ixy
      | R_point iobs ixy => point_entries iobs ixy
      | R_tri i0 i1 => tri_entries i0 i1
      | R_reg_dist icam j => [((state_index_intrinsics p icam + Ncore_state + j)%Z, reg_scale j * scale S_dist)]
      | R_reg_splined icam ivar k =>
        match m with
        | SPLINED cfg => let iv := (state_index_intrinsics p icam + Ncore_state + ivar)%Z in let g := snd (reg_splined cfg icam ivar k) in
                         [((iv + 0)%Z, fst g); ((iv + 1)%Z, snd g)]
        | _ => []
        end
      | R_reg_center icam ixy => [((state_index_intrinsics p icam + (2 + ixy))%Z, reg_center_scale * scale S_center)]
      | R_unity =>
        let iv := (state_index_extrinsics p 0 + 3)%Z in let t := rt_t (cam_of 0) in
        let e (x : R) := unity_scale * scale S_trans_cam * 2 * x in [((iv + 0)%Z, e (vx t)); ((iv + 1)%Z, e (vy t)); ((iv + 2)%Z, e (vz t))]
      end.
    (** the truncated sample position (M_SplineIdx.seg0's argument) *)
    Definition truncated (q : v3) : Z * Z :=
      match m with
      | SPLINED cfg => let tr (x : R) := if (sp_order cfg =? 3)%Z then ctrunc x else ctrunc (x + 1 / 2) in (tr (sp_ix cfg q), tr (sp_iy cfg q))
      | _ => (0, 0)%Z
      end.
    Definition row_j (id : rowid) (k : Z) : R := snd (nth (Z.to_nat k) (row_entries id) (0%Z, 0)).
    Definition is_ge0 (w : R) : bool := if Rle_dec 0 w then true else false.
    Definition is_le0 (w : R) : bool := if Rle_dec w 0 then true else false.
    (** the callback with these values: mrcal.c:4445-5958 *)
    Definition evaluate : option (list (@row R)) :=
      callback_rows 0 is_ge0 is_le0 row_x row_j (fun iobs ipt => truncated (board_seen iobs ipt)) (fun iobs => truncated (point_seen iobs))
        p (fun i => vz (c_bpool c i)) (fun i => vz (c_ppool c i)).
  End State.
End Values.
