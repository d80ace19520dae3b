(** Model: projection with the splined stereographic lens model, with its
    gradients; mrcal.c:1904-1950, 2051-2293, 2962-2991. *)
From Coq Require Import Reals ZArith List.
From Verif Require Import S_Vec M_Lens M_SplineIdx M_Spline M_Project.
Import ListNotations.
Open Scope R_scope.

(** mrcal.c:1921-1950 *)
Definition segments_per_u (cfg : spline_cfg) : R :=
  let Nknots_margin := if (sp_order cfg =? 2)%Z then 1%Z else 2%Z in
  let th_edge_x := IZR (sp_fov cfg) / 2 * PI / 180 in
  let u_edge_x := tan (th_edge_x / 2) * 2 in
  IZR (sp_Nx cfg - 1 - Nknots_margin) / (u_edge_x * 2).
(** mrcal.c:1988-1998 mrcal_knots_for_splined_models: ux[i] (N=Nx), uy[i] (N=Ny) *)
Definition knot (cfg : spline_cfg) (N i : Z) : R := (IZR i - IZR (N - 1) / 2) / segments_per_u cfg.

Section Splined.
  Variable cfg : spline_cfg.
  Variable intr : Z -> R.
  Variable p : v3.
  (** mrcal.c:2121-2148 *)
  Definition sp_mag := sqrt (vx p * vx p + vy p * vy p + vz p * vz p).
  Definition sp_scale := 2 / (sp_mag + vz p).
  Definition sp_ux := vx p * sp_scale.
  Definition sp_uy := vy p * sp_scale.
  Definition sp_A := - sp_scale * sp_scale / 2.
  Definition sp_B := sp_A / sp_mag.
  Definition sp_dux_dp := V3 (vx p * (sp_B * vx p) + sp_scale) (vx p * (sp_B * vy p)) (vx p * (sp_B * vz p + sp_A)).
  Definition sp_duy_dp := V3 (vy p * (sp_B * vx p)) (vy p * (sp_B * vy p) + sp_scale) (vy p * (sp_B * vz p + sp_A)).
  Definition sp_ix := sp_ux * segments_per_u cfg + IZR (sp_Nx cfg - 1) / 2.
  Definition sp_iy := sp_uy * segments_per_u cfg + IZR (sp_Ny cfg - 1) / 2.
  (** mrcal.c:2158-2236; k = 0: x, 1: y *)
  Definition sp_deltau (k : Z) := surface cfg intr k sp_ix sp_iy.
  Definition splined_project : p2 :=
    P2 ((sp_ux + sp_deltau 0) * intr 0%Z + intr 2%Z) ((sp_uy + sp_deltau 1) * intr 1%Z + intr 3%Z).
  (** mrcal.c:2240-2246 *)
  Definition splined_dq_dfxy : p2 := P2 (sp_ux + sp_deltau 0) (sp_uy + sp_deltau 1).
  (** mrcal.c:2249-2253 *)
  Definition sp_ddeltau_dux (k : Z) := surface_dx cfg intr k sp_ix sp_iy * segments_per_u cfg.
  Definition sp_ddeltau_duy (k : Z) := surface_dy cfg intr k sp_ix sp_iy * segments_per_u cfg.
  (** mrcal.c:2051-2074 propagate_extrinsics_cam0__splined *)
  Definition splined_dq_dp : j23 :=
    let row0 (i : nat) := intr 0%Z * (vget sp_dux_dp i * (1 + sp_ddeltau_dux 0) + sp_ddeltau_duy 0 * vget sp_duy_dp i) in
    let row1 (i : nat) := intr 1%Z * (vget sp_duy_dp i * (1 + sp_ddeltau_duy 1) + sp_ddeltau_dux 1 * vget sp_dux_dp i) in
    J23 (V3 (row0 0%nat) (row0 1%nat) (row0 2%nat)) (V3 (row1 0%nat) (row1 1%nat) (row1 2%nat)).
  (** mrcal.c:2027-2049 propagate_extrinsics__splined: one row of dp_deee at a time is a matrix product with du_dp *)
  Definition sp_du_deee (du : v3) (dp_deee : m33) : v3 :=
    V3 (vx du * m00 dp_deee + vy du * m10 dp_deee + vz du * m20 dp_deee)
       (vx du * m01 dp_deee + vy du * m11 dp_deee + vz du * m21 dp_deee)
       (vx du * m02 dp_deee + vy du * m12 dp_deee + vz du * m22 dp_deee).
  Definition splined_dq_deee (dp_deee : m33) : j23 :=
    let du0 := sp_du_deee sp_dux_dp dp_deee in let du1 := sp_du_deee sp_duy_dp dp_deee in
    let row0 (i : nat) := intr 0%Z * (vget du0 i * (1 + sp_ddeltau_dux 0) + sp_ddeltau_duy 0 * vget du1 i) in
    let row1 (i : nat) := intr 1%Z * (vget du1 i * (1 + sp_ddeltau_duy 1) + sp_ddeltau_dux 1 * vget du0 i) in
    J23 (V3 (row0 0%nat) (row0 1%nat) (row0 2%nat)) (V3 (row1 0%nat) (row1 1%nat) (row1 2%nat)).
  (** mrcal.c:2962-2991: the (column, value) pairs written to row i_xy of dq_dintrinsics *)
  Definition splined_entries (i_xy : Z) : list (Z * R) :=
    let o := sp_order cfg in
    let ABCDx := coefs o (sp_ix - IZR (seg o (sp_Nx cfg) sp_ix)) in
    let ABCDy := coefs o (sp_iy - IZR (seg o (sp_Ny cfg) sp_iy)) in
    flat_map (fun iy => map (fun ix =>
        ((ivar0_at cfg sp_ix sp_iy + ivar_stridey cfg * Z.of_nat iy + Z.of_nat ix * 2 + i_xy)%Z, ABCDx ix * ABCDy iy * intr i_xy))
      (seq 0 (Z.to_nat (o + 1)))) (seq 0 (Z.to_nat (o + 1))).
End Splined.
