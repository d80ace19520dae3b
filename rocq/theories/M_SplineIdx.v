(** Model: which control points of a splined lens model are used.
    Source: /repo/mrcal.c:1905-1949 (legal configurations), 2158-2215
    (_project_point_splined), 1008-1060 / 930-1000 (surface sampling: which
    array elements are read), 2980-2990 (mrcal_project's unpacking). *)
From Coq Require Import ZArith List Bool.
From Verif Require Import M_Lens.
Import ListNotations.
Open Scope Z_scope.

(** mrcal.c:1922-1944: anything else asserts. *)
Definition spline_legal (c : spline_cfg) : bool :=
  ((sp_order c =? 2) && (3 <=? sp_Nx c) && (3 <=? sp_Ny c)) ||
  ((sp_order c =? 3) && (4 <=? sp_Nx c) && (4 <=? sp_Ny c)).

(** mrcal.c:2169-2172 / 2196-2199: if(i<1) i=1; else if(i>hi) i=hi; *)
Definition clamp (i hi : Z) : Z := if i <? 1 then 1 else if i >? hi then hi else i.

(** mrcal.c:2160-2172 (cubic), 2187-2199 (quadratic): [t] is the truncated
    (int)ix or (int)(ix+0.5); any integer is possible. *)
Definition seg0 (order N t : Z) : Z :=
  if order =? 3 then clamp t (N - 3) else clamp t (N - 2).

(** mrcal.c:2174-2177, 2201-2204 *)
Definition ivar0 (c : spline_cfg) (tx ty : Z) : Z :=
  4 + 2 * ((seg0 (sp_order c) (sp_Ny c) ty - 1) * sp_Nx c + (seg0 (sp_order c) (sp_Nx c) tx - 1)).

(** mrcal.c:2749: [uint16_t ivar_stridey = 2*config->Nx]: wraps. *)
Definition ivar_stridey (c : spline_cfg) : Z := (2 * sp_Nx c) mod 65536.

(** mrcal.c:2185/2212: the sampling functions get the stride [2*Nx] as [int]
    and read, for iy,ix in 0..order and both surfaces,
    intrinsics[ivar0 + iy*2*Nx + 2*ix + i_xy]. *)
Definition sample_reads (c : spline_cfg) (tx ty : Z) : list Z :=
  flat_map (fun iy => flat_map (fun ix => map (fun ixy =>
     ivar0 c tx ty + Z.of_nat iy * (2 * sp_Nx c) + 2 * Z.of_nat ix + Z.of_nat ixy) [0%nat;1%nat])
     (seq 0 (Z.to_nat (sp_order c + 1)))) (seq 0 (Z.to_nat (sp_order c + 1))).

(** mrcal.c:2980-2990, 4756-4759: the columns of the gradient w.r.t. the
    control points for output coordinate ixy, relative to the intrinsics. *)
Definition grad_cols (c : spline_cfg) (tx ty ixy : Z) : list Z :=
  flat_map (fun iy => map (fun ix =>
     ivar0 c tx ty + Z.of_nat iy * ivar_stridey c + Z.of_nat ix * 2 + ixy)
     (seq 0 (Z.to_nat (sp_order c + 1)))) (seq 0 (Z.to_nat (sp_order c + 1))).
