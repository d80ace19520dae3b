(** Model: sampling of the spline surface of the splined lens models, and the
    projection that uses it; over the reals. *)
From Coq Require Import Reals ZArith List Bool.
From Verif Require Import M_Lens M_SplineIdx.
Open Scope R_scope.

(** mrcal.c:903-919 get_sample_coeffs__cubic: ABCD[] *)
Definition cubic_ABCD (x : R) (i : nat) : R :=
  let x2 := x * x in let x3 := x2 * x in
  match i with
  | 0%nat => (- x3 + 3 * x2 - 3 * x + 1) / 6
  | 1%nat => (3 * x3 / 2 - 3 * x2 + 2) / 3
  | 2%nat => (-3 * x3 + 3 * x2 + 3 * x + 1) / 6
  | 3%nat => x3 / 6
  | _ => 0
  end.
(** ABCDgrad[] *)
Definition cubic_ABCDgrad (x : R) (i : nat) : R :=
  let x2 := x * x in
  match i with
  | 0%nat => - x2 / 2 + x - 1 / 2
  | 1%nat => 3 * x2 / 2 - 2 * x
  | 2%nat => -3 * x2 / 2 + x + 1 / 2
  | 3%nat => x2 / 2
  | _ => 0
  end.
(** mrcal.c:921-938 interp__cubic; c: the double array, base: &c[0], k: 0 or 1 *)
Definition interp_cubic (X Y : nat -> R) (c : Z -> R) (base stridey k : Z) : R :=
  let cinterp (iy : Z) :=
    X 0%nat * c (base + iy * stridey + 0 * 2 + k)%Z + X 1%nat * c (base + iy * stridey + 1 * 2 + k)%Z +
    X 2%nat * c (base + iy * stridey + 2 * 2 + k)%Z + X 3%nat * c (base + iy * stridey + 3 * 2 + k)%Z in
  Y 0%nat * cinterp 0%Z + Y 1%nat * cinterp 1%Z + Y 2%nat * cinterp 2%Z + Y 3%nat * cinterp 3%Z.

(** mrcal.c:985-996 get_sample_coeffs__quadratic *)
Definition quad_ABC (x : R) (i : nat) : R :=
  let x2 := x * x in
  match i with
  | 0%nat => (4 * x2 - 4 * x + 1) / 8
  | 1%nat => (3 - 4 * x2) / 4
  | 2%nat => (4 * x2 + 4 * x + 1) / 8
  | _ => 0
  end.
Definition quad_ABCgrad (x : R) (i : nat) : R :=
  match i with
  | 0%nat => x - 1 / 2
  | 1%nat => -2 * x
  | 2%nat => x + 1 / 2
  | _ => 0
  end.
(** mrcal.c:998-1015 *)
Definition interp_quad (X Y : nat -> R) (c : Z -> R) (base stridey k : Z) : R :=
  let cinterp (iy : Z) :=
    X 0%nat * c (base + iy * stridey + 0 * 2 + k)%Z + X 1%nat * c (base + iy * stridey + 1 * 2 + k)%Z +
    X 2%nat * c (base + iy * stridey + 2 * 2 + k)%Z in
  Y 0%nat * cinterp 0%Z + Y 1%nat * cinterp 1%Z + Y 2%nat * cinterp 2%Z.

(** the C conversion (int)x: towards 0 *)
Definition ctrunc (x : R) : Z := if Rle_dec 0 x then (up x - 1)%Z else (- (up (- x) - 1))%Z.
(** mrcal.c:2160-2172, 2190-2202: the segment used for ix *)
Definition seg (order N : Z) (ix : R) : Z :=
  seg0 order N (if (order =? 3)%Z then ctrunc ix else ctrunc (ix + 1 / 2)).

(** the coefficients used along one axis *)
Definition coefs (order : Z) (x : R) : nat -> R := if (order =? 3)%Z then cubic_ABCD x else quad_ABC x.
Definition coefs_grad (order : Z) (x : R) : nat -> R := if (order =? 3)%Z then cubic_ABCDgrad x else quad_ABCgrad x.

(** mrcal.c:2158-2225 with 940-983 / 1017-1058: value and gradients with respect
    to ix, iy of surface k (0: x, 1: y) at ix,iy.  [intr]: the intrinsics array. *)
Definition interp (order : Z) := if (order =? 3)%Z then interp_cubic else interp_quad.
Definition ivar0_at (cfg : spline_cfg) (ix iy : R) : Z :=
  (4 + 2 * ((seg (sp_order cfg) (sp_Ny cfg) iy - 1) * sp_Nx cfg + (seg (sp_order cfg) (sp_Nx cfg) ix - 1)))%Z.
Definition surface_with (X Y : R -> nat -> R) (cfg : spline_cfg) (intr : Z -> R) (k : Z) (ix iy : R) : R :=
  interp (sp_order cfg) (X (ix - IZR (seg (sp_order cfg) (sp_Nx cfg) ix))) (Y (iy - IZR (seg (sp_order cfg) (sp_Ny cfg) iy)))
         intr (ivar0_at cfg ix iy) (2 * sp_Nx cfg)%Z k.
Definition surface (cfg : spline_cfg) := surface_with (coefs (sp_order cfg)) (coefs (sp_order cfg)) cfg.
Definition surface_dx (cfg : spline_cfg) := surface_with (coefs_grad (sp_order cfg)) (coefs (sp_order cfg)) cfg.
Definition surface_dy (cfg : spline_cfg) := surface_with (coefs (sp_order cfg)) (coefs_grad (sp_order cfg)) cfg.
