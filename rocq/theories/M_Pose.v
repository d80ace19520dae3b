(** Model: poseutils.c, poseutils-opencv.c, poseutils-uses-autodiff.cc over exact
    reals.  Arrays are values here; strides and in-place operation are in
    M_PoseMem.v.  A (3,3) gradient is a matrix J_ij = d out_i / d in_j. *)
From Coq Require Import Reals List.
From Verif Require Import S_Vec M_Dual.
Open Scope R_scope.

(** ** poseutils-opencv.c *)
(** float.h *)
Definition DBL_EPSILON : R := / 4503599627370496.

(** poseutils-opencv.c:43-107 mrcal_R_from_r_full, the value *)
Definition R_from_r (r : v3) : m33 :=
  let norm2r := vx r * vx r + vy r * vy r + vz r * vz r in
  if Rlt_dec norm2r (DBL_EPSILON * DBL_EPSILON) then M33 1 0 0 0 1 0 0 0 1
  else
    let theta := sqrt norm2r in
    let s := sin theta in
    let c := cos theta in
    let c1 := 1 - c in
    let itheta := 1 / theta in
    let u0 := vx r * itheta in
    let u1 := vy r * itheta in
    let u2 := vz r * itheta in
    M33 (c + c1 * u0 * u0)          (c1 * u0 * u1 - s * u2)  (c1 * u0 * u2 + s * u1)
        (c1 * u0 * u1 + s * u2)     (c + c1 * u1 * u1)       (c1 * u1 * u2 - s * u0)
        (c1 * u0 * u2 - s * u1)     (c1 * u1 * u2 + s * u0)  (c + c1 * u2 * u2).

(** poseutils-opencv.c:69-82,109-156: the gradient; slice k is dR/dr_k *)
Definition R_from_r_J (r : v3) (k : nat) : m33 :=
  let norm2r := vx r * vx r + vy r * vy r + vz r * vz r in
  if Rlt_dec norm2r (DBL_EPSILON * DBL_EPSILON) then
    match k with
    | O => M33 0 0 0  0 0 (-1)  0 1 0
    | S O => M33 0 0 1  0 0 0  (-1) 0 0
    | _ => M33 0 (-1) 0  1 0 0  0 0 0
    end
  else
    let theta := sqrt norm2r in
    let s := sin theta in
    let c := cos theta in
    let c1 := 1 - c in
    let itheta := 1 / theta in
    let u0 := vx r * itheta in
    let u1 := vy r * itheta in
    let u2 := vz r * itheta in
    let a2 := itheta * c1 in
    let a4 := itheta * s in
    match k with
    | O =>
      let a0 := - s * u0 in let a1 := (s - 2 * a2) * u0 in let a3 := (c - a4) * u0 in
      M33 (a0 + a1 * u0 * u0 + a2 * (u0 + u0))  (a1 * u0 * u1 + a2 * u1 - a3 * u2)   (a1 * u0 * u2 + a2 * u2 + a3 * u1)
          (a1 * u0 * u1 + a2 * u1 + a3 * u2)    (a0 + a1 * u1 * u1)                  (a1 * u1 * u2 - a3 * u0 - a4)
          (a1 * u0 * u2 + a2 * u2 - a3 * u1)    (a1 * u1 * u2 + a3 * u0 + a4)        (a0 + a1 * u2 * u2)
    | S O =>
      let a0 := - s * u1 in let a1 := (s - 2 * a2) * u1 in let a3 := (c - a4) * u1 in
      M33 (a0 + a1 * u0 * u0)                   (a1 * u0 * u1 + a2 * u0 - a3 * u2)   (a1 * u0 * u2 + a3 * u1 + a4)
          (a1 * u0 * u1 + a2 * u0 + a3 * u2)    (a0 + a1 * u1 * u1 + a2 * (u1 + u1)) (a1 * u1 * u2 + a2 * u2 - a3 * u0)
          (a1 * u0 * u2 - a3 * u1 - a4)         (a1 * u1 * u2 + a2 * u2 + a3 * u0)   (a0 + a1 * u2 * u2)
    | _ =>
      let a0 := - s * u2 in let a1 := (s - 2 * a2) * u2 in let a3 := (c - a4) * u2 in
      M33 (a0 + a1 * u0 * u0)                   (a1 * u0 * u1 - a3 * u2 - a4)        (a1 * u0 * u2 + a2 * u0 + a3 * u1)
          (a1 * u0 * u1 + a3 * u2 + a4)         (a0 + a1 * u1 * u1)                  (a1 * u1 * u2 + a2 * u1 - a3 * u0)
          (a1 * u0 * u2 + a2 * u0 - a3 * u1)    (a1 * u1 * u2 + a2 * u1 + a3 * u0)   (a0 + a1 * u2 * u2 + a2 * (u2 + u2))
    end.

(** ** poseutils.c: matrices *)
(** poseutils.c:36-62 mul_vec3_gen33t_vout_full: R*v; :64-92 mul_vec3_gen33_vout_full: R^t*v *)
Definition mul_Rv (m : m33) (v : v3) : v3 := V3
  (m00 m * vx v + m01 m * vy v + m02 m * vz v)
  (m10 m * vx v + m11 m * vy v + m12 m * vz v)
  (m20 m * vx v + m21 m * vy v + m22 m * vz v).
Definition mul_Rtv (m : m33) (v : v3) : v3 := V3
  (m00 m * vx v + m10 m * vy v + m20 m * vz v)
  (m01 m * vx v + m11 m * vy v + m21 m * vz v)
  (m02 m * vx v + m12 m * vy v + m22 m * vz v).
(** poseutils.c:143-167 mul_gen33_gen33_vout_full: row i of the product is row i
    of m0 times m1; the transposed variants (:169-222) swap strides *)
Definition row_of (m : m33) (i : nat) : v3 :=
  match i with 0 => V3 (m00 m) (m01 m) (m02 m) | 1 => V3 (m10 m) (m11 m) (m12 m) | _ => V3 (m20 m) (m21 m) (m22 m) end%nat.
Definition swap_strides (m : m33) : m33 := M33 (m00 m) (m10 m) (m20 m) (m01 m) (m11 m) (m21 m) (m02 m) (m12 m) (m22 m).
Definition mul_RR (a b : m33) : m33 :=
  let r0 := mul_Rtv b (row_of a 0) in
  let r1 := mul_Rtv b (row_of a 1) in
  let r2 := mul_Rtv b (row_of a 2) in
  M33 (vx r0) (vy r0) (vz r0) (vx r1) (vy r1) (vz r1) (vx r2) (vy r2) (vz r2).

(** a pose as a (4,3) Rt array: R on top, t at the bottom *)
Record Rt := mkRt { Rt_R : m33; Rt_t : v3 }.
(** a pose as a (6,) rt array *)
Record rt := mkrt { rt_r : v3; rt_t : v3 }.

(** poseutils.c:236-269 *)
Definition identity_R : m33 := M33 1 0 0 0 1 0 0 0 1.
Definition identity_Rt : Rt := mkRt identity_R (V3 0 0 0).
Definition identity_rt : rt := mkrt (V3 0 0 0) (V3 0 0 0).

(** poseutils.c:271-340 mrcal_rotate_point_R_full *)
Definition rotate_point_R (R : m33) (x : v3) (inverted : bool) : v3 :=
  let R := if inverted then swap_strides R else R in mul_Rv R x.
Definition rotate_point_R_Jx (R : m33) (inverted : bool) : m33 :=
  if inverted then swap_strides R else R.
(** J_R(i,j,k) = d x_out_i / d R_jk.  With the swapped strides the write to
    (i,j,k) lands in (i,k,j). *)
Definition rotate_point_R_JR (x : v3) (inverted : bool) (i j k : nat) : R :=
  let (j, k) := if inverted then (k, j) else (j, k) in
  if Nat.eqb i j then vget x k else 0.

(** poseutils.c:348-422 mrcal_transform_point_Rt_full *)
Definition transform_point_Rt (p : Rt) (x : v3) (inverted : bool) : v3 :=
  if inverted then
    let x_minus_t := V3 (vx x - vx (Rt_t p)) (vy x - vy (Rt_t p)) (vz x - vz (Rt_t p)) in
    rotate_point_R (Rt_R p) x_minus_t true
  else
    let y := rotate_point_R (Rt_R p) x false in
    V3 (vx y + vx (Rt_t p)) (vy y + vy (Rt_t p)) (vz y + vz (Rt_t p)).
Definition transform_point_Rt_Jx (p : Rt) (inverted : bool) : m33 := rotate_point_R_Jx (Rt_R p) inverted.
(** J_Rt(i,j,k), j<3: gradient with respect to R *)
Definition transform_point_Rt_JR (p : Rt) (x : v3) (inverted : bool) (i j k : nat) : R :=
  rotate_point_R_JR (if inverted then V3 (vx x - vx (Rt_t p)) (vy x - vy (Rt_t p)) (vz x - vz (Rt_t p)) else x) inverted i j k.
(** J_Rt(i,3,k): gradient with respect to t *)
Definition transform_point_Rt_Jt (p : Rt) (inverted : bool) : m33 :=
  if inverted then
    M33 (- m00 (Rt_R p)) (- m10 (Rt_R p)) (- m20 (Rt_R p))
        (- m01 (Rt_R p)) (- m11 (Rt_R p)) (- m21 (Rt_R p))
        (- m02 (Rt_R p)) (- m12 (Rt_R p)) (- m22 (Rt_R p))
  else identity_R.

(** poseutils.c:432-455 mrcal_invert_R_full (out-of-place: M_PoseMem has the in-place version) *)
Definition invert_R (R : m33) : m33 :=
  M33 (m00 R) (m10 R) (m20 R) (m01 R) (m11 R) (m21 R) (m02 R) (m12 R) (m22 R).
(** poseutils.c:519-549 mrcal_invert_Rt_full: t_out = -1 * (R_out * t) *)
Definition invert_Rt (p : Rt) : Rt :=
  let Ri := invert_R (Rt_R p) in
  let y := mul_Rv Ri (Rt_t p) in
  mkRt Ri (V3 (-1 * vx y) (-1 * vy y) (-1 * vz y)).
(** poseutils.c:603-737 mrcal_compose_Rt_full *)
Definition compose_Rt2 (a b : Rt) (inverted0 inverted1 : bool) : Rt :=
  match inverted0, inverted1 with
  | false, false =>
    let y := mul_Rv (Rt_R a) (Rt_t b) in
    mkRt (mul_RR (Rt_R a) (Rt_R b)) (V3 (vx y + vx (Rt_t a)) (vy y + vy (Rt_t a)) (vz y + vz (Rt_t a)))
  | true, false =>
    let t10 := V3 (vx (Rt_t b) - vx (Rt_t a)) (vy (Rt_t b) - vy (Rt_t a)) (vz (Rt_t b) - vz (Rt_t a)) in
    mkRt (mul_RR (swap_strides (Rt_R a)) (Rt_R b)) (mul_Rtv (Rt_R a) t10)
  | false, true =>
    let R := mul_RR (Rt_R a) (swap_strides (Rt_R b)) in
    let y := mul_Rv R (Rt_t b) in
    mkRt R (V3 (- vx y + vx (Rt_t a)) (- vy y + vy (Rt_t a)) (- vz y + vz (Rt_t a)))
  | true, true =>
    let R0t_t0 := mul_Rtv (Rt_R a) (Rt_t a) in
    let R := mul_RR (swap_strides (Rt_R a)) (swap_strides (Rt_R b)) in
    let y := mul_Rv R (Rt_t b) in
    mkRt R (V3 (- vx y - vx R0t_t0) (- vy y - vy R0t_t0) (- vz y - vz R0t_t0))
  end.
(** mrcal/poseutils.py:554-626 compose_Rt with any number of arguments: the
    second onwards are folded from the left, and the first is composed with the
    result.  Fewer than two arguments: reduce() of an empty sequence raises (None) *)
Definition compose_Rt_n (ps : list Rt) : option Rt :=
  match ps with
  | a :: b :: rest => Some (compose_Rt2 a (fold_left (fun p q => compose_Rt2 p q false false) rest b) false false)
  | _ => None
  end.

(** ** poseutils-uses-autodiff.cc, once for every number type *)
Section Core.
Variable O : numops.
Notation N := (num O).
Notation "a +! b" := (nadd O a b) (at level 50, left associativity).
Notation "a -! b" := (nsub O a b) (at level 50, left associativity).
Notation "a *! b" := (nmul O a b) (at level 40, left associativity).
Notation "a /! b" := (ndiv O a b) (at level 40, left associativity).

(** poseutils-uses-autodiff.cc:16-81 rotate_point_r_core *)
Definition rotate_point_r_core (rg x : nv3 O) (inverted : bool) : nv3 O :=
  let sign := if inverted then -1 else 1 in
  let th2 := n_x rg *! n_x rg +! n_y rg *! n_y rg +! n_z rg *! n_z rg in
  let c0 := nmulc O (n_y rg *! n_z x -! n_z rg *! n_y x) sign in
  let c1 := nmulc O (n_z rg *! n_x x -! n_x rg *! n_z x) sign in
  let c2 := nmulc O (n_x rg *! n_y x -! n_y rg *! n_x x) sign in
  let inner := n_x rg *! n_x x +! n_y rg *! n_y x +! n_z rg *! n_z x in
  if Rlt_dec (nval O th2) (1 / 10000000000) then
    let f xi ci ri := xi +! ci +! ndivc O (ri *! inner) 2 in
    NV3 (f (n_x x) c0 (n_x rg)) (f (n_y x) c1 (n_y rg)) (f (n_z x) c2 (n_z rg))
  else
    let th := nsqrt O th2 in
    let s := nsin O th in
    let c := ncos O th in
    let f xi ci ri := xi *! c +! ci *! s /! th +! ri *! inner *! (nconst O 1 -! c) /! th2 in
    NV3 (f (n_x x) c0 (n_x rg)) (f (n_y x) c1 (n_y rg)) (f (n_z x) c2 (n_z rg)).

Definition eps8 : R := 1 / 100000000.
(** poseutils-uses-autodiff.cc:278-769 compose_r_core *)
Definition compose_r_core (r0 r1 : nv3 O) : nv3 O :=
  let A := ndivc O (nvmag O r0) 2 in
  let B := ndivc O (nvmag O r1) 2 in
  let inner := nvdot O r0 r1 in
  let cr := nvcross O r0 r1 in
  if Rlt_dec (nval O A) (eps8 / 2) then
    if Rlt_dec (nval O B) eps8 then nvadd O r0 r1
    else
      let k := B /! ntan O B in
      let f r1i r0i ci := r1i *! (nconst O 1 -! inner *! nsubc O k 1 /! nmulc O (B *! B) 4) +! r0i *! k +! ndivc O ci 2 in
      NV3 (f (n_x r1) (n_x r0) (n_x cr)) (f (n_y r1) (n_y r0) (n_y cr)) (f (n_z r1) (n_z r0) (n_z cr))
  else if Rlt_dec (nval O B) eps8 then
      let k := A /! ntan O A in
      let f r0i r1i ci := r0i *! (nconst O 1 -! inner *! nsubc O k 1 /! nmulc O (A *! A) 4) +! r1i *! k +! ndivc O ci 2 in
      NV3 (f (n_x r0) (n_x r1) (n_x cr)) (f (n_y r0) (n_y r1) (n_y cr)) (f (n_z r0) (n_z r1) (n_z cr))
  else
    let sinA := nsin O A in let cosA := ncos O A in
    let sinB := nsin O B in let cosB := ncos O B in
    let sA := nsinx_over_x O A sinA in
    let sB := nsinx_over_x O B sinB in
    let cosC := cosA *! cosB -! ndivc O (sA *! sB *! inner) 4 in
    let f r0i r1i ci := sA *! cosB *! r0i +! sB *! cosA *! r1i +! ndivc O (sA *! sB *! ci) 2 in
    let u := NV3 (f (n_x r0) (n_x r1) (n_x cr)) (f (n_y r0) (n_y r1) (n_y cr)) (f (n_z r0) (n_z r1) (n_z cr)) in
    if Rlt_dec (- (eps8 * eps8) / 2) (nval O cosC - 1) then u
    else if Rlt_dec (nval O cosC + 1) (eps8 * eps8 / 2) then nvmulc O u (-1)
    else
      let C := nacos O cosC in
      let sinC := nsqrt O (nconst O 1 -! cosC *! cosC) in
      if Rlt_dec (nval O cosC) 0 then nvmul O u (nsubc O C PI /! sinC)
      else nvmul O u (C /! sinC).

(** :807-808, 828-829, 854-855, 880-881 the "inverted" arguments of mrcal_compose_r_full *)
Definition maybe_neg (inverted : bool) (r : nv3 O) : nv3 O := if inverted then nvmulc O r (-1) else r.
Definition compose_r_gen (r0 r1 : nv3 O) (inverted0 inverted1 : bool) : nv3 O :=
  compose_r_core (maybe_neg inverted0 r0) (maybe_neg inverted1 r1).
(** :207-274 transform_point_rt, inverted: rotate (x-t) by -r *)
Definition rx_minus_rt (rg tg x : nv3 O) : nv3 O := rotate_point_r_core rg (nvsub O x tg) true.
End Core.

(** init_vars / extract_value / extract_grad (_autodiff.hh:289-308, 533-550) *)
Definition vconst (x : v3) : nv3 realops := @NV3 realops (vx x) (vy x) (vz x).
Definition d_vec (x : v3) (i_gradvec0 : option nat) : nv3 dualops :=
  match i_gradvec0 with None => nvconst dualops x | Some i => d_vars x i end.
Definition value3 (v : nv3 dualops) : v3 := nvval dualops v.
Definition grad3 (v : nv3 dualops) (k : nat) : m33 :=
  let g (d : dual) j := dj d (k + j)%nat in
  M33 (g (n_x v) 0%nat) (g (n_x v) 1%nat) (g (n_x v) 2%nat)
      (g (n_y v) 0%nat) (g (n_y v) 1%nat) (g (n_y v) 2%nat)
      (g (n_z v) 0%nat) (g (n_z v) 1%nat) (g (n_z v) 2%nat).

(** :82-155 mrcal_rotate_point_r_full: value, and the gradients asked for *)
Definition rotate_point_r (r x : v3) (inverted : bool) : v3 :=
  nvval realops (rotate_point_r_core realops (vconst r) (vconst x) inverted).
Definition rotate_point_r_full (r x : v3) (inverted want_Jr want_Jx : bool) : v3 * option m33 * option m33 :=
  match want_Jr, want_Jx with
  | false, false => (rotate_point_r r x inverted, None, None)
  | true, false =>
    let y := rotate_point_r_core dualops (d_vec r (Some 0%nat)) (d_vec x None) inverted in
    (value3 y, Some (grad3 y 0), None)
  | false, true =>
    let y := rotate_point_r_core dualops (d_vec r None) (d_vec x (Some 0%nat)) inverted in
    (value3 y, None, Some (grad3 y 0))
  | true, true =>
    let y := rotate_point_r_core dualops (d_vec r (Some 0%nat)) (d_vec x (Some 3%nat)) inverted in
    (value3 y, Some (grad3 y 0), Some (grad3 y 3))
  end.

(** :157-275 mrcal_transform_point_rt_full; J_rt = (J_r, J_t) *)
Definition transform_point_rt (p : rt) (x : v3) (inverted : bool) : v3 :=
  if inverted then nvval realops (rx_minus_rt realops (vconst (rt_r p)) (vconst (rt_t p)) (vconst x))
  else let y := rotate_point_r (rt_r p) x false in
       V3 (vx y + vx (rt_t p)) (vy y + vy (rt_t p)) (vz y + vz (rt_t p)).
Definition transform_point_rt_full (p : rt) (x : v3) (inverted want_Jrt want_Jx : bool) : v3 * option (m33 * m33) * option m33 :=
  if inverted then
    match want_Jrt, want_Jx with
    | false, false => (transform_point_rt p x true, None, None)
    | true, false =>
      let y := rx_minus_rt dualops (d_vec (rt_r p) (Some 0%nat)) (d_vec (rt_t p) (Some 3%nat)) (d_vec x None) in
      (value3 y, Some (grad3 y 0, grad3 y 3), None)
    | false, true =>
      let y := rx_minus_rt dualops (d_vec (rt_r p) None) (d_vec (rt_t p) None) (d_vec x (Some 0%nat)) in
      (value3 y, None, Some (grad3 y 0))
    | true, true =>
      let y := rx_minus_rt dualops (d_vec (rt_r p) (Some 0%nat)) (d_vec (rt_t p) (Some 6%nat)) (d_vec x (Some 3%nat)) in
      (value3 y, Some (grad3 y 0, grad3 y 6), Some (grad3 y 3))
    end
  else
    let '(y, Jr, Jx) := rotate_point_r_full (rt_r p) x false want_Jrt want_Jx in
    (V3 (vx y + vx (rt_t p)) (vy y + vy (rt_t p)) (vz y + vz (rt_t p)),
     option_map (fun Jr => (Jr, identity_R)) Jr, Jx).

(** :771-900 mrcal_compose_r_full *)
Definition compose_r2 (r0 r1 : v3) (inverted0 inverted1 : bool) : v3 :=
  nvval realops (compose_r_gen realops (vconst r0) (vconst r1) inverted0 inverted1).
Definition compose_r_full (r0 r1 : v3) (inverted0 inverted1 want0 want1 : bool) : v3 * option m33 * option m33 :=
  match want0, want1 with
  | false, false => (compose_r2 r0 r1 inverted0 inverted1, None, None)
  | true, false =>
    let y := compose_r_gen dualops (d_vec r0 (Some 0%nat)) (d_vec r1 None) inverted0 inverted1 in
    (value3 y, Some (grad3 y 0), None)
  | false, true =>
    let y := compose_r_gen dualops (d_vec r0 None) (d_vec r1 (Some 0%nat)) inverted0 inverted1 in
    (value3 y, None, Some (grad3 y 0))
  | true, true =>
    let y := compose_r_gen dualops (d_vec r0 (Some 0%nat)) (d_vec r1 (Some 3%nat)) inverted0 inverted1 in
    (value3 y, Some (grad3 y 0), Some (grad3 y 3))
  end.

(** ** poseutils.c: rt *)
Definition scale3 (k : R) (v : v3) : v3 := V3 (vx v * k) (vy v * k) (vz v * k).
Definition mscale (k : R) (m : m33) : m33 :=
  M33 (m00 m * k) (m01 m * k) (m02 m * k) (m10 m * k) (m11 m * k) (m12 m * k) (m20 m * k) (m21 m * k) (m22 m * k).
Definition zero33 : m33 := M33 0 0 0 0 0 0 0 0 0.

(** poseutils.c:557-598 mrcal_invert_rt_full; gradients dtout_drin, dtout_dtin *)
Definition invert_rt (p : rt) : rt :=
  let r := V3 (- vx (rt_r p)) (- vy (rt_r p)) (- vz (rt_r p)) in
  mkrt r (scale3 (-1) (rotate_point_r r (rt_t p) false)).
Definition invert_rt_full (p : rt) (want_dr want_dt : bool) : rt * option m33 * option m33 :=
  let r := V3 (- vx (rt_r p)) (- vy (rt_r p)) (- vz (rt_r p)) in
  let '(y, Jr, Jx) := rotate_point_r_full r (rt_t p) false want_dr want_dt in
  (mkrt r (scale3 (-1) y), Jr, option_map (mscale (-1)) Jx).

Record compose_grads := mkgrads { dr_r0 : m33; dr_r1 : m33; dt_r0 : m33; dt_r1 : m33; dt_t0 : m33; dt_t1 : m33 }.
(** the gradients of mrcal_rotate_point_r_full when both are asked for *)
Definition rotJ (r x : v3) (inverted : bool) : v3 * m33 * m33 :=
  let y := rotate_point_r_core dualops (d_vec r (Some 0%nat)) (d_vec x (Some 3%nat)) inverted in
  (value3 y, grad3 y 0, grad3 y 3).

(** poseutils.c:745-1001 mrcal_compose_rt_full: the value *)
Definition compose_rt2 (a b : rt) (inverted0 inverted1 : bool) : rt :=
  let r := compose_r2 (rt_r a) (rt_r b) inverted0 inverted1 in
  let add a b := V3 (vx a + vx b) (vy a + vy b) (vz a + vz b) in
  let sub a b := V3 (vx a - vx b) (vy a - vy b) (vz a - vz b) in
  match inverted0, inverted1 with
  | false, false => mkrt r (add (rotate_point_r (rt_r a) (rt_t b) false) (rt_t a))
  | true, false => mkrt r (rotate_point_r (rt_r a) (sub (rt_t b) (rt_t a)) true)
  | false, true =>
    let p := scale3 (-1) (rotate_point_r (rt_r b) (rt_t b) true) in
    mkrt r (add (rotate_point_r (rt_r a) p false) (rt_t a))
  | true, true =>
    let p := scale3 (-1) (rotate_point_r (rt_r b) (rt_t b) true) in
    let p := sub p (rt_t a) in
    mkrt r (rotate_point_r (rt_r a) p true)
  end.
(** the same with all the gradients ("no gradients at all or ALL the gradients") *)
Definition compose_rt2_grad (a b : rt) (inverted0 inverted1 : bool) : rt * compose_grads :=
  let y := compose_r_gen dualops (d_vec (rt_r a) (Some 0%nat)) (d_vec (rt_r b) (Some 3%nat)) inverted0 inverted1 in
  let r := value3 y in let drr0 := grad3 y 0 in let drr1 := grad3 y 3 in
  let add a b := V3 (vx a + vx b) (vy a + vy b) (vz a + vz b) in
  let sub a b := V3 (vx a - vx b) (vy a - vy b) (vz a - vz b) in
  match inverted0, inverted1 with
  | false, false =>
    let '(t, J_r, J_x) := rotJ (rt_r a) (rt_t b) false in
    (mkrt r (add t (rt_t a)), mkgrads drr0 drr1 J_r zero33 identity_R J_x)
  | true, false =>
    let '(t, J_r, J_x) := rotJ (rt_r a) (sub (rt_t b) (rt_t a)) true in
    (mkrt r t, mkgrads drr0 drr1 J_r zero33 (mscale (-1) J_x) J_x)
  | false, true =>
    let '(p, dp_r1, dp_t1) := rotJ (rt_r b) (rt_t b) true in
    let p := scale3 (-1) p in let dp_r1 := mscale (-1) dp_r1 in let dp_t1 := mscale (-1) dp_t1 in
    let '(t, dtr0, dt_p) := rotJ (rt_r a) p false in
    (mkrt r (add t (rt_t a)), mkgrads drr0 drr1 dtr0 (mul_RR dt_p dp_r1) identity_R (mul_RR dt_p dp_t1))
  | true, true =>
    let '(p, dp_r1, dp_t1) := rotJ (rt_r b) (rt_t b) true in
    let p := scale3 (-1) p in let dp_r1 := mscale (-1) dp_r1 in let dp_t1 := mscale (-1) dp_t1 in
    let p := sub p (rt_t a) in
    let '(t, dtr0, dt_p) := rotJ (rt_r a) p true in
    (mkrt r t, mkgrads drr0 drr1 dtr0 (mul_RR dt_p dp_r1) (mscale (-1) dt_p) (mul_RR dt_p dp_t1))
  end.

(** poseutils.c:1003-1069 *)
Definition outer_plus (r : v3) (k : R) (d : R) : m33 :=
  M33 (- vx r * vx r * k + d) (- vx r * vy r * k) (- vx r * vz r * k)
      (- vy r * vx r * k) (- vy r * vy r * k + d) (- vy r * vz r * k)
      (- vz r * vx r * k) (- vz r * vy r * k) (- vz r * vz r * k + d).
Definition compose_r_tinyr0_gradientr0 (r1 : v3) : m33 :=
  let norm2_r1 := vx r1 * vx r1 + vy r1 * vy r1 + vz r1 * vz r1 in
  if Rlt_dec norm2_r1 ((2 * eps8) * (2 * eps8)) then identity_R
  else
    let B := sqrt norm2_r1 / 2 in
    let B_over_tanB := B / tan B in
    let M := outer_plus r1 ((B_over_tanB - 1) / (4 * B * B)) B_over_tanB in
    M33 (m00 M) (m01 M - - vz r1 / 2) (m02 M - vy r1 / 2)
        (m10 M - vz r1 / 2) (m11 M) (m12 M - - vx r1 / 2)
        (m20 M - - vy r1 / 2) (m21 M - vx r1 / 2) (m22 M).
(** poseutils.c:1071-1137 *)
Definition compose_r_tinyr1_gradientr1 (r0 : v3) : m33 :=
  let norm2_r0 := vx r0 * vx r0 + vy r0 * vy r0 + vz r0 * vz r0 in
  if Rlt_dec norm2_r0 ((2 * eps8) * (2 * eps8)) then identity_R
  else
    let A := sqrt norm2_r0 / 2 in
    let A_over_tanA := A / tan A in
    let M := outer_plus r0 ((A_over_tanA - 1) / (4 * A * A)) A_over_tanA in
    M33 (m00 M) (m01 M + - vz r0 / 2) (m02 M + vy r0 / 2)
        (m10 M + vz r0 / 2) (m11 M) (m12 M + - vx r0 / 2)
        (m20 M + - vy r0 / 2) (m21 M + vx r0 / 2) (m22 M).

(** poseutils.c:1140-1372 mrcal_r_from_R_full, the value *)
Definition r_from_R (R : m33) : v3 :=
  let tr := m00 R + m11 R + m22 R in
  let u := V3 (m21 R - m12 R) (m02 R - m20 R) (m10 R - m01 R) in
  let costh := (tr - 1) / 2 in
  let eps := eps8 in
  let norm2u := vx u * vx u + vy u * vy u + vz u * vz u in
  let normal := if Rlt_dec (4 * eps * eps) norm2u then if Rlt_dec (eps * eps / 2) (1 - Rabs costh) then true else false else false in
  if normal then
    let sinth := sqrt norm2u / 2 in
    let th := if Rlt_dec (sqrt 2 / 2) sinth then acos costh
              else if Rlt_dec 0 costh then asin sinth else PI - asin sinth in
    let f ui := ui / sqrt norm2u * th in
    V3 (f (vx u)) (f (vy u)) (f (vz u))
  else if Rlt_dec 0 costh then V3 (vx u / 2) (vy u / 2) (vz u / 2)
  else
    let absv vsq := if Rlt_dec 0 vsq then sqrt vsq else 0 in
    let v0 := absv ((m00 R + 1) / 2) in
    let v1 := absv ((m11 R + 1) / 2) in
    let v2 := absv ((m22 R + 1) / 2) in
    let flip a b := if Rlt_dec a 0 then b * -1 else b in
    let v :=
      if Rlt_dec (1 / 10) v0 then V3 v0 (flip (m01 R + m10 R) v1) (flip (m02 R + m20 R) v2)
      else if Rlt_dec (1 / 10) v1 then V3 (flip (m10 R + m01 R) v0) v1 (flip (m12 R + m21 R) v2)
      else V3 (flip (m20 R + m02 R) v0) (flip (m21 R + m12 R) v1) v2 in
    V3 (vx u / -2 + vx v * PI) (vy u / -2 + vy v * PI) (vz u / -2 + vz v * PI).

(** poseutils.c:460-512 *)
Definition rt_from_Rt (p : Rt) : rt := mkrt (r_from_R (Rt_R p)) (Rt_t p).
Definition Rt_from_rt (p : rt) : Rt := mkRt (R_from_r (rt_r p)) (rt_t p).
