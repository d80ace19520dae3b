(** Model: the pose functions of poseutils.c and poseutils-uses-autodiff.cc with
    their memory accesses, in order.  Memory is a map from byte addresses to
    doubles (exact reals); two array elements either have the same address or do
    not overlap.  Local arrays ("double t[3]") are values.  Gradient outputs are
    NULL here. *)
From Coq Require Import Reals ZArith List Bool.
From Verif Require Import S_Vec M_Dual M_Pose.
Open Scope Z_scope.

Definition mem := Z -> R.
Definition upd (m : mem) (a : Z) (x : R) : mem := fun k => if Z.eqb k a then x else m k.

(** a (N,) array argument: pointer and stride in bytes; _strides.h:20-22 *)
Record arr1 := A1 { b1 : Z; s1 : Z }.
Definition at1 (a : arr1) (i : Z) : Z := b1 a + i * s1 a.
(** a (N,M) array argument; _strides.h:23-26 *)
Record arr2 := A2 { b2 : Z; s20 : Z; s21 : Z }.
Definition at2 (a : arr2) (i j : Z) : Z := b2 a + i * s20 a + j * s21 a.
(** _strides.h:37-43: strides <= 0 mean "contiguous" *)
Definition init_stride_1D (a : arr1) : arr1 := if s1 a <=? 0 then A1 (b1 a) 8 else a.
Definition init_stride_2D (a : arr2) (d1 : Z) : arr2 :=
  let st1 := if s21 a <=? 0 then 8 else s21 a in
  let st0 := if s20 a <=? 0 then d1 * st1 else s20 a in A2 (b2 a) st0 st1.

(** &P1(x,3), &P2(Rt,3,0) with the second stride, swapped strides *)
Definition tail3 (a : arr1) : arr1 := A1 (at1 a 3) (s1 a).
Definition row3 (a : arr2) : arr1 := A1 (at2 a 3 0) (s21 a).
Definition swap (a : arr2) : arr2 := A2 (b2 a) (s21 a) (s20 a).

Definition read3 (m : mem) (a : arr1) : v3 := V3 (m (at1 a 0)) (m (at1 a 1)) (m (at1 a 2)).
Definition read33 (m : mem) (a : arr2) : m33 :=
  M33 (m (at2 a 0 0)) (m (at2 a 0 1)) (m (at2 a 0 2)) (m (at2 a 1 0)) (m (at2 a 1 1)) (m (at2 a 1 2)) (m (at2 a 2 0)) (m (at2 a 2 1)) (m (at2 a 2 2)).
Definition write3 (m : mem) (a : arr1) (v : v3) : mem := upd (upd (upd m (at1 a 0) (vx v)) (at1 a 1) (vy v)) (at1 a 2) (vz v).
Definition write33 (m : mem) (a : arr2) (M : m33) : mem :=
  upd (upd (upd (upd (upd (upd (upd (upd (upd m
    (at2 a 0 0) (m00 M)) (at2 a 0 1) (m01 M)) (at2 a 0 2) (m02 M))
    (at2 a 1 0) (m10 M)) (at2 a 1 1) (m11 M)) (at2 a 1 2) (m12 M))
    (at2 a 2 0) (m20 M)) (at2 a 2 1) (m21 M)) (at2 a 2 2) (m22 M).
(** for(i) P1(x,i) = f(i, P1(x,i)), one element at a time *)
Definition map3 (m : mem) (a : arr1) (f0 f1 f2 : R -> R) : mem :=
  let m := upd m (at1 a 0) (f0 (m (at1 a 0))) in
  let m := upd m (at1 a 1) (f1 (m (at1 a 1))) in
  upd m (at1 a 2) (f2 (m (at1 a 2))).

(** element-wise difference of two 3-element arrays *)
Definition sub3' (a b : v3) : v3 := V3 (vx a - vx b) (vy a - vy b) (vz a - vz b).

(** poseutils.c:33-62: everything is read into outcopy before the first write *)
Definition mul_vec3_gen33t_vout (m : mem) (out : arr1) (v : v3) (Mt : arr2) (scale : R) : mem :=
  write3 m out (scale3 scale (mul_Rv (read33 m Mt) v)).
(** poseutils.c:64-92 *)
Definition mul_vec3_gen33_vout (m : mem) (out : arr1) (v : v3) (M : arr2) : mem :=
  write3 m out (mul_Rtv (read33 m M) v).
(** poseutils.c:143-222, outcopy2; the transposed variants swap strides *)
Definition mul_gen33_gen33_vout (m : mem) (out a b : arr2) : mem :=
  write33 m out (mul_RR (read33 m a) (read33 m b)).

(** poseutils.c:271-340 mrcal_rotate_point_R_full; [v]: the contents of x_in *)
Definition rotate_point_R_v (m : mem) (x_out : arr1) (R : arr2) (v : v3) (inverted : bool) : mem :=
  let x_out := init_stride_1D x_out in
  let R := init_stride_2D R 3 in
  let R := if inverted then swap R else R in
  mul_vec3_gen33t_vout m x_out v R 1.
Definition rotate_point_R_mem (m : mem) (x_out : arr1) (R : arr2) (x_in : arr1) (inverted : bool) : mem :=
  rotate_point_R_v m x_out R (read3 m (init_stride_1D x_in)) inverted.
(** poseutils.c:348-422 *)
Definition transform_point_Rt_mem (m : mem) (x_out : arr1) (Rt : arr2) (x_in : arr1) (inverted : bool) : mem :=
  let x_out := init_stride_1D x_out in
  let Rt := init_stride_2D Rt 3 in
  let x_in := init_stride_1D x_in in
  if negb inverted then
    let t := read3 m (row3 Rt) in
    let m := rotate_point_R_mem m x_out Rt x_in false in
    map3 m x_out (fun x => x + vx t)%R (fun x => x + vy t)%R (fun x => x + vz t)%R
  else
    rotate_point_R_v m x_out Rt (sub3' (read3 m x_in) (read3 m (row3 Rt))) true.

(** poseutils.c:432-455; the same code is in mrcal_invert_Rt_full *)
Definition transpose_into (m : mem) (out inp : arr2) : mem :=
  let m := upd m (at2 out 0 0) (m (at2 inp 0 0)) in
  let m := upd m (at2 out 1 1) (m (at2 inp 1 1)) in
  let m := upd m (at2 out 2 2) (m (at2 inp 2 2)) in
  let step m i j :=
    let tmp := m (at2 inp i j) in
    let m := upd m (at2 out i j) (m (at2 inp j i)) in
    upd m (at2 out j i) tmp in
  let m := step m 0 1 in
  let m := step m 0 2 in
  step m 1 2.
Definition invert_R_mem (m : mem) (R_out R_in : arr2) : mem :=
  transpose_into m (init_stride_2D R_out 3) (init_stride_2D R_in 3).
(** poseutils.c:519-549 *)
Definition invert_Rt_mem (m : mem) (Rt_out Rt_in : arr2) : mem :=
  let Rt_out := init_stride_2D Rt_out 3 in
  let Rt_in := init_stride_2D Rt_in 3 in
  let m := transpose_into m Rt_out Rt_in in
  mul_vec3_gen33t_vout m (row3 Rt_out) (read3 m (row3 Rt_in)) Rt_out (-1).

(** poseutils.c:603-737 *)
Definition compose_Rt_mem (m : mem) (Rt_out Rt_0 Rt_1 : arr2) (inverted0 inverted1 : bool) : mem :=
  let Rt_out := init_stride_2D Rt_out 3 in
  let Rt_0 := init_stride_2D Rt_0 3 in
  let Rt_1 := init_stride_2D Rt_1 3 in
  match inverted0, inverted1 with
  | false, false =>
    let t0 := read3 m (row3 Rt_0) in
    let m := mul_vec3_gen33t_vout m (row3 Rt_out) (read3 m (row3 Rt_1)) Rt_0 1 in
    let m := mul_gen33_gen33_vout m Rt_out Rt_0 Rt_1 in
    map3 m (row3 Rt_out) (fun x => x + vx t0)%R (fun x => x + vy t0)%R (fun x => x + vz t0)%R
  | true, false =>
    let t10 := sub3' (read3 m (row3 Rt_1)) (read3 m (row3 Rt_0)) in
    let m := mul_vec3_gen33_vout m (row3 Rt_out) t10 Rt_0 in
    mul_gen33_gen33_vout m Rt_out (swap Rt_0) Rt_1
  | false, true =>
    let t0 := read3 m (row3 Rt_0) in
    let m := mul_gen33_gen33_vout m Rt_out Rt_0 (swap Rt_1) in
    let m := mul_vec3_gen33t_vout m (row3 Rt_out) (read3 m (row3 Rt_1)) Rt_out 1 in
    map3 m (row3 Rt_out) (fun x => - x + vx t0)%R (fun x => - x + vy t0)%R (fun x => - x + vz t0)%R
  | true, true =>
    let R0t_t0 := mul_Rtv (read33 m Rt_0) (read3 m (row3 Rt_0)) in
    let m := mul_gen33_gen33_vout m Rt_out (swap Rt_0) (swap Rt_1) in
    let m := mul_vec3_gen33t_vout m (row3 Rt_out) (read3 m (row3 Rt_1)) Rt_out 1 in
    map3 m (row3 Rt_out) (fun x => - x - vx R0t_t0)%R (fun x => - x - vy R0t_t0)%R (fun x => - x - vz R0t_t0)%R
  end.

(** poseutils-uses-autodiff.cc:82-117: the inputs are copied into vec_withgrad_t
    objects, the output is written at the end.  [r], [x]: contents of the inputs *)
Definition rotate_point_r_v (m : mem) (x_out : arr1) (r x : v3) (inverted : bool) : mem :=
  write3 m (init_stride_1D x_out) (rotate_point_r r x inverted).
Definition rotate_point_r_mem (m : mem) (x_out r x_in : arr1) (inverted : bool) : mem :=
  rotate_point_r_v m x_out (read3 m (init_stride_1D r)) (read3 m (init_stride_1D x_in)) inverted.
(** poseutils-uses-autodiff.cc:157-226 *)
Definition transform_point_rt_mem (m : mem) (x_out rt x_in : arr1) (inverted : bool) : mem :=
  let x_out := init_stride_1D x_out in
  let rt := init_stride_1D rt in
  if negb inverted then
    let t := read3 m (tail3 rt) in
    let m := rotate_point_r_mem m x_out rt x_in false in
    map3 m x_out (fun x => x + vx t)%R (fun x => x + vy t)%R (fun x => x + vz t)%R
  else
    let x_minus_t := sub3' (read3 m (init_stride_1D x_in)) (read3 m (tail3 rt)) in
    write3 m x_out (rotate_point_r (read3 m rt) x_minus_t true).
(** poseutils.c:557-597 *)
Definition invert_rt_mem (m : mem) (rt_out rt_in : arr1) : mem :=
  let rt_out := init_stride_1D rt_out in
  let rt_in := init_stride_1D rt_in in
  let m := upd m (at1 rt_out 0) (- m (at1 rt_in 0))%R in
  let m := upd m (at1 rt_out 1) (- m (at1 rt_in 1))%R in
  let m := upd m (at1 rt_out 2) (- m (at1 rt_in 2))%R in
  let m := rotate_point_r_mem m (tail3 rt_out) rt_out (tail3 rt_in) false in
  map3 m (tail3 rt_out) (fun x => x * -1)%R (fun x => x * -1)%R (fun x => x * -1)%R.
(** poseutils-uses-autodiff.cc:771-816 *)
Definition compose_r_mem (m : mem) (r_out r_0 r_1 : arr1) (inverted0 inverted1 : bool) : mem :=
  write3 m (init_stride_1D r_out)
    (compose_r2 (read3 m (init_stride_1D r_0)) (read3 m (init_stride_1D r_1)) inverted0 inverted1).
(** poseutils.c:745-1001.  In the first case the points t1 are read from memory
    after r was written; everything else comes from the copies rt0, rt1. *)
Definition compose_rt_mem (m : mem) (rt_out rt_0 rt_1 : arr1) (inverted0 inverted1 : bool) : mem :=
  let rt_out := init_stride_1D rt_out in
  let rt_0 := init_stride_1D rt_0 in
  let rt_1 := init_stride_1D rt_1 in
  let r0 := read3 m rt_0 in let t0 := read3 m (tail3 rt_0) in
  let r1 := read3 m rt_1 in let t1 := read3 m (tail3 rt_1) in
  let m := compose_r_mem m rt_out rt_0 rt_1 inverted0 inverted1 in
  let out := tail3 rt_out in
  let add_t0 m := map3 m out (fun x => x + vx t0)%R (fun x => x + vy t0)%R (fun x => x + vz t0)%R in
  match inverted0, inverted1 with
  | false, false =>
    add_t0 (rotate_point_r_v m out r0 (read3 m (init_stride_1D (tail3 rt_1))) false)
  | true, false => rotate_point_r_v m out r0 (sub3' t1 t0) true
  | false, true =>
    let p := scale3 (-1) (rotate_point_r r1 t1 true) in
    add_t0 (rotate_point_r_v m out r0 p false)
  | true, true =>
    let p := scale3 (-1) (rotate_point_r r1 t1 true) in
    rotate_point_r_v m out r0 (sub3' p t0) true
  end.
