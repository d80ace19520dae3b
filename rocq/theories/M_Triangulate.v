(** Model: triangulation.cc.  Written once over [numops] (M_Dual.v), as the C++
    template is: [realops] gives the values, [dualops] the values with their
    gradients.  [None] = the function returned (mrcal_point3_t){0} early; it
    then leaves the gradients unwritten.  Comparisons look at .x only. *)
From Coq Require Import Reals Bool.
From Verif Require Import S_Vec M_Dual.
Open Scope R_scope.

Definition Rltb (x y : R) : bool := if Rlt_dec x y then true else false.
Definition Rleb (x y : R) : bool := if Rle_dec x y then true else false.
Definition tiny : R := 1 / 10000000000.   (* 1e-10 *)

Section Tri.
Variable O : numops.
Notation N := (num O).
Notation V := (nv3 O).
Notation "a + b" := (nadd O a b). Notation "a - b" := (nsub O a b).
Notation "a * b" := (nmul O a b). Notation "a / b" := (ndiv O a b).
Notation "[ a ]" := (nval O a).

(** triangulation.cc:52-96, one of the two branches, on axis a (x or y) and z: k0 *)
Definition intersect_k0 (v0a v0z v1a v1z ta tz : N) : option N :=
  let det := v1a * v0z - v0a * v1z in
  let k0 := (tz * v1a - ta * v1z) / det in
  if Rleb ([k0]) 0 then None
  else
    let k1_negative := xorb (Rltb (Rmult ([ta]) ([v0z])) (Rmult ([tz]) ([v0a]))) (Rltb 0 ([det])) in
    if k1_negative then None else Some k0.
(** triangulation.cc:16-102 triangulate_assume_intersect *)
Definition assume_intersect (v0 v1 t : V) : option V :=
  let fabs_det_xz := Rabs (Rplus (Rmult (Ropp ([n_x v0])) ([n_z v1])) (Rmult ([n_z v0]) ([n_x v1]))) in
  let fabs_det_yz := Rabs (Rplus (Rmult (Ropp ([n_y v0])) ([n_z v1])) (Rmult ([n_z v0]) ([n_y v1]))) in
  let k0 :=
    if Rltb fabs_det_yz fabs_det_xz
    then if Rleb fabs_det_xz tiny then None else intersect_k0 (n_x v0) (n_z v0) (n_x v1) (n_z v1) (n_x t) (n_z t)
    else if Rleb fabs_det_yz tiny then None else intersect_k0 (n_y v0) (n_z v0) (n_y v1) (n_z v1) (n_y t) (n_z t) in
  match k0 with None => None | Some k0 => Some (nvmul O v0 k0) end.

(** triangulation.cc:106-207 *)
Definition tri_geometric (v0 v1 t : V) : option V :=
  let dot_v0v0 := nvnorm2 O v0 in let dot_v1v1 := nvnorm2 O v1 in
  let dot_v0v1 := nvdot O v0 v1 in let dot_v0t := nvdot O v0 t in let dot_v1t := nvdot O v1 t in
  let denom := dot_v0v0 * dot_v1v1 - dot_v0v1 * dot_v0v1 in
  if Rleb (Ropp tiny) ([denom]) && Rleb ([denom]) tiny then None
  else
    let denom_recip := nconst O 1 / denom in
    let k0 := denom_recip * (dot_v1v1 * dot_v0t - dot_v0v1 * dot_v1t) in
    if Rleb ([k0]) 0 then None
    else
      let k1 := denom_recip * (dot_v0v1 * dot_v0t - dot_v0v0 * dot_v1t) in
      if Rleb ([k1]) 0 then None
      else Some (nvmulc O (nvadd O (nvadd O (nvmul O v0 k0) (nvmul O v1 k1)) t) (Rdiv 1 2)).

(** v -= n * v.dot(n)/n.norm2() (triangulation.cc:477, 483, 547-548) *)
Definition deflect (v n : V) : V := nvsub O v (nvdiv O (nvmul O n (nvdot O v n)) (nvnorm2 O n)).
(** triangulation.cc:434-509: the adjusted rays *)
Definition l1_rays (v0 v1 t : V) : V * V :=
  let dot_v0v0 := nvnorm2 O v0 in let dot_v1v1 := nvnorm2 O v1 in
  let dot_v0t := nvdot O v0 t in let dot_v1t := nvdot O v1 t in
  if Rltb (Rmult (Rmult ([dot_v1t]) ([dot_v1t])) ([dot_v0v0])) (Rmult (Rmult ([dot_v0t]) ([dot_v0t])) ([dot_v1v1]))
  then (deflect v0 (nvcross O v1 t), v1)
  else (v0, deflect v1 (nvcross O v0 t)).
Definition tri_l1 (v0 v1 t : V) : option V := let '(w0, w1) := l1_rays v0 v1 t in assume_intersect w0 w1 t.
(** triangulation.cc:511-572 *)
Definition linf_rays (v0 v1 t : V) : V * V :=
  let v0 := nvdiv O v0 (nvmag O v0) in let v1 := nvdiv O v1 (nvmag O v1) in
  let na := nvcross O (nvadd O v0 v1) t in let nb := nvcross O (nvsub O v0 v1) t in
  let n := if Rltb ([nvnorm2 O nb]) ([nvnorm2 O na]) then na else nb in
  (deflect v0 n, deflect v1 n).
Definition tri_linf (v0 v1 t : V) : option V := let '(w0, w1) := linf_rays v0 v1 t in assume_intersect w0 w1 t.

(** triangulation.cc:574-636 chirality: the three worsenings, summed over the axes from 0 *)
Definition worsening (f : N -> N -> N -> N) (l0 : N) (v0 : V) (l1 : N) (v1 t : V) : N :=
  let term (a0 a1 at' : N) :=
    let x_nominal := (l1 * a1 + at') - l0 * a0 in let x := f (l0 * a0) a1 at' in x * x - x_nominal * x_nominal in
  nconst O 0 + term (n_x v0) (n_x v1) (n_x t) + term (n_y v0) (n_y v1) (n_y t) + term (n_z v0) (n_z v1) (n_z t).
Definition worsening0 (l0 : N) (v0 : V) (l1 : N) (v1 t : V) : N := worsening (fun l0a0 a1 at' => (l1 * a1 + at') + l0a0) l0 v0 l1 v1 t.
Definition worsening1 (l0 : N) (v0 : V) (l1 : N) (v1 t : V) : N := worsening (fun l0a0 a1 at' => (nneg O l1 * a1 + at') - l0a0) l0 v0 l1 v1 t.
Definition worsening01 (l0 : N) (v0 : V) (l1 : N) (v1 t : V) : N := worsening (fun l0a0 a1 at' => (nneg O l1 * a1 + at') + l0a0) l0 v0 l1 v1 t.
Definition chirality (l0 : N) (v0 : V) (l1 : N) (v1 t : V) : bool :=
  Rltb 0 ([worsening0 l0 v0 l1 v1 t]) && Rltb 0 ([worsening1 l0 v0 l1 v1 t]) && Rltb 0 ([worsening01 l0 v0 l1 v1 t]).

Definition cross_norm2 (a b : V) : N := nvnorm2 O (nvcross O a b).   (* _autodiff.hh:567-574 *)
Definition cross_mag (a b : V) : N := nvmag O (nvcross O a b).       (* _autodiff.hh:577-584 *)

(** triangulation.cc:637-689 *)
Definition mid2_l0 (v0 v1 t : V) : N := nsqrt O (cross_norm2 v1 t * (nconst O 1 / cross_norm2 v0 v1)).
Definition mid2_l1 (v0 v1 t : V) : N := nsqrt O (cross_norm2 v0 t * (nconst O 1 / cross_norm2 v0 v1)).
Definition mid2_point (v0 v1 t : V) : V :=
  nvmulc O (nvadd O (nvadd O (nvmul O v0 (mid2_l0 v0 v1 t)) t) (nvmul O v1 (mid2_l1 v0 v1 t))) (Rdiv 1 2).
Definition tri_mid2 (v0 v1 t : V) : option V :=
  if chirality (mid2_l0 v0 v1 t) v0 (mid2_l1 v0 v1 t) v1 t then Some (mid2_point v0 v1 t) else None.
(** triangulation.cc:691-705 _mrcal_triangulate_leecivera_mid2_is_convergent *)
Definition mid2_is_convergent (v0 v1 t : V) : Prop :=
  match tri_mid2 v0 v1 t with None => False | Some m => ~ nvval O m = S_Vec.v0 end.

(** triangulation.cc:707-764 *)
Definition tri_wmid2 (v0 v1 t : V) : option V :=
  let v0 := nvdiv O v0 (nvmag O v0) in let v1 := nvdiv O v1 (nvmag O v1) in
  let p_mag_recip := nconst O 1 / cross_mag v0 v1 in
  let l0 := cross_mag v1 t * p_mag_recip in
  let l1 := cross_mag v0 t * p_mag_recip in
  if chirality l0 v0 l1 v1 t
  then Some (nvdiv O (nvadd O (nvadd O (nvmul O (nvmul O v0 l0) l1) (nvmul O t l0)) (nvmul O (nvmul O v1 l0) l1)) (l0 + l1))
  else None.

(** triangulation.cc:766-804 angle_error__assume_small; the clamp of a negative
    th_sq (:795-797) can never be reached after the test of :789 *)
Definition angle_error (v0 v1 : V) : N :=
  let costh := nvdot O v0 v1 / nsqrt O (nvnorm2 O v0 * nvnorm2 O v1) in
  let costh := if Rltb ([costh]) 0 then costh * nconst O (-1) else costh in
  let th_sq := naddc O (nmulc O costh (-2)) 2 in
  if Rltb ([th_sq]) (1 / 1000000000000000000000)%R then nconst O 0 else nsqrt O th_sq.

(** triangulation.cc:898-948 *)
Definition sigmoid (x : N) (knee : R) : N :=
  if Rleb ([x]) 0 then nconst O 0
  else if Rleb knee ([x]) then nconst O 1
  else
    let dx := nsubc O x (knee / 2)%R in
    if Rltb ([x]) (knee / 2)%R
    then naddc O (dx * naddc O (nmulc O dx (2 / knee / knee)%R) (2 / knee)%R) (1 / 2)%R
    else naddc O (dx * naddc O (nmulc O dx (-2 / knee / knee)%R) (2 / knee)%R) (1 / 2)%R.

(** triangulation.cc:958-1123 (the branch compiled in: "new method") *)
Definition triangulated_error (v0 v1 t : V) : N :=
  let l0 := mid2_l0 v0 v1 t in let l1 := mid2_l1 v0 v1 t in
  let err := nmulc O (angle_error v0 (mid2_point v0 v1 t)) 2 in
  if chirality l0 v0 l1 v1 t then err
  else
    let err_to_vanishing_point := angle_error v0 v1 in
    err + err_to_vanishing_point * (sigmoid (nneg O (worsening0 l0 v0 l1 v1 t)) 3 +
                                    sigmoid (nneg O (worsening1 l0 v0 l1 v1 t)) 3 +
                                    sigmoid (nneg O (worsening01 l0 v0 l1 v1 t)) 3).
(** triangulation.cc:213-425 mrcal_triangulate_lindstrom.  r: the 9 elements of
    R01, row by row. *)
Variable r : nat -> N.
Definition lin_E (t : V) (i : nat) : N :=
  match i with
  | 0%nat => r 6%nat * n_y t - r 3%nat * n_z t | 1%nat => r 7%nat * n_y t - r 4%nat * n_z t | 2%nat => r 8%nat * n_y t - r 5%nat * n_z t
  | 3%nat => r 0%nat * n_z t - r 6%nat * n_x t | 4%nat => r 1%nat * n_z t - r 7%nat * n_x t | 5%nat => r 2%nat * n_z t - r 8%nat * n_x t
  | 6%nat => r 3%nat * n_x t - r 0%nat * n_y t | 7%nat => r 4%nat * n_x t - r 1%nat * n_y t | _ => r 5%nat * n_x t - r 2%nat * n_y t
  end.
(** steps 1-16: from the essential matrix and the normalized observations, the corrected ones *)
Definition lin_correct (E : nat -> N) (x0 y0 x1 y1 : N) : (N * N) * (N * N) :=
  let n0 := E 0%nat * x1 + E 1%nat * y1 + E 2%nat in
  let n1 := E 3%nat * x1 + E 4%nat * y1 + E 5%nat in
  let nn0 := E 0%nat * x0 + E 3%nat * y0 + E 6%nat in
  let nn1 := E 1%nat * x0 + E 4%nat * y0 + E 7%nat in
  let a := n0 * E 0%nat * nn0 + n0 * E 1%nat * nn1 + n1 * E 3%nat * nn0 + n1 * E 4%nat * nn1 in
  let b := nmulc O (n0 * n0 + n1 * n1 + nn0 * nn0 + nn1 * nn1) (1 / 2)%R in
  let n_2 := E 6%nat * x1 + E 7%nat * y1 + E 8%nat in
  let c := n0 * x0 + n1 * y0 + n_2 in
  let d := nsqrt O (b * b - a * c) in
  let l := c / (b + d) in
  let dx0 := l * n0 in let dx1 := l * n1 in
  let dxx0 := l * nn0 in let dxx1 := l * nn1 in
  let n0 := n0 - E 0%nat * dxx0 - E 1%nat * dxx1 in
  let n1 := n1 - E 3%nat * dxx0 - E 4%nat * dxx1 in
  let nn0 := nn0 - E 0%nat * dx0 - E 3%nat * dx1 in
  let nn1 := nn1 - E 1%nat * dx0 - E 4%nat * dx1 in
  let bb := nmulc O (n0 * n0 + n1 * n1 + nn0 * nn0 + nn1 * nn1) (1 / 2)%R in
  let l := l / d * bb in
  ((x0 - l * n0, y0 - l * n1), (x1 - l * nn0, y1 - l * nn1)).
Definition tri_lindstrom (v0 v1 t : V) : option V :=
  let '((a0, b0), (a1, b1)) := lin_correct (lin_E t) (n_x v0 / n_z v0) (n_y v0 / n_z v0) (n_x v1 / n_z v1) (n_y v1 / n_z v1) in
  let w0 := NV3 a0 b0 (nconst O 1) in let w1z := nconst O 1 in
  let Rv1 := NV3 (r 0%nat * a1 + r 1%nat * b1 + r 2%nat * w1z) (r 3%nat * a1 + r 4%nat * b1 + r 5%nat * w1z) (r 6%nat * a1 + r 7%nat * b1 + r 8%nat * w1z) in
  assume_intersect w0 Rv1 t.
End Tri.

(** triangulation.cc:876-896 (not differentiated) *)
Definition relu (x knee : R) : R :=
  if Rle_dec x 0 then 0 else if Rle_dec knee x then x - knee / 2 else 1 / (2 * knee) * x * x.

(** the C entry points: (0,0,0) on failure *)
Definition rv (v : v3) : nv3 realops := @NV3 realops (vx v) (vy v) (vz v).
Definition point_of (r : option (nv3 realops)) : v3 := match r with None => S_Vec.v0 | Some m => nvval realops m end.
