(** Model: alignment functions of poseutils.c, over exact reals. *)
From Coq Require Import Reals List.
From Verif Require Import S_Vec M_Pose.
Import ListNotations.
Open Scope R_scope.

(** poseutils.c:1650-1695 mrcal_R_aligned_to_vector.  The rows of R are x, y, z. *)
Definition R_aligned_to_vector (v : v3) : m33 :=
  let magv := sqrt (vx v * vx v + vy v * vy v + vz v * vz v) in
  let z := V3 (vx v / magv) (vy v / magv) (vz v / magv) in
  let '(x, inner_x_z) := if Rlt_dec (Rabs (vx z)) (9 / 10) then (V3 1 0 0, vx z) else (V3 0 1 0, vy z) in
  let x := V3 (vx x - inner_x_z * vx z) (vy x - inner_x_z * vy z) (vz x - inner_x_z * vz z) in
  let magx := sqrt (vx x * vx x + vy x * vy x + vz x * vz x) in
  let x := V3 (vx x / magx) (vy x / magx) (vz x / magx) in
  let y := V3 (vy z * vz x - vz z * vy x) (vz z * vx x - vx z * vz x) (vx z * vy x - vy z * vx x) in
  M33 (vx x) (vy x) (vz x) (vx y) (vy y) (vz y) (vx z) (vy z) (vz z).

Section Procrustes.
(** LAPACK's dgesdd() is external: None if info != 0, else (U, S, V) with A = U diag(S) V^t.
    (poseutils.c:1508-1550; the transposition games there amount to this.) *)
Variable svd : m33 -> option (m33 * v3 * m33).

Inductive presult (X : Type) := Solved (x : X) | Degenerate | Fatal.
Arguments Solved {X}. Arguments Degenerate {X}. Arguments Fatal {X}.

Definition outer_add (m : m33) (a b : v3) (w : R) : m33 := M33
  (m00 m + vx a * vx b * w) (m01 m + vx a * vy b * w) (m02 m + vx a * vz b * w)
  (m10 m + vy a * vx b * w) (m11 m + vy a * vy b * w) (m12 m + vy a * vz b * w)
  (m20 m + vz a * vx b * w) (m21 m + vz a * vy b * w) (m22 m + vz a * vz b * w).
Definition outer_add1 (m : m33) (a b : v3) : m33 := M33
  (m00 m + vx a * vx b) (m01 m + vx a * vy b) (m02 m + vx a * vz b)
  (m10 m + vy a * vx b) (m11 m + vy a * vy b) (m12 m + vy a * vz b)
  (m20 m + vz a * vx b) (m21 m + vz a * vy b) (m22 m + vz a * vz b).
Definition sub3 (a b : v3) : v3 := V3 (vx a - vx b) (vy a - vy b) (vz a - vz b).

(** poseutils.c:1478-1497: [ps]: the pairs (p0[i], p1[i]); [ws]: weights, None = NULL *)
Definition accumulate (ps : list (v3 * v3)) (mean0 mean1 : v3) (ws : option (list R)) : m33 :=
  match ws with
  | None => fold_left (fun m p => outer_add1 m (sub3 (fst p) mean0) (sub3 (snd p) mean1)) ps zero33
  | Some ws => fold_left (fun m pw => outer_add m (sub3 (fst (fst pw)) mean0) (sub3 (snd (fst pw)) mean1) (snd pw)) (combine ps ws) zero33
  end.

(** R[i,j] = sum_k U[i,k] V[j,k], the last term with the sign [sg] *)
Definition U_Vt (U V : m33) (sg : R) : m33 := M33
  (m00 U * m00 V + m01 U * m01 V + sg * (m02 U * m02 V)) (m00 U * m10 V + m01 U * m11 V + sg * (m02 U * m12 V)) (m00 U * m20 V + m01 U * m21 V + sg * (m02 U * m22 V))
  (m10 U * m00 V + m11 U * m01 V + sg * (m12 U * m02 V)) (m10 U * m10 V + m11 U * m11 V + sg * (m12 U * m12 V)) (m10 U * m20 V + m11 U * m21 V + sg * (m12 U * m22 V))
  (m20 U * m00 V + m21 U * m01 V + sg * (m22 U * m02 V)) (m20 U * m10 V + m21 U * m11 V + sg * (m22 U * m12 V)) (m20 U * m20 V + m21 U * m21 V + sg * (m22 U * m22 V)).

(** poseutils.c:1463-1596 _align_procrustes_vectors_R01 *)
Definition procrustes_core (ps : list (v3 * v3)) (mean0 mean1 : v3) (ws : option (list R)) : presult m33 :=
  match svd (accumulate ps mean0 mean1 ws) with
  | None => Fatal
  | Some (U, sv, V) =>
    if Rlt_dec (vy sv) (1 / 1000000000000) then Degenerate
    else
      let R01 := U_Vt U V 1 in
      let det_R := m00 R01 * (m11 R01 * m22 R01 - m12 R01 * m21 R01) -
                   m01 R01 * (m10 R01 * m22 R01 - m12 R01 * m20 R01) +
                   m02 R01 * (m10 R01 * m21 R01 - m11 R01 * m20 R01) in
      if Rlt_dec det_R 0 then Solved (U_Vt U V (-1)) else Solved R01
  end.
(** poseutils.c:1598-1611 *)
Definition align_vectors (ps : list (v3 * v3)) (ws : option (list R)) : presult m33 :=
  procrustes_core ps (V3 0 0 0) (V3 0 0 0) ws.
(** poseutils.c:1613-1648.  The means are not weighted. *)
Definition mean_of (f : v3 * v3 -> v3) (ps : list (v3 * v3)) : v3 :=
  let s := fold_left (fun a p => V3 (vx a + vx (f p)) (vy a + vy (f p)) (vz a + vz (f p))) ps (V3 0 0 0) in
  let n := INR (length ps) in V3 (vx s / n) (vy s / n) (vz s / n).
Definition align_points (ps : list (v3 * v3)) (ws : option (list R)) : presult Rt :=
  let m0 := mean_of fst ps in
  let m1 := mean_of snd ps in
  match procrustes_core ps m0 m1 ws with
  | Solved Rm =>
    let y := mul_Rv Rm m1 in
    Solved (mkRt Rm (V3 (vx m0 - vx y) (vy m0 - vy y) (vz m0 - vz y)))
  | Degenerate => Degenerate
  | Fatal => Fatal
  end.
End Procrustes.
Arguments Solved {X}. Arguments Degenerate {X}. Arguments Fatal {X}.
