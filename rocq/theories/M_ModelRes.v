(** Model: model_resolution__deg_pixel(): model_analysis.py:2152-2246, at one pixel, over exact reals.
    The direction v = unproject(q, normalize=True), and the gradient dq/dv that project() reports there, are arguments.
    Not modelled: broadcasting, and a q of shape (2,), for which the assignment at :2236 indexes a scalar. *)
From Coq Require Import Reals.
From Verif Require Import S_Vec M_Align M_Project.
Open Scope R_scope.

Inductive res_mode := Min | Max | Mean | Eccentricity | Other_mode.

(** :2216-2219.  M = dq_dv R^T, the first two columns.  By rows *)
Definition tangent_gradient (J : j23) (v : v3) : (R * R) * (R * R) :=
  let r := R_aligned_to_vector v in
  let u0 := V3 (m00 r) (m01 r) (m02 r) in
  let u1 := V3 (m10 r) (m11 r) (m12 r) in
  ((dot (dqx J) u0, dot (dqx J) u1), (dot (dqy J) u0, dot (dqy J) u1)).
(** :2229-2236.  lmin, lmax *)
Definition eigenvalues (M : (R * R) * (R * R)) : R * R :=
  let '((m00, m01), (m10, m11)) := M in
  let a := m00 * m00 + m10 * m10 in
  let b := m00 * m01 + m10 * m11 in
  let c := m01 * m01 + m11 * m11 in
  let sqrt_discriminant := sqrt ((a - c) * (a - c) / 4 + b * b) in
  let lmax := (a + c) / 2 + sqrt_discriminant in
  let lmin := (a + c) / 2 - sqrt_discriminant in
  (if Rlt_dec lmin (1 / 1000000) then 1 / 1000000 else lmin, lmax).
(** :2208-2246.  None: the exception *)
Definition model_resolution (mode : res_mode) (J : j23) (v : v3) : option R :=
  let '(lmin, lmax) := eigenvalues (tangent_gradient J v) in
  let resolution_max := 1 / sqrt lmin * 180 / PI in
  let resolution_min := 1 / sqrt lmax * 180 / PI in
  match mode with
  | Min => Some resolution_min
  | Max => Some resolution_max
  | Eccentricity => Some (resolution_max / resolution_min)
  | Mean => Some ((resolution_min + resolution_max) / 2)
  | Other_mode => None
  end.
