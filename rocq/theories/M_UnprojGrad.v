(** Model: projections.py unproject(get_gradients=True), lines 112-410.  Doubles are real numbers.  One pixel; broadcasting and 'out'
    are not modelled.  [vs] is what the C unprojection (M_Unproject) returned; np.linalg.solve() is exact. *)
From Coq Require Import Reals ZArith List Bool.
From Verif Require Import S_Vec M_Lens M_Layout M_Project M_OpenCV M_Unproject M_Callback M_Residuals M_ProjUncert.
Open Scope R_scope.

(** v, dv_dq by its two columns, dv_di by its columns *)
Record grads := Grads { g_v : v3; g_dq0 : v3; g_dq1 : v3; g_di : nat -> v3 }.
Definition col0 (J : j32) : v3 := V3 (px (dvx J)) (px (dvy J)) (px (dvz J)).
Definition col1 (J : j32) : v3 := V3 (py (dvx J)) (py (dvy J)) (py (dvz J)).

(** apply_normalization_to_output_with_gradients(): projections.py:221-246 *)
Definition normalize_column (v : v3) (magv_recip : R) (d : v3) : v3 :=
  let d := V3 (vx d * magv_recip) (vy d * magv_recip) (vz d * magv_recip) in
  (* matmult(d, outer(v,v)) *)
  vsub d (vecmat d (M33 (vx v * vx v) (vx v * vy v) (vx v * vz v) (vy v * vx v) (vy v * vy v) (vy v * vz v) (vz v * vx v) (vz v * vy v) (vz v * vz v))).
Definition apply_normalization (g : grads) : grads :=
  let magv_recip := 1 / norm (g_v g) in
  let v := V3 (vx (g_v g) * magv_recip) (vy (g_v g) * magv_recip) (vz (g_v g) * magv_recip) in
  Grads v (normalize_column v magv_recip (g_dq0 g)) (normalize_column v magv_recip (g_dq1 g)) (fun i => normalize_column v magv_recip (g_di g i)).

(** projections.py:249-312: the models with a closed form *)
Definition closed_form (m : lensmodel) : option ((core -> p2 -> v3) * (core -> p2 -> j32) * bool) :=
  match m with
  | PINHOLE => Some (unproject_pinhole, unproject_pinhole_J, false)
  | LONLAT => Some (unproject_lonlat, unproject_lonlat_J, true)
  | LATLON => Some (unproject_latlon, unproject_latlon_J, true)
  | STEREOGRAPHIC => Some (unproject_stereographic, unproject_stereographic_J, false)
  | _ => None
  end.
Definition closed_grads (func : core -> p2 -> v3) (func_J : core -> p2 -> j32) (intr : nat -> R) (q : p2) : grads :=
  let c := core_of intr in let J := func_J c q in
  Grads (func c q) (col0 J) (col1 J)
    (fun i => match i with
       | 0%nat => vscale ((cx c - px q) / fx c) (col0 J)
       | 1%nat => vscale ((cy c - py q) / fy c) (col1 J)
       | 2%nat => vneg (col0 J)
       | _ => vneg (col1 J)
       end).

(** np.linalg.solve(A^T, B^T)^T = B A^-1 for a 2x2 A (rows a0, a1) and a row of B; None: LinAlgError *)
Definition solve2 (a0 a1 : p2) (b : p2) : option p2 :=
  let d := px a0 * py a1 - py a0 * px a1 in
  if Req_EM_T d 0 then None
  else Some (P2 ((px b * py a1 - py b * px a1) / d) ((py b * px a0 - px b * py a0) / d)).

(** projections.py:346-404 *)
Definition iterative_grads (stale : j23) (m : lensmodel) (intr : nat -> R) (vs : v3) : option grads :=
  let c := Core 1 1 0 0 in
  let u := project_stereographic c vs in
  let v := unproject_stereographic c u in
  let dv_du := unproject_stereographic_J c u in
  let dq_dv := lens_pixel_J stale m intr v in
  (* matmult(dq_dv, dv_du), row by row *)
  let dq_du0 := P2 (dot (dqx dq_dv) (col0 dv_du)) (dot (dqx dq_dv) (col1 dv_du)) in
  let dq_du1 := P2 (dot (dqy dq_dv) (col0 dv_du)) (dot (dqy dq_dv) (col1 dv_du)) in
  match solve2 dq_du0 dq_du1 (dvx dv_du), solve2 dq_du0 dq_du1 (dvy dv_du), solve2 dq_du0 dq_du1 (dvz dv_du) with
  | Some rx, Some ry, Some rz =>
    let dv_dq := J32 rx ry rz in
    let dv_di := fun i => vscale (-1) (vadd (vscale (dense_row m intr v 0 i) (col0 dv_dq)) (vscale (dense_row m intr v 1 i) (col1 dv_dq))) in
    Some (Grads v (col0 dv_dq) (col1 dv_dq) dv_di)
  | _, _, _ => None
  end.

(** unproject(q, lensmodel, intrinsics_data, normalize=..., get_gradients=True) *)
Definition unproject_grads (stale : j23) (m : lensmodel) (intr : nat -> R) (q : p2) (vs : v3) (normalize : bool) : option grads :=
  match closed_form m with
  | Some (func, func_J, always_normalized) =>
    let g := closed_grads func func_J intr q in
    Some (if normalize && negb always_normalized then apply_normalization g else g)
  | None =>
    match iterative_grads stale m intr vs with
    | Some g => Some (if normalize then apply_normalization g else g)
    | None => None
    end
  end.
