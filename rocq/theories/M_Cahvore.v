(** Model: the CAHVORE lens model, cahvore.cc:19-148 (written over [numops], like the C++ template, so that the values
    and the automatically-differentiated gradients come from one source), cahvore.cc:153-333, project_cahvore()
    (mrcal.c:1242-1346) and what _project_point() does when it fails (mrcal.c:2492-2513).

    Numbers are exact reals.  A division by upsilon = 0 gives inf or nan in C; sin() and cos() of that are nan, the exit
    test is then false in every later iteration, and the loop gives up: [None] here. *)
From Coq Require Import Reals Arith.
From Verif Require Import S_Vec M_Dual M_Project M_OpenCV.
Open Scope R_scope.

Definition fabs_small (x : R) : bool := if Rlt_dec (Rabs x) (1 / 100000000) then true else false.

Section Cahvore.
  Variable O : numops.
  Notation N := (num O).
  Notation "a +. b" := (nadd O a b) (at level 50, left associativity).
  Notation "a -. b" := (nsub O a b) (at level 50, left associativity).
  Notation "a *. b" := (nmul O a b) (at level 40, left associativity).
  Notation "a *c b" := (nmulc O a b) (at level 40, left associativity).

  Section Newton.
    Variables zeta l e0 e1 e2 : N.
    (** cahvore.cc:86-96 *)
    Definition cv_upsilon (theta : N) : N :=
      let theta2 := theta *. theta in
      let theta3 := theta *. theta2 in
      let theta4 := theta *. theta3 in
      (((zeta *. ncos O theta) +. (l *. nsin O theta))
       +. ((nsubc O (ncos O theta) 1) *. ((e0 +. (e1 *. theta2)) +. (e2 *. theta4))))
      -. ((theta -. nsin O theta) *. (((e1 *. theta) *c 2) +. ((e2 *. theta3) *c 4))).
    (** cahvore.cc:99-101, the numerator *)
    Definition cv_numer (theta : N) : N :=
      let theta2 := theta *. theta in
      let theta3 := theta *. theta2 in
      let theta4 := theta *. theta3 in
      ((zeta *. nsin O theta) -. (l *. ncos O theta))
      -. ((theta -. nsin O theta) *. ((e0 +. (e1 *. theta2)) +. (e2 *. theta4))).
    (** cahvore.cc:83-113: at most [fuel] iterations; None: "too many iterations" *)
    Fixpoint cv_newton (fuel : nat) (theta : N) : option N :=
      match fuel with
      | 0%nat => None
      | S n =>
          if Req_EM_T (nval O (cv_upsilon theta)) 0 then None else
          let dtheta := ndiv O (cv_numer theta) (cv_upsilon theta) in
          let theta' := theta -. dtheta in
          if fabs_small (nval O dtheta) then Some theta' else cv_newton n theta'
      end.
  End Newton.

  (** cahvore.cc:55-61 *)
  Definition cv_o (alpha beta : N) : nv3 O :=
    NV3 (ncos O beta *. nsin O alpha) (nsin O beta) (ncos O beta *. ncos O alpha).
  (** cahvore.cc:127-133 *)
  Definition cv_chi (lin : R) (theta : N) : N :=
    let linth := theta *c lin in
    if Rlt_dec lin (- (1 / 1000000000000000)) then ndivc O (nsin O linth) lin
    else if Rlt_dec (1 / 1000000000000000) lin then ndivc O (ntan O linth) lin
    else theta.
  (** cahvore.cc:55-79 and 116-148: everything around the Newton iteration *)
  Definition cv_finish (lin : R) (p : nv3 O) (o ll : nv3 O) (l r0 r1 r2 theta : N) : option (nv3 O) :=
    if Rlt_dec (PI / 2) (nval O theta * Rabs lin) then None
    else if Rlt_dec (1 / 100000000) (nval O theta) then
      let chi := cv_chi lin theta in
      let chi2 := chi *. chi in
      let chi3 := chi *. chi2 in
      let chi4 := chi *. chi3 in
      let zetap := ndiv O l chi in
      let mu := (r0 +. (r1 *. chi2)) +. (r2 *. chi4) in
      let uu := nvmul O o zetap in
      let vv := nvmul O ll (naddc O mu 1) in
      Some (nvadd O uu vv)
    else Some p.
  Definition cv_distort (lin : R) (p : nv3 O) (ig : nat -> N) : option (nv3 O) :=
    let o := cv_o (ig 0%nat) (ig 1%nat) in
    let zeta := nvdot O p o in
    let u := nvmul O o zeta in
    let ll := nvsub O p u in
    let l := nvmag O ll in
    match cv_newton zeta l (ig 5%nat) (ig 6%nat) (ig 7%nat) 100 (natan2 O l zeta) with
    | None => None
    | Some theta => cv_finish lin p o ll l (ig 2%nat) (ig 3%nat) (ig 4%nat) theta
    end.
End Cahvore.

(** cahvore.cc:166-193: without gradients *)
Definition rv3 (v : v3) : nv3 realops := nvconst realops v.
Definition cahvore_distorted (lin : R) (intr : nat -> R) (p : v3) : option v3 :=
  option_map (nvval realops) (cv_distort realops lin (rv3 p) (fun i => intr (i + 4)%nat)).
(** cahvore.cc:268-329: with all the gradients; variables 0..7 are the intrinsics, 8..10 the point *)
Definition cahvore_distorted_withgrad (lin : R) (intr : nat -> R) (p : v3) : option (nv3 dualops) :=
  cv_distort dualops lin (d_vars p 8) (fun i => d_var (intr (i + 4)%nat) i).

(** mrcal.c:1286-1296 *)
Definition cahvore_project (lin : R) (intr : nat -> R) (p : v3) : option p2 :=
  match cahvore_distorted lin intr p with
  | None => None
  | Some d => let c := core_of intr in let pz_recip := 1 / vz d in
      Some (P2 (vx d * pz_recip * fx c + cx c) (vy d * pz_recip * fy c + cy c))
  end.
(** mrcal.c:1298-1309: the gradient with respect to the point in the camera coordinates *)
Definition cahvore_dq_dp (lin : R) (intr : nat -> R) (p : v3) : option j23 :=
  match cahvore_distorted_withgrad lin intr p with
  | None => None
  | Some g =>
      let d := nvval dualops g in let c := core_of intr in let pz_recip := 1 / vz d in
      let row (a : v3) := V3 (vx a * dj (n_x g) 8 + vy a * dj (n_y g) 8 + vz a * dj (n_z g) 8)
                             (vx a * dj (n_x g) 9 + vy a * dj (n_y g) 9 + vz a * dj (n_z g) 9)
                             (vx a * dj (n_x g) 10 + vy a * dj (n_y g) 10 + vz a * dj (n_z g) 10) in
      Some (J23 (row (V3 (fx c * pz_recip) 0 (- fx c * vx d * pz_recip * pz_recip)))
                (row (V3 0 (fy c * pz_recip) (- fy c * vy d * pz_recip * pz_recip))))
  end.
(** mrcal.c:1328-1338 *)
Definition cahvore_dq_dnocore (lin : R) (intr : nat -> R) (p : v3) (m : nat) : option (R * R) :=
  match cahvore_distorted_withgrad lin intr p with
  | None => None
  | Some g =>
      let d := nvval dualops g in let c := core_of intr in let pz_recip := 1 / vz d in
      let dx := dj (n_x g) m in let dy := dj (n_y g) m in let dz := dj (n_z g) m in
      Some (fx c * pz_recip * (dx - vx d * pz_recip * dz), fy c * pz_recip * (dy - vy d * pz_recip * dz))
  end.

(** mrcal.c:2492-2513 for the pixel and dq_dtframe, the camera at the identity: on failure memset() clears q, and
    sizeof( *dq_dtframe ) bytes of dq_dtframe - one mrcal_point3_t out of two.  [old]: what the caller's dq_dtframe
    array held before. *)
Definition cahvore_project_point (lin : R) (intr : nat -> R) (p : v3) (old : j23) : p2 * j23 :=
  match cahvore_project lin intr p, cahvore_dq_dp lin intr p with
  | Some q, Some J => (q, J)
  | _, _ => (P2 0 0, J23 (V3 0 0 0) (dqy old))
  end.
