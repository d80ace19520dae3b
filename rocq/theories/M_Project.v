(** Model: the closed-form projections (pinhole, stereographic, lonlat, latlon)
    and their inverses; over the reals. *)
From Coq Require Import Reals ZArith Lia List Bool.
From Verif Require Import S_Vec.
Open Scope R_scope.

Record p2 := P2 { px : R; py : R }.
(** fxycxy[] *)
Record core := Core { fx : R; fy : R; cx : R; cy : R }.
(** two rows of 3 / three rows of 2 *)
Record j23 := J23 { dqx : v3; dqy : v3 }.
Record j32 := J32 { dvx : p2; dvy : p2; dvz : p2 }.

(** libm's atan2(y,x) without signed zeros *)
Definition atan2 (y x : R) : R :=
  if Rlt_dec 0 x then atan (y / x)
  else if Rlt_dec x 0 then (if Rle_dec 0 y then atan (y / x) + PI else atan (y / x) - PI)
  else if Rlt_dec 0 y then PI / 2 else if Rlt_dec y 0 then - (PI / 2) else 0.

(** *** One point *)
(** mrcal.c:1455-1471 *)
Definition project_pinhole (c : core) (v : v3) : p2 :=
  let pz_recip := 1 / vz v in P2 (vx v * pz_recip * fx c + cx c) (vy v * pz_recip * fy c + cy c).
Definition project_pinhole_J (c : core) (v : v3) : j23 :=
  let pz_recip := 1 / vz v in
  J23 (V3 (fx c * pz_recip) 0 (- fx c * vx v * pz_recip * pz_recip)) (V3 0 (fy c * pz_recip) (- fy c * vy v * pz_recip * pz_recip)).
(** mrcal.c:1491-1505 *)
Definition unproject_pinhole (c : core) (q : p2) : v3 := V3 ((px q - cx c) / fx c) ((py q - cy c) / fy c) 1.
Definition unproject_pinhole_J (c : core) (q : p2) : j32 :=
  let fx_recip := 1 / fx c in let fy_recip := 1 / fy c in J32 (P2 fx_recip 0) (P2 0 fy_recip) (P2 0 0).

(** mrcal.c:1543-1572 *)
Definition project_stereographic (c : core) (v : v3) : p2 :=
  let mag_xyz := sqrt (vx v * vx v + vy v * vy v + vz v * vz v) in
  let scale := 2 / (mag_xyz + vz v) in
  P2 (vx v * scale * fx c + cx c) (vy v * scale * fy c + cy c).
Definition project_stereographic_J (c : core) (v : v3) : j23 :=
  let mag_xyz := sqrt (vx v * vx v + vy v * vy v + vz v * vz v) in
  let scale := 2 / (mag_xyz + vz v) in
  let A := - scale * scale / 2 in
  let B := A / mag_xyz in
  J23 (V3 (fx c * (vx v * (B * vx v) + scale)) (fx c * (vx v * (B * vy v))) (fx c * (vx v * (B * vz v + A))))
      (V3 (fy c * (vy v * (B * vx v))) (fy c * (vy v * (B * vy v) + scale)) (fy c * (vy v * (B * vz v + A)))).
(** mrcal.c:1665-1683 *)
Definition unproject_stereographic (c : core) (q : p2) : v3 :=
  let fx_recip := 1 / fx c in let fy_recip := 1 / fy c in
  let ux := (px q - cx c) * fx_recip in let uy := (py q - cy c) * fy_recip in
  let norm2u := ux * ux + uy * uy in
  V3 ux uy (1 - 1 / 4 * norm2u).
Definition unproject_stereographic_J (c : core) (q : p2) : j32 :=
  let fx_recip := 1 / fx c in let fy_recip := 1 / fy c in
  let ux := (px q - cx c) * fx_recip in let uy := (py q - cy c) * fy_recip in
  J32 (P2 (1 * fx_recip) 0) (P2 0 (1 * fy_recip)) (P2 (- ux / 2 * fx_recip) (- uy / 2 * fy_recip)).

(** mrcal.c:1721-1742 *)
Definition project_lonlat (c : core) (v : v3) : p2 :=
  let norm2_xyz_recip := 1 / (vx v * vx v + vy v * vy v + vz v * vz v) in
  let mag_xyz_recip := sqrt norm2_xyz_recip in
  P2 (atan2 (vx v) (vz v) * fx c + cx c) (asin (vy v * mag_xyz_recip) * fy c + cy c).
Definition project_lonlat_J (c : core) (v : v3) : j23 :=
  let norm2_xyz_recip := 1 / (vx v * vx v + vy v * vy v + vz v * vz v) in
  let norm2_xz_recip := 1 / (vx v * vx v + vz v * vz v) in
  let mag_xz_recip := sqrt norm2_xz_recip in
  J23 (V3 (fx c * norm2_xz_recip * vz v) 0 (- fx c * norm2_xz_recip * vx v))
      (V3 (- fy c * mag_xz_recip * (vy v * vx v * norm2_xyz_recip)) (- fy c * mag_xz_recip * (vy v * vy v * norm2_xyz_recip - 1))
          (- fy c * mag_xz_recip * (vy v * vz v * norm2_xyz_recip))).
(** mrcal.c:1794-1816 *)
Definition unproject_lonlat (c : core) (q : p2) : v3 :=
  let fx_recip := 1 / fx c in let fy_recip := 1 / fy c in
  let lon := (px q - cx c) * fx_recip in let lat := (py q - cy c) * fy_recip in
  V3 (cos lat * sin lon) (sin lat) (cos lat * cos lon).
Definition unproject_lonlat_J (c : core) (q : p2) : j32 :=
  let fx_recip := 1 / fx c in let fy_recip := 1 / fy c in
  let lon := (px q - cx c) * fx_recip in let lat := (py q - cy c) * fy_recip in
  let slat := sin lat in let clat := cos lat in let slon := sin lon in let clon := cos lon in
  J32 (P2 (fx_recip * clat * clon) (- fy_recip * slat * slon)) (P2 0 (fy_recip * clat)) (P2 (- fx_recip * clat * slon) (- fy_recip * slat * clon)).

(** mrcal.c:1836-1857 *)
Definition project_latlon (c : core) (v : v3) : p2 :=
  let norm2_xyz_recip := 1 / (vx v * vx v + vy v * vy v + vz v * vz v) in
  let mag_xyz_recip := sqrt norm2_xyz_recip in
  P2 (asin (vx v * mag_xyz_recip) * fx c + cx c) (atan2 (vy v) (vz v) * fy c + cy c).
Definition project_latlon_J (c : core) (v : v3) : j23 :=
  let norm2_xyz_recip := 1 / (vx v * vx v + vy v * vy v + vz v * vz v) in
  let norm2_yz_recip := 1 / (vy v * vy v + vz v * vz v) in
  let mag_yz_recip := sqrt norm2_yz_recip in
  J23 (V3 (- fx c * mag_yz_recip * (vx v * vx v * norm2_xyz_recip - 1)) (- fx c * mag_yz_recip * (vx v * vy v * norm2_xyz_recip))
          (- fx c * mag_yz_recip * (vx v * vz v * norm2_xyz_recip)))
      (V3 0 (fy c * norm2_yz_recip * vz v) (- fy c * norm2_yz_recip * vy v)).
(** mrcal.c:1878-1901 *)
Definition unproject_latlon (c : core) (q : p2) : v3 :=
  let fx_recip := 1 / fx c in let fy_recip := 1 / fy c in
  let lat := (px q - cx c) * fx_recip in let lon := (py q - cy c) * fy_recip in
  V3 (sin lat) (cos lat * sin lon) (cos lat * cos lon).
Definition unproject_latlon_J (c : core) (q : p2) : j32 :=
  let fx_recip := 1 / fx c in let fy_recip := 1 / fy c in
  let lat := (px q - cx c) * fx_recip in let lon := (py q - cy c) * fy_recip in
  let slat := sin lat in let clat := cos lat in let slon := sin lon in let clon := cos lon in
  J32 (P2 (fx_recip * clat) 0) (P2 (- fx_recip * slat * slon) (fy_recip * clat * clon)) (P2 (- fx_recip * slat * clon) (- fy_recip * clat * slon)).

(** *** N points: the loops over output buffers *)
(** a buffer of mrcal_point2_t / mrcal_point3_t *)
Definition buf (A : Type) := nat -> A.
Definition put {A} (b : buf A) (i : nat) (x : A) : buf A := fun j => if Nat.eqb j i then x else b j.
(** for(i=0; i<N; i++) body *)
Fixpoint for_loop {St} (n : nat) (body : nat -> St -> St) (s : St) : St :=
  match n with O => s | S m => body m (for_loop m body s) end.

(** The loops of mrcal_project_stereographic, _lonlat, _latlon: q[i] = ...; if(dq_dv) dq_dv[2*i+0], [2*i+1] = ... *)
Definition batch_project (f : v3 -> p2) (J : v3 -> j23) (want_J : bool) (v : nat -> v3) (N : nat) (s : buf p2 * buf v3) : buf p2 * buf v3 :=
  for_loop N (fun i '(q, dq) =>
    (put q i (f (v i)), if want_J then put (put dq (2 * i) (dqx (J (v i)))) (2 * i + 1) (dqy (J (v i))) else dq)) s.
(** The loop of mrcal_project_pinhole, mrcal.c:1455-1460: the values go to q->x, q->y, i.e. q[0], for every i *)
Definition batch_project_pinhole (c : core) (want_J : bool) (v : nat -> v3) (N : nat) (s : buf p2 * buf v3) : buf p2 * buf v3 :=
  for_loop N (fun i '(q, dq) =>
    (put q 0 (project_pinhole c (v i)),
     if want_J then put (put dq (2 * i) (dqx (project_pinhole_J c (v i)))) (2 * i + 1) (dqy (project_pinhole_J c (v i))) else dq)) s.
(** The loops of the unprojections: v[i] = ...; if(dv_dq) dv_dq[3*i+0..2] = ... *)
Definition batch_unproject (f : p2 -> v3) (J : p2 -> j32) (want_J : bool) (q : nat -> p2) (N : nat) (s : buf v3 * buf p2) : buf v3 * buf p2 :=
  for_loop N (fun i '(v, dv) =>
    (put v i (f (q i)), if want_J then put (put (put dv (3 * i) (dvx (J (q i)))) (3 * i + 1) (dvy (J (q i)))) (3 * i + 2) (dvz (J (q i))) else dv)) s.

(** mrcal.c:2867-2999 _mrcal_project_internal.  [proj], [proj_J]: what project()
    writes for one point to *q and to dq_dp[0..1] (dq_dtframe); [proj_Ji]: the
    2*Nintrinsics values of the intrinsics gradient.  The pointer dq_dp is
    advanced only in the second loop. *)
Section Internal.
  Variable proj : v3 -> p2.
  Variable proj_J : v3 -> j23.
  Variable proj_Ji : v3 -> nat -> R.
  Variable Nintrinsics : nat.
  Definition put_dq_dp (want : bool) (dq : buf v3) (at_ : nat) (p : v3) : buf v3 :=
    if want then put (put dq at_ (dqx (proj_J p))) (at_ + 1) (dqy (proj_J p)) else dq.
  (** row of 2*Nintrinsics doubles *)
  Definition put_row (di : buf R) (at_ : nat) (row : nat -> R) : buf R :=
    fun j => if (Nat.leb at_ j && Nat.ltb j (at_ + 2 * Nintrinsics))%bool then row (j - at_)%nat else di j.
  Record obuf := OBuf { o_q : buf p2; o_dq_dp : buf v3; o_di : buf R }.
  Definition project_internal (want_dp want_di : bool) (p : nat -> v3) (N : nat) (s : obuf) : obuf :=
    if want_di then
      snd (for_loop N (fun i '((pi, pp), s) =>
        (((pi + 2 * Nintrinsics)%nat, (if want_dp then pp + 2 else pp)%nat),
         OBuf (put (o_q s) i (proj (p i))) (put_dq_dp want_dp (o_dq_dp s) pp (p i)) (put_row (o_di s) pi (proj_Ji (p i)))))
        ((0%nat, 0%nat), s))
    else
      for_loop N (fun i s => OBuf (put (o_q s) i (proj (p i))) (put_dq_dp want_dp (o_dq_dp s) 0 (p i)) (o_di s)) s.
End Internal.
