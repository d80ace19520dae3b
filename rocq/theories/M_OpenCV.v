(** Model: the OpenCV lens models (opencv.c:50-151) and CAHVOR (mrcal.c:1068-1240), with all their gradients. *)
From Coq Require Import Reals List Arith.
From Verif Require Import S_Vec M_Project.
Import ListNotations.
Open Scope R_scope.

(** intrinsics[0..3] *)
Definition core_of (intr : nat -> R) : core := Core (intr 0%nat) (intr 1%nat) (intr 2%nat) (intr 3%nat).

(** opencv.c:66-68: double k[12] = {}; for(i<Nintrinsics-4) k[i] = intrinsics[i+4];  [Nd] = Nintrinsics-4 *)
Definition opencv_k (Nd : nat) (intr : nat -> R) (i : nat) : R := if Nat.ltb i Nd then intr (i + 4)%nat else 0.

(** opencv.c:72-86 *)
Section OpenCV.
  Variable k : nat -> R.
  Variable p : v3.
  Definition ocv_z_recip := 1 / vz p.
  Definition ocv_x := vx p * ocv_z_recip.
  Definition ocv_y := vy p * ocv_z_recip.
  Section XY.
    Variables x y : R.
    Definition ocv_r2 := x * x + y * y.
    Definition ocv_r4 := ocv_r2 * ocv_r2.
    Definition ocv_r6 := ocv_r4 * ocv_r2.
    Definition ocv_a1 := 2 * x * y.
    Definition ocv_a2 := ocv_r2 + 2 * x * x.
    Definition ocv_a3 := ocv_r2 + 2 * y * y.
    Definition ocv_cdist := 1 + k 0%nat * ocv_r2 + k 1%nat * ocv_r4 + k 4%nat * ocv_r6.
    Definition ocv_icdist2 := 1 / (1 + k 5%nat * ocv_r2 + k 6%nat * ocv_r4 + k 7%nat * ocv_r6).
    Definition ocv_xd := x * ocv_cdist * ocv_icdist2 + k 2%nat * ocv_a1 + k 3%nat * ocv_a2 + k 8%nat * ocv_r2 + k 9%nat * ocv_r4.
    Definition ocv_yd := y * ocv_cdist * ocv_icdist2 + k 2%nat * ocv_a3 + k 3%nat * ocv_a1 + k 10%nat * ocv_r2 + k 11%nat * ocv_r4.
    (** opencv.c:95-104 for one j: from dx_dp[j], dy_dp[j] *)
    Definition ocv_dm (dx dy : R) : R * R :=
      let dr2_dp := 2 * x * dx + 2 * y * dy in
      let dcdist_dp := k 0%nat * dr2_dp + 2 * k 1%nat * ocv_r2 * dr2_dp + 3 * k 4%nat * ocv_r4 * dr2_dp in
      let dicdist2_dp := - ocv_icdist2 * ocv_icdist2 * (k 5%nat * dr2_dp + 2 * k 6%nat * ocv_r2 * dr2_dp + 3 * k 7%nat * ocv_r4 * dr2_dp) in
      let da1_dp := 2 * (x * dy + y * dx) in
      (dx * ocv_cdist * ocv_icdist2 + x * dcdist_dp * ocv_icdist2 + x * ocv_cdist * dicdist2_dp +
         k 2%nat * da1_dp + k 3%nat * (dr2_dp + 4 * x * dx) + k 8%nat * dr2_dp + 2 * ocv_r2 * k 9%nat * dr2_dp,
       dy * ocv_cdist * ocv_icdist2 + y * dcdist_dp * ocv_icdist2 + y * ocv_cdist * dicdist2_dp +
         k 2%nat * (dr2_dp + 4 * y * dy) + k 3%nat * da1_dp + k 10%nat * dr2_dp + 2 * ocv_r2 * k 11%nat * dr2_dp).
    (** opencv.c:110-146: entries written to dq_dintrinsics_nocore, (x row, y row), in index order *)
    Definition ocv_dk (fx fy : R) (Nd : nat) : list (R * R) :=
      [(fx * x * ocv_icdist2 * ocv_r2, fy * (y * ocv_icdist2 * ocv_r2)); (fx * x * ocv_icdist2 * ocv_r4, fy * y * ocv_icdist2 * ocv_r4)] ++
      if Nat.ltb 2 Nd then
        [(fx * ocv_a1, fy * ocv_a3); (fx * ocv_a2, fy * ocv_a1)] ++
        if Nat.ltb 4 Nd then
          [(fx * x * ocv_icdist2 * ocv_r6, fy * y * ocv_icdist2 * ocv_r6)] ++
          if Nat.ltb 5 Nd then
            [(fx * x * ocv_cdist * (- ocv_icdist2) * ocv_icdist2 * ocv_r2, fy * y * ocv_cdist * (- ocv_icdist2) * ocv_icdist2 * ocv_r2);
             (fx * x * ocv_cdist * (- ocv_icdist2) * ocv_icdist2 * ocv_r4, fy * y * ocv_cdist * (- ocv_icdist2) * ocv_icdist2 * ocv_r4);
             (fx * x * ocv_cdist * (- ocv_icdist2) * ocv_icdist2 * ocv_r6, fy * y * ocv_cdist * (- ocv_icdist2) * ocv_icdist2 * ocv_r6)] ++
            if Nat.ltb 8 Nd then
              [(fx * ocv_r2, fy * 0); (fx * ocv_r4, fy * 0); (fx * 0, fy * ocv_r2); (fx * 0, fy * ocv_r4)]
            else []
          else []
        else []
      else [].
  End XY.
End OpenCV.
Definition opencv_project (Nd : nat) (intr : nat -> R) (p : v3) : p2 :=
  let k := opencv_k Nd intr in let c := core_of intr in
  P2 (ocv_xd k (ocv_x p) (ocv_y p) * fx c + cx c) (ocv_yd k (ocv_x p) (ocv_y p) * fy c + cy c).
(** opencv.c:91-107 *)
Definition opencv_dq_dp (Nd : nat) (intr : nat -> R) (p : v3) : j23 :=
  let k := opencv_k Nd intr in let c := core_of intr in
  let z_recip := ocv_z_recip p in let x := ocv_x p in let y := ocv_y p in
  let d0 := ocv_dm k x y z_recip 0 in let d1 := ocv_dm k x y 0 z_recip in let d2 := ocv_dm k x y (- x * z_recip) (- y * z_recip) in
  J23 (V3 (fx c * fst d0) (fx c * fst d1) (fx c * fst d2)) (V3 (fy c * snd d0) (fy c * snd d1) (fy c * snd d2)).
Definition opencv_dq_dnocore (Nd : nat) (intr : nat -> R) (p : v3) : list (R * R) :=
  ocv_dk (opencv_k Nd intr) (ocv_x p) (ocv_y p) (intr 0%nat) (intr 1%nat) Nd.
(** mrcal.c:1421-1432; also 1233-1239: dq_dfxy, the diagonal of dq/d(fx,fy) *)
Definition dq_dfxy_of (c : core) (q : p2) : p2 := P2 ((px q - cx c) / fx c) ((py q - cy c) / fy c).

(** ** CAHVOR *)
Section Cahvor.
  Variable intr : nat -> R.
  Variable p : v3.
  Definition ca_al := intr 4%nat.
  Definition ca_be := intr 5%nat.
  Definition ca_r0 := intr 6%nat.
  Definition ca_r1 := intr 7%nat.
  Definition ca_r2 := intr 8%nat.
  (** mrcal.c:1112-1125 *)
  Definition ca_o := V3 (sin ca_al * cos ca_be) (sin ca_be) (cos ca_al * cos ca_be).
  Definition ca_do_dalpha := V3 (cos ca_al * cos ca_be) 0 (- sin ca_al * cos ca_be).
  Definition ca_do_dbeta := V3 (- sin ca_al * sin ca_be) (cos ca_be) (- cos ca_al * sin ca_be).
  (** mrcal.c:1127-1141 *)
  Definition ca_norm2p := vx p * vx p + vy p * vy p + vz p * vz p.
  Definition ca_omega := vx p * vx ca_o + vy p * vy ca_o + vz p * vz ca_o.
  Definition ca_domega_dalpha := vx p * vx ca_do_dalpha + vy p * vy ca_do_dalpha + vz p * vz ca_do_dalpha.
  Definition ca_domega_dbeta := vx p * vx ca_do_dbeta + vy p * vy ca_do_dbeta + vz p * vz ca_do_dbeta.
  Definition ca_omega_recip := 1 / ca_omega.
  Definition ca_tau := ca_norm2p * ca_omega_recip * ca_omega_recip - 1.
  Definition ca_s_dtau := -2 * ca_norm2p * ca_omega_recip * ca_omega_recip * ca_omega_recip.
  Definition ca_dmu_dtau := ca_r1 + 2 * ca_tau * ca_r2.
  Definition ca_dmu_dxyz (i : nat) := ca_dmu_dtau * (2 * vget p i * ca_omega_recip * ca_omega_recip + ca_s_dtau * vget ca_o i).
  Definition ca_mu := ca_r0 + ca_tau * ca_r1 + ca_tau * ca_tau * ca_r2.
  Definition ca_s_dmu := ca_dmu_dtau * ca_s_dtau.
  (** mrcal.c:1143-1180; i < 3 is the coordinate, m < 5 the parameter *)
  Definition ca_dmu_ddist (m : nat) : R :=
    match m with O => ca_s_dmu * ca_domega_dalpha | S O => ca_s_dmu * ca_domega_dbeta | S (S O) => 1 | S (S (S O)) => ca_tau | _ => ca_tau * ca_tau end.
  Definition ca_ddist (i m : nat) : R :=
    let a := vget p i * ca_dmu_ddist m in
    let a := a - ca_dmu_ddist m * ca_omega * vget ca_o i in
    match m with
    | O => a - ca_mu * ca_domega_dalpha * vget ca_o i - ca_mu * ca_omega * vget ca_do_dalpha i
    | S O => a - ca_mu * ca_domega_dbeta * vget ca_o i - ca_mu * ca_omega * vget ca_do_dbeta i
    | _ => a
    end.
  Definition ca_dpcam (i j : nat) : R :=
    (if Nat.eqb i j then ca_mu + 1 else 0) + (vget p i - ca_omega * vget ca_o i) * ca_dmu_dxyz j - ca_mu * vget ca_o i * vget ca_o j.
  Definition ca_distorted_i (i : nat) : R := vget p i + ca_mu * (vget p i - ca_omega * vget ca_o i).
  Definition ca_distorted : v3 := V3 (ca_distorted_i 0) (ca_distorted_i 1) (ca_distorted_i 2).
End Cahvor.
(** mrcal.c:1182-1191 *)
Definition cahvor_project (intr : nat -> R) (p : v3) : p2 :=
  let d := ca_distorted intr p in let c := core_of intr in let pz_recip := 1 / vz d in
  P2 (vx d * pz_recip * fx c + cx c) (vy d * pz_recip * fy c + cy c).
(** mrcal.c:1193-1203 *)
Definition cahvor_dq_dp (intr : nat -> R) (p : v3) : j23 :=
  let d := ca_distorted intr p in let c := core_of intr in let pz_recip := 1 / vz d in
  let row (a : v3) := V3 (vx a * ca_dpcam intr p 0 0 + vy a * ca_dpcam intr p 1 0 + vz a * ca_dpcam intr p 2 0)
                         (vx a * ca_dpcam intr p 0 1 + vy a * ca_dpcam intr p 1 1 + vz a * ca_dpcam intr p 2 1)
                         (vx a * ca_dpcam intr p 0 2 + vy a * ca_dpcam intr p 1 2 + vz a * ca_dpcam intr p 2 2) in
  J23 (row (V3 (fx c * pz_recip) 0 (- fx c * vx d * pz_recip * pz_recip))) (row (V3 0 (fy c * pz_recip) (- fy c * vy d * pz_recip * pz_recip))).
(** mrcal.c:1221-1231 *)
Definition cahvor_dq_dnocore (intr : nat -> R) (p : v3) (m : nat) : R * R :=
  let d := ca_distorted intr p in let c := core_of intr in let pz_recip := 1 / vz d in
  let dx := ca_ddist intr p 0 m in let dy := ca_ddist intr p 1 m in let dz := ca_ddist intr p 2 m in
  (fx c * pz_recip * (dx - vx d * pz_recip * dz), fy c * pz_recip * (dy - vy d * pz_recip * dz)).
