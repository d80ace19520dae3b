(** C72: image_transformation_map() maps each pixel of one camera to the pixel where the other camera sees the same scene point. *)
From Coq Require Import Reals Lra Psatz Lia Arith ZArith QArith Qreals Bool List.
From Coquelicot Require Import Coquelicot.
From Verif Require Import M_SplineIdx M_Spline S_Vec S_Curve S_LensGrad P_Trig M_Dual P_Dual M_Pose P_Pose C_Rt C_CamPose M_Project P_Atan2 C_Project M_Lens M_OpenCV M_Cahvore M_Splined M_Unproject
  C_ProjectGrad C_LensGrad C_Splined C_Cahvore C_CahvoreGrad C_Unproject M_Residuals P_Jacobian M_ImageMap.
Open Scope R_scope.

(** * The lens models see directions *)
Definition central_lens (m : lensmodel) (intr : nat -> R) : Prop := match m with CAHVORE _ => central intr | _ => True end.
Lemma atan2_scale : forall a y x, 0 < a -> atan2 (a * y) (a * x) = atan2 y x.
Proof.
  intros a y x A. destruct (Req_dec (x * x + y * y) 0) as [Z|Z].
  - assert (x = 0) as -> by nra. assert (y = 0) as -> by nra. now rewrite !Rmult_0_r.
  - destruct (atan2_spec x y Z) as (E1 & E2 & E3). set (r := sqrt (x * x + y * y)) in *.
    assert (0 < r) as P by (apply sqrt_lt_R0; nra).
    apply atan2_unique with (a * r); [now apply Rmult_lt_0_compat|apply atan2_range| |]; rewrite Rmult_assoc; f_equal; symmetry; assumption.
Qed.
Lemma norm_scale : forall a p, 0 < a -> sqrt (a * vx p * (a * vx p) + a * vy p * (a * vy p) + a * vz p * (a * vz p)) = a * sqrt (vx p * vx p + vy p * vy p + vz p * vz p).
Proof.
  intros a p A. replace (_ + _ + _) with (a * a * (vx p * vx p + vy p * vy p + vz p * vz p)) by ring. rewrite sqrt_mult by nra. rewrite sqrt_square by lra. reflexivity.
Qed.
Lemma recip_scale : forall a p, 0 < a -> p <> v0 ->
  a * sqrt (1 / (a * vx p * (a * vx p) + a * vy p * (a * vy p) + a * vz p * (a * vz p))) = sqrt (1 / (vx p * vx p + vy p * vy p + vz p * vz p)).
Proof.
  intros a p A N. assert (0 < norm2 p) as P. { destruct (Req_dec (norm2 p) 0) as [Z|Z]; [exfalso; apply N; now apply norm2_zero|]. revert Z. vunfold. nra. }
  unfold norm2, dot in P. replace (a * vx p * (a * vx p) + a * vy p * (a * vy p) + a * vz p * (a * vz p)) with (a * a * (vx p * vx p + vy p * vy p + vz p * vz p)) by ring.
  set (n := vx p * vx p + vy p * vy p + vz p * vz p) in *. replace (1 / (a * a * n)) with (/ a * / a * (1 / n)) by (field; split; apply Rgt_not_eq; lra).
  assert (0 < / a) by now apply Rinv_0_lt_compat. assert (0 < / n) by now apply Rinv_0_lt_compat.
  rewrite sqrt_mult by (unfold Rdiv; nra). rewrite sqrt_square by lra. rewrite <- Rmult_assoc, Rinv_r by lra. ring.
Qed.
Lemma ocv_scale : forall Nd intr v a, a <> 0 -> ocv_defined Nd intr v -> ocv_defined Nd intr (vscale a v).
Proof.
  intros Nd intr v a Ha (A & B). assert (ocv_x (vscale a v) = ocv_x v /\ ocv_y (vscale a v) = ocv_y v) as [EX EY].
  { unfold ocv_x, ocv_y, ocv_z_recip, vscale. cbn. split; field; auto. }
  unfold ocv_defined. rewrite EX, EY. split; [|exact B]. cbn. now apply Rmult_integral_contrapositive.
Qed.
(** also where the code divides by 0 *)
Lemma div_scale : forall a x z, a <> 0 -> a * x / (a * z) = x / z.
Proof. intros a x z A. destruct (Req_dec z 0) as [-> |Z]; [rewrite Rmult_0_r; unfold Rdiv; rewrite Rinv_0; ring|field; auto]. Qed.
Lemma lens_scale : forall m intr p a, central_lens m intr -> 0 < a -> lens_pixel m intr (vscale a p) = lens_pixel m intr p.
Proof.
  intros m intr p a C A. assert (a <> 0) as A0 by lra.
  assert (forall x s, a * x * (2 / (a * s)) = x * (2 / s)) as DS. { intros x s. transitivity (2 * (a * x / (a * s))); [unfold Rdiv; ring|]. rewrite div_scale by exact A0. unfold Rdiv. ring. }
  assert (forall Nd, opencv_project Nd intr (vscale a p) = opencv_project Nd intr p) as OC.
  { intro Nd. assert (ocv_x (vscale a p) = ocv_x p) as EX. { unfold ocv_x, ocv_z_recip, vscale. cbn [vx vz]. transitivity (a * vx p / (a * vz p)); [unfold Rdiv; ring|]. rewrite div_scale by exact A0. unfold Rdiv. ring. }
    assert (ocv_y (vscale a p) = ocv_y p) as EY. { unfold ocv_y, ocv_z_recip, vscale. cbn [vy vz]. transitivity (a * vy p / (a * vz p)); [unfold Rdiv; ring|]. rewrite div_scale by exact A0. unfold Rdiv. ring. }
    unfold opencv_project. cbv zeta. now rewrite EX, EY. }
  destruct (Req_dec (norm2 p) 0) as [Z|Z].
  { apply norm2_zero in Z. subst p. replace (vscale a v0) with v0 by vring. reflexivity. }
  assert (p <> v0) as N by (intros ->; apply Z; vunfold; ring).
  destruct m; cbn [lens_pixel central_lens] in *; try apply OC.
  - unfold project_pinhole. cbv zeta. cbn [vx vy vz vscale].
    transitivity (P2 (a * vx p / (a * vz p) * fx (core_of intr) + cx (core_of intr)) (a * vy p / (a * vz p) * fy (core_of intr) + cy (core_of intr))); [f_equal; unfold Rdiv; ring|].
    rewrite !div_scale by exact A0. f_equal; unfold Rdiv; ring.
  - unfold project_stereographic. cbv zeta. cbn [vx vy vz vscale]. rewrite norm_scale by exact A. rewrite <- Rmult_plus_distr_l, !DS. reflexivity.
  - unfold project_lonlat. cbv zeta. cbn [vx vy vz vscale]. rewrite atan2_scale by exact A. f_equal. f_equal. f_equal. f_equal. rewrite <- (recip_scale a p A N). ring.
  - unfold project_latlon. cbv zeta. cbn [vx vy vz vscale]. rewrite atan2_scale by exact A. f_equal. f_equal. f_equal. f_equal. rewrite <- (recip_scale a p A N). ring.
  - assert (ca_omega intr (vscale a p) = a * ca_omega intr p) as EO by (unfold ca_omega; cbn; ring).
    assert (ca_tau intr (vscale a p) = ca_tau intr p) as ET.
    { unfold ca_tau, ca_omega_recip. rewrite EO. unfold ca_norm2p. cbn [vx vy vz vscale]. destruct (Req_dec (ca_omega intr p) 0) as [-> |O]; [rewrite Rmult_0_r; unfold Rdiv; rewrite Rinv_0; ring|field; auto]. }
    assert (ca_distorted intr (vscale a p) = vscale a (ca_distorted intr p)) as ED. { unfold ca_distorted, ca_distorted_i, ca_mu. rewrite ET, EO. apply v3_eq; cbn; ring. }
    unfold cahvor_project. rewrite ED. generalize (ca_distorted intr p). intro d. cbv zeta. cbn [vx vy vz vscale]. f_equal; f_equal; try (destruct (Req_dec (vz d) 0) as [-> |O]; [rewrite Rmult_0_r; unfold Rdiv; rewrite Rinv_0; ring|field; auto]).
  - now rewrite C65_central_scale.
  - unfold splined_project. assert (sp_ux (vscale a p) = sp_ux p /\ sp_uy (vscale a p) = sp_uy p) as [EX EY].
    { unfold sp_ux, sp_uy, sp_scale, sp_mag. cbn [vx vy vz vscale]. rewrite norm_scale by exact A. rewrite <- Rmult_plus_distr_l, !DS. split; reflexivity. }
    unfold sp_deltau, sp_ix, sp_iy. now rewrite EX, EY.
Qed.
(** the distance along a ray doesn't matter *)
Theorem C72_central : forall m intr p a, central_lens m intr -> 0 < a -> p <> v0 -> sees m intr p ->
  sees m intr (vscale a p) /\ lens_pixel m intr (vscale a p) = lens_pixel m intr p.
Proof.
  intros m intr p a C A N S. assert (a <> 0) as A0 by lra.
  assert (norm p + vz p <> 0 -> norm (vscale a p) + vz (vscale a p) <> 0) as ST.
  { intro Z. rewrite norm_vscale, (Rabs_pos_eq a) by lra. replace (a * norm p + vz (vscale a p)) with (a * (norm p + vz p)) by (vunfold; ring). now apply Rmult_integral_contrapositive. }
  assert (vscale a p <> v0) as NS by (intro Z; apply N; now apply vscale_v0 with a).
  destruct m; cbn [sees lens_pixel central_lens] in *; try (split; [now apply ocv_scale|apply C59_opencv_scale; [lra|apply S]]).
  - split; [cbn; now apply Rmult_integral_contrapositive|]. unfold project_pinhole. cbv zeta. cbn [vx vy vz vscale]. f_equal; field; auto.
  - split; [auto|]. unfold project_stereographic. cbv zeta. cbn [vx vy vz vscale]. rewrite norm_scale by exact A. unfold norm, norm2, dot in S. f_equal; field; (split; [exact S|]); try exact A0;
      replace (a * sqrt (vx p * vx p + vy p * vy p + vz p * vz p) + a * vz p) with (a * (sqrt (vx p * vx p + vy p * vy p + vz p * vz p) + vz p)) by ring; now apply Rmult_integral_contrapositive.
  - split; [exact NS|]. unfold project_lonlat. cbv zeta. cbn [vx vy vz vscale]. rewrite atan2_scale by exact A. f_equal. f_equal. f_equal. f_equal.
    rewrite <- (recip_scale a p A N). ring.
  - split; [exact NS|]. unfold project_latlon. cbv zeta. cbn [vx vy vz vscale]. rewrite atan2_scale by exact A. f_equal. f_equal. f_equal. f_equal.
    rewrite <- (recip_scale a p A N). ring.
  - destruct S as [S1 S2]. split; [|now apply C60_cahvor_scale].
    assert (ca_omega intr (vscale a p) = a * ca_omega intr p) as EO by (unfold ca_omega; cbn; ring).
    assert (ca_tau intr (vscale a p) = ca_tau intr p) as ET. { unfold ca_tau, ca_omega_recip. rewrite EO. unfold ca_norm2p. cbn. field. auto. }
    assert (vz (ca_distorted intr (vscale a p)) = a * vz (ca_distorted intr p)) as ED. { unfold ca_distorted, ca_distorted_i, ca_mu. rewrite ET, EO. cbn. ring. }
    rewrite EO, ED. split; now apply Rmult_integral_contrapositive.
  - destruct S as (d & E & D). rewrite C65_central_scale by auto. split; [|reflexivity]. exists (vscale a d). rewrite scaled_distorted by auto. rewrite E. split; [reflexivity|]. cbn. now apply Rmult_integral_contrapositive.
  - split; [auto|]. now apply C61_splined_scale.
Qed.
Print Assumptions C72_central.

(** the models that are said to see behind the camera tell the two ends of a line apart; the others don't.  CAHVORE: see C62_cahvore_behind_refuted *)
Definition flips (m : lensmodel) : Prop := forall intr v, sees m intr v -> lens_pixel m intr (vscale (-1) v) = lens_pixel m intr v.
Theorem C72_behind_flag : forall m, (forall cfg, m = SPLINED cfg -> spline_legal cfg = true) -> (forall lin, m <> CAHVORE lin) ->
  (can_project_behind_camera m = false <-> flips m).
Proof.
  intros m L NC.
  assert (forall intr v, project_stereographic (core_of intr) (vscale (-1) v) = project_stereographic (core_of intr) v -> intr = core1 -> v = V3 1 0 1 -> False) as ST.
  { intros intr v E -> ->. apply (f_equal px) in E. unfold project_stereographic, core_of, core1 in E. cbn [vx vy vz vscale px fx cx Nat.ltb Nat.leb] in E.
    replace (-1 * 1 * (-1 * 1) + -1 * 0 * (-1 * 0) + -1 * 1 * (-1 * 1)) with 2 in E by ring. replace (1 * 1 + 0 * 0 + 1 * 1) with 2 in E by ring.
    assert (1 < sqrt 2) as B by (rewrite <- sqrt_1; apply sqrt_lt_1; lra). assert (0 < 2 / (sqrt 2 + 1)) by (apply Rdiv_lt_0_compat; lra). assert (0 < 2 / (sqrt 2 + -1 * 1)) by (apply Rdiv_lt_0_compat; lra). lra. }
  assert (norm (V3 1 0 1) + vz (V3 1 0 1) <> 0) as SS. { pose proof (norm_nonneg (V3 1 0 1)). cbn [vz]. lra. }
  assert (atan2 0 (-1) = PI) as AT. { apply atan2_unique with 1; [lra|pose proof PI_RGT_0; lra|rewrite cos_PI; ring|rewrite sin_PI; ring]. }
  assert (atan2 0 1 = 0) as A0 by (rewrite atan2_right by lra; unfold Rdiv; rewrite Rmult_0_l; apply atan_0).
  destruct m; cbn [can_project_behind_camera]; (split; [try discriminate; intros _|try reflexivity; intro F; exfalso]).
  - intros intr v S. cbn [lens_pixel sees] in *. unfold project_pinhole. cbv zeta. cbn [vx vy vz vscale]. f_equal; field; lra.
  - eapply ST; [apply (F core1 (V3 1 0 1) SS)|reflexivity|reflexivity].
  - pose proof (F core1 (V3 0 0 1)) as E. cbn [sees lens_pixel] in E. specialize (E ltac:(intro Z; apply (f_equal vz) in Z; cbn in Z; lra)). apply (f_equal px) in E.
    unfold project_lonlat, core_of, core1 in E. cbn [px vx vy vz vscale fx cx Nat.ltb Nat.leb] in E. replace (-1 * 0) with 0 in E by ring. replace (-1 * 1) with (-1) in E by ring. rewrite AT, A0 in E. pose proof PI_RGT_0. lra.
  - pose proof (F core1 (V3 0 0 1)) as E. cbn [sees lens_pixel] in E. specialize (E ltac:(intro Z; apply (f_equal vz) in Z; cbn in Z; lra)). apply (f_equal py) in E.
    unfold project_latlon, core_of, core1 in E. cbn [py vx vy vz vscale fy cy Nat.ltb Nat.leb] in E. replace (-1 * 0) with 0 in E by ring. replace (-1 * 1) with (-1) in E by ring. rewrite AT, A0 in E. pose proof PI_RGT_0. lra.
  - intros intr v S. now apply flip_pixel.
  - intros intr v S. now apply flip_pixel.
  - intros intr v S. now apply flip_pixel.
  - intros intr v S. now apply flip_pixel.
  - intros intr v S. now apply flip_pixel.
  - destruct (NC _ eq_refl).
  - match type of F with flips (SPLINED ?x) => rename x into cfg end. pose proof (F core1 (V3 1 0 1) SS) as E. cbn [lens_pixel] in E.
    assert (forall p, splined_project cfg (fun z => core1 (Z.to_nat z)) p = project_stereographic (core_of core1) p) as ES.
    { intro p. rewrite C61_splined_stereographic; [reflexivity|now apply L|]. intros n Hn. unfold core1. destruct (Nat.ltb_spec (Z.to_nat n) 2); [lia|reflexivity]. }
    rewrite !ES in E. eapply ST; [exact E|reflexivity|reflexivity].
Qed.
Print Assumptions C72_behind_flag.

(** * Specification of the map *)
(** a scene point / a direction in the coordinates of a camera *)
Definition seen_from (cam : camera) (X : v3) : v3 := vadd (mv (R_from_r (rt_r (cm_rt_cam_ref cam))) X) (rt_t (cm_rt_cam_ref cam)).
Definition dir_from (cam : camera) (D : v3) : v3 := mv (R_from_r (rt_r (cm_rt_cam_ref cam))) D.
(** the camera sees p at the pixel q, to within the tolerance of unproject(): 0.0142 pixels *)
Definition at_pixel (cam : camera) (p : v3) (q : p2) : Prop := sees (cm_lens cam) (cm_intr cam) p /\ dist2 (lens_pixel (cm_lens cam) (cm_intr cam) p) q <= 2 / 10000.
Definition pixel_of (cam : camera) (p : v3) : p2 := lens_pixel (cm_lens cam) (cm_intr cam) p.
Definition masked (mask : bool) (cam : camera) (q : p2) : p2 := if mask then if cm_inside cam q then q else P2 (-1) (-1) else q.
Definition grid (x y : Z) : p2 := P2 (IZR x) (IZR y).
(** what mrcal.unproject() promises (C62) *)
Definition unprojects (unproject : lensmodel -> (nat -> R) -> p2 -> v3) (cam : camera) (q : p2) : Prop :=
  central_lens (cm_lens cam) (cm_intr cam) /\ answers (cm_lens cam) (cm_intr cam) q (unproject (cm_lens cam) (cm_intr cam) q).

Section Poses.
  Variables from to : camera.
  Lemma proper_to_from : proper (Rt_to_from from to).
  Proof. unfold Rt_to_from. destruct (C22_invert _ v0 (proper_from_rt (cm_rt_cam_ref from))) as [P _]. apply (proj2 (C22_compose _ _ v0)); [apply proper_from_rt|exact P]. Qed.
  Lemma to_from_act : forall X, act (Rt_to_from from to) (seen_from from X) = seen_from to X.
  Proof.
    intro X. unfold Rt_to_from. rewrite <- C22_transform_is_action, (proj1 (C22_compose _ _ _)). change (seen_from from X) with (act (Rt_from_rt (cm_rt_cam_ref from)) X).
    rewrite <- C22_transform_is_action. destruct (C22_invert _ X (proper_from_rt (cm_rt_cam_ref from))) as (_ & E & _). rewrite E. apply C22_transform_is_action.
  Qed.
  Lemma to_from_inv : forall X, act (invert_Rt (Rt_to_from from to)) (seen_from to X) = seen_from from X.
  Proof. intro X. rewrite <- to_from_act. now destruct (invert_act (Rt_to_from from to) (seen_from from X) proper_to_from) as [E _]. Qed.
  Lemma to_from_R : forall D, mv (Rt_R (Rt_to_from from to)) (dir_from from D) = dir_from to D.
  Proof.
    intro D. unfold Rt_to_from, compose_Rt2. cbn [Rt_R Rt_from_rt invert_Rt]. rewrite mul_RR_mm, mv_mm. unfold dir_from. f_equal.
    change (invert_R (R_from_r (rt_r (cm_rt_cam_ref from)))) with (mT (R_from_r (rt_r (cm_rt_cam_ref from)))). apply rot_mT_mv, R_from_r_rot.
  Qed.
  Lemma to_from_RT : forall D, mv (mT (Rt_R (Rt_to_from from to))) (dir_from to D) = dir_from from D.
  Proof. intro D. rewrite <- to_from_R. apply rot_mT_mv, proper_to_from. Qed.
  (** any position and any direction in a camera is that of some scene point *)
  Lemma seen_onto : forall cam w, exists X, seen_from cam X = w.
  Proof.
    intros cam w. exists (act (invert_Rt (Rt_from_rt (cm_rt_cam_ref cam))) w). change (seen_from cam) with (act (Rt_from_rt (cm_rt_cam_ref cam))).
    now destruct (invert_act (Rt_from_rt (cm_rt_cam_ref cam)) w (proper_from_rt _)) as [_ E].
  Qed.
  Lemma dir_onto : forall cam w, exists D, dir_from cam D = w.
  Proof. intros cam w. exists (mv (mT (R_from_r (rt_r (cm_rt_cam_ref cam)))) w). apply rot_mv_mT, R_from_r_rot. Qed.
End Poses.
Lemma row_times_mT : forall v m, row_times v m = mv (mT m) v.
Proof. intros. unfold row_times. apply v3_eq; vunfold; cbn; ring. Qed.
Lemma finish_masked : forall unproject from to mask move x y,
  finish unproject from to mask move x y = masked mask from (pixel_of from (move (unproject (cm_lens to) (cm_intr to) (grid x y)))).
Proof. intros. unfold finish, masked, pixel_of, grid. cbv zeta. destruct mask; [|reflexivity]. cbn [andb]. now destruct (cm_inside _ _). Qed.
Lemma at_pixel_scale : forall unproject to q a, unprojects unproject to q -> 0 < a -> at_pixel to (vscale a (unproject (cm_lens to) (cm_intr to) q)) q.
Proof. intros unproject to q a (C & N & S & D) A. unfold at_pixel. destruct (C72_central _ _ _ a C A N S) as [S' E]. rewrite E. now split. Qed.

Section Theorems.
Variable unproject : lensmodel -> (nat -> R) -> p2 -> v3.
Variable cv2_map : nat -> (nat -> R) -> option m33 -> core -> Z -> Z -> p2.
Variables from to : camera.
Notation image_map := (image_transformation_map unproject cv2_map from to).

(** ** A given distance out *)
Theorem C72_distance : forall distance mask mapxy x y, 0 < distance -> image_map false (Some distance) None None mask = Map mapxy -> unprojects unproject to (grid x y) ->
  exists X, norm (seen_from to X) = distance /\ at_pixel to (seen_from to X) (grid x y) /\ mapxy x y = masked mask from (pixel_of from (seen_from from X)).
Proof.
  intros d mask mapxy x y P E U. pose proof U as (_ & N & _). cbn in E. assert (finish unproject from to mask (moved from to false (Some d)) = mapxy) as <- by (destruct (opencv_coeffs (cm_lens from)); now inversion E). clear E.
  set (v := unproject (cm_lens to) (cm_intr to) (grid x y)) in *. assert (0 < norm v) as NP. { destruct (norm_nonneg v) as [|Z]; [assumption|]. exfalso. apply N, norm2_zero. rewrite <- norm_sq, <- Z. ring. }
  assert (V3 (vx v / norm v * d) (vy v / norm v * d) (vz v / norm v * d) = vscale (d / norm v) v) as EV by (apply v3_eq; cbn; unfold Rdiv; ring).
  assert (0 < d / norm v) as DP by now apply Rdiv_lt_0_compat.
  destruct (seen_onto to (vscale (d / norm v) v)) as [X EX]. exists X. rewrite EX. split.
  - rewrite norm_vscale, Rabs_pos_eq by lra. field. lra.
  - split; [now apply at_pixel_scale|]. rewrite finish_masked. fold v. unfold moved. rewrite EV, <- EX, C22_transform_is_action, to_from_inv. reflexivity.
Qed.

(** ** At infinity, and ignoring the poses *)
Definition uses_opencv (mask : bool) : Prop := (exists Nd, opencv_coeffs (cm_lens from) = Some Nd) /\ cm_lens to = PINHOLE /\ mask = false.
Lemma slow_path : forall intrinsics_only mask, ~ uses_opencv mask -> image_map intrinsics_only None None None mask = Map (finish unproject from to mask (moved from to intrinsics_only None)).
Proof.
  intros io mask N. unfold image_transformation_map. destruct (opencv_coeffs (cm_lens from)) as [Nd|] eqn:E; [|now destruct io]. destruct (is_pinhole (cm_lens to)) eqn:I; [|now destruct io].
  destruct mask; [now destruct io|]. exfalso. apply N. split; [eauto|]. split; [destruct (cm_lens to); try discriminate; reflexivity|reflexivity].
Qed.
Theorem C72_infinity : forall mask, ~ uses_opencv mask -> exists mapxy, image_map false None None None mask = Map mapxy /\ forall x y, unprojects unproject to (grid x y) ->
  exists D, at_pixel to (dir_from to D) (grid x y) /\ mapxy x y = masked mask from (pixel_of from (dir_from from D)).
Proof.
  intros mask NU. rewrite slow_path by exact NU. eexists. split; [reflexivity|]. intros x y U.
  destruct (dir_onto to (unproject (cm_lens to) (cm_intr to) (grid x y))) as [D ED]. exists D. rewrite ED. split; [exact (proj2 (proj2 U))|].
  rewrite finish_masked. unfold moved. rewrite row_times_mT, <- ED, to_from_RT. reflexivity.
Qed.
Theorem C72_intrinsics_only : forall mask, ~ uses_opencv mask -> exists mapxy, image_map true None None None mask = Map mapxy /\ forall x y, unprojects unproject to (grid x y) ->
  exists D, at_pixel to D (grid x y) /\ mapxy x y = masked mask from (pixel_of from D).
Proof.
  intros mask NU. rewrite slow_path by exact NU. eexists. split; [reflexivity|]. intros x y U. eexists. split; [exact (proj2 (proj2 U))|]. rewrite finish_masked. reflexivity.
Qed.

(** ** A plane *)
Lemma inverse_left : forall A w, det A <> 0 -> mv (mscale (/ det A) (adjugate A)) (mv A w) = w.
Proof. intros A w N. unfold mscale, adjugate. apply v3_eq; vunfold; cbn [m00 m01 m02 m10 m11 m12 m20 m21 m22 vx vy vz]; unfold det in *; field; exact N. Qed.
Lemma A_on_plane : forall n d p, dot n p = d -> mv (A_to_from from to n d) p = vscale d (act (Rt_to_from from to) p).
Proof. intros n d p <-. unfold A_to_from, mplus, mscale, outer, act. apply v3_eq; vunfold; cbn [m00 m01 m02 m10 m11 m12 m20 m21 m22 vx vy vz]; ring. Qed.
(** the scene point X on the plane, in front of the camera, and seen at this pixel *)
Theorem C72_plane : forall n d mask mapxy x y X k, 0 < d -> image_map false None (Some n) (Some d) mask = Map mapxy -> unprojects unproject to (grid x y) -> central_lens (cm_lens from) (cm_intr from) ->
  dot n (seen_from from X) = d -> 0 < k -> seen_from to X = vscale k (unproject (cm_lens to) (cm_intr to) (grid x y)) ->
  at_pixel to (seen_from to X) (grid x y) /\ mapxy x y = masked mask from (pixel_of from (seen_from from X)).
Proof.
  intros n d mask mapxy x y X k D E U C HX K EX. cbn in E. destruct (Req_EM_T _ 0) as [Z|Z] in E; [discriminate|]. inversion E. clear E. subst mapxy.
  split; [rewrite EX; now apply at_pixel_scale|]. rewrite finish_masked. cbv zeta. f_equal. rewrite row_times_mT. set (v := unproject (cm_lens to) (cm_intr to) (grid x y)) in *.
  change (mT (mT ?a)) with a. pose proof (A_on_plane n d _ HX) as EA. rewrite to_from_act, EX in EA.
  assert (v = mv (A_to_from from to n d) (vscale (/ (d * k)) (seen_from from X))) as EV. { rewrite mv_vscale, EA. apply v3_eq; vunfold; field; split; lra. }
  rewrite EV, inverse_left by exact Z. unfold pixel_of. apply lens_scale; [exact C|]. apply Rinv_0_lt_compat. nra.
Qed.
(** there is such a point on the line through the pixel, and only one, unless the line is parallel to the plane *)
Theorem C72_plane_point : forall n d v, let D := mv (mT (Rt_R (Rt_to_from from to))) v in dot n D <> 0 ->
  exists X k, (dot n (seen_from from X) = d /\ seen_from to X = vscale k v) /\
  forall X' k', dot n (seen_from from X') = d -> seen_from to X' = vscale k' v -> k' = k /\ seen_from from X' = seen_from from X.
Proof.
  intros n d v D N. set (T := Rt_to_from from to) in *. set (c := mv (mT (Rt_R T)) (Rt_t T)).
  assert (forall X k, seen_from to X = vscale k v -> seen_from from X = vsub (vscale k D) c) as G.
  { intros X k E. rewrite <- (to_from_inv from to X), E. fold T. unfold act. cbn [invert_Rt Rt_R Rt_t]. change (invert_R (Rt_R T)) with (mT (Rt_R T)). rewrite mv_vscale. fold D. change (mul_Rv (mT (Rt_R T)) (Rt_t T)) with c. apply v3_eq; vunfold; ring. }
  set (k := (d + dot n c) / dot n D). destruct (seen_onto to (vscale k v)) as [X EX]. exists X, k. split; [split; [|exact EX]|].
  - rewrite (G X k EX). unfold k. transitivity ((d + dot n c) / dot n D * dot n D - dot n c); [vunfold; ring|]. field. exact N.
  - intros X' k' H E'. pose proof (G _ _ E') as G'. rewrite G' in H. assert (k' * dot n D = d + dot n c) as HK by (revert H; vunfold; intro; lra).
    assert (k' = k) as ->. { unfold k. rewrite <- HK. field. exact N. } split; [reflexivity|]. now rewrite G', (G _ _ EX).
Qed.
(** It refuses if the plane passes through either camera *)
Theorem C72_plane_refused : forall n d mask C, seen_from to C = v0 ->
  (image_map false None (Some n) (Some d) mask = Singular <-> d = 0 \/ dot n (seen_from from C) = d).
Proof.
  intros n d mask C EC. assert (det (A_to_from from to n d) = d * d * (d - dot n (seen_from from C))) as ED.
  { pose proof (to_from_inv from to C) as E. rewrite EC in E. rewrite <- E. destruct (proper_to_from from to) as (_ & RR & DR). set (T := Rt_to_from from to) in *. unfold A_to_from. fold T. destruct T as [M t]. cbn [Rt_R Rt_t] in *.
    unfold act. cbn [invert_Rt Rt_R Rt_t]. change (invert_R M) with (mT M). change (mul_Rv (mT M) t) with (mv (mT M) t).
    assert (adjugate M = mT M) as AM.
    { assert (mm (adjugate M) M = I3) as L. { transitivity (mscale (det M) I3); [unfold adjugate, mscale, I3; apply m33_eq; vunfold; cbn; unfold det; ring|rewrite DR; apply m33_eq; vunfold; cbn; ring]. }
      transitivity (mm (mm (adjugate M) M) (mT M)); [rewrite mm_assoc, RR; apply m33_eq; vunfold; cbn; ring|rewrite L; apply m33_eq; vunfold; cbn; ring]. }
    rewrite <- AM. transitivity (d * d * d * det M + d * d * dot n (mv (adjugate M) t)).
    - unfold mplus, mscale, outer, adjugate. vunfold. cbn [m00 m01 m02 m10 m11 m12 m20 m21 m22 vx vy vz]. unfold det. cbn [m00 m01 m02 m10 m11 m12 m20 m21 m22 vx vy vz]. ring.
    - rewrite DR. vunfold. cbn [vx vy vz]. ring. }
  cbn. rewrite ED. destruct (Req_EM_T _ 0) as [Z|Z].
  - split; [intros _|reflexivity]. apply Rmult_integral in Z. destruct Z as [Z|Z]; [left; apply Rmult_integral in Z; tauto|right; lra].
  - split; [discriminate|]. intros [-> |H]; exfalso; apply Z; [ring|]. rewrite H. ring.
Qed.
End Theorems.
Print Assumptions C72_distance.
Print Assumptions C72_infinity.
Print Assumptions C72_intrinsics_only.
Print Assumptions C72_plane.
Print Assumptions C72_plane_point.
Print Assumptions C72_plane_refused.

(** ** Looking out to infinity is the limit of looking far out *)
Lemma moves3_affine : forall a b t, moves3 (fun s => vadd a (vscale s b)) t b.
Proof. intros a b t. unfold moves3. cbn [vx vy vz vadd vscale]. split; [|split]; auto_derive; auto; ring. Qed.
Theorem C72_far : forall from to v ixy, (ixy = 0 \/ ixy = 1)%Z -> v <> v0 -> central_lens (cm_lens from) (cm_intr from) -> focal_ok (core_of (cm_intr from)) ->
  lens_smooth (cm_lens from) (cm_intr from) (moved from to false None v) ->
  is_lim (fun d => p2get (pixel_of from (moved from to false (Some d) v)) ixy) p_infty (p2get (pixel_of from (moved from to false None v)) ixy).
Proof.
  intros from to v ixy Hi N C F S. assert (0 < norm v) as NP. { destruct (norm_nonneg v) as [|Z]; [assumption|]. exfalso. apply N, norm2_zero. rewrite <- norm_sq, <- Z. ring. }
  set (P0 := moved from to false None v) in *. set (T := Rt_to_from from to). set (c := mv (mT (Rt_R T)) (Rt_t T)).
  set (P := fun s => vadd P0 (vscale s (vscale (- norm v) c))).
  assert (P 0 = P0) as E0 by (unfold P; apply v3_eq; vunfold; ring).
  assert (continuous (fun s => p2get (pixel_of from (P s)) ixy) 0) as CT.
  { apply (ex_derive_continuous (K := R_AbsRing) (V := R_NormedModule)). eexists. unfold pixel_of.
    apply (lens_path j0 (cm_lens from) (fun _ => cm_intr from) P 0 (fun _ => 0) (vscale (- norm v) c) ixy Hi); [intro i; apply (is_derive_const (K := R_AbsRing) (V := R_NormedModule))|apply moves3_affine|exact F|rewrite E0; exact S]. }
  apply is_lim_ext_loc with (fun d => p2get (pixel_of from (P (/ d))) ixy).
  - exists 0. intros d Hd. f_equal. unfold pixel_of. rewrite <- (lens_scale _ _ (P (/ d)) (d / norm v) C) by now apply Rdiv_lt_0_compat. f_equal. unfold P, P0, moved. fold T.
    rewrite C22_transform_is_action, row_times_mT. unfold act. cbn [invert_Rt Rt_R Rt_t]. change (invert_R (Rt_R T)) with (mT (Rt_R T)). change (mul_Rv (mT (Rt_R T)) (Rt_t T)) with c.
    assert (V3 (vx v / norm v * d) (vy v / norm v * d) (vz v / norm v * d) = vscale (d / norm v) v) as -> by (apply v3_eq; cbn; unfold Rdiv; ring). rewrite mv_vscale. generalize (mv (mT (Rt_R T)) v) as w. clearbody c. intro w.
    apply v3_eq; vunfold; field; lra.
  - assert (is_lim (fun d => / d) p_infty 0) as IV by exact (is_lim_inv (fun d => d) p_infty p_infty (is_lim_id p_infty) ltac:(discriminate)).
    pose proof (filterlim_comp _ _ _ (fun d => / d) (fun s => p2get (pixel_of from (P s)) ixy) _ _ _ IV CT) as L. cbv beta in L. rewrite E0 in L. exact L.
Qed.
Print Assumptions C72_far.

(** ** The OpenCV path *)
(** What cv2.initUndistortRectifyMap() documents: the pixel is unprojected with the new camera matrix, turned by the inverse of R
    (None: not turned), and projected with the OpenCV lens model *)
Definition cv2_documented (cv2_map : nat -> (nat -> R) -> option m33 -> core -> Z -> Z -> p2) : Prop :=
  forall Nd intr M c x y V, opencv_model Nd -> is_rot (match M with Some m => m | None => I3 end) -> mv (match M with Some m => m | None => I3 end) V = V3 ((IZR x - cx c) / fx c) ((IZR y - cy c) / fy c) 1 -> ocv_defined Nd intr V ->
  cv2_map Nd intr M c x y = opencv_project Nd intr V.
(** It agrees with the general path.  Missing: relative rotations that are not zero but within 1e-6 of it. *)
Theorem C72_opencv_partial : forall unproject cv2_map from to, cv2_documented cv2_map -> uses_opencv from to false -> focal_ok (core_of (cm_intr to)) ->
  np_trace (Rt_R (Rt_to_from from to)) <= 3 - 1 / 1000000000000 \/ Rt_R (Rt_to_from from to) = I3 ->
  exists mapxy, image_transformation_map unproject cv2_map from to false None None None false = Map mapxy /\
  forall x y, exists D, pixel_of to (dir_from to D) = grid x y /\ (sees (cm_lens from) (cm_intr from) (dir_from from D) -> mapxy x y = pixel_of from (dir_from from D)).
Proof.
  intros unproject cv2_map from to OK ((Nd & EN) & ET & _) F TR. cbn. rewrite EN, ET. cbn [is_pinhole negb andb]. eexists. split; [reflexivity|]. intros x y.
  destruct (dir_onto to (unproject_pinhole (core_of (cm_intr to)) (grid x y))) as [D ED]. exists D. split.
  { rewrite ED. unfold pixel_of. rewrite ET. cbn [lens_pixel]. now apply C30_pinhole_project_unproject. }
  intro S. unfold fast_map. cbv iota. set (M := if Rlt_dec _ _ then None else _). unfold pixel_of.
  assert (opencv_model Nd /\ ocv_defined Nd (cm_intr from) (dir_from from D) /\ lens_pixel (cm_lens from) (cm_intr from) (dir_from from D) = opencv_project Nd (cm_intr from) (dir_from from D)) as (MN & DN & ->).
  { unfold opencv_model. destruct (cm_lens from); try discriminate; inversion EN; subst; (split; [auto|split; [exact S|reflexivity]]). }
  apply OK; [exact MN|unfold M; destruct (Rlt_dec _ _); [apply is_rot_I|apply (proper_to_from from to)]| |exact DN]. transitivity (dir_from to D); [|exact ED]. rewrite <- (to_from_R from to). f_equal.
  unfold M. destruct (Rlt_dec _ _) as [L|L]; [|reflexivity]. destruct TR as [TR|TR]; [lra|now rewrite TR].
Qed.
Print Assumptions C72_opencv_partial.

Definition cv2_example : nat -> (nat -> R) -> option m33 -> core -> Z -> Z -> p2 :=
  fun Nd intr M c x y => opencv_project Nd intr (mv (mT (match M with Some m => m | None => I3 end)) (V3 ((IZR x - cx c) / fx c) ((IZR y - cy c) / fy c) 1)).
Lemma cv2_example_ok : cv2_documented cv2_example.
Proof. intros Nd intr M c x y V _ RM E _. unfold cv2_example. rewrite <- E. now rewrite rot_mT_mv. Qed.
Definition cam_at (m : lensmodel) (r : v3) : camera := {| cm_lens := m; cm_intr := core1; cm_rt_cam_ref := mkrt r v0; cm_W := 10; cm_H := 10; cm_inside := fun _ => true |}%Z.
Definition small_turn : R := 1 / 10000000.
Lemma R_zero : R_from_r v0 = I3.
Proof. apply R_from_r_tiny. rewrite norm_v0. apply eps_pos. Qed.
(** "This branch works identically to the other path": a turn of 1e-7 about the optical axis is ignored *)
Theorem C72_opencv_refuted : exists cv2_map from to mapxy x y D, forall unproject, cv2_documented cv2_map /\ uses_opencv from to false /\ focal_ok (core_of (cm_intr from)) /\ focal_ok (core_of (cm_intr to)) /\
  image_transformation_map unproject cv2_map from to false None None None false = Map mapxy /\
  pixel_of to (dir_from to D) = grid x y /\ 0 < vz (dir_from to D) /\ sees (cm_lens from) (cm_intr from) (dir_from from D) /\ 0 < vz (dir_from from D) /\ mapxy x y <> pixel_of from (dir_from from D).
Proof.
  set (th := small_turn). set (r := V3 0 0 th). set (from := cam_at OPENCV4 v0). set (to := cam_at PINHOLE r).
  assert (norm r = th) as NR. { unfold r, norm, norm2, dot, th, small_turn. cbn [vx vy vz]. replace (_ + _ + _) with (1 / 10000000 * (1 / 10000000)) by ring. apply sqrt_square. lra. }
  assert (R_from_r r = rod (V3 0 0 1) (sin th) (cos th)) as ER.
  { rewrite R_from_r_rod by (rewrite NR; unfold th, small_turn, DBL_EPSILON; lra). rewrite NR. f_equal. unfold unit. rewrite NR. unfold r, th, small_turn. apply v3_eq; vunfold; field. }
  assert (Rt_R (Rt_to_from from to) = R_from_r r) as ET.
  { unfold Rt_to_from, compose_Rt2. cbn [Rt_R Rt_from_rt invert_Rt from to cam_at cm_rt_cam_ref rt_r]. rewrite R_zero, mul_RR_mm. apply m33_eq; vunfold; cbn; ring. }
  assert (0 < sin th) as SP. { pose proof PI2_3_2. apply sin_gt_0; unfold th, small_turn; lra. }
  assert (1 - th * th / 2 <= cos th) as CB by (pose proof (cos_bounds th ltac:(unfold th, small_turn; lra)); lra).
  exists cv2_example, from, to, (fast_map cv2_example from to 4 false), 1%Z, 0%Z, (V3 (cos th) (- sin th) 1). intro unproject.
  split; [exact cv2_example_ok|]. split; [split; [exists 4%nat; reflexivity|split; reflexivity]|]. split; [split; cbn; lra|]. split; [split; cbn; lra|]. split; [reflexivity|].
  pose proof (sin2_cos2 th) as S2. unfold Rsqr in S2.
  assert (dir_from to (V3 (cos th) (- sin th) 1) = V3 1 0 1) as E1. { unfold dir_from. cbn [to cam_at cm_rt_cam_ref rt_r]. rewrite ER. unfold rod. apply v3_eq; vunfold; lra. }
  assert (dir_from from (V3 (cos th) (- sin th) 1) = V3 (cos th) (- sin th) 1) as E2. { unfold dir_from. cbn [from cam_at cm_rt_cam_ref rt_r]. rewrite R_zero. apply mv_I. }
  rewrite E1, E2. split; [unfold pixel_of, grid; cbn [to cam_at cm_lens cm_intr lens_pixel]; unfold project_pinhole, core_of, core1; cbn [vx vy vz fx fy cx cy Nat.ltb Nat.leb]; f_equal; lra|]. split; [cbn; lra|].
  assert (forall p, vz p <> 0 -> ocv_defined 4 core1 p) as OD. { intros p Z. split; [exact Z|]. unfold opencv_k. cbn [Nat.ltb Nat.leb]. lra. }
  split; [apply OD; cbn; lra|]. split; [cbn; lra|].
  assert (forall p, vz p <> 0 -> opencv_project 4 core1 p = project_pinhole (core_of core1) p) as OP. { intros p Z. apply C59_opencv_pinhole; [|exact Z]. intros i Hi. unfold core1. destruct (Nat.ltb_spec i 2); [lia|reflexivity]. }
  unfold fast_map. rewrite ET, ER. destruct (Rlt_dec _ _) as [L|L].
  2: { exfalso. apply L. unfold np_trace, rod. vunfold. revert CB. unfold th, small_turn. lra. }
  unfold cv2_example, pixel_of. cbn [from to cam_at cm_lens cm_intr lens_pixel]. rewrite OP by (vunfold; cbn; lra). rewrite OP by (cbn; lra). intro E. apply (f_equal py) in E. revert E. unfold project_pinhole. vunfold. cbn. lra.
Qed.
Print Assumptions C72_opencv_refuted.

(** A plane is the same plane if its normal and its offset are both negated, but the map is not: with d < 0 the rays are reversed *)
Definition unproject_example : lensmodel -> (nat -> R) -> p2 -> v3 := fun _ intr q => unproject_stereographic (core_of intr) q.
Theorem C72_plane_sign_refuted : exists unproject from to n d X x y, forall cv2_map, d <> 0 /\ unprojects unproject to (grid x y) /\ central_lens (cm_lens from) (cm_intr from) /\
  dot n (seen_from from X) = d /\ at_pixel to (seen_from to X) (grid x y) /\ (exists k, 0 < k /\ seen_from to X = vscale k (unproject (cm_lens to) (cm_intr to) (grid x y))) /\
  (exists mapxy, image_transformation_map unproject cv2_map from to false None (Some (vscale (-1) n)) (Some (- d)) false = Map mapxy /\ mapxy x y = pixel_of from (seen_from from X)) /\
  (exists mapxy, image_transformation_map unproject cv2_map from to false None (Some n) (Some d) false = Map mapxy /\ mapxy x y <> pixel_of from (seen_from from X)).
Proof.
  set (cam := cam_at STEREOGRAPHIC v0). exists unproject_example, cam, cam, (V3 0 0 (-1)), (-1), (V3 (4 / 3) 0 1), 1%Z, 0%Z. intro cv2_map.
  assert (unproject_example (cm_lens cam) (cm_intr cam) (grid 1 0) = V3 1 0 (3 / 4)) as EU. { unfold unproject_example. apply v3_eq; cbn; unfold core1; cbn; field. }
  assert (sqrt (25 / 16) = 5 / 4) as SQ. { replace (25 / 16) with (5 / 4 * (5 / 4)) by field. apply sqrt_square. lra. }
  assert (norm (V3 1 0 (3 / 4)) = 5 / 4) as NV. { unfold norm, norm2, dot. cbn [vx vy vz]. replace (_ + _ + _) with (25 / 16) by field. exact SQ. }
  assert (project_stereographic (core_of core1) (V3 1 0 (3 / 4)) = grid 1 0) as EP.
  { unfold project_stereographic. cbv zeta. cbn [vx vy vz]. replace (1 * 1 + 0 * 0 + 3 / 4 * (3 / 4)) with (25 / 16) by field. rewrite SQ. unfold core1, grid. cbn. f_equal; field. }
  assert (unprojects unproject_example cam (grid 1 0)) as U.
  { split; [exact Logic.I|]. rewrite EU. split; [intro Z; apply (f_equal vx) in Z; cbn in Z; lra|]. split; [cbn [cam cam_at cm_lens sees]; rewrite NV; cbn; lra|]. cbn [cam cam_at cm_lens cm_intr lens_pixel]. rewrite EP. unfold dist2. lra. }
  assert (forall X, seen_from cam X = X) as ES. { intro X. unfold seen_from. cbn [cam cam_at cm_rt_cam_ref rt_r rt_t]. rewrite R_zero, mv_I. apply v3_eq; vunfold; ring. }
  assert (V3 (4 / 3) 0 1 = vscale (4 / 3) (V3 1 0 (3 / 4))) as EX by (apply v3_eq; vunfold; field).
  assert (Rt_to_from cam cam = mkRt I3 v0) as ET.
  { unfold Rt_to_from, compose_Rt2. cbn [Rt_R Rt_t Rt_from_rt invert_Rt cam cam_at cm_rt_cam_ref rt_r rt_t]. rewrite R_zero, mul_RR_mm. f_equal; [apply m33_eq; vunfold; cbn; ring|apply v3_eq; vunfold; cbn; ring]. }
  assert (forall n d, det (A_to_from cam cam n d) = d * d * d) as ED. { intros n d. unfold A_to_from. rewrite ET. cbn [Rt_R Rt_t]. unfold mplus, mscale, outer, det. vunfold. cbn. ring. }
  assert (forall n d, d <> 0 -> exists mapxy, image_transformation_map unproject_example cv2_map cam cam false None (Some n) (Some d) false = Map mapxy /\ mapxy 1%Z 0%Z = project_stereographic (core_of core1) (vscale (/ d) (V3 1 0 (3 / 4)))) as EM.
  { intros n d Hd. cbn. destruct (Req_EM_T _ 0) as [Z|Z]; [exfalso; rewrite ED in Z; apply Rmult_integral in Z; destruct Z as [Z|Z]; [apply Rmult_integral in Z; tauto|tauto]|]. eexists. split; [reflexivity|].
    rewrite finish_masked. cbn [masked]. rewrite EU. unfold pixel_of. cbn [cam cam_at cm_lens cm_intr lens_pixel]. fold cam. f_equal. rewrite row_times_mT. change (mT (mT ?a)) with a. 
    transitivity (mv (mscale (/ det (A_to_from cam cam n d)) (adjugate (A_to_from cam cam n d))) (mv (A_to_from cam cam n d) (vscale (/ d) (V3 1 0 (3 / 4))))); [f_equal|apply inverse_left; exact Z].
    unfold A_to_from. rewrite ET. cbn [Rt_R Rt_t]. unfold mplus, mscale, outer. apply v3_eq; vunfold; cbn; field; exact Hd. }
  rewrite !ES, EU. split; [lra|]. split; [exact U|]. split; [exact Logic.I|]. split; [cbn; vunfold; cbn; ring|].
  assert (pixel_of cam (V3 (4 / 3) 0 1) = grid 1 0) as PX. { unfold pixel_of. rewrite EX, lens_scale; [exact EP|exact Logic.I|lra]. }
  split; [rewrite EX, <- EU; apply at_pixel_scale; [exact U|lra]|]. split; [exists (4 / 3); split; [lra|exact EX]|]. rewrite PX. split.
  - replace (- -1) with 1 by ring. destruct (EM (vscale (-1) (V3 0 0 (-1))) 1 ltac:(lra)) as (m & E & EQ). exists m. split; [exact E|]. rewrite EQ. replace (/ 1) with 1 by field. replace (vscale 1 (V3 1 0 (3 / 4))) with (V3 1 0 (3 / 4)) by (apply v3_eq; vunfold; ring). exact EP.
  - destruct (EM (V3 0 0 (-1)) (-1) ltac:(lra)) as (m & E & EQ). exists m. split; [exact E|]. rewrite EQ. intro H. apply (f_equal px) in H. revert H. unfold project_stereographic, grid. cbv zeta. cbn [vx vy vz vscale px].
    replace (/ -1 * 1 * (/ -1 * 1) + / -1 * 0 * (/ -1 * 0) + / -1 * (3 / 4) * (/ -1 * (3 / 4))) with (25 / 16) by field. rewrite SQ. unfold core1. cbn. intro H. assert (/ -1 * 1 * (2 / (5 / 4 + / -1 * (3 / 4))) * 1 + 0 = -4) as X by field. lra.
Qed.
Print Assumptions C72_plane_sign_refuted.

(** the hypotheses of C72_distance, C72_infinity, C72_plane *)
Example C72_example : let cam := cam_at STEREOGRAPHIC (V3 0 0 1) in unprojects unproject_example cam (grid 1 0) /\ ~ uses_opencv cam cam true /\
  exists X k, 0 < k /\ dot (V3 0 0 1) (seen_from cam X) = 1 /\ seen_from cam X = vscale k (unproject_example (cm_lens cam) (cm_intr cam) (grid 1 0)).
Proof.
  cbv zeta. set (cam := cam_at STEREOGRAPHIC (V3 0 0 1)).
  assert (unproject_example (cm_lens cam) (cm_intr cam) (grid 1 0) = V3 1 0 (3 / 4)) as EU. { unfold unproject_example. apply v3_eq; cbn; unfold core1; cbn; field. }
  assert (sqrt (25 / 16) = 5 / 4) as SQ. { replace (25 / 16) with (5 / 4 * (5 / 4)) by field. apply sqrt_square. lra. }
  assert (norm (V3 1 0 (3 / 4)) = 5 / 4) as NV. { unfold norm, norm2, dot. cbn [vx vy vz]. replace (_ + _ + _) with (25 / 16) by field. exact SQ. }
  split; [|split; [intros ((? & H) & _); discriminate|]].
  - split; [exact Logic.I|]. rewrite EU. split; [intro Z; apply (f_equal vx) in Z; cbn in Z; lra|]. split; [cbn [cam cam_at cm_lens sees]; rewrite NV; cbn; lra|]. cbn [cam cam_at cm_lens cm_intr lens_pixel].
    unfold project_stereographic. cbv zeta. cbn [vx vy vz]. replace (1 * 1 + 0 * 0 + 3 / 4 * (3 / 4)) with (25 / 16) by field. rewrite SQ. unfold core1, grid, dist2. cbn. apply Rle_trans with 0; [|lra]. right. field.
  - destruct (seen_onto cam (V3 (4 / 3) 0 1)) as [X EX]. exists X, (4 / 3). split; [lra|]. rewrite EX, EU. split; [cbn; vunfold; cbn; ring|apply v3_eq; vunfold; field].
Qed.
