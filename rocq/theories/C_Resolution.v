(** C77: the resolution of the rectified system. *)
From Coq Require Import Reals Lra Psatz Arith Lia ZArith Bool List.
From Coquelicot Require Import Coquelicot.
From Verif Require Import S_Vec S_Curve S_Callback M_Dual M_Pose M_Lens M_Layout M_Project M_OpenCV M_Unproject M_Callback M_Residuals M_ProjUncert M_UnprojGrad
  P_Dual P_Trig P_Atan2 P_Pose P_Spline P_DualPath C_Project C_ProjectGrad C_LensGrad C_Cahvore C_Unproject P_Jacobian C_Jacobian P_ProjUncert C_ImageMap C_UnprojGrad
  C_Rt C_RfromR M_Stereo C_Rectified.
Open Scope R_scope.

(** *** Specification *)
Definition rad (deg : R) : R := deg * PI / 180.
(** the direction at an azimuth and an elevation (degrees), in the rectified coordinates *)
Definition rect_ray (model : rmodel) (az el : R) : v3 :=
  match model with
  | LATLON => V3 (sin (rad az)) (cos (rad az) * sin (rad el)) (cos (rad az) * cos (rad el))
  | _ => V3 (tan (rad az)) (tan (rad el)) 1
  end.
(** a resolution that is given is used; a negative one is a multiple of the camera's *)
Definition wanted (given have : R) : R := if Rlt_dec given 0 then - given * have else given.
Definition speed (g : p2) : R := sqrt (px g * px g + py g * py g).

(** *** *)
Lemma rad_derive : forall a t, is_derive (fun s => rad (a + s)) t (PI / 180).
Proof. intros. unfold rad. auto_derive; auto. field. Qed.
Definition ray_daz (model : rmodel) (az el : R) : v3 :=
  match model with
  | LATLON => V3 (cos (rad az)) (- sin (rad az) * sin (rad el)) (- sin (rad az) * cos (rad el))
  | _ => V3 (/ (cos (rad az) * cos (rad az))) 0 0
  end.
Definition ray_del (model : rmodel) (az el : R) : v3 :=
  match model with
  | LATLON => V3 0 (cos (rad az) * cos (rad el)) (- cos (rad az) * sin (rad el))
  | _ => V3 0 (/ (cos (rad el) * cos (rad el))) 0
  end.
Lemma tan_derive : forall a, cos (rad a) <> 0 -> is_derive (fun s => tan (rad (a + s))) 0 (PI / 180 * / (cos (rad a) * cos (rad a))).
Proof.
  intros a H. eapply is_derive_rw; [apply (is_derive_comp (V := R_NormedModule) tan (fun s => rad (a + s))); [|apply rad_derive]|].
  - rewrite Rplus_0_r. apply is_derive_tan. exact H.
  - unfold scal; cbn; unfold mult; cbn. pose proof (sin2_cos2 (rad a)) as E. unfold Rsqr in E.
    f_equal.
    unfold tan. apply Rmult_eq_reg_r with (cos (rad a) * cos (rad a)); [|now apply Rmult_integral_contrapositive]. field_simplify; auto. rewrite <- E. ring.
Qed.
Lemma ray_moves_az : forall model az el, (model = LATLON \/ cos (rad az) <> 0) -> moves3 (fun s => rect_ray model (az + s) el) 0 (vscale (PI / 180) (ray_daz model az el)).
Proof.
  intros model az el H. destruct model.
  - unfold moves3, rect_ray, ray_daz, vscale, rad; cbn [vx vy vz]. split; [|split]; auto_derive; auto; rewrite ?Rplus_0_r; unfold Rdiv; field.
  - destruct H as [H|H]; [discriminate|]. split; [|split]; cbn [rect_ray ray_daz vscale vx vy vz]; [now apply tan_derive| |]; (eapply is_derive_rw; [apply (is_derive_const (K := R_AbsRing) (V := R_NormedModule))|]); cbn; ring.
  - destruct H as [H|H]; [discriminate|]. split; [|split]; cbn [rect_ray ray_daz vscale vx vy vz]; [now apply tan_derive| |]; (eapply is_derive_rw; [apply (is_derive_const (K := R_AbsRing) (V := R_NormedModule))|]); cbn; ring.
Qed.
Lemma ray_moves_el : forall model az el, (model = LATLON \/ cos (rad el) <> 0) -> moves3 (fun s => rect_ray model az (el + s)) 0 (vscale (PI / 180) (ray_del model az el)).
Proof.
  intros model az el H. destruct model.
  - unfold moves3, rect_ray, ray_del, vscale, rad; cbn [vx vy vz]. split; [|split]; auto_derive; auto; rewrite ?Rplus_0_r; unfold Rdiv; field.
  - destruct H as [H|H]; [discriminate|]. split; [|split]; cbn [rect_ray ray_del vscale vx vy vz]; [|now apply tan_derive|]; (eapply is_derive_rw; [apply (is_derive_const (K := R_AbsRing) (V := R_NormedModule))|]); cbn; ring.
  - destruct H as [H|H]; [discriminate|]. split; [|split]; cbn [rect_ray ray_del vscale vx vy vz]; [|now apply tan_derive|]; (eapply is_derive_rw; [apply (is_derive_const (K := R_AbsRing) (V := R_NormedModule))|]); cbn; ring.
Qed.
Lemma moves3_mv : forall M F t d, moves3 F t d -> moves3 (fun s => mv M (F s)) t (mv M d).
Proof.
  intros M F t d (A & B & C).
  assert (forall a b c, is_derive (fun s => a * vx (F s) + b * vy (F s) + c * vz (F s)) t (a * vx d + b * vy d + c * vz d)) as L.
  { intros a b c. apply (is_derive_plus (fun s => a * vx (F s) + b * vy (F s)) (fun s => c * vz (F s))); [apply (is_derive_plus (fun s => a * vx (F s)) (fun s => b * vy (F s)))|]; apply is_derive_scal; assumption. }
  unfold moves3, mv, dot. cbn [vx vy vz]. split; [|split]; apply L.
Qed.
Lemma camera_rate : forall stale m intr M F d, focal_ok (core_of intr) -> moves3 F 0 d -> lens_smooth m intr (mv M (F 0)) ->
  moves2 (fun s => lens_pixel m intr (mv M (F s))) 0 (P2 (dot (dqx (lens_pixel_J stale m intr (mv M (F 0)))) (mv M d)) (dot (dqy (lens_pixel_J stale m intr (mv M (F 0)))) (mv M d))).
Proof.
  intros stale m intr M F d HF HM Sm. pose proof (moves3_mv M F 0 d HM) as D.
  assert (forall i, is_derive (fun _ : R => intr i) 0 0) as DI by (intro i; apply (is_derive_const (K := R_AbsRing) (V := R_NormedModule))).
  assert (forall w ixy, intr_rate m intr w ixy (fun _ => 0) = 0) as IR.
  { intros w ixy. unfold intr_rate. destruct m; try (rewrite weighted0; ring); rewrite tot0 by (intro; ring); ring. }
  pose proof (lens_path stale m (fun _ => intr) _ 0 _ _ 0%Z (or_introl eq_refl) DI D HF Sm) as A.
  pose proof (lens_path stale m (fun _ => intr) _ 0 _ _ 1%Z (or_intror eq_refl) DI D HF Sm) as B.
  cbv beta in A, B. rewrite IR in A, B. rewrite Rplus_0_l in A, B. split; assumption.
Qed.
Lemma center_vector_spec : forall model az el, center_vector model (rad az) (rad el) =
  (rect_ray model az el, let a := ray_daz model az el in let e := ray_del model az el in J32 (P2 (vx a) (vx e)) (P2 (vy a) (vy e)) (P2 (vz a) (vz e))).
Proof.
  intros model az el. destruct model; unfold center_vector, rect_ray, ray_daz, ray_del, unproject_latlon, unproject_latlon_J, unproject_pinhole, unproject_pinhole_J;
    cbn [px py fx fy cx cy dvx dvy dvz vx vy vz]; cbv zeta; unfold Rdiv; rewrite ?Rinv_1, ?Rmult_1_r, ?Rmult_1_l, ?Rminus_0_r, ?Rmult_0_l.
  - f_equal. f_equal; f_equal; ring.
  - reflexivity.
  - reflexivity.
Qed.

(** The resolution at the center: the speed, in pixels per degree, at which the pixel of camera 0
    moves as the direction turns through the center of the view.  With LENSMODEL_LATLON the
    result is adjusted to make the size of the image an integer. *)
Theorem C77_resolution : forall stale m intr model ppa ppe fa fe az el M, fa <> 0 -> fe <> 0 ->
  focal_ok (core_of intr) -> (model = LATLON \/ cos (rad az) <> 0 /\ cos (rad el) <> 0) -> lens_smooth m intr (mv M (rect_ray model az el)) ->
  exists ga ge,
    moves2 (fun s => lens_pixel m intr (mv M (rect_ray model (az + s) el))) 0 ga /\
    moves2 (fun s => lens_pixel m intr (mv M (rect_ray model az (el + s)))) 0 ge /\
    let '(pa, pe) := rectified_resolution (lens_pixel_J stale m intr) model ppa ppe fa fe az el M in
    match model with
    | LATLON => exists Na Ne : Z, fa * pa = IZR Na /\ fe * pe = IZR Ne /\
        Rabs (IZR Na - fa * wanted ppa (speed ga)) <= 1 / 2 /\ Rabs (IZR Ne - fe * wanted ppe (speed ge)) <= 1 / 2
    | _ => pa = wanted ppa (speed ga) /\ pe = wanted ppe (speed ge)
    end.
Proof.
  intros stale m intr model ppa ppe fa fe az el M Na0 Ne0 HF HC Sm.
  assert (model = LATLON \/ cos (rad az) <> 0) as Ha by tauto. assert (model = LATLON \/ cos (rad el) <> 0) as He by tauto.
  pose proof (ray_moves_az model az el Ha) as Ma. pose proof (ray_moves_el model az el He) as Me.
  assert (rect_ray model (az + 0) el = rect_ray model az el) as E1 by now rewrite Rplus_0_r. assert (rect_ray model az (el + 0) = rect_ray model az el) as E2 by now rewrite Rplus_0_r.
  pose proof (camera_rate stale m intr M _ _ HF Ma) as Ca. pose proof (camera_rate stale m intr M _ _ HF Me) as Ce. cbv beta in Ca, Ce. rewrite E1 in Ca. rewrite E2 in Ce. specialize (Ca Sm). specialize (Ce Sm).
  do 2 eexists. split; [exact Ca|]. split; [exact Ce|].
  set (J := lens_pixel_J stale m intr (mv M (rect_ray model az el))) in *. unfold rectified_resolution. change (az * PI / 180) with (rad az). change (el * PI / 180) with (rad el). rewrite center_vector_spec.
  cbv zeta. cbn [px py dvx dvy dvz]. change (rotate_point_R M (rect_ray model az el) false) with (mul_Rv M (rect_ray model az el)).
  assert (forall v, mul_Rv M v = mv M v) as EM by (intro v; unfold mul_Rv, mv, dot; apply v3_eq; cbn; ring).
  assert (forall v, V3 (vx v) (vy v) (vz v) = v) as EV by (intros []; reflexivity). rewrite (EV (ray_daz model az el)), (EV (ray_del model az el)), (EM (rect_ray model az el)), (EM (ray_daz model az el)), (EM (ray_del model az el)). fold J.
  assert (forall d, sqrt (dot (dqx J) (mv M d) * dot (dqx J) (mv M d) + dot (dqy J) (mv M d) * dot (dqy J) (mv M d)) * PI / 180 =
    speed (P2 (dot (dqx J) (mv M (vscale (PI / 180) d))) (dot (dqy J) (mv M (vscale (PI / 180) d))))) as ES.
  { intro d. unfold speed. cbn [px py]. pose proof PI_RGT_0. rewrite !mv_vscale, !dot_vscale_r.
    replace (PI / 180 * dot (dqx J) (mv M d) * (PI / 180 * dot (dqx J) (mv M d)) + PI / 180 * dot (dqy J) (mv M d) * (PI / 180 * dot (dqy J) (mv M d)))
      with ((PI / 180 * (PI / 180)) * (dot (dqx J) (mv M d) * dot (dqx J) (mv M d) + dot (dqy J) (mv M d) * dot (dqy J) (mv M d))) by ring.
    rewrite sqrt_mult_alt by nra. rewrite sqrt_square by lra. field. }
  pose proof (ES (ray_daz model az el)) as Sa. pose proof (ES (ray_del model az el)) as Se. unfold dot at 1 2 3 4 in Sa. unfold dot at 1 2 3 4 in Se. rewrite Sa, Se. clear Sa Se ES.
  set (sa := speed _). set (se := speed (P2 (dot (dqx J) (mv M (vscale (PI / 180) (ray_del model az el)))) _)).
  assert (forall g h, (if Rlt_dec g 0 then g * - h else g) = wanted g h) as EW by (intros; unfold wanted; destruct (Rlt_dec g 0); [ring|reflexivity]). rewrite !EW.
  destruct model; [|split; reflexivity|split; reflexivity].
  do 2 eexists. split; [field_simplify; [reflexivity|exact Na0]|]. split; [field_simplify; [reflexivity|exact Ne0]|]. split; apply round_away_error.
Qed.

(** *** the rectified images *)
Lemma rad_range : forall x, -90 < x < 90 -> - PI / 2 < rad x < PI / 2.
Proof. intros x H. pose proof PI_RGT_0. unfold rad. split; nra. Qed.
Lemma rad_cos : forall x, -90 < x < 90 -> 0 < cos (rad x).
Proof. intros x H. destruct (rad_range x H). apply cos_gt_0; lra. Qed.
Lemma inside : forall x, -90 < x < 90 -> locally 0 (fun s => -90 < x + s < 90).
Proof.
  intros x H. assert (0 < Rmin (90 - x) (x + 90)) as P by (apply Rmin_glb_lt; lra). exists (mkposreal _ P). intros s B.
  change (Rabs (s - 0) < Rmin (90 - x) (x + 90)) in B. pose proof (Rmin_l (90 - x) (x + 90)). pose proof (Rmin_r (90 - x) (x + 90)). rewrite Rminus_0_r in B. apply Rabs_def2 in B. lra.
Qed.
Lemma rect_pixel : forall model c az el, -90 < az < 90 -> -90 < el < 90 -> focal_ok c ->
  project_rect model c (rect_ray model az el) =
  match model with LATLON => P2 (fx c * rad az + cx c) (fy c * rad el + cy c) | _ => P2 (fx c * tan (rad az) + cx c) (fy c * tan (rad el) + cy c) end.
Proof.
  intros model c az el Ha He [A B]. destruct model.
  - pose proof (C30_latlon_project_unproject c (P2 (fx c * rad az + cx c) (fy c * rad el + cy c)) (conj A B)) as E. cbn [px py] in E.
    replace ((fx c * rad az + cx c - cx c) / fx c) with (rad az) in E by (field; auto). replace ((fy c * rad el + cy c - cy c) / fy c) with (rad el) in E by (field; auto).
    rewrite <- E.
    + unfold project_rect, unproject_latlon, rect_ray. cbn [px py]. f_equal.
      replace ((fx c * rad az + cx c - cx c) * (1 / fx c)) with (rad az) by (field; auto). replace ((fy c * rad el + cy c - cy c) * (1 / fy c)) with (rad el) by (field; auto). reflexivity.
    + pose proof (rad_range az Ha). pose proof (rad_range el He). pose proof PI_RGT_0. unfold chart. lra.
  - unfold project_rect, project_pinhole, rect_ray. cbn [vx vy vz]. apply p2_eq; cbn [px py]; field.
  - unfold project_rect, project_pinhole, rect_ray. cbn [vx vy vz]. apply p2_eq; cbn [px py]; field.
Qed.
Lemma affine_rate : forall f a c t d, is_derive f t d -> is_derive (fun s => a * f s + c) t (a * d).
Proof.
  intros f a c t d H. eapply is_derive_rw; [apply (is_derive_plus (fun s => a * f s) (fun _ => c)); [apply is_derive_scal; exact H|apply (is_derive_const (K := R_AbsRing) (V := R_NormedModule))]|].
  unfold plus, zero; cbn. ring.
Qed.
(** how fast the rectified pixel moves *)
Lemma rect_rate_az : forall model c az el, -90 < az < 90 -> -90 < el < 90 -> focal_ok c ->
  moves2 (fun s => project_rect model c (rect_ray model (az + s) el)) 0
    (P2 (match model with LATLON => fx c * (PI / 180) | _ => fx c * (PI / 180 * / (cos (rad az) * cos (rad az))) end) 0).
Proof.
  intros model c az el Ha He HF. pose proof (rad_cos az Ha) as C.
  assert (forall g, is_derive (fun s : R => (g : R)) 0 0) as DC by (intro g; apply (is_derive_const (K := R_AbsRing) (V := R_NormedModule))).
  assert (locally 0 (fun s => match model with LATLON => P2 (fx c * rad (az + s) + cx c) (fy c * rad el + cy c) | _ => P2 (fx c * tan (rad (az + s)) + cx c) (fy c * tan (rad el) + cy c) end
     = project_rect model c (rect_ray model (az + s) el))) as L.
  { eapply filter_imp; [|exact (inside az Ha)]. intros s Hs. cbv beta in Hs. symmetry. now apply rect_pixel. }
  split; (eapply is_derive_ext_loc; [eapply filter_imp; [|exact L]; intros s Hs; cbv beta in Hs; rewrite <- Hs; reflexivity|]); cbn [px py]; destruct model; cbn [px py]; try apply DC;
    apply affine_rate; first [apply rad_derive | apply tan_derive; lra].
Qed.
Lemma rect_rate_el : forall model c az el, -90 < az < 90 -> -90 < el < 90 -> focal_ok c ->
  moves2 (fun s => project_rect model c (rect_ray model az (el + s))) 0
    (P2 0 (match model with LATLON => fy c * (PI / 180) | _ => fy c * (PI / 180 * / (cos (rad el) * cos (rad el))) end)).
Proof.
  intros model c az el Ha He HF. pose proof (rad_cos el He) as C.
  assert (forall g, is_derive (fun s : R => (g : R)) 0 0) as DC by (intro g; apply (is_derive_const (K := R_AbsRing) (V := R_NormedModule))).
  assert (locally 0 (fun s => match model with LATLON => P2 (fx c * rad az + cx c) (fy c * rad (el + s) + cy c) | _ => P2 (fx c * tan (rad az) + cx c) (fy c * tan (rad (el + s)) + cy c) end
     = project_rect model c (rect_ray model az (el + s)))) as L.
  { eapply filter_imp; [|exact (inside el He)]. intros s Hs. cbv beta in Hs. symmetry. now apply rect_pixel. }
  split; (eapply is_derive_ext_loc; [eapply filter_imp; [|exact L]; intros s Hs; cbv beta in Hs; rewrite <- Hs; reflexivity|]); cbn [px py]; destruct model; cbn [px py]; try apply DC;
    apply affine_rate; first [apply rad_derive | apply tan_derive; lra].
Qed.

(** As a direction turns through the center of the rectified view, its pixel in the rectified image
    moves along the row (the column), and as fast as its pixel in the image of camera 0 does, times
    the scale that was given. *)
Theorem C77_rectified : forall eig stale m intr model auto ppa ppe fa fe a0 e0 mg rt0 rt1 r,
  rectified_system eig (lens_pixel_J stale m intr) model auto ppa ppe fa fe a0 e0 mg rt0 rt1 = Rect_ok r ->
  focal_ok (core_of intr) -> focal_ok (r_core r) -> -90 < r_az0_deg r < 90 -> -90 < e0 < 90 ->
  let cam0 v := mv (Rt_R (Rt_from_rt rt0)) (mv (mT (Rt_R (r_Rt_rect0_ref r))) v) in
  let az0 := r_az0_deg r in
  lens_smooth m intr (cam0 (rect_ray model az0 e0)) ->
  exists ga ge pa pe,
    moves2 (fun s => lens_pixel m intr (cam0 (rect_ray model (az0 + s) e0))) 0 ga /\
    moves2 (fun s => lens_pixel m intr (cam0 (rect_ray model az0 (e0 + s)))) 0 ge /\
    moves2 (fun s => project_rect model (r_core r) (rect_ray model (az0 + s) e0)) 0 (P2 pa 0) /\
    moves2 (fun s => project_rect model (r_core r) (rect_ray model az0 (e0 + s))) 0 (P2 0 pe) /\
    match model with
    | LATLON => fa * pa = IZR (r_Naz r) /\ fe * pe = IZR (r_Nel r) /\
        Rabs (pa - wanted ppa (speed ga)) <= 1 / (2 * fa) /\ Rabs (pe - wanted ppe (speed ge)) <= 1 / (2 * fe)
    | _ => pa = wanted ppa (speed ga) /\ pe = wanted ppe (speed ge)
    end.
Proof.
  intros eig stale m intr model auto ppa ppe fa fe a0 e0 mg rt0 rt1 r H HF HR Ha He cam0 az0 Sm.
  destruct (rectified_system_inv _ _ _ _ _ _ _ _ _ _ _ _ _ _ H) as (ax & az & Ea & Ca & _ & EP & _ & _ & Fa & Fe & HM).
  pose proof (choose_az0_rad _ _ _ _ _ _ _ _ Ca) as Ra. fold az0 in Ra, HM, Ha. change (az0 * PI / 180) with (rad az0) in Ra. subst az.
  pose proof (rectified_axes_spec _ _ _ Ea) as Sx. destruct Sx as [S1 _ _ _ _ _].
  assert (forall v, cam0 v = mv (invert_R (ax_R ax)) v) as Ecam.
  { intro v. unfold cam0. rewrite EP. cbn [compose_Rt2 Rt_R]. rewrite mul_RR_mm.
    assert (is_rot (Rt_R (Rt_from_rt rt0))) as RA by apply R_from_r_rot.
    rewrite mT_mm, mv_mm, rot_mv_mT by exact RA. reflexivity. }
  pose proof (rad_cos az0 Ha) as Cz. pose proof (rad_cos e0 He) as Ce. pose proof PI_RGT_0 as HP.
  assert (model = LATLON \/ cos (rad az0) <> 0 /\ cos (rad e0) <> 0) as HC by (right; lra).
  rewrite Ecam in Sm. destruct (C77_resolution stale m intr model ppa ppe fa fe az0 e0 (invert_R (ax_R ax)) ltac:(lra) ltac:(lra) HF HC Sm) as (ga & ge & Ga & Ge & HW).
  destruct (rectified_resolution (lens_pixel_J stale m intr) model ppa ppe fa fe az0 e0 (invert_R (ax_R ax))) as [pa pe] eqn:Er.
  exists ga, ge, pa, pe.
  split; [destruct Ga as [G1 G2]; split; (eapply is_derive_ext; [|first [exact G1|exact G2]]); intro s; cbv beta; now rewrite Ecam|].
  split; [destruct Ge as [G1 G2]; split; (eapply is_derive_ext; [|first [exact G1|exact G2]]); intro s; cbv beta; now rewrite Ecam|].
  pose proof (rect_rate_az model (r_core r) az0 e0 Ha He HR) as Ma. pose proof (rect_rate_el model (r_core r) az0 e0 Ha He HR) as Me.
  cbv zeta in HM. change (e0 * PI / 180) with (rad e0) in HM.
  destruct model; [| |contradiction].
  - destruct HM as (EN & EM & Ec). pose proof (f_equal fx Ec) as Efx. pose proof (f_equal fy Ec) as Efy. cbn [fx fy] in Efx, Efy. rewrite Efx in Ma. rewrite Efy in Me.
    replace (pa / PI * 180 * (PI / 180)) with pa in Ma by (field; lra). replace (pe / PI * 180 * (PI / 180)) with pe in Me by (field; lra).
    split; [exact Ma|]. split; [exact Me|]. destruct HW as (Na & Ne & W1 & W2 & W3 & W4).
    rewrite EN, EM, W1, W2, !round_away_IZR. split; [reflexivity|]. split; [reflexivity|].
    split; [replace (pa - wanted ppa (speed ga)) with ((IZR Na - fa * wanted ppa (speed ga)) / fa) by (rewrite <- W1; field; lra)
           |replace (pe - wanted ppe (speed ge)) with ((IZR Ne - fe * wanted ppe (speed ge)) / fe) by (rewrite <- W2; field; lra)];
      unfold Rdiv at 1; rewrite Rabs_mult, (Rabs_right (/ _)) by (apply Rle_ge, Rlt_le, Rinv_0_lt_compat; lra).
    + replace (1 / (2 * fa)) with (1 / 2 * / fa) by (field; lra). apply Rmult_le_compat_r; [apply Rlt_le, Rinv_0_lt_compat; lra|exact W3].
    + replace (1 / (2 * fe)) with (1 / 2 * / fe) by (field; lra). apply Rmult_le_compat_r; [apply Rlt_le, Rinv_0_lt_compat; lra|exact W4].
  - destruct HM as (x & y & Ec & _). pose proof (f_equal fx Ec) as Efx. pose proof (f_equal fy Ec) as Efy. cbn [fx fy] in Efx, Efy. rewrite Efx in Ma. rewrite Efy in Me.
    replace (pa / PI * 180 * (cos (rad az0) * cos (rad az0)) * (PI / 180 * / (cos (rad az0) * cos (rad az0)))) with pa in Ma by (field; lra).
    replace (pe / PI * 180 * (cos (rad e0) * cos (rad e0)) * (PI / 180 * / (cos (rad e0) * cos (rad e0)))) with pe in Me by (field; lra).
    split; [exact Ma|]. split; [exact Me|]. exact HW.
Qed.
(** two parallel cameras, 1800/pi pixels (10 pixels per degree): asked for half of the resolution *)
Definition intr_ex (i : nat) : R := match i with 0%nat | 1%nat => 1800 / PI | 2%nat => 400 | _ => 300 end.
Example C77_example : exists r,
  rectified_system (fun _ _ _ _ => None) (lens_pixel_J (J23 v0 v0) M_Lens.PINHOLE intr_ex) LATLON true (-1 / 2) (-1 / 2) 90 60 0 0 10 (mkrt v0 v0) (mkrt v0 (V3 (-1) 0 0)) = Rect_ok r /\
  r_Naz r = 450%Z /\ r_Nel r = 300%Z /\ r_az0_deg r = 0 /\ focal_ok (core_of intr_ex) /\ focal_ok (r_core r) /\
  lens_smooth M_Lens.PINHOLE intr_ex (mv (Rt_R (Rt_from_rt (mkrt v0 v0))) (mv (mT (Rt_R (r_Rt_rect0_ref r))) (rect_ray LATLON 0 0))).
Proof.
  pose proof PI_RGT_0 as HP.
  unfold rectified_system. destruct (Req_EM_T (-1 / 2) 0); [exfalso; lra|]. destruct (Rle_dec 90 0); [exfalso; lra|]. destruct (Rle_dec 60 0); [exfalso; lra|].
  rewrite axes_example. cbn [ax_proj ax_forward01 ax_R ax_baseline].
  assert (choose_az0 true 10 0 90 0 (V3 0 0 2) = Some (0, 0)) as Ec.
  { unfold choose_az0. cbn [vx vy vz]. replace (0 / sqrt (0 * 0 + 0 * 0 + 2 * 2)) with 0 by (unfold Rdiv; ring). rewrite asin_0.
    replace (0 * 180 / PI) with 0 by (unfold Rdiv; ring). destruct (Rgt_dec _ _); [|exfalso; lra]. destruct (Rlt_dec _ _); [reflexivity|exfalso; lra]. }
  rewrite Ec.
  assert (0 < 1800 / PI) as F0 by (apply Rdiv_lt_0_compat; lra).
  assert (rectified_resolution (lens_pixel_J (J23 v0 v0) M_Lens.PINHOLE intr_ex) LATLON (-1 / 2) (-1 / 2) 90 60 0 0 (invert_R I3) = (5, 5)) as Er.
  { unfold rectified_resolution, center_vector, unproject_latlon, unproject_latlon_J. replace (0 * PI / 180) with 0 by field. cbn [px py fx fy cx cy dvx dvy dvz].
    replace ((0 - 0) * (1 / 1)) with 0 by field. rewrite sin_0, cos_0.
    unfold lens_pixel_J, rotate_point_R, mul_Rv, invert_R, swap_strides, I3, project_pinhole_J, core_of, intr_ex. cbv zeta. cbn [vx vy vz m00 m01 m02 m10 m11 m12 m20 m21 m22 dqx dqy px py fx fy cx cy].
    destruct (Rlt_dec (-1 / 2) 0); [|exfalso; lra].
    match goal with |- (IZR (round_away (90 * (_ * - (sqrt ?x * PI / 180)))) / 90, IZR (round_away (60 * (_ * - (sqrt ?y * PI / 180)))) / 60) = _ =>
      replace x with ((1800 / PI) * (1800 / PI)) by (field; lra); replace y with ((1800 / PI) * (1800 / PI)) by (field; lra) end.
    rewrite !sqrt_square by lra. replace (90 * (-1 / 2 * - (1800 / PI * PI / 180))) with (IZR 450) by (field; lra). replace (60 * (-1 / 2 * - (1800 / PI * PI / 180))) with (IZR 300) by (field; lra).
    rewrite !round_away_IZR. f_equal; field. }
  rewrite Er. replace (90 * 5) with (IZR 450) by ring. replace (60 * 5) with (IZR 300) by ring. rewrite !round_away_IZR. cbn [Z.eqb].
  eexists. split; [reflexivity|]. cbn [r_Naz r_Nel r_az0_deg r_core r_Rt_rect0_ref].
  split; [reflexivity|]. split; [reflexivity|]. split; [reflexivity|]. split; [unfold focal_ok, core_of, intr_ex; cbn [fx fy]; lra|].
  assert (0 < 5 / PI) by (apply Rdiv_lt_0_compat; lra).
  split; [unfold focal_ok; cbn [fx fy]; lra|].
  assert (mv (Rt_R (Rt_from_rt (mkrt v0 v0))) (mv (mT (Rt_R (compose_Rt2 (mkRt I3 (V3 0 0 0)) (Rt_from_rt (mkrt v0 v0)) false false))) (rect_ray LATLON 0 0)) = V3 0 0 1) as E.
  { cbn [compose_Rt2 Rt_R]. rewrite mul_RR_mm, mT_mm, mv_mm. rewrite rot_mv_mT by apply R_from_r_rot. unfold rect_ray, rad. replace (0 * PI / 180) with 0 by field. rewrite sin_0, cos_0.
    unfold mT, I3, mv, dot. apply v3_eq; cbn [vx vy vz m00 m01 m02 m10 m11 m12 m20 m21 m22]; ring. }
  rewrite E. cbn. lra.
Qed.
Print Assumptions C77_resolution.
Print Assumptions C77_rectified.
