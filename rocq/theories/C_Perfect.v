(** C71: make_perfect_observations() makes the observations that the solve predicts. *)
From Coq Require Import Reals Lra Psatz Lia Arith ZArith Bool List FunctionalExtensionality.
From Verif Require Import S_Vec M_Dual M_Pose P_Pose C_Rodrigues C_RtVec C_Rt M_Project M_Lens M_Layout S_Layout P_Layout M_SplineIdx M_Spline P_Spline C_Spline M_Unproject M_Callback S_Callback M_Pack S_Pack P_Pack C_Pack M_Residuals P_Jacobian C_Jacobian C_Residuals M_Perfect.
Import ListNotations.
Open Scope R_scope.

(** * The calibration object *)
Lemma linspace_grid : forall n i, (0 <= i < n)%Z -> linspace 0 (IZR (n - 1)) n i = IZR i.
Proof.
  intros n i H. unfold linspace. destruct (Z.eqb_spec n 1) as [E|E].
  - assert (i = 0)%Z as -> by lia. reflexivity.
  - assert (IZR (n - 1) <> 0) by (intro Z; apply eq_IZR_R0 in Z; lia). field. assumption.
Qed.
(** The corners lie on a grid in the plane z=0, bent by the parabolas; nowhere by more than the two amounts added up. *)
Theorem C71_ref_object : forall c ix iy, warp_defined c -> (0 <= ix < p_w (c_p c))%Z -> (0 <= iy < p_h (c_p c))%Z ->
  let x := ref_calibration_object (p_w (c_p c)) (p_h (c_p c)) (c_spacing c) (c_warp c) ix iy in
  x = corner c (caller c) ix iy /\
  match c_warp c with Some (x2, y2) => Rabs (vz x) <= Rabs x2 + Rabs y2 | None => vz x = 0 end.
Proof.
  intros c ix iy WD Hx Hy. cbv zeta. unfold ref_calibration_object, corner. rewrite !linspace_grid by assumption. cbn [caller].
  change (0 =? 0)%Z with true. change (1 =? 0)%Z with false. cbv iota zeta.
  destruct WD as [W|[W H]]; [rewrite W; split; [apply v3_eq; cbn [vx vy vz]; ring|reflexivity]|].
  destruct (c_warp c) as [[x2 y2]|]; [|split; [apply v3_eq; cbn [vx vy vz]; ring|reflexivity]]. cbn [fst snd].
  split; [apply v3_eq; cbn [vx vy vz]; unfold bend; ring|]. cbn [vz].
  assert (forall n i, (n <> 1)%Z -> (0 <= i < n)%Z -> let u := IZR i / IZR (n - 1) in 0 <= 4 * u * (1 - u) <= 1) as B.
  { intros n i N Hi. cbv zeta. assert (0 < IZR (n - 1)) as P by (apply IZR_lt; lia).
    assert (0 <= IZR i / IZR (n - 1)) by (apply Rmult_le_pos; [apply IZR_le; lia|left; now apply Rinv_0_lt_compat]).
    assert (IZR i / IZR (n - 1) <= 1). { apply Rmult_le_reg_r with (IZR (n - 1)); [exact P|]. unfold Rdiv. rewrite Rmult_assoc, Rinv_l, Rmult_1_r, Rmult_1_l by lra. apply IZR_le. lia. }
    set (u := IZR i / IZR (n - 1)) in *. clearbody u. pose proof (Rmult_le_pos u (1 - u)). pose proof (pow2_ge_0 (2 * u - 1)). split; [lra|]. lra. }
  pose proof (B _ _ W Hx) as Bx. pose proof (B _ _ H Hy) as By. cbv zeta in Bx, By. set (a := 4 * _ * _) in Bx |- *. set (d := 4 * _ * _) in By |- *.
  rewrite Rplus_0_l. eapply Rle_trans; [apply Rabs_triang|]. rewrite !Rabs_mult, (Rabs_pos_eq a), (Rabs_pos_eq d) by lra.
  pose proof (Rabs_pos x2). pose proof (Rabs_pos y2). nra.
Qed.
Print Assumptions C71_ref_object.

(** * What the solve predicts *)
(** the values that were passed in *)
Lemma cam_caller : forall c i, cam_r (caller c) i = rt_r (c_cam c i) /\ cam_t (caller c) i = rt_t (c_cam c i).
Proof.
  intros c i. unfold cam_r, cam_t, vec_at. rewrite <- !Z.add_assoc. rewrite <- (Z.add_0_r (6 * i)) at 1. cbn [caller]. rewrite !(Z.mul_comm 6), !mod_lin, !div_lin by lia.
  destruct (c_cam c i) as [[? ? ?] [? ? ?]]. split; reflexivity.
Qed.
Lemma frame_caller : forall c i, frame_r (caller c) i = rt_r (c_frame c i) /\ frame_t (caller c) i = rt_t (c_frame c i).
Proof.
  intros c i. unfold frame_r, frame_t, vec_at. rewrite <- !Z.add_assoc. rewrite <- (Z.add_0_r (6 * i)) at 1. cbn [caller]. rewrite !(Z.mul_comm 6), !mod_lin, !div_lin by lia.
  destruct (c_frame c i) as [[? ? ?] [? ? ?]]. split; reflexivity.
Qed.
Lemma point_caller : forall c i, point_xyz (caller c) i = c_point c i.
Proof.
  intros c i. unfold point_xyz, vec_at. rewrite <- (Z.add_0_r (3 * i)) at 1. cbn [caller]. rewrite !(Z.mul_comm 3), !mod_lin, !div_lin by lia. destruct (c_point c i). reflexivity.
Qed.
Lemma pixel_caller : forall c icam y, problem_ok (c_p c) -> splines_ok (p_lens (c_p c)) -> pixel c (caller c) icam y = lens_pixel (p_lens (c_p c)) (c_intr c icam) y.
Proof.
  intros c icam y Hok SO. pose proof (num_params_ge4 _ (proj1 Hok)). unfold pixel. apply lens_pixel_ext; [exact SO|]. intros i Hi. unfold lens_params. cbn [caller].
  rewrite mod_lin, div_lin by lia. now rewrite Nat2Z.id.
Qed.

(** a pose at which R_from_r() is exact (C20) *)
Definition exact_rot (r : v3) : Prop := r = v0 \/ DBL_EPSILON <= norm r.
Definition exact_cam (c : context) (icam : Z) : Prop := (icam < 0)%Z \/ exact_rot (cam_r (caller c) icam).
Lemma glued_action : forall c i x y, problem_ok (c_p c) -> (-1 <= i < p_Nce (c_p c))%Z -> exact_cam c i ->
  in_camera (caller c) i x y <-> y = transform_point_Rt (glued_cam c (i + 1)) x false.
Proof.
  intros c i x y Hok Hi A. rewrite C22_transform_is_action. unfold in_camera, glued_cam, py_index, act. destruct (Z.ltb_spec (i + 1) 0); [lia|].
  destruct (Z.ltb_spec i 0) as [L|L].
  - assert (i = -1)%Z as -> by lia. change (-1 + 1 =? 0)%Z with true. cbv iota. unfold identity_Rt. cbn [Rt_R Rt_t]. fold v0. fold I3. rewrite mv_I.
    assert (vadd x v0 = x) as -> by (apply v3_eq; vunfold; ring). reflexivity.
  - destruct (Z.eqb_spec (i + 1) 0) as [E|E]; [lia|]. replace (i + 1 - 1)%Z with i by lia. destruct A as [A|A]; [lia|]. destruct (cam_caller c i) as [E1 E2]. rewrite E2. cbn [Rt_from_rt Rt_R Rt_t].
    rewrite E1 in *. split; [intros (M & HM & ->); now rewrite (rotvec_unique M _ HM A)|]. intros ->. eexists. split; [now apply rotvec_exists|reflexivity].
Qed.
(** hypothesis_board_corner_positions() gives the corners in the coordinates of the camera: on the board, at the pose of its frame, seen by the camera *)
Theorem C71_corner_positions_partial : forall c o ix iy w y, problem_ok (c_p c) -> warp_defined c -> (0 <= ix < p_w (c_p c))%Z -> (0 <= iy < p_h (c_p c))%Z ->
  (-1 <= bo_icam_e o < p_Nce (c_p c))%Z -> (0 <= bo_iframe o < p_Nframes (c_p c))%Z -> exact_cam c (bo_icam_e o) -> exact_rot (frame_r (caller c) (bo_iframe o)) ->
  on_frame (caller c) (bo_iframe o) (corner c (caller c) ix iy) w -> (in_camera (caller c) (bo_icam_e o) w y <-> y = board_pcam c o ix iy).
Proof.
  intros c o ix iy w y Hok WD Hx Hy Hc Hf AC AF (M & HM & ->). rewrite (glued_action c _ _ y Hok Hc AC). unfold board_pcam. cbv zeta. rewrite (proj1 (C22_compose _ _ _)), !C22_transform_is_action.
  rewrite (proj1 (C71_ref_object c ix iy WD Hx Hy)). unfold py_index. destruct (Z.ltb_spec (bo_iframe o) 0); [lia|]. destruct (frame_caller c (bo_iframe o)) as [E1 E2].
  rewrite (rotvec_unique M _ HM AF), E1, E2. reflexivity.
Qed.
Print Assumptions C71_corner_positions_partial.

(** * Perfect observations *)
(** the cameras of the observations are numbered as documented: -1 is the reference *)
Definition cams_ok (p : problem) : Prop := Forall (fun o => -1 <= bo_icam_e o)%Z (p_boards p) /\ Forall (fun o => -1 <= po_icam_e o)%Z (p_points p).
(** what the observation of the solved geometry is *)
Lemma perfect_cell : forall c iobs ipt o ix iy z, nth_error (p_boards (c_p c)) (Z.to_nat iobs) = Some o -> (0 <= iobs)%Z -> (0 <= ix < p_w (c_p c))%Z -> (0 <= iy < p_h (c_p c))%Z ->
  (ipt = iy * p_w (c_p c) + ix)%Z -> (0 <= bo_icam_i o)%Z ->
  let q := lens_pixel (p_lens (c_p c)) (c_intr c (bo_icam_i o)) (board_pcam c o ix iy) in
  perfect_board c (iobs * (p_w (c_p c) * p_h (c_p c)) + ipt) z = V3 (px q) (py q) (vz z).
Proof.
  intros c iobs ipt o ix iy z E Hi Hx Hy -> Hc. cbv zeta. unfold perfect_board. set (w := p_w (c_p c)) in *. set (h := p_h (c_p c)) in *.
  assert (iobs < Z.of_nat (length (p_boards (c_p c))))%Z as L. { assert (nth_error (p_boards (c_p c)) (Z.to_nat iobs) <> None) as N by congruence. apply nth_error_Some in N. lia. }
  assert (0 <= iy * w + ix < w * h)%Z as B by nia.
  destruct (Z.leb_spec 0 (iobs * (w * h) + (iy * w + ix))); [|nia]. destruct (Z.ltb_spec (iobs * (w * h) + (iy * w + ix)) (Z.of_nat (length (p_boards (c_p c))) * (w * h))); [|nia]. cbn [andb].
  rewrite div_lin, mod_lin, div_lin, mod_lin by lia. rewrite (nth_error_nth _ _ _ E). unfold py_index at 1 2. destruct (Z.ltb_spec (bo_icam_i o) 0); [lia|]. reflexivity.
Qed.

Section Rows.
Variable c : context.
Hypothesis Hok : problem_ok (c_p c).
Hypothesis Hobs : obs_ok (c_p c).
Hypothesis SO : splines_ok (p_lens (c_p c)).
Hypothesis HC : cams_ok (c_p c).
Variable b0 : Z -> R.
Let b := pack_struct (c_p c) (caller c) b0.

Lemma unpacked_caller : unpack_struct (c_p c) b (caller c) = caller c.
Proof. apply functional_extensionality. intro l. now apply C06_pack_unpack_structures_inverse. Qed.

Lemma board_row : forall stale bp pp rows r iobs ipt ixy, warp_defined c ->
  evaluate stale (set_pools c bp pp) b = Some rows -> In r rows -> r_id r = R_board iobs ipt ixy ->
  (forall o, In o (p_boards (c_p c)) -> board_accurate c b (bo_icam_e o) (bo_iframe o)) ->
  let k := (iobs * (p_w (c_p c) * p_h (c_p c)) + ipt)%Z in
  (ixy = 0 \/ ixy = 1)%Z /\ (vz (bp k) < 0 -> r_x r = 0) /\
  (0 <= vz (bp k) -> forall z, r_x r = vz (bp k) * (vget (perfect_board c k z) (Z.to_nat ixy) - vget (bp k) (Z.to_nat ixy))).
Proof.
  intros stale bp pp rows r iobs ipt ixy WD E I EI A k.
  assert (0 <= iobs)%Z as Hi. { pose proof (good_all stale (set_pools c bp pp) b rows E) as G. rewrite Forall_forall in G. destruct (G r I) as (V & _ & _). rewrite EI in V. cbn [valid] in V. lia. }
  destruct (C67_board_partial stale (set_pools c bp pp) b rows r iobs ipt ixy Hok WD Hobs SO E I EI) as (o & ix & iy & EO & Hx & Hy & Ep & Hxy & Out & In').
  cbn [c_p c_bpool set_pools] in *. fold k in Out, In'. split; [exact Hxy|]. split; [exact Out|]. intros P z. pose proof (nth_error_In _ _ EO) as Io.
  destruct (In' P (A o Io)) as (w & y & F & C & X).
  change (caller (set_pools c bp pp)) with (caller c) in *. rewrite unpacked_caller in *.
  destruct Hobs as (HB & _ & _). rewrite Forall_forall in HB. destruct (HB o Io) as (H1 & H2 & H3). destruct HC as [HC' _]. rewrite Forall_forall in HC'. specialize (HC' o Io). cbn beta in HC'.
  specialize (A o Io). unfold board_accurate in A. rewrite unpacked_caller in A.
  assert (exact_rot (frame_r (caller c) (bo_iframe o))) as AF.
  { unfold exact_rot. destruct (_ <? 0)%Z in A; [exact A|]. destruct A as [(_ & A & _)|[[_ A]|[A _]]]; [right; unfold DBL_EPSILON; lra|exact A|now left]. }
  assert (exact_cam c (bo_icam_e o)) as AC.
  { unfold exact_cam, exact_rot. destruct (Z.ltb_spec (bo_icam_e o) 0); [now left|]. right. destruct A as [(A & _ & _)|[[A _]|[_ A]]]; [right; unfold DBL_EPSILON; lra|now left|right; unfold DBL_EPSILON; lra]. }
  change (corner (set_pools c bp pp)) with (corner c) in F.
  apply (C71_corner_positions_partial c o ix iy w y Hok WD Hx Hy (conj HC' H2) H3 AC AF F) in C. subst y. rewrite X.
  change (pixel (set_pools c bp pp)) with (pixel c). rewrite (pixel_caller c _ _ Hok SO). pose proof (perfect_cell c iobs ipt o ix iy z EO Hi Hx Hy Ep (proj1 H1)) as PC. cbv zeta in PC. fold k in PC. rewrite PC.
  destruct Hxy as [-> | ->]; reflexivity.
Qed.
Lemma point_row : forall stale bp pp rows r iobs ixy,
  evaluate stale (set_pools c bp pp) b = Some rows -> In r rows -> r_id r = R_point iobs ixy ->
  (forall o, In o (p_points (c_p c)) -> cam_accurate c b (po_icam_e o)) ->
  (ixy = 0 \/ ixy = 1)%Z /\ (vz (pp iobs) <= 0 -> r_x r = 0) /\
  (0 < vz (pp iobs) -> forall z, r_x r = vz (pp iobs) * (vget (perfect_point c iobs z) (Z.to_nat ixy) - vget (pp iobs) (Z.to_nat ixy))).
Proof.
  intros stale bp pp rows r iobs ixy E I EI A.
  assert (0 <= iobs < Z.of_nat (length (p_points (c_p c))))%Z as Hi. { pose proof (good_all stale (set_pools c bp pp) b rows E) as G. rewrite Forall_forall in G. destruct (G r I) as (V & _ & _). rewrite EI in V. cbn [valid] in V. exact (proj2 V). }
  destruct (C67_point_partial stale (set_pools c bp pp) b rows r iobs ixy Hok Hobs SO E I EI) as (o & EO & Hxy & Out & In').
  cbn [c_p c_ppool set_pools] in *. split; [exact Hxy|]. split; [exact Out|]. intros P z. pose proof (nth_error_In _ _ EO) as Io.
  destruct (In' P (A o Io)) as (y & C & X).
  change (caller (set_pools c bp pp)) with (caller c) in *. rewrite unpacked_caller in *.
  destruct Hobs as (_ & HB & _). rewrite Forall_forall in HB. destruct (HB o Io) as (H1 & H2 & H3). destruct HC as [_ HC']. rewrite Forall_forall in HC'. specialize (HC' o Io). cbn beta in HC'.
  specialize (A o Io). unfold cam_accurate in A. rewrite unpacked_caller in A.
  assert (exact_cam c (po_icam_e o)) as AC. { destruct A as [A|[A|A]]; [now left|right; now left|right; right; unfold DBL_EPSILON; lra]. }
  apply (glued_action c _ _ y Hok (conj HC' H2) AC) in C. rewrite point_caller in C. subst y. rewrite X.
  change (pixel (set_pools c bp pp)) with (pixel c). rewrite (pixel_caller c _ _ Hok SO). unfold perfect_point.
  destruct (Z.leb_spec 0 iobs); [|lia]. destruct (Z.ltb_spec iobs (Z.of_nat (length (p_points (c_p c))))); [|lia]. cbn [andb]. rewrite (nth_error_nth _ _ _ EO).
  unfold point_pcam, py_index. destruct (Z.ltb_spec (po_ipoint o) 0); [lia|]. destruct (Z.ltb_spec (po_icam_i o) 0); [lia|]. destruct Hxy as [-> | ->]; reflexivity.
Qed.
End Rows.

(** If no noise is asked for, the residuals of every board corner and point are 0 at the parameters that were passed in.
    If noise is asked for, the residuals are the noise: the weights are divided out.  Missing: tiny rotations ([board_accurate]). *)
Theorem C71_boards_partial : forall stale c sigma nb np b0 rows r iobs ipt ixy, problem_ok (c_p c) -> warp_defined c -> obs_ok (c_p c) -> splines_ok (p_lens (c_p c)) -> cams_ok (c_p c) ->
  let b := pack_struct (c_p c) (caller c) b0 in
  evaluate stale (make_perfect_observations c sigma nb np) b = Some rows -> In r rows -> r_id r = R_board iobs ipt ixy ->
  (forall o, In o (p_boards (c_p c)) -> board_accurate c b (bo_icam_e o) (bo_iframe o)) ->
  let n := nb (iobs * (p_w (c_p c) * p_h (c_p c)) + ipt)%Z in
  (ixy = 0%Z /\ r_x r = - (sigma * px n)) \/ (ixy = 1%Z /\ r_x r = - (sigma * py n)).
Proof.
  intros stale c sigma nb np b0 rows r iobs ipt ixy Hok WD Hobs SO HC b E I EI A n.
  unfold make_perfect_observations in E. cbv zeta in E. destruct (Req_EM_T sigma 0) as [-> |NS].
  - destruct (board_row c Hok Hobs SO HC b0 stale _ _ rows r iobs ipt ixy WD E I EI A) as (Hxy & Out & In'). cbv zeta in Out, In'. set (k := (iobs * _ + ipt)%Z) in *.
    assert (r_x r = 0) as Z. { destruct (Rlt_dec (vz (perfect_board c k (c_bpool c k))) 0) as [L|L]; [auto|]. rewrite (In' ltac:(lra) (c_bpool c k)). ring. }
    rewrite Z. destruct Hxy; [left|right]; (split; [assumption|ring]).
  - destruct (board_row c Hok Hobs SO HC b0 stale _ _ rows r iobs ipt ixy WD E I EI A) as (Hxy & Out & In'). cbv zeta in Out, In'. fold n in Out, In'. set (k := (iobs * _ + ipt)%Z) in *.
    set (z := perfect_board c k (c_bpool c k)) in *. assert (0 < vz (add_noise sigma n z)) as P by (unfold add_noise; cbn [vz]; destruct (Rle_dec (vz z) 0); lra).
    rewrite (In' (Rlt_le _ _ P) (c_bpool c k)). fold z. revert P. unfold add_noise. cbn [vz]. set (wt := if Rle_dec (vz z) 0 then 1 else vz z). intro P.
    destruct Hxy as [-> | ->]; [left|right]; (split; [reflexivity|]); change (Z.to_nat 0) with 0%nat; change (Z.to_nat 1) with 1%nat; cbn [vget vx vy vz]; field; lra.
Qed.
Print Assumptions C71_boards_partial.

Theorem C71_points_partial : forall stale c sigma nb np b0 rows r iobs ixy, problem_ok (c_p c) -> obs_ok (c_p c) -> splines_ok (p_lens (c_p c)) -> cams_ok (c_p c) ->
  let b := pack_struct (c_p c) (caller c) b0 in
  evaluate stale (make_perfect_observations c sigma nb np) b = Some rows -> In r rows -> r_id r = R_point iobs ixy ->
  (forall o, In o (p_points (c_p c)) -> cam_accurate c b (po_icam_e o)) ->
  (ixy = 0%Z /\ r_x r = - (sigma * px (np iobs))) \/ (ixy = 1%Z /\ r_x r = - (sigma * py (np iobs))).
Proof.
  intros stale c sigma nb np b0 rows r iobs ixy Hok Hobs SO HC b E I EI A.
  unfold make_perfect_observations in E. cbv zeta in E. destruct (Req_EM_T sigma 0) as [-> |NS].
  - destruct (point_row c Hok Hobs SO HC b0 stale _ _ rows r iobs ixy E I EI A) as (Hxy & Out & In').
    assert (r_x r = 0) as Z. { destruct (Rle_dec (vz (perfect_point c iobs (c_ppool c iobs))) 0) as [L|L]; [auto|]. rewrite (In' ltac:(lra) (c_ppool c iobs)). ring. }
    rewrite Z. destruct Hxy; [left|right]; (split; [assumption|ring]).
  - destruct (point_row c Hok Hobs SO HC b0 stale _ _ rows r iobs ixy E I EI A) as (Hxy & Out & In').
    set (z := perfect_point c iobs (c_ppool c iobs)) in *. assert (0 < vz (add_noise sigma (np iobs) z)) as P by (unfold add_noise; cbn [vz]; destruct (Rle_dec (vz z) 0); lra).
    rewrite (In' P (c_ppool c iobs)). fold z. revert P. unfold add_noise. cbn [vz]. set (wt := if Rle_dec (vz z) 0 then 1 else vz z). intro P.
    destruct Hxy as [-> | ->]; [left|right]; (split; [reflexivity|]); change (Z.to_nat 0) with 0%nat; change (Z.to_nat 1) with 1%nat; cbn [vget vx vy vz]; field; lra.
Qed.
Print Assumptions C71_points_partial.

(** Only the observed pixels change; an outlier stays one if no noise is asked for, and an inlier keeps its weight *)
Theorem C71_only_observations : forall c sigma nb np, let c' := make_perfect_observations c sigma nb np in
  c_p c' = c_p c /\ caller c' = caller c /\ c_spacing c' = c_spacing c /\ c_imager c' = c_imager c /\ c_tri_px c' = c_tri_px c /\ (c_warp c' = c_warp c) /\
  (forall k, sigma = 0 \/ 0 < vz (c_bpool c k) -> vz (c_bpool c' k) = vz (c_bpool c k)) /\
  (forall k, sigma = 0 \/ 0 < vz (c_ppool c k) -> vz (c_ppool c' k) = vz (c_ppool c k)).
Proof.
  intros c sigma nb np c'. unfold c', make_perfect_observations. cbv zeta.
  assert (forall k z, vz (perfect_board c k z) = vz z) as B by (intros; unfold perfect_board; cbv zeta; destruct (_ && _); reflexivity).
  assert (forall k z, vz (perfect_point c k z) = vz z) as P by (intros; unfold perfect_point; cbv zeta; destruct (_ && _); reflexivity).
  assert (forall s n z, 0 < vz z -> vz (add_noise s n z) = vz z) as N by (intros s n z H; unfold add_noise; cbn [vz]; destruct (Rle_dec (vz z) 0); lra).
  destruct (Req_EM_T sigma 0) as [Z|Z]; (do 6 (split; [reflexivity|])); cbn [c_bpool c_ppool set_pools]; split; intros k H; auto; (destruct H as [H|H]; [contradiction|]); (rewrite N; [auto|]); rewrite ?B, ?P; exact H.
Qed.
Print Assumptions C71_only_observations.

(** The weights of the outliers: with noise asked for (the default), "weight[weight<=0] = 1" writes into the observations, so an
    observation that the solve had rejected (negative weight) becomes an inlier with weight 1. *)
Definition ex_rejected : context := set_pools ex_c (fun _ => V3 600 600 (-1)) (fun _ => V3 0 0 0).
Theorem C71_outliers_refuted : exists c sigma nb np k, problem_ok (c_p c) /\ obs_ok (c_p c) /\ cams_ok (c_p c) /\ warp_defined c /\ 0 < sigma /\
  vz (c_bpool c k) < 0 /\ vz (c_bpool (make_perfect_observations c sigma nb np) k) = 1.
Proof.
  exists ex_rejected, 1, (fun _ => P2 0 0), (fun _ => P2 0 0), 0%Z. destruct C67_example as (H1 & H2 & H3 & _ & _).
  split; [exact H1|]. split; [exact H3|]. split; [split; repeat constructor; cbn; lia|]. split; [exact H2|]. split; [lra|]. split; [cbn; lra|].
  unfold make_perfect_observations. destruct (Req_EM_T 1 0) as [Z|_]; [lra|]. cbv zeta. cbn [set_pools c_bpool]. unfold add_noise. cbn [vz].
  assert (forall k z, vz (perfect_board ex_rejected k z) = vz z) as B by (intros; unfold perfect_board; cbv zeta; destruct (_ && _); reflexivity).
  rewrite B. cbn [ex_rejected set_pools c_bpool vz]. destruct (Rle_dec (-1) 0); lra.
Qed.
Print Assumptions C71_outliers_refuted.

(** the tilted 2x2 board of C66, at the frame pose (1,1,1,1,1,1) *)
Definition ex_perfect : context :=
  {| c_p := ex_p; c_intr := fun _ _ => 1000; c_cam := fun _ => mkrt (V3 0 0 0) (V3 0 0 0); c_frame := fun _ => mkrt (V3 1 1 1) (V3 1 1 1); c_point := fun _ => V3 0 0 0;
     c_warp := Some (1 / 100, 0); c_imager := fun _ => 1000%Z; c_spacing := 1 / 4; c_bpool := fun _ => V3 600 600 1; c_ppool := fun _ => V3 0 0 0; c_tri_px := fun _ => V3 0 0 0 |}.
Example C71_example : forall b0 nb np, problem_ok (c_p ex_perfect) /\ warp_defined ex_perfect /\ obs_ok (c_p ex_perfect) /\ splines_ok (p_lens (c_p ex_perfect)) /\ cams_ok (c_p ex_perfect) /\
  (forall o, In o (p_boards (c_p ex_perfect)) -> board_accurate ex_perfect (pack_struct (c_p ex_perfect) (caller ex_perfect) b0) (bo_icam_e o) (bo_iframe o)) /\
  exists rows r, evaluate j0 (make_perfect_observations ex_perfect 0 nb np) (pack_struct (c_p ex_perfect) (caller ex_perfect) b0) = Some rows /\ In r rows /\ r_id r = R_board 0 0 0.
Proof.
  intros b0 nb np. destruct C67_example as (H1 & H2 & H3 & H4 & _).
  split; [exact H1|]. split; [right; cbn; lia|]. split; [exact H3|]. split; [exact H4|]. split; [split; repeat constructor; cbn; lia|]. split.
  - intros o [<- |[]]. unfold board_accurate. cbn [bo_icam_e bo_iframe]. change (-1 <? 0)%Z with true. cbv iota. right. rewrite (unpacked_caller ex_perfect H1), (proj1 (frame_caller _ _)). cbn [ex_perfect c_frame rt_r].
    unfold norm, norm2, dot. cbn [vx vy vz]. apply Rle_trans with (sqrt 1); [rewrite sqrt_1; unfold DBL_EPSILON; lra|]. apply sqrt_le_1; lra.
  - unfold make_perfect_observations. destruct (Req_EM_T 0 0) as [_|N]; [|contradiction]. cbv zeta. eexists. set (bb := pack_struct _ _ _). eexists. split; [reflexivity|].
    split.
    + apply in_or_app. left. cbn [c_p set_pools ex_perfect ex_p p_boards boards_rows]. apply in_or_app. left. unfold board_rows. apply in_flat_map. exists 0%Z. split; [change (zrange 0 (p_w ex_p * p_h ex_p)) with [0; 1; 2; 3]%Z; now left|].
      left. reflexivity.
    + match goal with |- r_id (if ?x then _ else _) = _ => destruct x; reflexivity end.
Qed.
