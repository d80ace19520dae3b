(** C67: the residuals are the documented ones, at the parameters that unpacking the state gives. *)
From Coq Require Import Reals Lra Psatz Lia Arith ZArith QArith Qreals Bool List.
From Verif Require Import S_Vec M_Dual M_Pose P_Pose C_Rodrigues C_RtVec C_Rt M_Project M_Lens M_Layout S_Layout P_Layout M_SplineIdx M_Spline P_Spline C_Spline M_OpenCV M_Cahvore M_Splined C_Splined M_Unproject M_Callback S_Callback M_Pack S_Pack P_Pack M_Triangulate M_Residuals C_TriGrad C_TriError P_TriPath P_Jacobian C_Jacobian.
Import ListNotations.
Open Scope R_scope.

(** * Specification *)
(** The caller's structures: one number per scalar.  [caller c]: what was passed to mrcal_optimize(). *)
Definition pose_scalar (x : rt) (k : Z) : R :=
  if (k <? 3)%Z then vget (rt_r x) (Z.to_nat k) else vget (rt_t x) (Z.to_nat (k - 3)).
Definition caller (c : context) : loc -> R := fun l =>
  match l with
  | LIntr i => let N := num_params (p_lens (c_p c)) in c_intr c (i / N)%Z (Z.to_nat (i mod N))
  | LExt i => pose_scalar (c_cam c (i / 6)%Z) (i mod 6)
  | LFrame i => pose_scalar (c_frame c (i / 6)%Z) (i mod 6)
  | LPoint i => vget (c_point c (i / 3)%Z) (Z.to_nat (i mod 3))
  | LWarp i => match c_warp c with Some w => if (i =? 0)%Z then fst w else snd w | None => 0 end
  end.
Section Spec.
  Variable c : context.
  Variable s : loc -> R.    (* some values of the parameters *)
  Let p := c_p c.
  Definition lens_params (icam : Z) (i : nat) : R := s (LIntr (icam * num_params (p_lens p) + Z.of_nat i)).
  Definition vec_at (f : Z -> loc) (i : Z) : v3 := V3 (s (f i)) (s (f (i + 1)%Z)) (s (f (i + 2)%Z)).
  Definition cam_r (i : Z) := vec_at LExt (6 * i). Definition cam_t (i : Z) := vec_at LExt (6 * i + 3).
  Definition frame_r (i : Z) := vec_at LFrame (6 * i). Definition frame_t (i : Z) := vec_at LFrame (6 * i + 3).
  Definition point_xyz (i : Z) := vec_at LPoint (3 * i).
  (** A grid in the plane z=0, bent by a parabola along each axis that vanishes at both ends and has the warp as its middle *)
  Definition bend (u : R) : R := 1 - (2 * u - 1) * (2 * u - 1).
  Definition corner (ix iy : Z) : v3 :=
    V3 (c_spacing c * IZR ix) (c_spacing c * IZR iy)
       (match c_warp c with
        | None => 0
        | Some _ => s (LWarp 0) * bend (IZR ix / IZR (p_w p - 1)) + s (LWarp 1) * bend (IZR iy / IZR (p_h p - 1)) end).
  (** y is x in the coordinates of camera icam (a negative number: the reference coordinates) *)
  Definition in_camera (icam : Z) (x y : v3) : Prop :=
    if (icam <? 0)%Z then y = x else exists M, is_rotvec M (cam_r icam) /\ y = vadd (mv M x) (cam_t icam).
  Definition on_frame (iframe : Z) (x y : v3) : Prop := exists M, is_rotvec M (frame_r iframe) /\ y = vadd (mv M x) (frame_t iframe).
  Definition pixel (icam : Z) (y : v3) : p2 := lens_pixel (p_lens p) (lens_params icam) y.
End Spec.

(** * The parameters the callback uses are those mrcal_unpack_solver_state() would store *)
Section Parameters.
Variable c : context.
Variable b : Z -> R.
Let p := c_p c.
Hypothesis Hok : problem_ok p.
Let s := unpack_struct p b (caller c).

Lemma div_lin : forall i N j, (0 < N -> 0 <= j < N -> (i * N + j) / N = i)%Z.
Proof. intros i N j H1 H2. rewrite Z.add_comm, Z.div_add by lia. rewrite Z.div_small by lia. lia. Qed.
Lemma intr_unpacked : forall icam i, (0 <= icam < p_Nci p)%Z -> (Z.of_nat i < num_params (p_lens p))%Z -> intr_of c b icam i = lens_params c s icam i.
Proof.
  intros icam i Hc Hi. pose proof (num_params_ge4 _ (proj1 Hok)) as G. unfold intr_of, lens_params. fold p.
  assert (s (LIntr (icam * num_params (p_lens p) + Z.of_nat i)) = if (if Nat.ltb i 4 then do_core (p_sel p) else do_dist (p_sel p))
    then b (state_index_intrinsics p icam + (if do_core (p_sel p) then Z.of_nat i else Z.of_nat i - 4))%Z * scale (if Nat.ltb i 2 then S_focal else if Nat.ltb i 4 then S_center else S_dist)
    else c_intr c icam i) as ->.
  { destruct (if Nat.ltb i 4 then do_core (p_sel p) else do_dist (p_sel p)) eqn:D.
    - assert (optimized p (SI_intr icam) /\ (0 <= (if do_core (p_sel p) then Z.of_nat i else Z.of_nat i - 4) < item_size p (SI_intr icam))%Z) as [Ho Hj].
      { cbn [optimized item_size]. destruct (Nat.ltb_spec i 4) as [L|L]; rewrite ?D.
        - split; [tauto|]. destruct (do_dist (p_sel p)); lia.
        - destruct (do_core (p_sel p)); (split; [split; [exact Hc|]|lia]); [now left|right; split; [reflexivity|lia]]. }
      pose proof (unpack_struct_val p Hok b (caller c) (SI_intr icam) _ Ho Hj) as E. cbn [item_loc state_index] in E.
      replace (if do_core (p_sel p) then (if do_core (p_sel p) then Z.of_nat i else Z.of_nat i - 4) else (if do_core (p_sel p) then Z.of_nat i else Z.of_nat i - 4) + 4)%Z with (Z.of_nat i) in E
        by (destruct (do_core (p_sel p)); lia).
      unfold s. rewrite E. f_equal. f_equal. cbn [scale_of]. rewrite mod_lin by lia.
      destruct (Nat.ltb_spec i 2), (Nat.ltb_spec i 4); destruct (Z.ltb_spec (Z.of_nat i) 2); destruct (Z.ltb_spec (Z.of_nat i) 4); try lia; reflexivity.
    - unfold s. rewrite unpack_struct_locked; [|exact Hok|].
      + cbn [caller]. fold p. rewrite mod_lin, div_lin by lia. now rewrite Nat2Z.id.
      + cbn [locked]. rewrite mod_lin by lia. right. destruct (Nat.ltb_spec i 4); [left|right]; (split; [lia|exact D]). }
  unfold has_core. destruct (Nat.ltb_spec i 4) as [L|L].
  - destruct (do_core (p_sel p)); [|reflexivity]. destruct (Nat.ltb_spec i 2); reflexivity.
  - destruct (do_dist (p_sel p)); [|reflexivity]. destruct (Nat.ltb_spec i 2); [lia|]. f_equal. f_equal. destruct (do_core (p_sel p)); cbn [andb]; lia.
Qed.
Lemma cam_unpacked : forall icam, (0 <= icam < p_Nce p)%Z -> cam_of c b icam = mkrt (cam_r s icam) (cam_t s icam).
Proof.
  intros icam Hc. unfold cam_of, cam_r, cam_t, vec_at. fold p.
  assert (forall k, (0 <= k < 6)%Z -> s (LExt (6 * icam + k)) = if do_ext (p_sel p) then b (state_index_extrinsics p icam + k)%Z * scale (if (k <? 3)%Z then S_rot_cam else S_trans_cam)
     else pose_scalar (c_cam c icam) k) as E.
  { intros k Hk. destruct (do_ext (p_sel p)) eqn:D.
    - pose proof (unpack_struct_val p Hok b (caller c) (SI_ext icam) k (conj Hc D) Hk) as U. cbn [item_loc state_index] in U. unfold s. rewrite U. f_equal. f_equal. cbn [scale_of]. now rewrite (Z.mul_comm 6), mod_lin by lia.
    - unfold s. rewrite unpack_struct_locked by (auto; cbn [locked]; now right). cbn [caller]. now rewrite (Z.mul_comm 6), mod_lin, div_lin by lia. }
  rewrite <- !Z.add_assoc. rewrite <- (Z.add_0_r (6 * icam)) at 1. rewrite !E by lia. destruct (do_ext (p_sel p)).
  - unfold three. change (0 <? 3)%Z with true. change (1 <? 3)%Z with true. change (2 <? 3)%Z with true. cbn [Z.add Z.ltb Z.compare Pos.compare Pos.compare_cont]. rewrite Z.add_0_r, <- !Z.add_assoc. reflexivity.
  - destruct (c_cam c icam) as [[? ? ?] [? ? ?]]. reflexivity.
Qed.
Lemma frame_unpacked : forall i, (0 <= i < p_Nframes p)%Z -> frame_of c b i = mkrt (frame_r s i) (frame_t s i).
Proof.
  intros i Hc. unfold frame_of, frame_r, frame_t, vec_at. fold p.
  assert (forall k, (0 <= k < 6)%Z -> s (LFrame (6 * i + k)) = if do_frames (p_sel p) then b (state_index_frames p i + k)%Z * scale (if (k <? 3)%Z then S_rot_frame else S_trans_frame)
     else pose_scalar (c_frame c i) k) as E.
  { intros k Hk. destruct (do_frames (p_sel p)) eqn:D.
    - pose proof (unpack_struct_val p Hok b (caller c) (SI_frame i) k (conj Hc D) Hk) as U. cbn [item_loc state_index] in U. unfold s. rewrite U. f_equal. f_equal. cbn [scale_of]. now rewrite (Z.mul_comm 6), mod_lin by lia.
    - unfold s. rewrite unpack_struct_locked by (auto; cbn [locked]; now right). cbn [caller]. now rewrite (Z.mul_comm 6), mod_lin, div_lin by lia. }
  rewrite <- !Z.add_assoc. rewrite <- (Z.add_0_r (6 * i)) at 1. rewrite !E by lia. destruct (do_frames (p_sel p)).
  - unfold three. change (0 <? 3)%Z with true. change (1 <? 3)%Z with true. change (2 <? 3)%Z with true. cbn [Z.add Z.ltb Z.compare Pos.compare Pos.compare_cont]. rewrite Z.add_0_r, <- !Z.add_assoc. reflexivity.
  - destruct (c_frame c i) as [[? ? ?] [? ? ?]]. reflexivity.
Qed.
Lemma point_unpacked : forall o, (0 <= po_ipoint o < p_Npoints p)%Z -> point_of c b o = point_xyz s (po_ipoint o).
Proof.
  intros o Hc. unfold point_of, point_xyz, vec_at. fold p. set (i := po_ipoint o) in *.
  assert (forall k, (0 <= k < 3)%Z -> s (LPoint (3 * i + k)) = if use_position_from_state p o then b (state_index_points p i + k)%Z * scale S_point else vget (c_point c i) (Z.to_nat k)) as E.
  { intros k Hk. unfold use_position_from_state. fold i. destruct (do_frames (p_sel p)) eqn:D; cbn [andb]; [destruct (Z.ltb_spec i (p_Npoints p - p_Npoints_fixed p)) as [L|L]|].
    - pose proof (unpack_struct_val p Hok b (caller c) (SI_point i) k (conj (conj (proj1 Hc) L) D) Hk) as U. cbn [item_loc state_index] in U. unfold s. now rewrite U.
    - unfold s. rewrite unpack_struct_locked by (auto; cbn [locked]; left; lia). cbn [caller]. now rewrite (Z.mul_comm 3), mod_lin, div_lin by lia.
    - unfold s. rewrite unpack_struct_locked by (auto; cbn [locked]; now right). cbn [caller]. now rewrite (Z.mul_comm 3), mod_lin, div_lin by lia. }
  rewrite <- (Z.add_0_r (3 * i)) at 1. rewrite !E by lia. destruct (use_position_from_state p o).
  - unfold three. now rewrite Z.add_0_r.
  - destruct (c_point c i). reflexivity.
Qed.
Lemma warp_unpacked : p_boards p <> [] -> warp_of c b = option_map (fun _ => (s (LWarp 0), s (LWarp 1))) (c_warp c).
Proof.
  intro NB. unfold warp_of. fold p. destruct (c_warp c) as [w|] eqn:W; [|reflexivity]. cbn [option_map]. f_equal.
  assert (has_warp p = do_warp (p_sel p)) as HW. { unfold has_warp, Nobs_board. destruct (p_boards p); [congruence|]. cbn [length]. destruct (do_warp (p_sel p)); [|reflexivity]. cbn [andb]. apply Z.ltb_lt. lia. }
  rewrite HW. destruct (do_warp (p_sel p)) eqn:D.
  - cbv zeta. unfold s. pose proof (fun k => unpack_struct_val p Hok b (caller c) SI_warp k (conj D NB)) as E. cbn [item_loc item_size state_index] in E. rewrite !E by lia. cbn [scale_of]. now rewrite Z.add_0_r.
  - unfold s. rewrite !unpack_struct_locked by (auto; cbn [locked]; tauto). cbn [caller]. rewrite W. now destruct w.
Qed.
End Parameters.

(** ** a projection reads only the parameters of its own camera *)
Lemma lens_pixel_ext : forall m I I' q, splines_ok m -> (forall i, (Z.of_nat i < num_params m)%Z -> I i = I' i) -> lens_pixel m I q = lens_pixel m I' q.
Proof.
  intros m I I' q SO E.
  assert ((core_of I = core_of I' /\ forall cfg, m <> SPLINED cfg) \/ exists cfg, m = SPLINED cfg) as [[C NS] | [cfg ->]].
  { destruct m; try (left; split; [unfold core_of; rewrite !E by (cbn; lia); reflexivity|discriminate]). right. eauto. }
  2: { cbn [lens_pixel]. destruct SO as [SL SB]. destruct (legal_cases cfg SL) as (O & Lx & Ly & Ex & Ey). cbn [num_params] in E.
    assert (forall k, (k = 0 \/ k = 1)%Z -> surface cfg (fun z => I (Z.to_nat z)) k (sp_ix cfg q) (sp_iy cfg q) = surface cfg (fun z => I' (Z.to_nat z)) k (sp_ix cfg q) (sp_iy cfg q)) as ES.
    { intros k Hk. unfold surface. rewrite !surface_bigsum by auto using coefs_short. unfold bigsum. apply rsum_ext. intros j Hj. f_equal. apply rsum_ext. intros i Hi. f_equal. unfold cpoint. apply E. nia. }
    unfold splined_project, sp_deltau. rewrite !ES by auto. assert (0 < sp_Nx cfg * sp_Ny cfg)%Z by nia. rewrite !E by (cbn; lia). reflexivity. }
  destruct m; cbn [lens_pixel]; rewrite ?C; try reflexivity.
  - unfold opencv_project. rewrite C. unfold ocv_xd, ocv_yd, ocv_cdist, ocv_icdist2, opencv_k. cbn [Nat.ltb Nat.leb Nat.add]. rewrite !E by (cbn; lia). reflexivity.
  - unfold opencv_project. rewrite C. unfold ocv_xd, ocv_yd, ocv_cdist, ocv_icdist2, opencv_k. cbn [Nat.ltb Nat.leb Nat.add]. rewrite !E by (cbn; lia). reflexivity.
  - unfold opencv_project. rewrite C. unfold ocv_xd, ocv_yd, ocv_cdist, ocv_icdist2, opencv_k. cbn [Nat.ltb Nat.leb Nat.add]. rewrite !E by (cbn; lia). reflexivity.
  - unfold opencv_project. rewrite C. unfold ocv_xd, ocv_yd, ocv_cdist, ocv_icdist2, opencv_k. cbn [Nat.ltb Nat.leb Nat.add]. rewrite !E by (cbn; lia). reflexivity.
  - unfold cahvor_project. rewrite C. 
    assert (ca_o I = ca_o I') as EO by (unfold ca_o, ca_al, ca_be; rewrite !E by (cbn; lia); reflexivity).
    assert (ca_mu I q = ca_mu I' q) as EM by (unfold ca_mu, ca_tau, ca_omega_recip, ca_omega, ca_r0, ca_r1, ca_r2; rewrite EO, !E by (cbn; lia); reflexivity).
    assert (ca_distorted I q = ca_distorted I' q) as ED by (unfold ca_distorted, ca_distorted_i, ca_omega; rewrite EO, EM; reflexivity).
    rewrite ED. reflexivity.
  - unfold cahvore_project, cahvore_distorted, cv_distort. cbv zeta. cbn [Nat.add]. rewrite C, !E by (cbn; lia). reflexivity.
  - exfalso. now apply (NS c).
Qed.

(** ** the point in the camera's coordinates *)
(** the accuracy limits of C20, C23: rotations that are tiny but not zero, and compositions within 2e-8 of the identity *)
Definition accurate_pair (rc rf : v3) : Prop :=
  1 / 50000 <= norm rc /\ 1 / 50000 <= norm rf /\ forall Mc Mf, is_rotvec Mc rc -> is_rotvec Mf rf -> trace (mm Mc Mf) <= 4 * ((1 - eps8 * eps8 / 2) * (1 - eps8 * eps8 / 2)) - 1.
Lemma rotvec_unique : forall M r, is_rotvec M r -> r = v0 \/ DBL_EPSILON <= norm r -> M = R_from_r r.
Proof. intros. symmetry. now apply rotvec_R. Qed.
Lemma rotvec_exists : forall r, r = v0 \/ DBL_EPSILON <= norm r -> is_rotvec (R_from_r r) r.
Proof. intros r H. destruct (C20_R_from_r_partial r) as (_ & _ & Z & B & _). split; auto. Qed.
Lemma camera_point_some : forall cam frame pt Mc Mf, is_rotvec Mc (rt_r cam) -> is_rotvec Mf (rt_r frame) ->
  accurate_pair (rt_r cam) (rt_r frame) \/ (rt_r cam = v0 /\ (rt_r frame = v0 \/ DBL_EPSILON <= norm (rt_r frame))) \/ (rt_r frame = v0 /\ 1 / 100000 <= norm (rt_r cam)) ->
  camera_point (Some cam) frame pt = vadd (mv Mc (vadd (mv Mf pt) (rt_t frame))) (rt_t cam).
Proof.
  intros [rc tc] [rf tf] pt Mc Mf Hc Hf A. cbn [rt_r rt_t] in *. unfold camera_point, joint_pose.
  assert (DBL_EPSILON < 1 / 100000) as EP by (unfold DBL_EPSILON; lra).
  destruct A as [(A1 & A2 & A3) | [[-> A] | [-> A]]].
  - pose proof (C23_compose_rt_partial (mkrt rc tc) (mkrt rf tf) false false A1 A2) as (ET & _ & _ & ER). cbv zeta in *. specialize (A3 Mc Mf Hc Hf).
    rewrite (rotvec_unique Mc rc Hc) in * by (right; lra). rewrite (rotvec_unique Mf rf Hf) in * by (right; lra).
    assert (Rt_R (compose_Rt2 (Rt_from_rt (mkrt rc tc)) (Rt_from_rt (mkrt rf tf)) false false) = mm (R_from_r rc) (R_from_r rf)) as EM by (unfold compose_Rt2, Rt_from_rt; cbn [Rt_R rt_r]; apply mul_RR_mm).
    rewrite EM in ER. specialize (ER A3). set (y := compose_rt2 _ _ _ _) in *. apply (f_equal Rt_R) in ER. rewrite EM in ER. unfold Rt_from_rt in ER at 1. cbn [Rt_R] in ER.
    rewrite ER, ET. unfold compose_Rt2, Rt_from_rt. cbn [Rt_R Rt_t rt_r rt_t]. apply v3_eq; unfold vadd, mul_Rv; vunfold; ring.
  - assert (Mc = I3) as -> by (apply Hc; reflexivity). unfold compose_rt2. cbn [rt_r rt_t]. rewrite (proj1 (C23_compose_identity rf)), rot_zero_or_big by (now left). cbn [rt_r rt_t].
    rewrite (R_from_r_tiny v0) by (rewrite norm_v0; apply eps_pos). rewrite (rotvec_unique Mf rf Hf A). apply v3_eq; unfold vadd, mul_Rv; vunfold; ring.
  - assert (Mf = I3) as -> by (apply Hf; reflexivity). unfold compose_rt2. cbn [rt_r rt_t]. rewrite (proj2 (C23_compose_identity rc)), rot_zero_or_big by (now right). cbn [rt_r rt_t].
    rewrite (rotvec_unique Mc rc Hc) by (right; lra). apply v3_eq; unfold vadd, mul_Rv; vunfold; ring.
Qed.
Lemma camera_point_none : forall frame pt Mf, is_rotvec Mf (rt_r frame) -> rt_r frame = v0 \/ DBL_EPSILON <= norm (rt_r frame) ->
  camera_point None frame pt = vadd (mv Mf pt) (rt_t frame).
Proof. intros [rf tf] pt Mf Hf A. cbn [rt_r rt_t] in *. unfold camera_point, joint_pose. cbn [rt_r rt_t]. rewrite (rotvec_unique Mf rf Hf A). reflexivity. Qed.

Section Values.
Variable stale : j23.
Variable c : context.
Variable b : Z -> R.
Let p := c_p c.
Hypothesis Hok : problem_ok p.
Hypothesis Hobs : obs_ok p.
Hypothesis SO : splines_ok (p_lens p).
Let s := unpack_struct p b (caller c).

Lemma pixel_unpacked : forall icam y, (0 <= icam < p_Nci p)%Z -> lens_pixel (p_lens p) (intr_of c b icam) y = pixel c s icam y.
Proof. intros icam y H. unfold pixel. fold p. apply lens_pixel_ext; [exact SO|]. intros i Hi. now apply intr_unpacked. Qed.
Lemma corner_unpacked : forall ipt, p_boards p <> [] -> board_pt c b ipt = corner c s (ipt mod p_w p) (ipt / p_w p).
Proof.
  intros ipt NB. unfold board_pt, board_corner, corner. fold p. rewrite (warp_unpacked c b Hok NB). change (unpack_struct (c_p c) b (caller c)) with s. destruct (c_warp c) as [w|]; cbn [option_map].
  - apply v3_eq; cbv zeta; cbn [vx vy vz board_dz px py]; cbv zeta; cbn [px py]; unfold bend, Rdiv; ring.
  - apply v3_eq; cbn [vx vy vz]; ring.
Qed.
Lemma nth_in_Z : forall {A} (l : list A) i d, (0 <= i < Z.of_nat (length l))%Z -> nth_error l (Z.to_nat i) = Some (nth (Z.to_nat i) l d) /\ In (nth (Z.to_nat i) l d) l.
Proof. intros A l i d H. split; [apply nth_error_nth'; lia|apply nth_In; lia]. Qed.
Lemma project_q : forall intr cam frame pt dz, pr_q (project_one stale (p_lens p) intr cam frame pt dz) = lens_pixel (p_lens p) intr (camera_point cam frame pt).
Proof. intros. unfold project_one. destruct cam; reflexivity. Qed.

(** The rotations at which the pose computations are exact (C20, C23): no tiny ones other than 0, and the joint rotation not
    within 2e-8 of the identity unless one of them is 0 *)
Definition board_accurate (icam iframe : Z) : Prop :=
  if (icam <? 0)%Z then frame_r s iframe = v0 \/ DBL_EPSILON <= norm (frame_r s iframe)
  else accurate_pair (cam_r s icam) (frame_r s iframe) \/ (cam_r s icam = v0 /\ (frame_r s iframe = v0 \/ DBL_EPSILON <= norm (frame_r s iframe))) \/
       (frame_r s iframe = v0 /\ 1 / 100000 <= norm (cam_r s icam)).
Definition cam_accurate (icam : Z) : Prop := (icam < 0)%Z \/ cam_r s icam = v0 \/ 1 / 100000 <= norm (cam_r s icam).

Lemma value_board : forall iobs ipt ixy o, nth_error (p_boards p) (Z.to_nat iobs) = Some o -> board_accurate (bo_icam_e o) (bo_iframe o) ->
  exists w y, on_frame s (bo_iframe o) (corner c s (ipt mod p_w p) (ipt / p_w p)) w /\ in_camera s (bo_icam_e o) w y /\
    board_x stale c b iobs ipt ixy =
      vz (c_bpool c (iobs * (p_w p * p_h p) + ipt)%Z) * (p2get (pixel c s (bo_icam_i o) y) ixy - vget (c_bpool c (iobs * (p_w p * p_h p) + ipt)%Z) (Z.to_nat ixy)).
Proof.
  intros iobs ipt ixy o E A. assert (board_at c iobs = o) as EO by (unfold board_at; fold p; now apply nth_error_nth).
  assert (In o (p_boards p)) as I by (eapply nth_error_In; eauto). destruct Hobs as (HB & _ & _). rewrite Forall_forall in HB. destruct (HB o I) as (H1 & H2 & H3).
  assert (p_boards p <> []) as NB by (intro Z; rewrite Z in I; contradiction).
  unfold board_x, board_proj, feature. cbv zeta. fold p. rewrite EO, project_q, pixel_unpacked by exact H1. rewrite (corner_unpacked ipt NB), (frame_unpacked c b Hok _ H3). change (unpack_struct (c_p c) b (caller c)) with s.
  set (pt := corner c s _ _). unfold board_accurate in A. unfold extr_of, in_camera, on_frame.
  assert (frame_r s (bo_iframe o) = v0 \/ DBL_EPSILON <= norm (frame_r s (bo_iframe o))) as AF.
  { destruct (_ <? 0)%Z in A; [exact A|]. destruct A as [(_ & A & _)|[[_ A]|[A _]]]; [right; unfold DBL_EPSILON; lra|exact A|now left]. }
  destruct (Z.ltb_spec (bo_icam_e o) 0) as [L|L].
  - rewrite (camera_point_none (mkrt (frame_r s (bo_iframe o)) (frame_t s (bo_iframe o))) pt (R_from_r (frame_r s (bo_iframe o)))); [|now apply rotvec_exists|exact AF]. cbn [rt_t].
    eexists. eexists. split; [|split; [reflexivity|apply Rmult_comm]]. eexists. split; [now apply rotvec_exists|reflexivity].
  - rewrite (cam_unpacked c b Hok) by (fold p; lia). change (unpack_struct (c_p c) b (caller c)) with s. set (rc := cam_r s (bo_icam_e o)) in *. set (rf := frame_r s (bo_iframe o)) in *.
    assert (rc = v0 \/ DBL_EPSILON <= norm rc) as AC. { destruct A as [(A & _ & _)|[[A _]|[_ A]]]; [right; unfold DBL_EPSILON; lra|now left|right; unfold DBL_EPSILON; lra]. }
    rewrite (camera_point_some (mkrt rc (cam_t s (bo_icam_e o))) (mkrt rf (frame_t s (bo_iframe o))) pt (R_from_r rc) (R_from_r rf)); [|now apply rotvec_exists|now apply rotvec_exists|exact A]. cbn [rt_t].
    eexists. eexists. split; [|split; [|apply Rmult_comm]]; (eexists; split; [now apply rotvec_exists|reflexivity]).
Qed.
Lemma value_point : forall iobs ixy o, nth_error (p_points p) (Z.to_nat iobs) = Some o -> cam_accurate (po_icam_e o) ->
  exists y, in_camera s (po_icam_e o) (point_xyz s (po_ipoint o)) y /\
    point_x stale c b iobs ixy = vz (c_ppool c iobs) * (p2get (pixel c s (po_icam_i o) y) ixy - vget (c_ppool c iobs) (Z.to_nat ixy)).
Proof.
  intros iobs ixy o E A. assert (point_at c iobs = o) as EO by (unfold point_at; fold p; now apply nth_error_nth).
  assert (In o (p_points p)) as I by (eapply nth_error_In; eauto). destruct Hobs as (_ & HB & _). rewrite Forall_forall in HB. destruct (HB o I) as (H1 & H2 & H3).
  unfold point_x, point_proj. cbv zeta. rewrite EO, project_q, pixel_unpacked by exact H1. unfold point_frame. rewrite (point_unpacked c b Hok _ H3). change (unpack_struct (c_p c) b (caller c)) with s.
  assert (is_rotvec I3 (V3 0 0 0)) as RI. { pose proof (rotvec_exists v0 (or_introl eq_refl)) as X. rewrite R_from_r_tiny in X by (rewrite norm_v0; apply eps_pos). exact X. }
  unfold extr_of, in_camera. destruct (Z.ltb_spec (po_icam_e o) 0) as [L|L].
  - rewrite (camera_point_none (mkrt (V3 0 0 0) (point_xyz s (po_ipoint o))) (V3 0 0 0) I3 RI) by (now left). cbn [rt_t]. eexists. split; [reflexivity|]. rewrite mv_I.
    replace (vadd (V3 0 0 0) (point_xyz s (po_ipoint o))) with (point_xyz s (po_ipoint o)) by (symmetry; apply vadd_0). apply Rmult_comm.
  - rewrite (cam_unpacked c b Hok) by (fold p; lia). change (unpack_struct (c_p c) b (caller c)) with s. set (rc := cam_r s (po_icam_e o)) in *.
    assert (rc = v0 \/ 1 / 100000 <= norm rc) as A' by (destruct A as [A|A]; [lia|exact A]).
    assert (rc = v0 \/ DBL_EPSILON <= norm rc) as AC by (destruct A'; [now left|right; unfold DBL_EPSILON; lra]).
    rewrite (camera_point_some (mkrt rc (cam_t s (po_icam_e o))) (mkrt (V3 0 0 0) (point_xyz s (po_ipoint o))) (V3 0 0 0) (R_from_r rc) I3 (rotvec_exists rc AC) RI).
    2: { cbn [rt_r]. right. destruct A' as [A'|A']; [left; split; [exact A'|now left]|right; split; [reflexivity|exact A']]. }
    cbn [rt_t]. rewrite mv_I. replace (vadd (V3 0 0 0) (point_xyz s (po_ipoint o))) with (point_xyz s (po_ipoint o)) by (symmetry; apply vadd_0).
    eexists. split; [|apply Rmult_comm]. eexists. split; [now apply rotvec_exists|reflexivity].
Qed.

(** ** triangulated points *)
Definition cam_rotation (s : loc -> R) (icam : Z) (M : m33) : Prop := if (icam <? 0)%Z then M = I3 else is_rotvec M (cam_r s icam).
Definition cam_translation (s : loc -> R) (icam : Z) : v3 := if (icam <? 0)%Z then v0 else cam_t s icam.
Lemma value_tri : forall i0 i1 o0 o1, nth_error (p_tri p) (Z.to_nat i0) = Some o0 -> nth_error (p_tri p) (Z.to_nat i1) = Some o1 ->
  cam_accurate (to_icam_e o0) -> cam_accurate (to_icam_e o1) -> (0 <= to_icam_e o0 \/ 0 <= to_icam_e o1)%Z ->
  exists M0 M1, cam_rotation s (to_icam_e o0) M0 /\ cam_rotation s (to_icam_e o1) M1 /\
    tri_x c b i0 i1 = tri_err (c_tri_px c i1) (mv M1 (mv (mT M0) (c_tri_px c i0)))
                              (vadd (mv M1 (vneg (mv (mT M0) (cam_translation s (to_icam_e o0))))) (cam_translation s (to_icam_e o1))).
Proof.
  intros i0 i1 o0 o1 E0 E1 A0 A1 NN. assert (tri_at c i0 = o0) as EO0 by (unfold tri_at; fold p; now apply nth_error_nth). assert (tri_at c i1 = o1) as EO1 by (unfold tri_at; fold p; now apply nth_error_nth).
  destruct Hobs as (_ & _ & HB). rewrite Forall_forall in HB. pose proof (HB o0 (nth_error_In _ _ E0)) as H0. pose proof (HB o1 (nth_error_In _ _ E1)) as H1. cbv beta in H0, H1.
  unfold tri_x, tri_dual, tri_t10, tri_v0_cam1, tri_v0_ref, tri_origin, extr_of. rewrite EO0, EO1. unfold cam_rotation, cam_translation, cam_accurate in *.
  assert (forall icam, (0 <= icam < p_Nce p)%Z -> cam_of c b icam = mkrt (cam_r s icam) (cam_t s icam)) as EC by (intros; now apply cam_unpacked).
  assert (forall r x inv, r = v0 \/ 1 / 100000 <= norm r -> rotate_point_r r x inv = mv (if (inv : bool) then mT (R_from_r r) else R_from_r r) x) as RB by (intros; now apply rot_zero_or_big).
  assert (forall r, r = v0 \/ 1 / 100000 <= norm r -> is_rotvec (R_from_r r) r) as RE by (intros r [H|H]; apply rotvec_exists; [now left|right; unfold DBL_EPSILON; lra]).
  assert (forall v, mv I3 v = v /\ mv (mT I3) v = v) as MI by (intro v; rewrite mT_I, mv_I; auto).
  destruct (Z.ltb_spec (to_icam_e o0) 0) as [L0|L0], (Z.ltb_spec (to_icam_e o1) 0) as [L1|L1]; [lia| | |].
  - destruct A1 as [A1|A1]; [lia|]. rewrite !EC by lia. cbn [rt_r rt_t option_map]. exists I3, (R_from_r (cam_r s (to_icam_e o1))). split; [reflexivity|]. split; [now apply RE|].
    rewrite (tri_error_val _ _ _ _ _ (vars_vv _ 0) (vars_vv _ 3)). rewrite RB by exact A1. rewrite !(proj2 (MI _)). f_equal. apply v3_eq; vunfold; ring.
  - destruct A0 as [A0|A0]; [lia|]. rewrite !EC by lia. cbn [rt_r rt_t option_map]. exists (R_from_r (cam_r s (to_icam_e o0))), I3. split; [now apply RE|]. split; [reflexivity|].
    rewrite (tri_error_val _ _ _ _ _ (vars_vv _ 0) (vars_vv _ 3)). rewrite !RB by exact A0. rewrite !(proj1 (MI _)). f_equal. apply v3_eq; vunfold; ring.
  - destruct A0 as [A0|A0]; [lia|]. destruct A1 as [A1|A1]; [lia|]. rewrite !EC by lia. cbn [rt_r rt_t option_map]. exists (R_from_r (cam_r s (to_icam_e o0))), (R_from_r (cam_r s (to_icam_e o1))).
    split; [now apply RE|]. split; [now apply RE|].
    rewrite (tri_error_val _ _ _ _ _ (vars_vv _ 0) (vars_vv _ 3)). unfold transform_point_rt. cbn [rt_r rt_t]. rewrite !RB by assumption. f_equal.
    set (X := mv (mT _) (cam_t s _)). set (M := R_from_r (cam_r s (to_icam_e o1))). clearbody X M. apply v3_eq; vunfold; ring.
Qed.
End Values.

(** * The theorems *)
(** Every board row is one corner (ix,iy) of one observation; an outlier (negative weight) is 0, and any other is the weight
    times (projection - observation), where the projection is that of the corner of the warped board at the pose of its frame,
    seen by the camera.  All the parameters are those that mrcal_unpack_solver_state() stores.
    Missing: a warped board one corner wide (NaN); rotations at which compose_r() or R_from_r() are not exact ([board_accurate]); off by at most 1e-15 there. *)
Theorem C67_board_partial : forall stale c b rows r iobs ipt ixy, problem_ok (c_p c) -> warp_defined c -> obs_ok (c_p c) -> splines_ok (p_lens (c_p c)) ->
  evaluate stale c b = Some rows -> In r rows -> r_id r = R_board iobs ipt ixy ->
  let s := unpack_struct (c_p c) b (caller c) in
  let z := c_bpool c (iobs * (p_w (c_p c) * p_h (c_p c)) + ipt)%Z in
  exists o ix iy, nth_error (p_boards (c_p c)) (Z.to_nat iobs) = Some o /\ (0 <= ix < p_w (c_p c))%Z /\ (0 <= iy < p_h (c_p c))%Z /\ (ipt = iy * p_w (c_p c) + ix)%Z /\ (ixy = 0 \/ ixy = 1)%Z /\
  (vz z < 0 -> r_x r = 0) /\
  (0 <= vz z -> board_accurate c b (bo_icam_e o) (bo_iframe o) ->
     exists w y, on_frame s (bo_iframe o) (corner c s ix iy) w /\ in_camera s (bo_icam_e o) w y /\
       r_x r = vz z * ((if (ixy =? 0)%Z then px (pixel c s (bo_icam_i o) y) else py (pixel c s (bo_icam_i o) y)) - (if (ixy =? 0)%Z then vx z else vy z))).
Proof.
  intros stale c b rows r iobs ipt ixy Hok _ Hobs SO E I EI s z. pose proof (good_all stale c b rows E) as G. rewrite Forall_forall in G. destruct (G r I) as (V & GI & GO). rewrite EI in V, GI, GO.
  cbn [valid inlier] in *. destruct V as (Hxy & Hi & Hp). unfold Nobs_board in Hi. destruct (nth_in_Z (p_boards (c_p c)) iobs {| bo_icam_i := 0; bo_icam_e := 0; bo_iframe := 0 |}%Z Hi) as [EO _].
  set (o := nth (Z.to_nat iobs) (p_boards (c_p c)) _) in EO. exists o, (ipt mod p_w (c_p c))%Z, (ipt / p_w (c_p c))%Z.
  destruct Hok as (L & N1 & N2 & N3 & N4 & N5 & N6). assert (0 < p_w (c_p c))%Z as W by nia.
  split; [exact EO|]. split; [now apply Z.mod_pos_bound|]. split; [split; [apply Z.div_pos; lia|apply Z.div_lt_upper_bound; lia]|]. split; [rewrite (Z.div_mod ipt (p_w (c_p c))) at 1 by lia; ring|]. split; [exact Hxy|].
  unfold feature in *. fold z in GI, GO. split; [intro N; apply GO; lra|]. intros P A. destruct (GI P) as [EX _].
  destruct (value_board stale c b (conj L (conj N1 (conj N2 (conj N3 (conj N4 (conj N5 N6)))))) Hobs SO iobs ipt ixy o EO A) as (w & y & F & C & X).
  exists w, y. split; [exact F|]. split; [exact C|]. rewrite EX. cbn [row_x]. rewrite X. destruct Hxy as [-> | ->]; reflexivity.
Qed.
Print Assumptions C67_board_partial.

Theorem C67_point_partial : forall stale c b rows r iobs ixy, problem_ok (c_p c) -> obs_ok (c_p c) -> splines_ok (p_lens (c_p c)) ->
  evaluate stale c b = Some rows -> In r rows -> r_id r = R_point iobs ixy ->
  let s := unpack_struct (c_p c) b (caller c) in let z := c_ppool c iobs in
  exists o, nth_error (p_points (c_p c)) (Z.to_nat iobs) = Some o /\ (ixy = 0 \/ ixy = 1)%Z /\
  (vz z <= 0 -> r_x r = 0) /\
  (0 < vz z -> cam_accurate c b (po_icam_e o) ->
     exists y, in_camera s (po_icam_e o) (point_xyz s (po_ipoint o)) y /\
       r_x r = vz z * ((if (ixy =? 0)%Z then px (pixel c s (po_icam_i o) y) else py (pixel c s (po_icam_i o) y)) - (if (ixy =? 0)%Z then vx z else vy z))).
Proof.
  intros stale c b rows r iobs ixy Hok Hobs SO E I EI s z. pose proof (good_all stale c b rows E) as G. rewrite Forall_forall in G. destruct (G r I) as (V & GI & GO). rewrite EI in V, GI, GO.
  cbn [valid inlier] in *. destruct V as (Hxy & Hi). unfold Nobs_point in Hi. destruct (nth_in_Z (p_points (c_p c)) iobs {| po_icam_i := 0; po_icam_e := 0; po_ipoint := 0 |}%Z Hi) as [EO _].
  set (o := nth (Z.to_nat iobs) (p_points (c_p c)) _) in EO. exists o. split; [exact EO|]. split; [exact Hxy|]. fold z in GI, GO. split; [intro N; apply GO; lra|]. intros P A. destruct (GI P) as [EX _].
  destruct (value_point stale c b Hok Hobs SO iobs ixy o EO A) as (y & C & X). exists y. split; [exact C|]. rewrite EX. cbn [row_x]. rewrite X. destruct Hxy as [-> | ->]; reflexivity.
Qed.
Print Assumptions C67_point_partial.

(** A triangulated row compares two observations of one feature by the triangulation residual (C36), with the second camera at
    the origin: the first camera's ray turned into it, and the first camera's position in it.  Missing: both cameras at the
    reference, where the code dereferences NULL. *)
Theorem C67_triangulated_partial : forall stale c b rows r i0 i1, problem_ok (c_p c) -> obs_ok (c_p c) ->
  evaluate stale c b = Some rows -> In r rows -> r_id r = R_tri i0 i1 ->
  let s := unpack_struct (c_p c) b (caller c) in
  exists o0 o1, nth_error (p_tri (c_p c)) (Z.to_nat i0) = Some o0 /\ nth_error (p_tri (c_p c)) (Z.to_nat i1) = Some o1 /\
  (to_outlier o0 = true \/ to_outlier o1 = true -> r_x r = 0) /\
  (to_outlier o0 = false -> to_outlier o1 = false -> cam_accurate c b (to_icam_e o0) -> cam_accurate c b (to_icam_e o1) -> (0 <= to_icam_e o0 \/ 0 <= to_icam_e o1)%Z ->
   exists M0 M1, cam_rotation s (to_icam_e o0) M0 /\ cam_rotation s (to_icam_e o1) M1 /\
     let v0_cam1 := mv M1 (mv (mT M0) (c_tri_px c i0)) in
     let t10 := vadd (mv M1 (vneg (mv (mT M0) (cam_translation s (to_icam_e o0))))) (cam_translation s (to_icam_e o1)) in
     r_x r = tri_err (c_tri_px c i1) v0_cam1 t10).
Proof.
  intros stale c b rows r i0 i1 Hok Hobs E I EI s. pose proof (good_all stale c b rows E) as G. rewrite Forall_forall in G. destruct (G r I) as (V & GI & GO). rewrite EI in V, GI, GO.
  cbn [valid inlier] in *. destruct V as (D & H0 & H1). unfold Nobs_tri in *. set (d := {| to_icam_i := 0; to_icam_e := 0; to_last := true; to_outlier := false |}%Z) in *.
  destruct (nth_in_Z (p_tri (c_p c)) i0 d H0) as [E0 _]. destruct (nth_in_Z (p_tri (c_p c)) i1 d H1) as [E1 _]. change (nth (Z.to_nat i0) (p_tri (c_p c)) d) with (tri_at c i0) in E0. change (nth (Z.to_nat i1) (p_tri (c_p c)) d) with (tri_at c i1) in E1.
  exists (tri_at c i0), (tri_at c i1). split; [exact E0|]. split; [exact E1|]. split; [intro O; apply GO; intros [O0 O1]; destruct O; congruence|].
  intros O0 O1 A0 A1 NN. destruct (GI (conj O0 O1)) as [EX _]. rewrite EX. cbn [row_x]. exact (value_tri c b Hok Hobs i0 i1 _ _ E0 E1 A0 A1 NN).
Qed.
Print Assumptions C67_triangulated_partial.
(** Two observations of one and the same point, in front of both cameras, with rays that are not parallel, have the residual 0 *)
Theorem C67_triangulated_exact : forall stale c b rows r i0 i1 X, problem_ok (c_p c) -> obs_ok (c_p c) ->
  evaluate stale c b = Some rows -> In r rows -> r_id r = R_tri i0 i1 ->
  let s := unpack_struct (c_p c) b (caller c) in
  forall o0 o1 y0 y1 k0 k1, nth_error (p_tri (c_p c)) (Z.to_nat i0) = Some o0 -> nth_error (p_tri (c_p c)) (Z.to_nat i1) = Some o1 ->
  cam_accurate c b (to_icam_e o0) -> cam_accurate c b (to_icam_e o1) -> (0 <= to_icam_e o0 \/ 0 <= to_icam_e o1)%Z ->
  in_camera s (to_icam_e o0) X y0 -> in_camera s (to_icam_e o1) X y1 -> 0 < k0 -> 0 < k1 -> y0 = vscale k0 (c_tri_px c i0) -> y1 = vscale k1 (c_tri_px c i1) ->
  (forall M0 M1, cam_rotation s (to_icam_e o0) M0 -> cam_rotation s (to_icam_e o1) M1 -> cross (c_tri_px c i1) (mv M1 (mv (mT M0) (c_tri_px c i0))) <> v0) ->
  r_x r = 0.
Proof.
  intros stale c b rows r i0 i1 X Hok Hobs E I EI s o0 o1 y0 y1 k0 k1 E0 E1 A0 A1 NN C0 C1 P0 P1 Y0 Y1 NP.
  destruct (C67_triangulated_partial stale c b rows r i0 i1 Hok Hobs E I EI) as (o0' & o1' & E0' & E1' & Out & Val). rewrite E0 in E0'. rewrite E1 in E1'. injection E0' as <-. injection E1' as <-.
  destruct (to_outlier o0) eqn:O0; [apply Out; now left|]. destruct (to_outlier o1) eqn:O1; [apply Out; now right|].
  destruct (Val eq_refl eq_refl A0 A1 NN) as (M0 & M1 & R0 & R1 & EX). cbv zeta in EX. fold s in R0, R1, EX. rewrite EX. clear EX.
  apply C36_zero_on_exact with (P := y1) (k0 := k1) (k1 := k0); [|now apply NP]. split; [exact P1|]. split; [exact P0|]. split; [exact Y1|].
  assert (forall icam M, cam_accurate c b icam -> cam_rotation s icam M -> forall x y, in_camera s icam x y -> y = vadd (mv M x) (cam_translation s icam)) as U.
  { intros icam M A RM x y C. unfold cam_rotation, in_camera, cam_translation, cam_accurate in *. destruct (Z.ltb_spec icam 0) as [L|L]; [subst; rewrite mv_I; vring|].
    destruct C as (M' & RM' & ->). destruct A as [A|A]; [lia|]. change (unpack_struct (c_p c) b (caller c)) with s in A.
    assert (cam_r s icam = v0 \/ DBL_EPSILON <= norm (cam_r s icam)) as A' by (destruct A; [now left|right; unfold DBL_EPSILON; lra]). now rewrite (rotvec_unique M _ RM A'), (rotvec_unique M' _ RM' A'). }
  pose proof (U _ _ A0 R0 _ _ C0) as U0. pose proof (U _ _ A1 R1 _ _ C1) as U1.
  assert (is_rot M0) as RR0. { unfold cam_rotation, cam_accurate in *. destruct (Z.ltb_spec (to_icam_e o0) 0) as [L|L].
    - rewrite R0. rewrite <- (R_from_r_tiny v0) by (rewrite norm_v0; apply eps_pos). apply R_from_r_rot.
    - change (unpack_struct (c_p c) b (caller c)) with s in A0. destruct A0 as [A|A]; [lia|]. rewrite (rotvec_unique M0 _ R0); [apply R_from_r_rot|]. destruct A; [now left|right; unfold DBL_EPSILON; lra]. }
  assert (X = mv (mT M0) (vsub y0 (cam_translation s (to_icam_e o0)))) as EX.
  { rewrite U0. replace (vsub (vadd (mv M0 X) (cam_translation s (to_icam_e o0))) (cam_translation s (to_icam_e o0))) with (mv M0 X) by vring. rewrite <- mv_mm, (proj1 RR0). symmetry. apply mv_I. }
  rewrite U1 at 1. rewrite EX, Y0. set (t0 := cam_translation s (to_icam_e o0)). set (t1 := cam_translation s (to_icam_e o1)). set (q := c_tri_px c i0).
  replace (mv (mT M0) (vsub (vscale k0 q) t0)) with (vadd (vscale k0 (mv (mT M0) q)) (vneg (mv (mT M0) t0))) by vring.
  set (u := mv (mT M0) q). set (w := vneg (mv (mT M0) t0)). clearbody u w t1. clear. vring.
Qed.
Print Assumptions C67_triangulated_exact.

(** The regularization rows, mrcal.c:5703-5950: distortion parameters are pulled to 0, those of the rational denominator of
    OPENCV8, 12 five times harder; the knots of a splined model ten times harder across the direction from the center of the
    grid than along it, except in the center itself; the projection center to the middle of that camera's imager; and the
    first camera's distance from the reference to 1. *)
Theorem C67_regularization : forall stale c b rows r, problem_ok (c_p c) -> evaluate stale c b = Some rows -> In r rows ->
  let s := unpack_struct (c_p c) b (caller c) in
  match r_id r with
  | R_reg_dist icam j =>
      r_x r = (match p_lens (c_p c) with OPENCV8 | OPENCV12 => if Z.leb 5 j && Z.leb j 7 then 1 / 2 else 1 / 10 | _ => 1 / 10 end) * lens_params c s icam (Z.to_nat (4 + j))
  | R_reg_splined icam ivar k =>
      exists cfg ix iy, p_lens (c_p c) = SPLINED cfg /\ (0 <= ix < sp_Nx cfg)%Z /\ (0 <= iy < sp_Ny cfg)%Z /\ ivar = (2 * (iy * sp_Nx cfg + ix))%Z /\
      let dx := lens_params c s icam (Z.to_nat (4 + ivar)) in let dy := lens_params c s icam (Z.to_nat (5 + ivar)) in
      let ox := IZR ix - (IZR (sp_Nx cfg) - 1) / 2 in let oy := IZR iy - (IZR (sp_Ny cfg) - 1) / 2 in
      (ox = 0 /\ oy = 0 -> r_x r = if (k =? 0)%Z then 1 / 100 * dx else - (1 / 100) * dy) /\
      (~ (ox = 0 /\ oy = 0) -> exists ux uy l, ux * ux + uy * uy = 1 /\ 0 < l /\ ox = l * ux /\ oy = l * uy /\
         r_x r = if (k =? 0)%Z then 1 / 100 * (dx * ux + dy * uy) else 1 / 10 * (dx * uy - dy * ux))
  | R_reg_center icam ixy => c_imager c 0 <> 0%Z ->
      IZR (c_imager c 0) * r_x r = lens_params c s icam (Z.to_nat (2 + ixy)) - (IZR (c_imager c (2 * icam + ixy)%Z) - 1) / 2
  | R_unity => r_x r = 10 * (norm2 (cam_t s 0) - 1)
  | _ => True
  end.
Proof.
  intros stale c b rows r Hok E I s. pose proof (good_all stale c b rows E) as G. rewrite Forall_forall in G. destruct (G r I) as (V & GI & _).
  destruct (r_id r) as [| | |icam j|icam ivar k|icam ixy|] eqn:EI; try exact Logic.I; cbn [valid inlier] in *; destruct (GI Logic.I) as [EX _]; rewrite EX; cbn [row_x]; clear EX GI I G E.
  - destruct V as (_ & J0 & Ic & J1 & NS). rewrite (intr_unpacked c b Hok) by lia. f_equal. unfold reg_scale, nominal_pixel_error. destruct (p_lens (c_p c)); try lra; destruct (_ && _); lra.
  - destruct V as (_ & P & Ic & Hk & cfg & ix & iy & EM & Hx & Hy & Ev). exists cfg, ix, iy. split; [exact EM|]. split; [exact Hx|]. split; [exact Hy|]. split; [exact Ev|].
    rewrite EM. unfold reg_splined. replace (ivar / 2)%Z with (iy * sp_Nx cfg + ix)%Z by (rewrite Ev, (Z.mul_comm 2), Z.div_mul by lia; reflexivity).
    replace ((iy * sp_Nx cfg + ix) mod sp_Nx cfg)%Z with ix by (rewrite (Z.add_comm (iy * _)), Z.mod_add, Z.mod_small by lia; reflexivity).
    replace ((iy * sp_Nx cfg + ix) / sp_Nx cfg)%Z with iy by (rewrite (Z.add_comm (iy * _)), Z.div_add, Z.div_small by lia; lia).
    assert (4 + ivar + 1 < num_params (p_lens (c_p c)))%Z as NP by (rewrite EM; cbn [num_params]; nia).
    rewrite !(intr_unpacked c b Hok) by lia. change (unpack_struct (c_p c) b (caller c)) with s. replace (Z.to_nat (4 + ivar + 1)) with (Z.to_nat (5 + ivar)) by lia. cbv zeta.
    set (dx := lens_params _ _ _ _). set (dy := lens_params _ _ _ (Z.to_nat (5 + ivar))). clearbody dx dy.
    set (ox := IZR ix - _). set (oy := IZR iy - _).
    assert (IZR (2 * ix - sp_Nx cfg + 1) = 2 * ox) as E1 by (unfold ox; rewrite plus_IZR, minus_IZR, mult_IZR; lra).
    assert (IZR (2 * iy - sp_Ny cfg + 1) = 2 * oy) as E2 by (unfold oy; rewrite plus_IZR, minus_IZR, mult_IZR; lra).
    assert ((2 * ix =? sp_Nx cfg - 1)%Z && (2 * iy =? sp_Ny cfg - 1)%Z = true <-> ox = 0 /\ oy = 0) as C.
    { rewrite andb_true_iff, !Z.eqb_eq. split; intros [A1 A2].
      - assert (2 * ix - sp_Nx cfg + 1 = 0)%Z as B1 by lia. assert (2 * iy - sp_Ny cfg + 1 = 0)%Z as B2 by lia. rewrite B1 in E1. rewrite B2 in E2. lra.
      - rewrite A1, Rmult_0_r in E1. rewrite A2, Rmult_0_r in E2. apply eq_IZR in E1, E2. lia. }
    unfold reg_dir. rewrite E1, E2. clearbody ox oy. unfold nominal_pixel_error. split.
    + intro Z0. rewrite (proj2 C Z0). destruct Z0 as [-> ->]. cbn [px py]. destruct (k =? 0)%Z; cbn [fst]; lra.
    + intro NZ. destruct (_ && _) eqn:B; [exfalso; now apply NZ, C|].
      assert (0 < 2 * ox * (2 * ox) + 2 * oy * (2 * oy)) as P2. { destruct (Req_dec ox 0) as [->|N]; [destruct (Req_dec oy 0) as [->|N]; [exfalso; auto|]|]; nra. }
      set (mag := sqrt _). assert (0 < mag) as PM by now apply sqrt_lt_R0. assert (mag * mag = 2 * ox * (2 * ox) + 2 * oy * (2 * oy)) as EM2 by (apply sqrt_sqrt; lra). clearbody mag.
      exists (2 * ox / mag), (2 * oy / mag), (mag / 2). split; [|split; [lra|split; [field; lra|split; [field; lra|]]]].
      * replace (2 * ox / mag * (2 * ox / mag) + 2 * oy / mag * (2 * oy / mag)) with ((2 * ox * (2 * ox) + 2 * oy * (2 * oy)) / (mag * mag)) by (field; lra). rewrite EM2. field. lra.
      * cbn [px py]. destruct (k =? 0)%Z; cbn [fst]; lra.
  - destruct V as (_ & Hx & Ic). intro W. unfold reg_center_x, reg_center_scale, nominal_pixel_error.
    assert (4 <= num_params (p_lens (c_p c)))%Z as NP. { destruct Hok as (L & _). destruct (p_lens (c_p c)); cbn [num_params]; try lia. destruct L as (_ & L). unfold u16 in *. nia. }
    rewrite (intr_unpacked c b Hok) by lia. change (unpack_struct (c_p c) b (caller c)) with s. rewrite minus_IZR. rewrite (Z.mul_comm icam 2). apply IZR_neq in W. field. exact W.
  - destruct V as (_ & Hc). unfold unity_x, unity_scale, nominal_pixel_error. rewrite (cam_unpacked c b Hok) by lia. cbn [rt_t]. change (unpack_struct (c_p c) b (caller c)) with s. unfold norm2, dot. lra.
Qed.
Print Assumptions C67_regularization.

(** ** the example of C66: a tilted 2x2 board *)
Example C67_example : problem_ok ex_p /\ warp_defined ex_c /\ obs_ok ex_p /\ splines_ok (p_lens ex_p) /\ board_accurate ex_c (fun _ => 1) (-1) 0.
Proof.
  assert (problem_ok ex_p) as Hok by (repeat split; cbn; try lia).
  split; [exact Hok|]. split; [right; cbn; lia|]. split; [split; [repeat constructor; cbn; lia|split; constructor]|]. split; [exact Logic.I|].
  unfold board_accurate. change (-1 <? 0)%Z with true. cbv iota. right.
  pose proof (frame_unpacked ex_c (fun _ => 1) Hok 0%Z ltac:(cbn; lia)) as F. apply (f_equal rt_r) in F. cbn [rt_r] in F. rewrite <- F. clear F.
  assert (rt_r (frame_of ex_c (fun _ => 1) 0) = V3 (1 * scale S_rot_frame) (1 * scale S_rot_frame) (1 * scale S_rot_frame)) as -> by reflexivity.
  pose proof PI2_3_2. apply Rle_trans with (scale S_rot_frame); [unfold scale, DBL_EPSILON; lra|].
  assert (0 < scale S_rot_frame) by (unfold scale; lra). set (s := scale S_rot_frame) in *. unfold norm, norm2, dot. cbn [vx vy vz].
  apply Rle_trans with (sqrt (s * s)); [rewrite sqrt_square; lra|]. apply sqrt_le_1; nra.
Qed.
(** two quarter turns *)
Example C67_accurate : accurate_pair (V3 (PI / 2) 0 0) (V3 (PI / 2) 0 0).
Proof.
  pose proof PI2_3_2. assert (norm (V3 (PI / 2) 0 0) = PI / 2) as N. { unfold norm, norm2, dot. cbn [vx vy vz]. replace (_ + _ + _) with (PI / 2 * (PI / 2)) by ring. apply sqrt_square. lra. }
  split; [rewrite N; lra|]. split; [rewrite N; lra|]. intros Mc Mf Hc Hf.
  assert (V3 (PI / 2) 0 0 = v0 \/ DBL_EPSILON <= norm (V3 (PI / 2) 0 0)) as A by (right; rewrite N; unfold DBL_EPSILON; lra).
  rewrite (rotvec_unique Mc _ Hc A), (rotvec_unique Mf _ Hf A). rewrite R_from_r_rod by (rewrite N; unfold DBL_EPSILON; lra). rewrite N, sin_PI2, cos_PI2.
  unfold unit. rewrite N. unfold rod, eps8. vunfold. assert (PI / 2 * (1 / (PI / 2)) = 1) as U by (field; lra). rewrite U, Rmult_0_l. lra.
Qed.
