(** C66: the Jacobian given to the optimizer is the exact derivative of the residuals given to the optimizer. *)
From Coq Require Import Reals Lra Psatz Lia Arith ZArith QArith Qreals Bool List.
From Coquelicot Require Import Coquelicot.
From Verif Require Import S_Vec S_Curve S_LensGrad P_Trig M_Dual P_Dual P_DualPath P_Pose M_Pose P_PoseJ P_PoseGrad P_Compose C_PoseGrad P_PathGrad
  M_Project C_Project M_Lens M_Layout M_SplineIdx M_Spline P_Spline C_Spline M_OpenCV M_Cahvore M_Splined M_Unproject
  C_ProjectGrad C_LensGrad C_Splined C_Cahvore C_CahvoreGrad C_Unproject M_Callback M_Pack M_Triangulate P_TriGrad C_TriError C_TriGrad M_Residuals P_Jacobian P_TriPath.
Import ListNotations.
Open Scope R_scope.

(** ** sums over the entries of a row *)
Lemma weighted_app : forall l l' d, weighted (l ++ l') d = weighted l d + weighted l' d.
Proof. induction l as [|[n a] l IH]; intros; cbn [app weighted]; [ring|]. rewrite IH. ring. Qed.
Lemma weighted_entries3 : forall col g s d, weighted (entries3 col g s) d = s * dot g (V3 (d col) (d (col + 1)%Z) (d (col + 2)%Z)).
Proof. intros. unfold entries3, dot. cbn [weighted vx vy vz]. ring. Qed.
Lemma weighted_seq : forall n (col : nat -> Z) (v : nat -> R) w s d, weighted (map (fun i => (col i, v i * w * s)) (seq 0 n)) d = w * tot n (fun i => v i * (d (col i) * s)).
Proof.
  induction n as [|n IH]; intros; [cbn; ring|]. rewrite seq_S, map_app, weighted_app, IH. cbn [Nat.add map weighted tot]. ring.
Qed.
Lemma weighted_map : forall l (f : Z -> Z) w s d g, (forall e, In e l -> g (fst e) = d (f (fst e)) * s) ->
  weighted (map (fun e => (f (fst e), snd e * w * s)) l) d = w * weighted l g.
Proof.
  induction l as [|[n a] l IH]; intros f w s d g H; cbn [map weighted]; [ring|].
  rewrite (IH f w s d g) by (intros e E; apply H; now right). pose proof (H (n, a) (or_introl eq_refl)) as X. cbn [fst snd] in *. rewrite X. ring.
Qed.
Lemma weighted_zero : forall l g, (forall e, In e l -> g (fst e) = 0) -> weighted l g = 0.
Proof. induction l as [|[n a] l IH]; intros g H; cbn [weighted]; [reflexivity|]. rewrite IH; [|intros e E; apply H; now right]. pose proof (H (n, a) (or_introl eq_refl)) as X. cbn [fst] in X. rewrite X. ring. Qed.
Lemma weighted_zeros : forall l d, weighted (map (fun n : Z => (n, 0)) l) d = 0.
Proof. induction l as [|n l IH]; intros d; cbn [map weighted]; [reflexivity|]. rewrite IH. ring. Qed.
Lemma tot_zero : forall n f, (forall i, f i = 0) -> tot n f = 0.
Proof. induction n as [|n IH]; intros f H; cbn [tot]; [reflexivity|]. rewrite IH, H by auto. ring. Qed.
Lemma splined_cols_4 : forall cfg intr q ixy e, splined_ok cfg -> (0 <= ixy)%Z -> In e (splined_entries cfg intr q ixy) -> (4 <= fst e)%Z.
Proof.
  intros cfg intr q ixy e [H HB] I E. destruct (legal_cases cfg H) as (O & Lx & Ly & Ex & Ey).
  unfold splined_entries in E. apply in_flat_map in E. destruct E as (iy & _ & E). apply in_map_iff in E. destruct E as (ix & <- & _). cbn [fst].
  destruct (seg_spec (sp_order cfg) (sp_Nx cfg) (sp_ix cfg q) Lx) as (Ax & _ & _). destruct (seg_spec (sp_order cfg) (sp_Ny cfg) (sp_iy cfg q) Ly) as (Ay & _ & _). cbv zeta in Ax, Ay.
  assert (4 <= ivar0_at cfg (sp_ix cfg q) (sp_iy cfg q))%Z as G. { unfold ivar0_at. assert (1 <= sp_Nx cfg)%Z by lia. nia. }
  assert (0 <= ivar_stridey cfg)%Z by (unfold ivar_stridey; apply Z.mod_pos_bound; lia). nia.
Qed.

(** ** how fast everything moves when the state does: what is not optimized stands still *)
Definition still (c : context) : context :=
  {| c_p := c_p c; c_intr := fun _ _ => 0; c_cam := fun _ => mkrt (V3 0 0 0) (V3 0 0 0); c_frame := fun _ => mkrt (V3 0 0 0) (V3 0 0 0); c_point := fun _ => V3 0 0 0;
     c_warp := option_map (fun _ => (0, 0)) (c_warp c); c_imager := c_imager c; c_spacing := c_spacing c; c_bpool := c_bpool c; c_ppool := c_ppool c; c_tri_px := c_tri_px c |}.
Definition splines_ok (m : lensmodel) : Prop := match m with SPLINED cfg => splined_ok cfg | _ => True end.

Section Path.
Variable stale : j23.
Variable c : context.
Let p := c_p c.
Let m := p_lens p.
Variable B : R -> Z -> R.
Variable t : R.
Variable dB : Z -> R.
Hypothesis DB : forall n, is_derive (fun s => B s n) t (dB n).

Lemma scaled_moves : forall n k, is_derive (fun s => B s n * k) t (dB n * k).
Proof.
  intros n k. pose proof (DB n) as D. set (f := fun s => B s n). change (is_derive f t (dB n)) in D. apply is_derive_ext with (fun s => f s * k); [reflexivity|]. clearbody f.
  destruct (dv _ _ _ D) as [E E']. auto_derive; [auto|]. rewrite E'. ring.
Qed.
Lemma const_moves : forall k, is_derive (fun _ : R => k) t 0.
Proof. intro k. apply (is_derive_const (K := R_AbsRing) (V := R_NormedModule)). Qed.
Lemma intr_moves : forall icam i, is_derive (fun s => intr_of c (B s) icam i) t (intr_of (still c) dB icam i).
Proof.
  intros icam i. unfold intr_of. cbn [c_p still]. destruct (Nat.ltb i 4); [destruct (do_core _)|destruct (do_dist _)]; try apply scaled_moves; apply const_moves.
Qed.
Lemma three_moves : forall iv k, moves3 (fun s => three (B s) iv k) t (three dB iv k).
Proof. intros. unfold three. split; [|split]; cbn [vx vy vz]; apply scaled_moves. Qed.
Lemma cam_moves : forall icam, moves_rt (fun s => cam_of c (B s) icam) t (cam_of (still c) dB icam).
Proof.
  intro icam. unfold cam_of. cbn [c_p still]. destruct (do_ext _); (split; cbn [rt_r rt_t]; [|]); try apply three_moves; cbn [c_cam still rt_r rt_t]; apply moves3_const.
Qed.
Lemma frame_moves : forall i, moves_rt (fun s => frame_of c (B s) i) t (frame_of (still c) dB i).
Proof.
  intro i. unfold frame_of. cbn [c_p still]. destruct (do_frames _); (split; cbn [rt_r rt_t]; [|]); try apply three_moves; cbn [c_frame still rt_r rt_t]; apply moves3_const.
Qed.
Lemma point_moves : forall o, moves3 (fun s => point_of c (B s) o) t (point_of (still c) dB o).
Proof. intro o. unfold point_of. cbn [c_p still]. destruct (use_position_from_state _ _); [apply three_moves|cbn [c_point still]; apply moves3_const]. Qed.

Definition cam_path (icam : Z) : option (R -> rt) := if (icam <? 0)%Z then None else Some (fun s => cam_of c (B s) icam).
Definition cam_rate (icam : Z) : option rt := if (icam <? 0)%Z then None else Some (cam_of (still c) dB icam).
Lemma cam_path_at : forall icam s, extr_of c (B s) icam = option_map (fun C => C s) (cam_path icam).
Proof. intros. unfold extr_of, cam_path. destruct (icam <? 0)%Z; reflexivity. Qed.
Lemma cam_path_moves : forall icam, match cam_path icam, cam_rate icam with Some C, Some dC => moves_rt C t dC | None, None => True | _, _ => False end.
Proof. intro. unfold cam_path, cam_rate. destruct (icam <? 0)%Z; [exact Logic.I|apply cam_moves]. Qed.

Definition warp_vel : R * R := match warp_of (still c) dB with Some w => w | None => (0, 0) end.
Lemma board_pt_moves : forall ipt, moves3 (fun s => board_pt c (B s) ipt) t
  (let dz := board_dz (p_w p) (p_h p) (warp_of c (B t)) (ipt mod p_w p) (ipt / p_w p) in V3 0 0 (px dz * fst warp_vel + py dz * snd warp_vel)).
Proof.
  intro ipt. unfold board_pt, board_corner. fold p. split; [|split]; cbn [vx vy vz]; try apply const_moves.
  unfold warp_vel, warp_of, board_dz. cbn [c_p c_warp still]. fold p. destruct (c_warp c) as [[w0 w1]|]; cbn [option_map].
  - destruct (has_warp p); cbn [fst snd].
    + pose proof (scaled_moves (state_index_warp p) (scale S_warp)) as D0. pose proof (scaled_moves (state_index_warp p + 1) (scale S_warp)) as D1.
      set (f0 := fun s => B s (state_index_warp p) * scale S_warp). set (f1 := fun s => B s (state_index_warp p + 1)%Z * scale S_warp).
      change (is_derive f0 t (dB (state_index_warp p) * scale S_warp)) in D0. change (is_derive f1 t (dB (state_index_warp p + 1)%Z * scale S_warp)) in D1.
      cbn [px py]. set (a := 4 * _ * _). set (b := 4 * _ * _).
      apply is_derive_ext with (fun s => 0 + f0 s * a + f1 s * b); [intro; reflexivity|]. clearbody f0 f1 a b. destruct (dv _ _ _ D0) as [E0 E0'], (dv _ _ _ D1) as [E1 E1']. auto_derive; [auto|].
      rewrite E0', E1'. ring.
    + eapply is_derive_rw; [apply const_moves|]. cbn [px py]. rr. ring.
  - eapply is_derive_rw; [apply const_moves|]. cbn [px py fst snd]. rr. ring.
Qed.

(** ** the entries of a row, in terms of these velocities *)
Lemma intr_entries_rate : forall icam ixy q w, (ixy = 0 \/ ixy = 1)%Z -> splines_ok m ->
  weighted (intr_entries c (B t) icam ixy q w) dB = w * intr_rate m (intr_of c (B t) icam) q ixy (intr_of (still c) dB icam).
Proof.
  intros icam ixy q w Hi SO. unfold intr_entries, intr_rate. fold p. fold m. set (sel := p_sel p). set (iv := state_index_intrinsics p icam).
  set (I := intr_of c (B t) icam). set (dI := intr_of (still c) dB icam). set (fxy := p2get (lens_dfxy m I q) ixy). clearbody fxy.
  set (Nc := (if has_core m && do_core sel then 4 else 0)%Z).
  rewrite weighted_app, !Rmult_plus_distr_l. f_equal.
  - unfold dI, intr_of. cbn [c_p still c_intr]. fold p. fold sel. fold iv.
    destruct Hi as [-> | ->]; [change (Z.to_nat 0) with 0%nat|change (Z.to_nat 1) with 1%nat]; cbn [Nat.add Nat.ltb Nat.leb]; destruct (do_core sel); cbn [weighted];
      try ring; [change (Z.of_nat 0) with 0%Z; change (Z.of_nat 2) with 2%Z; rewrite <- (Z.add_assoc iv 0 2); change (0 + 2)%Z with 2%Z; ring|
        change (Z.of_nat 1) with 1%Z; change (Z.of_nat 3) with 3%Z; rewrite <- (Z.add_assoc iv 1 2); change (1 + 2)%Z with 3%Z; ring].
  - assert (forall n, dI (4 + n)%nat = if do_dist sel then dB (iv + Nc + Z.of_nat n)%Z * scale S_dist else 0) as ED.
    { intro n. unfold dI, intr_of. cbn [c_p still c_intr]. fold p. fold sel. fold iv. change (Nat.ltb (4 + n) 4) with false. cbv iota.
      destruct (do_dist sel); [|reflexivity]. fold m. fold Nc. do 2 f_equal. lia. }
    assert (forall v : nat -> R, weighted (if do_dist sel then map (fun i => ((iv + Nc + Z.of_nat i)%Z, v i * w * scale S_dist)) (seq 0 (Z.to_nat (num_params m - 4))) else []) dB =
      w * tot (Z.to_nat (num_params m - 4)) (fun i => v i * dI (4 + i)%nat)) as Dense.
    { intro v. destruct (do_dist sel).
      - rewrite weighted_seq. f_equal. apply tot_ext. intros i _. now rewrite ED.
      - rewrite tot_zero; [cbn [weighted]; ring|]. intro i. rewrite ED. ring. }
    destruct m eqn:Em; try apply Dense. clear Dense. cbn [splines_ok] in SO.
    assert (forall e, In e (splined_entries c0 (fun z => I (Z.to_nat z)) q ixy) -> 4 <= fst e)%Z as G4. { intros e E. eapply (splined_cols_4 c0 _ q ixy e SO); [lia|exact E]. }
    destruct (do_dist sel).
    + apply (weighted_map _ (fun k => (iv + (k - (if do_core sel then 0 else 4)))%Z)). intros e E. specialize (G4 e E).
      replace (Z.to_nat (fst e)) with (4 + Z.to_nat (fst e - 4))%nat by lia. rewrite ED. do 2 f_equal. rewrite Z2Nat.id by lia. unfold Nc. cbn [has_core andb]. destruct (do_core sel); lia.
    + transitivity 0; [reflexivity|]. rewrite weighted_zero; [ring|]. intros e E. specialize (G4 e E). replace (Z.to_nat (fst e)) with (4 + Z.to_nat (fst e - 4))%nat by lia. apply ED.
Qed.
Lemma dot_v0 : forall g, dot g (V3 0 0 0) = 0. Proof. intro g. unfold dot. cbn [vx vy vz]. ring. Qed.
Lemma extr_entries_rate : forall icam pr ixy w, 
  weighted (if do_ext (p_sel p) then if (0 <=? icam)%Z then
      entries3 (state_index_extrinsics p icam + 0) (jget (pr_rc pr) ixy) (w * scale S_rot_cam) ++ entries3 (state_index_extrinsics p icam + 3) (jget (pr_tc pr) ixy) (w * scale S_trans_cam) else [] else [])%list dB =
  w * match cam_rate icam with Some dC => dot (jget (pr_rc pr) ixy) (rt_r dC) + dot (jget (pr_tc pr) ixy) (rt_t dC) | None => 0 end.
Proof.
  intros icam pr ixy w. unfold cam_rate. rewrite Z.ltb_antisym. destruct (0 <=? icam)%Z; cbn [negb]; [|destruct (do_ext _); cbn [weighted]; ring].
  unfold cam_of. cbn [c_p still c_cam]. fold p. destruct (do_ext (p_sel p)); cbn [rt_r rt_t]; [|rewrite !dot_v0; cbn [weighted]; ring].
  rewrite weighted_app, !weighted_entries3, Z.add_0_r. unfold three, dot. cbn [vx vy vz]. ring.
Qed.
Lemma board_entries_rate : forall iobs ipt ixy, (ixy = 0 \/ ixy = 1)%Z -> splines_ok m ->
  let o := board_at c iobs in let pr := board_proj stale c (B t) iobs ipt in
  weighted (board_entries stale c (B t) iobs ipt ixy) dB = vz (c_bpool c (feature c iobs ipt)) *
   (intr_rate m (intr_of c (B t) (bo_icam_i o)) (board_seen c (B t) iobs ipt) ixy (intr_of (still c) dB (bo_icam_i o)) +
    rows_rate pr (cam_rate (bo_icam_e o)) ixy (frame_of (still c) dB (bo_iframe o)) + warp_rate pr ixy warp_vel).
Proof.
  intros iobs ipt ixy Hi SO o pr. unfold board_entries. cbv zeta. fold o. fold pr. fold p. set (w := vz _).
  rewrite !weighted_app, (intr_entries_rate _ _ _ _ Hi SO), extr_entries_rate.
  assert (weighted (if do_frames (p_sel p) then entries3 (state_index_frames p (bo_iframe o) + 0) (jget (pr_rf pr) ixy) (w * scale S_rot_frame) ++
      entries3 (state_index_frames p (bo_iframe o) + 3) (jget (pr_tf pr) ixy) (w * scale S_trans_frame) else [])%list dB =
    w * (dot (jget (pr_rf pr) ixy) (rt_r (frame_of (still c) dB (bo_iframe o))) + dot (jget (pr_tf pr) ixy) (rt_t (frame_of (still c) dB (bo_iframe o))))) as ->.
  { unfold frame_of. cbn [c_p still c_frame]. fold p. destruct (do_frames (p_sel p)); cbn [rt_r rt_t]; [|rewrite !dot_v0; cbn [weighted]; ring].
    rewrite weighted_app, !weighted_entries3, Z.add_0_r. unfold three, dot. cbn [vx vy vz]. ring. }
  match goal with |- _ + (_ + (_ + ?x)) = _ => assert (x = w * warp_rate pr ixy warp_vel) as -> end.
  { unfold warp_rate. set (d := if (ixy =? 0)%Z then fst (pr_warp pr) else snd (pr_warp pr)).
    assert (c_warp c = None -> px d = 0 /\ py d = 0) as D0.
    { intro E. unfold d, pr, board_proj, project_one, warp_of. rewrite E. unfold board_dz. destruct (extr_of c (B t) _), (ixy =? 0)%Z; cbn [pr_warp fst snd px py]; split; ring. }
    clearbody d. unfold warp_vel, warp_of. cbn [c_p still c_warp]. fold p. destruct (c_warp c) as [ww|]; cbn [option_map].
    - destruct (has_warp p); cbn [weighted fst snd]; [rewrite Z.add_0_r|]; ring.
    - destruct (D0 eq_refl) as [-> ->]. destruct (has_warp p); cbn [weighted fst snd]; ring. }
  unfold rows_rate. ring.
Qed.
Lemma point_entries_rate : forall iobs ixy, (ixy = 0 \/ ixy = 1)%Z -> splines_ok m ->
  let o := point_at c iobs in let pr := point_proj stale c (B t) iobs in
  weighted (point_entries stale c (B t) iobs ixy) dB = vz (c_ppool c iobs) *
   (intr_rate m (intr_of c (B t) (po_icam_i o)) (point_seen c (B t) iobs) ixy (intr_of (still c) dB (po_icam_i o)) +
    rows_rate pr (cam_rate (po_icam_e o)) ixy (mkrt (V3 0 0 0) (point_of (still c) dB o))).
Proof.
  intros iobs ixy Hi SO o pr. unfold point_entries. cbv zeta. fold o. fold pr. fold p. set (w := vz _).
  rewrite !weighted_app, (intr_entries_rate _ _ _ _ Hi SO), extr_entries_rate.
  assert (weighted (if use_position_from_state p o then entries3 (state_index_points p (po_ipoint o)) (jget (pr_tf pr) ixy) (w * scale S_point) else []) dB =
    w * dot (jget (pr_tf pr) ixy) (point_of (still c) dB o)) as ->.
  { unfold point_of. cbn [c_p still c_point]. fold p. destruct (use_position_from_state p o); [|rewrite dot_v0; cbn [weighted]; ring].
    rewrite weighted_entries3. unfold three, dot. cbn [vx vy vz]. ring. }
  unfold rows_rate. cbn [rt_r rt_t]. rewrite dot_v0. ring.
Qed.

(** ** boards and points *)
Lemma project_one_q : forall st l i cam f x dz, pr_q (project_one st l i cam f x dz) = lens_pixel l i (camera_point cam f x).
Proof. intros. unfold project_one. destruct cam; reflexivity. Qed.
Lemma residual_moves : forall (f : R -> R) df a w, is_derive f t df -> is_derive (fun s => (f s - a) * w) t (w * df).
Proof. intros f df a w D. destruct (dv _ _ _ D) as [E E']. auto_derive; [auto|]. rewrite E'. ring. Qed.
Definition board_regular (b : Z -> R) (iobs ipt : Z) : Prop :=
  let o := board_at c iobs in
  seen_regular (extr_of c b (bo_icam_e o)) (frame_of c b (bo_iframe o)) /\ focal_ok (core_of (intr_of c b (bo_icam_i o))) /\
  lens_smooth m (intr_of c b (bo_icam_i o)) (board_seen c b iobs ipt).
Lemma board_row : forall iobs ipt ixy, (ixy = 0 \/ ixy = 1)%Z -> splines_ok m -> board_regular (B t) iobs ipt ->
  is_derive (fun s => board_x stale c (B s) iobs ipt ixy) t (weighted (board_entries stale c (B t) iobs ipt ixy) dB).
Proof.
  intros iobs ipt ixy Hi SO (H1 & H2 & H3). rewrite board_entries_rate by assumption. cbv zeta. set (o := board_at c iobs) in *.
  unfold board_x. apply residual_moves. unfold board_proj. cbv zeta. fold o. fold p. fold m.
  unfold board_seen in *. cbv zeta in H3 |- *. fold o in H3 |- *. rewrite cam_path_at in H1, H3 |- *.
  eapply is_derive_ext; [|exact (project_path stale m (fun s => intr_of c (B s) (bo_icam_i o)) (cam_path (bo_icam_e o)) (fun s => frame_of c (B s) (bo_iframe o)) (fun s => board_pt c (B s) ipt) t
     _ _ _ _ _ warp_vel ixy Hi (intr_moves (bo_icam_i o)) (cam_path_moves (bo_icam_e o)) (frame_moves (bo_iframe o)) (board_pt_moves ipt) eq_refl H1 H2 H3)].
  intro s. cbv beta. rewrite project_one_q, cam_path_at. reflexivity.
Qed.
Definition point_regular_at (b : Z -> R) (iobs : Z) : Prop :=
  let o := point_at c iobs in
  point_regular (extr_of c b (po_icam_e o)) /\ focal_ok (core_of (intr_of c b (po_icam_i o))) /\
  lens_smooth m (intr_of c b (po_icam_i o)) (point_seen c b iobs).
Lemma point_row : forall iobs ixy, (ixy = 0 \/ ixy = 1)%Z -> splines_ok m -> point_regular_at (B t) iobs ->
  is_derive (fun s => point_x stale c (B s) iobs ixy) t (weighted (point_entries stale c (B t) iobs ixy) dB).
Proof.
  intros iobs ixy Hi SO (H1 & H2 & H3). rewrite point_entries_rate by assumption. cbv zeta. set (o := point_at c iobs) in *.
  unfold point_x. apply residual_moves. unfold point_proj. cbv zeta. fold o. fold p. fold m.
  unfold point_seen in *. cbv zeta in H3 |- *. fold o in H3 |- *. rewrite cam_path_at in H1, H3 |- *.
  assert (moves_rt (fun s => point_frame c (B s) o) t (mkrt (V3 0 0 0) (point_of (still c) dB o))) as MF by (split; cbn [rt_r rt_t point_frame]; [apply moves3_const|apply point_moves]).
  eapply is_derive_ext; [|exact (project_point_path stale m (fun s => intr_of c (B s) (po_icam_i o)) (cam_path (po_icam_e o)) (fun s => point_frame c (B s) o) t
     _ _ _ ixy Hi (intr_moves (po_icam_i o)) (cam_path_moves (po_icam_e o)) MF eq_refl H1 H2 H3)].
  intro s. cbv beta. rewrite project_one_q, cam_path_at. reflexivity.
Qed.

(** ** regularization *)
Lemma reg_dist_row : forall icam j, do_dist (p_sel p) = true -> (0 <= j)%Z ->
  is_derive (fun s => row_x stale c (B s) (R_reg_dist icam j)) t (weighted (row_entries stale c (B t) (R_reg_dist icam j)) dB).
Proof.
  intros icam j D J. cbn [row_x row_entries]. fold p. fold m.
  eapply is_derive_rw; [apply is_derive_scal; apply intr_moves|]. cbn [weighted]. unfold intr_of. cbn [c_p still c_intr]. fold p. fold m.
  replace (Z.to_nat (4 + j)) with (4 + Z.to_nat j)%nat by lia. change (Nat.ltb (4 + Z.to_nat j) 4) with false. cbv iota. rewrite D.
  replace (Z.of_nat (4 + Z.to_nat j) - 4)%Z with j by lia. rr. ring.
Qed.
Lemma lin_moves : forall (f g : R -> R) df dg a b k, is_derive f t df -> is_derive g t dg -> is_derive (fun s => k * (f s * a + g s * b)) t (k * (df * a + dg * b)).
Proof. intros f g df dg a b k F G. destruct (dv _ _ _ F) as [E E'], (dv _ _ _ G) as [E1 E1']. auto_derive; [auto|]. rewrite E', E1'. ring. Qed.
Lemma reg_splined_row : forall icam ivar k, do_dist (p_sel p) = true -> (0 <= ivar)%Z ->
  is_derive (fun s => row_x stale c (B s) (R_reg_splined icam ivar k)) t (weighted (row_entries stale c (B t) (R_reg_splined icam ivar k)) dB).
Proof.
  intros icam ivar k D J. cbn [row_x row_entries]. fold p. fold m. destruct m eqn:Em; try (cbn [weighted]; apply const_moves).
  assert (forall n, (0 <= n)%Z -> is_derive (fun s => intr_of c (B s) icam (Z.to_nat (4 + n))) t (dB (state_index_intrinsics p icam + (if has_core (SPLINED c0) && do_core (p_sel p) then 4 else 0) + n)%Z * scale S_dist)) as DI.
  { intros n Hn. eapply is_derive_rw; [apply intr_moves|]. unfold intr_of. cbn [c_p still c_intr]. fold p. fold m. rewrite Em.
    replace (Z.to_nat (4 + n)) with (4 + Z.to_nat n)%nat by lia. change (Nat.ltb (4 + Z.to_nat n) 4) with false. cbv iota. rewrite D.
    replace (Z.of_nat (4 + Z.to_nat n) - 4)%Z with n by lia. reflexivity. }
  pose proof (DI ivar J) as D0. pose proof (DI (ivar + 1)%Z ltac:(lia)) as D1. rewrite !Z.add_assoc in D1. clear DI.
  set (col := (state_index_intrinsics p icam + (if has_core (SPLINED c0) && do_core (p_sel p) then 4 else 0) + ivar)%Z) in *.
  unfold reg_splined. destruct (reg_dir c0 _ _) as [u extra]. destruct (k =? 0)%Z; cbn [fst snd weighted]; rewrite Z.add_0_r.
  - eapply is_derive_rw; [apply (lin_moves _ _ _ _ (px u) (py u) _ D0 D1)|]. rr. ring.
  - eapply is_derive_ext; [|eapply is_derive_rw; [apply (lin_moves _ _ _ _ (py u) (- px u) (nominal_pixel_error / 10 * extra) D0 D1)|]].
    + intro s. cbv beta. rr. ring.
    + rr. ring.
Qed.
Lemma reg_center_row : forall icam ixy, do_core (p_sel p) = true -> (ixy = 0 \/ ixy = 1)%Z ->
  is_derive (fun s => row_x stale c (B s) (R_reg_center icam ixy)) t (weighted (row_entries stale c (B t) (R_reg_center icam ixy)) dB).
Proof.
  intros icam ixy D Hi. cbn [row_x row_entries weighted]. unfold reg_center_x. fold p. pose proof (intr_moves icam (Z.to_nat (2 + ixy))) as M.
  assert (intr_of (still c) dB icam (Z.to_nat (2 + ixy)) = dB (state_index_intrinsics p icam + (2 + ixy))%Z * scale S_center) as E.
  { unfold intr_of. cbn [c_p still c_intr]. fold p. destruct Hi as [-> | ->]; cbn [Z.add]; [change (Z.to_nat 2) with 2%nat|change (Z.to_nat (Z.pos (2 + 1))) with 3%nat]; cbn [Nat.ltb Nat.leb]; rewrite D; reflexivity. }
  rewrite E in M. set (f := fun s => intr_of c (B s) icam (Z.to_nat (2 + ixy))).
  match type of M with is_derive _ _ ?d => change (is_derive f t d) in M end.
  set (k := 1 / 2 * IZR _). clearbody k.
  eapply is_derive_ext; [|eapply is_derive_rw; [apply (residual_moves f _ k (reg_center_scale c) M)|]].
  - intro s. unfold f. cbv beta. rr. ring.
  - rr. ring.
Qed.
Lemma square_moves : forall (f g h : R -> R) df dg dh k, is_derive f t df -> is_derive g t dg -> is_derive h t dh ->
  is_derive (fun s => k * (f s * f s + g s * g s + h s * h s - 1)) t (2 * k * (f t * df + g t * dg + h t * dh)).
Proof.
  intros f g h df dg dh k F G H. destruct (dv _ _ _ F) as [E0 E0'], (dv _ _ _ G) as [E1 E1'], (dv _ _ _ H) as [E2 E2']. auto_derive; [now repeat split|]. rewrite E0', E1', E2'. ring.
Qed.
Lemma unity_row : do_ext (p_sel p) = true ->
  is_derive (fun s => row_x stale c (B s) R_unity) t (weighted (row_entries stale c (B t) R_unity) dB).
Proof.
  intro D. cbn [row_x row_entries weighted]. unfold unity_x. fold p. destruct (cam_moves 0) as [_ (MX & MY & MZ)].
  assert (rt_t (cam_of (still c) dB 0) = three dB (state_index_extrinsics p 0 + 3) S_trans_cam) as E by (unfold cam_of; cbn [c_p still]; fold p; now rewrite D).
  rewrite E in MX, MY, MZ. cbn [three vx vy vz] in MX, MY, MZ. rewrite Z.add_0_r. set (iv := (state_index_extrinsics p 0 + 3)%Z) in *.
  set (f := fun s => vx (rt_t (cam_of c (B s) 0))). set (g := fun s => vy (rt_t (cam_of c (B s) 0))). set (h := fun s => vz (rt_t (cam_of c (B s) 0))).
  change (is_derive f t (dB iv * scale S_trans_cam)) in MX. change (is_derive g t (dB (iv + 1)%Z * scale S_trans_cam)) in MY. change (is_derive h t (dB (iv + 2)%Z * scale S_trans_cam)) in MZ.
  change (vx (rt_t (cam_of c (B t) 0))) with (f t). change (vy (rt_t (cam_of c (B t) 0))) with (g t). change (vz (rt_t (cam_of c (B t) 0))) with (h t).
  eapply is_derive_rw; [exact (square_moves f g h _ _ _ unity_scale MX MY MZ)|]. rr. ring.
Qed.

(** ** triangulated points *)
Definition tri_regular (b : Z -> R) (i0 i1 : Z) : Prop :=
  point_regular (extr_of c b (to_icam_e (tri_at c i0))) /\ point_regular (extr_of c b (to_icam_e (tri_at c i1))) /\
  match tri_t10 c b i0 i1 with Some t10 => pair_regular (c_tri_px c i1) (tri_v0_cam1 c b i0 i1) t10 | None => False end.
Lemma rt_columns : forall icam gr gt, do_ext (p_sel p) = true ->
  weighted (entries3 (state_index_extrinsics p icam + 0) gr (scale S_rot_cam) ++ entries3 (state_index_extrinsics p icam + 3) gt (scale S_trans_cam))%list dB =
  dot gr (rt_r (cam_of (still c) dB icam)) + dot gt (rt_t (cam_of (still c) dB icam)).
Proof.
  intros icam gr gt D. unfold cam_of. cbn [c_p still]. fold p. rewrite D. cbn [rt_r rt_t]. rewrite weighted_app, !weighted_entries3, Z.add_0_r. unfold three, dot. cbn [vx vy vz]. ring.
Qed.
Lemma moves3_neg : forall F d, moves3 F t d -> moves3 (fun s => vscale (-1) (F s)) t (vscale (-1) d).
Proof.
  intros F d (X & Y & Z). assert (forall f df, is_derive f t df -> is_derive (fun s => -1 * f s) t (-1 * df)) as K by (intros; now apply is_derive_scal).
  split; [|split]; cbn [vscale vx vy vz]; [exact (K _ _ X)|exact (K _ _ Y)|exact (K _ _ Z)].
Qed.
Lemma rotJ_first : forall r x inv, rotJ r x inv = (fst (fst (rotJ r x inv)), snd (fst (rotJ r x inv)), snd (rotJ r x inv)).
Proof. intros. destruct (rotJ r x inv) as [[a b] d]. reflexivity. Qed.
Lemma rotate_path : forall A X da dx inv, moves3 A t da -> moves3 X t dx -> norm2_regular (A t) ->
  moves3 (fun s => rotate_point_r (A s) (X s) inv) t (vadd (mv (snd (fst (rotJ (A t) (X t) inv))) da) (mv (snd (rotJ (A t) (X t) inv)) dx)).
Proof. intros A X da dx inv MA MX H. pose proof (rotate_moves A X t da dx inv MA MX H) as K. rewrite rotJ_first in K. exact K. Qed.
Lemma mv_v0 : forall M, mv M (V3 0 0 0) = V3 0 0 0. Proof. intro M. apply v3_eq; unfold mv; cbn [vx vy vz]; ring. Qed.
Lemma dot_vecmat_add : forall a b d, dot (vadd a b) d = dot a d + dot b d. Proof. intros. unfold dot, vadd. cbn [vx vy vz]. ring. Qed.
Lemma dot_scale : forall k a d, dot (vscale k a) d = k * dot a d. Proof. intros. unfold dot, vscale. cbn [vx vy vz]. ring. Qed.
Lemma dot_scale_r : forall k a d, dot a (vscale k d) = k * dot a d. Proof. intros. unfold dot, vscale. cbn [vx vy vz]. ring. Qed.
Lemma vadd_v0_r : forall a, vadd a (V3 0 0 0) = a. Proof. intro a. apply v3_eq; unfold vadd; cbn [vx vy vz]; ring. Qed.

Lemma tri_row : forall i0 i1, do_ext (p_sel p) = true -> tri_regular (B t) i0 i1 ->
  is_derive (fun s => tri_x c (B s) i0 i1) t (weighted (tri_entries c (B t) i0 i1) dB).
Proof.
  intros i0 i1 D (H0 & H1 & H2). unfold tri_regular, tri_x, tri_entries, tri_dual, tri_t10, tri_v0_cam1, tri_v0_ref, tri_origin, extr_of in *.
  set (e0 := to_icam_e (tri_at c i0)) in *. set (e1 := to_icam_e (tri_at c i1)) in *. fold p. set (a := c_tri_px c i1) in *. set (v := c_tri_px c i0) in *.
  destruct (cam_moves e0) as [C0R C0T]. destruct (cam_moves e1) as [C1R C1T].
  destruct (e0 <? 0)%Z eqn:E0, (e1 <? 0)%Z eqn:E1; cbn [option_map point_regular] in *; [contradiction| | |].
  - (* the first camera is the reference *)
    pose proof (rotate_path _ _ _ _ false C1R (moves3_const v t) H1) as MV. cbv beta in MV.
    rewrite (rotJ_first (rt_r (cam_of c (B t) e1)) v false).
    eapply is_derive_rw; [exact (tri_path a _ _ t _ _ MV C1T H2)|].
    rewrite app_nil_l, rt_columns by exact D. unfold dgrad. cbn [Nat.add]. change v0 with (V3 0 0 0). rewrite mv_v0, vadd_v0_r, dot_vecmat. reflexivity.
  - (* the second is *)
    pose proof (rotate_path _ _ _ _ true C0R (moves3_const v t) H0) as MV. cbv beta in MV. pose proof (moves3_neg _ _ (rotate_path _ _ _ _ true C0R C0T H0)) as MT. cbv beta in MT.
    rewrite (rotJ_first (rt_r (cam_of c (B t) e0)) (rt_t (cam_of c (B t) e0)) true), (rotJ_first (rt_r (cam_of c (B t) e0)) v true).
    eapply is_derive_rw; [exact (tri_path a _ _ t _ _ MV MT H2)|].
    rewrite app_nil_r, rt_columns by exact D. unfold dgrad. cbn [Nat.add]. change v0 with (V3 0 0 0). rewrite mv_v0, vadd_v0_r.
    rewrite dot_scale_r, dot_add, dot_vecmat_add, !dot_scale, !dot_vecmat. rr. ring.
  - pose proof (rotate_path _ _ _ _ true C0R (moves3_const v t) H0) as MV. cbv beta in MV. pose proof (moves3_neg _ _ (rotate_path _ _ _ _ true C0R C0T H0)) as MT. cbv beta in MT.
    pose proof (rotate_path _ _ _ _ false C1R MV H1) as MV1. pose proof (moves3_add _ _ _ _ _ (rotate_path _ _ _ _ false C1R MT H1) C1T) as MT1. cbv beta in MV1, MT1.
    rewrite (rotJ_first (rt_r (cam_of c (B t) e0)) (rt_t (cam_of c (B t) e0)) true), (rotJ_first (rt_r (cam_of c (B t) e0)) v true).
    set (vr := rotate_point_r (rt_r (cam_of c (B t) e0)) v true) in *. set (tr := vscale (-1) (rotate_point_r (rt_r (cam_of c (B t) e0)) (rt_t (cam_of c (B t) e0)) true)) in *.
    rewrite (rotJ_first (rt_r (cam_of c (B t) e1)) tr false), (rotJ_first (rt_r (cam_of c (B t) e1)) vr false).
    eapply is_derive_rw; [exact (tri_path a _ _ t _ _ MV1 MT1 H2)|]. fold vr tr.
    change (transform_point_rt (cam_of c (B t) e1) tr false) with (vadd (rotate_point_r (rt_r (cam_of c (B t) e1)) tr false) (rt_t (cam_of c (B t) e1))).
    set (e := triangulated_error dualops _ _ _). clearbody e.
    rewrite weighted_app, !rt_columns by exact D. unfold dgrad. cbn [Nat.add]. change v0 with (V3 0 0 0). rewrite mv_v0, vadd_v0_r. change identity_R with (M33 1 0 0 0 1 0 0 0 1).
    repeat (rewrite ?dot_scale_r, ?dot_add, ?dot_vecmat_add, ?dot_scale, ?dot_vecmat, ?mv_one, ?mv_add).
    assert (forall M k x, mv M (vscale k x) = vscale k (mv M x)) as MS by (intros; apply v3_eq; unfold mv, vscale; cbn [vx vy vz]; ring).
    rewrite !MS. repeat (rewrite ?dot_scale_r, ?dot_add, ?mv_add). rr. ring.
Qed.
End Path.

(** ** which rows there are does not depend on the state *)
Lemma map_flat_map_ext : forall {A X Y} (f : X -> Y) (g h : A -> list X) l, (forall x, map f (g x) = map f (h x)) -> map f (flat_map g l) = map f (flat_map h l).
Proof. intros A X Y f g h l H. induction l as [|x l IH]; cbn; [reflexivity|]. rewrite !map_app, H, IH. reflexivity. Qed.
Section Ids.
  Variables (x1 x2 : rowid -> R) (j1 j2 : rowid -> Z -> R) (sb1 sb2 : Z -> Z -> Z * Z) (sp1 sp2 : Z -> Z * Z).
  Variables (p : problem) (bw pw : Z -> R).
  Lemma ids_boards : forall l iobs ifeat, map r_id (boards_rows 0 is_ge0 x1 j1 sb1 p bw iobs ifeat l) = map r_id (boards_rows 0 is_ge0 x2 j2 sb2 p bw iobs ifeat l).
  Proof.
    induction l as [|o l IH]; intros; cbn [boards_rows]; [reflexivity|]. rewrite !map_app, IH. f_equal. unfold board_rows. apply map_flat_map_ext. intro ipt. cbn [map].
    destruct (is_ge0 _); reflexivity.
  Qed.
  Lemma ids_points : forall l iobs, map r_id (points_rows 0 is_le0 x1 j1 sp1 p pw iobs l) = map r_id (points_rows 0 is_le0 x2 j2 sp2 p pw iobs l).
  Proof. induction l as [|o l IH]; intros; cbn [points_rows]; [reflexivity|]. rewrite !map_app, IH. f_equal. cbn [map]. destruct (is_le0 _); reflexivity. Qed.
  Lemma ids_inner : forall l i0 o0 i1, option_map (map r_id) (tri_inner_rows 0 x1 j1 p i0 o0 i1 l) = option_map (map r_id) (tri_inner_rows 0 x2 j2 p i0 o0 i1 l).
  Proof.
    induction l as [|o l IH]; intros; cbn [tri_inner_rows]; [reflexivity|]. destruct (to_last o).
    - destruct (to_outlier o0), (to_outlier o); reflexivity.
    - specialize (IH i0 o0 (i1 + 1)%Z). destruct (tri_inner_rows 0 x1 j1 p i0 o0 (i1 + 1) l), (tri_inner_rows 0 x2 j2 p i0 o0 (i1 + 1) l); cbn [option_map] in *; try discriminate; [|reflexivity].
      injection IH as IH. cbn [map]. rewrite IH. destruct (to_outlier o0), (to_outlier o); reflexivity.
  Qed.
  Lemma ids_tri : forall l i0, option_map (map r_id) (tri_rows 0 x1 j1 p i0 l) = option_map (map r_id) (tri_rows 0 x2 j2 p i0 l).
  Proof.
    induction l as [|o l IH]; intros; cbn [tri_rows]; [reflexivity|]. destruct (to_last o); [apply IH|]. specialize (IH (i0 + 1)%Z). pose proof (ids_inner l i0 o (i0 + 1)%Z) as K.
    destruct (tri_inner_rows 0 x1 j1 p i0 o (i0 + 1) l), (tri_inner_rows 0 x2 j2 p i0 o (i0 + 1) l); cbn [option_map] in *; try discriminate; [|reflexivity].
    destruct (tri_rows 0 x1 j1 p (i0 + 1) l), (tri_rows 0 x2 j2 p (i0 + 1) l); cbn [option_map] in *; try discriminate; [|reflexivity].
    injection IH as IH. injection K as K. now rewrite !map_app, IH, K.
  Qed.
  Lemma ids_callback : option_map (map r_id) (callback_rows 0 is_ge0 is_le0 x1 j1 sb1 sp1 p bw pw) = option_map (map r_id) (callback_rows 0 is_ge0 is_le0 x2 j2 sb2 sp2 p bw pw).
  Proof.
    unfold callback_rows. assert (option_map (map r_id) (tri_section 0 x1 j1 p) = option_map (map r_id) (tri_section 0 x2 j2 p)) as T.
    { unfold tri_section. destruct (p_tri p) eqn:E; [reflexivity|]. rewrite <- E. destruct (_ && _); [apply ids_tri|reflexivity]. }
    destruct (tri_section 0 x1 j1 p), (tri_section 0 x2 j2 p); cbn [option_map] in *; try discriminate; [|reflexivity]. injection T as T.
    rewrite !map_app, T, (ids_boards _ 0 0), (ids_points _ 0). do 4 f_equal. f_equal; [|f_equal].
    - unfold reg_dist_rows. destruct (_ && _); [|reflexivity]. destruct (p_lens p); try (apply map_flat_map_ext; intro; rewrite !map_map; reflexivity).
      apply map_flat_map_ext. intro. apply map_flat_map_ext. intro. apply map_flat_map_ext. reflexivity.
    - unfold reg_center_rows. destruct (_ && _ && _); [|reflexivity]. apply map_flat_map_ext. reflexivity.
    - unfold unity_rows. destruct (_ && _ && _); reflexivity.
  Qed.
End Ids.

(** ** every row of an evaluation is one of those above *)
Lemma with_values_entries : forall (j : rowid -> Z -> R) id (l : list (Z * R)), (forall k, (k < length l)%nat -> j id (Z.of_nat k) = snd (nth k l (0%Z, 0))) ->
  with_values j id (map fst l) = l.
Proof.
  intros j id l H. unfold with_values. rewrite map_length. apply nth_ext with (d := (0%Z, j id 0%Z)) (d' := (0%Z, 0)).
  - rewrite map_length, combine_length, seq_length, map_length. lia.
  - intros n Hn. rewrite map_length, combine_length, seq_length, map_length in Hn. assert (n < length l)%nat as L by lia.
    change (0%Z, j id 0%Z) with ((fun kc : nat * Z => (snd kc, j id (Z.of_nat (fst kc)))) (0%nat, 0%Z)). rewrite map_nth, combine_nth by (rewrite seq_length, map_length; reflexivity). cbn [fst snd].
    rewrite seq_nth by exact L. cbn [Nat.add]. rewrite H by exact L. change 0%Z with (fst (0%Z, 0)) at 1. rewrite map_nth. now destruct (nth n l (0%Z, 0)).
Qed.
Lemma row_j_entries : forall stale c b id cols, map fst (row_entries stale c b id) = cols -> with_values (row_j stale c b) id cols = row_entries stale c b id.
Proof. intros stale c b id cols <-. apply with_values_entries. intros k _. unfold row_j. now rewrite Nat2Z.id. Qed.

Definition inlier (c : context) (id : rowid) : Prop :=
  match id with
  | R_board iobs ipt _ => 0 <= vz (c_bpool c (feature c iobs ipt))
  | R_point iobs _ => 0 < vz (c_ppool c iobs)
  | R_tri i0 i1 => to_outlier (tri_at c i0) = false /\ to_outlier (tri_at c i1) = false
  | _ => True
  end.
Definition valid (c : context) (id : rowid) : Prop :=
  match id with
  | R_board iobs ipt ixy => (ixy = 0 \/ ixy = 1)%Z /\ (0 <= iobs < Nobs_board (c_p c))%Z /\ (0 <= ipt < p_w (c_p c) * p_h (c_p c))%Z
  | R_point iobs ixy => (ixy = 0 \/ ixy = 1)%Z /\ (0 <= iobs < Nobs_point (c_p c))%Z
  | R_tri i0 i1 => do_ext (p_sel (c_p c)) = true /\ (0 <= i0 < Nobs_tri (c_p c))%Z /\ (0 <= i1 < Nobs_tri (c_p c))%Z
  | R_reg_dist icam j => do_dist (p_sel (c_p c)) = true /\ (0 <= j)%Z /\ (0 <= icam < p_Nci (c_p c))%Z /\ (j < num_params (p_lens (c_p c)) - 4)%Z /\ forall cfg, p_lens (c_p c) <> SPLINED cfg
  | R_reg_splined icam ivar k => do_dist (p_sel (c_p c)) = true /\ (0 <= ivar)%Z /\ (0 <= icam < p_Nci (c_p c))%Z /\ (k = 0 \/ k = 1)%Z /\
      exists cfg ix iy, p_lens (c_p c) = SPLINED cfg /\ (0 <= ix < sp_Nx cfg)%Z /\ (0 <= iy < sp_Ny cfg)%Z /\ ivar = (2 * (iy * sp_Nx cfg + ix))%Z
  | R_reg_center icam ixy => do_core (p_sel (c_p c)) = true /\ (ixy = 0 \/ ixy = 1)%Z /\ (0 <= icam < p_Nci (c_p c))%Z
  | R_unity => do_ext (p_sel (c_p c)) = true /\ (0 < p_Nce (c_p c))%Z
  end.
Definition good (stale : j23) (c : context) (b : Z -> R) (r : @row R) : Prop :=
  valid c (r_id r) /\ (inlier c (r_id r) -> r_x r = row_x stale c b (r_id r) /\ r_j r = row_entries stale c b (r_id r)) /\
  (~ inlier c (r_id r) -> r_x r = 0 /\ exists cols, r_j r = map (fun n => (n, 0)) cols).
Section Good.
Variable stale : j23.
Variable c : context.
Variable b : Z -> R.
Let p := c_p c.
Let m := p_lens p.
Notation Good := (good stale c b).
Lemma good_inlier : forall id cols, valid c id -> inlier c id -> map fst (row_entries stale c b id) = cols -> Good (inlier_row (row_x stale c b) (row_j stale c b) id cols).
Proof. intros id cols V I E. split; [exact V|]. cbn [r_id r_x r_j inlier_row]. split; [|tauto]. intros _. split; [reflexivity|]. now apply row_j_entries. Qed.
Lemma good_outlier : forall id cols, valid c id -> ~ inlier c id -> Good (outlier_row 0 id cols).
Proof. intros id cols V I. split; [exact V|]. cbn [r_id r_x r_j outlier_row]. split; [tauto|]. intros _. split; [reflexivity|]. now exists cols. Qed.
Lemma zrange_3 : forall x, zrange x 3 = [x; (x + 1)%Z; (x + 2)%Z].
Proof. intro x. unfold zrange. change (Z.to_nat 3) with 3%nat. cbn [seq map]. change (Z.of_nat 0) with 0%Z. rewrite Z.add_0_r. reflexivity. Qed.
Lemma zrange_2 : forall x, zrange x 2 = [(x + 0)%Z; (x + 1)%Z]. Proof. reflexivity. Qed.
Lemma fst_entries3 : forall col g s, map fst (entries3 col g s) = zrange col 3. Proof. intros. rewrite zrange_3. reflexivity. Qed.
Lemma in_zrange : forall x n k, In k (zrange x n) -> (x <= k < x + n)%Z.
Proof. intros x n k H. unfold zrange in H. apply in_map_iff in H. destruct H as (i & <- & H). apply in_seq in H. lia. Qed.
Lemma splined_cols : forall cfg intr q ixy, map fst (splined_entries cfg intr q ixy) =
  grad_cols cfg (if (sp_order cfg =? 3)%Z then ctrunc (sp_ix cfg q) else ctrunc (sp_ix cfg q + 1 / 2)) (if (sp_order cfg =? 3)%Z then ctrunc (sp_iy cfg q) else ctrunc (sp_iy cfg q + 1 / 2)) ixy.
Proof.
  intros. unfold splined_entries, grad_cols. cbv zeta. rewrite flat_map_concat_map, concat_map, map_map, flat_map_concat_map. f_equal. apply map_ext. intro iy. rewrite map_map. apply map_ext. intro ix. cbn [fst].
  unfold ivar0_at, ivar0, seg. ring.
Qed.
Lemma intr_cols : forall icam ixy q w,
  map fst (intr_entries c b icam ixy q w) =
  ((if do_core (p_sel p) then [state_index_intrinsics p icam + ixy; state_index_intrinsics p icam + ixy + 2] else []) ++
   (if do_dist (p_sel p) then match m with
     | SPLINED cfg => map (fun k => state_index_intrinsics p icam + (k - (if do_core (p_sel p) then 0 else 4))) (grad_cols cfg (fst (truncated c q)) (snd (truncated c q)) ixy)
     | _ => zrange (state_index_intrinsics p icam + (if has_core m && do_core (p_sel p) then 4 else 0)) (num_params m - (if has_core m then 4 else 0)) end else []))%list%Z.
Proof.
  intros. unfold intr_entries. fold p. fold m. rewrite map_app. f_equal; [destruct (do_core _); reflexivity|]. destruct (do_dist _); [|reflexivity].
  unfold truncated. fold p. fold m. destruct m; try (rewrite map_map; reflexivity). rewrite map_map. cbn [fst snd]. rewrite <- (splined_cols c0 (fun z => intr_of c b icam (Z.to_nat z)) q ixy), map_map. reflexivity.
Qed.
Lemma board_cols : forall iobs ipt ixy, map fst (row_entries stale c b (R_board iobs ipt ixy)) = board_cols_inlier p (board_at c iobs) (truncated c (board_seen c b iobs ipt)) ixy.
Proof.
  intros. cbn [row_entries]. unfold board_entries, board_cols_inlier. fold p. fold m. rewrite !map_app, intr_cols, <- app_assoc. f_equal. f_equal. f_equal; [|f_equal].
  - destruct (do_ext _); [|reflexivity]. destruct (0 <=? _)%Z; [|reflexivity]. now rewrite map_app, !fst_entries3.
  - destruct (do_frames _); [|reflexivity]. now rewrite map_app, !fst_entries3.
  - destruct (has_warp p); reflexivity.
Qed.
Lemma point_cols : forall iobs ixy, map fst (row_entries stale c b (R_point iobs ixy)) = point_cols_inlier p (point_at c iobs) (truncated c (point_seen c b iobs)) ixy.
Proof.
  intros. cbn [row_entries]. unfold point_entries, point_cols_inlier. fold p. fold m. rewrite !map_app, intr_cols, <- app_assoc. f_equal. f_equal. f_equal.
  - destruct (do_ext _); [|reflexivity]. destruct (0 <=? _)%Z; [|reflexivity]. now rewrite map_app, !fst_entries3.
  - destruct (use_position_from_state _ _); [|reflexivity]. apply fst_entries3.
Qed.
Lemma tri_cols_entries : forall i0 i1, map fst (row_entries stale c b (R_tri i0 i1)) = tri_cols p (tri_at c i0) (tri_at c i1).
Proof.
  intros. cbn [row_entries]. unfold tri_entries, tri_dual, tri_t10, tri_origin, tri_v0_cam1, tri_v0_ref, tri_cols, extr_of. fold p. rewrite !(Z.ltb_antisym 0).
  destruct (0 <=? to_icam_e (tri_at c i0))%Z, (0 <=? to_icam_e (tri_at c i1))%Z; cbn [negb option_map]; try reflexivity.
  - set (e := triangulated_error dualops _ _ _).
    destruct (rotJ (rt_r (cam_of c b (to_icam_e (tri_at c i0)))) (rt_t _) true) as [[? ?] ?]. destruct (rotJ (rt_r (cam_of c b (to_icam_e (tri_at c i0)))) (c_tri_px c i0) true) as [[? ?] ?].
    destruct (rotJ _ (vscale _ _) false) as [[? ?] ?]. destruct (rotJ _ (rotate_point_r _ _ _) false) as [[? ?] ?]. now rewrite !map_app, !fst_entries3.
  - destruct (rotJ (rt_r (cam_of c b (to_icam_e (tri_at c i0)))) (rt_t _) true) as [[? ?] ?]. destruct (rotJ (rt_r (cam_of c b (to_icam_e (tri_at c i0)))) (c_tri_px c i0) true) as [[? ?] ?].
    now rewrite !map_app, !fst_entries3.
  - destruct (rotJ _ (c_tri_px c i0) false) as [[? ?] ?]. now rewrite !map_app, !fst_entries3.
Qed.
Lemma at_skipn : forall {A} (l : list A) n d x r, skipn n l = x :: r -> nth n l d = x /\ skipn (S n) l = r /\ (n < length l)%nat.
Proof.
  intros A l. induction l as [|y l IH]; intros n d x r H; [destruct n; discriminate|]. destruct n as [|n]; cbn [skipn nth length] in *; [injection H as -> ->; repeat split; auto; lia|].
  destruct (IH n d x r H) as (H1 & H2 & H3). repeat split; [exact H1|exact H2|lia].
Qed.
Lemma good_boards : forall l iobs, (0 <= iobs)%Z -> skipn (Z.to_nat iobs) (p_boards p) = l ->
  List.Forall Good (boards_rows 0 is_ge0 (row_x stale c b) (row_j stale c b) (fun iobs ipt => truncated c (board_seen c b iobs ipt)) p (fun i => vz (c_bpool c i)) iobs (iobs * (p_w p * p_h p)) l).
Proof.
  induction l as [|o l IH]; intros iobs H E; cbn [boards_rows]; [constructor|]. 
  destruct (at_skipn _ _ {| bo_icam_i := 0; bo_icam_e := 0; bo_iframe := 0 |}%Z _ _ E) as (E1 & E2 & EL). apply Forall_app. split.
  - unfold board_rows. apply Forall_flat_map. apply Forall_forall. intros ipt Hpt. apply in_zrange in Hpt.
    assert (forall ixy, (ixy = 0 \/ ixy = 1)%Z -> Good (if is_ge0 (vz (c_bpool c (iobs * (p_w p * p_h p) + ipt)%Z))
      then inlier_row (row_x stale c b) (row_j stale c b) (R_board iobs ipt ixy) (board_cols_inlier p o (truncated c (board_seen c b iobs ipt)) ixy)
      else outlier_row 0 (R_board iobs ipt ixy) (board_cols_outlier p o (truncated c (board_seen c b iobs ipt)) ixy))) as G.
    { intros ixy Hi. assert (valid c (R_board iobs ipt ixy)) as V by (cbn [valid]; fold p; unfold Nobs_board; repeat split; [exact Hi|lia..]). unfold is_ge0. destruct (Rle_dec 0 _) as [L|L].
      - apply good_inlier; [exact V|exact L|]. rewrite board_cols. unfold board_at. fold p. now rewrite E1.
      - apply good_outlier; [exact V|exact L]. }
    cbn [map]. constructor; [|constructor; [|constructor]]; apply G; auto.
  - replace (iobs * (p_w p * p_h p) + p_w p * p_h p)%Z with ((iobs + 1) * (p_w p * p_h p))%Z by ring. apply IH; [lia|]. replace (Z.to_nat (iobs + 1)) with (S (Z.to_nat iobs)) by lia. exact E2.
Qed.
Lemma good_points : forall l iobs, (0 <= iobs)%Z -> skipn (Z.to_nat iobs) (p_points p) = l ->
  List.Forall Good (points_rows 0 is_le0 (row_x stale c b) (row_j stale c b) (fun iobs => truncated c (point_seen c b iobs)) p (fun i => vz (c_ppool c i)) iobs l).
Proof.
  induction l as [|o l IH]; intros iobs H E; cbn [points_rows]; [constructor|].
  destruct (at_skipn _ _ {| po_icam_i := 0; po_icam_e := 0; po_ipoint := 0 |}%Z _ _ E) as (E1 & E2 & EL). apply Forall_app. split.
  - assert (forall ixy, (ixy = 0 \/ ixy = 1)%Z -> Good (if is_le0 (vz (c_ppool c iobs)) then outlier_row 0 (R_point iobs ixy) (point_cols_outlier p o ixy)
        else inlier_row (row_x stale c b) (row_j stale c b) (R_point iobs ixy) (point_cols_inlier p o (truncated c (point_seen c b iobs)) ixy))) as G.
    { intros ixy Hi. assert (valid c (R_point iobs ixy)) as V by (cbn [valid]; fold p; unfold Nobs_point; repeat split; [exact Hi|lia..]). unfold is_le0. destruct (Rle_dec _ 0) as [L|L].
      - apply good_outlier; [exact V|]. cbn [inlier]. lra.
      - apply good_inlier; [exact V|cbn [inlier]; lra|]. rewrite point_cols. unfold point_at. fold p. now rewrite E1. }
    cbn [map]. constructor; [|constructor; [|constructor]]; apply G; auto.
  - apply IH; [lia|]. replace (Z.to_nat (iobs + 1)) with (S (Z.to_nat iobs)) by lia. exact E2.
Qed.
Lemma good_inner : forall l i0 o0 i1 rows, do_ext (p_sel p) = true -> tri_at c i0 = o0 -> (0 <= i0 < Nobs_tri p)%Z -> (0 <= i1)%Z -> skipn (Z.to_nat i1) (p_tri p) = l ->
  tri_inner_rows 0 (row_x stale c b) (row_j stale c b) p i0 o0 i1 l = Some rows -> List.Forall Good rows.
Proof.
  induction l as [|o l IH]; intros i0 o0 i1 rows D E0 H0 H E T; cbn [tri_inner_rows] in T; [discriminate|].
  destruct (at_skipn _ _ {| to_icam_i := 0; to_icam_e := 0; to_last := true; to_outlier := false |}%Z _ _ E) as (E1 & E2 & EL).
  set (r := if negb (to_outlier o0) then _ else _) in T.
  assert (tri_at c i1 = o) as E3 by (unfold tri_at; fold p; exact E1).
  assert (Good r) as G.
  { assert (valid c (R_tri i0 i1)) as V by (cbn [valid]; fold p; unfold Nobs_tri in *; repeat split; [exact D|lia..]). unfold r. destruct (to_outlier o0) eqn:O0; cbn [negb]; [apply good_outlier; [exact V|]; cbn [inlier]; rewrite E0, O0; intros [? _]; discriminate|].
    destruct (to_outlier o) eqn:O1; cbn [negb]; [apply good_outlier; [exact V|]; cbn [inlier]; rewrite E3, O1; intros [_ ?]; discriminate|].
    apply good_inlier; [exact V|cbn [inlier]; now rewrite E0, E3|]. rewrite tri_cols_entries. now rewrite E0, E3. }
  destruct (to_last o); [injection T as <-; constructor; [exact G|constructor]|]. destruct (tri_inner_rows _ _ _ _ _ _ _ l) as [rs|] eqn:T1; [|discriminate]. injection T as <-. constructor; [exact G|].
  apply (IH i0 o0 (i1 + 1)%Z rs D E0); [exact H0|lia| |exact T1]. replace (Z.to_nat (i1 + 1)) with (S (Z.to_nat i1)) by lia. exact E2.
Qed.
Lemma good_tri : forall l i0 rows, do_ext (p_sel p) = true -> (0 <= i0)%Z -> skipn (Z.to_nat i0) (p_tri p) = l ->
  tri_rows 0 (row_x stale c b) (row_j stale c b) p i0 l = Some rows -> List.Forall Good rows.
Proof.
  induction l as [|o l IH]; intros i0 rows D H E T; cbn [tri_rows] in T; [injection T as <-; constructor|].
  destruct (at_skipn _ _ {| to_icam_i := 0; to_icam_e := 0; to_last := true; to_outlier := false |}%Z _ _ E) as (E1 & E2 & EL).
  assert (skipn (Z.to_nat (i0 + 1)) (p_tri p) = l) as E3 by (replace (Z.to_nat (i0 + 1)) with (S (Z.to_nat i0)) by lia; exact E2).
  destruct (to_last o); [now apply (IH (i0 + 1)%Z rows D); [lia| |]|].
  destruct (tri_inner_rows _ _ _ _ _ _ _ l) as [a|] eqn:T1; [|discriminate]. destruct (tri_rows _ _ _ _ (i0 + 1) l) as [a'|] eqn:T2; [|discriminate]. injection T as <-. apply Forall_app. split.
  - apply (good_inner l i0 o (i0 + 1)%Z a D); [unfold tri_at; fold p; exact E1|unfold Nobs_tri; lia|lia|exact E3|exact T1].
  - apply (IH (i0 + 1)%Z a' D); [lia|exact E3|exact T2].
Qed.
Lemma good_all : forall rows, evaluate stale c b = Some rows -> List.Forall Good rows.
Proof.
  intros rows E. unfold evaluate, callback_rows in E. fold p in E. destruct (tri_section _ _ _ _) as [tr|] eqn:T; [|discriminate]. injection E as <-.
  apply Forall_app. split; [apply (good_boards (p_boards p) 0); [lia|reflexivity]|]. apply Forall_app. split; [apply good_points; [lia|reflexivity]|]. apply Forall_app. split.
  { unfold tri_section in T. destruct (p_tri p) eqn:E; [injection T as <-; constructor|]. rewrite <- E in T. destruct (_ && _) eqn:S in T; [|discriminate].
    apply andb_prop in S. destruct S as [_ S]. apply (good_tri (p_tri p) 0 tr S); [lia|reflexivity|exact T]. }
  apply Forall_app. split; [|apply Forall_app; split].
  - unfold reg_dist_rows. destruct (_ && _) eqn:S; [|constructor]. apply andb_prop in S. destruct S as [_ S]. fold m.
    destruct m eqn:Em; try (apply Forall_flat_map, Forall_forall; intros icam Ic; apply in_zrange in Ic; apply Forall_map, Forall_forall; intros j J; apply in_zrange in J; cbn [has_core] in J;
      apply good_inlier; [cbn [valid]; fold p; fold m; rewrite Em; split; [exact S|split; [lia|split; [lia|split; [lia|discriminate]]]]|exact Logic.I|cbn [row_entries map fst]; fold p; fold m; rewrite Em; reflexivity]).
    apply Forall_flat_map, Forall_forall. intros icam Ic. apply Forall_flat_map, Forall_forall. intros iy Iy. apply Forall_flat_map, Forall_forall. intros ix Ix. apply in_zrange in Iy, Ix, Ic.
    assert (0 <= 2 * (iy * sp_Nx c0 + ix))%Z as P by nia.
    constructor; [|constructor; [|constructor]]; (apply good_inlier; [cbn [valid]; fold p; fold m; rewrite Em; split; [exact S|split; [exact P|split; [lia|split; [lia|exists c0, ix, iy; repeat split; lia]]]]|exact Logic.I|cbn [row_entries]; fold p; fold m; rewrite Em; reflexivity]).
  - unfold reg_center_rows. destruct (_ && _ && _) eqn:S; [|constructor]. apply andb_prop in S. destruct S as [_ S].
    apply Forall_flat_map, Forall_forall. intros icam Ic. apply in_zrange in Ic. constructor; [|constructor; [|constructor]]; (apply good_inlier; [cbn [valid]; fold p; split; [exact S|split; [auto|lia]]|exact Logic.I|reflexivity]).
  - unfold unity_rows. destruct (_ && _ && _) eqn:S; [|constructor]. apply andb_prop in S. destruct S as [S S']. apply andb_prop in S. destruct S as [_ S].
    constructor; [|constructor]. apply good_inlier; [cbn [valid]; fold p; split; [exact S|lia]|exact Logic.I|reflexivity].
Qed.
End Good.

(** * The theorem *)
(** mrcal.c:2788-2789 divides by the board's width - 1 and height - 1 if there is a warp: NaN for a board one corner wide *)
Definition warp_defined (c : context) : Prop := c_warp c = None \/ (p_w (c_p c) <> 1 /\ p_h (c_p c) <> 1)%Z.
(** Where the residual of an inlier is differentiable as computed.
    [board_regular]: the rotations are outside of the tiny-angle branches of compose_r() and R_from_r(), the focal lengths are
    nonzero and the lens can see the point; [point_regular_at]: the same without the joint rotation;
    [tri_regular]: the same for the cameras, not both cameras at the reference, no two of the rays and the baseline parallel,
    and the angles that enter the residual are not at the branch of angle_error__assume_small(). *)
Definition row_regular (c : context) (b : Z -> R) (id : rowid) : Prop :=
  match id with
  | R_board iobs ipt _ => board_regular c b iobs ipt /\ warp_defined c
  | R_point iobs _ => point_regular_at c b iobs
  | R_tri i0 i1 => tri_regular c b i0 i1
  | _ => True
  end.
(** the k-th residual; 0 if there is none *)
Definition residual (stale : j23) (c : context) (b : Z -> R) (k : nat) : R :=
  match evaluate stale c b with Some rows => match nth_error rows k with Some r => r_x r | None => 0 end | None => 0 end.

Theorem C66_jacobian : forall stale c (B : R -> Z -> R) t dB rows k r,
  (forall n, is_derive (fun s => B s n) t (dB n)) -> splines_ok (p_lens (c_p c)) ->
  evaluate stale c (B t) = Some rows -> nth_error rows k = Some r -> (inlier c (r_id r) -> row_regular c (B t) (r_id r)) ->
  is_derive (fun s => residual stale c (B s) k) t (weighted (r_j r) dB).
Proof.
  intros stale c B t dB rows k r DB SO E K RG.
  pose proof (good_all stale c (B t) rows E) as G. rewrite Forall_forall in G. destruct (G r (nth_error_In _ _ K)) as (V & GI & GO).
  (* at every s the k-th row has the same identity *)
  assert (forall s, exists rows' r', evaluate stale c (B s) = Some rows' /\ nth_error rows' k = Some r' /\ r_id r' = r_id r /\ good stale c (B s) r') as Same.
  { intro s. assert (option_map (map r_id) (evaluate stale c (B s)) = option_map (map r_id) (evaluate stale c (B t))) as EI by (unfold evaluate; apply ids_callback).
    rewrite E in EI. destruct (evaluate stale c (B s)) as [rows'|] eqn:E'; [|discriminate]. cbn [option_map] in EI. injection EI as EI.
    pose proof (map_nth_error r_id k rows K) as K'. rewrite <- EI in K'. rewrite nth_error_map in K'. destruct (nth_error rows' k) as [r'|] eqn:K1; [|discriminate]. injection K' as K'.
    exists rows', r'. split; [reflexivity|]. split; [exact K1|]. split; [exact K'|]. pose proof (good_all stale c (B s) rows' E') as G'. rewrite Forall_forall in G'. exact (G' r' (nth_error_In _ _ K1)). }
  destruct (Classical_Prop.classic (inlier c (r_id r))) as [I|I].
  - destruct (GI I) as [_ ->].
    apply is_derive_ext with (fun s => row_x stale c (B s) (r_id r)).
    { intro s. destruct (Same s) as (rows' & r' & E1 & K1 & I1 & (_ & GI' & _)). unfold residual. rewrite E1, K1. rewrite I1 in GI'. symmetry. apply GI'. exact I. }
    specialize (RG I). destruct (r_id r) as [iobs ipt ixy|iobs ixy|i0 i1|icam j|icam ivar kk|icam ixy|]; cbn [valid row_regular] in *.
    + destruct V, RG. now apply board_row.
    + destruct V. now apply point_row.
    + destruct V. now apply tri_row.
    + destruct V as (V1 & V2 & _). now apply reg_dist_row.
    + destruct V as (V1 & V2 & _). now apply reg_splined_row.
    + destruct V as (V1 & V2 & _). now apply reg_center_row.
    + destruct V as [V _]. now apply unity_row.
  - destruct (GO I) as (_ & cols & ->). rewrite weighted_zeros. apply is_derive_ext with (fun _ => 0).
    { intro s. destruct (Same s) as (rows' & r' & E1 & K1 & I1 & (_ & _ & GO')). unfold residual. rewrite E1, K1. rewrite I1 in GO'. symmetry. apply (GO' I). }
    apply (is_derive_const (K := R_AbsRing) (V := R_NormedModule)).
Qed.
Print Assumptions C66_jacobian.

(** The partial derivatives: entries in column j are the derivative by state variable j. *)
Fixpoint column (l : list (Z * R)) (j : Z) : R := match l with [] => 0 | (n, a) :: l => (if (n =? j)%Z then a else 0) + column l j end.
Definition with_state (b : Z -> R) (j : Z) (x : R) : Z -> R := fun n => if (n =? j)%Z then x else b n.
Theorem C66_partial_derivatives : forall stale c b rows k r j,
  splines_ok (p_lens (c_p c)) -> evaluate stale c b = Some rows -> nth_error rows k = Some r -> (inlier c (r_id r) -> row_regular c b (r_id r)) ->
  is_derive (fun x => residual stale c (with_state b j x) k) (b j) (column (r_j r) j).
Proof.
  intros stale c b rows k r j SO E K RG.
  assert (with_state b j (b j) = b) as EB. { apply FunctionalExtensionality.functional_extensionality. intro n. unfold with_state. destruct (Z.eqb_spec n j) as [->|]; reflexivity. }
  replace (column (r_j r) j) with (weighted (r_j r) (fun n => if (n =? j)%Z then 1 else 0)).
  - apply (C66_jacobian stale c (fun x => with_state b j x) (b j) _ rows k r); rewrite ?EB; try assumption.
    intro n. unfold with_state. destruct (n =? j)%Z; [apply (is_derive_id (K := R_AbsRing))|apply (is_derive_const (K := R_AbsRing) (V := R_NormedModule))].
  - generalize (r_j r). induction l as [|[n a] l IH]; cbn [weighted column]; [reflexivity|]. rewrite IH. destruct (n =? j)%Z; ring.
Qed.
Print Assumptions C66_partial_derivatives.

(** ** a problem all of whose rows are regular: one pinhole camera looks at a tilted 2x2 board; everything is optimized *)
Definition ex_p : problem :=
  {| p_lens := PINHOLE; p_sel := {| do_core := true; do_dist := true; do_ext := true; do_frames := true; do_warp := true; do_reg := true; do_unity := false |};
     p_Nci := 1; p_Nce := 0; p_Nframes := 1; p_Npoints := 0; p_Npoints_fixed := 0; p_boards := [{| bo_icam_i := 0; bo_icam_e := -1; bo_iframe := 0 |}]; p_points := []; p_tri := []; p_w := 2; p_h := 2 |}%Z.
Definition ex_c : context :=
  {| c_p := ex_p; c_intr := fun _ _ => 0; c_cam := fun _ => mkrt (V3 0 0 0) (V3 0 0 0); c_frame := fun _ => mkrt (V3 0 0 0) (V3 0 0 0); c_point := fun _ => V3 0 0 0;
     c_warp := Some (0, 0); c_imager := fun _ => 1000%Z; c_spacing := 1 / 4; c_bpool := fun _ => V3 600 600 1; c_ppool := fun _ => V3 0 0 0; c_tri_px := fun _ => V3 0 0 0 |}.
Example C66_example : exists rows, evaluate j0 ex_c (fun _ => 1) = Some rows /\
  map r_id rows = [R_board 0 0 0; R_board 0 0 1; R_board 0 1 0; R_board 0 1 1; R_board 0 2 0; R_board 0 2 1; R_board 0 3 0; R_board 0 3 1; R_reg_center 0 0; R_reg_center 0 1]%Z /\
  forall r, In r rows -> inlier ex_c (r_id r) /\ row_regular ex_c (fun _ => 1) (r_id r).
Proof.
  eexists. split; [reflexivity|].
  set (rows := boards_rows _ _ _ _ _ _ _ _ _ _ ++ _).
  assert (map r_id rows = [R_board 0 0 0; R_board 0 0 1; R_board 0 1 0; R_board 0 1 1; R_board 0 2 0; R_board 0 2 1; R_board 0 3 0; R_board 0 3 1; R_reg_center 0 0; R_reg_center 0 1]%Z) as EI.
  { unfold rows. cbn [c_p ex_c p_boards ex_p boards_rows]. unfold board_rows. cbn [p_w p_h ex_p]. change (zrange 0 (2 * 2)) with [0; 1; 2; 3]%Z. cbn [flat_map map app c_bpool ex_c vz].
    unfold is_ge0. destruct (Rle_dec 0 1) as [_|N]; [reflexivity|lra]. }
  split; [exact EI|]. intros r HR. assert (In (r_id r) (map r_id rows)) as HI by now apply in_map. rewrite EI in HI. clear EI rows HR. generalize dependent (r_id r). clear r. intros id HI.
  assert (forall ipt ix iy, (ipt mod 2 = ix)%Z -> (ipt / 2 = iy)%Z -> (0 <= ix <= 1)%Z -> (0 <= iy <= 1)%Z -> forall ixy, inlier ex_c (R_board 0 ipt ixy) /\ row_regular ex_c (fun _ => 1) (R_board 0 ipt ixy)) as G.
  { intros ipt ix iy E1 E2 Hx Hy ixy. cbn [inlier row_regular]. split; [cbn; lra|]. split; [|right; cbn; lia]. unfold board_regular. cbv zeta. change (board_at ex_c 0) with {| bo_icam_i := 0; bo_icam_e := -1; bo_iframe := 0 |}%Z.
    cbn [bo_icam_e bo_icam_i bo_iframe c_p ex_c p_lens ex_p]. unfold extr_of. change (-1 <? 0)%Z with true. cbv iota.
    assert (frame_of ex_c (fun _ => 1) 0 = mkrt (V3 (1 * scale S_rot_frame) (1 * scale S_rot_frame) (1 * scale S_rot_frame)) (V3 (1 * 1) (1 * 1) (1 * 1))) as EF by reflexivity.
    split; [|split].
    - unfold seen_regular. rewrite EF. cbn [rt_r]. apply Rlt_le_trans with (scale S_rot_frame).
      + unfold scale, DBL_EPSILON. pose proof PI2_3_2. lra.
      + pose proof PI2_3_2. assert (0 < scale S_rot_frame) by (unfold scale; lra). set (s := scale S_rot_frame) in *. unfold norm, norm2, dot. cbn [vx vy vz].
        apply Rle_trans with (sqrt (s * s)); [rewrite sqrt_square; lra|]. apply sqrt_le_1; nra.
    - unfold focal_ok, core_of, intr_of. cbn. lra.
    - unfold lens_smooth, smooth, sees. unfold board_seen. cbv zeta. change (board_at ex_c 0) with {| bo_icam_i := 0; bo_icam_e := -1; bo_iframe := 0 |}%Z. cbn [bo_icam_e bo_iframe]. rewrite EF.
      unfold extr_of. change (-1 <? 0)%Z with true. cbv iota. unfold camera_point, joint_pose. cbn [rt_r rt_t]. set (M := R_from_r _).
      pose proof (R_from_r_rot (V3 (1 * scale S_rot_frame) (1 * scale S_rot_frame) (1 * scale S_rot_frame))) as RM. fold M in RM. clearbody M.
      destruct RM as (_ & RM & _). apply (f_equal m22) in RM. unfold mm, mT, I3 in RM. cbn [m00 m01 m02 m10 m11 m12 m20 m21 m22] in RM.
      unfold board_pt, board_corner, warp_of, board_dz. cbn [c_warp ex_c c_p p_w p_h ex_p c_spacing]. rewrite E1, E2. change (has_warp ex_p) with true. cbv iota zeta.
      cbn [px py]. unfold vadd, mul_Rv. cbn [vx vy vz]. change (IZR (2 - 1)) with 1. 
      assert (-1 <= m20 M <= 1 /\ -1 <= m21 M <= 1) as [B1 B2] by (split; nra).
      assert ((ix = 0 \/ ix = 1) /\ (iy = 0 \/ iy = 1))%Z as [[-> | ->] [-> | ->]] by lia; lra. }
  cbn [In] in HI.
  destruct HI as [<- | [<- | [<- | [<- | [<- | [<- | [<- | [<- | [<- | [<- | []]]]]]]]]]];
    try (split; exact Logic.I); first [apply (G 0%Z 0%Z 0%Z)|apply (G 1%Z 1%Z 0%Z)|apply (G 2%Z 0%Z 1%Z)|apply (G 3%Z 1%Z 1%Z)]; first [reflexivity|lia].
Qed.
