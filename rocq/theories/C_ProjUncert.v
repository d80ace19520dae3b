(** C70: the gradient that projection_uncertainty() propagates is the derivative of the documented reprojected pixel. *)
From Coq Require Import Reals Lra Psatz Lia Arith ZArith QArith Qreals Bool List Sorted Permutation.
From Coquelicot Require Import Coquelicot.
From Verif Require Import S_Vec S_Curve S_LensGrad M_Dual P_Dual P_DualPath P_Pose M_Pose P_PoseJ P_PathGrad C_PoseGrad C_Rodrigues C_Rt C_RtVec
  M_Project C_Project M_Lens M_Layout S_Layout P_Layout M_SplineIdx M_Spline P_Spline C_Spline M_OpenCV M_Cahvore M_Splined M_Unproject
  C_Splined C_Cahvore M_Callback S_Callback P_Callback M_Pack S_Pack P_Pack M_Residuals P_Jacobian C_Jacobian C_Residuals P_Uncert M_Uncert C_Uncert M_ProjUncert P_ProjUncert.
Import ListNotations.
Open Scope R_scope.

(** * Specification *)
Section Spec.
  Variable c : context.
  Let p := c_p c.
  (** the parameters in a packed state vector *)
  Definition params (b : nat -> R) : loc -> R := unpack_struct p (fun z => b (Z.to_nat z)) (caller c).
  (** optimization_inputs['intrinsics'][icam], ['rt_cam_ref'][i], ['rt_ref_frame'][i] *)
  Definition intrinsics_data (s : loc -> R) (icam : Z) : nat -> R := fun i => if (Z.of_nat i <? num_params (p_lens p))%Z then lens_params c s icam i else 0.
  Definition rt_cam (s : loc -> R) (i : Z) : rt := mkrt (cam_r s i) (cam_t s i).
  Definition rt_frame (s : loc -> R) (i : Z) : rt := mkrt (frame_r s i) (frame_t s i).
End Spec.
(** y is x transformed by T; a point at infinity is only rotated *)
Definition takes (atinfinity : bool) (T : rt) (x y : v3) : Prop :=
  exists M, is_rotvec M (rt_r T) /\ y = if atinfinity then mv M x else vadd (mv M x) (rt_t T).
Definition takes_to_camera (atinfinity : bool) (s : loc -> R) (icam : Z) (x y : v3) : Prop :=
  if (icam <? 0)%Z then y = x else takes atinfinity (rt_cam s icam) x y.
(** an observation of camera icam has the camera pose j *)
Definition seen (p : problem) (icam j : Z) : Prop :=
  (exists o, In o (p_boards p) /\ bo_icam_i o = icam /\ bo_icam_e o = j) \/ (exists o, In o (p_points p) /\ po_icam_i o = icam /\ po_icam_e o = j).
Definition vsum (l : list v3) : v3 := fold_right vadd v0 l.
Definition mean (l : list v3) : v3 := vscale (1 / INR (length l)) (vsum l).
(** number j of a pose *)
Definition pose_at (T : rt) (j : nat) : R := pose_scalar T (Z.of_nat j).
(** a path of packed states that leaves in the direction d *)
Definition leaves (B : R -> nat -> R) (d : nat -> R) : Prop := forall k, is_derive (fun s => B s k) 0 (d k).
(** a path of poses that leaves the identity as K says *)
Definition follows (p : problem) (K : nat -> nat -> R) (d : nat -> R) (T : R -> rt) : Prop :=
  T 0 = mkrt v0 v0 /\ forall j, (j < 6)%nat -> is_derive (fun s => pose_at (T s) j) 0 (rsum (Z.to_nat (num_states p)) (fun k => K j k * d k)).

(** * Proofs *)
Lemma is_rotvec_rodr : forall M r, is_rotvec M r -> M = rodr r.
Proof.
  intros M r [HB HZ]. destruct (Req_dec (norm2 r) 0) as [Z|Z].
  - apply norm2_zero in Z. rewrite (HZ Z), Z. symmetry. apply rodr_0.
  - apply rotation_by_rod; [|exact HB]. intros ->. apply Z. vunfold. ring.
Qed.
Lemma rodr_rotvec : forall r, is_rotvec (rodr r) r.
Proof.
  intro r. destruct (Req_dec (norm2 r) 0) as [Z|Z].
  - apply norm2_zero in Z. subst r. rewrite rodr_0. split; [|reflexivity]. split; [apply mv_I|]. intros v _. rewrite mv_I, norm_v0, sin_0. apply v3_eq; vunfold; ring.
  - assert (r <> v0) as N by (intros ->; apply Z; vunfold; ring). split; [now apply rod_by|contradiction].
Qed.
Lemma rodr_rot : forall r, is_rot (rodr r).
Proof.
  intro r. destruct (Req_dec (norm2 r) 0) as [Z|Z].
  - apply norm2_zero in Z. subst r. rewrite rodr_0. apply is_rot_I.
  - unfold rodr. apply rod_rot; [apply P_Pose.unit_norm2; intros ->; apply Z; vunfold; ring|]. pose proof (sin2_cos2 (norm r)) as H. unfold Rsqr in H. exact H.
Qed.
Lemma rodr_neg : forall r, rodr (vneg r) = mT (rodr r).
Proof.
  intro r. unfold rodr. assert (norm (vneg r) = norm r) as E by (unfold norm; f_equal; vunfold; ring). rewrite E, <- rod_neg. f_equal. unfold unit. rewrite E. apply v3_eq; vunfold; ring.
Qed.
Lemma rodr_back : forall r x y, mv (rodr r) x = y -> x = mv (mT (rodr r)) y.
Proof. intros r x y <-. destruct (rodr_rot r) as (E & E' & _). rewrite <- mv_mm. first [rewrite E|rewrite E']; now rewrite mv_I. Qed.
Lemma rodr_there : forall r y, mv (rodr r) (mv (mT (rodr r)) y) = y.
Proof. intros r y. destruct (rodr_rot r) as (E & E' & _). rewrite <- mv_mm. first [rewrite E|rewrite E']; now rewrite mv_I. Qed.
Lemma vneg_moves : forall A t d, moves3 A t d -> moves3 (fun s => vneg (A s)) t (vneg d).
Proof. intros A t d (X & Y & Z). split; [|split]; cbn [vneg vx vy vz]; apply (is_derive_opp (K := R_AbsRing) (V := R_NormedModule)); assumption. Qed.
Lemma intr_rate_ext : forall m intr v ixy dI dI', lens_ok m -> lens_legal m -> splines_ok m -> (ixy = 0 \/ ixy = 1)%Z -> (forall i, (Z.of_nat i < num_params m)%Z -> dI i = dI' i) ->
  intr_rate m intr v ixy dI = intr_rate m intr v ixy dI'.
Proof.
  intros m intr v ixy dI dI' HO HL SO Hi E. rewrite <- !dense_total by assumption. apply rsum_ext. intros i Hi'. rewrite E by lia. reflexivity.
Qed.

Section Main.
  Variable stale : j23.
  Variable c : context.
  Let p := c_p c.
  Let N := Z.to_nat (num_states p).
  Variable icam : Z.
  Variable p_cam : v3.
  Variable atinfinity : bool.
  Variable B : R -> nat -> R.
  Variable d : nat -> R.
  Let S0 := params c (B 0).
  Let intr := intrinsics_data c S0 icam.
  Let dB : Z -> R := fun z => d (Z.to_nat z).
  Let u (k : nat) : R := unpack_vec p dB (Z.of_nat k).
  Hypothesis Hok : problem_ok p.
  Hypothesis HL : lens_legal (p_lens p).
  Hypothesis SO : splines_ok (p_lens p).
  Hypothesis Hc : (0 <= icam < p_Nci p)%Z.
  Hypothesis HB : leaves B d.
  Hypothesis HF : focal_ok (core_of intr).
  Hypothesis HS : lens_smooth (p_lens p) intr p_cam.

  Lemma state_moves : forall n, is_derive (fun s => (fun z => B s (Z.to_nat z)) n) 0 (dB n).
  Proof. intro n. apply HB. Qed.
  (** the pixel of a point that moves with the state *)
  Lemma pixel_moves : forall (Y : R -> v3) dY ixy, (ixy = 0 \/ ixy = 1)%Z -> Y 0 = p_cam -> moves3 Y 0 dY ->
    is_derive (fun s => p2get (pixel c (params c (B s)) icam (Y s)) ixy) 0
      (rsum N (fun k => put_intrinsics p icam intr p_cam ixy k * u k) + dot (dq_dpcam stale p intr p_cam ixy) dY).
  Proof.
    intros Y dY ixy Hi Y0 DY. set (m := p_lens p) in *.
    set (I := fun s => intrinsics_data c (params c (B s)) icam). set (dI := fun i => if (Z.of_nat i <? num_params m)%Z then intr_of (still c) dB icam i else 0).
    assert (forall s i, (Z.of_nat i < num_params m)%Z -> I s i = intr_of c (fun z => B s (Z.to_nat z)) icam i) as EI.
    { intros s i Hi'. unfold I, intrinsics_data. fold p. fold m. destruct (Z.ltb_spec (Z.of_nat i) (num_params m)); [|lia]. symmetry. now apply intr_unpacked. }
    assert (forall i, is_derive (fun s => I s i) 0 (dI i)) as DI.
    { intro i. unfold dI. destruct (Z.ltb_spec (Z.of_nat i) (num_params m)) as [L|L].
      - eapply is_derive_ext; [|exact (intr_moves c (fun s z => B s (Z.to_nat z)) 0 dB state_moves icam i)]. intro s. cbv beta. symmetry. now apply EI.
      - apply is_derive_ext with (fun _ => 0); [|apply (is_derive_const (K := R_AbsRing) (V := R_NormedModule))]. intro s. unfold I, intrinsics_data. fold p. fold m. destruct (Z.ltb_spec (Z.of_nat i) (num_params m)); [lia|reflexivity]. }
    assert (I 0 = intr) as E0 by reflexivity.
    pose proof (lens_path stale m I Y 0 dI dY ixy Hi DI DY) as K. rewrite E0, Y0 in K. specialize (K HF HS).
    eapply is_derive_ext; [|eapply is_derive_rw; [exact K|]].
    - intro s. cbv beta. unfold pixel. fold p. fold m. f_equal. apply lens_pixel_ext; [exact SO|]. intros i Hi'. unfold I, intrinsics_data. fold p. fold m.
      destruct (Z.ltb_spec (Z.of_nat i) (num_params m)); [reflexivity|lia].
    - f_equal. rewrite (intr_rate_ext m intr p_cam ixy dI (intr_of (still c) dB icam)).
      + symmetry. now apply (intrinsics_sum c Hok d icam intr p_cam Hc HL SO ixy).
      + apply Hok.
      + exact HL.
      + exact SO.
      + exact Hi.
      + intros i Hi'. unfold dI. destruct (Z.ltb_spec (Z.of_nat i) (num_params m)); [reflexivity|lia].
  Qed.

  (** ** 'cross-reprojection-ccp' *)
  Lemma follows_moves : forall K T, follows p K d T ->
    moves3 (fun s => rt_r (T s)) 0 (V3 (rsum N (fun k => K 0%nat k * d k)) (rsum N (fun k => K 1%nat k * d k)) (rsum N (fun k => K 2%nat k * d k))) /\
    moves3 (fun s => rt_t (T s)) 0 (V3 (rsum N (fun k => K 3%nat k * d k)) (rsum N (fun k => K 4%nat k * d k)) (rsum N (fun k => K 5%nat k * d k))).
  Proof.
    intros K T [_ H]. split; (split; [|split]); cbn [vx vy vz].
    - exact (H 0%nat ltac:(lia)).
    - exact (H 1%nat ltac:(lia)).
    - exact (H 2%nat ltac:(lia)).
    - exact (H 3%nat ltac:(lia)).
    - exact (H 4%nat ltac:(lia)).
    - exact (H 5%nat ltac:(lia)).
  Qed.
  (** a fixed point seen through a transformation that leaves the identity *)
  Lemma behind_moves : forall (T : R -> rt) (X : v3) (Y : R -> v3) dr dt, T 0 = mkrt v0 v0 -> moves3 (fun s => rt_r (T s)) 0 dr -> moves3 (fun s => rt_t (T s)) 0 dt ->
    (forall s, takes atinfinity (T s) (Y s) X) -> Y 0 = X /\ moves3 Y 0 (vadd (mv (skew_symmetric X) dr) (if atinfinity then v0 else vneg dt)).
  Proof.
    intros T X Y dr dt T0 DR DT H. set (Z := fun s => if atinfinity then X else vsub X (rt_t (T s))).
    assert (forall s, Y s = mul_Rv (rodr (vneg (rt_r (T s)))) (Z s)) as E.
    { intro s. destruct (H s) as (M & HM & EX). apply is_rotvec_rodr in HM. subst M. rewrite mul_Rv_mv, rodr_neg. apply rodr_back. unfold Z. rewrite EX.
      destruct atinfinity; [reflexivity|]. generalize (mv (rodr (rt_r (T s))) (Y s)). intro w. apply v3_eq; vunfold; ring. }
    assert (Z 0 = X) as Z0. { unfold Z. rewrite T0. destruct atinfinity; [reflexivity|]. apply v3_eq; vunfold; cbn; ring. }
    assert (moves3 Z 0 (if atinfinity then v0 else vneg dt)) as DZ.
    { unfold Z. destruct atinfinity; [apply moves3_const|]. apply moves3_ext with (fun s => vadd X (vneg (rt_t (T s)))); [intro s; apply v3_eq; vunfold; ring|].
      replace (vneg dt) with (vadd v0 (vneg dt)) by (apply v3_eq; vunfold; ring). apply moves3_add; [apply moves3_const|now apply vneg_moves]. }
    assert (vneg (rt_r (T 0)) = v0) as R0. { rewrite T0. cbn [rt_r]. apply v3_eq; vunfold; ring. }
    split.
    - rewrite E, R0, rodr_0, mul_Rv_mv, mv_I. exact Z0.
    - apply moves3_ext with (fun s => mul_Rv (rodr (vneg (rt_r (T s)))) (Z s)); [intro s; now rewrite E|].
      pose proof (mulRv_moves (fun s => rodr (vneg (rt_r (T s)))) Z 0 _ _ (rodr_moves0 (fun s => vneg (rt_r (T s))) 0 (vneg dr) (vneg_moves _ _ _ DR) R0) DZ) as D.
      cbv beta in D. rewrite R0, rodr_0, !mul_Rv_mv, mv_I, Z0 in D.
      replace (mv (skew_symmetric X) dr) with (mv (skew_symmetric (vneg dr)) X) by (unfold skew_symmetric; apply v3_eq; vunfold; ring). exact D.
  Qed.
  (** the terms in K *)
  Definition K_terms (g X : v3) (K : nat -> nat -> R) (k : nat) : R :=
    let w := vecmat g (skew_symmetric X) in
    vx w * Kunpacked p K 0 k + vy w * Kunpacked p K 1 k + vz w * Kunpacked p K 2 k -
    (if atinfinity then 0 else vx g * Kunpacked p K 3 k + vy g * Kunpacked p K 4 k + vz g * Kunpacked p K 5 k).
  Lemma K_sum : forall g X K T, follows p K d T ->
    rsum N (fun k => K_terms g X K k * u k) =
    dot g (vadd (mv (skew_symmetric X) (V3 (rsum N (fun k => K 0%nat k * d k)) (rsum N (fun k => K 1%nat k * d k)) (rsum N (fun k => K 2%nat k * d k))))
       (if atinfinity then v0 else vneg (V3 (rsum N (fun k => K 3%nat k * d k)) (rsum N (fun k => K 4%nat k * d k)) (rsum N (fun k => K 5%nat k * d k))))).
  Proof.
    intros g X K T _. unfold K_terms. cbv zeta. set (w := vecmat g (skew_symmetric X)).
    rewrite (rsum_ext N _ (fun k => vx w * (Kunpacked p K 0 k * u k) + vy w * (Kunpacked p K 1 k * u k) + vz w * (Kunpacked p K 2 k * u k) +
      ((if atinfinity then 0 else - vx g) * (Kunpacked p K 3 k * u k) + (if atinfinity then 0 else - vy g) * (Kunpacked p K 4 k * u k) + (if atinfinity then 0 else - vz g) * (Kunpacked p K 5 k * u k))))
      by (intros k _; destruct atinfinity; ring).
    rewrite !rsum_plus, !rsum_scal. unfold u, N, dB. rewrite !(packed_sum c Hok d). fold p. unfold w, skew_symmetric, vecmat, dot. destruct atinfinity; vunfold; ring.
  Qed.
  Lemma ccp_derive : forall K T Y ixy, (ixy = 0 \/ ixy = 1)%Z -> follows p K d T -> (forall s, takes atinfinity (T s) (Y s) p_cam) ->
    is_derive (fun s => p2get (pixel c (params c (B s)) icam (Y s)) ixy) 0 (rsum N (fun k => dq_db_ccp stale p icam intr p_cam atinfinity K ixy k * u k)).
  Proof.
    intros K T Y ixy Hi HT HY. destruct (follows_moves K T HT) as [DR DT]. destruct (behind_moves T p_cam Y _ _ (proj1 HT) DR DT HY) as [Y0 DY].
    eapply is_derive_rw; [exact (pixel_moves Y _ ixy Hi Y0 DY)|]. rewrite <- (K_sum (dq_dpcam stale p intr p_cam ixy) p_cam K T HT). rewrite <- rsum_plus. apply rsum_ext. intros k _.
    unfold dq_db_ccp, K_terms. cbv zeta. destruct atinfinity; ring.
  Qed.

  (** ** the older methods *)
  Definition pvel (T dT : rt) (x : v3) : v3 := vadd (mv (snd (fst (rotJ (rt_r T) x false))) (rt_r dT)) (if atinfinity then v0 else rt_t dT).
  Lemma transform_J_eq : forall T x, transform_J atinfinity T x =
    (snd (fst (rotJ (rt_r T) x false)), if atinfinity then None else Some I3, snd (rotJ (rt_r T) x false)).
  Proof. intros T x. unfold transform_J, transform_point_rt_full, rotate_point_r_full, rotJ. destruct atinfinity; reflexivity. Qed.
  Lemma row_sum : forall g T dT x, rsum 6 (fun l => row_of g (transform_J atinfinity T x) l * pose6 dT l) = dot g (pvel T dT x).
  Proof.
    intros g T dT x. rewrite transform_J_eq. unfold pvel. set (Jr := snd (fst (rotJ (rt_r T) x false))). clearbody Jr. unfold row_of, pose6. cbn [rsum Nat.ltb Nat.leb fst snd Nat.sub].
    unfold vcol, vecmat, dot. destruct atinfinity, dT as [[] []]; vunfold; ring.
  Qed.
  Lemma takes_moves : forall (T : R -> rt) dT (X Y : R -> v3) dX, moves_rt T 0 dT -> moves3 X 0 dX -> angle_ok (rt_r (T 0)) -> (forall s, takes atinfinity (T s) (X s) (Y s)) ->
    moves3 Y 0 (vadd (pvel (T 0) dT (X 0)) (mv (rodr (rt_r (T 0))) dX)).
  Proof.
    intros T dT X Y dX [DR DT] DX HA HY. pose proof (rodr_path (fun s => rt_r (T s)) X 0 _ _ DR DX HA) as K. cbv beta in K.
    pose proof (rotJ_x (rt_r (T 0)) (X 0) HA) as EX. unfold pvel. destruct (rotJ (rt_r (T 0)) (X 0) false) as [[y Jr] Jx]. cbn [fst snd] in EX |- *. subst Jx.
    apply moves3_ext with (fun s => if atinfinity then mv (rodr (rt_r (T s))) (X s) else vadd (mv (rodr (rt_r (T s))) (X s)) (rt_t (T s))).
    { intro s. destruct (HY s) as (M & HM & ->). apply is_rotvec_rodr in HM. now rewrite HM. }
    destruct atinfinity.
    - replace (vadd (vadd (mv Jr (rt_r dT)) v0) (mv (rodr (rt_r (T 0))) dX)) with (vadd (mv Jr (rt_r dT)) (mv (rodr (rt_r (T 0))) dX)); [exact K|].
      generalize (mv Jr (rt_r dT)) (mv (rodr (rt_r (T 0))) dX). intros a b. apply v3_eq; vunfold; ring.
    - replace (vadd (vadd (mv Jr (rt_r dT)) (rt_t dT)) (mv (rodr (rt_r (T 0))) dX)) with (vadd (vadd (mv Jr (rt_r dT)) (mv (rodr (rt_r (T 0))) dX)) (rt_t dT)); [now apply moves3_add|].
      generalize (mv Jr (rt_r dT)) (mv (rodr (rt_r (T 0))) dX). intros a b. apply v3_eq; vunfold; ring.
  Qed.
  Lemma angle_neg : forall r, angle_ok r -> angle_ok (vneg r).
  Proof.
    intros r [-> | H]; [left; apply v3_eq; vunfold; ring|right]. assert (norm (vneg r) = norm r) as -> by (unfold norm; f_equal; vunfold; ring). exact H.
  Qed.
  Lemma goes_back : forall T x y, angle_ok (rt_r T) -> takes atinfinity T x y -> p_frame_of atinfinity T y = x.
  Proof.
    intros [r t] x y HA (M & HM & ->). apply is_rotvec_rodr in HM. cbn [rt_r rt_t] in *. subst M. unfold p_frame_of. cbn [rt_r].
    destruct atinfinity.
    - rewrite (rot_exact (vneg r) _ false (angle_neg r HA)), rodr_neg. symmetry. now apply rodr_back.
    - unfold transform_point_rt. cbn [rt_r rt_t]. rewrite rxrt_real, (rot_exact r _ true HA). symmetry. apply rodr_back. generalize (mv (rodr r) x). intro w. apply v3_eq; vunfold; ring.
  Qed.

  (** lists of poses *)
  Definition lsum {A} (f : A -> R) (l : list A) : R := fold_right (fun a s => f a + s) 0 l.
  Definition cpose (j : Z) (s : R) : rt := if (j <? 0)%Z then mkrt v0 v0 else rt_cam (params c (B s)) j.
  Definition cvel (j : Z) : rt := if (j <? 0)%Z then mkrt v0 v0 else cam_of (still c) dB j.
  Lemma cpose_moves : forall j, (j < p_Nce p)%Z -> moves_rt (cpose j) 0 (cvel j).
  Proof.
    intros j Hj. unfold cpose, cvel. destruct (Z.ltb_spec j 0); [split; apply moves3_const|].
    destruct (cam_moves c (fun s z => B s (Z.to_nat z)) 0 dB state_moves j) as [X Y]. unfold rt_cam. split; cbn [rt_r rt_t].
    - eapply moves3_ext; [|exact X]. intro s. cbv beta. rewrite (cam_unpacked c _ Hok j) by (fold p; lia). reflexivity.
    - eapply moves3_ext; [|exact Y]. intro s. cbv beta. rewrite (cam_unpacked c _ Hok j) by (fold p; lia). reflexivity.
  Qed.
  Lemma frame_pose_moves : forall i, (0 <= i < p_Nframes p)%Z -> moves_rt (fun s => rt_frame (params c (B s)) i) 0 (frame_of (still c) dB i).
  Proof.
    intros i Hi. destruct (frame_moves c (fun s z => B s (Z.to_nat z)) 0 dB state_moves i) as [X Y]. unfold rt_frame. split; cbn [rt_r rt_t].
    - eapply moves3_ext; [|exact X]. intro s. cbv beta. rewrite (frame_unpacked c _ Hok i) by (fold p; lia). reflexivity.
    - eapply moves3_ext; [|exact Y]. intro s. cbv beta. rewrite (frame_unpacked c _ Hok i) by (fold p; lia). reflexivity.
  Qed.
  Lemma to_camera : forall j s x y, takes_to_camera atinfinity (params c (B s)) j x y <-> takes atinfinity (cpose j s) x y.
  Proof.
    intros j s x y. unfold takes_to_camera, cpose. destruct (j <? 0)%Z; [|reflexivity]. unfold takes. cbn [rt_r rt_t]. split.
    - intros ->. exists I3. split; [rewrite <- rodr_0; apply rodr_rotvec|]. rewrite mv_I. destruct atinfinity; [reflexivity|]. apply v3_eq; vunfold; ring.
    - intros (M & HM & ->). apply is_rotvec_rodr in HM. rewrite HM, rodr_0, mv_I. destruct atinfinity; [reflexivity|]. apply v3_eq; vunfold; ring.
  Qed.
  Lemma rsum_6 : forall n f, rsum (n * 6) f = rsum n (fun j => rsum 6 (fun l => f (j * 6 + l)%nat)).
  Proof. induction n as [|n IH]; intro f; [reflexivity|]. replace (S n * 6)%nat with (n * 6 + 6)%nat by lia. rewrite rsum_app, IH. cbn [rsum]. reflexivity. Qed.
  (** consecutive poses in the state *)
  Lemma poses_sum : forall (it : Z -> sitem) (v : Z -> rt) i0 n (g : nat -> R), (0 < n)%nat -> (forall j, (i0 <= j < i0 + Z.of_nat n)%Z -> optimized p (it j) /\ item_size p (it j) = 6%Z /\
      state_index p (it j) = (state_index p (it i0) + 6 * (j - i0))%Z /\ forall l, (l < 6)%nat -> unpack_struct p dB (caller (still c)) (item_loc p (it j) (Z.of_nat l)) = pose6 (v j) l) ->
    rsum N (fun k => (if (state_index p (it i0) <=? Z.of_nat k)%Z && (Z.of_nat k <? state_index p (it i0) + 6 * Z.of_nat n)%Z then g (Z.to_nat (Z.of_nat k - state_index p (it i0))) else 0) * u k) =
    rsum n (fun j => rsum 6 (fun l => g (j * 6 + l)%nat * pose6 (v (i0 + Z.of_nat j)%Z) l)).
  Proof.
    intros it v i0 n g Hn H. set (e0 := state_index p (it i0)) in *.
    assert (0 <= e0)%Z as E0. { destruct (H i0 ltac:(lia)) as (Ho & _). apply (state_in_range p _ Hok Ho). }
    assert (e0 + 6 * Z.of_nat n <= num_states p)%Z as E1. { destruct (H (i0 + Z.of_nat n - 1)%Z ltac:(lia)) as (Ho & E & E' & _). pose proof (proj2 (state_in_range p _ Hok Ho)). lia. }
    rewrite (rsum_window (n * 6) N (Z.to_nat e0)); [rewrite rsum_6; apply rsum_ext; intros j Hj; apply rsum_ext; intros l Hl| |].
    - destruct (H (i0 + Z.of_nat j)%Z ltac:(lia)) as (Ho & E & E' & F). rewrite <- (F l Hl). pose proof (unpack_item c Hok d _ (Z.of_nat l) Ho ltac:(fold p; rewrite E; lia)) as UI. fold p in UI. fold dB in UI. rewrite <- UI, E'. unfold u.
      replace (Z.of_nat (Z.to_nat e0 + (j * 6 + l))) with (e0 + 6 * (i0 + Z.of_nat j - i0) + Z.of_nat l)%Z by lia.
      destruct (Z.leb_spec e0 (e0 + 6 * (i0 + Z.of_nat j - i0) + Z.of_nat l)); [|lia]. destruct (Z.ltb_spec (e0 + 6 * (i0 + Z.of_nat j - i0) + Z.of_nat l) (e0 + 6 * Z.of_nat n)); [|lia]. cbn [andb].
      f_equal. f_equal. lia.
    - unfold N. lia.
    - intros i Hi Ho'. destruct (Z.leb_spec e0 (Z.of_nat i)); destruct (Z.ltb_spec (Z.of_nat i) (e0 + 6 * Z.of_nat n)); cbn [andb]; try ring; lia.
  Qed.
  (** which poses this camera has, and where they are in the state *)
  Definition run (ics : list Z) (ext0 : option Z) : Prop :=
    (exists j, (j < 0)%Z /\ ics = [j] /\ ext0 = None) \/
    (exists i0 n, (0 < n)%nat /\ (0 <= i0)%Z /\ (i0 + Z.of_nat n <= p_Nce p)%Z /\ do_ext (p_sel p) = true /\ ics = map (fun k => (i0 + Z.of_nat k)%Z) (seq 0 n) /\ ext0 = Some (state_index_extrinsics p i0)).
  Lemma lsum_seq : forall n (f : nat -> R), lsum f (seq 0 n) = rsum n f.
  Proof. intros n f. rewrite rsum_list. reflexivity. Qed.
  Lemma lsum_map : forall A A' (h : A -> A') (f : A' -> R) l, lsum f (map h l) = lsum (fun a => f (h a)) l.
  Proof. intros. induction l as [|a l IH]; [reflexivity|]. unfold lsum in *. cbn [map fold_right]. now rewrite IH. Qed.
  Lemma lsum_ext : forall A (f g : A -> R) l, (forall a, In a l -> f a = g a) -> lsum f l = lsum g l.
  Proof. intros A f g l H. induction l as [|a l IH]; [reflexivity|]. cbn. f_equal; [apply H; now left|]. apply IH. intros. apply H. now right. Qed.
  Lemma lsum_scal : forall A (f : A -> R) k l, lsum (fun a => k * f a) l = k * lsum f l.
  Proof. intros A f k l. induction l as [|a l IH]; cbn; [ring|]. unfold lsum in IH. rewrite IH. ring. Qed.
  Lemma lsum_plus : forall A (f g : A -> R) l, lsum (fun a => f a + g a) l = lsum f l + lsum g l.
  Proof. intros A f g l. induction l as [|a l IH]; cbn; [ring|]. unfold lsum in IH. rewrite IH. ring. Qed.
  Lemma ext_item : forall i0 j, do_ext (p_sel p) = true -> (0 <= i0 <= j)%Z -> (j < p_Nce p)%Z -> optimized p (SI_ext j) /\ item_size p (SI_ext j) = 6%Z /\
    state_index_extrinsics p j = (state_index_extrinsics p i0 + 6 * (j - i0))%Z /\ forall l, (l < 6)%nat -> unpack_struct p dB (caller (still c)) (item_loc p (SI_ext j) (Z.of_nat l)) = pose6 (cam_of (still c) dB j) l.
  Proof.
    intros i0 j HE H0 H1. assert (optimized p (SI_ext j)) as Ho by (split; [lia|exact HE]). assert (optimized p (SI_ext i0)) as Ho' by (split; [lia|exact HE]).
    split; [exact Ho|]. split; [reflexivity|]. split.
    - change (state_index p (SI_ext j) = state_index p (SI_ext i0) + 6 * (j - i0))%Z. rewrite !(state_index_closed p _ Hok) by assumption. lia.
    - intros l Hl. apply (pose6_cam c Hok d); [fold p; lia|exact Hl].
  Qed.
  Lemma frame_item : forall j, do_frames (p_sel p) = true -> (0 <= j < p_Nframes p)%Z -> optimized p (SI_frame j) /\ item_size p (SI_frame j) = 6%Z /\
    state_index_frames p j = (state_index_frames p 0 + 6 * (j - 0))%Z /\ forall l, (l < 6)%nat -> unpack_struct p dB (caller (still c)) (item_loc p (SI_frame j) (Z.of_nat l)) = pose6 (frame_of (still c) dB j) l.
  Proof.
    intros j HE H1. assert (optimized p (SI_frame j)) as Ho by (split; [lia|exact HE]). assert (optimized p (SI_frame 0)) as Ho' by (split; [lia|exact HE]).
    split; [exact Ho|]. split; [reflexivity|]. split.
    - change (state_index p (SI_frame j) = state_index p (SI_frame 0) + 6 * (j - 0))%Z. rewrite !(state_index_closed p _ Hok) by assumption. lia.
    - intros l Hl. apply (pose6_frame c Hok d); [fold p; lia|exact Hl].
  Qed.
  Lemma ext_sum : forall ics ext0 ixy, run ics ext0 -> let cams := map (fun j => cpose j 0) ics in
    rsum N (fun k => put_extrinsics stale p intr p_cam atinfinity cams ext0 ixy k 0 * u k) =
    lsum (fun j => dot (dq_dpcam stale p intr p_cam ixy) (pvel (cpose j 0) (cvel j) (p_ref_of p_cam atinfinity (cpose j 0)))) ics / INR (length ics).
  Proof.
    intros ics ext0 ixy [(j & Hj & -> & ->) | (i0 & n & Hn & H0 & H1 & HE & -> & ->)] cams; unfold put_extrinsics.
    - rewrite rsum_0 by (intros; ring). cbn [lsum fold_right length]. unfold cvel, pvel. destruct (Z.ltb_spec j 0); [|lia]. cbn [rt_r rt_t].
      set (M := snd (fst (rotJ _ _ _))). clearbody M. destruct atinfinity; vunfold; cbn; field.
    - set (g := dq_dpcam stale p intr p_cam ixy).
      assert (length cams = n) as Lc by (unfold cams; now rewrite !map_length, seq_length). rewrite map_length, seq_length. rewrite Lc.
      pose proof (poses_sum SI_ext (cam_of (still c) dB) i0 n
        (fun m => let x := nth (m / 6) cams ref_cam in row_of g (transform_J atinfinity x (p_ref_of p_cam atinfinity x)) (m mod 6) / INR n) Hn) as PS. cbn [state_index] in PS.
      etransitivity; [exact (PS ltac:(intros j Hj; apply ext_item; auto; lia))|].
      rewrite lsum_map, lsum_seq. unfold Rdiv at 2. rewrite rsum_scal_r. apply rsum_ext. intros j Hj. rewrite <- row_sum, rsum_scal_r. apply rsum_ext. intros l Hl.
      cbv zeta. rewrite Nat.div_add_l, Nat.div_small, Nat.add_0_r by lia. rewrite Nat.add_comm, Nat.mod_add, Nat.mod_small by lia.
      assert (nth j cams ref_cam = cpose (i0 + Z.of_nat j) 0) as ->.
      { unfold cams. rewrite map_map. rewrite (nth_indep _ ref_cam (cpose (i0 + Z.of_nat 0) 0)) by (rewrite map_length, seq_length; lia).
        rewrite (map_nth (fun k => cpose (i0 + Z.of_nat k) 0)), seq_nth by lia. reflexivity. }
      unfold cvel. destruct (Z.ltb_spec (i0 + Z.of_nat j) 0); [lia|]. unfold Rdiv. ring.
  Qed.


  Lemma fold_lsum : forall A (f : A -> R) l a, fold_left (fun s x => s + f x) l a = a + lsum f l.
  Proof. intros A f l. induction l as [|x l IH]; intro a; unfold lsum in *; cbn [fold_left fold_right]; [ring|]. rewrite IH. ring. Qed.
  Lemma frames_sum : forall ics ixy, do_frames (p_sel p) = true -> (0 < p_Nframes p)%Z -> let cams := map (fun j => cpose j 0) ics in
    rsum N (fun k => put_frames stale p intr (rt_frame S0) p_cam atinfinity cams ixy k 0 * u k) =
    rsum (Z.to_nat (p_Nframes p)) (fun i => let F := rt_frame S0 (Z.of_nat i) in lsum (fun j => let x := p_ref_of p_cam atinfinity (cpose j 0) in
      dot (vecmat (dq_dpcam stale p intr p_cam ixy) (snd (rotJ (rt_r (cpose j 0)) x false))) (pvel F (frame_of (still c) dB (Z.of_nat i)) (p_frame_of atinfinity F x))) ics)
    / INR (length ics) / IZR (p_Nframes p).
  Proof.
    intros ics ixy HD HN cams. unfold put_frames, maybe_index. set (n := Z.to_nat (p_Nframes p)). assert (p_Nframes p = Z.of_nat n) as En by (unfold n; lia).
    pose proof (proj1 (state_in_range p (SI_frame 0) Hok (conj (conj (Z.le_refl 0) HN) HD))) as F0. cbn [state_index] in F0.
    destruct (Z.ltb_spec (state_index_frames p 0) 0); [lia|]. assert (length cams = length ics) as Lc by (unfold cams; apply map_length). rewrite Lc.
    pose proof (poses_sum SI_frame (frame_of (still c) dB) 0 n
      (fun m => fold_left (fun s x => s + dq_dframe stale p intr p_cam atinfinity ixy (rt_frame S0 (Z.of_nat (m / 6))) x (m mod 6)) cams 0 / INR (length ics) / IZR (p_Nframes p)) ltac:(lia)) as PS. cbn [state_index] in PS.
    etransitivity; [|etransitivity; [exact (PS ltac:(intros j Hj; apply frame_item; auto; lia))|]].
    - apply rsum_ext. intros k _. rewrite <- En, (Z.mul_comm 6). reflexivity.
    - unfold Rdiv. rewrite !rsum_scal_r. apply rsum_ext. intros i Hi. cbv zeta. rewrite Z.add_0_l.
      rewrite (rsum_ext 6 _ (fun l => lsum (fun j => dq_dframe stale p intr p_cam atinfinity ixy (rt_frame S0 (Z.of_nat i)) (cpose j 0) l * pose6 (frame_of (still c) dB (Z.of_nat i)) l) ics * (/ INR (length ics) * / IZR (p_Nframes p)))).
      + rewrite <- rsum_scal_r, <- Rmult_assoc. f_equal. f_equal.
        assert (forall l, rsum 6 (fun k => lsum (l k) ics) = lsum (fun j => rsum 6 (fun k => l k j)) ics) as SW.
        { intro l. clear. induction ics as [|a ics IH]; [cbn; ring|]. unfold lsum in *. cbn [fold_right]. rewrite <- IH, rsum_plus. reflexivity. }
        rewrite SW. apply lsum_ext. intros j _. cbv zeta. rewrite <- row_sum. apply rsum_ext. intros l _. unfold dq_dframe. cbv zeta. rewrite transform_J_eq. cbn [snd]. reflexivity.
      + intros l Hl. rewrite Nat.div_add_l, Nat.div_small, Nat.add_0_r by lia. rewrite Nat.add_comm, Nat.mod_add, Nat.mod_small by lia.
        rewrite fold_lsum. unfold cams. rewrite lsum_map, Rplus_0_l. set (w := pose6 _ _). rewrite (lsum_ext _ (fun j => dq_dframe stale p intr p_cam atinfinity ixy (rt_frame S0 (Z.of_nat i)) (cpose j 0) l * w) (fun j => w * dq_dframe stale p intr p_cam atinfinity ixy (rt_frame S0 (Z.of_nat i)) (cpose j 0) l)) by (intros; ring).
        rewrite lsum_scal. ring.
  Qed.
  (** the blocks of the state don't overlap *)
  Lemma intr_window : forall ixy k, (num_states_intrinsics p <= Z.of_nat k)%Z -> put_intrinsics p icam intr p_cam ixy k = 0.
  Proof.
    intros ixy k Hk. unfold put_intrinsics, slice_intrinsics, maybe_index. destruct (Z.ltb_spec (state_index_intrinsics p icam) 0) as [L|L]; [reflexivity|].
    match goal with |- (if ?b then _ else _) = _ => destruct b eqn:E; [|reflexivity] end. exfalso. apply andb_prop in E. destruct E as [E1 E2]. apply Z.leb_le in E1. apply Z.ltb_lt in E2.
    unfold state_index_intrinsics in *. unfold num_states_intrinsics in Hk. set (n := num_intrinsics_opt (p_sel p) (p_lens p)) in *.
    destruct (p_Nci p <=? 0)%Z; [lia|]. destruct (n <=? 0)%Z; [lia|]. destruct (negb _); [lia|]. nia.
  Qed.
  Lemma ext_window : forall ics ext0 ixy k x, run ics ext0 ->
    put_extrinsics stale p intr p_cam atinfinity (map (fun j => cpose j 0) ics) ext0 ixy k x =
    put_extrinsics stale p intr p_cam atinfinity (map (fun j => cpose j 0) ics) ext0 ixy k 0 + (if (num_states_intrinsics p <=? Z.of_nat k)%Z && (Z.of_nat k <? num_states_intrinsics p + num_states_extrinsics p)%Z then
       match ext0 with Some e0 => if (e0 <=? Z.of_nat k)%Z && (Z.of_nat k <? e0 + 6 * Z.of_nat (length ics))%Z then 0 else x | None => x end else x).
  Proof.
    intros ics ext0 ixy k x [(j & Hj & -> & ->) | (i0 & n & Hn & H0 & H1 & HE & -> & ->)]; unfold put_extrinsics.
    - destruct (_ && _)%bool; ring.
    - rewrite !map_length, seq_length.
      assert (state_index_extrinsics p i0 = num_states_intrinsics p + i0 * 6)%Z as E. { assert (optimized p (SI_ext i0)) as Ho by (split; [lia|exact HE]). exact (state_index_closed p _ Hok Ho). }
      rewrite E. assert (num_states_extrinsics p = 6 * p_Nce p)%Z as E' by (unfold num_states_extrinsics; now rewrite HE).
      destruct (Z.leb_spec (num_states_intrinsics p + i0 * 6) (Z.of_nat k)), (Z.ltb_spec (Z.of_nat k) (num_states_intrinsics p + i0 * 6 + 6 * Z.of_nat n)); cbn [andb];
      destruct (Z.leb_spec (num_states_intrinsics p) (Z.of_nat k)), (Z.ltb_spec (Z.of_nat k) (num_states_intrinsics p + num_states_extrinsics p)); cbn [andb]; try ring; lia.
  Qed.
  Lemma split2 : forall ics ext0 ixy k, run ics ext0 ->
    put_extrinsics stale p intr p_cam atinfinity (map (fun j => cpose j 0) ics) ext0 ixy k (put_intrinsics p icam intr p_cam ixy k) =
    put_extrinsics stale p intr p_cam atinfinity (map (fun j => cpose j 0) ics) ext0 ixy k 0 + put_intrinsics p icam intr p_cam ixy k.
  Proof.
    intros ics ext0 ixy k HR. rewrite ext_window by exact HR. f_equal. destruct (Z.leb_spec (num_states_intrinsics p) (Z.of_nat k)); cbn [andb]; [|reflexivity].
    rewrite intr_window by lia. destruct (Z.ltb _ _), ext0; try reflexivity; destruct (_ && _)%bool; reflexivity.
  Qed.
  Lemma split3 : forall ics ext0 ixy k, run ics ext0 ->
    dq_db_mean_pcam stale p icam intr (rt_frame S0) p_cam atinfinity (map (fun j => cpose j 0) ics) ext0 ixy k =
    put_frames stale p intr (rt_frame S0) p_cam atinfinity (map (fun j => cpose j 0) ics) ixy k 0 + put_extrinsics stale p intr p_cam atinfinity (map (fun j => cpose j 0) ics) ext0 ixy k 0 + put_intrinsics p icam intr p_cam ixy k.
  Proof.
    intros ics ext0 ixy k HR. unfold dq_db_mean_pcam. rewrite split2 by exact HR. set (x := put_extrinsics _ _ _ _ _ _ _ _ _ 0). set (y := put_intrinsics _ _ _ _ _ _).
    unfold put_frames, maybe_index. destruct (Z.ltb_spec (state_index_frames p 0) 0) as [L|L]; [ring|].
    match goal with |- (if ?b then _ else _) = _ => destruct b eqn:E; [|ring] end. apply andb_prop in E. destruct E as [E1 E2]. apply Z.leb_le in E1. apply Z.ltb_lt in E2.
    assert (state_index_frames p 0 = num_states_intrinsics p + num_states_extrinsics p)%Z as EF.
    { unfold state_index_frames in *. destruct (p_Nframes p <=? 0)%Z; [lia|]. destruct (negb _); [lia|]. destruct (negb _); lia. }
    pose proof (regions_ordered p Hok) as RO.
    assert (y = 0) as -> by (unfold y; apply intr_window; lia). assert (x = 0) as ->; [|ring].
    pose proof (ext_window ics ext0 ixy k 0 HR) as EW. fold x in EW. unfold x. pose proof (ext_window ics ext0 ixy k 1 HR) as EW1.
    destruct HR as [(j & Hj & -> & ->) | (i0 & n & Hn & H0 & H1 & HE & -> & ->)]; unfold put_extrinsics; [reflexivity|]. rewrite !map_length, seq_length.
    assert (state_index_extrinsics p i0 = num_states_intrinsics p + i0 * 6)%Z as Ei. { assert (optimized p (SI_ext i0)) as Ho by (split; [lia|exact HE]). exact (state_index_closed p _ Hok Ho). }
    assert (num_states_extrinsics p = 6 * p_Nce p)%Z as E' by (unfold num_states_extrinsics; now rewrite HE).
    destruct (Z.ltb_spec (Z.of_nat k) (state_index_extrinsics p i0 + 6 * Z.of_nat n)); [lia|]. now rewrite andb_false_r.
  Qed.

  (** *** means *)
  Lemma moves3_vsum : forall A (Q : A -> R -> v3) (W : A -> v3) l, (forall a, In a l -> moves3 (Q a) 0 (W a)) -> moves3 (fun s => vsum (map (fun a => Q a s) l)) 0 (vsum (map W l)).
  Proof.
    intros A Q W l H. induction l as [|a l IH]; cbn [map vsum fold_right]; [apply moves3_const|]. apply (moves3_add (Q a)); [apply H; now left|]. apply IH. intros. apply H. now right.
  Qed.
  Lemma moves3_scale : forall F k dF, moves3 F 0 dF -> moves3 (fun s => vscale k (F s)) 0 (vscale k dF).
  Proof. intros F k dF (X & Y & Z). split; [|split]; cbn [vscale vx vy vz]; apply is_derive_scal; assumption. Qed.
  Lemma dot_vsum : forall A g (W : A -> v3) l, dot g (vsum (map W l)) = lsum (fun a => dot g (W a)) l.
  Proof. intros A g W l. unfold lsum. induction l as [|a l IH]; cbn [map vsum fold_right]; [vunfold; cbn; ring|]. rewrite <- IH. fold (vsum (map W l)). generalize (vsum (map W l)). intro w. vunfold. ring. Qed.
  Lemma dot_scale : forall g k w, dot g (vscale k w) = k * dot g w.
  Proof. intros. vunfold. ring. Qed.
  Lemma vsum_const : forall x l, (forall y, In y l -> y = x) -> vsum l = vscale (INR (length l)) x.
  Proof.
    intros x l H. induction l as [|a l IH]; [apply v3_eq; vunfold; cbn; ring|]. cbn [vsum fold_right]. fold (vsum l). rewrite IH by (intros; apply H; now right). rewrite (H a (or_introl eq_refl)).
    cbn [length]. rewrite S_INR. apply v3_eq; vunfold; ring.
  Qed.
  Lemma mean_const : forall x l, l <> [] -> (forall y, In y l -> y = x) -> mean l = x.
  Proof.
    intros x l HN H. unfold mean. rewrite (vsum_const x l H). assert (INR (length l) <> 0) by (apply not_0_INR; destruct l; [contradiction|discriminate]). apply v3_eq; vunfold; field; assumption.
  Qed.
  Lemma mean_moves : forall A (Q : A -> R -> v3) (W : A -> v3) l, (forall a, In a l -> moves3 (Q a) 0 (W a)) -> moves3 (fun s => mean (map (fun a => Q a s) l)) 0 (mean (map W l)).
  Proof. intros A Q W l H. unfold mean. rewrite map_length. apply moves3_ext with (fun s => vscale (1 / INR (length l)) (vsum (map (fun a => Q a s) l))); [intro s; now rewrite map_length|]. apply moves3_scale. now apply moves3_vsum. Qed.
  Lemma dot_mean : forall A g (W : A -> v3) l, dot g (mean (map W l)) = lsum (fun a => dot g (W a)) l / INR (length l).
  Proof. intros. unfold mean. rewrite dot_scale, dot_vsum, map_length. unfold Rdiv. ring. Qed.

  Lemma dot_vecmat : forall g M x, dot g (mv M x) = dot (vecmat g M) x.
  Proof. intros. unfold vecmat. vunfold. ring. Qed.
  Lemma dot_add : forall g a b, dot g (vadd a b) = dot g a + dot g b.
  Proof. intros. vunfold. ring. Qed.
  Lemma run_range : forall ics ext0 j, run ics ext0 -> In j ics -> (j < p_Nce p)%Z.
  Proof.
    intros ics ext0 j [(i & Hi & -> & ->) | (i0 & n & Hn & H0 & H1 & HE & -> & ->)] HI.
    - destruct HI as [<-|[]]. pose proof (proj2 Hok). destruct Hok as (_ & ? & ? & _). lia.
    - apply in_map_iff in HI. destruct HI as (k & <- & HI). apply in_seq in HI. lia.
  Qed.
  Lemma run_nonempty : forall ics ext0, run ics ext0 -> ics <> [].
  Proof. intros ics ext0 [(i & Hi & -> & ->) | (i0 & n & Hn & H0 & H1 & HE & -> & ->)]; [discriminate|]. destruct n; [lia|discriminate]. Qed.

  Lemma lsum_app : forall A (f : A -> R) l l', lsum f (l ++ l')%list = lsum f l + lsum f l'.
  Proof. intros A f l l'. unfold lsum. induction l as [|a l IH]; cbn [app fold_right]; [ring|]. rewrite IH. ring. Qed.
  Lemma lsum_prod : forall A A' (f : A * A' -> R) l l', lsum f (list_prod l l') = lsum (fun a => lsum (fun b => f (a, b)) l') l.
  Proof. intros A A' f l l'. induction l as [|a l IH]; [reflexivity|]. cbn [list_prod]. rewrite lsum_app, lsum_map, IH. reflexivity. Qed.
  Lemma lsum_const : forall A k (l : list A), lsum (fun _ => k) l = INR (length l) * k.
  Proof. intros A k l. unfold lsum. induction l as [|a l IH]; cbn [fold_right length]; [cbn; ring|]. rewrite IH, S_INR. ring. Qed.
  Definition frames : list Z := map Z.of_nat (seq 0 (Z.to_nat (p_Nframes p))).
  Lemma mean_derive : forall ics ext0 (X : Z -> Z -> v3) (P Q : Z -> Z -> R -> v3) ixy, (ixy = 0 \/ ixy = 1)%Z -> run ics ext0 -> do_frames (p_sel p) = true -> (0 < p_Nframes p)%Z ->
    (forall j, In j ics -> angle_ok (rt_r (cpose j 0))) -> (forall i, In i frames -> angle_ok (rt_r (rt_frame S0 i))) ->
    (forall i j s, In i frames -> In j ics -> takes atinfinity (rt_frame (params c (B s)) i) (X i j) (P i j s) /\ takes atinfinity (cpose j s) (P i j s) (Q i j s)) ->
    (forall i j, In i frames -> In j ics -> Q i j 0 = p_cam) ->
    is_derive (fun s => p2get (pixel c (params c (B s)) icam (mean (map (fun ij => Q (fst ij) (snd ij) s) (list_prod frames ics)))) ixy) 0
      (rsum N (fun k => dq_db_mean_pcam stale p icam intr (rt_frame S0) p_cam atinfinity (map (fun j => cpose j 0) ics) ext0 ixy k * u k)).
  Proof.
    intros ics ext0 X P Q ixy Hi HR HD HN HA HAF HQ HQ0. set (g := dq_dpcam stale p intr p_cam ixy).
    set (W := fun ij : Z * Z => let i := fst ij in let j := snd ij in vadd (pvel (cpose j 0) (cvel j) (P i j 0)) (mv (rodr (rt_r (cpose j 0))) (vadd (pvel (rt_frame S0 i) (frame_of (still c) dB i) (X i j)) (mv (rodr (rt_r (rt_frame S0 i))) v0)))).
    assert (forall i, In i frames -> (0 <= i < p_Nframes p)%Z) as FR. { intros i H. unfold frames in H. apply in_map_iff in H. destruct H as (k & <- & H). apply in_seq in H. lia. }
    assert (forall ij, In ij (list_prod frames ics) -> moves3 (fun s => Q (fst ij) (snd ij) s) 0 (W ij)) as MW.
    { intros [i j] H. apply in_prod_iff in H. destruct H as [H1 H2]. cbn [fst snd]. unfold W. cbn [fst snd].
      apply (takes_moves (cpose j) (cvel j) (P i j) (Q i j)); [apply cpose_moves; now apply (run_range ics ext0)| |auto|intro s; now apply HQ].
      apply (takes_moves (fun s => rt_frame (params c (B s)) i) (frame_of (still c) dB i) (fun _ => X i j) (P i j)); [apply frame_pose_moves; auto|apply moves3_const|apply HAF; auto|intro s; now apply HQ]. }
    assert (list_prod frames ics <> []) as NE.
    { pose proof (run_nonempty ics ext0 HR). unfold frames. destruct ics as [|j ics]; [congruence|]. destruct (Z.to_nat (p_Nframes p)) eqn:E; [lia|]. cbn. discriminate. }
    eapply is_derive_rw; [apply (pixel_moves (fun s => mean (map (fun ij => Q (fst ij) (snd ij) s) (list_prod frames ics))) (mean (map W (list_prod frames ics))) ixy Hi)|].
    - apply mean_const; [intro E; apply map_eq_nil in E; contradiction|]. intros y Hy. apply in_map_iff in Hy. destruct Hy as ([i j] & <- & H). apply in_prod_iff in H. now apply HQ0.
    - apply (mean_moves _ (fun ij s => Q (fst ij) (snd ij) s)). exact MW.
    - fold g. rewrite dot_mean, lsum_prod, prod_length.
      transitivity (rsum N (fun k => put_frames stale p intr (rt_frame S0) p_cam atinfinity (map (fun j => cpose j 0) ics) ixy k 0 * u k) +
        rsum N (fun k => put_extrinsics stale p intr p_cam atinfinity (map (fun j => cpose j 0) ics) ext0 ixy k 0 * u k) + rsum N (fun k => put_intrinsics p icam intr p_cam ixy k * u k));
        [|rewrite <- !rsum_plus; apply rsum_ext; intros k _; rewrite (split3 ics ext0 ixy k HR); ring].
      rewrite (frames_sum ics ixy HD HN), (ext_sum ics ext0 ixy HR). fold g.
      rewrite (lsum_ext _ _ (fun i => lsum (fun j => dot g (pvel (cpose j 0) (cvel j) (p_ref_of p_cam atinfinity (cpose j 0)))) ics +
         lsum (fun j => dot (vecmat g (snd (rotJ (rt_r (cpose j 0)) (p_ref_of p_cam atinfinity (cpose j 0)) false)))
            (pvel (rt_frame S0 i) (frame_of (still c) dB i) (p_frame_of atinfinity (rt_frame S0 i) (p_ref_of p_cam atinfinity (cpose j 0))))) ics)).
      2: { intros i H1. rewrite <- lsum_plus. apply lsum_ext. intros j H2. unfold W. cbn [fst snd]. destruct (HQ i j 0 H1 H2) as [TP TQ]. rewrite (HQ0 i j H1 H2) in TQ.
           assert (p_ref_of p_cam atinfinity (cpose j 0) = P i j 0) as -> by exact (goes_back _ _ _ (HA j H2) TQ).
           fold S0 in TP. rewrite (goes_back _ _ _ (HAF i H1) TP), dot_add, dot_vecmat, (rotJ_x _ _ (HA j H2)). f_equal. f_equal. set (x := pvel _ _ _). generalize (rodr (rt_r (rt_frame S0 i))). intro M. clearbody x. apply v3_eq; vunfold; ring. }
      rewrite lsum_plus, lsum_const. unfold frames. rewrite lsum_map, lsum_seq, !map_length, !seq_length.
      assert (IZR (p_Nframes p) = INR (Z.to_nat (p_Nframes p))) as -> by (rewrite INR_IZR_INZ; f_equal; lia). rewrite mult_INR.
      assert (INR (length ics) <> 0). { apply not_0_INR. pose proof (run_nonempty ics ext0 HR). destruct ics; [congruence|discriminate]. }
      assert (INR (Z.to_nat (p_Nframes p)) <> 0) by (apply not_0_INR; lia). cbv zeta. match goal with |- ?a = ?b => change (@eq R a b) end. field. split; assumption.
  Qed.
  Lemma mean_derive_fixed : forall ics ext0 (P : Z -> v3) (Q : Z -> R -> v3) ixy, (ixy = 0 \/ ixy = 1)%Z -> run ics ext0 -> do_frames (p_sel p) = false ->
    (forall j, In j ics -> angle_ok (rt_r (cpose j 0))) -> (forall j s, In j ics -> takes atinfinity (cpose j s) (P j) (Q j s)) -> (forall j, In j ics -> Q j 0 = p_cam) ->
    is_derive (fun s => p2get (pixel c (params c (B s)) icam (mean (map (fun j => Q j s) ics))) ixy) 0
      (rsum N (fun k => dq_db_mean_pcam stale p icam intr (rt_frame S0) p_cam atinfinity (map (fun j => cpose j 0) ics) ext0 ixy k * u k)).
  Proof.
    intros ics ext0 P Q ixy Hi HR HD HA HQ HQ0. set (g := dq_dpcam stale p intr p_cam ixy).
    set (W := fun j => vadd (pvel (cpose j 0) (cvel j) (P j)) (mv (rodr (rt_r (cpose j 0))) v0)).
    assert (forall j, In j ics -> moves3 (Q j) 0 (W j)) as MW.
    { intros j H. apply (takes_moves (cpose j) (cvel j) (fun _ => P j) (Q j)); [apply cpose_moves; now apply (run_range ics ext0)|apply moves3_const|auto|auto]. }
    eapply is_derive_rw; [apply (pixel_moves (fun s => mean (map (fun j => Q j s) ics)) (mean (map W ics)) ixy Hi)|].
    - apply mean_const; [intro E; apply map_eq_nil in E; exact (run_nonempty ics ext0 HR E)|]. intros y Hy. apply in_map_iff in Hy. destruct Hy as (j & <- & H). now apply HQ0.
    - now apply mean_moves.
    - fold g. rewrite dot_mean.
      transitivity (rsum N (fun k => put_extrinsics stale p intr p_cam atinfinity (map (fun j => cpose j 0) ics) ext0 ixy k 0 * u k) + rsum N (fun k => put_intrinsics p icam intr p_cam ixy k * u k)).
      + rewrite (ext_sum ics ext0 ixy HR). fold g. rewrite Rplus_comm. f_equal. f_equal. apply lsum_ext. intros j H. unfold W. pose proof (HQ j 0 H) as TQ. rewrite (HQ0 j H) in TQ.
        assert (p_ref_of p_cam atinfinity (cpose j 0) = P j) as -> by exact (goes_back _ _ _ (HA j H) TQ). f_equal. set (x := pvel _ _ _). generalize (rodr (rt_r (cpose j 0))). intro M. clearbody x. apply v3_eq; vunfold; ring.
      + rewrite <- !rsum_plus. apply rsum_ext. intros k _. unfold dq_db_mean_pcam, put_frames, maybe_index.
        assert (state_index_frames p 0 < 0)%Z as L. { unfold state_index_frames. rewrite HD. destruct (p_Nframes p <=? 0)%Z; cbn; lia. }
        destruct (Z.ltb_spec (state_index_frames p 0) 0); [|lia]. rewrite (split2 ics ext0 ixy k HR). ring.
  Qed.
  Lemma rrp_derive : forall j ext0 K T (Pr : v3) (P Y : R -> v3) ixy, (ixy = 0 \/ ixy = 1)%Z -> run [j] ext0 -> angle_ok (rt_r (cpose j 0)) -> follows p K d T ->
    takes atinfinity (cpose j 0) Pr p_cam -> (forall s, takes atinfinity (T s) (P s) Pr) -> (forall s, takes atinfinity (cpose j s) (P s) (Y s)) ->
    is_derive (fun s => p2get (pixel c (params c (B s)) icam (Y s)) ixy) 0
      (rsum N (fun k => dq_db_rrp stale p icam intr p_cam atinfinity [cpose j 0] ext0 K ixy k * u k)).
  Proof.
    intros j ext0 K T Pr P Y ixy Hi HR HA HT HP0 HP HY. set (g := dq_dpcam stale p intr p_cam ixy). destruct (follows_moves K T HT) as [DR DT]. destruct (behind_moves T Pr P _ _ (proj1 HT) DR DT HP) as [P0 DP].
    pose proof (takes_moves (cpose j) (cvel j) P Y _ (cpose_moves j (run_range [j] ext0 j HR (or_introl eq_refl))) DP HA HY) as DY.
    assert (Y 0 = p_cam) as Y0. { destruct (HY 0) as (M & HM & ->), HP0 as (M' & HM' & ->). apply is_rotvec_rodr in HM, HM'. now rewrite HM, HM', P0. }
    eapply is_derive_rw; [exact (pixel_moves Y _ ixy Hi Y0 DY)|]. fold g. rewrite dot_add, P0, dot_vecmat.
    rewrite <- (K_sum (vecmat g (rodr (rt_r (cpose j 0)))) Pr K T HT).
    assert (p_ref_of p_cam atinfinity (cpose j 0) = Pr) as EP by exact (goes_back _ _ _ HA HP0).
    pose proof (ext_sum [j] ext0 ixy HR) as ES. cbn [lsum fold_right length map] in ES. rewrite EP in ES. fold g in ES.
    assert (forall x, (x + 0) / INR 1 = x) as E1 by (intro x; cbn; field). rewrite E1 in ES. rewrite <- ES. rewrite <- !rsum_plus. apply rsum_ext. intros k _.
    unfold dq_db_rrp, K_terms. cbn [nth]. cbv zeta. pose proof (split2 [j] ext0 ixy k HR) as SP. cbn [map] in SP. rewrite SP, EP, transform_J_eq. cbn [snd]. rewrite (rotJ_x _ _ HA). fold g. destruct atinfinity; ring.
  Qed.
End Main.

(** ** the poses of this camera *)
Lemma insert_in : forall x l y, In y (insert x l) <-> y = x \/ In y l.
Proof.
  intros x l y. induction l as [|a l IH]; cbn [insert In]; [intuition congruence|]. destruct (Z.ltb_spec x a); [cbn [In]; intuition congruence|]. destruct (Z.eqb_spec x a); cbn [In].
  - subst. intuition congruence.
  - rewrite IH. intuition congruence.
Qed.
Lemma insert_sorted : forall x l, StronglySorted Z.lt l -> StronglySorted Z.lt (insert x l).
Proof.
  intros x l H. induction H as [|a l HS IH HF]; cbn [insert]; [repeat constructor|]. destruct (Z.ltb_spec x a).
  - constructor; [now constructor|]. constructor; [exact H|]. apply List.Forall_forall. intros y Hy. rewrite List.Forall_forall in HF. specialize (HF y Hy). lia.
  - destruct (Z.eqb_spec x a); [now constructor|]. constructor; [exact IH|]. apply List.Forall_forall. intros y Hy. apply insert_in in Hy. rewrite List.Forall_forall in HF. destruct Hy as [-> | Hy]; [lia|now apply HF].
Qed.
Lemma unique_in : forall l y, In y (unique l) <-> In y l.
Proof. intros l y. induction l as [|a l IH]; [reflexivity|]. unfold unique in *. cbn [fold_right]. rewrite insert_in, IH. cbn [In]. intuition congruence. Qed.
Lemma unique_sorted : forall l, StronglySorted Z.lt (unique l).
Proof. induction l as [|a l IH]; [constructor|]. unfold unique in *. cbn [fold_right]. now apply insert_sorted. Qed.
Lemma this_camera_in : forall p icam j, In j (this_camera p icam) <-> seen p icam j.
Proof.
  intros p icam j. unfold this_camera. rewrite unique_in, in_app_iff, !in_map_iff. unfold seen. split.
  - intros [(o & <- & H)|(o & <- & H)]; apply filter_In in H; destruct H as [H E]; apply Z.eqb_eq in E; [left|right]; exists o; auto.
  - intros [(o & H & E & <-)|(o & H & E & <-)]; [left|right]; exists o; (split; [reflexivity|]); apply filter_In; (split; [exact H|]); now apply Z.eqb_eq.
Qed.
Lemma this_camera_nodup : forall p icam, NoDup (this_camera p icam).
Proof. intros. apply sorted_nodup, unique_sorted. Qed.
Lemma consecutive_run : forall r i0, consecutive (i0 :: r) = true -> i0 :: r = map (fun k => (i0 + Z.of_nat k)%Z) (seq 0 (length (i0 :: r))).
Proof.
  induction r as [|a r IH]; intros i0 H; [cbn; f_equal; lia|]. cbn [consecutive] in H. apply andb_prop in H. destruct H as [E H]. apply Z.eqb_eq in E. specialize (IH a H).
  change (length (i0 :: a :: r)) with (S (length (a :: r))). cbn [seq map]. rewrite <- seq_shift, map_map. f_equal; [lia|]. rewrite IH at 1. apply map_ext. intro k. lia.
Qed.
Lemma seen_range : forall p icam j, obs_ok p -> seen p icam j -> (j < p_Nce p)%Z.
Proof.
  intros p icam j (H1 & H2 & _) [(o & I & _ & <-)|(o & I & _ & <-)]; rewrite List.Forall_forall in *; [specialize (H1 o I)|specialize (H2 o I)]; lia.
Qed.
Lemma run_of : forall p icam i0 r e0, obs_ok p -> this_camera p icam = i0 :: r -> consecutive (i0 :: r) = true -> (0 <= i0)%Z -> maybe_index (state_index_extrinsics p i0) = Some e0 ->
  (exists i1 n, (0 < n)%nat /\ (0 <= i1)%Z /\ (i1 + Z.of_nat n <= p_Nce p)%Z /\ do_ext (p_sel p) = true /\ i0 :: r = map (fun k => (i1 + Z.of_nat k)%Z) (seq 0 n) /\ Some e0 = Some (state_index_extrinsics p i1)).
Proof.
  intros p icam i0 r e0 HO HT HC H0 HE. pose proof (consecutive_run r i0 HC) as ER. exists i0, (length (i0 :: r)). unfold maybe_index in HE. destruct (Z.ltb_spec (state_index_extrinsics p i0) 0); [discriminate|]. injection HE as <-.
  split; [cbn; lia|]. split; [exact H0|]. split.
  - assert (In (i0 + Z.of_nat (length r))%Z (this_camera p icam)) as I. { rewrite HT, ER. apply in_map_iff. exists (length r). split; [reflexivity|]. apply in_seq. cbn [length]. lia. }
    apply this_camera_in in I. apply (seen_range p icam _ HO) in I. cbn [length]. lia.
  - split; [|split; [exact ER|reflexivity]]. unfold state_index_extrinsics in *. destruct (p_Nce p <=? 0)%Z; [lia|]. destruct (do_ext (p_sel p)); [reflexivity|cbn in *; lia].
Qed.
Lemma map_at : forall A (f g : Z -> A) l, (forall x, In x l -> f x = g x) -> map f l = map g l.
Proof. intros. now apply map_ext_in. Qed.
(** what the older methods return *)
Lemma dq_db_inv : forall stale c icam intr frame p_cam atinfinity B method K D, problem_ok (c_p c) -> obs_ok (c_p c) -> method <> Cross_ccp ->
  dq_db stale (c_p c) icam intr (rt_cam (params c (B 0))) frame p_cam atinfinity method K = inl D ->
  exists ics ext0, run c ics ext0 /\ NoDup ics /\ (forall j, In j ics <-> seen (c_p c) icam j) /\ let cams := map (fun j => cpose c B j 0) ics in
    (method = Mean_pcam /\ D = dq_db_mean_pcam stale (c_p c) icam intr frame p_cam atinfinity cams ext0 /\ (do_frames (p_sel (c_p c)) = true -> (0 < p_Nframes (c_p c))%Z) \/
     method = Cross_rrp /\ (exists j, ics = [j]) /\ D = dq_db_rrp stale (c_p c) icam intr p_cam atinfinity cams ext0 (K (-1)%Z)).
Proof.
  intros stale c icam intr frame p_cam atinfinity B method K D Hok HO HM E. unfold dq_db in E. set (p := c_p c) in *.
  destruct (this_camera p icam) as [|i0 r] eqn:TC.
  { exfalso. destruct method; [|discriminate|congruence]. destruct (do_frames (p_sel p)); [|discriminate]. destruct (_ || _)%bool; [discriminate|]. destruct (p_Nframes p <=? 0)%Z; discriminate. }
  pose proof (this_camera_nodup p icam) as ND. rewrite TC in ND.
  assert (forall j, In j (i0 :: r) <-> seen p icam j) as IN by (intro j; rewrite <- TC; apply this_camera_in).
  set (go := fun cams ext0 => match slice_intrinsics p icam with None => inr Unbound_local | Some _ => match method with Mean_pcam => inl (dq_db_mean_pcam stale p icam intr frame p_cam atinfinity cams ext0)
      | _ => match cams with [_] => inl (dq_db_rrp stale p icam intr p_cam atinfinity cams ext0 (K (-1)%Z)) | _ => inr Moving_with_rrp end end end) in *.
  assert ((do_frames (p_sel p) = true -> method = Mean_pcam -> (0 < p_Nframes p)%Z) /\ (if negb (consecutive (i0 :: r)) then inr Not_consecutive else
     if (i0 <? 0)%Z then match r with [] => go [ref_cam] None | _ => inr Moving_through_reference end else match maybe_index (state_index_extrinsics p i0) with None => inr Type_error | Some e0 => go (map (rt_cam (params c (B 0))) (i0 :: r)) (Some e0) end) = inl D) as [HF E'].
  { destruct method; [|split; [discriminate|exact E]|congruence]. destruct (do_frames (p_sel p)); [|split; [discriminate|exact E]]. destruct (_ || _)%bool; [discriminate|]. destruct (Z.leb_spec (p_Nframes p) 0); [discriminate|]. split; [lia|exact E]. }
  clear E. destruct (consecutive (i0 :: r)) eqn:CN; [|discriminate]. cbn [negb] in E'.
  assert (forall ics ext0, run c ics ext0 -> ics = i0 :: r -> go (map (fun j => cpose c B j 0) ics) ext0 = inl D -> exists ics ext0, run c ics ext0 /\ NoDup ics /\ (forall j, In j ics <-> seen p icam j) /\ let cams := map (fun j => cpose c B j 0) ics in
    (method = Mean_pcam /\ D = dq_db_mean_pcam stale p icam intr frame p_cam atinfinity cams ext0 /\ (do_frames (p_sel p) = true -> (0 < p_Nframes p)%Z) \/
     method = Cross_rrp /\ (exists j, ics = [j]) /\ D = dq_db_rrp stale p icam intr p_cam atinfinity cams ext0 (K (-1)%Z))) as FIN.
  { intros ics ext0 HR -> EG. exists (i0 :: r), ext0. split; [exact HR|]. split; [exact ND|]. split; [exact IN|]. cbv zeta. unfold go in EG. destruct (slice_intrinsics p icam); [|discriminate]. destruct method; [left|right|congruence].
    - split; [reflexivity|]. split; [congruence|]. intro HD. now apply HF.
    - split; [reflexivity|]. destruct r; [|discriminate]. split; [eexists; reflexivity|]. cbn [map] in *. congruence. }
  destruct (Z.ltb_spec i0 0) as [L|L].
  - destruct r; [|discriminate]. apply (FIN [i0] None); [left; exists i0; auto|reflexivity|]. cbn [map]. unfold cpose. destruct (Z.ltb_spec i0 0); [|lia]. exact E'.
  - destruct (maybe_index (state_index_extrinsics p i0)) as [e0|] eqn:ME; [|discriminate]. apply (FIN (i0 :: r) (Some e0)); [right; exact (run_of p icam i0 r e0 HO TC CN L ME)|reflexivity|].
    rewrite <- E'. f_equal. apply map_at. intros x Hx. unfold cpose. destruct (Z.ltb_spec x 0); [|reflexivity]. exfalso.
    rewrite (consecutive_run r i0 CN) in Hx. apply in_map_iff in Hx. destruct Hx as (k & <- & _). lia.
Qed.

(** ** means don't depend on the order *)
Lemma vsum_perm : forall l l', Permutation l l' -> vsum l = vsum l'.
Proof.
  induction 1 as [|x l l' H IH|x y l|l l' l'' H1 IH1 H2 IH2]; [reflexivity| | |congruence]; cbn [vsum fold_right]; [fold (vsum l); fold (vsum l'); now rewrite IH|]. fold (vsum l). generalize (vsum l). intro w. apply v3_eq; vunfold; ring.
Qed.
Lemma mean_perm : forall l l', Permutation l l' -> mean l = mean l'.
Proof. intros l l' H. unfold mean. now rewrite (vsum_perm l l' H), (Permutation_length H). Qed.
Lemma nodup_app : forall A (l l' : list A), NoDup l -> NoDup l' -> (forall x, In x l -> ~ In x l') -> NoDup (l ++ l').
Proof.
  intros A l l' H H' D. induction H as [|a l NI H IH]; [exact H'|]. cbn. constructor; [|apply IH; intros; apply D; now right]. rewrite in_app_iff. intros [I|I]; [contradiction|]. exact (D a (or_introl eq_refl) I).
Qed.
Lemma nodup_prod : forall A A' (l : list A) (l' : list A'), NoDup l -> NoDup l' -> NoDup (list_prod l l').
Proof.
  intros A A' l l' H H'. induction H as [|a l NI H IH]; [constructor|]. cbn [list_prod]. apply nodup_app; [|exact IH|].
  - apply FinFun.Injective_map_NoDup; [|exact H']. intros x y E. congruence.
  - intros [x y] I I'. apply in_map_iff in I. destruct I as (z & E & _). injection E as <- <-. apply in_prod_iff in I'. tauto.
Qed.
Lemma frames_nodup : forall c, NoDup (frames c).
Proof. intro c. unfold frames. apply FinFun.Injective_map_NoDup; [|apply seq_NoDup]. intros x y E. lia. Qed.
Lemma frames_in : forall c i, In i (frames c) <-> (0 <= i < p_Nframes (c_p c))%Z.
Proof.
  intros c i. unfold frames. rewrite in_map_iff. split.
  - intros (k & <- & H). apply in_seq in H. lia.
  - intro H. exists (Z.to_nat i). split; [lia|]. apply in_seq. lia.
Qed.
Lemma change_eq : forall p (D : Z -> nat -> R) ixy d, (ixy = 0 \/ ixy = 1)%Z -> change p (fun i => D (Z.of_nat i)) (Z.to_nat ixy) d =
  rsum (Z.to_nat (num_states p)) (fun k => D ixy k * unpack_vec p (fun z => d (Z.to_nat z)) (Z.of_nat k)).
Proof. intros p D ixy d H. unfold change. now rewrite Z2Nat.id by lia. Qed.

(** * Theorems *)
(** The state the point belongs to, its intrinsics, and where the lens functions are smooth *)
Definition setting (c : context) (icam : Z) (p_cam : v3) (B : R -> nat -> R) (d : nat -> R) : Prop :=
  let p := c_p c in let intr := intrinsics_data c (params c (B 0)) icam in
  problem_ok p /\ lens_legal (p_lens p) /\ splines_ok (p_lens p) /\ (0 <= icam < p_Nci p)%Z /\ leaves B d /\ focal_ok (core_of intr) /\ lens_smooth (p_lens p) intr p_cam.

(** 'cross-reprojection-ccp': T takes the coordinates of the moved camera to those of the solution.  Y is where the point p_cam of the solution appears in the moved camera *)
Theorem C70_ccp : forall stale c icam cam frame p_cam atinfinity B d K T Y ixy,
  let p := c_p c in let intr := intrinsics_data c (params c (B 0)) icam in
  setting c icam p_cam B d -> (ixy = 0 \/ ixy = 1)%Z -> follows p (K icam) d T -> (forall s, takes atinfinity (T s) (Y s) p_cam) ->
  exists D, dq_db stale p icam intr cam frame p_cam atinfinity Cross_ccp K = inl D /\
    is_derive (fun s => p2get (pixel c (params c (B s)) icam (Y s)) ixy) 0 (change p (fun i => D (Z.of_nat i)) (Z.to_nat ixy) d).
Proof.
  intros stale c icam cam frame p_cam atinfinity B d K T Y ixy p intr (Hok & HL & SO & Hc & HB & HF & HS) Hi HT HY. eexists. split; [reflexivity|]. rewrite change_eq by exact Hi.
  exact (ccp_derive stale c icam p_cam atinfinity B d Hok HL SO Hc HB HF HS (K icam) T Y ixy Hi HT HY).
Qed.
Print Assumptions C70_ccp.

(** 'mean-pcam', frames optimized: the mean over every frame and every pose of the camera.  X i j: the point fixed to frame i; Q i j: the same in the camera at its pose j *)
Theorem C70_mean_pcam_partial : forall stale c icam p_cam atinfinity B d K D pairs (X : Z -> Z -> v3) (P Q : Z -> Z -> R -> v3) ixy,
  let p := c_p c in let s0 := params c (B 0) in let intr := intrinsics_data c s0 icam in
  setting c icam p_cam B d -> obs_ok p -> (ixy = 0 \/ ixy = 1)%Z -> do_frames (p_sel p) = true ->
  dq_db stale p icam intr (rt_cam s0) (rt_frame s0) p_cam atinfinity Mean_pcam K = inl D ->
  NoDup pairs -> (forall i j, In (i, j) pairs <-> (0 <= i < p_Nframes p)%Z /\ seen p icam j) ->
  (forall j, seen p icam j -> (0 <= j)%Z -> angle_ok (cam_r s0 j)) -> (forall i, (0 <= i < p_Nframes p)%Z -> angle_ok (frame_r s0 i)) ->
  (forall i j s, In (i, j) pairs -> takes atinfinity (rt_frame (params c (B s)) i) (X i j) (P i j s) /\ takes_to_camera atinfinity (params c (B s)) j (P i j s) (Q i j s)) ->
  (forall i j, In (i, j) pairs -> Q i j 0 = p_cam) ->
  is_derive (fun s => p2get (pixel c (params c (B s)) icam (mean (map (fun ij => Q (fst ij) (snd ij) s) pairs))) ixy) 0 (change p (fun i => D (Z.of_nat i)) (Z.to_nat ixy) d).
Proof.
  intros stale c icam p_cam atinfinity B d K D pairs X P Q ixy p s0 intr (Hok & HL & SO & Hc & HB & HF & HS) HO Hi HD E NDP HP HA HAF HQ HQ0. rewrite change_eq by exact Hi.
  destruct (dq_db_inv stale c icam intr (rt_frame s0) p_cam atinfinity B Mean_pcam K D Hok HO ltac:(discriminate) E) as (ics & ext0 & HR & ND & IN & [(_ & -> & HN)|(HM & _)]); [|discriminate].
  assert (forall i j, In i (frames c) -> In j ics -> In (i, j) pairs) as IP. { intros i j H1 H2. apply HP. split; [now apply frames_in|now apply IN]. }
  eapply is_derive_ext; [|apply (mean_derive stale c icam p_cam atinfinity B d Hok HL SO Hc HB HF HS ics ext0 X P Q ixy Hi HR HD (HN HD))].
  - intro s. cbv beta. do 2 f_equal. apply mean_perm, Permutation_map. apply NoDup_Permutation; [apply nodup_prod; [apply frames_nodup|exact ND]|exact NDP|]. intros [i j]. rewrite in_prod_iff, frames_in, IN, HP. reflexivity.
  - intros j Hj. unfold cpose. destruct (Z.ltb_spec j 0); [left; reflexivity|]. apply HA; [now apply IN|assumption].
  - intros i H. apply frames_in in H. exact (HAF i H).
  - intros i j s H1 H2. destruct (HQ i j s (IP i j H1 H2)) as [A1 A2]. split; [exact A1|]. now apply to_camera in A2.
  - intros i j H1 H2. apply HQ0. auto.
Qed.
Print Assumptions C70_mean_pcam_partial.

(** 'mean-pcam', frames fixed: the mean over every pose of the camera of a point fixed to the reference *)
Theorem C70_mean_pcam_fixed_partial : forall stale c icam p_cam atinfinity B d K D poses (P : Z -> v3) (Q : Z -> R -> v3) ixy,
  let p := c_p c in let s0 := params c (B 0) in let intr := intrinsics_data c s0 icam in
  setting c icam p_cam B d -> obs_ok p -> (ixy = 0 \/ ixy = 1)%Z -> do_frames (p_sel p) = false ->
  dq_db stale p icam intr (rt_cam s0) (rt_frame s0) p_cam atinfinity Mean_pcam K = inl D ->
  NoDup poses -> (forall j, In j poses <-> seen p icam j) -> (forall j, seen p icam j -> (0 <= j)%Z -> angle_ok (cam_r s0 j)) ->
  (forall j s, In j poses -> takes_to_camera atinfinity (params c (B s)) j (P j) (Q j s)) -> (forall j, In j poses -> Q j 0 = p_cam) ->
  is_derive (fun s => p2get (pixel c (params c (B s)) icam (mean (map (fun j => Q j s) poses))) ixy) 0 (change p (fun i => D (Z.of_nat i)) (Z.to_nat ixy) d).
Proof.
  intros stale c icam p_cam atinfinity B d K D poses P Q ixy p s0 intr (Hok & HL & SO & Hc & HB & HF & HS) HO Hi HD E NDP HP HA HQ HQ0. rewrite change_eq by exact Hi.
  destruct (dq_db_inv stale c icam intr (rt_frame s0) p_cam atinfinity B Mean_pcam K D Hok HO ltac:(discriminate) E) as (ics & ext0 & HR & ND & IN & [(_ & -> & HN)|(HM & _)]); [|discriminate].
  assert (forall j, In j ics -> In j poses) as IP by (intros j H; apply HP; now apply IN).
  eapply is_derive_ext; [|apply (mean_derive_fixed stale c icam p_cam atinfinity B d Hok HL SO Hc HB HF HS ics ext0 P Q ixy Hi HR HD)].
  - intro s. cbv beta. do 2 f_equal. apply mean_perm, Permutation_map. apply NoDup_Permutation; [exact ND|exact NDP|]. intro j. now rewrite IN, HP.
  - intros j Hj. unfold cpose. destruct (Z.ltb_spec j 0); [left; reflexivity|]. apply HA; [now apply IN|assumption].
  - intros j s H. apply to_camera. apply HQ. auto.
  - intros j H. apply HQ0. auto.
Qed.
Print Assumptions C70_mean_pcam_fixed_partial.

(** 'cross-reprojection-rrp': T takes the reference coordinates of the moved solution to those of the solution *)
Theorem C70_rrp_partial : forall stale c icam p_cam atinfinity B d K D T p_ref (P Y : R -> v3) j ixy,
  let p := c_p c in let s0 := params c (B 0) in let intr := intrinsics_data c s0 icam in
  setting c icam p_cam B d -> obs_ok p -> (ixy = 0 \/ ixy = 1)%Z ->
  dq_db stale p icam intr (rt_cam s0) (rt_frame s0) p_cam atinfinity Cross_rrp K = inl D ->
  seen p icam j -> ((0 <= j)%Z -> angle_ok (cam_r s0 j)) -> follows p (K (-1)%Z) d T ->
  takes_to_camera atinfinity s0 j p_ref p_cam -> (forall s, takes atinfinity (T s) (P s) p_ref) -> (forall s, takes_to_camera atinfinity (params c (B s)) j (P s) (Y s)) ->
  is_derive (fun s => p2get (pixel c (params c (B s)) icam (Y s)) ixy) 0 (change p (fun i => D (Z.of_nat i)) (Z.to_nat ixy) d).
Proof.
  intros stale c icam p_cam atinfinity B d K D T p_ref P Y j ixy p s0 intr (Hok & HL & SO & Hc & HB & HF & HS) HO Hi E HJ HA HT HP0 HP HY. rewrite change_eq by exact Hi.
  destruct (dq_db_inv stale c icam intr (rt_frame s0) p_cam atinfinity B Cross_rrp K D Hok HO ltac:(discriminate) E) as (ics & ext0 & HR & ND & IN & [(HM & _)|(_ & (j' & EJ) & ->)]); [discriminate|].
  subst ics. apply IN in HJ. destruct HJ as [-> | []]. cbn [map].
  apply (rrp_derive stale c icam p_cam atinfinity B d Hok HL SO Hc HB HF HS j ext0 (K (-1)%Z) T p_ref P Y ixy Hi HR).
  - unfold cpose. destruct (Z.ltb_spec j 0); [left; reflexivity|now apply HA].
  - exact HT.
  - now apply to_camera.
  - exact HP.
  - intro s. apply to_camera. apply HY.
Qed.
Print Assumptions C70_rrp_partial.

(** The older methods answer for a camera with one pose if its intrinsics and that pose are being optimized *)
Theorem C70_answers : forall stale p icam intr cam frame p_cam atinfinity K method j,
  problem_ok p -> obs_ok p -> (0 <= icam < p_Nci p)%Z -> (0 < num_intrinsics_opt (p_sel p) (p_lens p))%Z ->
  (forall j', seen p icam j' <-> j' = j) -> (j < 0 \/ do_ext (p_sel p) = true)%Z ->
  (method = Mean_pcam -> do_frames (p_sel p) = true -> p_points p = [] /\ p_tri p = [] /\ (0 < p_Nframes p)%Z) ->
  exists D, dq_db stale p icam intr cam frame p_cam atinfinity method K = inl D.
Proof.
  intros stale p icam intr cam frame p_cam atinfinity K method j Hok HO Hc HI HS HE HM.
  assert (this_camera p icam = [j]) as TC.
  { apply Permutation_length_1_inv. apply NoDup_Permutation; [repeat constructor; auto|apply this_camera_nodup|]. intro x. rewrite this_camera_in, HS. cbn. intuition congruence. }
  assert (slice_intrinsics p icam <> None) as SI.
  { unfold slice_intrinsics, maybe_index, state_index_intrinsics. destruct (Z.leb_spec (p_Nci p) 0); [lia|]. cbv zeta. destruct (Z.leb_spec (num_intrinsics_opt (p_sel p) (p_lens p)) 0); [lia|].
    destruct (Z.leb_spec 0 icam); [|lia]. destruct (Z.ltb_spec icam (p_Nci p)); [|lia]. cbn [andb negb]. destruct (Z.ltb_spec (icam * num_intrinsics_opt (p_sel p) (p_lens p)) 0); [nia|discriminate]. }
  assert (0 <= j -> exists e0, maybe_index (state_index_extrinsics p j) = Some e0)%Z as SE.
  { intro J. destruct HE as [HE|HE]; [lia|]. assert (j < p_Nce p)%Z by (apply (seen_range p icam j HO); now apply HS). unfold maybe_index.
    assert (optimized p (SI_ext j)) as Ho by (split; [lia|exact HE]). pose proof (proj1 (state_in_range p (SI_ext j) Hok Ho)) as S0. cbn [state_index] in S0. destruct (Z.ltb_spec (state_index_extrinsics p j) 0); [lia|eexists; reflexivity]. }
  unfold dq_db. rewrite TC. cbn [consecutive negb map].
  destruct (slice_intrinsics p icam); [|congruence].
  destruct method; [|destruct (Z.ltb_spec j 0) as [L|L]; [eexists; reflexivity|destruct (SE L) as [e0 ->]; eexists; reflexivity]|eexists; reflexivity].
  destruct (do_frames (p_sel p)).
  - destruct (HM eq_refl eq_refl) as (E1 & E2 & E3). unfold Nobs_point. rewrite E1, E2. cbn [length]. cbn [Z.of_nat Z.ltb Z.compare orb]. destruct (Z.leb_spec (p_Nframes p) 0); [lia|].
    destruct (Z.ltb_spec j 0) as [L|L]; [eexists; reflexivity|]. destruct (SE L) as [e0 ->]. eexists. reflexivity.
  - destruct (Z.ltb_spec j 0) as [L|L]; [eexists; reflexivity|]. destruct (SE L) as [e0 ->]. eexists. reflexivity.
Qed.
Print Assumptions C70_answers.

(** Put together with C68: if the solution moves by d w when the pixels move by the noise n w, the covariance that is reported
    is that of the reprojected pixel, to first order *)
Theorem C70_propagated : forall stale c b fs rows leading solve (Om : Type) (E : (Om -> R) -> R) sigma n d icam cam frame p_cam atinfinity K
  (B : Om -> R -> nat -> R) (T : Om -> R -> rt) (Y : Om -> R -> v3) (q' : Om -> nat -> R) D i j,
  let p := c_p c in let N := Z.to_nat (num_states p) in let js := csr_rows rows in let intr := intrinsics_data c (params c b) icam in
  obs_ok p -> tri_supported p -> tri_features (p_tri p) fs ->
  evaluate stale c (fun z => b (Z.to_nat z)) = Some rows -> observations_leading p = inl leading -> factorizes (length rows) N (gradient rows) solve ->
  expectation E -> pixel_noise E c rows sigma n -> (forall w, fits (length rows) N (gradient rows) (n w) (d w)) ->
  (forall w, B w 0 = b /\ setting c icam p_cam (B w) (d w) /\ follows p (K icam) (d w) (T w) /\ forall s, takes atinfinity (T w s) (Y w s) p_cam) -> inhabited Om ->
  (forall w k, (k < 2)%nat -> is_derive (fun s => p2get (pixel c (params c (B w s)) icam (Y w s)) (Z.of_nat k)) 0 (q' w k)) ->
  dq_db stale p icam intr cam frame p_cam atinfinity Cross_ccp K = inl D -> (i < 2)%nat -> (j < 2)%nat ->
  E (fun w => q' w i * q' w j) = covariance solve (indptr js) (indices js) (data js) N leading 2 (packed_gradient p (fun k => D (Z.of_nat k))) sigma i j.
Proof.
  intros stale c b fs rows leading solve Om E sigma n d icam cam frame p_cam atinfinity K B T Y q' D i j p N js intr HO HT HF EV LD FC HE PN FIT HW [w0] HQ ED Hi Hj.
  destruct (HW w0) as (_ & (Hok & HL & SO & _) & _ & _).
  etransitivity; [|exact (C68_covariance stale c _ fs rows leading solve Om E sigma n d 2 (fun k => D (Z.of_nat k)) i j Hok HL HO SO HT HF EV LD FC HE PN FIT Hi Hj)].
  assert (forall w k, (k < 2)%nat -> q' w k = change p (fun k => D (Z.of_nat k)) k (d w)) as EQ.
  { intros w k Hk. destruct (HW w) as (B0 & SET & FO & TA). assert (Z.of_nat k = 0 \/ Z.of_nat k = 1)%Z as I01 by lia.
    destruct (C70_ccp stale c icam cam frame p_cam atinfinity (B w) (d w) K (T w) (Y w) (Z.of_nat k) SET I01 FO TA) as (D' & ED' & DER). rewrite B0 in ED'. fold p in ED'. fold intr in ED'. rewrite ED in ED'. injection ED' as <-.
    rewrite Nat2Z.id in DER. pose proof (is_derive_unique _ _ _ (HQ w k Hk)) as U1. pose proof (is_derive_unique _ _ _ DER) as U2. rewrite <- U1. exact U2. }
  f_equal. apply FunctionalExtensionality.functional_extensionality. intro w. rewrite !EQ by assumption. reflexivity.
Qed.
Print Assumptions C70_propagated.

(** ** such paths exist *)
Theorem C70_paths_exist : forall p K d p_cam atinfinity, exists T Y, follows p K d T /\ forall s, takes atinfinity (T s) (Y s) p_cam.
Proof.
  intros p K d p_cam atinfinity. set (a := fun j => rsum (Z.to_nat (num_states p)) (fun k => K j k * d k)).
  set (T := fun s => mkrt (V3 (s * a 0%nat) (s * a 1%nat) (s * a 2%nat)) (V3 (s * a 3%nat) (s * a 4%nat) (s * a 5%nat))).
  exists T, (fun s => mv (mT (rodr (rt_r (T s)))) (if atinfinity then p_cam else vsub p_cam (rt_t (T s)))). split.
  - split; [unfold T; f_equal; apply v3_eq; cbn; ring|]. intros j Hj. assert (forall x, is_derive (fun s => s * x) 0 x) as L by (intro x; auto_derive; [exact Logic.I|ring]).
    do 6 (destruct j as [|j]; [exact (L _)|]). lia.
  - intro s. exists (rodr (rt_r (T s))). split; [apply rodr_rotvec|]. rewrite rodr_there. destruct atinfinity; [reflexivity|]. apply v3_eq; vunfold; ring.
Qed.
Print Assumptions C70_paths_exist.
Theorem C70_points_exist : forall atinfinity (C F : R -> rt) p_cam, exists X P Q, (forall s, takes atinfinity (F s) X (P s) /\ takes atinfinity (C s) (P s) (Q s)) /\ Q 0 = p_cam.
Proof.
  intros atinfinity C F p_cam. set (inv := fun (T : rt) y => mv (mT (rodr (rt_r T))) (if atinfinity then y else vsub y (rt_t T))). set (fwd := fun (T : rt) x => if atinfinity then mv (rodr (rt_r T)) x else vadd (mv (rodr (rt_r T)) x) (rt_t T)).
  assert (forall T y, fwd T (inv T y) = y) as FI. { intros T y. unfold fwd, inv. destruct atinfinity; rewrite rodr_there; [reflexivity|]. apply v3_eq; vunfold; ring. }
  exists (inv (F 0) (inv (C 0) p_cam)), (fun s => fwd (F s) (inv (F 0) (inv (C 0) p_cam))), (fun s => fwd (C s) (fwd (F s) (inv (F 0) (inv (C 0) p_cam)))). split.
  - intro s. split; eexists; (split; [apply rodr_rotvec|reflexivity]).
  - now rewrite !FI.
Qed.
Print Assumptions C70_points_exist.

(** ** What fails *)
Definition ex70_p (core ext fr : bool) (boards : Z) : problem :=
  {| p_lens := PINHOLE; p_sel := {| do_core := core; do_dist := false; do_ext := ext; do_frames := fr; do_warp := false; do_reg := false; do_unity := false |}; p_Nci := 1; p_Nce := 1; p_Nframes := boards; p_Npoints := 1; p_Npoints_fixed := 1;
     p_boards := if (boards =? 0)%Z then [] else [{| bo_icam_i := 0; bo_icam_e := 0; bo_iframe := 0 |}]; p_points := if (boards =? 0)%Z then [{| po_icam_i := 0; po_icam_e := 0; po_ipoint := 0 |}] else []; p_tri := []; p_w := 2; p_h := 2 |}%Z.
Lemma ex70_ok : forall core ext fr n, (0 <= n)%Z -> problem_ok (ex70_p core ext fr n) /\ obs_ok (ex70_p core ext fr n).
Proof.
  intros core ext fr n Hn. split; [repeat split; cbn; lia|]. unfold obs_ok, ex70_p. cbn [p_boards p_points p_tri p_Nci p_Nce p_Nframes p_Npoints]. destruct (Z.eqb_spec n 0); repeat split; repeat constructor; cbn; lia.
Qed.
(** one camera, one pose, boards being optimized, intrinsics fixed: neither of the older methods returns anything; the default method does *)
Theorem C70_fixed_intrinsics_refuted : exists p, problem_ok p /\ obs_ok p /\ (0 < num_states p)%Z /\ (forall j, seen p 0 j <-> j = 0%Z) /\
  forall stale intr cam frame p_cam atinfinity K,
    dq_db stale p 0 intr cam frame p_cam atinfinity Mean_pcam K = inr Unbound_local /\ dq_db stale p 0 intr cam frame p_cam atinfinity Cross_rrp K = inr Unbound_local /\
    exists D, dq_db stale p 0 intr cam frame p_cam atinfinity Cross_ccp K = inl D.
Proof.
  exists (ex70_p false true true 1). destruct (ex70_ok false true true 1 ltac:(lia)) as [A B]. split; [exact A|]. split; [exact B|]. split; [vm_compute; reflexivity|]. split.
  - intro j. rewrite <- this_camera_in. change (this_camera (ex70_p false true true 1) 0) with [0%Z]. cbn. intuition congruence.
  - intros. split; [reflexivity|]. split; [reflexivity|]. eexists. reflexivity.
Qed.
Print Assumptions C70_fixed_intrinsics_refuted.
(** ... and with fixed camera poses and optimized intrinsics *)
Theorem C70_fixed_extrinsics_refuted : exists p, problem_ok p /\ obs_ok p /\ (0 < num_intrinsics_opt (p_sel p) (p_lens p))%Z /\ (forall j, seen p 0 j <-> j = 0%Z) /\
  forall stale intr cam frame p_cam atinfinity K,
    dq_db stale p 0 intr cam frame p_cam atinfinity Mean_pcam K = inr Type_error /\ dq_db stale p 0 intr cam frame p_cam atinfinity Cross_rrp K = inr Type_error.
Proof.
  exists (ex70_p true false true 1). destruct (ex70_ok true false true 1 ltac:(lia)) as [A B]. split; [exact A|]. split; [exact B|]. split; [vm_compute; reflexivity|]. split.
  - intro j. rewrite <- this_camera_in. change (this_camera (ex70_p true false true 1) 0) with [0%Z]. cbn. intuition congruence.
  - intros. split; reflexivity.
Qed.
Print Assumptions C70_fixed_extrinsics_refuted.

(** ** The hypotheses are satisfiable *)
Definition ex70_c : context :=
  {| c_p := ex70_p true true true 1; c_intr := fun _ _ => 0; c_cam := fun _ => mkrt v0 v0; c_frame := fun _ => mkrt v0 v0; c_point := fun _ => v0;
     c_warp := None; c_imager := fun _ => 1000%Z; c_spacing := 1; c_bpool := fun _ => V3 0 0 1; c_ppool := fun _ => V3 0 0 1; c_tri_px := fun _ => v0 |}.
Example C70_example : forall d stale atinfinity K, exists B, setting ex70_c 0 (V3 1 2 3) B d /\ obs_ok (c_p ex70_c) /\
  (forall j, seen (c_p ex70_c) 0 j <-> j = 0%Z) /\ angle_ok (cam_r (params ex70_c (B 0)) 0) /\ angle_ok (frame_r (params ex70_c (B 0)) 0) /\
  (forall m, exists D, dq_db stale (c_p ex70_c) 0 (intrinsics_data ex70_c (params ex70_c (B 0)) 0) (rt_cam (params ex70_c (B 0))) (rt_frame (params ex70_c (B 0))) (V3 1 2 3) atinfinity m K = inl D).
Proof.
  intros d stale atinfinity K. exists (fun s k => 1 + s * d k). destruct (ex70_ok true true true 1 ltac:(lia)) as [A B].
  assert (forall k, 1 + 0 * d k = 1) as E1 by (intro; ring).
  assert (forall v : v3, 1 / 1000 < vx v -> angle_ok v) as AO.
  { intros v G. right. unfold norm. apply Rlt_le_trans with (sqrt (vx v * vx v)); [rewrite sqrt_square by lra; lra|]. apply sqrt_le_1_alt. vunfold. nra. }
  pose proof PI2_1 as P2.
  split; [|split; [exact B|split; [|split; [|split]]]].
  - split; [exact A|]. split; [exact Logic.I|]. split; [exact Logic.I|]. split; [cbn; lia|]. split; [intro k; auto_derive; [exact Logic.I|ring]|]. split.
    + split; vm_compute; rewrite ?E1; lra.
    + cbn. lra.
  - intro j. rewrite <- this_camera_in. change (this_camera (c_p ex70_c) 0) with [0%Z]. cbn. intuition congruence.
  - apply AO. replace (vx _) with ((1 + 0 * d 4%nat) * scale S_rot_cam) by reflexivity. cbn [scale]. lra.
  - apply AO. replace (vx _) with ((1 + 0 * d 10%nat) * scale S_rot_frame) by reflexivity. cbn [scale]. lra.
  - intro m. destruct m; eexists; reflexivity.
Qed.
