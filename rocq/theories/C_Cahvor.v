(** C50: CAHVOR files *)
From Coq Require Import Reals Lra Psatz List Nsatz.
From Verif Require Import S_Vec M_Pose M_Project P_Atan2 M_OpenCV M_Cahvor.
Import ListNotations.
Open Scope R_scope.

(** *** Specification: the published CAHV and CAHVOR models.  [d] is the vector from the
    camera to the point, in the coordinates of the file *)
Definition cahv_pixel (A H V d : v3) : p2 := P2 (dot d H / dot d A) (dot d V / dot d A).
(** the radial distortion: the part of d off the optical axis is magnified *)
Definition cahvor_moved (ax rho d : v3) : v3 :=
  let zeta := dot d ax in
  let lambda := vsub d (vscale zeta ax) in
  let tau := norm2 lambda / (zeta * zeta) in
  vadd d (vscale (vx rho + vy rho * tau + vz rho * (tau * tau)) lambda).
Definition cahvor_pixel (A H V ax rho d : v3) : p2 := cahv_pixel A H V (cahvor_moved ax rho d).

(** the direction of the optical axis, in camera coordinates *)
Definition axis_of (alpha beta : R) : v3 := V3 (sin alpha * cos beta) (sin beta) (cos alpha * cos beta).

(** *** rotations and their columns *)
Lemma cols_eq : forall m, of_cols (col0 m) (col1 m) (col2 m) = m.
Proof. intros []. reflexivity. Qed.
Lemma rot_cols : forall m, is_rot m ->
  dot (col0 m) (col0 m) = 1 /\ dot (col1 m) (col1 m) = 1 /\ dot (col2 m) (col2 m) = 1 /\
  dot (col0 m) (col1 m) = 0 /\ dot (col0 m) (col2 m) = 0 /\ dot (col1 m) (col2 m) = 0 /\ cross (col2 m) (col0 m) = col1 m.
Proof.
  intros m (A & B & D). pose proof (f_equal m00 A) as A00. pose proof (f_equal m01 A) as A01. pose proof (f_equal m02 A) as A02.
  pose proof (f_equal m11 A) as A11. pose proof (f_equal m12 A) as A12. pose proof (f_equal m22 A) as A22.
  destruct m as [a b c d e f g h i]. vunfold. unfold col0, col1, col2. cbn [m00 m01 m02 m10 m11 m12 m20 m21 m22 vx vy vz].
  repeat (split; [lra|]).
  (* the cofactors of a rotation are its entries *)
  apply v3_eq; cbn [vx vy vz]; clear B; nsatz.
Qed.
Lemma cols_rot : forall a b, dot a a = 1 -> dot b b = 1 -> dot a b = 0 -> is_rot (of_cols a (cross b a) b).
Proof.
  intros [a0 a1 a2] [b0 b1 b2] A B C. unfold of_cols, is_rot. vunfold.
  split; [apply m33_eq; cbn [m00 m01 m02 m10 m11 m12 m20 m21 m22]; nsatz|].
  split; [apply m33_eq; cbn [m00 m01 m02 m10 m11 m12 m20 m21 m22]; nsatz|].
  nsatz.
Qed.

(** *** the linear part *)
Lemma split_along : forall f c a A, dot a a = 1 -> dot A A = 1 -> dot a A = 0 ->
  let h := vadd (vscale f a) (vscale c A) in
  dot h A = c /\ vsub h (vscale (dot h A) A) = vscale f a /\ dot (vscale f a) (vscale f a) = f * f.
Proof.
  intros f c a A E1 E2 E3 h.
  assert (D : dot h A = c).
  { unfold h. replace (dot _ A) with (f * dot a A + c * dot A A) by (vunfold; ring). rewrite E2, E3. ring. }
  split; [exact D|]. rewrite D. split.
  - unfold h. apply v3_eq; vunfold; ring.
  - replace (dot (vscale f a) (vscale f a)) with (f * f * dot a a) by (vunfold; ring). rewrite E1. ring.
Qed.
Lemma unit_norm : forall v, dot v v = 1 -> norm v = 1.
Proof. intros v E. unfold norm, norm2. rewrite E. apply sqrt_1. Qed.
Lemma vscale_inv1 : forall v, vscale (/ 1) v = v.
Proof. intros. rewrite Rinv_1. apply v3_eq; vunfold; ring. Qed.
Lemma vscale_inv : forall f v, f <> 0 -> vscale (/ f) (vscale f v) = v.
Proof. intros. apply v3_eq; vunfold; field; auto. Qed.

(** what is read from what was written, before the lens *)
Lemma HVs_written : forall m c, is_rot m -> 0 < fx c -> 0 < fy c ->
  HVs_HVc_HVp (col2 m) (vadd (vscale (fx c) (col0 m)) (vscale (cx c) (col2 m))) (vadd (vscale (fy c) (col1 m)) (vscale (cy c) (col2 m))) =
  Some (fx c, fy c, cx c, cy c, col0 m, col1 m).
Proof.
  intros m c Rm Fx Fy. destruct (rot_cols m Rm) as (E00 & E11 & E22 & E01 & E02 & E12 & _).
  destruct (split_along (fx c) (cx c) _ _ E00 E22 E02) as (A1 & A2 & A3).
  destruct (split_along (fy c) (cy c) _ _ E11 E22 E12) as (B1 & B2 & B3).
  unfold HVs_HVc_HVp. rewrite A2, B2, A3, B3, A1, B1. rewrite !sqrt_square by lra.
  destruct (Req_EM_T (fx c) 0); [lra|]. destruct (Req_EM_T (fy c) 0); [lra|].
  rewrite !vscale_inv by lra. reflexivity.
Qed.

(** *** the optical axis *)
Lemma axis_unit : forall al be, dot (axis_of al be) (axis_of al be) = 1.
Proof.
  intros. unfold axis_of, dot. cbn [vx vy vz]. pose proof (sin2_cos2 al) as A. pose proof (sin2_cos2 be) as B. unfold Rsqr in *.
  replace (_ + _ + _) with (cos be * cos be * (sin al * sin al + cos al * cos al) + sin be * sin be) by ring. rewrite A. lra.
Qed.
(** any unit vector is the axis for the angles read from it *)
Lemma axis_read : forall o, dot o o = 1 -> axis_of (atan2 (vx o) (vz o)) (asin (vy o)) = o.
Proof.
  intros [x y z] E. unfold dot in E. cbn [vx vy vz] in *. assert (Y : -1 <= y <= 1) by nra.
  unfold axis_of. rewrite sin_asin by lra. rewrite cos_asin by lra. replace (1 - y²) with (z * z + x * x) by (unfold Rsqr; lra).
  destruct (Req_dec (z * z + x * x) 0) as [Z|Z].
  - rewrite Z, sqrt_0. apply v3_eq; cbn; nra.
  - destruct (atan2_spec z x) as (C & S & _); [exact Z|]. apply v3_eq; cbn [vx vy vz]; [|easy|]; rewrite Rmult_comm; assumption.
Qed.
(** and the angles are unique in their range *)
Lemma angles_read : forall al be, - PI < al <= PI -> - (PI / 2) < be < PI / 2 ->
  atan2 (vx (axis_of al be)) (vz (axis_of al be)) = al /\ asin (vy (axis_of al be)) = be.
Proof.
  intros al be Al Be. unfold axis_of. cbn [vx vy vz]. split.
  - apply atan2_unique with (cos be); [now apply cos_gt_0|easy|ring|ring].
  - apply asin_sin. lra.
Qed.

(** *** C50: writing and reading back.  A model that may be written: a proper rotation,
    positive focal lengths, the right number of parameters *)
Definition ok_angles (al be : R) : Prop := - PI < al <= PI /\ - (PI / 2) < be < PI / 2.
Inductive writable : cv_model -> Prop :=
| W_pinhole : forall c m t, 0 < fx c -> 0 < fy c -> is_rot m ->
    writable {| cv_l := CvPinhole; cv_core := c; cv_dist := []; cv_R := m; cv_t := t |}
| W_opencv : forall n d c m t, 0 < fx c -> 0 < fy c -> is_rot m ->
    writable {| cv_l := CvOpencv n; cv_core := c; cv_dist := d; cv_R := m; cv_t := t |}
| W_cahvor : forall al be r0 r1 r2 c m t, 0 < fx c -> 0 < fy c -> is_rot m -> / 100000000 <= norm (V3 r0 r1 r2) ->
    writable {| cv_l := CvCahvor; cv_core := c; cv_dist := [al; be; r0; r1; r2]; cv_R := m; cv_t := t |}
| W_cahvore : forall l al be r0 r1 r2 e0 e1 e2 c m t, 0 < fx c -> 0 < fy c -> is_rot m ->
    writable {| cv_l := CvCahvore l; cv_core := c; cv_dist := [al; be; r0; r1; r2; e0; e1; e2]; cv_R := m; cv_t := t |}.
Definition angles (m : cv_model) : option (R * R) :=
  match cv_l m, cv_dist m with
  | CvCahvor, al :: be :: _ => Some (al, be)
  | CvCahvore _, al :: be :: _ => Some (al, be)
  | _, _ => None
  end.
Definition roundtrip (m : cv_model) : option cv_model := match deconstruct m with Some f => construct f | None => None end.

(** the same model, with the optical axis' angles as read *)
Definition with_angles (m : cv_model) (al be : R) : cv_model :=
  match angles m, cv_dist m with
  | Some _, _ :: _ :: d => {| cv_l := cv_l m; cv_core := cv_core m; cv_dist := al :: be :: d; cv_R := cv_R m; cv_t := cv_t m |}
  | _, _ => m
  end.
Lemma core_eta : forall c, Core (fx c) (fy c) (cx c) (cy c) = c.
Proof. now intros []. Qed.
Lemma axis_back : forall m v, is_rot m -> mv (mT m) (mv m v) = v.
Proof. intros. now apply rot_mT_mv. Qed.
Lemma roundtrip_spec : forall m, writable m ->
  match angles m with
  | None => roundtrip m = Some m
  | Some (al, be) => let o := axis_of al be in roundtrip m = Some (with_angles m (atan2 (vx o) (vz o)) (asin (vy o)))
  end.
Proof.
  assert (Pre : forall m, is_rot m -> norm (col2 m) = 1).
  { intros m Rm. apply unit_norm, (rot_cols m Rm). }
  assert (Y : forall al be, ~ 1 < Rabs (vy (axis_of al be))).
  { intros. unfold axis_of. cbn [vy]. pose proof (SIN_bound be). unfold Rabs. destruct (Rcase_abs _); lra. }
  intros m Wm. inversion Wm; subst; unfold angles; cbn [cv_l cv_dist]; unfold roundtrip, deconstruct; cbn [cv_l cv_dist cv_core cv_R cv_t];
  unfold construct; cbn [f_model f_C f_A f_H f_V f_O f_R f_E f_opencv];
  rewrite Pre by assumption; (destruct (Req_EM_T 1 0) as [X|_]; [lra|]); rewrite vscale_inv1, HVs_written by assumption;
  match goal with H : is_rot ?m |- _ => destruct (rot_cols m H) as (_ & _ & _ & _ & _ & _ & Cr) end; rewrite Cr, cols_eq, core_eta; try reflexivity;
  cbv zeta; rewrite axis_back by assumption; fold (axis_of al be);
  (destruct (Rlt_dec 1 _) as [X|_]; [exfalso; exact (Y _ _ X)|]).
  - destruct (Rlt_dec (norm _) _) as [X|_]; [lra|]. reflexivity.
  - reflexivity.
Qed.

Theorem C50_roundtrip_partial : forall m, writable m ->
  (forall al be, angles m = Some (al, be) -> ok_angles al be) ->
  roundtrip m = Some m.
Proof.
  intros m Wm Ok. pose proof (roundtrip_spec m Wm) as Sp. destruct (angles m) as [[al be]|] eqn:E; [|exact Sp].
  destruct (Ok al be eq_refl) as (Al & Be). destruct (angles_read al be Al Be) as (A & B). cbv zeta in Sp. rewrite A, B in Sp. rewrite Sp. f_equal.
  unfold with_angles. rewrite E. revert E. unfold angles. destruct m as [l c d mm t]. cbn.
  destruct l; try discriminate; destruct d as [|x [|y d]]; try discriminate; intros E; inversion E; reflexivity.
Qed.

(** For any angles at all, the axis is the same, and so is all else *)
Theorem C50_same_axis : forall m, writable m -> exists m', roundtrip m = Some m' /\
  cv_l m' = cv_l m /\ cv_core m' = cv_core m /\ cv_R m' = cv_R m /\ cv_t m' = cv_t m /\ skipn 2 (cv_dist m') = skipn 2 (cv_dist m) /\
  match angles m, angles m' with
  | Some (al, be), Some (al', be') => axis_of al' be' = axis_of al be
  | None, None => cv_dist m' = cv_dist m
  | _, _ => False
  end.
Proof.
  intros m Wm. pose proof (roundtrip_spec m Wm) as Sp. destruct (angles m) as [[al be]|] eqn:E.
  - cbv zeta in Sp. eexists. split; [exact Sp|]. revert E Sp. unfold with_angles, angles. destruct m as [l c d mm t]. cbn.
    destruct l; try discriminate; destruct d as [|x [|y d]]; try discriminate; intros E _; inversion E; subst; cbn; repeat split; apply (axis_read (axis_of al be)), axis_unit.
  - exists m. rewrite E. repeat split; auto.
Qed.

(** hence each point projects to the same pixel *)
Definition params (m : cv_model) (i : nat) : R :=
  match i with 0 => fx (cv_core m) | 1 => fy (cv_core m) | 2 => cx (cv_core m) | 3 => cy (cv_core m) | _ => List.nth (i - 4) (cv_dist m) R0 end%nat.
Theorem C50_same_cahvor_projection : forall m m' p, writable m -> cv_l m = CvCahvor -> roundtrip m = Some m' ->
  cahvor_project (params m') p = cahvor_project (params m) p.
Proof.
  intros m m' p Wm L Rt. destruct (C50_same_axis m Wm) as (m2 & Rt2 & L2 & Co & _ & _ & Ds & Ax). rewrite Rt in Rt2. inversion Rt2; subst m2.
  assert (N : forall i : nat, List.nth (2 + i) (cv_dist m') 0 = List.nth (2 + i) (cv_dist m) 0).
  { intros i. assert (T : forall d : list R, List.nth (2 + i) d 0 = List.nth i (skipn 2 d) 0) by (intros [|x [|y d]]; cbn; destruct i; reflexivity). now rewrite !T, Ds. }
  assert (O : ca_o (params m') = ca_o (params m)).
  { inversion Wm; subst; cbn in L; try discriminate. unfold angles in Ax. cbn [cv_l cv_dist] in Ax. rewrite L2 in Ax. cbn [cv_l] in Ax.
    destruct (cv_dist m') as [|al' [|be' d']] eqn:Dm; try easy. unfold ca_o, ca_al, ca_be, params. cbn [Nat.sub List.nth]. rewrite Dm. cbn [List.nth]. exact Ax. }
  assert (C : core_of (params m') = core_of (params m)) by (unfold core_of, params; now rewrite Co).
  assert (Rr : ca_r0 (params m') = ca_r0 (params m) /\ ca_r1 (params m') = ca_r1 (params m) /\ ca_r2 (params m') = ca_r2 (params m)).
  { split; [exact (N 0%nat)|split; [exact (N 1%nat)|exact (N 2%nat)]]. }
  destruct Rr as (R0 & R1 & R2).
  assert (Dd : ca_distorted (params m') p = ca_distorted (params m) p).
  { unfold ca_distorted, ca_distorted_i, ca_mu, ca_tau, ca_omega_recip, ca_omega. now rewrite O, R0, R1, R2. }
  unfold cahvor_project. now rewrite Dd, C.
Qed.

Theorem C50_same_pinhole : forall m m', writable m -> cv_l m = CvPinhole -> roundtrip m = Some m' -> m' = m.
Proof.
  intros m m' Wm L Rt. pose proof (roundtrip_spec m Wm) as Sp. unfold angles in Sp. rewrite L in Sp. congruence.
Qed.

(** *** What is written is the published model: the pixel of a point, by the published
    formulas on the vectors in the file, is the pixel mrcal projects it to *)
Lemma col_dot : forall m d, dot d (col0 m) = vx (mv (mT m) d) /\ dot d (col1 m) = vy (mv (mT m) d) /\ dot d (col2 m) = vz (mv (mT m) d).
Proof. intros [] []. repeat split; unfold col0, col1, col2; vunfold; ring. Qed.
Lemma cahv_written : forall m c d, vz (mv (mT m) d) <> 0 ->
  cahv_pixel (col2 m) (vadd (vscale (fx c) (col0 m)) (vscale (cx c) (col2 m))) (vadd (vscale (fy c) (col1 m)) (vscale (cy c) (col2 m))) d =
  project_pinhole c (mv (mT m) d).
Proof.
  intros m c d Z. destruct (col_dot m d) as (E0 & E1 & E2). unfold cahv_pixel, project_pinhole.
  assert (L : forall f k a A, dot d (vadd (vscale f a) (vscale k A)) = f * dot d a + k * dot d A) by (intros; vunfold; ring).
  rewrite !L, E0, E1, E2. f_equal; field; exact Z.
Qed.
Theorem C50_written_pinhole : forall m f P, writable m -> cv_l m = CvPinhole -> deconstruct m = Some f ->
  let d := vsub P (f_C f) in let p := mv (mT (cv_R m)) (vsub P (cv_t m)) in
  vz p <> 0 -> cahv_pixel (f_A f) (f_H f) (f_V f) d = project_pinhole (cv_core m) p.
Proof.
  intros m f P Wm L E. inversion Wm; subst; cbn in L; try discriminate. cbn in E. inversion E; subst f. cbn [f_A f_H f_V f_C cv_R cv_t cv_core].
  intros Z. now apply cahv_written.
Qed.
(** distortion commutes with the rotation *)
Lemma moved_rot : forall m ax rho d, is_rot m -> mv (mT m) (cahvor_moved (mv m ax) rho d) = cahvor_moved ax rho (mv (mT m) d).
Proof.
  intros m ax rho d Rm. unfold cahvor_moved.
  assert (E : dot d (mv m ax) = dot (mv (mT m) d) ax) by (rewrite dot_comm, dot_mv, dot_comm; reflexivity).
  assert (N : norm2 (vsub d (vscale (dot (mv (mT m) d) ax) (mv m ax))) = norm2 (vsub (mv (mT m) d) (vscale (dot (mv (mT m) d) ax) ax))).
  { unfold norm2. rewrite <- (rot_dot (mT m)) by (now apply is_rot_mT). now rewrite mv_vsub, mv_vscale, rot_mT_mv. }
  rewrite E, N, mv_vadd, mv_vscale, mv_vsub, mv_vscale, rot_mT_mv by easy. reflexivity.
Qed.
Lemma moved_distorted : forall intr p, ca_omega intr p <> 0 ->
  cahvor_moved (ca_o intr) (V3 (ca_r0 intr) (ca_r1 intr) (ca_r2 intr)) p = ca_distorted intr p.
Proof.
  intros intr p Z. unfold cahvor_moved.
  assert (E : dot p (ca_o intr) = ca_omega intr p) by reflexivity. rewrite E. set (w := ca_omega intr p) in *.
  assert (U : dot (ca_o intr) (ca_o intr) = 1) by apply axis_unit.
  assert (T : norm2 (vsub p (vscale w (ca_o intr))) / (w * w) = ca_tau intr p).
  { replace (norm2 _) with (norm2 p - 2 * w * dot p (ca_o intr) + w * w * dot (ca_o intr) (ca_o intr)) by (vunfold; ring).
    rewrite E, U. unfold ca_tau, ca_omega_recip. fold w. unfold ca_norm2p, norm2, dot. field. exact Z. }
  rewrite T. cbn [vx vy vz]. unfold ca_distorted, ca_distorted_i, ca_mu. fold w. apply v3_eq; vunfold; cbn [vget]; ring.
Qed.
Theorem C50_written_cahvor : forall m f P O rho, writable m -> cv_l m = CvCahvor -> deconstruct m = Some f ->
  f_O f = Some O -> f_R f = Some rho ->
  let d := vsub P (f_C f) in let p := mv (mT (cv_R m)) (vsub P (cv_t m)) in
  ca_omega (params m) p <> 0 -> vz (ca_distorted (params m) p) <> 0 ->
  cahvor_pixel (f_A f) (f_H f) (f_V f) O rho d = cahvor_project (params m) p.
Proof.
  intros m f P O rho Wm L E EO ER. inversion Wm as [| |al be r0 r1 r2 c rm t F1 F2 Rm N|]; subst; cbn in L; try discriminate. cbn in E. inversion E; subst f. cbn [f_A f_H f_V f_C f_O f_R cv_R cv_t cv_core] in *.
  inversion EO; subst O. inversion ER; subst rho. cbv zeta. set (m := Build_cv_model _ _ _ _ _). set (d := vsub P t). set (p := mv (mT rm) d).
  intros Zo Zz. unfold cahvor_pixel. rewrite cahv_written.
  - rewrite moved_rot by easy. fold p. pose proof (moved_distorted (params m) p Zo) as M.
    unfold ca_o, ca_al, ca_be, ca_r0, ca_r1, ca_r2 in M. cbn in M. rewrite M. reflexivity.
  - rewrite moved_rot by easy. fold p. pose proof (moved_distorted (params m) p Zo) as M.
    unfold ca_o, ca_al, ca_be, ca_r0, ca_r1, ca_r2 in M. cbn in M. rewrite M. exact Zz.
Qed.

(** *** Reading any file: the pose is a proper rigid transformation and the focal lengths
    are positive; and if A is of unit length and the pixel axes aren't skewed, the
    model is the published one *)
Definition unskewed (A H V : v3) : Prop :=
  dot A A = 1 /\ dot (cross A H) V > 0 /\ dot (vsub H (vscale (dot H A) A)) (vsub V (vscale (dot V A) A)) = 0.
Lemma sqrt_neq : forall x, 0 <= x -> sqrt x <> 0 -> 0 < sqrt x /\ sqrt x * sqrt x = x.
Proof. intros x X N. pose proof (sqrt_pos x). split; [lra|now apply sqrt_sqrt]. Qed.
Lemma perp_A : forall A H, dot A A = 1 -> dot (vsub H (vscale (dot H A) A)) A = 0.
Proof. intros A H E. replace (dot (vsub _ _) A) with (dot H A * (1 - dot A A)) by (vunfold; ring). rewrite E. ring. Qed.
Lemma read_parts : forall A H V fx fy cx cy Hp Vp, dot A A = 1 -> HVs_HVc_HVp A H V = Some (fx, fy, cx, cy, Hp, Vp) ->
  0 < fx /\ 0 < fy /\ dot Hp Hp = 1 /\ dot Hp A = 0 /\ dot Vp Vp = 1 /\ dot Vp A = 0 /\
  H = vadd (vscale fx Hp) (vscale cx A) /\ V = vadd (vscale fy Vp) (vscale cy A).
Proof.
  intros A H V fx fy cx cy Hp Vp U E. unfold HVs_HVc_HVp in E.
  destruct (Req_EM_T _ 0) as [|Nh]; [discriminate|]. destruct (Req_EM_T (sqrt (dot (vsub V _) _)) 0) as [|Nv]; [discriminate|]. inversion E; subst; clear E.
  pose proof (perp_A A H U) as Ph. pose proof (perp_A A V U) as Pv.
  set (h := vsub H (vscale (dot H A) A)) in *. set (v := vsub V (vscale (dot V A) A)) in *.
  destruct (sqrt_neq _ (norm2_nonneg h) Nh) as (Hh & Sh). destruct (sqrt_neq _ (norm2_nonneg v) Nv) as (Hv & Sv).
  unfold norm2 in *. set (fh := sqrt (dot h h)) in *. set (fv := sqrt (dot v v)) in *.
  assert (G : forall f x, f <> 0 -> f * f = dot x x -> dot (vscale (/ f) x) (vscale (/ f) x) = 1).
  { intros f x Nf Q. replace (dot _ _) with (/ f * / f * dot x x) by (vunfold; ring). rewrite <- Q. field. exact Nf. }
  assert (G2 : forall f x, dot x A = 0 -> dot (vscale (/ f) x) A = 0).
  { intros f x Q. replace (dot _ A) with (/ f * dot x A) by (vunfold; ring). rewrite Q. ring. }
  assert (G3 : forall f x, f <> 0 -> vscale f (vscale (/ f) x) = x) by (intros; apply v3_eq; vunfold; field; auto).
  repeat split; auto; try (rewrite G3 by lra); unfold h, v; try (apply v3_eq; vunfold; ring).
Qed.
Lemma unit_A : forall A, norm A <> 0 -> dot (vscale (/ norm A) A) (vscale (/ norm A) A) = 1.
Proof. intros A N. replace (dot _ _) with (/ norm A * / norm A * norm2 A) by (unfold norm2; vunfold; ring). rewrite <- norm_sq. field. exact N. Qed.
(** what [construct] makes in each case has the pose and core made of the vectors *)
Lemma construct_parts : forall f m, construct f = Some m -> exists fx fy cx cy Hp Vp,
  norm (f_A f) <> 0 /\
  let A := vscale (/ norm (f_A f)) (f_A f) in
  HVs_HVc_HVp A (f_H f) (f_V f) = Some (fx, fy, cx, cy, Hp, Vp) /\
  cv_core m = Core fx fy cx cy /\ cv_R m = of_cols Hp (cross A Hp) A /\ cv_t m = f_C f.
Proof.
  intros f m E. unfold construct in E. destruct (Req_EM_T _ 0) as [|N]; [discriminate|].
  destruct (HVs_HVc_HVp _ _ _) as [[[[[[fx fy] cx] cy] Hp] Vp]|] eqn:Hv; [|discriminate].
  exists fx, fy, cx, cy, Hp, Vp. split; [exact N|]. cbv zeta. split; [exact Hv|].
  assert (Fin : forall l d, Some {| cv_l := l; cv_core := Core fx fy cx cy; cv_dist := d; cv_R := of_cols Hp (cross (vscale (/ norm (f_A f)) (f_A f)) Hp) (vscale (/ norm (f_A f)) (f_A f)); cv_t := f_C f |} = Some m ->
     cv_core m = Core fx fy cx cy /\ cv_R m = of_cols Hp (cross (vscale (/ norm (f_A f)) (f_A f)) Hp) (vscale (/ norm (f_A f)) (f_A f)) /\ cv_t m = f_C f).
  { intros l d X. inversion X. auto. }
  destruct (f_opencv f) as [[n d]|]; [exact (Fin _ _ E)|]. destruct (f_R f) as [r|]; [|exact (Fin _ _ E)].
  destruct (match f_O f with Some _ => _ | None => _ end) as [[al be]|]; [|discriminate].
  destruct (f_model f); destruct (f_E f); try discriminate; try exact (Fin _ _ E); destruct (Rlt_dec _ _); exact (Fin _ _ E).
Qed.
Theorem C50_read_proper : forall f m, construct f = Some m -> is_rot (cv_R m) /\ 0 < fx (cv_core m) /\ 0 < fy (cv_core m).
Proof.
  intros f m E. destruct (construct_parts f m E) as (fx & fy & cx & cy & Hp & Vp & N & Hv & C & Rm & _).
  pose proof (unit_A _ N) as U. destruct (read_parts _ _ _ _ _ _ _ _ _ U Hv) as (F1 & F2 & H1 & H2 & _).
  rewrite C, Rm. split; [now apply cols_rot|]. split; assumption.
Qed.
Theorem C50_read_published : forall f m P, construct f = Some m -> unskewed (f_A f) (f_H f) (f_V f) ->
  let d := vsub P (f_C f) in let p := mv (mT (cv_R m)) (vsub P (cv_t m)) in vz p <> 0 ->
  project_pinhole (cv_core m) p = cahv_pixel (f_A f) (f_H f) (f_V f) d.
Proof.
  intros f m P E (U & Pos & Or). destruct (construct_parts f m E) as (fx & fy & cx & cy & Hp & Vp & N & Hv & C & Rm & T).
  cbv zeta in Hv. rewrite (unit_norm _ U), vscale_inv1 in Hv, Rm. rewrite T.
  destruct (read_parts _ _ _ _ _ _ _ _ _ U Hv) as (F1 & F2 & H1 & H2 & V1 & V2 & EH & EV).
  assert (Q : Vp = cross (f_A f) Hp).
  { (* two unit vectors normal to both A and Hp, on the same side *)
    assert (O1 : dot Hp Vp = 0).
    { rewrite EH, EV in Or. replace (dot (vsub _ _) (vsub _ _)) with (fx * fy * dot Hp Vp) in Or.
      - apply Rmult_integral in Or. destruct Or as [Or|Or]; [nra|exact Or].
      - assert (A1 : dot (vadd (vscale fx Hp) (vscale cx (f_A f))) (f_A f) = cx).
        { replace (dot _ _) with (fx * dot Hp (f_A f) + cx * dot (f_A f) (f_A f)) by (vunfold; ring). rewrite H2, U. ring. }
        assert (A2 : dot (vadd (vscale fy Vp) (vscale cy (f_A f))) (f_A f) = cy).
        { replace (dot _ _) with (fy * dot Vp (f_A f) + cy * dot (f_A f) (f_A f)) by (vunfold; ring). rewrite V2, U. ring. }
        rewrite A1, A2. vunfold. ring. }
    assert (Ps : 0 < dot (cross (f_A f) Hp) Vp).
    { rewrite EH, EV in Pos. replace (dot (cross _ _) _) with (fx * fy * dot (cross (f_A f) Hp) Vp) in Pos by (vunfold; ring).
      apply Rmult_lt_reg_l with (fx * fy); [now apply Rmult_lt_0_compat|lra]. }
    set (A := f_A f) in *. set (w := cross A Hp) in *.
    assert (W1 : dot w w = 1) by (unfold w; replace (dot (cross A Hp) (cross A Hp)) with (dot A A * dot Hp Hp - dot Hp A * dot Hp A) by (vunfold; ring); rewrite U, H1, H2; ring).
    (* Vp = (Vp.w) w, from the completeness of the basis *)
    assert (B : Vp = vscale (dot w Vp) w).
    { assert (Rt : is_rot (of_cols Hp w A)) by (now apply cols_rot). destruct Rt as (_ & Rt & _).
      rewrite <- (mv_I Vp) at 1. rewrite <- Rt, mv_mm.
      assert (M : mv (mT (of_cols Hp w A)) Vp = V3 (dot Hp Vp) (dot w Vp) (dot Vp A)).
      { destruct Hp, A, Vp. unfold of_cols, w. vunfold. f_equal; ring. }
      rewrite M, O1, V2. clearbody w. destruct Hp, A, w. unfold of_cols. vunfold. f_equal; ring. }
    assert (dot w Vp * dot w Vp = 1).
    { assert (V3_ : dot (vscale (dot w Vp) w) (vscale (dot w Vp) w) = 1) by (rewrite <- B; exact V1).
      replace (dot (vscale _ w) _) with (dot w Vp * dot w Vp * dot w w) in V3_ by (clear; clearbody w; vunfold; ring). rewrite W1 in V3_. lra. }
    assert (W2 : dot w Vp = 1) by nra. rewrite W2 in B. rewrite B. clear. clearbody w. apply v3_eq; vunfold; ring. }
  intros d p Z. unfold p in *. rewrite C in *. rewrite Rm in *. unfold cahv_pixel. rewrite EH, EV, Q.
  rewrite <- (cahv_written (of_cols Hp (cross (f_A f) Hp) (f_A f)) (Core fx fy cx cy)) by exact Z.
  unfold cahv_pixel, col0, col1, col2, of_cols. cbn [m00 m01 m02 m10 m11 m12 m20 m21 m22 M_Project.fx M_Project.fy M_Project.cx M_Project.cy].
  destruct Hp as [h0 h1 h2], (f_A f) as [a0 a1 a2]. unfold cross. cbn [vx vy vz]. reflexivity.
Qed.
Print Assumptions C50_roundtrip_partial.
Print Assumptions C50_same_axis.
Print Assumptions C50_same_cahvor_projection.
Print Assumptions C50_same_pinhole.
Print Assumptions C50_written_pinhole.
Print Assumptions C50_written_cahvor.
Print Assumptions C50_read_proper.
Print Assumptions C50_read_published.

Theorem C50_read_published_cahvor : forall f m P O rho, construct f = Some m -> cv_l m = CvCahvor -> unskewed (f_A f) (f_H f) (f_V f) ->
  f_O f = Some O -> dot O O = 1 -> f_R f = Some rho ->
  let d := vsub P (f_C f) in let p := mv (mT (cv_R m)) (vsub P (cv_t m)) in
  ca_omega (params m) p <> 0 -> vz (ca_distorted (params m) p) <> 0 ->
  cahvor_project (params m) p = cahvor_pixel (f_A f) (f_H f) (f_V f) O rho d.
Proof.
  intros f m P O rho E L Us EO UO ER d p Zo Zz.
  pose proof (C50_read_proper f m E) as (Rt & _).
  assert (D : cv_dist m = [atan2 (vx (mv (mT (cv_R m)) O)) (vz (mv (mT (cv_R m)) O)); asin (vy (mv (mT (cv_R m)) O)); vx rho; vy rho; vz rho]).
  { unfold construct in E. destruct (Req_EM_T _ 0) as [|N]; [discriminate|].
    destruct (HVs_HVc_HVp _ _ _) as [[[[[[fx fy] cx] cy] Hp] Vp]|] eqn:Hv; [|discriminate].
    destruct (f_opencv f) as [[n dd]|]; [inversion E; subst m; discriminate|]. rewrite ER, EO in E. cbv zeta in E.
    destruct (Rlt_dec 1 _); [discriminate|].
    destruct (f_model f); destruct (f_E f); try discriminate; try (inversion E; subst m; discriminate);
      (destruct (Rlt_dec (norm rho) _); [inversion E; subst m; discriminate|]); inversion E; subst m; cbn [cv_dist cv_R]; reflexivity. }
  assert (Ax : ca_o (params m) = mv (mT (cv_R m)) O).
  { unfold ca_o, ca_al, ca_be, params. rewrite D. cbn [Nat.sub List.nth]. apply axis_read. rewrite rot_dot by (now apply is_rot_mT). exact UO. }
  assert (Rr : V3 (ca_r0 (params m)) (ca_r1 (params m)) (ca_r2 (params m)) = rho).
  { unfold ca_r0, ca_r1, ca_r2, params. rewrite D. cbn [Nat.sub List.nth]. now destruct rho. }
  pose proof (moved_distorted (params m) p Zo) as M. rewrite Ax, Rr in M.
  assert (Mo : mv (mT (cv_R m)) (cahvor_moved O rho d) = ca_distorted (params m) p).
  { rewrite <- M. unfold p. rewrite <- (rot_mv_mT (cv_R m) O Rt) at 1. rewrite moved_rot by easy. unfold d.
    destruct (construct_parts f m E) as (? & ? & ? & ? & ? & ? & _ & _ & _ & _ & T). now rewrite T. }
  (* the linear part, at the point f_C + moved *)
  pose proof (C50_read_published f m (vadd (f_C f) (cahvor_moved O rho d)) E Us) as Pub. cbv zeta in Pub.
  assert (T : cv_t m = f_C f) by (destruct (construct_parts f m E) as (? & ? & ? & ? & ? & ? & _ & _ & _ & _ & T); exact T).
  rewrite T in Pub. assert (Sb : vsub (vadd (f_C f) (cahvor_moved O rho d)) (f_C f) = cahvor_moved O rho d) by (generalize (cahvor_moved O rho d), (f_C f); intros; apply v3_eq; vunfold; ring).
  rewrite Sb, Mo in Pub. unfold cahvor_pixel. rewrite <- (Pub Zz). reflexivity.
Qed.
Print Assumptions C50_read_published_cahvor.

(** *** Not preserved: *)
(** a radial distortion with |R| < 1e-8 is dropped, though it moves pixels *)
Definition ex_small : cv_model := {| cv_l := CvCahvor; cv_core := Core 1000 1000 500 500; cv_dist := [0; 0; / 1000000000; 0; 0]; cv_R := I3; cv_t := v0 |}.
Theorem C50_small_radial_refuted : exists m, roundtrip ex_small = Some m /\ cv_l m = CvPinhole /\
  let p := V3 1 0 1 in px (cahvor_project (params ex_small) p) <> px (project_pinhole (cv_core m) p).
Proof.
  eexists. split.
  { unfold roundtrip, deconstruct, ex_small. cbn [cv_l cv_dist cv_core cv_R cv_t]. unfold construct. cbn [f_model f_C f_A f_H f_V f_O f_R f_E f_opencv].
    pose proof (HVs_written I3 (Core 1000 1000 500 500) is_rot_I ltac:(cbn; lra) ltac:(cbn; lra)) as Hv. cbn [fx fy cx cy] in Hv |- *.
    assert (N1 : norm (col2 I3) = 1) by (apply unit_norm, (rot_cols I3 is_rot_I)).
    rewrite N1. destruct (Req_EM_T 1 0); [lra|]. rewrite vscale_inv1, Hv.
    destruct (rot_cols I3 is_rot_I) as (_ & _ & _ & _ & _ & _ & Cr). rewrite Cr, cols_eq. cbv zeta. rewrite axis_back by apply is_rot_I. cbn [vy].
    destruct (Rlt_dec 1 _) as [X|_]; [exfalso; rewrite sin_0, Rabs_R0 in X; lra|].
    assert (Nr : norm (V3 (/ 1000000000) 0 0) = / 1000000000).
    { unfold norm, norm2, dot. cbn [vx vy vz]. replace (_ + _ + _) with (/ 1000000000 * / 1000000000) by ring. apply sqrt_square. lra. }
    destruct (Rlt_dec (norm _) _) as [_|X]; [|exfalso; apply X; rewrite Nr; lra]. reflexivity. }
  cbn [cv_l cv_core]. split; [reflexivity|]. cbv zeta.
  unfold cahvor_project, project_pinhole, ca_distorted, ca_distorted_i, ca_mu, ca_tau, ca_omega_recip, ca_norm2p, ca_omega, ca_o, ca_al, ca_be, ca_r0, ca_r1, ca_r2, params, ex_small, core_of.
  cbn [cv_core cv_dist Nat.sub List.nth fx fy cx cy vx vy vz vget px]. rewrite sin_0, cos_0. intros E. field_simplify in E; lra.
Qed.
Print Assumptions C50_small_radial_refuted.
(** a mirrored image (one focal length negative): the pose and the pixels come back wrong *)
Definition ex_mirror : cv_model := {| cv_l := CvPinhole; cv_core := Core (-1000) 1000 500 500; cv_dist := []; cv_R := I3; cv_t := v0 |}.
Theorem C50_negative_focal_refuted : exists m, roundtrip ex_mirror = Some m /\
  let P := V3 0 1 1 in project_pinhole (cv_core m) (mv (mT (cv_R m)) P) <> project_pinhole (cv_core ex_mirror) (mv (mT (cv_R ex_mirror)) P).
Proof.
  eexists. split.
  { unfold roundtrip, deconstruct, ex_mirror. cbn [cv_l cv_dist cv_core cv_R cv_t]. unfold construct. cbn [f_model f_C f_A f_H f_V f_O f_R f_E f_opencv fx fy cx cy].
    assert (N1 : norm (col2 I3) = 1) by (apply unit_norm, (rot_cols I3 is_rot_I)).
    rewrite N1. destruct (Req_EM_T 1 0); [lra|]. rewrite vscale_inv1.
    assert (Eh : vadd (vscale (-1000) (col0 I3)) (vscale 500 (col2 I3)) = V3 (-1000) 0 500) by (apply v3_eq; unfold col0, col2; vunfold; ring).
    assert (Ev : vadd (vscale 1000 (col1 I3)) (vscale 500 (col2 I3)) = V3 0 1000 500) by (apply v3_eq; unfold col1, col2; vunfold; ring).
    assert (Ea : col2 I3 = V3 0 0 1) by reflexivity. rewrite Eh, Ev, Ea. unfold HVs_HVc_HVp.
    assert (D1 : vsub (V3 (-1000) 0 500) (vscale (dot (V3 (-1000) 0 500) (V3 0 0 1)) (V3 0 0 1)) = V3 (-1000) 0 0) by (apply v3_eq; vunfold; ring).
    assert (D2 : vsub (V3 0 1000 500) (vscale (dot (V3 0 1000 500) (V3 0 0 1)) (V3 0 0 1)) = V3 0 1000 0) by (apply v3_eq; vunfold; ring).
    rewrite D1, D2.
    assert (S1 : sqrt (dot (V3 (-1000) 0 0) (V3 (-1000) 0 0)) = 1000) by (unfold dot; cbn [vx vy vz]; replace (_ + _ + _) with (1000 * 1000) by ring; apply sqrt_square; lra).
    assert (S2 : sqrt (dot (V3 0 1000 0) (V3 0 1000 0)) = 1000) by (unfold dot; cbn [vx vy vz]; replace (_ + _ + _) with (1000 * 1000) by ring; apply sqrt_square; lra).
    rewrite S1, S2. destruct (Req_EM_T 1000 0); [lra|]. reflexivity. }
  cbn [cv_core cv_R]. cbv zeta. intros E. apply (f_equal py) in E. revert E. unfold project_pinhole, ex_mirror, of_cols. cbn [cv_core cv_R]. vunfold. cbn [py fx fy cx cy].
  intros E. field_simplify in E; lra.
Qed.
Print Assumptions C50_negative_focal_refuted.

(** *** A case in point *)
Example ex_writable : writable {| cv_l := CvCahvor; cv_core := Core 1000 1100 500 400; cv_dist := [/ 10; / 20; / 100; / 50; 0];
  cv_R := M33 0 0 1 1 0 0 0 1 0; cv_t := V3 1 2 3 |} /\ ok_angles (/ 10) (/ 20) /\ unskewed (V3 0 0 1) (V3 1000 0 500) (V3 0 1000 500).
Proof.
  split; [|split].
  - apply W_cahvor; cbn [fx fy]; try lra.
    + split; [|split]; vring.
    + unfold norm. apply Rle_trans with (sqrt (/ 100000000 * / 100000000)); [rewrite sqrt_square; lra|]. apply sqrt_le_1; unfold norm2, dot; cbn [vx vy vz]; lra.
  - pose proof PI_RGT_0. pose proof PI2_3_2. unfold PI2 in *. split; lra.
  - unfold unskewed. vunfold. repeat split; lra.
Qed.
