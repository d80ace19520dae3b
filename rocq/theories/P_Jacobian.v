(** Proofs for C66: the pieces of a board or point residual along a path of everything it depends on. *)
From Coq Require Import Reals Lra Psatz Lia Arith ZArith QArith Qreals Bool List.
From Coquelicot Require Import Coquelicot.
From Verif Require Import S_Vec S_Curve S_LensGrad P_Trig M_Dual P_Dual P_DualPath P_Pose M_Pose P_PoseJ P_PoseGrad P_Compose C_PoseGrad P_PathGrad
  M_Project C_Project M_Lens M_Layout M_SplineIdx M_Spline P_Spline C_Spline M_OpenCV M_Cahvore M_Splined M_Unproject
  C_ProjectGrad C_LensGrad C_Splined C_Cahvore C_CahvoreGrad C_Unproject M_Callback M_Pack M_Residuals.
Import ListNotations.
Open Scope R_scope.

(** ** the lens *)
Definition lens_smooth (m : lensmodel) (intr : nat -> R) (v : v3) : Prop :=
  match m with
  | LONLAT => 0 < vz v \/ vx v <> 0
  | LATLON => 0 < vz v \/ vy v <> 0
  | _ => smooth m intr v
  end.
Definition intr_rate (m : lensmodel) (intr : nat -> R) (q : v3) (ixy : Z) (dI : nat -> R) : R :=
  p2get (lens_dfxy m intr q) ixy * dI (Z.to_nat ixy) + dI (Z.to_nat ixy + 2)%nat +
  match m with
  | SPLINED cfg => weighted (splined_entries cfg (fun z => intr (Z.to_nat z)) q ixy) (fun z => dI (Z.to_nat z))
  | _ => tot (Z.to_nat (num_params m - 4)) (fun i => (if (ixy =? 0)%Z then fst (lens_nocore m intr q i) else snd (lens_nocore m intr q i)) * dI (4 + i)%nat)
  end.

Lemma tot_ext : forall n f g, (forall i, (i < n)%nat -> f i = g i) -> tot n f = tot n g.
Proof. induction n as [|n IH]; intros f g H; cbn [tot]; [reflexivity|]. rewrite (IH f g), H; auto. Qed.
Lemma tot_4 : forall n f, tot (4 + n) f = f 0%nat + f 1%nat + f 2%nat + f 3%nat + tot n (fun i => f (4 + i)%nat).
Proof.
  induction n as [|n IH]; intro f; [cbn [Nat.add tot]; ring|]. replace (4 + S n)%nat with (S (4 + n)) by lia. cbn [tot]. rewrite IH. rewrite Rplus_assoc. reflexivity.
Qed.
Lemma dense_rate : forall n c q nc dI,
  tot (4 + n) (fun i => dense_x c q nc i * dI i) = px (dq_dfxy_of c q) * dI 0%nat + dI 2%nat + tot n (fun i => fst (nc i) * dI (4 + i)%nat) /\
  tot (4 + n) (fun i => dense_y c q nc i * dI i) = py (dq_dfxy_of c q) * dI 1%nat + dI 3%nat + tot n (fun i => snd (nc i) * dI (4 + i)%nat).
Proof. intros. split; rewrite tot_4; cbn [dense_x dense_y Nat.add]; ring. Qed.

(** one coordinate of a model that is (something of the point) * f + c *)
Lemma affine_rate : forall (f : (nat -> R) -> v3 -> R) (u : v3 -> R) (g gu : v3) i (I : R -> nat -> R) (P : R -> v3) t dI dP,
  (forall J p, f J p = u p * J i + J (i + 2)%nat) -> has_gradient3 u (P t) gu -> g = vscale (I t i) gu -> I t i <> 0 ->
  is_derive (fun s => I s i) t (dI i) -> is_derive (fun s => I s (i + 2)%nat) t (dI (i + 2)%nat) -> moves3 P t dP ->
  is_derive (fun s => f (I s) (P s)) t ((f (I t) (P t) - I t (i + 2)%nat) / I t i * dI i + dI (i + 2)%nat + 0 + dot g dP).
Proof.
  intros f u g gu i I P t dI dP E G Eg N D1 D2 DP. specialize (G P t dP eq_refl DP).
  apply is_derive_ext with (fun s => u (P s) * I s i + I s (i + 2)%nat); [intro s; now rewrite E|].
  eapply is_derive_rw; [exact (affine_derive (fun s => u (P s)) (fun s => I s i) (fun s => I s (i + 2)%nat) t _ _ _ G D1 D2)|].
  rewrite E, Eg. unfold dot, vscale. cbn [vx vy vz]. rr. field. exact N.
Qed.
Lemma unit_model : forall (proj : core -> v3 -> p2) (projJ : core -> v3 -> j23) p,
  (forall c v, proj c v = P2 (px (proj (Core 1 1 0 0) v) * fx c + cx c) (py (proj (Core 1 1 0 0) v) * fy c + cy c)) ->
  (forall c v, projJ c v = J23 (vscale (fx c) (dqx (projJ (Core 1 1 0 0) v))) (vscale (fy c) (dqy (projJ (Core 1 1 0 0) v)))) ->
  projection_gradient (proj (Core 1 1 0 0)) p (projJ (Core 1 1 0 0) p) ->
  forall (I : R -> nat -> R) (P : R -> v3) t dI dP ixy, (ixy = 0 \/ ixy = 1)%Z -> P t = p ->
  (forall i, (i < 4)%nat -> is_derive (fun s => I s i) t (dI i)) -> moves3 P t dP -> focal_ok (core_of (I t)) ->
  is_derive (fun s => p2get (proj (core_of (I s)) (P s)) ixy) t
    (p2get (dq_dfxy_of (core_of (I t)) (proj (core_of (I t)) (P t))) ixy * dI (Z.to_nat ixy) + dI (Z.to_nat ixy + 2)%nat + 0 + dot (jget (projJ (core_of (I t)) (P t)) ixy) dP).
Proof.
  intros proj projJ p E EJ [GX GY] I P t dI dP ixy Hi <- DI DP [F0 F1]. cbn [core_of fx fy] in F0, F1.
  destruct Hi as [-> | ->]; unfold p2get, jget; cbn [Z.eqb]; unfold dq_dfxy_of; cbn [px py core_of fx fy cx cy].
  - change (Z.to_nat 0) with 0%nat.
    apply (affine_rate (fun J p => px (proj (core_of J) p)) (fun v => px (proj (Core 1 1 0 0) v)) _ (dqx (projJ (Core 1 1 0 0) (P t))) 0%nat I P t dI dP); auto; try (apply DI; lia).
    + intros J v. rewrite E. reflexivity.
    + rewrite EJ. reflexivity.
  - change (Z.to_nat 1) with 1%nat.
    apply (affine_rate (fun J p => py (proj (core_of J) p)) (fun v => py (proj (Core 1 1 0 0) v)) _ (dqy (projJ (Core 1 1 0 0) (P t))) 1%nat I P t dI dP); auto; try (apply DI; lia).
    + intros J v. rewrite E. reflexivity.
    + rewrite EJ. reflexivity.
Qed.
Lemma dense_path : forall (pr : (nat -> R) -> v3 -> p2) n nc J (I : R -> nat -> R) (P : R -> v3) t dI dP ixy, (ixy = 0 \/ ixy = 1)%Z ->
  lens_gradient (4 + n) (fun i v => px (pr i v)) (I t) (P t) (dense_x (core_of (I t)) (pr (I t) (P t)) nc) (dqx J) ->
  lens_gradient (4 + n) (fun i v => py (pr i v)) (I t) (P t) (dense_y (core_of (I t)) (pr (I t) (P t)) nc) (dqy J) ->
  (forall i, (i < 4 + n)%nat -> is_derive (fun s => I s i) t (dI i)) -> moves3 P t dP ->
  is_derive (fun s => p2get (pr (I s) (P s)) ixy) t
    (p2get (dq_dfxy_of (core_of (I t)) (pr (I t) (P t))) ixy * dI (Z.to_nat ixy) + dI (Z.to_nat ixy + 2)%nat +
     tot n (fun i => (if (ixy =? 0)%Z then fst (nc i) else snd (nc i)) * dI (4 + i)%nat) + dot (jget J ixy) dP).
Proof.
  intros pr n nc J I P t dI dP ixy Hi GX GY DI DP.
  destruct (dense_rate n (core_of (I t)) (pr (I t) (P t)) nc dI) as [EX EY].
  destruct Hi as [-> | ->]; unfold p2get, jget; cbn [Z.eqb]; [specialize (GX I P t dI dP eq_refl eq_refl DI DP); cbv beta in GX; rewrite EX in GX; exact GX
    |specialize (GY I P t dI dP eq_refl eq_refl DI DP); cbv beta in GY; rewrite EY in GY; exact GY].
Qed.

Lemma lens_path : forall stale m (I : R -> nat -> R) (P : R -> v3) t dI dP ixy, (ixy = 0 \/ ixy = 1)%Z ->
  (forall i, is_derive (fun s => I s i) t (dI i)) -> moves3 P t dP -> focal_ok (core_of (I t)) -> lens_smooth m (I t) (P t) ->
  is_derive (fun s => p2get (lens_pixel m (I s) (P s)) ixy) t
    (intr_rate m (I t) (P t) ixy dI + dot (jget (lens_pixel_J stale m (I t) (P t)) ixy) dP).
Proof.
  intros stale m I P t dI dP ixy Hi DI DP F S. pose proof F as [F0 F1]. cbn [core_of fx fy] in F0, F1. unfold intr_rate.
  destruct m; cbn [lens_smooth smooth sees] in S; cbn [num_params]; try change (Z.to_nat (4 - 4)) with 0%nat; cbn [tot lens_pixel lens_pixel_J];
    unfold lens_dfxy; cbn [lens_pixel].
  - apply (unit_model project_pinhole project_pinhole_J (P t)); auto.
    + intros c v. unfold project_pinhole. cbn [px py fx fy cx cy]. f_equal; ring.
    + intros c v. unfold project_pinhole_J, vscale. cbn [dqx dqy vx vy vz fx fy]. f_equal; f_equal; ring.
    + now apply C31_project_pinhole.
  - apply (unit_model project_stereographic project_stereographic_J (P t)); auto.
    + intros c v. unfold project_stereographic. cbn [px py fx fy cx cy]. f_equal; ring.
    + intros c v. unfold project_stereographic_J, vscale. cbn [dqx dqy vx vy vz fx fy]. f_equal; f_equal; ring.
    + now apply C31_project_stereographic.
  - apply (unit_model project_lonlat project_lonlat_J (P t)); auto.
    + intros c v. unfold project_lonlat. cbn [px py fx fy cx cy]. f_equal; ring.
    + intros c v. unfold project_lonlat_J, vscale. cbn [dqx dqy vx vy vz fx fy]. f_equal; f_equal; ring.
    + now apply C31_project_lonlat.
  - apply (unit_model project_latlon project_latlon_J (P t)); auto.
    + intros c v. unfold project_latlon. cbn [px py fx fy cx cy]. f_equal; ring.
    + intros c v. unfold project_latlon_J, vscale. cbn [dqx dqy vx vy vz fx fy]. f_equal; f_equal; ring.
    + now apply C31_project_latlon.
  - destruct (C59_opencv_gradients 4 (I t) (P t) ltac:(unfold opencv_model; auto) S F0 F1) as [A B].
    exact (dense_path (opencv_project 4) 4 _ _ I P t dI dP ixy Hi A B (fun i _ => DI i) DP).
  - destruct (C59_opencv_gradients 5 (I t) (P t) ltac:(unfold opencv_model; auto) S F0 F1) as [A B].
    exact (dense_path (opencv_project 5) 5 _ _ I P t dI dP ixy Hi A B (fun i _ => DI i) DP).
  - destruct (C59_opencv_gradients 8 (I t) (P t) ltac:(unfold opencv_model; auto) S F0 F1) as [A B].
    exact (dense_path (opencv_project 8) 8 _ _ I P t dI dP ixy Hi A B (fun i _ => DI i) DP).
  - destruct (C59_opencv_gradients 12 (I t) (P t) ltac:(unfold opencv_model; auto) S F0 F1) as [A B].
    exact (dense_path (opencv_project 12) 12 _ _ I P t dI dP ixy Hi A B (fun i _ => DI i) DP).
  - destruct S as [S1 S2]. destruct (C60_cahvor_gradients (I t) (P t) S1 S2 F0 F1) as [A B].
    exact (dense_path cahvor_project 5 _ _ I P t dI dP ixy Hi A B (fun i _ => DI i) DP).
  - destruct S as [S1 S2]. destruct (C65_gradients (Q2R linearity) (I t) (P t) S1 F0 F1 S2) as (q & J & nc & Eq & EJ & En & A & B).
    assert (cahvore_pixel (Q2R linearity) (I t) (P t) = q) as Ep by (rewrite <- cahvore_lens_pixel; cbn [lens_pixel]; now rewrite Eq).
    rewrite <- Ep in A, B. pose proof (dense_path (cahvore_pixel (Q2R linearity)) 8 nc J I P t dI dP ixy Hi A B (fun i _ => DI i) DP) as K.
    rewrite Ep in K. rewrite Eq. assert (snd (cahvore_project_point (Q2R linearity) (I t) (P t) stale) = J) as ->. { unfold cahvore_project_point. rewrite Eq, EJ. reflexivity. }
    apply is_derive_ext with (fun s => p2get (cahvore_pixel (Q2R linearity) (I s) (P s)) ixy); [|eapply is_derive_rw; [exact K|]].
    + intro s. rewrite <- cahvore_lens_pixel. reflexivity.
    + change (Z.to_nat (12 - 4)) with 8%nat. f_equal. f_equal. apply tot_ext. intros i _. unfold lens_nocore. rewrite En. reflexivity.
  - destruct S as [S1 S2].
    destruct (C61_splined_gradients c (fun s z => I s (Z.to_nat z)) P t (fun z => dI (Z.to_nat z)) dP S1 S2 (fun n _ => DI (Z.to_nat n)) DP) as [A B]; cbv beta in A, B.
    destruct Hi as [-> | ->]; unfold p2get, jget; cbn [Z.eqb].
    + eapply is_derive_rw; [exact A|]. change (Z.to_nat 0) with 0%nat. change (Z.to_nat 2) with 2%nat. change (0 + 2)%nat with 2%nat.
      generalize (weighted (splined_entries c (fun z => I t (Z.to_nat z)) (P t) 0) (fun z => dI (Z.to_nat z))) (px (splined_dq_dfxy c (fun z => I t (Z.to_nat z)) (P t)))
        (dot (dqx (splined_dq_dp c (fun z => I t (Z.to_nat z)) (P t))) dP). intros; rr; ring.
    + eapply is_derive_rw; [exact B|]. change (Z.to_nat 1) with 1%nat. change (Z.to_nat 3) with 3%nat. change (1 + 2)%nat with 3%nat.
      generalize (weighted (splined_entries c (fun z => I t (Z.to_nat z)) (P t) 1) (fun z => dI (Z.to_nat z))) (py (splined_dq_dfxy c (fun z => I t (Z.to_nat z)) (P t)))
        (dot (dqy (splined_dq_dp c (fun z => I t (Z.to_nat z)) (P t))) dP). intros; rr; ring.
Qed.

Lemma lens_deee_row : forall stale m intr p D ixy, focal_ok (core_of intr) -> lens_smooth m intr p ->
  jget (lens_deee stale m intr p D) ixy = vecmat (jget (lens_pixel_J stale m intr p) ixy) D.
Proof.
  intros stale m intr p D ixy [F0 F1] S. cbn [core_of fx fy] in F0, F1.
  destruct m; try (unfold lens_deee, j23mat, jget; destruct (ixy =? 0)%Z; reflexivity).
  - destruct S as [S1 S2]. destruct (C65_gradients (Q2R linearity) intr p S1 F0 F1 S2) as (q & J & nc & Eq & EJ & _).
    unfold lens_deee. cbn [lens_pixel_J]. unfold cahvore_project_point. rewrite EJ, Eq. cbn [snd]. unfold j23mat, jget. destruct (ixy =? 0)%Z; reflexivity.
  - unfold lens_deee. cbn [lens_pixel_J]. destruct (C61_splined_chain c (fun z => intr (Z.to_nat z)) p D) as [A B].
    unfold jget. destruct (ixy =? 0)%Z; [rewrite A|rewrite B]; unfold vecmat; apply v3_eq; cbn [mv mT vx vy vz m00 m01 m02 m10 m11 m12 m20 m21 m22]; ring.
Qed.
Lemma dot_vecmat : forall a D d, dot (vecmat a D) d = dot a (mv D d).
Proof. intros. unfold dot, vecmat, mv. cbn [vx vy vz]. ring. Qed.
Lemma dot_add : forall a b c, dot a (vadd b c) = dot a b + dot a c.
Proof. intros. unfold dot, vadd. cbn [vx vy vz]. ring. Qed.
Lemma vecmat_id : forall a, vecmat a (M33 1 0 0 0 1 0 0 0 1) = a.
Proof. intro a. unfold vecmat. apply v3_eq; cbn [vx vy vz m00 m01 m02 m10 m11 m12 m20 m21 m22]; ring. Qed.

Lemma mv_madd : forall a b d, mv (madd a b) d = vadd (mv a d) (mv b d).
Proof. intros. unfold madd, mv, vadd. apply v3_eq; cbn [vx vy vz m00 m01 m02 m10 m11 m12 m20 m21 m22]; ring. Qed.
Lemma mv_matmat : forall a b d, mv (matmat a b) d = mv a (mv b d).
Proof. intros. unfold matmat, vecmat, mrow, mv. apply v3_eq; cbn [vx vy vz m00 m01 m02 m10 m11 m12 m20 m21 m22]; ring. Qed.
Lemma mv_add : forall a u v, mv a (vadd u v) = vadd (mv a u) (mv a v).
Proof. intros. unfold mv, vadd. apply v3_eq; cbn [vx vy vz]; ring. Qed.
Lemma mv_one : forall d, mv (M33 1 0 0 0 1 0 0 0 1) d = d.
Proof. intros. unfold mv. apply v3_eq; cbn [vx vy vz m00 m01 m02 m10 m11 m12 m20 m21 m22]; ring. Qed.
Lemma mv_dRpt_0 : forall r d, mv (dRpt r (V3 0 0 0)) d = V3 0 0 0.
Proof. intros. unfold mv, dRpt. cbn [vx vy vz m00 m01 m02 m10 m11 m12 m20 m21 m22]. apply v3_eq; cbn [vx vy vz]; ring. Qed.

(** ** the pose *)
Definition moves_rt (F : R -> rt) (t : R) (d : rt) : Prop := moves3 (fun s => rt_r (F s)) t (rt_r d) /\ moves3 (fun s => rt_t (F s)) t (rt_t d).
Definition seen_regular (cam : option rt) (frame : rt) : Prop :=
  match cam with
  | Some c => compose_regular (rt_r c) (rt_r frame) /\ norm2_regular (rt_r c) /\ DBL_EPSILON < norm (rt_r (joint_pose cam frame))
  | None => DBL_EPSILON < norm (rt_r frame)
  end.
Lemma moves3_ext : forall F G t d, (forall s, F s = G s) -> moves3 F t d -> moves3 G t d.
Proof.
  intros F G t d E (A & B & C). split; [|split]; (eapply is_derive_ext; [|eassumption]); intro s; cbv beta; now rewrite E.
Qed.
Lemma dRpt_comb : forall r pt d, mul_Rv (mcomb (R_from_r_J r) d) pt = mv (dRpt r pt) d.
Proof.
  intros r pt d. unfold dRpt, mcomb, mul_Rv, mv, mget, mrow, vget. apply v3_eq; cbn [vx vy vz m00 m01 m02 m10 m11 m12 m20 m21 m22]; ring.
Qed.
Lemma seen_none : forall F X t dF dX, moves_rt F t dF -> moves3 X t dX -> seen_regular None (F t) ->
  moves3 (fun s => camera_point None (F s) (X s)) t
    (vadd (vadd (mv (dRpt (rt_r (F t)) (X t)) (rt_r dF)) (rt_t dF)) (mul_Rv (R_from_r (rt_r (F t))) dX)).
Proof.
  intros F X t dF dX [FR FT] MX H. cbn [seen_regular] in H.
  pose proof (R_from_r_moves _ _ _ FR H) as M. pose proof (mulRv_moves _ _ _ _ _ M MX) as N.
  pose proof (moves3_add _ _ _ _ _ N FT) as K. rewrite dRpt_comb in K.
  unfold camera_point, joint_pose. evar (d : v3). replace (vadd (vadd (mv (dRpt (rt_r (F t)) (X t)) (rt_r dF)) (rt_t dF)) (mul_Rv (R_from_r (rt_r (F t))) dX)) with d; [exact K|].
  unfold d, vadd. apply v3_eq; cbn [vx vy vz]; ring.
Qed.
Lemma seen_some : forall C F X t dC dF dX, moves_rt C t dC -> moves_rt F t dF -> moves3 X t dX -> seen_regular (Some (C t)) (F t) ->
  let g := camera_point_grads (C t) (F t) (X t) in
  moves3 (fun s => camera_point (Some (C s)) (F s) (X s)) t
    (vadd (vadd (vadd (mv (pg_rc g) (rt_r dC)) (mv (pg_tc g) (rt_t dC))) (vadd (mv (pg_rf g) (rt_r dF)) (mv (pg_tf g) (rt_t dF))))
          (mul_Rv (R_from_r (rt_r (joint_pose (Some (C t)) (F t)))) dX)).
Proof.
  intros C F X t dC dF dX [CR CT] [FR FT] MX (H1 & H2 & H3) g.
  pose proof (compose_r_moves _ _ _ _ _ CR FR H1) as KR. cbv zeta in KR. set (y := compose_r_gen dualops _ _ false false) in KR.
  assert (moves3 (fun s => rt_r (joint_pose (Some (C s)) (F s))) t (vadd (mv (grad3 y 0) (rt_r dC)) (mv (grad3 y 3) (rt_r dF)))) as KR' by exact KR.
  pose proof (rotate_moves _ _ _ _ _ false CR FT H2) as KT. cbv beta in KT. destruct (rotJ (rt_r (C t)) (rt_t (F t)) false) as [[tt Jr] Jx] eqn:EJ.
  pose proof (moves3_add _ _ _ _ _ KT CT) as KT'.
  assert (moves3 (fun s => rt_t (joint_pose (Some (C s)) (F s))) t (vadd (vadd (mv Jr (rt_r dC)) (mv Jx (rt_t dF))) (rt_t dC))) as KJ by exact KT'.
  pose proof (R_from_r_moves _ _ _ KR' H3) as M. pose proof (mulRv_moves _ _ _ _ _ M MX) as N. cbv beta in N. rewrite dRpt_comb in N.
  pose proof (moves3_add _ _ _ _ _ N KJ) as K. unfold camera_point.
  replace (vadd (vadd (vadd (mv (pg_rc g) (rt_r dC)) (mv (pg_tc g) (rt_t dC))) (vadd (mv (pg_rf g) (rt_r dF)) (mv (pg_tf g) (rt_t dF)))) (mul_Rv (R_from_r (rt_r (joint_pose (Some (C t)) (F t)))) dX))
    with (vadd (vadd (mv (dRpt (rt_r (joint_pose (Some (C t)) (F t))) (X t)) (vadd (mv (grad3 y 0) (rt_r dC)) (mv (grad3 y 3) (rt_r dF))))
           (mul_Rv (R_from_r (rt_r (joint_pose (Some (C t)) (F t)))) dX)) (vadd (vadd (mv Jr (rt_r dC)) (mv Jx (rt_t dF))) (rt_t dC))); [exact K|].
  unfold g, camera_point_grads, compose_rt2_grad. rewrite EJ. cbn [snd dr_r0 dr_r1 dt_r0 dt_t1 pg_rc pg_tc pg_rf pg_tf]. fold y.
  rewrite mv_madd, !mv_matmat, mv_one, mv_add.
  generalize (mv (dRpt (rt_r (joint_pose (Some (C t)) (F t))) (X t)) (mv (grad3 y 0) (rt_r dC))) (mv (dRpt (rt_r (joint_pose (Some (C t)) (F t))) (X t)) (mv (grad3 y 3) (rt_r dF)))
    (mul_Rv (R_from_r (rt_r (joint_pose (Some (C t)) (F t)))) dX) (mv Jr (rt_r dC)) (mv Jx (rt_t dF)) (rt_t dC). intros a b c d e f.
  apply v3_eq; unfold vadd; cbn [vx vy vz]; ring.
Qed.
(** a discrete point: only the translation of the frame is used *)
Definition point_regular (cam : option rt) : Prop := match cam with Some c => norm2_regular (rt_r c) | None => True end.
Lemma mul_Rv_0 : forall M, mul_Rv M (V3 0 0 0) = V3 0 0 0.
Proof. intro M. unfold mul_Rv. cbn [vx vy vz]. apply v3_eq; cbn [vx vy vz]; ring. Qed.
Lemma vadd_0 : forall a, vadd (V3 0 0 0) a = a.
Proof. intro a. apply v3_eq; unfold vadd; cbn [vx vy vz]; ring. Qed.
Lemma point_none : forall F t dF, moves_rt F t dF -> moves3 (fun s => camera_point None (F s) (V3 0 0 0)) t (rt_t dF).
Proof. intros F t dF [_ FT]. apply (moves3_ext (fun s => rt_t (F s))); [|exact FT]. intro s. unfold camera_point, joint_pose. now rewrite mul_Rv_0, vadd_0. Qed.
Lemma point_some : forall C F t dC dF, moves_rt C t dC -> moves_rt F t dF -> point_regular (Some (C t)) ->
  let g := camera_point_grads (C t) (F t) (V3 0 0 0) in
  moves3 (fun s => camera_point (Some (C s)) (F s) (V3 0 0 0)) t
    (vadd (vadd (mv (pg_rc g) (rt_r dC)) (mv (pg_tc g) (rt_t dC))) (mv (pg_tf g) (rt_t dF))).
Proof.
  intros C F t dC dF [CR CT] [FR FT] H2 g. cbn [point_regular] in H2.
  pose proof (rotate_moves _ _ _ _ _ false CR FT H2) as KT. cbv beta in KT. destruct (rotJ (rt_r (C t)) (rt_t (F t)) false) as [[tt Jr] Jx] eqn:EJ.
  pose proof (moves3_add _ _ _ _ _ KT CT) as KT'.
  apply (moves3_ext (fun s => rt_t (joint_pose (Some (C s)) (F s)))). { intro s. unfold camera_point. now rewrite mul_Rv_0, vadd_0. }
  replace (vadd (vadd (mv (pg_rc g) (rt_r dC)) (mv (pg_tc g) (rt_t dC))) (mv (pg_tf g) (rt_t dF)))
    with (vadd (vadd (mv Jr (rt_r dC)) (mv Jx (rt_t dF))) (rt_t dC)); [exact KT'|].
  unfold g, camera_point_grads, compose_rt2_grad. rewrite EJ. cbn [snd dr_r0 dr_r1 dt_r0 dt_t1 pg_rc pg_tc pg_rf pg_tf].
  rewrite mv_madd, mv_matmat, mv_dRpt_0, mv_one, vadd_0.
  generalize (mv Jr (rt_r dC)) (mv Jx (rt_t dF)) (rt_t dC). intros d e f. apply v3_eq; unfold vadd; cbn [vx vy vz]; ring.
Qed.

(** ** one projection *)
Definition rows_rate (pr : projected) (cam : option rt) (ixy : Z) (dF : rt) : R :=
  match cam with Some dC => dot (jget (pr_rc pr) ixy) (rt_r dC) + dot (jget (pr_tc pr) ixy) (rt_t dC) | None => 0 end +
  (dot (jget (pr_rf pr) ixy) (rt_r dF) + dot (jget (pr_tf pr) ixy) (rt_t dF)).
Definition warp_rate (pr : projected) (ixy : Z) (dw : R * R) : R :=
  let d := if (ixy =? 0)%Z then fst (pr_warp pr) else snd (pr_warp pr) in px d * fst dw + py d * snd dw.
Lemma project_path : forall stale m (I : R -> nat -> R) (C : option (R -> rt)) F X t dI dC dF dX dz dw ixy, (ixy = 0 \/ ixy = 1)%Z ->
  (forall i, is_derive (fun s => I s i) t (dI i)) ->
  match C, dC with Some C, Some dC => moves_rt C t dC | None, None => True | _, _ => False end ->
  moves_rt F t dF -> moves3 X t dX -> dX = V3 0 0 (px dz * fst dw + py dz * snd dw) ->
  let cam s := option_map (fun C => C s) C in
  seen_regular (cam t) (F t) -> focal_ok (core_of (I t)) -> lens_smooth m (I t) (camera_point (cam t) (F t) (X t)) ->
  let pr := project_one stale m (I t) (cam t) (F t) (X t) dz in
  is_derive (fun s => p2get (lens_pixel m (I s) (camera_point (cam s) (F s) (X s))) ixy) t
    (intr_rate m (I t) (camera_point (cam t) (F t) (X t)) ixy dI + rows_rate pr dC ixy dF + warp_rate pr ixy dw).
Proof.
  intros stale m I C F X t dI dC dF dX dz dw ixy Hi DI MC MF MX EX cam SR FO LS pr.
  destruct C as [C|], dC as [dC|]; try contradiction; cbn [option_map] in cam.
  - pose proof (seen_some C F X t dC dF dX MC MF MX SR) as K. cbv zeta in K.
    eapply is_derive_rw; [apply (lens_path stale m I (fun s => camera_point (Some (C s)) (F s) (X s)) t dI _ ixy Hi DI K FO LS)|].
    cbv beta. change (cam t) with (Some (C t)). rewrite Rplus_assoc. f_equal.
    unfold pr, project_one, rows_rate, warp_rate. change (cam t) with (Some (C t)). cbn [pr_rc pr_tc pr_rf pr_tf pr_warp fst snd].
    set (p := camera_point (Some (C t)) (F t) (X t)) in *. set (g := camera_point_grads (C t) (F t) (X t)).
    rewrite !lens_deee_row by assumption. rewrite !dot_vecmat, !dot_add, !Rplus_assoc. do 4 f_equal.
    assert (forall ix, jget (lens_deee stale m (I t) p (pg_tc g)) ix = jget (lens_pixel_J stale m (I t) p) ix) as E.
    { intro ix. rewrite lens_deee_row by assumption. unfold g, camera_point_grads. cbn [pg_tc]. apply vecmat_id. }
    pose proof (E 0%Z) as E0. pose proof (E 1%Z) as E1. unfold jget in E0, E1. cbn [Z.eqb] in E0, E1. rewrite E0, E1, EX.
    generalize (R_from_r (rt_r (joint_pose (Some (C t)) (F t)))). intro M. unfold jget. destruct (ixy =? 0)%Z; cbn [px py];
      [generalize (dqx (lens_pixel_J stale m (I t) p))|generalize (dqy (lens_pixel_J stale m (I t) p))]; intro a;
      unfold dot, mul_Rv; cbn [vx vy vz]; ring.
  - pose proof (seen_none F X t dF dX MF MX SR) as K.
    eapply is_derive_rw; [apply (lens_path stale m I (fun s => camera_point None (F s) (X s)) t dI _ ixy Hi DI K FO LS)|].
    cbv beta. change (cam t) with (@None rt). rewrite Rplus_assoc. f_equal.
    unfold pr, project_one, rows_rate, warp_rate. change (cam t) with (@None rt). cbn [pr_rc pr_tc pr_rf pr_tf pr_warp fst snd joint_pose].
    set (p := camera_point None (F t) (X t)) in *.
    rewrite !lens_deee_row by assumption. rewrite !dot_vecmat, !dot_add, EX.
    generalize (R_from_r (rt_r (F t))) (mv (dRpt (rt_r (F t)) (X t)) (rt_r dF)) (rt_t dF). intros M Y Y'. unfold jget. destruct (ixy =? 0)%Z; cbn [px py];
      [generalize (dqx (lens_pixel_J stale m (I t) p))|generalize (dqy (lens_pixel_J stale m (I t) p))]; intro a;
      unfold dot, mul_Rv; cbn [vx vy vz]; ring.
Qed.
Lemma project_point_path : forall stale m (I : R -> nat -> R) (C : option (R -> rt)) F t dI dC dF ixy, (ixy = 0 \/ ixy = 1)%Z ->
  (forall i, is_derive (fun s => I s i) t (dI i)) ->
  match C, dC with Some C, Some dC => moves_rt C t dC | None, None => True | _, _ => False end ->
  moves_rt F t dF -> rt_r dF = V3 0 0 0 ->
  let cam s := option_map (fun C => C s) C in
  point_regular (cam t) -> focal_ok (core_of (I t)) -> lens_smooth m (I t) (camera_point (cam t) (F t) (V3 0 0 0)) ->
  let pr := project_one stale m (I t) (cam t) (F t) (V3 0 0 0) (P2 0 0) in
  is_derive (fun s => p2get (lens_pixel m (I s) (camera_point (cam s) (F s) (V3 0 0 0))) ixy) t
    (intr_rate m (I t) (camera_point (cam t) (F t) (V3 0 0 0)) ixy dI + rows_rate pr dC ixy dF).
Proof.
  intros stale m I C F t dI dC dF ixy Hi DI MC MF EF cam SR FO LS pr.
  assert (forall a, dot a (V3 0 0 0) = 0) as D0 by (intro a; unfold dot; cbn [vx vy vz]; ring).
  destruct C as [C|], dC as [dC|]; try contradiction; cbn [option_map] in cam.
  - pose proof (point_some C F t dC dF MC MF SR) as K. cbv zeta in K.
    eapply is_derive_rw; [apply (lens_path stale m I (fun s => camera_point (Some (C s)) (F s) (V3 0 0 0)) t dI _ ixy Hi DI K FO LS)|].
    cbv beta. change (cam t) with (Some (C t)). f_equal.
    unfold pr, project_one, rows_rate. change (cam t) with (Some (C t)). cbn [pr_rc pr_tc pr_rf pr_tf pr_warp fst snd].
    set (p := camera_point (Some (C t)) (F t) (V3 0 0 0)) in *. set (g := camera_point_grads (C t) (F t) (V3 0 0 0)).
    rewrite EF, D0. rewrite !lens_deee_row by assumption. rewrite !dot_vecmat, !dot_add. rr. ring.
  - pose proof (point_none F t dF MF) as K.
    eapply is_derive_rw; [apply (lens_path stale m I (fun s => camera_point None (F s) (V3 0 0 0)) t dI _ ixy Hi DI K FO LS)|].
    cbv beta. change (cam t) with (@None rt). f_equal.
    unfold pr, project_one, rows_rate. change (cam t) with (@None rt). cbn [pr_rc pr_tc pr_rf pr_tf pr_warp fst snd joint_pose].
    rewrite EF, D0. rr. ring.
Qed.
