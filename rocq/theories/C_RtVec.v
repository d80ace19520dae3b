(** C23: pose algebra in the rotation-vector (rt) representation. *)
From Coq Require Import Reals Lra Psatz Nsatz Rtrigo_facts.
From Coquelicot Require Import Coquelicot.
From Verif Require Import S_Vec M_Dual M_Pose P_Dual P_Trig P_Pose P_PoseGrad P_Compose P_Quat C_Rodrigues C_Rt C_PoseGrad.
Open Scope R_scope.

(** ** Specification: r is a rotation vector of the rotation m *)
Definition is_rotvec (m : m33) (r : v3) : Prop := rotation_by m r /\ (r = v0 -> m = I3).

Lemma big_ne : forall r k, 0 < k -> k <= norm r -> r <> v0.
Proof. intros. apply pos_ne0. lra. Qed.
Lemma R_from_r_Q : forall r, 1 / 50000 <= norm r -> R_from_r r = Q (qw r) (qv r).
Proof.
  intros r H. rewrite R_from_r_rod by (unfold DBL_EPSILON; lra). apply rod_r_Q. apply (big_ne r (1 / 50000)); lra.
Qed.
Lemma sxx_big : forall r, 1 / 50000 <= norm r -> sxx (half r) = sin (half r) / half r.
Proof.
  intros r H. unfold sxx. destruct (Rlt_dec _ _) as [L|L]; [|reflexivity]. exfalso. unfold half in L. rewrite Rabs_pos_eq in L; lra.
Qed.
Lemma cmp_cos_q : forall a b, 1 / 50000 <= norm a -> 1 / 50000 <= norm b -> cmp_cos a b = qw a * qw b - dot (qv a) (qv b).
Proof.
  intros a b Ha Hb. unfold cmp_cos. rewrite !sxx_big by easy. unfold qw, qv.
  set (s := sin (half a) / half a). set (s' := sin (half b) / half b). set (c := cos (half a)). set (c' := cos (half b)). vunfold. field.
Qed.
Definition qV (a b : v3) : v3 := vadd (vadd (vscale (qw a) (qv b)) (vscale (qw b) (qv a))) (cross (qv a) (qv b)).
Lemma cmp_u_q : forall a b, 1 / 50000 <= norm a -> 1 / 50000 <= norm b -> cmp_u a b = vscale 2 (qV a b).
Proof.
  intros a b Ha Hb. unfold cmp_u. rewrite !sxx_big by easy. unfold qV, qw, qv.
  set (s := sin (half a) / half a). set (s' := sin (half b) / half b). set (c := cos (half a)). set (c' := cos (half b)).
  cbv zeta. apply v3_eq; vunfold; field.
Qed.
Lemma trace_Q : forall w v, w * w + norm2 v = 1 -> trace (Q w v) = 4 * (w * w) - 1.
Proof. intros w [a b c] H. unfold norm2, dot in H. cbn in H. unfold Q, trace. cbn. nsatz. Qed.

(** C - sin C for small C *)
Lemma near_bound : forall w v, w * w + norm2 v = 1 -> 1 - eps8 * eps8 / 2 < w -> w < 1 ->
  norm (vsub (vscale 2 v) (rvec w v)) <= 1 / 10 ^ 23 /\ norm (vscale 2 v) <= norm (rvec w v).
Proof.
  intros w v H Hw Hw1. assert (-1 < w < 1) as Hr by (unfold eps8 in *; lra).
  assert (0 < norm v) as Pv. { unfold norm. apply sqrt_lt_R0. nra. }
  pose proof (acos_range w Hr) as A. pose proof (sin_acos' w ltac:(lra)) as S. rewrite (sqrt_1w w v H) in S.
  pose proof (norm_sq v) as N2. assert (norm v < eps8) as Sv by (unfold eps8 in *; nra).
  assert (acos w <= 1) as A1.
  { destruct (Rle_dec (acos w) 1); [easy|]. exfalso. pose proof (cos_bounds 1 ltac:(lra)) as [_ C1].
    assert (1 <= PI) by (pose proof PI2_3_2; lra). assert (w < cos 1). { rewrite <- (cos_acos w) by lra. apply cos_decreasing_1; lra. }
    unfold eps8 in *. lra. }
  pose proof (sin_bounds (acos w) ltac:(lra)) as [B1 B2]. rewrite S in B1.
  assert (acos w ^ 3 <= acos w) as B3. { replace (acos w ^ 3) with (acos w * (acos w * acos w)) by ring. nra. }
  assert (acos w <= 2 * norm v) as B4 by lra.
  assert (acos w ^ 3 <= (2 * eps8) ^ 3) as B5 by (apply pow_incr; lra).
  rewrite rvec_norm by easy. rewrite norm_vscale, Rabs_pos_eq by lra.
  assert (sin (acos w) < acos w) as B6 by (apply sin_lt_x; lra). rewrite S in B6. split; [|lra].
  replace (vsub (vscale 2 v) (rvec w v)) with (vscale (2 * (norm v - acos w) / norm v) v).
  - rewrite norm_vscale. rewrite Rabs_left1.
    + replace (- (2 * (norm v - acos w) / norm v) * norm v) with (2 * (acos w - norm v)) by (field; lra). unfold eps8 in B5. lra.
    + assert (0 < / norm v) by now apply Rinv_0_lt_compat. unfold Rdiv. nra.
  - unfold rvec. rewrite (sqrt_1w w v H). apply v3_eq; vunfold; field; lra.
Qed.

Lemma q_zero : forall w v, w * w + norm2 v = 1 -> ~ (-1 < w < 1) -> v = v0 /\ (w = 1 \/ w = -1).
Proof.
  intros w v H Hn. pose proof (norm2_nonneg v). assert (norm2 v = 0) as Z. { destruct (Rlt_dec (-1) w); destruct (Rlt_dec w 1); nra || tauto. }
  split; [now apply norm2_zero|]. rewrite Z in H. assert ((w - 1) * (w + 1) = 0) as F by lra. apply Rmult_integral in F. destruct F; [left|right]; lra.
Qed.

(** ** compose_r.  R0, R1 are the rotation matrices of the two inputs (transposed
    for an inverted input).  For |r0|,|r1| >= 2e-5: there is a rotation vector r of
    R0 R1 of angle at most pi, the result is r exactly unless R0 R1 is within about
    2e-8 rad of the identity, in which case it is within 1e-23 of r (and no longer). *)
Theorem C23_compose_r_partial : forall r0 r1 i0 i1,
  1 / 50000 <= norm r0 -> 1 / 50000 <= norm r1 ->
  let M i r := if (i : bool) then mT (R_from_r r) else R_from_r r in
  let P := mm (M i0 r0) (M i1 r1) in
  let y := compose_r2 r0 r1 i0 i1 in
  exists r, is_rotvec P r /\ norm r <= PI /\ norm y <= PI /\ norm (vsub y r) <= 1 / 10 ^ 23 /\
    (trace P <= 4 * ((1 - eps8 * eps8 / 2) * (1 - eps8 * eps8 / 2)) - 1 -> y = r).
Proof.
  intros r0 r1 i0 i1 H0 H1 M P y.
  assert (forall i r, M i r = R_from_r (sgn i r)) as EM. { intros [|] r; [symmetry; apply R_from_r_neg|reflexivity]. }
  assert (forall i r, norm (sgn i r) = norm r) as En. { intros [|] r; [apply norm_vneg|reflexivity]. }
  unfold P. rewrite !EM. clear EM. unfold y. rewrite compose_r2_cmp.
  assert (1 / 50000 <= norm (sgn i0 r0)) as H0' by now rewrite En. assert (1 / 50000 <= norm (sgn i1 r1)) as H1' by now rewrite En.
  remember (sgn i0 r0) as a eqn:Ea. remember (sgn i1 r1) as b eqn:Eb. clear - H0' H1'.
  rewrite !R_from_r_Q, Q_mul by easy. rewrite <- (cmp_cos_q a b) by easy. fold (qV a b).
  assert (cmp_cos a b * cmp_cos a b + norm2 (qV a b) = 1) as U.
  { rewrite cmp_cos_q by easy. apply q_mul_unit; apply q_unit; apply (big_ne _ (1 / 50000)); lra. }
  unfold cmp. destruct (Rlt_dec _ _) as [L|_]; [exfalso; unfold half, eps8 in L; lra|]. destruct (Rlt_dec _ _) as [L|_]; [exfalso; unfold half, eps8 in L; lra|].
  unfold cmp_neg, cmp_pos. rewrite cmp_u_q by easy. set (w := cmp_cos a b) in *. set (v := qV a b) in *. clearbody w v. clear a b H0' H1'.
  rewrite (trace_Q w v U). pose proof PI_RGT_0 as Ppi. assert (1 <= PI) as P1 by (pose proof PI2_3_2; lra).
  assert (0 < eps8 * eps8 < 1 / 1000) as Pe by (unfold eps8; lra). set (e := eps8 * eps8) in *.
  assert (forall w v, w * w + norm2 v = 1 -> 0 <= w -> w < 1 -> norm (rvec w v) <= PI) as NB.
  { intros w' v' U' Hw Hw1. rewrite rvec_norm by (easy || lra).
    destruct (Req_dec w' 0) as [-> |Hz]; [rewrite acos_0; lra|].
    assert (acos w' < PI / 2); [|lra]. destruct (Rlt_dec (acos w') (PI / 2)) as [|Q]; [easy|]. exfalso.
    assert (cos (acos w') <= cos (PI / 2)) as Q'. { pose proof (acos_range w' ltac:(lra)). apply cos_decr_1; lra. }
    rewrite cos_acos, cos_PI2 in Q' by lra. lra. }
  destruct (Rlt_dec _ _) as [C1|C1].
  { destruct (Rlt_dec w 1) as [Hw|Hw].
    - exists (rvec w v). destruct (near_bound w v U ltac:(fold e; lra) Hw) as [B1 B2].
      split; [split; [apply rvec_Q; lra|intro Z; exfalso; revert Z; apply rvec_ne; lra]|].
      split; [apply NB; lra|]. split; [eapply Rle_trans; [exact B2|]; apply NB; lra|]. split; [exact B1|]. intro T. exfalso. nra.
    - destruct (q_zero w v U ltac:(lra)) as [-> [-> | ->]]; [|exfalso; lra]. exists v0. replace (vscale 2 v0) with v0 by vring.
      rewrite Q_one. split; [split; [|reflexivity]|]. { split; [apply mv_I|]. intros x _. rewrite norm_v0, sin_0, mv_I. apply v3_eq; vunfold; ring. }
      rewrite norm_v0. split; [lra|]. split; [lra|]. split; [|reflexivity]. replace (vsub v0 v0) with v0 by vring. rewrite norm_v0. lra. }
  destruct (Rlt_dec _ _) as [C2|C2].
  { assert (vmulk (vscale 2 v) (-1) = vscale 2 (vneg v)) as -> by (apply v3_eq; unfold vmulk; vunfold; ring).
    rewrite <- (Q_opp w v). assert (- w * - w + norm2 (vneg v) = 1) as U' by (replace (norm2 (vneg v)) with (norm2 v) by vring; lra).
    destruct (Rlt_dec (- w) 1) as [Hw|Hw].
    - exists (rvec (- w) (vneg v)). destruct (near_bound (- w) (vneg v) U' ltac:(fold e; lra) Hw) as [B1 B2].
      split; [split; [apply rvec_Q; lra|intro Z; exfalso; revert Z; apply rvec_ne; lra]|].
      split; [apply NB; lra|]. split; [eapply Rle_trans; [exact B2|]; apply NB; lra|]. split; [exact B1|]. intro T. exfalso. nra.
    - destruct (q_zero (- w) (vneg v) U' ltac:(lra)) as [Ev [Ew | Ew]]; [|exfalso; lra]. rewrite Ev, Ew. exists v0. replace (vscale 2 v0) with v0 by vring.
      rewrite Q_one. split; [split; [|reflexivity]|]. { split; [apply mv_I|]. intros x _. rewrite norm_v0, sin_0, mv_I. apply v3_eq; vunfold; ring. }
      rewrite norm_v0. split; [lra|]. split; [lra|]. split; [|reflexivity]. replace (vsub v0 v0) with v0 by vring. rewrite norm_v0. lra. }
  assert (-1 < w < 1) as Hw by lra.
  destruct (Rlt_dec _ _) as [C3|C3].
  - exists (rvec (- w) (vneg v)).
    assert (vmulk (vscale 2 v) ((acos w - PI) / sqrt (1 - w * w)) = rvec (- w) (vneg v)) as ->.
    { rewrite rvec_opp by (easy || lra). apply v3_eq; unfold vmulk; vunfold; ring. }
    assert (- w * - w + norm2 (vneg v) = 1) as U' by (replace (norm2 (vneg v)) with (norm2 v) by vring; lra).
    split; [split; [rewrite <- (Q_opp w v); apply rvec_Q; lra|intro Z; exfalso; revert Z; apply rvec_ne; lra]|].
    split; [apply NB; lra|]. split; [apply NB; lra|]. split; [|reflexivity].
    replace (vsub _ _) with v0 by vring. rewrite norm_v0. lra.
  - exists (rvec w v).
    assert (vmulk (vscale 2 v) (acos w / sqrt (1 - w * w)) = rvec w v) as ->.
    { apply v3_eq; unfold vmulk, rvec; vunfold; ring. }
    split; [split; [apply rvec_Q; lra|intro Z; exfalso; revert Z; apply rvec_ne; lra]|].
    split; [apply NB; lra|]. split; [apply NB; lra|]. split; [|reflexivity].
    replace (vsub _ _) with v0 by vring. rewrite norm_v0. lra.
Qed.
Print Assumptions C23_compose_r_partial.

Lemma rotvec_R : forall m r, is_rotvec m r -> r = v0 \/ DBL_EPSILON <= norm r -> R_from_r r = m.
Proof.
  intros m r [B Z] [-> | H].
  - rewrite Z by easy. apply R_from_r_tiny. rewrite norm_v0. apply eps_pos.
  - rewrite R_from_r_rod by easy. symmetry. apply rotation_by_rod; [|easy]. pose proof eps_pos. apply pos_ne0. lra.
Qed.
Lemma trace_rod : forall u s c, norm2 u = 1 -> trace (rod u s c) = 1 + 2 * c.
Proof. intros [a b d] s c H. unfold norm2, dot in H. cbn in H. unfold trace, rod. cbn. nsatz. Qed.

(** ** transform, invert and compose, with every flag, agree with the matrix
    representation (C22).  Exactly, for |r| >= 1e-5 (2e-5 in compose); compose: the
    translation always, the rotation when R0 R1 is not within 2e-8 of the identity *)
Theorem C23_transform_partial : forall p x inv, rt_r p = v0 \/ 1 / 100000 <= norm (rt_r p) ->
  transform_point_rt p x inv = transform_point_Rt (Rt_from_rt p) x inv.
Proof.
  intros [r t] x inv H. cbn [rt_r] in H.
  assert (forall x inv, rotate_point_r r x inv = rotate_point_R (R_from_r r) x inv) as E.
  { intros y i. destruct H as [-> | H].
    - rewrite (proj1 (proj2 (C20_rotate_point_agrees_partial v0 y i)) eq_refl).
      rewrite R_from_r_tiny by (rewrite norm_v0; apply eps_pos). destruct i; unfold rotate_point_R; rewrite ?swap_mT, ?mT_I, mul_Rv_mv, mv_I; reflexivity.
    - rewrite rotate_point_r_big by easy. destruct i; reflexivity. }
  unfold transform_point_rt, transform_point_Rt, Rt_from_rt. cbn [rt_r rt_t Rt_R Rt_t]. destruct inv.
  - rewrite rxrt_real. apply E.
  - now rewrite E.
Qed.
Lemma rot_zero_or_big : forall r x inv, r = v0 \/ 1 / 100000 <= norm r -> rotate_point_r r x inv = mv (if inv then mT (R_from_r r) else R_from_r r) x.
Proof.
  intros r x i [-> | H]; [|now apply rotate_point_r_big].
  rewrite (proj1 (proj2 (C20_rotate_point_agrees_partial v0 x i)) eq_refl).
  rewrite R_from_r_tiny by (rewrite norm_v0; apply eps_pos). destruct i; rewrite ?mT_I, mv_I; reflexivity.
Qed.
Theorem C23_invert_partial : forall p, rt_r p = v0 \/ 1 / 100000 <= norm (rt_r p) ->
  Rt_from_rt (invert_rt p) = invert_Rt (Rt_from_rt p) /\ rt_r (invert_rt (invert_rt p)) = rt_r p /\ rt_t (invert_rt (invert_rt p)) = rt_t p.
Proof.
  intros [r t] H. cbn [rt_r] in H.
  assert (vneg r = v0 \/ 1 / 100000 <= norm (vneg r)) as H'. { rewrite norm_vneg. destruct H as [-> | H]; [left; vring|now right]. }
  assert (V3 (- vx r) (- vy r) (- vz r) = vneg r) as En by reflexivity.
  assert (vneg (vneg r) = r) as Enn by vring.
  unfold invert_rt, Rt_from_rt, invert_Rt. cbn [rt_r rt_t Rt_R Rt_t]. rewrite En.
  rewrite !(rot_zero_or_big (vneg r)) by easy. rewrite R_from_r_neg.
  split; [f_equal; apply v3_eq; unfold scale3, invert_R, mul_Rv; vunfold; ring|].
  assert (V3 (- vx (vneg r)) (- vy (vneg r)) (- vz (vneg r)) = r) as E2 by exact Enn. rewrite E2. split; [reflexivity|].
  rewrite (rot_zero_or_big r) by easy.
  assert (forall m v, mv m (scale3 (-1) v) = scale3 (-1) (mv m v)) as Es by (intros; apply v3_eq; unfold scale3; vunfold; ring).
  rewrite Es, rot_mv_mT by apply R_from_r_rot. apply v3_eq; unfold scale3; vunfold; ring.
Qed.
(** 0 < |r| < 1e-5: within 1e-10 of the exact transformation, relative to the size of what is rotated.  M is the exact rotation by r *)
Lemma rot_by_neg : forall m r, r <> v0 -> rotation_by m r -> rotation_by (mT m) (vneg r).
Proof.
  intros m r Hr H. assert (vneg r <> v0) as Hn. { intro E. apply Hr. replace r with (vneg (vneg r)) by vring. rewrite E. vring. }
  rewrite (rotation_by_rod _ _ Hr H). replace (mT (rod (unit r) (sin (norm r)) (cos (norm r)))) with (rod (unit (vneg r)) (sin (norm (vneg r))) (cos (norm (vneg r)))); [now apply rod_by|].
  rewrite <- rod_neg, norm_vneg. f_equal. unfold unit. rewrite norm_vneg. vring.
Qed.
Theorem C23_transform_tiny : forall p x M, 0 < norm (rt_r p) < 1 / 100000 -> rotation_by M (rt_r p) ->
  norm (vsub (transform_point_rt p x false) (vadd (mv M x) (rt_t p))) <= 1 / 10000000000 * norm x /\
  norm (vsub (transform_point_rt p x true) (mv (mT M) (vsub x (rt_t p)))) <= 1 / 10000000000 * norm (vsub x (rt_t p)).
Proof.
  intros [r t] x M H HM. cbn [rt_r rt_t] in *. assert (r <> v0) as Hr by (apply pos_ne0; lra).
  unfold transform_point_rt. cbn [rt_r rt_t]. split.
  - pose proof (proj2 (proj2 (C20_rotate_point_agrees_partial r x false)) M (proj2 H) Hr HM) as E.
    replace (vsub _ (vadd (mv M x) t)) with (vsub (rotate_point_r r x false) (mv M x)); [exact E|]. vring.
  - rewrite rxrt_real. exact (proj2 (proj2 (C20_rotate_point_agrees_partial r (vsub x t) true)) (mT M) (proj2 H) Hr (rot_by_neg _ _ Hr HM)).
Qed.
Theorem C23_invert_tiny : forall p M, 0 < norm (rt_r p) < 1 / 100000 -> rotation_by M (rt_r p) ->
  rotation_by (mT M) (rt_r (invert_rt p)) /\
  norm (vsub (rt_t (invert_rt p)) (vneg (mv (mT M) (rt_t p)))) <= 1 / 10000000000 * norm (rt_t p).
Proof.
  intros [r t] M H HM. cbn [rt_r rt_t] in *. assert (r <> v0) as Hr by (apply pos_ne0; lra). pose proof (rot_by_neg _ _ Hr HM) as HN.
  unfold invert_rt. cbn [rt_r rt_t]. change (V3 (- vx r) (- vy r) (- vz r)) with (vneg r). split; [exact HN|].
  assert (vneg r <> v0) as Hn by (apply pos_ne0; rewrite norm_vneg; lra).
  pose proof (proj2 (proj2 (C20_rotate_point_agrees_partial (vneg r) t false)) (mT M) ltac:(rewrite norm_vneg; lra) Hn HN) as E.
  replace (vsub (scale3 (-1) (rotate_point_r (vneg r) t false)) (vneg (mv (mT M) t))) with (vneg (vsub (rotate_point_r (vneg r) t false) (mv (mT M) t))); [now rewrite norm_vneg|].
  apply v3_eq; unfold scale3; vunfold; ring.
Qed.
Print Assumptions C23_transform_tiny.
Print Assumptions C23_invert_tiny.
Theorem C23_compose_rt_partial : forall a b i0 i1, 1 / 50000 <= norm (rt_r a) -> 1 / 50000 <= norm (rt_r b) ->
  let P := compose_Rt2 (Rt_from_rt a) (Rt_from_rt b) i0 i1 in
  let y := compose_rt2 a b i0 i1 in
  rt_t y = Rt_t P /\ norm (rt_r y) <= PI /\
  (exists r, is_rotvec (Rt_R P) r /\ norm (vsub (rt_r y) r) <= 1 / 10 ^ 23) /\
  (trace (Rt_R P) <= 4 * ((1 - eps8 * eps8 / 2) * (1 - eps8 * eps8 / 2)) - 1 -> Rt_from_rt y = P).
Proof.
  intros [ra ta] [rb tb] i0 i1 Ha Hb P y. cbn [rt_r] in Ha, Hb.
  assert (rt_t y = Rt_t P) as Et.
  { unfold y, P, compose_rt2, compose_Rt2, Rt_from_rt. cbn [rt_r rt_t Rt_R Rt_t].
    destruct i0, i1; cbn [rt_t Rt_t]; rewrite ?(rotate_point_r_big ra), ?(rotate_point_r_big rb) by lra;
      rewrite ?mul_RR_mm; apply v3_eq; unfold scale3, mul_Rv, mul_Rtv, swap_strides; vunfold; ring. }
  assert (Rt_R P = mm (if i0 then mT (R_from_r ra) else R_from_r ra) (if i1 then mT (R_from_r rb) else R_from_r rb)) as ER.
  { unfold P, compose_Rt2, Rt_from_rt. cbn [rt_r rt_t Rt_R Rt_t]. destruct i0, i1; cbn [Rt_R]; rewrite ?mul_RR_mm; reflexivity. }
  destruct (C23_compose_r_partial ra rb i0 i1 Ha Hb) as (r & Hr & N1 & N2 & N3 & N4). cbv zeta in *. rewrite <- ER in *.
  assert (rt_r y = compose_r2 ra rb i0 i1) as Ey by (unfold y, compose_rt2; destruct i0, i1; reflexivity).
  rewrite <- Ey in *. split; [exact Et|]. split; [exact N2|]. split; [now exists r|].
  intro T. pose proof (N4 T) as Er. rewrite <- Er in Hr. destruct P as [PR Pt]. cbn [Rt_R Rt_t] in *. unfold Rt_from_rt. rewrite Et. f_equal.
  apply rotvec_R; [exact Hr|].
  destruct (Rle_dec DBL_EPSILON (norm (rt_r y))) as [|Q]; [now right|]. left. destruct Hr as [B Z].
  destruct (Req_dec (norm (rt_r y)) 0) as [Z0|NZ]; [now apply norm_0_iff|]. exfalso.
  pose proof (norm_nonneg (rt_r y)). assert (rt_r y <> v0) as Hn by (apply pos_ne0; lra).
  rewrite (rotation_by_rod _ _ Hn B) in T. rewrite trace_rod in T by now apply unit_norm2.
  assert (norm (rt_r y) < DBL_EPSILON) by lra. pose proof (cos_bounds (norm (rt_r y)) ltac:(unfold DBL_EPSILON in *; lra)) as [C1 _].
  assert (norm (rt_r y) ^ 2 <= DBL_EPSILON ^ 2) by (apply pow_incr; lra). unfold DBL_EPSILON, eps8 in *. lra.
Qed.
(** with the identity on either side the other input comes back untouched *)
Theorem C23_compose_identity : forall r, compose_r2 v0 r false false = r /\ compose_r2 r v0 false false = r.
Proof.
  intro r. rewrite !compose_r2_cmp. cbn [sgn]. unfold cmp. assert (half v0 = 0) as Z by (unfold half; rewrite norm_v0; ring). rewrite Z.
  assert (0 < eps8) by (unfold eps8; lra).
  split.
  - destruct (Rlt_dec 0 (eps8 / 2)) as [_|]; [|lra]. destruct (Rlt_dec _ _) as [L|L]; [unfold cmp_sum; vring|].
    unfold cmp_tiny. replace (dot v0 r) with 0 by vring. apply v3_eq; vunfold; unfold Rdiv; ring.
  - destruct (Rlt_dec 0 eps8) as [_|]; [|lra]. destruct (Rlt_dec _ _) as [L|L]; [unfold cmp_sum; vring|].
    unfold cmp_tiny. replace (dot v0 r) with 0 by vring. apply v3_eq; vunfold; unfold Rdiv; ring.
Qed.
(** so the result's angle can exceed pi *)
Theorem C23_angle_refuted : exists r0 r1, PI < norm (compose_r2 r0 r1 false false).
Proof.
  exists v0, (V3 0 0 4). rewrite (proj1 (C23_compose_identity _)). 
  replace (norm (V3 0 0 4)) with 4.
  - pose proof PI_4. destruct (Req_dec PI 4) as [E|]; [|lra]. exfalso.
    pose proof (sin_bounds 3 ltac:(lra)) as [_ B]. assert (sin 3 = sin 1) as E1. { replace 3 with (PI - 1) by lra. apply sin_PI_x. }
    pose proof (sin_bounds 1 ltac:(lra)). lra.
  - unfold norm. replace (norm2 (V3 0 0 4)) with (4 * 4) by (vunfold; cbn; ring). symmetry. apply sqrt_square. lra.
Qed.
(** and composing with a tiny rotation goes wrong when the other one is near a full
    turn: |r0| = 5e-9 and |r1| = 2pi - 1e-8, whose product is within 1e-5 of the
    identity (trace near 3), produces a rotation by more than 36 degrees (trace < 2.61) *)
Theorem C23_tiny_refuted : exists r0 r1, norm r0 = 1 / 200000000 /\ norm r1 < 2 * PI /\
  3 - 1 / 10 ^ 10 <= trace (mm (R_from_r r0) (R_from_r r1)) /\
  trace (R_from_r (compose_r2 r0 r1 false false)) < 261 / 100.
Proof.
  set (t := 1 / 200000000). set (B := PI - t). exists (V3 t 0 0), (V3 0 0 (2 * B)).
  pose proof PI_4 as P4. pose proof PI2_3_2 as P3. assert (0 < t < 1 / 100000000) as Ht by (unfold t; lra).
  assert (norm (V3 t 0 0) = t) as N0. { unfold norm. replace (norm2 (V3 t 0 0)) with (t * t) by (vunfold; cbn; ring). apply sqrt_square. lra. }
  assert (norm (V3 0 0 (2 * B)) = 2 * B) as N1. { unfold norm. replace (norm2 (V3 0 0 (2 * B))) with ((2 * B) * (2 * B)) by (vunfold; cbn; ring). apply sqrt_square. unfold B. lra. }
  split; [exact N0|]. split; [rewrite N1; unfold B; lra|].
  pose proof (cos_bounds t ltac:(lra)) as [C1 C2]. pose proof (sin_bounds t ltac:(lra)) as [S1 S2]. pose proof (COS_bound t) as [_ C3].
  assert (0 < t ^ 2 < 1 / 10 ^ 15) as T2 by (unfold t; lra). assert (0 < t ^ 3 < t / 10 ^ 15) as T3 by (unfold t; lra). assert (0 < t ^ 5 < t / 10 ^ 15) as T5 by (unfold t; lra).
  split.
  - rewrite !R_from_r_rod by (rewrite ?N0, ?N1; unfold DBL_EPSILON, B, t; lra). unfold unit. rewrite N0, N1.
    assert (cos (2 * B) = cos (2 * t)) as E2 by (rewrite !cos_2a; unfold B; rewrite cos_pi_minus, sin_pi_minus; ring). rewrite E2.
    pose proof (cos_bounds (2 * t) ltac:(lra)) as [D1 _]. pose proof (COS_bound (2 * t)) as [_ D2].
    set (c := cos t) in *. set (d := cos (2 * t)) in *. set (s := sin t) in *. set (s' := sin (2 * B)).
    match goal with |- _ <= trace ?m => replace (trace m) with (c + d + c * d) end.
    + replace ((2 * t) ^ 2) with (4 * t ^ 2) in D1 by ring. clearbody c d. nra.
    + unfold trace, rod. vunfold. cbn. field. unfold B. lra.
  - rewrite compose_r2_cmp. cbn [sgn]. unfold cmp, half. rewrite N0, N1.
    destruct (Rlt_dec _ _) as [_|N]; [|exfalso; apply N; unfold eps8, t; lra]. destruct (Rlt_dec _ _) as [N|_]; [exfalso; unfold eps8, B in N; lra|].
    unfold cmp_tiny, half. rewrite N1. replace (2 * B * (1 / 2)) with B by field.
    assert (tan B = - tan t) as ET by (apply tan_pi_minus; lra). 
    set (k := t * cos t / sin t). assert (0 < sin t <= t) as Ps by (pose proof (sin_lt_x t ltac:(lra)); lra).
    assert (t * (B / tan B) = - (B * k)) as EK by (rewrite ET; unfold k, tan; field; lra).
    assert (99 / 100 < k < 101 / 100) as Hk.
    { unfold k. split; apply Rmult_lt_reg_r with (sin t); try lra; unfold Rdiv; rewrite ?(Rmult_assoc (t * cos t)), ?Rinv_l, ?Rmult_1_r by lra; nra. }
    match goal with |- trace (R_from_r ?v) < _ => replace v with (V3 (- (B * k)) (- (t * B)) (2 * B)) end.
    2:{ cbn [vx vy vz]. replace (dot (V3 t 0 0) (V3 0 0 (2 * B))) with 0 by (vunfold; cbn; ring). rewrite <- EK. generalize (B / tan B). intro kk. assert (B <> 0) by (unfold B; lra). apply v3_eq; unfold cross; cbn [vx vy vz]; field; assumption. }
    clearbody k. clear EK ET Ps S1 S2 C1 C2 C3 N0 N1.
    set (y := V3 (- (B * k)) (- (t * B)) (2 * B)). assert (norm2 y = B * B * (k * k + t * t + 4)) as E2 by (unfold y; vunfold; cbn; ring).
    set (q := k * k + t * t + 4) in *. assert (498 / 100 < q < 503 / 100) as Hq by (unfold q; nra).
    assert (0 < B) as PB by (unfold B; lra).
    assert (norm y = B * sqrt q) as Ny. { unfold norm. rewrite E2, sqrt_mult by nra. rewrite sqrt_square by lra. reflexivity. }
    set (s := sqrt q) in *. assert (s * s = q) as Es by (apply sqrt_sqrt; lra). assert (0 <= s) as Ps by apply sqrt_pos. clearbody s.
    assert (223 / 100 < s < 225 / 100) as Hs by nra.
    assert (y <> v0) as Hy by (apply pos_ne0; rewrite Ny; nra).
    rewrite R_from_r_rod by (rewrite Ny; unfold DBL_EPSILON, B; nra). rewrite trace_rod by now apply unit_norm2. rewrite Ny.
    set (x := B * s - 2 * PI). assert (cos (B * s) = cos x) as ->. { unfold x. rewrite <- (cos_period (B * s - 2 * PI) 1). f_equal. cbn. ring. }
    assert (68 / 100 < x < 1) as Hx. { unfold x, B. assert (0 < t * s < 1 / 1000000) by nra. assert (3 * (s - 2) <= PI * (s - 2)) by (apply Rmult_le_compat_r; lra). assert (PI * (s - 2) <= 4 * (s - 2)) by (apply Rmult_le_compat_r; lra). replace ((PI - t) * s - 2 * PI) with (PI * (s - 2) - t * s) by ring. split; lra. }
    pose proof (cos_bounds x ltac:(lra)) as [_ Cx]. replace (x ^ 4) with (x ^ 2 * x ^ 2) in Cx by ring. assert (46 / 100 < x ^ 2 < 1) as Hz by (replace (x ^ 2) with (x * x) by ring; split; nra). set (z := x ^ 2) in *. clearbody z. nra.
Qed.
Print Assumptions C23_compose_rt_partial.
Print Assumptions C23_transform_partial.
Print Assumptions C23_invert_partial.
Print Assumptions C23_tiny_refuted.

(** Not vacuous: a quarter turn about z then one about x *)
Example ex_big : 1 / 50000 <= norm (V3 0 0 (PI / 2)) /\ 1 / 50000 <= norm (V3 (PI / 2) 0 0).
Proof.
  pose proof PI2_3_2.
  assert (norm (V3 0 0 (PI / 2)) = PI / 2) as ->. { unfold norm. replace (norm2 (V3 0 0 (PI / 2))) with ((PI / 2) * (PI / 2)) by (vunfold; cbn; ring). apply sqrt_square. lra. }
  assert (norm (V3 (PI / 2) 0 0) = PI / 2) as ->. { unfold norm. replace (norm2 (V3 (PI / 2) 0 0)) with ((PI / 2) * (PI / 2)) by (vunfold; cbn; ring). apply sqrt_square. lra. }
  lra.
Qed.
Print Assumptions C23_compose_identity.
Print Assumptions C23_angle_refuted.
