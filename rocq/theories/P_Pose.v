(** Rodrigues' formula: facts about R_from_r and rotate_point_r. *)
From Coq Require Import Reals Lra Psatz Nsatz.
From Coquelicot Require Import Coquelicot.
From Verif Require Import S_Vec M_Dual M_Pose.
Open Scope R_scope.

(** Rodrigues with unit axis u, sine s, cosine c *)
Definition rod (u : v3) (s c : R) : m33 :=
  M33 (c + (1 - c) * vx u * vx u) ((1 - c) * vx u * vy u - s * vz u) ((1 - c) * vx u * vz u + s * vy u)
      ((1 - c) * vx u * vy u + s * vz u) (c + (1 - c) * vy u * vy u) ((1 - c) * vy u * vz u - s * vx u)
      ((1 - c) * vx u * vz u - s * vy u) ((1 - c) * vy u * vz u + s * vx u) (c + (1 - c) * vz u * vz u).

Lemma rod_rot : forall u s c, norm2 u = 1 -> s * s + c * c = 1 -> is_rot (rod u s c).
Proof.
  intros [a b d] s c Hu Hs. unfold norm2, dot in Hu. cbn in Hu. unfold is_rot, rod.
  split; [|split].
  - apply m33_eq; vunfold; nsatz.
  - apply m33_eq; vunfold; nsatz.
  - vunfold. nsatz.
Qed.
Lemma rod_mv : forall u s c x, norm2 u = 1 ->
  mv (rod u s c) x = vadd (vadd (vscale c x) (vscale s (cross u x))) (vscale ((1 - c) * dot u x) u).
Proof. intros [a b d] s c [x y z] Hu. unfold rod. apply v3_eq; vunfold; ring. Qed.
Lemma rod_axis : forall u s c, norm2 u = 1 -> mv (rod u s c) u = u.
Proof. intros [a b d] s c Hu. unfold norm2, dot in Hu. cbn in Hu. unfold rod. apply v3_eq; vunfold; nsatz. Qed.
Lemma rod_neg : forall u s c, rod (vneg u) s c = mT (rod u s c).
Proof. intros. unfold rod. apply m33_eq; vunfold; ring. Qed.

Definition unit (r : v3) : v3 := V3 (vx r * (1 / norm r)) (vy r * (1 / norm r)) (vz r * (1 / norm r)).
Lemma unit_norm2 : forall r, r <> v0 -> norm2 (unit r) = 1.
Proof.
  intros r H. pose proof (norm_pos r H) as P. pose proof (norm_sq r) as Q. unfold unit. 
  transitivity ((vx r * vx r + vy r * vy r + vz r * vz r) / (norm r * norm r)).
  - vunfold. field. lra.
  - rewrite Q. vunfold. field. rewrite <- Q. nra.
Qed.
Lemma unit_scale : forall r, r <> v0 -> vscale (norm r) (unit r) = r.
Proof. intros r H. pose proof (norm_pos r H). unfold unit. apply v3_eq; vunfold; field; lra. Qed.

Lemma sqrt_norm2 : forall r, sqrt (vx r * vx r + vy r * vy r + vz r * vz r) = norm r.
Proof. reflexivity. Qed.
Lemma eps_pos : 0 < DBL_EPSILON.
Proof. unfold DBL_EPSILON. lra. Qed.
Lemma norm_lt : forall r k, 0 < k -> (norm2 r < k * k <-> norm r < k).
Proof.
  intros r k Hk. pose proof (norm_nonneg r). pose proof (norm_sq r) as Q. split; intro.
  - destruct (Rlt_dec (norm r) k); [easy|]. nra.
  - nra.
Qed.

(** |r| >= DBL_EPSILON: exactly Rodrigues *)
Lemma R_from_r_rod : forall r, DBL_EPSILON <= norm r -> R_from_r r = rod (unit r) (sin (norm r)) (cos (norm r)).
Proof.
  intros r H. unfold R_from_r. cbv zeta. destruct (Rlt_dec _ _) as [L|L].
  - exfalso. pose proof (norm_lt r DBL_EPSILON eps_pos) as N. unfold norm2, dot in N. apply N in L. lra.
  - rewrite sqrt_norm2. reflexivity.
Qed.
Lemma R_from_r_tiny : forall r, norm r < DBL_EPSILON -> R_from_r r = I3.
Proof.
  intros r H. unfold R_from_r. cbv zeta. destruct (Rlt_dec _ _) as [L|L]; [reflexivity|].
  exfalso. apply L. pose proof (norm_lt r DBL_EPSILON eps_pos) as N. unfold norm2, dot in N. now apply N.
Qed.
Lemma pos_ne0 : forall r, 0 < norm r -> r <> v0.
Proof. intros r H E. subst. unfold norm, norm2, dot, v0 in H. cbn in H. replace (0 * 0 + 0 * 0 + 0 * 0) with 0 in H by ring. rewrite sqrt_0 in H. lra. Qed.
Lemma norm_v0 : norm v0 = 0.
Proof. unfold norm, norm2, dot, v0. cbn. replace (0 * 0 + 0 * 0 + 0 * 0) with 0 by ring. apply sqrt_0. Qed.
Lemma sc1 : forall x, sin x * sin x + cos x * cos x = 1.
Proof. intro x. pose proof (sin2_cos2 x) as H. unfold Rsqr in H. exact H. Qed.

Lemma R_from_r_rot : forall r, is_rot (R_from_r r).
Proof.
  intro r. destruct (Rlt_dec (norm r) DBL_EPSILON) as [L|L].
  - rewrite R_from_r_tiny by easy. apply is_rot_I.
  - pose proof eps_pos. rewrite R_from_r_rod by lra. apply rod_rot; [|apply sc1]. apply unit_norm2, pos_ne0. lra.
Qed.
Lemma norm_vneg : forall r, norm (vneg r) = norm r.
Proof. intro r. unfold norm. f_equal. vring. Qed.
Lemma R_from_r_neg : forall r, R_from_r (vneg r) = mT (R_from_r r).
Proof.
  intro r. destruct (Rlt_dec (norm r) DBL_EPSILON) as [L|L].
  - rewrite !R_from_r_tiny by (rewrite ?norm_vneg; easy). symmetry. apply mT_I.
  - rewrite !R_from_r_rod by (rewrite ?norm_vneg; lra). rewrite norm_vneg, <- rod_neg. f_equal.
    unfold unit. rewrite norm_vneg. apply v3_eq; vunfold; ring.
Qed.
Lemma rod_by : forall r, r <> v0 -> rotation_by (rod (unit r) (sin (norm r)) (cos (norm r))) r.
Proof.
  intros r H. pose proof (unit_norm2 r H) as U. pose proof (unit_scale r H) as S. pose proof (norm_pos r H) as P. split.
  - assert (mv (rod (unit r) (sin (norm r)) (cos (norm r))) (vscale (norm r) (unit r)) = vscale (norm r) (unit r)) as E
      by (rewrite mv_vscale, rod_axis by easy; reflexivity).
    rewrite S in E. exact E.
  - intros v Hv. rewrite rod_mv by easy.
    assert (dot (unit r) v = 0) as Hu.
    { apply (Rmult_eq_reg_l (norm r)); [|lra]. rewrite Rmult_0_r.
      transitivity (dot (vscale (norm r) (unit r)) v); [vring|]. now rewrite S. }
    rewrite Hu. assert (cross r v = vscale (norm r) (cross (unit r) v)) as Hc.
    { rewrite <- S at 1. vring. }
    rewrite Hc. apply v3_eq; vunfold; ring.
Qed.
(** a rotation by r is determined *)
Lemma rotation_by_rod : forall r m, r <> v0 -> rotation_by m r -> m = rod (unit r) (sin (norm r)) (cos (norm r)).
Proof.
  intros r m H [F T]. pose proof (unit_norm2 r H) as U. pose proof (unit_scale r H) as S. pose proof (norm_pos r H) as P.
  assert (forall v, mv m v = mv (rod (unit r) (sin (norm r)) (cos (norm r))) v) as E.
  { intro v. set (w := vsub v (vscale (dot (unit r) v) (unit r))).
    assert (mv m (unit r) = unit r) as Fu.
    { assert (vscale (norm r) (mv m (unit r)) = vscale (norm r) (unit r)) as Q by (rewrite <- mv_vscale, S; exact F).
      pose proof (f_equal vx Q) as Q1. pose proof (f_equal vy Q) as Q2. pose proof (f_equal vz Q) as Q3.
      apply v3_eq; (apply (Rmult_eq_reg_l (norm r)); [assumption|lra]). }
    assert (dot (unit r) w = 0) as Hw0.
    { unfold w. transitivity (dot (unit r) v - dot (unit r) v * norm2 (unit r)); [vring|]. rewrite U. ring. }
    assert (dot r w = 0) as Hw.
    { rewrite <- S. transitivity (norm r * dot (unit r) w); [vring|]. rewrite Hw0. ring. }
    pose proof (T w Hw) as Tw. destruct (rod_by r H) as [_ T']. pose proof (T' w Hw) as Tw'.
    rewrite <- Tw' in Tw.
    assert (mv m w = mv (rod (unit r) (sin (norm r)) (cos (norm r))) w) as Ew.
    { pose proof (f_equal vx Tw) as Q1. pose proof (f_equal vy Tw) as Q2. pose proof (f_equal vz Tw) as Q3.
      apply v3_eq; (apply (Rmult_eq_reg_l (norm r)); [assumption|lra]). }
    assert (v = vadd w (vscale (dot (unit r) v) (unit r))) as Ev by (unfold w; vring).
    rewrite Ev. rewrite !mv_vadd, !mv_vscale, Fu, Ew. f_equal. f_equal.
    now rewrite rod_axis. }
  pose proof (E (V3 1 0 0)) as E1. pose proof (E (V3 0 1 0)) as E2. pose proof (E (V3 0 0 1)) as E3.
  pose proof (f_equal vx E1); pose proof (f_equal vy E1); pose proof (f_equal vz E1).
  pose proof (f_equal vx E2); pose proof (f_equal vy E2); pose proof (f_equal vz E2).
  pose proof (f_equal vx E3); pose proof (f_equal vy E3); pose proof (f_equal vz E3).
  clear E E1 E2 E3 T F. remember (rod (unit r) (sin (norm r)) (cos (norm r))) as g. clear Heqg.
  apply m33_eq; vunfold; lra.
Qed.

(** rotate_point_r *)
Lemma rotate_point_r_big : forall r x inv, 1 / 100000 <= norm r ->
  rotate_point_r r x inv = mv (if inv then mT (R_from_r r) else R_from_r r) x.
Proof.
  intros r x inv H. assert (R_from_r r = rod (unit r) (sin (norm r)) (cos (norm r))) as E.
  { apply R_from_r_rod. unfold DBL_EPSILON. lra. }
  assert (r <> v0) as Hr by (apply pos_ne0; lra). pose proof (norm_sq r) as Q.
  rewrite E. unfold rotate_point_r, rotate_point_r_core, nvval.
  cbn [n_x n_y n_z realops nval nadd nsub nmul nmulc ndiv nsqrt nsin ncos nconst vconst vx vy vz num].
  destruct (Rlt_dec _ _) as [L|L].
  { exfalso. pose proof (norm_lt r (1 / 100000) ltac:(lra)) as N. unfold norm2, dot in N.
    assert (norm r < 1 / 100000) by (apply N; lra). lra. }
  cbn [n_x n_y n_z]. rewrite sqrt_norm2. replace (vx r * vx r + vy r * vy r + vz r * vz r) with (norm r * norm r) by exact Q.
  generalize (sin (norm r)) (cos (norm r)). intros s c.
  destruct inv; unfold rod, unit; apply v3_eq; vunfold; field; lra.
Qed.
