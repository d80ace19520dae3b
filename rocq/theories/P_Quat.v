(** Rotations as unit quaternions: the algebra behind compose_r. *)
From Coq Require Import Reals Lra Psatz Nsatz.
From Coquelicot Require Import Coquelicot.
From Verif Require Import S_Vec M_Dual M_Pose P_Trig P_Pose P_PoseGrad P_Compose.
Open Scope R_scope.

Definition Q (w : R) (v : v3) : m33 :=
  let x := vx v in let y := vy v in let z := vz v in
  M33 (w * w + x * x - y * y - z * z) (2 * (x * y - w * z)) (2 * (x * z + w * y))
      (2 * (x * y + w * z)) (w * w - x * x + y * y - z * z) (2 * (y * z - w * x))
      (2 * (x * z - w * y)) (2 * (y * z + w * x)) (w * w - x * x - y * y + z * z).
Lemma Q_mul : forall w v w' v', mm (Q w v) (Q w' v') =
  Q (w * w' - dot v v') (vadd (vadd (vscale w v') (vscale w' v)) (cross v v')).
Proof. intros w [a b c] w' [a' b' c']. unfold Q. apply m33_eq; vunfold; ring. Qed.
Lemma Q_opp : forall w v, Q (- w) (vneg v) = Q w v.
Proof. intros. unfold Q. apply m33_eq; vunfold; ring. Qed.
Lemma Q_one : Q 1 v0 = I3.
Proof. unfold Q. apply m33_eq; vunfold; ring. Qed.
Lemma rod_Q : forall u h, norm2 u = 1 -> rod u (sin (2 * h)) (cos (2 * h)) = Q (cos h) (vscale (sin h) u).
Proof.
  intros [a b c] h Hu. unfold norm2, dot in Hu. cbn in Hu. rewrite sin_2a, cos_2a. pose proof (sc1 h) as E.
  unfold rod, Q. apply m33_eq; vunfold; nsatz.
Qed.
(** the half-angle quaternion of a rotation vector *)
Definition qw (r : v3) : R := cos (half r).
Definition qv (r : v3) : v3 := vscale (sin (half r) / half r * (1 / 2)) r.
Lemma rod_r_Q : forall r, r <> v0 -> rod (unit r) (sin (norm r)) (cos (norm r)) = Q (qw r) (qv r).
Proof.
  intros r H. pose proof (norm_pos r H). replace (norm r) with (2 * half r) by (unfold half; lra).
  rewrite rod_Q by now apply unit_norm2. unfold qw, qv. f_equal. unfold unit, half. apply v3_eq; vunfold; field; lra.
Qed.

(** From a unit quaternion to a rotation vector *)
Definition rvec (w : R) (v : v3) : v3 := vscale (acos w / sqrt (1 - w * w) * 2) v.
Lemma sqrt_1w : forall w v, w * w + norm2 v = 1 -> sqrt (1 - w * w) = norm v.
Proof. intros w v H. replace (1 - w * w) with (norm2 v) by lra. reflexivity. Qed.
Lemma acos_range : forall w, -1 < w < 1 -> 0 < acos w < PI.
Proof. apply acos_bound_lt. Qed.
Lemma sin_acos' : forall w, -1 <= w <= 1 -> sin (acos w) = sqrt (1 - w * w).
Proof. intros w H. rewrite sin_acos by easy. reflexivity. Qed.
Lemma rvec_norm : forall w v, w * w + norm2 v = 1 -> -1 < w < 1 -> norm (rvec w v) = 2 * acos w.
Proof.
  intros w v H Hw. unfold rvec. rewrite norm_vscale, (sqrt_1w w v H). pose proof (acos_range w Hw).
  assert (0 < norm v). { unfold norm. apply sqrt_lt_R0. nra. }
  rewrite Rabs_pos_eq; [field; lra|]. apply Rmult_le_pos; [|lra]. apply Rmult_le_pos; [lra|]. left. now apply Rinv_0_lt_compat.
Qed.
Lemma rvec_ne : forall w v, w * w + norm2 v = 1 -> -1 < w < 1 -> rvec w v <> v0.
Proof. intros w v H Hw. apply pos_ne0. rewrite rvec_norm by easy. pose proof (acos_range w Hw). lra. Qed.
Lemma rvec_Q : forall w v, w * w + norm2 v = 1 -> -1 < w < 1 -> rotation_by (Q w v) (rvec w v).
Proof.
  intros w v H Hw. pose proof (rvec_ne w v H Hw) as N. pose proof (rod_by _ N) as B. rewrite rod_r_Q in B by easy.
  pose proof (acos_range w Hw) as A. pose proof (rvec_norm w v H Hw) as Nn.
  assert (half (rvec w v) = acos w) as Eh by (unfold half; rewrite Nn; lra).
  unfold qw, qv in B. rewrite Eh, cos_acos in B by lra. rewrite sin_acos' in B by lra.
  replace (vscale (sqrt (1 - w * w) / acos w * (1 / 2)) (rvec w v)) with v in B; [exact B|].
  unfold rvec. rewrite (sqrt_1w w v H). assert (0 < norm v). { unfold norm. apply sqrt_lt_R0. nra. }
  apply v3_eq; vunfold; field; lra.
Qed.
Lemma rvec_opp : forall w v, w * w + norm2 v = 1 -> -1 < w < 1 -> rvec (- w) (vneg v) = vscale ((acos w - PI) / sqrt (1 - w * w) * 2) v.
Proof.
  intros w v H Hw. unfold rvec. rewrite acos_opp. replace (1 - - w * - w) with (1 - w * w) by ring.
  rewrite (sqrt_1w w v H). assert (0 < norm v). { unfold norm. apply sqrt_lt_R0. nra. }
  apply v3_eq; vunfold; field; lra.
Qed.
Lemma q_unit : forall r, r <> v0 -> qw r * qw r + norm2 (qv r) = 1.
Proof.
  intros r H. pose proof (norm_pos r H). unfold qw, qv. pose proof (sc1 (half r)) as E.
  replace (norm2 (vscale (sin (half r) / half r * (1 / 2)) r)) with ((sin (half r) / half r * (1 / 2)) * (sin (half r) / half r * (1 / 2)) * norm2 r) by vring.
  rewrite <- norm_sq. 
  replace (sin (half r) / half r * (1 / 2) * (sin (half r) / half r * (1 / 2)) * (norm r * norm r)) with (sin (half r) * sin (half r)); [lra|].
  set (s := sin (half r)). unfold half. field. lra.
Qed.
Lemma q_mul_unit : forall w v w' v', w * w + norm2 v = 1 -> w' * w' + norm2 v' = 1 ->
  let W := w * w' - dot v v' in let V := vadd (vadd (vscale w v') (vscale w' v)) (cross v v') in W * W + norm2 V = 1.
Proof.
  intros w [a b c] w' [a' b' c'] H H' W V. unfold norm2, dot in H, H'. cbn in H, H'. unfold W, V. vunfold. nsatz.
Qed.
