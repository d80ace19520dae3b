(** Norm inequalities and Taylor bounds. *)
From Coq Require Import Reals Lra Psatz.
From Verif Require Import S_Vec.
Open Scope R_scope.

Lemma sin_bounds : forall a, 0 <= a <= 3 -> a - a ^ 3 / 6 <= sin a <= a - a ^ 3 / 6 + a ^ 5 / 120.
Proof.
  intros a Ha. pose proof (pre_sin_bound a 0 ltac:(lra) ltac:(lra)) as [L U].
  unfold sin_approx, sin_term in L, U. cbn in L, U. lra.
Qed.
Lemma cos_bounds : forall a, -1 <= a <= 1 -> 1 - a ^ 2 / 2 <= cos a <= 1 - a ^ 2 / 2 + a ^ 4 / 24.
Proof.
  intros a Ha. pose proof (pre_cos_bound a 0 ltac:(lra) ltac:(lra)) as [L U].
  unfold cos_approx, cos_term in L, U. cbn in L, U. lra.
Qed.

Lemma norm_vscale : forall k v, norm (vscale k v) = Rabs k * norm v.
Proof.
  intros k v. unfold norm. replace (norm2 (vscale k v)) with (k * k * norm2 v) by vring.
  rewrite sqrt_mult_alt by nra. f_equal. apply sqrt_Rsqr_abs.
Qed.
Lemma lagrange : forall a b, norm2 (cross a b) + dot a b * dot a b = norm2 a * norm2 b.
Proof. vring. Qed.
Lemma norm_cross_le : forall a b, norm (cross a b) <= norm a * norm b.
Proof.
  intros a b. unfold norm. rewrite <- sqrt_mult_alt by apply norm2_nonneg. apply sqrt_le_1_alt.
  pose proof (lagrange a b). nra.
Qed.
Lemma cauchy : forall a b, Rabs (dot a b) <= norm a * norm b.
Proof.
  intros a b. unfold norm. rewrite <- sqrt_mult_alt by apply norm2_nonneg. rewrite <- sqrt_Rsqr_abs. apply sqrt_le_1_alt.
  pose proof (lagrange a b). pose proof (norm2_nonneg (cross a b)). unfold Rsqr. lra.
Qed.
Lemma norm_triangle : forall a b, norm (vadd a b) <= norm a + norm b.
Proof.
  intros a b. pose proof (norm_nonneg a). pose proof (norm_nonneg b).
  rewrite <- (sqrt_square (norm a + norm b)) by lra. unfold norm at 1. apply sqrt_le_1_alt.
  replace (norm2 (vadd a b)) with (norm2 a + norm2 b + 2 * dot a b) by vring.
  pose proof (norm_sq a). pose proof (norm_sq b). pose proof (cauchy a b). pose proof (Rle_abs (dot a b)). lra.
Qed.
Lemma norm_comp : forall v, Rabs (vx v) <= norm v /\ Rabs (vy v) <= norm v /\ Rabs (vz v) <= norm v.
Proof.
  intro v. unfold norm. rewrite <- !sqrt_Rsqr_abs. unfold Rsqr, norm2, dot. 
  repeat split; apply sqrt_le_1_alt; nra.
Qed.
Lemma norm_0_iff : forall v, norm v = 0 -> v = v0.
Proof. intros v H. apply norm2_zero. rewrite <- norm_sq, H. ring. Qed.
