(** C53: the matrices of [S_Cross] are the derivatives of moving a pose or a point
    by a small rigid motion, as computed by compose_rt() and transform_point_rt(). *)
From Coq Require Import Reals Lra Lia.
From Coquelicot Require Import Coquelicot.
From Verif Require Import S_Vec M_Dual M_Pose P_Dual P_PoseGrad C_TinyGrad S_Cross.
Open Scope R_scope.

Definition zero_m : m33 := M33 0 0 0 0 0 0 0 0 0.
Definition neg_skew (t : v3) : m33 := M33 0 (vz t) (- vy t) (- vz t) 0 (vx t) (vy t) (- vx t) 0.
Lemma rotate_tiny : forall x d, is_jacobian (fun r0 => vadd (rotate_point_r r0 x false) d) v0 (neg_skew x).
Proof.
  intros x d i j Hi Hj. replace (vget v0 j) with 0 by (destruct j as [|[|j]]; reflexivity). apply is_derive_Reals.
  assert (0 < 1 / 100000) as Pos by lra.
  apply (is_derive_ext_loc (fun t => vget (vadd (rot_small (vset v0 j t) x false) d) i)).
  - generalize (abs_small (1 / 100000) Pos). apply filter_imp. intros t Ht. rewrite rot_is_small; [reflexivity|].
    unfold small. assert (t * t < 1 / 10000000000).
    { replace (t * t) with (Rabs t * Rabs t) by (rewrite <- Rabs_mult; apply Rabs_pos_eq; nra). pose proof (Rabs_pos t). nra. }
    destruct j as [|[|j]]; cbn; lra.
  - destruct i as [|[|[|i]]]; [| | |lia]; (destruct j as [|[|[|j]]]; [| | |lia]);
      unfold rot_small, vget, mget, mrow, neg_skew, vset, v0, vadd; cbn [vx vy vz m00 m01 m02 m10 m11 m12 m20 m21 m22 vget]; auto_derive; trivial; ring.
Qed.
Lemma shift_jac : forall a, is_jacobian (fun t0 => vadd a t0) v0 I3.
Proof.
  intros a i j Hi Hj. replace (vget v0 j) with 0 by (destruct j as [|[|j]]; reflexivity). apply is_derive_Reals.
  destruct i as [|[|[|i]]]; [| | |lia]; (destruct j as [|[|[|j]]]; [| | |lia]); cbn; auto_derive; trivial; ring.
Qed.

(** d compose_rt(rt0, (r,t)) / d rt0 at rt0 = 0, the four blocks of [G_pose] *)
Theorem C53_pose_motion : forall r t,
  let moved r0 t0 := compose_rt2 (mkrt r0 t0) (mkrt r t) false false in
  let G l k := G_pose (compose_r_tinyr0_gradientr0 r) t l k in
  (exists J, is_jacobian (fun r0 => rt_r (moved r0 v0)) v0 J /\ forall l k, (l < 3)%nat -> (k < 3)%nat -> G l k = mget J l k) /\
  (exists J, is_jacobian (fun t0 => rt_r (moved v0 t0)) v0 J /\ forall l k, (l < 3)%nat -> (k < 3)%nat -> G l (k + 3)%nat = mget J l k) /\
  (exists J, is_jacobian (fun r0 => rt_t (moved r0 v0)) v0 J /\ forall l k, (l < 3)%nat -> (k < 3)%nat -> G (l + 3)%nat k = mget J l k) /\
  (exists J, is_jacobian (fun t0 => rt_t (moved v0 t0)) v0 J /\ forall l k, (l < 3)%nat -> (k < 3)%nat -> G (l + 3)%nat (k + 3)%nat = mget J l k).
Proof.
  intros r t moved G. unfold moved, compose_rt2. cbn [rt_r rt_t]. split; [|split; [|split]].
  - exists (compose_r_tinyr0_gradientr0 r). split; [apply C27_left_code|]. intros l k Hl Hk. unfold G, G_pose.
    destruct l as [|[|[|l]]]; [| | |lia]; (destruct k as [|[|[|k]]]; [| | |lia]); reflexivity.
  - exists zero_m. split.
    + intros i j Hi Hj. apply is_derive_Reals. replace (mget zero_m i j) with 0.
      * apply (is_derive_const (K := R_AbsRing) (V := R_NormedModule)).
      * destruct i as [|[|[|i]]]; [| | |lia]; (destruct j as [|[|[|j]]]; [| | |lia]); reflexivity.
    + intros l k Hl Hk. unfold G, G_pose. destruct l as [|[|[|l]]]; [| | |lia]; (destruct k as [|[|[|k]]]; [| | |lia]); reflexivity.
  - exists (neg_skew t). split; [apply rotate_tiny|]. intros l k Hl Hk. unfold G, G_pose.
    destruct l as [|[|[|l]]]; [| | |lia]; (destruct k as [|[|[|k]]]; [| | |lia]); cbn; ring.
  - exists I3. split; [apply shift_jac|]. intros l k Hl Hk. unfold G, G_pose, delta.
    destruct l as [|[|[|l]]]; [| | |lia]; (destruct k as [|[|[|k]]]; [| | |lia]); reflexivity.
Qed.
(** d transform_point_rt(rt0, x) / d rt0 at rt0 = 0, the two blocks of [G_point] *)
Theorem C53_point_motion : forall x,
  let moved r0 t0 := transform_point_rt (mkrt r0 t0) x false in
  (exists J, is_jacobian (fun r0 => moved r0 v0) v0 J /\ forall l k, (l < 3)%nat -> (k < 3)%nat -> G_point x l k = mget J l k) /\
  (exists J, is_jacobian (fun t0 => moved v0 t0) v0 J /\ forall l k, (l < 3)%nat -> (k < 3)%nat -> G_point x l (k + 3)%nat = mget J l k).
Proof.
  intros x moved. unfold moved, transform_point_rt. cbn [rt_r rt_t]. split.
  - exists (neg_skew x). split; [apply rotate_tiny|]. intros l k Hl Hk. unfold G_point.
    destruct l as [|[|[|l]]]; [| | |lia]; (destruct k as [|[|[|k]]]; [| | |lia]); cbn; ring.
  - exists I3. split; [apply shift_jac|]. intros l k Hl Hk. unfold G_point, delta.
    destruct l as [|[|[|l]]]; [| | |lia]; (destruct k as [|[|[|k]]]; [| | |lia]); reflexivity.
Qed.
Print Assumptions C53_pose_motion.
Print Assumptions C53_point_motion.
