(** Specification vocabulary for 3-vectors, 3x3 matrices and rotations over the
    exact reals. *)
From Coq Require Import Reals Lra Psatz.
Open Scope R_scope.

Record v3 := V3 { vx : R; vy : R; vz : R }.
Record m33 := M33 { m00 : R; m01 : R; m02 : R; m10 : R; m11 : R; m12 : R; m20 : R; m21 : R; m22 : R }.

Definition v0 : v3 := V3 0 0 0.
Definition vadd (a b : v3) := V3 (vx a + vx b) (vy a + vy b) (vz a + vz b).
Definition vsub (a b : v3) := V3 (vx a - vx b) (vy a - vy b) (vz a - vz b).
Definition vneg (a : v3) := V3 (- vx a) (- vy a) (- vz a).
Definition vscale (k : R) (a : v3) := V3 (k * vx a) (k * vy a) (k * vz a).
Definition dot (a b : v3) := vx a * vx b + vy a * vy b + vz a * vz b.
Definition cross (a b : v3) := V3 (vy a * vz b - vz a * vy b) (vz a * vx b - vx a * vz b) (vx a * vy b - vy a * vx b).
Definition norm2 (a : v3) := dot a a.
Definition norm (a : v3) := sqrt (norm2 a).

Definition I3 : m33 := M33 1 0 0 0 1 0 0 0 1.
Definition mT (m : m33) := M33 (m00 m) (m10 m) (m20 m) (m01 m) (m11 m) (m21 m) (m02 m) (m12 m) (m22 m).
Definition mv (m : m33) (a : v3) := V3
  (m00 m * vx a + m01 m * vy a + m02 m * vz a)
  (m10 m * vx a + m11 m * vy a + m12 m * vz a)
  (m20 m * vx a + m21 m * vy a + m22 m * vz a).
Definition mm (a b : m33) := M33
  (m00 a * m00 b + m01 a * m10 b + m02 a * m20 b) (m00 a * m01 b + m01 a * m11 b + m02 a * m21 b) (m00 a * m02 b + m01 a * m12 b + m02 a * m22 b)
  (m10 a * m00 b + m11 a * m10 b + m12 a * m20 b) (m10 a * m01 b + m11 a * m11 b + m12 a * m21 b) (m10 a * m02 b + m11 a * m12 b + m12 a * m22 b)
  (m20 a * m00 b + m21 a * m10 b + m22 a * m20 b) (m20 a * m01 b + m21 a * m11 b + m22 a * m21 b) (m20 a * m02 b + m21 a * m12 b + m22 a * m22 b).
Definition det (m : m33) :=
  m00 m * (m11 m * m22 m - m12 m * m21 m) - m01 m * (m10 m * m22 m - m12 m * m20 m) + m02 m * (m10 m * m21 m - m11 m * m20 m).
Definition trace (m : m33) := m00 m + m11 m + m22 m.

(** proper rotation *)
Definition is_rot (m : m33) : Prop := mm (mT m) m = I3 /\ mm m (mT m) = I3 /\ det m = 1.

(** R is the rotation by angle |r| about the axis r: the axis is fixed, and a
    vector perpendicular to the axis turns by |r|, counter-clockwise around r. *)
Definition rotation_by (m : m33) (r : v3) : Prop :=
  mv m r = r /\
  forall v, dot r v = 0 ->
    vscale (norm r) (mv m v) = vadd (vscale (cos (norm r) * norm r) v) (vscale (sin (norm r)) (cross r v)).

(** ** elementary facts *)
Lemma v3_eq : forall a b, vx a = vx b -> vy a = vy b -> vz a = vz b -> a = b.
Proof. intros [] []; cbn; congruence. Qed.
Lemma m33_eq : forall a b, m00 a = m00 b -> m01 a = m01 b -> m02 a = m02 b -> m10 a = m10 b -> m11 a = m11 b -> m12 a = m12 b ->
  m20 a = m20 b -> m21 a = m21 b -> m22 a = m22 b -> a = b.
Proof. intros [] []; cbn; congruence. Qed.

(** reduce an equation between vectors / matrices to its components *)
Ltac vunfold := unfold vadd, vsub, vneg, vscale, cross, norm2, dot, mv, mm, mT, I3, v0, det, trace in *; cbn [vx vy vz m00 m01 m02 m10 m11 m12 m20 m21 m22] in *.
Ltac vsplit := first [apply m33_eq | apply v3_eq | idtac].
Ltac vring := intros; vsplit; vunfold; ring.

Lemma mv_mm : forall a b v, mv (mm a b) v = mv a (mv b v).
Proof. vring. Qed.
Lemma mm_assoc : forall a b c, mm (mm a b) c = mm a (mm b c).
Proof. vring. Qed.
Lemma mm_I_l : forall a, mm I3 a = a.
Proof. vring. Qed.
Lemma mm_I_r : forall a, mm a I3 = a.
Proof. vring. Qed.
Lemma mv_I : forall v, mv I3 v = v.
Proof. vring. Qed.
Lemma mT_mT : forall a, mT (mT a) = a.
Proof. vring. Qed.
Lemma mT_mm : forall a b, mT (mm a b) = mm (mT b) (mT a).
Proof. vring. Qed.
Lemma mT_I : mT I3 = I3.
Proof. vring. Qed.
Lemma det_mm : forall a b, det (mm a b) = det a * det b.
Proof. vring. Qed.
Lemma det_mT : forall a, det (mT a) = det a.
Proof. vring. Qed.
Lemma mv_vadd : forall a u v, mv a (vadd u v) = vadd (mv a u) (mv a v).
Proof. vring. Qed.
Lemma mv_vsub : forall a u v, mv a (vsub u v) = vsub (mv a u) (mv a v).
Proof. vring. Qed.
Lemma mv_vneg : forall a u, mv a (vneg u) = vneg (mv a u).
Proof. vring. Qed.
Lemma mv_vscale : forall a k u, mv a (vscale k u) = vscale k (mv a u).
Proof. vring. Qed.
Lemma dot_mv : forall a u v, dot (mv a u) v = dot u (mv (mT a) v).
Proof. vring. Qed.
Lemma dot_comm : forall u v, dot u v = dot v u.
Proof. vring. Qed.
Lemma norm2_nonneg : forall v, 0 <= norm2 v.
Proof. intro v. vunfold. nra. Qed.
Lemma norm2_zero : forall v, norm2 v = 0 -> v = v0.
Proof. intros [x y z] H. vunfold. apply v3_eq; cbn; nra. Qed.
Lemma norm_nonneg : forall v, 0 <= norm v.
Proof. intro. apply sqrt_pos. Qed.
Lemma norm_sq : forall v, norm v * norm v = norm2 v.
Proof. intro. apply sqrt_sqrt, norm2_nonneg. Qed.
Lemma norm_pos : forall v, v <> v0 -> 0 < norm v.
Proof.
  intros v H. apply sqrt_lt_R0. destruct (norm2_nonneg v) as [?|E]; [easy|]. exfalso. apply H. now apply norm2_zero.
Qed.

Lemma is_rot_I : is_rot I3.
Proof. split; [|split]; vring. Qed.
Lemma is_rot_mT : forall m, is_rot m -> is_rot (mT m).
Proof. intros m (A & B & C). unfold is_rot. rewrite mT_mT, det_mT. auto. Qed.
Lemma is_rot_mm : forall a b, is_rot a -> is_rot b -> is_rot (mm a b).
Proof.
  intros a b (A1 & A2 & A3) (B1 & B2 & B3). unfold is_rot. rewrite mT_mm, det_mm, A3, B3. split; [|split; [|ring]].
  - rewrite mm_assoc, <- (mm_assoc (mT a)), A1, mm_I_l. exact B1.
  - rewrite mm_assoc, <- (mm_assoc b), B2, mm_I_l. exact A2.
Qed.
Lemma rot_mT_mv : forall m v, is_rot m -> mv (mT m) (mv m v) = v.
Proof. intros m v (A & _). rewrite <- mv_mm, A. apply mv_I. Qed.
Lemma rot_mv_mT : forall m v, is_rot m -> mv m (mv (mT m) v) = v.
Proof. intros m v (_ & A & _). rewrite <- mv_mm, A. apply mv_I. Qed.
Lemma rot_dot : forall m u v, is_rot m -> dot (mv m u) (mv m v) = dot u v.
Proof. intros m u v H. rewrite dot_mv, rot_mT_mv; auto. Qed.
Lemma rot_norm : forall m u, is_rot m -> norm (mv m u) = norm u.
Proof. intros m u H. unfold norm, norm2. now rewrite rot_dot. Qed.

(** ** components by index, and what it means to be a matrix of partial derivatives *)
Definition vget (v : v3) (i : nat) : R := match i with 0 => vx v | 1 => vy v | _ => vz v end%nat.
Definition vset (v : v3) (i : nat) (t : R) : v3 :=
  match i with 0 => V3 t (vy v) (vz v) | 1 => V3 (vx v) t (vz v) | _ => V3 (vx v) (vy v) t end%nat.
Definition mrow (m : m33) (i : nat) : v3 :=
  match i with 0 => V3 (m00 m) (m01 m) (m02 m) | 1 => V3 (m10 m) (m11 m) (m12 m) | _ => V3 (m20 m) (m21 m) (m22 m) end%nat.
Definition mget (m : m33) (i j : nat) : R := vget (mrow m i) j.

(** J_ij = d f_i / d x_j *)
Definition is_jacobian (f : v3 -> v3) (x : v3) (J : m33) : Prop :=
  forall i j, (i < 3)%nat -> (j < 3)%nat -> derivable_pt_lim (fun t => vget (f (vset x j t)) i) (vget x j) (mget J i j).
(** D_k = d F / d x_k for a matrix-valued F *)
Definition is_mjacobian (F : v3 -> m33) (x : v3) (D : nat -> m33) : Prop :=
  forall k i j, (k < 3)%nat -> (i < 3)%nat -> (j < 3)%nat ->
    derivable_pt_lim (fun t => mget (F (vset x k t)) i j) (vget x k) (mget (D k) i j).
