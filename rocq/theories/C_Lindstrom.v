(** C64: Lindstrom's triangulation. *)
From Coq Require Import Reals Lra Psatz Bool.
From Coquelicot Require Import Coquelicot.
From Verif Require Import S_Vec P_Trig M_Dual P_Dual M_Triangulate P_Triangulate P_TriGrad C_Triangulate C_TriError C_TriGrad.
Open Scope R_scope.

Definition r_of (M : m33) (k : nat) : R :=
  match k with 0%nat => m00 M | 1%nat => m01 M | 2%nat => m02 M | 3%nat => m10 M | 4%nat => m11 M | 5%nat => m12 M | 6%nat => m20 M | 7%nat => m21 M | _ => m22 M end.
(** the C entry point: v0, v1 in their own cameras' coordinates *)
Definition lindstrom (v0 v1 : v3) (M : m33) (t : v3) : v3 := point_of (tri_lindstrom realops (r_of M) (rv v0) (rv v1) (rv t)).

(** Lindstrom's problem: x0^T E x1 = 0 with E = cross(t) R, observations (x,y,1) *)
Definition E_of (M : m33) (t : v3) (k : nat) : R := lin_E realops (r_of M) (rv t) k.
Definition homog (x y : R) : v3 := V3 x y 1.
Definition epipolar (M : m33) (t : v3) (x0 y0 x1 y1 : R) : R := dot (homog x0 y0) (cross t (mv M (homog x1 y1))).
Lemma epipolar_E : forall M t x0 y0 x1 y1, let E := E_of M t in
  epipolar M t x0 y0 x1 y1 = (E 0%nat * x1 + E 1%nat * y1 + E 2%nat) * x0 + (E 3%nat * x1 + E 4%nat * y1 + E 5%nat) * y0 + (E 6%nat * x1 + E 7%nat * y1 + E 8%nat).
Proof. intros. unfold epipolar, homog, E, E_of, lin_E, r_of. cbn. vunfold. destruct M, t. cbn. ring. Qed.

(** Exact observations in front of both cameras are not moved. *)
Lemma lin_correct_exact : forall M t x0 y0 x1 y1, epipolar M t x0 y0 x1 y1 = 0 ->
  lin_correct realops (E_of M t) x0 y0 x1 y1 = ((x0, y0), (x1, y1)).
Proof.
  intros M t x0 y0 x1 y1 H. rewrite epipolar_E in H. unfold lin_correct. cbv zeta. cbn [nadd nsub nmul ndiv nsqrt nmulc realops]. rewrite H. unfold Rdiv. rewrite !Rmult_0_l.
  repeat f_equal; ring.
Qed.
Theorem C64_exact : forall v0 v1 M t P k0 k1, meet_at v0 (mv M v1) t P k0 k1 -> 0 < vz v0 -> 0 < vz v1 ->
  tiny < dets v0 (mv M v1) / (vz v0 * vz v1) -> lindstrom v0 v1 M t = P.
Proof.
  intros v0 v1 M t P k0 k1 (K0 & K1 & HP & HP') Z0 Z1 D. unfold lindstrom, tri_lindstrom. change (lin_E realops (r_of M) (rv t)) with (E_of M t).
  replace (lin_correct realops _ _ _ _ _) with ((vx v0 / vz v0, vy v0 / vz v0), (vx v1 / vz v1, vy v1 / vz v1)).
  2: { symmetry. cbn [rv n_x n_y n_z ndiv realops]. apply lin_correct_exact. unfold epipolar.
       replace (homog (vx v0 / vz v0) (vy v0 / vz v0)) with (vscale (/ vz v0) v0) by (unfold homog; vsplit; cbn; field; lra).
       replace (homog (vx v1 / vz v1) (vy v1 / vz v1)) with (vscale (/ vz v1) v1) by (unfold homog; vsplit; cbn; field; lra).
       assert (t = vsub (vscale k0 v0) (vscale k1 (mv M v1))) as -> by (rewrite <- HP, HP'; vring).
       vunfold. destruct M, v0, v1. cbn. ring. }
  cbn [n_x n_y n_z rv].
  match goal with |- point_of (assume_intersect realops ?u ?w _) = _ => change u with (rv (homog (vx v0 / vz v0) (vy v0 / vz v0)));
    replace w with (rv (vscale (/ vz v1) (mv M v1))) by (unfold rv; apply rv_eq; cbn; destruct M, v1; cbn in *; field; lra) end.
  replace (homog (vx v0 / vz v0) (vy v0 / vz v0)) with (vscale (/ vz v0) v0) by (unfold homog; vsplit; cbn; field; lra).
  assert (0 < / vz v0 /\ 0 < / vz v1) as [I0 I1] by (split; now apply Rinv_0_lt_compat).
  rewrite (assume_intersect_exact _ _ _ (k0 * vz v0) (k1 * vz v1)).
  - cbn [point_of]. rewrite rv_val, HP. vsplit; vunfold; field; lra.
  - now apply Rmult_lt_0_compat.
  - now apply Rmult_lt_0_compat.
  - transitivity P; [rewrite HP; vsplit; vunfold; field; lra|]. rewrite HP'. vsplit; vunfold; field; lra.
  - unfold dets in *. replace (cross (vscale (/ vz v0) v0) (vscale (/ vz v1) (mv M v1))) with (vscale (/ (vz v0 * vz v1)) (cross v0 (mv M v1))) by (vsplit; vunfold; field; lra).
    assert (0 < / (vz v0 * vz v1)) as I by (apply Rinv_0_lt_compat; now apply Rmult_lt_0_compat). cbn [vscale vx vy]. rewrite !Rabs_mult, (Rabs_right (/ (vz v0 * vz v1))) by lra. rewrite RmaxRmult by lra. unfold Rdiv in D. rewrite Rmult_comm. exact D.
Qed.
Print Assumptions C64_exact.

(** ** The two-step correction *)
Section Step.
Variable E : nat -> R.
Variables x0 y0 x1 y1 : R.
Definition n_a := E 0%nat * x1 + E 1%nat * y1 + E 2%nat.
Definition n_b := E 3%nat * x1 + E 4%nat * y1 + E 5%nat.
Definition m_a := E 0%nat * x0 + E 3%nat * y0 + E 6%nat.
Definition m_b := E 1%nat * x0 + E 4%nat * y0 + E 7%nat.
(** x0^T E x1 *)
Definition cons (x0 y0 x1 y1 : R) := (E 0%nat * x1 + E 1%nat * y1 + E 2%nat) * x0 + (E 3%nat * x1 + E 4%nat * y1 + E 5%nat) * y0 + (E 6%nat * x1 + E 7%nat * y1 + E 8%nat).
Definition l_a := n_a * E 0%nat * m_a + n_a * E 1%nat * m_b + n_b * E 3%nat * m_a + n_b * E 4%nat * m_b.
Definition l_b := (n_a * n_a + n_b * n_b + m_a * m_a + m_b * m_b) * (1 / 2).
Definition l_d := sqrt (l_b * l_b - l_a * cons x0 y0 x1 y1).
Definition lambda := cons x0 y0 x1 y1 / (l_b + l_d).
(** the first correction: along the normals of the epipolar lines *)
Definition first := ((x0 - lambda * n_a, y0 - lambda * n_b), (x1 - lambda * m_a, y1 - lambda * m_b)).
(** the normals there *)
Definition n_a' := n_a - E 0%nat * (lambda * m_a) - E 1%nat * (lambda * m_b).
Definition n_b' := n_b - E 3%nat * (lambda * m_a) - E 4%nat * (lambda * m_b).
Definition m_a' := m_a - E 0%nat * (lambda * n_a) - E 3%nat * (lambda * n_b).
Definition m_b' := m_b - E 1%nat * (lambda * n_a) - E 4%nat * (lambda * n_b).
Definition l_bb := (n_a' * n_a' + n_b' * n_b' + m_a' * m_a' + m_b' * m_b') * (1 / 2).
Definition move (l : R) := ((x0 - l * n_a', y0 - l * n_b'), (x1 - l * m_a', y1 - l * m_b')).
(** what is computed, and what step 12 of the paper (and the comment above the code) says: l *= 2*d/(n.n + nn.nn) *)
Lemma code_is : lin_correct realops E x0 y0 x1 y1 = move (lambda / l_d * l_bb). Proof. reflexivity. Qed.
Definition paper := move (lambda * (2 * l_d / (n_a' * n_a' + n_b' * n_b' + m_a' * m_a' + m_b' * m_b'))).
Hypothesis D : 0 < l_b * l_b - l_a * cons x0 y0 x1 y1.
Hypothesis N : 0 < l_bb.
Lemma l_b_nonneg : 0 <= l_b. Proof. unfold l_b. nra. Qed.
Lemma l_d_pos : 0 < l_d. Proof. unfold l_d. now apply sqrt_lt_R0. Qed.
Lemma l_d_sq : l_d * l_d = l_b * l_b - l_a * cons x0 y0 x1 y1. Proof. unfold l_d. apply sqrt_sqrt. lra. Qed.
Lemma lambda_a : l_a * lambda = l_b - l_d.
Proof.
  pose proof l_b_nonneg. pose proof l_d_pos. pose proof l_d_sq as Q. unfold lambda. apply (Rmult_eq_reg_r (l_b + l_d)); [|lra].
  replace (l_a * (cons x0 y0 x1 y1 / (l_b + l_d)) * (l_b + l_d)) with (l_a * cons x0 y0 x1 y1) by (field; lra). lra.
Qed.
(** the first correction satisfies the epipolar constraint *)
Lemma first_ok : let '((u0, w0), (u1, w1)) := first in cons u0 w0 u1 w1 = 0.
Proof.
  unfold first. transitivity (cons x0 y0 x1 y1 - 2 * l_b * lambda + l_a * lambda * lambda).
  - unfold cons, l_b, l_a, n_a, n_b, m_a, m_b. set (l := lambda). clearbody l. field.
  - rewrite lambda_a. pose proof l_b_nonneg. pose proof l_d_pos. unfold lambda. field. lra.
Qed.
(** the paper's second correction is the orthogonal projection of the
    observations on the tangent, at the first correction, to the constraint *)
Definition tangent (u0 w0 u1 w1 : R) : R :=
  let '((f0, g0), (f1, g1)) := first in n_a' * (u0 - f0) + n_b' * (w0 - g0) + m_a' * (u1 - f1) + m_b' * (w1 - g1).
Lemma tangent_is_derivative : forall u0 w0 u1 w1, let '((f0, g0), (f1, g1)) := first in
  is_derive (fun s => cons (f0 + s * u0) (g0 + s * w0) (f1 + s * u1) (g1 + s * w1)) 0 (tangent (f0 + u0) (g0 + w0) (f1 + u1) (g1 + w1)).
Proof.
  intros u0 w0 u1 w1. unfold first, tangent, first, cons. set (l := lambda). auto_derive; [auto|]. unfold n_a', n_b', m_a', m_b', n_a, n_b, m_a, m_b. fold l. clearbody l. match goal with |- ?a = ?b => change (@eq R a b) end. ring.
Qed.
Lemma paper_tangent : let '((u0, w0), (u1, w1)) := paper in tangent u0 w0 u1 w1 = 0.
Proof.
  unfold paper, move, tangent, first. set (q := n_a' * n_a' + n_b' * n_b' + m_a' * m_a' + m_b' * m_b'). assert (0 < q) as Q by (unfold q; unfold l_bb in N; lra).
  match goal with |- ?e = 0 => replace e with (lambda * (n_a' * n_a + n_b' * n_b + m_a' * m_a + m_b' * m_b) - lambda * (2 * l_d / q) * q) by (unfold q; ring) end.
  replace (n_a' * n_a + n_b' * n_b + m_a' * m_a + m_b' * m_b) with (2 * l_b - 2 * (l_a * lambda)) by (unfold n_a', n_b', m_a', m_b', l_b, l_a; set (l := lambda); clearbody l; field). rewrite lambda_a. field. lra.
Qed.
(** hence the closest such point *)
Lemma paper_closest : let '((u0, w0), (u1, w1)) := paper in forall a0 b0 a1 b1, tangent a0 b0 a1 b1 = 0 ->
  (x0 - u0) * (x0 - u0) + (y0 - w0) * (y0 - w0) + (x1 - u1) * (x1 - u1) + (y1 - w1) * (y1 - w1) <=
  (x0 - a0) * (x0 - a0) + (y0 - b0) * (y0 - b0) + (x1 - a1) * (x1 - a1) + (y1 - b1) * (y1 - b1).
Proof.
  pose proof paper_tangent as T. unfold paper in *. set (l := lambda * _) in *. clearbody l. unfold move in *. intros a0 b0 a1 b1 A. unfold tangent, first in *.
  set (e0 := a0 - (x0 - l * n_a')). set (e1 := b0 - (y0 - l * n_b')). set (e2 := a1 - (x1 - l * m_a')). set (e3 := b1 - (y1 - l * m_b')).
  assert (n_a' * e0 + n_b' * e1 + m_a' * e2 + m_b' * e3 = 0) as Z by (unfold e0, e1, e2, e3; lra).
  replace (x0 - a0) with (l * n_a' - e0) by (unfold e0; ring). replace (y0 - b0) with (l * n_b' - e1) by (unfold e1; ring). replace (x1 - a1) with (l * m_a' - e2) by (unfold e2; ring). replace (y1 - b1) with (l * m_b' - e3) by (unfold e3; ring).
  clearbody e0 e1 e2 e3. assert (l * (n_a' * e0 + n_b' * e1 + m_a' * e2 + m_b' * e3) = 0) as Z' by (rewrite Z; ring).
  replace (x0 - (x0 - l * n_a')) with (l * n_a') by ring. replace (y0 - (y0 - l * n_b')) with (l * n_b') by ring. replace (x1 - (x1 - l * m_a')) with (l * m_a') by ring. replace (y1 - (y1 - l * m_b')) with (l * m_b') by ring.
  pose proof (Rle_0_sqr e0). pose proof (Rle_0_sqr e1). pose proof (Rle_0_sqr e2). pose proof (Rle_0_sqr e3). unfold Rsqr in *. lra.
Qed.
End Step.
(** C64, as documented: the correction is the one of the paper. *)
Definition C64_second_step : Prop := forall M t x0 y0 x1 y1, let E := E_of M t in
  0 < l_b E x0 y0 x1 y1 * l_b E x0 y0 x1 y1 - l_a E x0 y0 x1 y1 * cons E x0 y0 x1 y1 -> 0 < l_bb E x0 y0 x1 y1 ->
  lin_correct realops E x0 y0 x1 y1 = paper E x0 y0 x1 y1.
(** The paper's correction has the two properties it is derived from. *)
Definition pair2 := ((R * R) * (R * R))%type.
Definition rays_meet (M : m33) (t : v3) (w : pair2) : Prop := epipolar M t (fst (fst w)) (snd (fst w)) (fst (snd w)) (snd (snd w)) = 0.
Definition on_tangent (E : nat -> R) (x w : pair2) : Prop := tangent E (fst (fst x)) (snd (fst x)) (fst (snd x)) (snd (snd x)) (fst (fst w)) (snd (fst w)) (fst (snd w)) (snd (snd w)) = 0.
Definition dist2 (x w : pair2) : R := (fst (fst x) - fst (fst w)) * (fst (fst x) - fst (fst w)) + (snd (fst x) - snd (fst w)) * (snd (fst x) - snd (fst w)) +
  (fst (snd x) - fst (snd w)) * (fst (snd x) - fst (snd w)) + (snd (snd x) - snd (snd w)) * (snd (snd x) - snd (snd w)).
Theorem C64_paper : forall M t x0 y0 x1 y1, let E := E_of M t in let x := ((x0, y0), (x1, y1)) in
  0 < l_b E x0 y0 x1 y1 * l_b E x0 y0 x1 y1 - l_a E x0 y0 x1 y1 * cons E x0 y0 x1 y1 -> 0 < l_bb E x0 y0 x1 y1 ->
  rays_meet M t (first E x0 y0 x1 y1) /\ on_tangent E x (paper E x0 y0 x1 y1) /\ forall w, on_tangent E x w -> dist2 x (paper E x0 y0 x1 y1) <= dist2 x w.
Proof.
  intros M t x0 y0 x1 y1 E x D N. split; [|split].
  - pose proof (first_ok E x0 y0 x1 y1 D) as F. unfold rays_meet, first in *. cbn [fst snd]. rewrite epipolar_E. exact F.
  - pose proof (paper_tangent E x0 y0 x1 y1 D N) as T. unfold on_tangent, x. destruct (paper E x0 y0 x1 y1) as [[u0 w0] [u1 w1]]. exact T.
  - pose proof (paper_closest E x0 y0 x1 y1 D N) as C. intros [[a0 b0] [a1 b1]] A. unfold on_tangent, dist2, x in *. cbn [fst snd] in *. destruct (paper E x0 y0 x1 y1) as [[u0 w0] [u1 w1]]. cbn [fst snd]. now apply C.
Qed.
Print Assumptions C64_paper.
(** The code multiplies by the inverse of the paper's factor.  Two identical
    cameras, one straight behind the other: the observations (2,0), (0,1) go to
    (2,0), (0,7/16), whose rays do not meet; the paper's go to (2,0), (0,0), whose rays do. *)
Lemma sqrt_94 : sqrt (9 / 4) = 3 / 2. Proof. replace (9 / 4) with (3 / 2 * (3 / 2)) by field. apply sqrt_square. lra. Qed.
Theorem C64_second_step_refuted : ~ C64_second_step /\
  exists x0 y0 x1 y1, let t := V3 0 0 1 in let E := E_of I3 t in
    lin_correct realops E x0 y0 x1 y1 = ((2, 0), (0, 7 / 16)) /\ epipolar I3 t 2 0 0 (7 / 16) <> 0 /\
    paper E x0 y0 x1 y1 = ((2, 0), (0, 0)) /\ epipolar I3 t 2 0 0 0 = 0.
Proof.
  pose (E := E_of I3 (V3 0 0 1)).
  assert (l_b E 2 0 0 1 = 5 / 2) as Hb by (unfold l_b, n_a, n_b, m_a, m_b, E; cbn; field). assert (l_a E 2 0 0 1 = -2) as Ha by (unfold l_a, n_a, n_b, m_a, m_b, E; cbn; ring).
  assert (cons E 2 0 0 1 = -2) as Hc by (unfold cons, E; cbn; ring). assert (l_d E 2 0 0 1 = 3 / 2) as Hd. { unfold l_d. rewrite Hb, Ha, Hc. replace (5 / 2 * (5 / 2) - -2 * -2) with (9 / 4) by field. apply sqrt_94. }
  assert (lambda E 2 0 0 1 = - (1 / 2)) as Hl by (unfold lambda; rewrite Hc, Hb, Hd; field).
  assert (n_a' E 2 0 0 1 = 0) as H1 by (unfold n_a', n_a, m_a, m_b; rewrite Hl; unfold E; cbn; field). assert (n_b' E 2 0 0 1 = 0) as H2 by (unfold n_b', n_b, m_a, m_b; rewrite Hl; unfold E; cbn; field).
  assert (m_a' E 2 0 0 1 = 0) as H3 by (unfold m_a', n_a, n_b, m_a; rewrite Hl; unfold E; cbn; field). assert (m_b' E 2 0 0 1 = - (3 / 2)) as H4 by (unfold m_b', n_a, n_b, m_b; rewrite Hl; unfold E; cbn; field).
  assert (l_bb E 2 0 0 1 = 9 / 8) as Hbb by (unfold l_bb; rewrite H1, H2, H3, H4; field).
  assert (lin_correct realops E 2 0 0 1 = ((2, 0), (0, 7 / 16))) as HC by (rewrite code_is; unfold move; rewrite H1, H2, H3, H4, Hl, Hd, Hbb; apply f_equal2; apply f_equal2; field).
  assert (paper E 2 0 0 1 = ((2, 0), (0, 0))) as HP by (unfold paper, move; rewrite H1, H2, H3, H4, Hl, Hd; apply f_equal2; apply f_equal2; field).
  split.
  - intro Q. specialize (Q I3 (V3 0 0 1) 2 0 0 1). cbv zeta in Q. fold E in Q. rewrite HC, HP, Hb, Ha, Hc, Hbb in Q. specialize (Q ltac:(lra) ltac:(lra)). injection Q as Q. lra.
  - exists 2, 0, 0, 1. cbv zeta. fold E. split; [exact HC|]. split; [unfold epipolar, homog; vunfold; cbn; lra|]. split; [exact HP|]. unfold epipolar, homog. vunfold. cbn. ring.
Qed.
Print Assumptions C64_second_step_refuted.

(** For cameras facing the same way, separated sideways (a rectified pair) the
    two factors are both 1 and the correction is the smallest possible. *)
Theorem C64_rectified : forall t x0 y0 x1 y1, vz t = 0 -> t <> v0 ->
  let x := ((x0, y0), (x1, y1)) in let w := lin_correct realops (E_of I3 t) x0 y0 x1 y1 in
  rays_meet I3 t w /\ forall w', rays_meet I3 t w' -> dist2 x w <= dist2 x w'.
Proof.
  intros [tx ty tz] x0 y0 x1 y1 Z NT. cbn in Z. subst tz. set (E := E_of I3 (V3 tx ty 0)).
  assert (0 < tx * tx + ty * ty) as P. { destruct (Rlt_dec 0 (tx * tx + ty * ty)) as [?|Q]; [assumption|]. exfalso. apply NT. assert (tx = 0 /\ ty = 0) as [-> ->] by (split; nra). reflexivity. }
  assert (l_b E x0 y0 x1 y1 = tx * tx + ty * ty) as Hb by (unfold l_b, n_a, n_b, m_a, m_b, E; cbn; field).
  assert (l_a E x0 y0 x1 y1 = 0) as Ha by (unfold l_a, n_a, n_b, m_a, m_b, E; cbn; ring).
  assert (l_d E x0 y0 x1 y1 = tx * tx + ty * ty) as Hd. { unfold l_d. rewrite Ha, Hb, Rmult_0_l, Rminus_0_r. apply sqrt_square. lra. }
  assert (cons E x0 y0 x1 y1 = ty * (x0 - x1) - tx * (y0 - y1)) as Hc by (unfold cons, E; cbn; ring).
  set (l := (ty * (x0 - x1) - tx * (y0 - y1)) / (2 * (tx * tx + ty * ty))).
  assert (lambda E x0 y0 x1 y1 = l) as Hl by (unfold lambda, l; rewrite Hc, Hb, Hd; field; lra).
  assert (n_a' E x0 y0 x1 y1 = ty) as H1 by (unfold n_a', n_a, m_a, m_b, E; cbn; ring). assert (n_b' E x0 y0 x1 y1 = - tx) as H2 by (unfold n_b', n_b, m_a, m_b, E; cbn; ring).
  assert (m_a' E x0 y0 x1 y1 = - ty) as H3 by (unfold m_a', n_a, n_b, m_a, E; cbn; ring). assert (m_b' E x0 y0 x1 y1 = tx) as H4 by (unfold m_b', n_a, n_b, m_b, E; cbn; ring).
  assert (l_bb E x0 y0 x1 y1 = tx * tx + ty * ty) as Hbb by (unfold l_bb; rewrite H1, H2, H3, H4; field).
  cbv zeta. fold E. rewrite code_is. unfold move. rewrite H1, H2, H3, H4, Hl, Hd, Hbb. replace (l / (tx * tx + ty * ty) * (tx * tx + ty * ty)) with l by (field; lra).
  assert (forall u0 w0 u1 w1, epipolar I3 (V3 tx ty 0) u0 w0 u1 w1 = ty * (u0 - u1) - tx * (w0 - w1)) as EP by (intros; unfold epipolar, homog; vunfold; cbn; ring).
  unfold rays_meet, dist2. cbn [fst snd]. split; [rewrite EP; unfold l; field; lra|]. intros [[a0 b0] [a1 b1]] A. cbn [fst snd] in *. rewrite EP in A.
  set (e0 := a0 - (x0 - l * ty)). set (e1 := b0 - (y0 - l * - tx)). set (e2 := a1 - (x1 - l * - ty)). set (e3 := b1 - (y1 - l * tx)).
  assert (l * (2 * (tx * tx + ty * ty)) = ty * (x0 - x1) - tx * (y0 - y1)) as HL by (unfold l; field; lra).
  assert (ty * (e0 - e2) - tx * (e1 - e3) = 0) as Z by (unfold e0, e1, e2, e3; lra).
  replace (x0 - a0) with (l * ty - e0) by (unfold e0; ring). replace (y0 - b0) with (l * - tx - e1) by (unfold e1; ring). replace (x1 - a1) with (l * - ty - e2) by (unfold e2; ring). replace (y1 - b1) with (l * tx - e3) by (unfold e3; ring).
  clearbody e0 e1 e2 e3. assert (l * (ty * (e0 - e2) - tx * (e1 - e3)) = 0) as Z' by (rewrite Z; ring).
  pose proof (Rle_0_sqr e0). pose proof (Rle_0_sqr e1). pose proof (Rle_0_sqr e2). pose proof (Rle_0_sqr e3). unfold Rsqr in *. lra.
Qed.
Print Assumptions C64_rectified.
Example ex_lindstrom : lindstrom (V3 1 0 2) (V3 (-1) 0 2) I3 (V3 2 0 0) = V3 1 0 2.
Proof.
  apply (C64_exact _ _ _ _ _ 1 1); [|cbn; lra|cbn; lra|].
  - replace (mv I3 (V3 (-1) 0 2)) with (V3 (-1) 0 2) by vring. exact (proj1 ex_meet).
  - replace (mv I3 (V3 (-1) 0 2)) with (V3 (-1) 0 2) by vring. unfold dets, tiny. apply Rlt_le_trans with (Rabs (vy (cross (V3 1 0 2) (V3 (-1) 0 2))) / (2 * 2)); [cbn; unfold Rabs; destruct (Rcase_abs _); lra|].
    cbn [vz]. apply Rmult_le_compat_r; [lra|apply Rmax_r].
Qed.

(** ** Its gradients: v0 (0-2), v1 (3-5), R (6-14), t (15-17) *)
Section Grad.
Variable I : nat -> Prop.
Variable p : nat -> R.
Notation rel := (rel I p). Notation vrel := (vrel I p).
Variables F0 F1 FT : (nat -> R) -> nv3 realops.
Variables d0 d1 dt : nv3 dualops.
Hypothesis H0 : vrel F0 d0. Hypothesis H1 : vrel F1 d1. Hypothesis HT : vrel FT dt.
Variable FR : (nat -> R) -> nat -> num realops.
Variable dR : nat -> num dualops.
Hypothesis HR : forall k, rel (fun q => FR q k) (dR k).
Lemma lin_E_rel : forall k, rel (fun q => lin_E realops (FR q) (FT q) k) (lin_E dualops dR dt k).
Proof. intro k. pose proof HT as (A & B & C). do 8 (destruct k as [|k]; [unfold lin_E; apply rel_sub; apply rel_mul; auto|]). unfold lin_E; apply rel_sub; apply rel_mul; auto. Qed.
Definition pick (w : (num realops * num realops) * (num realops * num realops)) (k : nat) : num realops := match k with 0%nat => fst (fst w) | 1%nat => snd (fst w) | 2%nat => fst (snd w) | _ => snd (snd w) end.
Definition pickd (w : (num dualops * num dualops) * (num dualops * num dualops)) (k : nat) : num dualops := match k with 0%nat => fst (fst w) | 1%nat => snd (fst w) | 2%nat => fst (snd w) | _ => snd (snd w) end.
Lemma lin_correct_rel : forall (FE : (nat -> R) -> nat -> num realops) dE X0 Y0 X1 Y1 x0 y0 x1 y1, (forall k, rel (fun q => FE q k) (dE k)) -> rel X0 x0 -> rel Y0 y0 -> rel X1 x1 -> rel Y1 y1 ->
  (let E := FE p in 0 < l_b E (X0 p) (Y0 p) (X1 p) (Y1 p) * l_b E (X0 p) (Y0 p) (X1 p) (Y1 p) - l_a E (X0 p) (Y0 p) (X1 p) (Y1 p) * cons E (X0 p) (Y0 p) (X1 p) (Y1 p)) ->
  forall k, rel (fun q => pick (lin_correct realops (FE q) (X0 q) (Y0 q) (X1 q) (Y1 q)) k) (pickd (lin_correct dualops dE x0 y0 x1 y1) k).
Proof.
  intros FE dE X0 Y0 X1 Y1 x0 y0 x1 y1 HE RX0 RY0 RX1 RY1 D k. cbv zeta in D. pose proof (l_d_pos _ _ _ _ _ D) as PD. pose proof (l_b_nonneg (FE p) (X0 p) (Y0 p) (X1 p) (Y1 p)) as PB.
  pose proof (HE 0%nat) as E0. pose proof (HE 1%nat) as E1. pose proof (HE 2%nat) as E2. pose proof (HE 3%nat) as E3. pose proof (HE 4%nat) as E4. pose proof (HE 5%nat) as E5. pose proof (HE 6%nat) as E6. pose proof (HE 7%nat) as E7. pose proof (HE 8%nat) as E8.
  unfold lin_correct. cbv zeta.
  set (n0 := nadd dualops (nadd dualops (nmul dualops (dE 0%nat) x1) (nmul dualops (dE 1%nat) y1)) (dE 2%nat)). assert (rel (fun q => n_a (FE q) (X1 q) (Y1 q)) n0) as R1 by (unfold n_a; change Rplus with (nadd realops); change Rmult with (nmul realops); unfold n0; relt).
  set (n1 := nadd dualops (nadd dualops (nmul dualops (dE 3%nat) x1) (nmul dualops (dE 4%nat) y1)) (dE 5%nat)). assert (rel (fun q => n_b (FE q) (X1 q) (Y1 q)) n1) as R2 by (unfold n_b; change Rplus with (nadd realops); change Rmult with (nmul realops); unfold n1; relt).
  set (nn0 := nadd dualops (nadd dualops (nmul dualops (dE 0%nat) x0) (nmul dualops (dE 3%nat) y0)) (dE 6%nat)). assert (rel (fun q => m_a (FE q) (X0 q) (Y0 q)) nn0) as R3 by (unfold m_a; change Rplus with (nadd realops); change Rmult with (nmul realops); unfold nn0; relt).
  set (nn1 := nadd dualops (nadd dualops (nmul dualops (dE 1%nat) x0) (nmul dualops (dE 4%nat) y0)) (dE 7%nat)). assert (rel (fun q => m_b (FE q) (X0 q) (Y0 q)) nn1) as R4 by (unfold m_b; change Rplus with (nadd realops); change Rmult with (nmul realops); unfold nn1; relt).
  set (NA := fun q => n_a (FE q) (X1 q) (Y1 q)) in *. set (NB := fun q => n_b (FE q) (X1 q) (Y1 q)) in *. set (MA := fun q => m_a (FE q) (X0 q) (Y0 q)) in *. set (MB := fun q => m_b (FE q) (X0 q) (Y0 q)) in *.
  set (c := nadd dualops (nadd dualops (nmul dualops n0 x0) (nmul dualops n1 y0)) _). assert (rel (fun q => cons (FE q) (X0 q) (Y0 q) (X1 q) (Y1 q)) c) as RC.
  { unfold c. change (rel (fun q => nadd realops (nadd realops (nmul realops (NA q) (X0 q)) (nmul realops (NB q) (Y0 q))) (nadd realops (nadd realops (nmul realops (FE q 6%nat) (X1 q)) (nmul realops (FE q 7%nat) (Y1 q))) (FE q 8%nat)))
      (nadd dualops (nadd dualops (nmul dualops n0 x0) (nmul dualops n1 y0)) (nadd dualops (nadd dualops (nmul dualops (dE 6%nat) x1) (nmul dualops (dE 7%nat) y1)) (dE 8%nat)))). relt. }
  set (CC := fun q => cons (FE q) (X0 q) (Y0 q) (X1 q) (Y1 q)) in *.
  set (a := nadd dualops (nadd dualops (nadd dualops (nmul dualops (nmul dualops n0 (dE 0%nat)) nn0) _) _) _).
  assert (rel (fun q => l_a (FE q) (X0 q) (Y0 q) (X1 q) (Y1 q)) a) as RA.
  { unfold a. change (rel (fun q => nadd realops (nadd realops (nadd realops (nmul realops (nmul realops (NA q) (FE q 0%nat)) (MA q)) (nmul realops (nmul realops (NA q) (FE q 1%nat)) (MB q))) (nmul realops (nmul realops (NB q) (FE q 3%nat)) (MA q))) (nmul realops (nmul realops (NB q) (FE q 4%nat)) (MB q)))
      (nadd dualops (nadd dualops (nadd dualops (nmul dualops (nmul dualops n0 (dE 0%nat)) nn0) (nmul dualops (nmul dualops n0 (dE 1%nat)) nn1)) (nmul dualops (nmul dualops n1 (dE 3%nat)) nn0)) (nmul dualops (nmul dualops n1 (dE 4%nat)) nn1))). relt. }
  set (b := nmulc dualops (nadd dualops (nadd dualops (nadd dualops (nmul dualops n0 n0) _) _) _) _).
  assert (rel (fun q => l_b (FE q) (X0 q) (Y0 q) (X1 q) (Y1 q)) b) as RB.
  { unfold b. change (rel (fun q => nmulc realops (nadd realops (nadd realops (nadd realops (nmul realops (NA q) (NA q)) (nmul realops (NB q) (NB q))) (nmul realops (MA q) (MA q))) (nmul realops (MB q) (MB q))) (1 / 2)) 
      (nmulc dualops (nadd dualops (nadd dualops (nadd dualops (nmul dualops n0 n0) (nmul dualops n1 n1)) (nmul dualops nn0 nn0)) (nmul dualops nn1 nn1)) (1 / 2))). relt. }
  set (LA := fun q => l_a (FE q) (X0 q) (Y0 q) (X1 q) (Y1 q)) in *. set (LB := fun q => l_b (FE q) (X0 q) (Y0 q) (X1 q) (Y1 q)) in *.
  set (d := nsqrt dualops _). assert (rel (fun q => l_d (FE q) (X0 q) (Y0 q) (X1 q) (Y1 q)) d) as RD.
  { change (rel (fun q => nsqrt realops (nsub realops (nmul realops (LB q) (LB q)) (nmul realops (LA q) (CC q)))) (nsqrt dualops (nsub dualops (nmul dualops b b) (nmul dualops a c)))). apply rel_sqrt; [relt|exact D]. }
  set (LD := fun q => l_d (FE q) (X0 q) (Y0 q) (X1 q) (Y1 q)) in *.
  set (l := ndiv dualops c _). assert (rel (fun q => lambda (FE q) (X0 q) (Y0 q) (X1 q) (Y1 q)) l) as RL.
  { change (rel (fun q => ndiv realops (CC q) (nadd realops (LB q) (LD q))) (ndiv dualops c (nadd dualops b d))). apply rel_div; [relt|relt|]. change (LB p + LD p <> 0). intro Z. change (0 < LD p) in PD. change (0 <= LB p) in PB. pose proof (Rplus_le_lt_0_compat _ _ PB PD) as Q. apply Rlt_not_eq in Q. apply Q. symmetry. exact Z. }
  set (LL := fun q => lambda (FE q) (X0 q) (Y0 q) (X1 q) (Y1 q)) in *. clearbody n0 n1 nn0 nn1 c a b d l.
  match goal with |- context [nsub dualops y0 (nmul dualops ?lf ?u)] => set (l2 := lf) end.
  set (N0 := nsub dualops (nsub dualops n0 _) _). set (N1 := nsub dualops (nsub dualops n1 _) _). set (M0 := nsub dualops (nsub dualops nn0 _) _). set (M1 := nsub dualops (nsub dualops nn1 _) _).
  assert (rel (fun q => n_a' (FE q) (X0 q) (Y0 q) (X1 q) (Y1 q)) N0) as S1.
  { change (rel (fun q => nsub realops (nsub realops (NA q) (nmul realops (FE q 0%nat) (nmul realops (LL q) (MA q)))) (nmul realops (FE q 1%nat) (nmul realops (LL q) (MB q)))) (nsub dualops (nsub dualops n0 (nmul dualops (dE 0%nat) (nmul dualops l nn0))) (nmul dualops (dE 1%nat) (nmul dualops l nn1)))). relt. }
  assert (rel (fun q => n_b' (FE q) (X0 q) (Y0 q) (X1 q) (Y1 q)) N1) as S2.
  { change (rel (fun q => nsub realops (nsub realops (NB q) (nmul realops (FE q 3%nat) (nmul realops (LL q) (MA q)))) (nmul realops (FE q 4%nat) (nmul realops (LL q) (MB q)))) (nsub dualops (nsub dualops n1 (nmul dualops (dE 3%nat) (nmul dualops l nn0))) (nmul dualops (dE 4%nat) (nmul dualops l nn1)))). relt. }
  assert (rel (fun q => m_a' (FE q) (X0 q) (Y0 q) (X1 q) (Y1 q)) M0) as S3.
  { change (rel (fun q => nsub realops (nsub realops (MA q) (nmul realops (FE q 0%nat) (nmul realops (LL q) (NA q)))) (nmul realops (FE q 3%nat) (nmul realops (LL q) (NB q)))) (nsub dualops (nsub dualops nn0 (nmul dualops (dE 0%nat) (nmul dualops l n0))) (nmul dualops (dE 3%nat) (nmul dualops l n1)))). relt. }
  assert (rel (fun q => m_b' (FE q) (X0 q) (Y0 q) (X1 q) (Y1 q)) M1) as S4.
  { change (rel (fun q => nsub realops (nsub realops (MB q) (nmul realops (FE q 1%nat) (nmul realops (LL q) (NA q)))) (nmul realops (FE q 4%nat) (nmul realops (LL q) (NB q)))) (nsub dualops (nsub dualops nn1 (nmul dualops (dE 1%nat) (nmul dualops l n0))) (nmul dualops (dE 4%nat) (nmul dualops l n1)))). relt. }
  set (NA' := fun q => n_a' (FE q) (X0 q) (Y0 q) (X1 q) (Y1 q)) in *. set (NB' := fun q => n_b' (FE q) (X0 q) (Y0 q) (X1 q) (Y1 q)) in *. set (MA' := fun q => m_a' (FE q) (X0 q) (Y0 q) (X1 q) (Y1 q)) in *. set (MB' := fun q => m_b' (FE q) (X0 q) (Y0 q) (X1 q) (Y1 q)) in *.
  assert (rel (fun q => nmul realops (ndiv realops (LL q) (LD q)) (nmulc realops (nadd realops (nadd realops (nadd realops (nmul realops (NA' q) (NA' q)) (nmul realops (NB' q) (NB' q))) (nmul realops (MA' q) (MA' q))) (nmul realops (MB' q) (MB' q))) (1 / 2))) l2) as RL2.
  { change (rel (fun q => nmul realops (ndiv realops (LL q) (LD q)) (nmulc realops (nadd realops (nadd realops (nadd realops (nmul realops (NA' q) (NA' q)) (nmul realops (NB' q) (NB' q))) (nmul realops (MA' q) (MA' q))) (nmul realops (MB' q) (MB' q))) (1 / 2)))
      (nmul dualops (ndiv dualops l d) (nmulc dualops (nadd dualops (nadd dualops (nadd dualops (nmul dualops N0 N0) (nmul dualops N1 N1)) (nmul dualops M0 M0)) (nmul dualops M1 M1)) (1 / 2)))). apply rel_mul; [apply rel_div; [exact RL|exact RD|change (LD p <> 0); change (0 < LD p) in PD; apply Rgt_not_eq; exact PD]|relt]. }
  set (L2 := fun q => nmul realops (ndiv realops (LL q) (LD q)) _) in RL2.
  destruct k as [|[|[|k]]].
  - change (rel (fun q => nsub realops (X0 q) (nmul realops (L2 q) (NA' q))) (nsub dualops x0 (nmul dualops l2 N0))). relt.
  - change (rel (fun q => nsub realops (Y0 q) (nmul realops (L2 q) (NB' q))) (nsub dualops y0 (nmul dualops l2 N1))). relt.
  - change (rel (fun q => nsub realops (X1 q) (nmul realops (L2 q) (MA' q))) (nsub dualops x1 (nmul dualops l2 M0))). relt.
  - change (rel (fun q => nsub realops (Y1 q) (nmul realops (L2 q) (MB' q))) (nsub dualops y1 (nmul dualops l2 M1))). relt.
Qed.
Definition lin_rays (r : nat -> num realops) (a b t : nv3 realops) : nv3 realops * nv3 realops :=
  let w := lin_correct realops (lin_E realops r t) (ndiv realops (n_x a) (n_z a)) (ndiv realops (n_y a) (n_z a)) (ndiv realops (n_x b) (n_z b)) (ndiv realops (n_y b) (n_z b)) in
  (@NV3 realops (pick w 0) (pick w 1) (nconst realops 1),
   @NV3 realops (nadd realops (nadd realops (nmul realops (r 0%nat) (pick w 2)) (nmul realops (r 1%nat) (pick w 3))) (nmul realops (r 2%nat) (nconst realops 1)))
                (nadd realops (nadd realops (nmul realops (r 3%nat) (pick w 2)) (nmul realops (r 4%nat) (pick w 3))) (nmul realops (r 5%nat) (nconst realops 1)))
                (nadd realops (nadd realops (nmul realops (r 6%nat) (pick w 2)) (nmul realops (r 7%nat) (pick w 3))) (nmul realops (r 8%nat) (nconst realops 1)))).
Lemma tri_lindstrom_rays : forall r a b t, tri_lindstrom realops r a b t = assume_intersect realops (fst (lin_rays r a b t)) (snd (lin_rays r a b t)) t.
Proof. intros. unfold tri_lindstrom, lin_rays. cbv zeta. destruct (lin_correct _ _ _ _ _ _) as [[u0 w0] [u1 w1]]. reflexivity. Qed.
Theorem lindstrom_orel : n_z (F0 p) <> 0 -> n_z (F1 p) <> 0 ->
  (let E := lin_E realops (FR p) (FT p) in let x0 := ndiv realops (n_x (F0 p)) (n_z (F0 p)) in let y0 := ndiv realops (n_y (F0 p)) (n_z (F0 p)) in let x1 := ndiv realops (n_x (F1 p)) (n_z (F1 p)) in let y1 := ndiv realops (n_y (F1 p)) (n_z (F1 p)) in
   0 < l_b E x0 y0 x1 y1 * l_b E x0 y0 x1 y1 - l_a E x0 y0 x1 y1 * cons E x0 y0 x1 y1) ->
  ai_regular (nvval realops (fst (lin_rays (FR p) (F0 p) (F1 p) (FT p)))) (nvval realops (snd (lin_rays (FR p) (F0 p) (F1 p) (FT p)))) (nvval realops (FT p)) ->
  orel I p (fun q => tri_lindstrom realops (FR q) (F0 q) (F1 q) (FT q)) (tri_lindstrom dualops dR d0 d1 dt).
Proof.
  intros Z0 Z1 D AI. cbv zeta in D. pose proof H0 as (A0 & B0 & C0). pose proof H1 as (A1 & B1 & C1).
  pose proof (lin_correct_rel (fun q k => lin_E realops (FR q) (FT q) k) (lin_E dualops dR dt) _ _ _ _ _ _ _ _ lin_E_rel (rel_div _ _ _ _ _ _ A0 C0 Z0) (rel_div _ _ _ _ _ _ B0 C0 Z0) (rel_div _ _ _ _ _ _ A1 C1 Z1) (rel_div _ _ _ _ _ _ B1 C1 Z1) D) as RW.
  pose proof (RW 0%nat) as W0. pose proof (RW 1%nat) as W1. pose proof (RW 2%nat) as W2. pose proof (RW 3%nat) as W3. clear RW.
  apply (orel_near I p _ (fun q => assume_intersect realops (fst (lin_rays (FR q) (F0 q) (F1 q) (FT q))) (snd (lin_rays (FR q) (F0 q) (F1 q) (FT q))) (FT q))); [intro q; apply tri_lindstrom_rays|].
  unfold tri_lindstrom. destruct (lin_correct dualops _ _ _ _ _) as [[u0 w0] [u1 w1]]. cbn [pickd fst snd] in W0, W1, W2, W3. cbv zeta.
  apply (assume_intersect_orel I p (fun q => fst (lin_rays (FR q) (F0 q) (F1 q) (FT q))) (fun q => snd (lin_rays (FR q) (F0 q) (F1 q) (FT q))) FT); [| |exact HT|exact AI].
  - split; [exact W0|]. split; [exact W1|]. apply rel_const.
  - pose proof (HR 0) as R0. pose proof (HR 1) as R1. pose proof (HR 2) as R2. pose proof (HR 3) as R3. pose proof (HR 4) as R4. pose proof (HR 5) as R5. pose proof (HR 6) as R6. pose proof (HR 7) as R7. pose proof (HR 8) as R8.
    unfold lin_rays. cbv zeta. cbn [fst snd n_x n_y n_z]. split; [|split]; cbn [n_x n_y n_z]; repeat apply rel_add; apply rel_mul; auto; apply rel_const.
Qed.
End Grad.
(** p: v0 (0-2), v1 (3-5), R (6-14), t (15-17), as the C function numbers them *)
Definition mat_at (p : nat -> R) (k : nat) : m33 := M33 (p k) (p (1 + k)%nat) (p (2 + k)%nat) (p (3 + k)%nat) (p (4 + k)%nat) (p (5 + k)%nat) (p (6 + k)%nat) (p (7 + k)%nat) (p (8 + k)%nat).
Definition lindstrom_at (p : nat -> R) : v3 := lindstrom (vec_at p 0) (vec_at p 3) (mat_at p 6) (vec_at p 15).
Definition lindstrom_with_grad (p : nat -> R) : option (nv3 dualops) :=
  tri_lindstrom dualops (fun k => d_var (p (6 + k)%nat) (6 + k)) (d_vars (vec_at p 0) 0) (d_vars (vec_at p 3) 3) (d_vars (vec_at p 15) 15).
Theorem C63_lindstrom : forall p m, lindstrom_with_grad p = Some m -> vz (vec_at p 0) <> 0 -> vz (vec_at p 3) <> 0 ->
  let r k := p (6 + k)%nat in let E := lin_E realops r (rv (vec_at p 15)) in let x0 := p 0%nat / p 2%nat in let y0 := p 1%nat / p 2%nat in let x1 := p 3%nat / p 5%nat in let y1 := p 4%nat / p 5%nat in
  0 < l_b E x0 y0 x1 y1 * l_b E x0 y0 x1 y1 - l_a E x0 y0 x1 y1 * cons E x0 y0 x1 y1 ->
  (let w := lin_rays r (rv (vec_at p 0)) (rv (vec_at p 3)) (rv (vec_at p 15)) in ai_regular (nvval realops (fst w)) (nvval realops (snd w)) (vec_at p 15)) ->
  nvval dualops m = lindstrom_at p /\
  forall i, is_derive (fun x => vx (lindstrom_at (setv p i x))) (p i) (dj (n_x m) i) /\ is_derive (fun x => vy (lindstrom_at (setv p i x))) (p i) (dj (n_y m) i) /\
            is_derive (fun x => vz (lindstrom_at (setv p i x))) (p i) (dj (n_z m) i).
Proof.
  intros p m Em Z0 Z1 r E x0 y0 x1 y1 D AI. cbv zeta in AI.
  assert (forall k, rel all p (fun q => q (6 + k)%nat) (d_var (p (6 + k)%nat) (6 + k))) as HR by (intro k; apply (carries_var all p)).
  pose proof (lindstrom_orel all p (fun q => rv (vec_at q 0)) (fun q => rv (vec_at q 3)) (fun q => rv (vec_at q 15)) _ _ _ (vrel_vars all p 0) (vrel_vars all p 3) (vrel_vars all p 15) (fun q k => q (6 + k)%nat) _ HR Z0 Z1 D) as O.
  cbv beta in O. rewrite (rv_val (vec_at p 15)) in O. specialize (O AI). fold (lindstrom_with_grad p) in O. rewrite Em in O.
  assert (forall q, lindstrom_at q = point_of (tri_lindstrom realops (fun k => q (6 + k)%nat) (rv (vec_at q 0)) (rv (vec_at q 3)) (rv (vec_at q 15)))) as LA.
  { intro q. unfold lindstrom_at, lindstrom. rewrite !tri_lindstrom_rays. f_equal. }
  destruct O as (G & N & R). split.
  - rewrite (vrel_val _ _ _ _ R), LA. destruct N as [N _]. cbv beta in N. now rewrite N.
  - intro i. destruct R as ((_ & _ & A) & (_ & _ & B) & (_ & _ & C)). destruct N as [_ N]. specialize (N i Logic.I). specialize (A i Logic.I). specialize (B i Logic.I). specialize (C i Logic.I).
    split; [|split].
    + apply (is_derive_ext_loc (fun x => n_x (G (setv p i x)))); [|exact A]. generalize N. apply filter_imp. intros x EE. cbv beta in EE. now rewrite LA, EE.
    + apply (is_derive_ext_loc (fun x => n_y (G (setv p i x)))); [|exact B]. generalize N. apply filter_imp. intros x EE. cbv beta in EE. now rewrite LA, EE.
    + apply (is_derive_ext_loc (fun x => n_z (G (setv p i x)))); [|exact C]. generalize N. apply filter_imp. intros x EE. cbv beta in EE. now rewrite LA, EE.
Qed.
Print Assumptions C63_lindstrom.
