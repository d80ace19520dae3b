(** Every proper rotation matrix is a rotation by an angle in [0,pi] about some
    axis; what r_from_R() computes from it. *)
From Coq Require Import Reals Lra Psatz Nsatz.
From Verif Require Import S_Vec M_Dual M_Pose P_Trig P_Pose.
Open Scope R_scope.

(** the antisymmetric part, as a vector *)
Definition skew (m : m33) : v3 := V3 (m21 m - m12 m) (m02 m - m20 m) (m10 m - m01 m).

(** the equations behind is_rot: orthonormal rows and columns, and every entry is its cofactor *)
Lemma rot_eqs : forall m, is_rot m ->
  let (a, b, c, d, e, f, g, h, i) := m in
  (a * a + b * b + c * c = 1 /\ d * d + e * e + f * f = 1 /\ g * g + h * h + i * i = 1) /\
  (a * d + b * e + c * f = 0 /\ a * g + b * h + c * i = 0 /\ d * g + e * h + f * i = 0) /\
  (a * a + d * d + g * g = 1 /\ b * b + e * e + h * h = 1 /\ c * c + f * f + i * i = 1) /\
  (a * b + d * e + g * h = 0 /\ a * c + d * f + g * i = 0 /\ b * c + e * f + h * i = 0) /\
  (a = e * i - f * h /\ b = f * g - d * i /\ c = d * h - e * g) /\
  (d = c * h - b * i /\ e = a * i - c * g /\ f = b * g - a * h) /\
  (g = b * f - c * e /\ h = c * d - a * f /\ i = a * e - b * d).
Proof.
  intros [a b c d e f g h i] (H1 & H2 & H3). unfold mm, mT, I3, det in *. cbn in *.
  injection H1 as A0 A1 A2 A3 A4 A5 A6 A7 A8. injection H2 as B0 B1 B2 B3 B4 B5 B6 B7 B8.
  repeat split; try lra; nsatz.
Qed.

Lemma rot_skew : forall m, is_rot m ->
  norm2 (skew m) = (3 - trace m) * (1 + trace m) /\
  (let u := skew m in let t := trace m in
   vx u * vx u = (1 + t) * (2 * m00 m + 1 - t) /\ vy u * vy u = (1 + t) * (2 * m11 m + 1 - t) /\ vz u * vz u = (1 + t) * (2 * m22 m + 1 - t) /\
   vx u * vy u = (1 + t) * (m01 m + m10 m) /\ vx u * vz u = (1 + t) * (m02 m + m20 m) /\ vy u * vz u = (1 + t) * (m12 m + m21 m)).
Proof.
  intros m H. pose proof (rot_eqs m H) as E. destruct m as [a b c d e f g h i].
  destruct E as ((?&?&?)&(?&?&?)&(?&?&?)&(?&?&?)&(?&?&?)&(?&?&?)&(?&?&?)).
  unfold skew, norm2, dot, trace. cbn. clear H. repeat split; nsatz.
Qed.

Lemma rot_trace : forall m, is_rot m -> -1 <= trace m <= 3.
Proof. intros m H. destruct (rot_skew m H) as (E & _). pose proof (norm2_nonneg (skew m)). nra. Qed.

Lemma rank1 : forall p q r s t w, 0 < p + q + r ->
  s * s = p * q -> t * t = p * r -> w * w = q * r -> s * t = p * w -> s * w = q * t -> t * w = r * s ->
  0 <= p -> 0 <= q -> 0 <= r ->
  exists v, vx v * vx v = p /\ vy v * vy v = q /\ vz v * vz v = r /\ vx v * vy v = s /\ vx v * vz v = t /\ vy v * vz v = w.
Proof.
  intros p q r s t w HP E1 E2 E3 E4 E5 E6 P0 Q0 R0.
  assert (forall x, 0 < x -> sqrt x * sqrt x = x /\ sqrt x <> 0) as SQ.
  { intros x Hx. split; [apply sqrt_sqrt; lra|]. pose proof (sqrt_lt_R0 x Hx). lra. }
  destruct P0 as [P0|P0].
  - destruct (SQ p P0) as (S1 & S2). set (k := sqrt p) in *. clearbody k. subst p. 
    exists (V3 k (s / k) (t / k)). cbn. repeat split; try (field; easy).
    + apply (Rmult_eq_reg_l (k * k)); [|nra]. rewrite <- E1. field. easy.
    + apply (Rmult_eq_reg_l (k * k)); [|nra]. rewrite <- E2. field. easy.
    + apply (Rmult_eq_reg_l (k * k)); [|nra]. rewrite <- E4. field. easy.
  - subst p. assert (s = 0) as -> by nra. assert (t = 0) as -> by nra. destruct Q0 as [Q0|Q0].
    + destruct (SQ q Q0) as (S1 & S2). set (k := sqrt q) in *. clearbody k. subst q.
      exists (V3 0 k (w / k)). cbn. repeat split; try (field; easy).
      apply (Rmult_eq_reg_l (k * k)); [|nra]. rewrite <- E3. field. easy.
    + subst q. assert (w = 0) as -> by nra. destruct (SQ r ltac:(lra)) as (S1 & _). exists (V3 0 0 (sqrt r)). cbn. repeat split; lra.
Qed.

Theorem euler : forall m, is_rot m -> exists v th, norm2 v = 1 /\ 0 <= th <= PI /\ m = rod v (sin th) (cos th).
Proof.
  intros m H. pose proof (rot_trace m H) as T. destruct (rot_skew m H) as (N & U).
  pose proof (rot_eqs m H) as E.
  destruct (Rlt_dec (trace m) 3) as [T3|T3]; [destruct (Rlt_dec (-1) (trace m)) as [T1|T1]|].
  - set (c := (trace m - 1) / 2). assert (-1 < c < 1) as C by (unfold c; lra).
    set (s := sqrt (1 - c * c)). assert (0 < s) as S by (apply sqrt_lt_R0; nra).
    assert (s * s = 1 - c * c) as S2 by (apply sqrt_sqrt; nra).
    exists (vscale (1 / (2 * s)) (skew m)), (acos c). rewrite cos_acos, sin_acos by lra.
    fold (c²). change (c²) with (c * c). fold s. split; [|split; [pose proof (acos_bound c); lra|]].
    + replace (norm2 (vscale (1 / (2 * s)) (skew m))) with (norm2 (skew m) / (4 * (s * s))) by (vunfold; field; lra).
      rewrite N, S2. unfold c. field. intro Z. nra.
    + assert (trace m = 2 * c + 1) as TT by (unfold c; lra). rewrite TT in U. clearbody s c.
      assert (forall x y z, x * y = (1 + (2 * c + 1)) * z -> (1 - c) * (1 / (2 * s) * x) * (1 / (2 * s) * y) = z / 2) as K.
      { intros x y z Hz. replace ((1 - c) * (1 / (2 * s) * x) * (1 / (2 * s) * y)) with ((1 - c) * (x * y) / (4 * (s * s))) by (field; lra).
        rewrite Hz, S2. field. nra. }
      destruct U as (U1 & U2 & U3 & U4 & U5 & U6).
      pose proof (K _ _ _ U1). pose proof (K _ _ _ U2). pose proof (K _ _ _ U3).
      pose proof (K _ _ _ U4). pose proof (K _ _ _ U5). pose proof (K _ _ _ U6).
      assert (forall x, s * (1 / (2 * s) * x) = x / 2) as L by (intro; field; lra).
      unfold rod. apply m33_eq; cbn [m00 m01 m02 m10 m11 m12 m20 m21 m22 vscale vx vy vz] in *; rewrite ?L; unfold skew in *; cbn [vx vy vz] in *; lra.
  - assert (trace m = -1) as TT by lra. rewrite TT in N. assert (norm2 (skew m) = 0) as N0 by lra. apply norm2_zero in N0.
    destruct m as [a b c d e f g h i]. unfold skew, v0 in N0. cbn in N0. injection N0 as Z1 Z2 Z3.
    assert (h = f) by lra. assert (c = g) by lra. assert (d = b) by lra. subst h c d. unfold trace in TT. cbn in TT.
    destruct E as ((F1&F2&F3)&(?&?&?)&_&_&(G1&G2&G3)&(G4&G5&G6)&(G7&G8&G9)).
    destruct (rank1 ((1 + a) / 2) ((1 + e) / 2) ((1 + i) / 2) (b / 2) (g / 2) (f / 2)) as (v & V1 & V2 & V3 & V4 & V5 & V6); try nra; try nsatz.
    exists v, PI. split; [unfold norm2, dot; lra|]. split; [pose proof PI_RGT_0; lra|]. rewrite sin_PI, cos_PI. unfold rod.
    apply m33_eq; cbn [m00 m01 m02 m10 m11 m12 m20 m21 m22]; lra.
  - exists (V3 0 0 1), 0. split; [vunfold; ring|]. split; [pose proof PI_RGT_0; lra|]. rewrite sin_0, cos_0.
    destruct m as [a b c d e f g h i]. unfold trace in T, T3. cbn in T, T3.
    destruct E as ((F1&F2&F3)&_&(D1&D2&D3)&_).
    assert (a <= 1) by nra. assert (e <= 1) by nra. assert (i <= 1) by nra.
    assert (a = 1) by lra. assert (e = 1) by lra. assert (i = 1) by lra. subst a e i.
    assert (forall x y, 1 * 1 + x * x + y * y = 1 -> x = 0 /\ y = 0) as Z by (intros; nra).
    assert (b = 0 /\ c = 0) as (-> & ->) by (apply Z; lra). assert (d = 0 /\ f = 0) as (-> & ->) by (apply Z; lra).
    assert (g = 0 /\ h = 0) as (-> & ->) by (apply Z; lra).
    unfold rod. apply m33_eq; cbn; ring.
Qed.
