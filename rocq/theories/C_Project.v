(** C30: the closed-form projections and unprojections are inverses. *)
From Coq Require Import Reals Lra Psatz.
From Verif Require Import S_Vec P_Trig M_Project P_Atan2.
Open Scope R_scope.

Definition focal_ok (c : core) : Prop := fx c <> 0 /\ fy c <> 0.
(** v and w point the same way *)
Definition same_direction (v w : v3) : Prop := exists k, 0 < k /\ v = vscale k w.
Definition parallel (v w : v3) : Prop := exists k, k <> 0 /\ v = vscale k w.

Lemma p2_eq : forall a b, px a = px b -> py a = py b -> a = b.
Proof. intros [] []; cbn; congruence. Qed.

(** ** pinhole *)
Theorem C30_pinhole_project_unproject : forall c q, focal_ok c -> project_pinhole c (unproject_pinhole c q) = q.
Proof. intros c [x y] [A B]. unfold project_pinhole, unproject_pinhole. apply p2_eq; cbn; field; auto. Qed.
Print Assumptions C30_pinhole_project_unproject.
Theorem C30_pinhole_unproject_project : forall c v, focal_ok c -> vz v <> 0 ->
  parallel (unproject_pinhole c (project_pinhole c v)) v /\ (0 < vz v -> same_direction (unproject_pinhole c (project_pinhole c v)) v).
Proof.
  intros c [x y z] [A B] Z. cbn in Z. assert (unproject_pinhole c (project_pinhole c (V3 x y z)) = vscale (1 / z) (V3 x y z)) as E.
  { unfold project_pinhole, unproject_pinhole. vsplit; vunfold; cbn; field; auto. }
  rewrite E. split.
  - exists (1 / z). split; [|reflexivity]. unfold Rdiv. rewrite Rmult_1_l. now apply Rinv_neq_0_compat.
  - cbn. intro P. exists (1 / z). split; [|reflexivity]. apply Rdiv_lt_0_compat; lra.
Qed.
Print Assumptions C30_pinhole_unproject_project.

(** ** stereographic *)
Theorem C30_stereographic_project_unproject : forall c q, focal_ok c -> project_stereographic c (unproject_stereographic c q) = q.
Proof.
  intros c [x y] [A B]. unfold project_stereographic, unproject_stereographic. cbn [px py vx vy vz].
  set (u := (x - cx c) * (1 / fx c)). set (w := (y - cy c) * (1 / fy c)).
  replace (u * u + w * w + (1 - 1 / 4 * (u * u + w * w)) * (1 - 1 / 4 * (u * u + w * w))) with
    ((1 + 1 / 4 * (u * u + w * w)) * (1 + 1 / 4 * (u * u + w * w))) by field.
  rewrite sqrt_square by nra. replace (1 + 1 / 4 * (u * u + w * w) + (1 - 1 / 4 * (u * u + w * w))) with 2 by ring.
  apply p2_eq; cbn; unfold u, w; field; auto.
Qed.
Print Assumptions C30_stereographic_project_unproject.
Lemma z_above_minus_norm : forall v, norm v + vz v <> 0 -> 0 < norm v + vz v.
Proof. intros v H. pose proof (norm_nonneg v). pose proof (norm_sq v) as S. destruct v as [x y z]. vunfold. nra. Qed.
(** every direction but the one exactly backwards *)
Theorem C30_stereographic_unproject_project : forall c v, focal_ok c -> norm v + vz v <> 0 ->
  same_direction (unproject_stereographic c (project_stereographic c v)) v.
Proof.
  intros c v [A B] H. pose proof (z_above_minus_norm v H) as P. exists (2 / (norm v + vz v)). split; [apply Rdiv_lt_0_compat; lra|].
  pose proof (norm_sq v) as S. unfold project_stereographic, unproject_stereographic.
  change (sqrt (vx v * vx v + vy v * vy v + vz v * vz v)) with (norm v). cbn [px py].
  set (m := norm v) in *. clearbody m. destruct v as [x y z]. cbn [vx vy vz] in *. vunfold.
  set (s := 2 / (m + z)) in *. assert (s * (m + z) = 2) as SE by (unfold s; field; lra).
  assert ((x * s * fx c + cx c - cx c) * (1 / fx c) = s * x) as -> by (field; auto).
  assert ((y * s * fy c + cy c - cy c) * (1 / fy c) = s * y) as -> by (field; auto).
  apply v3_eq; cbn; [reflexivity|reflexivity|].
  clearbody s. replace (s * x * (s * x) + s * y * (s * y)) with ((s * s) * ((m - z) * (m + z))) by (replace ((m - z) * (m + z)) with (m * m - z * z) by ring; rewrite S; ring).
  replace (s * s * ((m - z) * (m + z))) with (s * (m - z) * (s * (m + z))) by ring. rewrite SE.
  assert (s * m = 2 - s * z) by lra. nra.
Qed.
Print Assumptions C30_stereographic_unproject_project.
(** the domain excludes exactly the backward axis (and 0) *)
Theorem C30_stereographic_domain : forall v, norm v + vz v = 0 <-> vx v = 0 /\ vy v = 0 /\ vz v <= 0.
Proof.
  intro v. pose proof (norm_nonneg v). pose proof (norm_sq v) as S. split.
  - intro E. destruct v as [x y z]. vunfold. assert (norm (V3 x y z) = - z) as M by lra. rewrite M in *. repeat split; nra.
  - intros (X & Y & Z). destruct v as [x y z]. vunfold. subst x y. assert ((norm (V3 0 0 z) + z) * (norm (V3 0 0 z) - z) = 0) as E by lra.
    apply Rmult_integral in E as [E|E]; lra.
Qed.
Print Assumptions C30_stereographic_domain.

(** ** lonlat and latlon *)
Lemma inv_norm : forall v, v <> v0 -> sqrt (1 / (vx v * vx v + vy v * vy v + vz v * vz v)) = / norm v.
Proof.
  intros v H. change (vx v * vx v + vy v * vy v + vz v * vz v) with (norm2 v). unfold Rdiv. rewrite Rmult_1_l, sqrt_inv. reflexivity.
Qed.
Lemma ratio_bound : forall a b n, 0 < n -> 0 <= b -> a * a + b = n * n -> -1 <= a * / n <= 1.
Proof.
  intros a b n N B E. assert (- n <= a <= n) as [L U] by nra. pose proof (Rinv_0_lt_compat n N). split.
  - replace (-1) with (- n * / n) by (field; lra). apply Rmult_le_compat_r; lra.
  - replace 1 with (n * / n) by (field; lra). apply Rmult_le_compat_r; lra.
Qed.
(** the spherical parametrization recovers a direction from its two angles *)
Lemma sphere : forall a b z n, 0 < n -> a * a + b * b + z * z = n * n ->
  cos (asin (a * / n)) * sin (atan2 b z) = / n * b /\ cos (asin (a * / n)) * cos (atan2 b z) = / n * z /\ sin (asin (a * / n)) = / n * a.
Proof.
  intros a b z n N E. assert (-1 <= a * / n <= 1) as R by (apply ratio_bound with (b * b + z * z); nra).
  rewrite cos_asin, sin_asin by auto. pose proof (Rinv_0_lt_compat n N) as I.
  replace (1 - (a * / n)²) with ((z * z + b * b) * (/ n * / n)).
  2:{ unfold Rsqr. apply Rmult_eq_reg_r with (n * n); [|nra]. field_simplify; lra. }
  rewrite sqrt_mult by nra. rewrite sqrt_square by lra.
  destruct (Req_dec (z * z + b * b) 0) as [Z|Z].
  - assert (z = 0 /\ b = 0) as [-> ->] by (split; nra). replace (0 * 0 + 0 * 0) with 0 by ring. rewrite sqrt_0. repeat split; ring.
  - destruct (atan2_spec z b Z) as (C & S & _). repeat split; nra.
Qed.
Theorem C30_lonlat_unproject_project : forall c v, focal_ok c -> v <> v0 ->
  unproject_lonlat c (project_lonlat c v) = vscale (/ norm v) v.
Proof.
  intros c v [A B] H. pose proof (norm_pos v H) as P. pose proof (norm_sq v) as S. unfold unproject_lonlat, project_lonlat. rewrite inv_norm by auto. cbn [px py].
  replace ((atan2 (vx v) (vz v) * fx c + cx c - cx c) * (1 / fx c)) with (atan2 (vx v) (vz v)) by (field; auto).
  replace ((asin (vy v * / norm v) * fy c + cy c - cy c) * (1 / fy c)) with (asin (vy v * / norm v)) by (field; auto).
  destruct (sphere (vy v) (vx v) (vz v) (norm v)) as (X & Y & Z); [auto|unfold norm2, dot in S; lra|]. apply v3_eq; cbn [vscale vx vy vz]; assumption.
Qed.
Print Assumptions C30_lonlat_unproject_project.
Theorem C30_latlon_unproject_project : forall c v, focal_ok c -> v <> v0 ->
  unproject_latlon c (project_latlon c v) = vscale (/ norm v) v.
Proof.
  intros c v [A B] H. pose proof (norm_pos v H) as P. pose proof (norm_sq v) as S. unfold unproject_latlon, project_latlon. rewrite inv_norm by auto. cbn [px py].
  replace ((atan2 (vy v) (vz v) * fy c + cy c - cy c) * (1 / fy c)) with (atan2 (vy v) (vz v)) by (field; auto).
  replace ((asin (vx v * / norm v) * fx c + cx c - cx c) * (1 / fx c)) with (asin (vx v * / norm v)) by (field; auto).
  destruct (sphere (vx v) (vy v) (vz v) (norm v)) as (X & Y & Z); [auto|unfold norm2, dot in S; lra|]. apply v3_eq; cbn [vscale vx vy vz]; assumption.
Qed.
Print Assumptions C30_latlon_unproject_project.

Lemma unit_norm2 : forall v, norm2 v = 1 -> norm v = 1.
Proof. intros v H. unfold norm. rewrite H. apply sqrt_1. Qed.
Theorem C30_unit : forall c q, norm (unproject_lonlat c q) = 1 /\ norm (unproject_latlon c q) = 1.
Proof.
  intros c q. split; apply unit_norm2; unfold unproject_lonlat, unproject_latlon, norm2, dot; cbn [vx vy vz].
  - set (lo := (px q - cx c) * (1 / fx c)). set (la := (py q - cy c) * (1 / fy c)).
    pose proof (sin2_cos2 lo) as P. pose proof (sin2_cos2 la) as Q. unfold Rsqr in *.
    replace (cos la * sin lo * (cos la * sin lo) + sin la * sin la + cos la * cos lo * (cos la * cos lo)) with
      (sin la * sin la + cos la * cos la * (sin lo * sin lo + cos lo * cos lo)) by ring. rewrite P. lra.
  - set (la := (px q - cx c) * (1 / fx c)). set (lo := (py q - cy c) * (1 / fy c)).
    pose proof (sin2_cos2 lo) as P. pose proof (sin2_cos2 la) as Q. unfold Rsqr in *.
    replace (sin la * sin la + cos la * sin lo * (cos la * sin lo) + cos la * cos lo * (cos la * cos lo)) with
      (sin la * sin la + cos la * cos la * (sin lo * sin lo + cos lo * cos lo)) by ring. rewrite P. lra.
Qed.
Print Assumptions C30_unit.

(** the angles a pixel stands for lie in one turn, off the poles *)
Definition chart (lon lat : R) : Prop := - PI < lon <= PI /\ - (PI / 2) < lat < PI / 2.
Theorem C30_lonlat_project_unproject : forall c q, focal_ok c -> chart ((px q - cx c) / fx c) ((py q - cy c) / fy c) ->
  project_lonlat c (unproject_lonlat c q) = q.
Proof.
  intros c q [A B] [L M]. assert (unproject_lonlat c q <> v0) as NZ.
  { intro E. destruct (C30_unit c q) as [U _]. rewrite E in U. unfold norm in U. vunfold. replace (0 * 0 + 0 * 0 + 0 * 0) with 0 in U by ring. rewrite sqrt_0 in U. lra. }
  unfold project_lonlat. rewrite inv_norm by auto. rewrite (proj1 (C30_unit c q)), Rinv_1, Rmult_1_r.
  unfold unproject_lonlat. cbn [vx vy vz]. destruct q as [x y]. cbn [px py] in *.
  replace ((x - cx c) * (1 / fx c)) with ((x - cx c) / fx c) by (field; auto). replace ((y - cy c) * (1 / fy c)) with ((y - cy c) / fy c) by (field; auto).
  rewrite asin_sin by lra. rewrite (atan2_unique _ _ (cos ((y - cy c) / fy c)) ((x - cx c) / fx c)); auto; [|apply cos_gt_0; lra].
  apply p2_eq; cbn; field; auto.
Qed.
Print Assumptions C30_lonlat_project_unproject.
Theorem C30_latlon_project_unproject : forall c q, focal_ok c -> chart ((py q - cy c) / fy c) ((px q - cx c) / fx c) ->
  project_latlon c (unproject_latlon c q) = q.
Proof.
  intros c q [A B] [L M]. assert (unproject_latlon c q <> v0) as NZ.
  { intro E. destruct (C30_unit c q) as [_ U]. rewrite E in U. unfold norm in U. vunfold. replace (0 * 0 + 0 * 0 + 0 * 0) with 0 in U by ring. rewrite sqrt_0 in U. lra. }
  unfold project_latlon. rewrite inv_norm by auto. rewrite (proj2 (C30_unit c q)), Rinv_1, Rmult_1_r.
  unfold unproject_latlon. cbn [vx vy vz]. destruct q as [x y]. cbn [px py] in *.
  replace ((x - cx c) * (1 / fx c)) with ((x - cx c) / fx c) by (field; auto). replace ((y - cy c) * (1 / fy c)) with ((y - cy c) / fy c) by (field; auto).
  rewrite asin_sin by lra. rewrite (atan2_unique _ _ (cos ((x - cx c) / fx c)) ((y - cy c) / fy c)); auto; [|apply cos_gt_0; lra].
  apply p2_eq; cbn; field; auto.
Qed.
Print Assumptions C30_latlon_project_unproject.
(** for every pixel, also outside the chart: the two pixels mean the same direction *)
Theorem C30_spherical_wrap : forall c q, focal_ok c ->
  unproject_lonlat c (project_lonlat c (unproject_lonlat c q)) = unproject_lonlat c q /\
  unproject_latlon c (project_latlon c (unproject_latlon c q)) = unproject_latlon c q.
Proof.
  intros c q F. destruct (C30_unit c q) as [U V].
  assert (forall v, norm v = 1 -> v <> v0 /\ vscale (/ norm v) v = v) as W.
  { intros v N. split; [intros ->; unfold norm in N; vunfold; replace (0 * 0 + 0 * 0 + 0 * 0) with 0 in N by ring; rewrite sqrt_0 in N; lra|].
    rewrite N, Rinv_1. apply v3_eq; cbn; ring. }
  destruct (W _ U), (W _ V). now rewrite C30_lonlat_unproject_project, C30_latlon_unproject_project.
Qed.
Print Assumptions C30_spherical_wrap.
(** literally project(unproject(q)) = q is false for lonlat: a pixel a full turn to the side comes back wrapped *)
Theorem C30_lonlat_wrap_refuted : exists c q, focal_ok c /\ project_lonlat c (unproject_lonlat c q) <> q.
Proof.
  exists (Core 1 1 0 0), (P2 (2 * PI) 0). split; [unfold focal_ok; cbn; lra|]. intro E.
  apply (f_equal px) in E. unfold project_lonlat in E. cbn [px fx cx] in E.
  match type of E with atan2 ?y ?x * _ + _ = _ => pose proof (atan2_range y x) end. pose proof PI_RGT_0. lra.
Qed.
Print Assumptions C30_lonlat_wrap_refuted.

Example ex_core : focal_ok (Core 1000 1100 320 240) /\ norm (V3 1 2 2) + vz (V3 1 2 2) <> 0 /\ V3 1 2 2 <> v0 /\
  chart ((px (P2 400 300) - 320) / 1000) ((py (P2 400 300) - 240) / 1100).
Proof.
  split; [unfold focal_ok; cbn; lra|]. pose proof (norm_nonneg (V3 1 2 2)). cbn [vz]. split; [lra|].
  split; [intro E; injection E; lra|]. pose proof PI2_1. unfold chart. cbn. lra.
Qed.
