(** C52: the worst-direction standard deviation (model_analysis.py:466-476). *)
From Coq Require Import Reals Lra Psatz.
Open Scope R_scope.

(** ** model.  A 2x2 matrix by rows; the code reads [0,0], [1,0] and [1,1] *)
Record m22 := { c00 : R; c01 : R; c10 : R; c11 : R }.
(** model_analysis.py:468-469: the (1,1) shape *)
Definition worst_direction_stdev_1 (a : R) : R := sqrt a.
(** model_analysis.py:471-475 *)
Definition worst_direction_stdev_2 (cov : m22) : R :=
  let a := c00 cov in
  let b := c10 cov in
  let c := c11 cov in
  sqrt ((a + c) / 2 + sqrt ((a - c) * (a - c) / 4 + b * b)).

(** ** specification: the variance of u.x when x has covariance C is u^T C u *)
Definition variance_along (cov : m22) (u v : R) : R :=
  u * (c00 cov * u + c01 cov * v) + v * (c10 cov * u + c11 cov * v).
Definition unit2 (u v : R) : Prop := u * u + v * v = 1.
Definition psd (cov : m22) : Prop :=
  c01 cov = c10 cov /\ forall u v, 0 <= variance_along cov u v.

(** [w] is the largest standard deviation along any direction *)
Definition largest_stdev (cov : m22) (w : R) : Prop :=
  (forall u v, unit2 u v -> sqrt (variance_along cov u v) <= w) /\
  (exists u v, unit2 u v /\ sqrt (variance_along cov u v) = w).

Lemma unit_ex : forall x y, x <> 0 \/ y <> 0 -> exists k, 0 < k /\ unit2 (k * x) (k * y).
Proof.
  intros x y H. set (n := x * x + y * y).
  assert (N : 0 < n) by (unfold n; destruct H; nra).
  exists (/ sqrt n). pose proof (sqrt_lt_R0 n N) as Q. split; [now apply Rinv_0_lt_compat|].
  unfold unit2. replace (_ + _) with ((/ sqrt n * / sqrt n) * n) by (unfold n; ring).
  rewrite <- (sqrt_sqrt n) at 3 by lra. field. lra.
Qed.

(** the form is the mean of the diagonal, plus a part bounded by Cauchy-Schwarz *)
Lemma form_split : forall a b c u v,
  variance_along {| c00 := a; c01 := b; c10 := b; c11 := c |} u v =
  (a + c) / 2 * (u * u + v * v) + ((a - c) / 2 * (u * u - v * v) + b * (2 * (u * v))).
Proof. intros. unfold variance_along. cbn [c00 c01 c10 c11]. field. Qed.
Lemma cauchy : forall h b d p q s, 0 <= d -> 0 <= s -> d * d = h * h + b * b -> p * p + q * q = s * s ->
  h * p + b * q <= d * s.
Proof.
  intros h b d p q s D0 S0 D P.
  assert (CS : (h * p + b * q) * (h * p + b * q) <= (d * s) * (d * s)).
  { replace (d * s * (d * s)) with ((d * d) * (s * s)) by ring. rewrite D, <- P.
    pose proof (Rle_0_sqr (h * q - b * p)) as Q. unfold Rsqr in Q. nra. }
  assert (0 <= d * s) by nra. destruct (Rle_dec (h * p + b * q) (d * s)) as [L|L]; [easy|exfalso; nra].
Qed.

(** *** C52, for every 2x2 covariance *)
Theorem C52_worst_direction : forall cov, psd cov -> largest_stdev cov (worst_direction_stdev_2 cov).
Proof.
  intros [a b' b c] (E & P). cbn in E. subst b'. unfold worst_direction_stdev_2, largest_stdev. cbn [c00 c10 c11].
  set (d := sqrt ((a - c) * (a - c) / 4 + b * b)).
  assert (D0 : 0 <= d) by apply sqrt_pos.
  set (h := (a - c) / 2).
  assert (D2 : d * d = h * h + b * b).
  { unfold d, h. rewrite sqrt_sqrt; [field|]. pose proof (Rle_0_sqr (a - c)). pose proof (Rle_0_sqr b). unfold Rsqr in *. lra. }
  split.
  - intros u v U. apply sqrt_le_1_alt. rewrite form_split. fold h. unfold unit2 in U.
    pose proof (cauchy h b d (u * u - v * v) (2 * (u * v)) 1 D0 Rle_0_1 D2) as C. rewrite U.
    assert ((u * u - v * v) * (u * u - v * v) + 2 * (u * v) * (2 * (u * v)) = 1 * 1) as Q.
    { transitivity ((u * u + v * v) * (u * u + v * v)); [ring|rewrite U; ring]. }
    specialize (C Q). lra.
  - (* an eigenvector *)
    assert (X : exists x y, (x <> 0 \/ y <> 0) /\ h * (x * x - y * y) + b * (2 * (x * y)) = d * (x * x + y * y)).
    { destruct (Req_dec d 0) as [Z|Z].
      - exists 1, 0. split; [left; lra|]. rewrite Z in D2. assert (h = 0) by nra. assert (b = 0) by nra. rewrite H, H0, Z. ring.
      - destruct (Rle_dec 0 h) as [Hh|Hh].
        + exists (h + d), b. split; [left; lra|]. 
          replace (h * ((h + d) * (h + d) - b * b) + b * (2 * ((h + d) * b))) with (h * (h * h + 2 * h * d + d * d + b * b) + 2 * (b * b) * d) by ring.
          replace (d * ((h + d) * (h + d) + b * b)) with (d * (h * h + b * b + d * d + 2 * h * d)) by ring.
          rewrite D2. ring_simplify. replace (d ^ 2) with (d * d) by ring. rewrite D2. ring.
        + exists b, (d - h). split; [right; lra|].
          replace (h * (b * b - (d - h) * (d - h)) + b * (2 * (b * (d - h)))) with (- h * (h * h - 2 * h * d + d * d + b * b) + 2 * (b * b) * d) by ring.
          replace (d * (b * b + (d - h) * (d - h))) with (d * (h * h + b * b + d * d - 2 * h * d)) by ring.
          rewrite D2. ring_simplify. replace (d ^ 2) with (d * d) by ring. rewrite D2. ring. }
    destruct X as (x & y & N & X). destruct (unit_ex x y N) as (k & K & U).
    exists (k * x), (k * y). split; [easy|]. f_equal. rewrite form_split. fold h. unfold unit2 in U.
    replace (h * (k * x * (k * x) - k * y * (k * y)) + b * (2 * (k * x * (k * y)))) with ((k * k) * (h * (x * x - y * y) + b * (2 * (x * y)))) by ring.
    rewrite X. replace (k * k * (d * (x * x + y * y))) with (d * (k * x * (k * x) + k * y * (k * y))) by ring.
    rewrite U. ring.
Qed.

(** the number under the root is the larger eigenvalue, and is never negative:
    the answer is a real number, 0 only if there is no uncertainty at all *)
Theorem C52_zero_only_without_uncertainty : forall cov, psd cov ->
  (worst_direction_stdev_2 cov = 0 <-> forall u v, variance_along cov u v = 0).
Proof.
  intros cov P. destruct (C52_worst_direction cov P) as (U & (x & y & X & E)). split.
  - intros Z u v. rewrite Z in *.
    destruct (Req_dec u 0) as [Hu|Hu]; [destruct (Req_dec v 0) as [Hv|Hv]|].
    { subst. unfold variance_along. ring. }
    all: destruct (unit_ex u v ltac:(tauto)) as (k & K & N); specialize (U _ _ N);
      pose proof (sqrt_pos (variance_along cov (k * u) (k * v))) as S0;
      assert (S1 : variance_along cov (k * u) (k * v) = 0) by (apply sqrt_eq_0; [apply P|lra]);
      assert (S2 : variance_along cov (k * u) (k * v) = (k * k) * variance_along cov u v) by (unfold variance_along; ring);
      rewrite S2 in S1; apply Rmult_integral in S1; destruct S1 as [S1|S1]; [nra|easy].
  - intro Z. rewrite <- E, Z. apply sqrt_0.
Qed.

(** the 1x1 case: the only directions are +1 and -1 *)
Theorem C52_one_dimension : forall a u, 0 <= a -> u * u = 1 -> sqrt (u * (a * u)) = worst_direction_stdev_1 a.
Proof. intros a u A U. unfold worst_direction_stdev_1. f_equal. replace (u * (a * u)) with (a * (u * u)) by ring. rewrite U. ring. Qed.

(** the documented example (model_analysis.py:406-420) is such a matrix *)
Example ex_C52 : psd {| c00 := 1; c01 := -0.4; c10 := -0.4; c11 := 0.5 |}.
Proof. split; [reflexivity|]. intros u v. unfold variance_along. cbn [c00 c01 c10 c11]. pose proof (Rle_0_sqr (u - 0.4 * v)). pose proof (Rle_0_sqr v). unfold Rsqr in *. lra. Qed.

Print Assumptions C52_worst_direction.
Print Assumptions C52_zero_only_without_uncertainty.
Print Assumptions C52_one_dimension.
