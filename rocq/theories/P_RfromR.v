(** What r_from_R() returns for a rotation by th about the unit vector v *)
From Coq Require Import Reals Lra Psatz.
From Verif Require Import S_Vec M_Dual M_Pose P_Trig P_Pose.
Open Scope R_scope.

Section Rod.
Variables (v : v3) (th : R).
Hypothesis Hv : norm2 v = 1.
Hypothesis Hth : 0 <= th <= PI.
Let s := sin th.
Let c := cos th.
Let m := rod v s c.

Lemma sc_ : s * s + c * c = 1. Proof. apply sc1. Qed.
Lemma s_nn : 0 <= s. Proof. apply sin_ge_0; lra. Qed.
Lemma u0_ : m21 m - m12 m = 2 * s * vx v. Proof. unfold m, rod. cbn. ring. Qed.
Lemma u1_ : m02 m - m20 m = 2 * s * vy v. Proof. unfold m, rod. cbn. ring. Qed.
Lemma u2_ : m10 m - m01 m = 2 * s * vz v. Proof. unfold m, rod. cbn. ring. Qed.
Lemma c_ : (m00 m + m11 m + m22 m - 1) / 2 = c.
Proof. unfold m, rod. cbn. unfold norm2, dot in Hv. replace (_ / 2) with ((3 * c + (1 - c) * (vx v * vx v + vy v * vy v + vz v * vz v) - 1) / 2) by field. rewrite Hv. field. Qed.
Lemma n2_ : 2 * s * vx v * (2 * s * vx v) + 2 * s * vy v * (2 * s * vy v) + 2 * s * vz v * (2 * s * vz v) = (2 * s) * (2 * s).
Proof. unfold norm2, dot in Hv. replace (_ + _ + _) with ((2 * s) * (2 * s) * (vx v * vx v + vy v * vy v + vz v * vz v)) by ring. rewrite Hv. ring. Qed.

Lemma rfR_normal : eps8 < s -> r_from_R m = vscale th v.
Proof.
  intro H. pose proof sc_ as SC. assert (0 < eps8) as E8 by (unfold eps8; lra).
  unfold r_from_R. cbv zeta. cbn [vx vy vz]. rewrite u0_, u1_, u2_, c_, n2_.
  destruct (Rlt_dec (4 * eps8 * eps8) _) as [A|A]; [|exfalso; nra].
  destruct (Rlt_dec (eps8 * eps8 / 2) _) as [B|B].
  2:{ exfalso. apply B. unfold Rabs. destruct (Rcase_abs c); nra. }
  rewrite sqrt_square by lra. replace (2 * s / 2) with s by field.
  match goal with |- V3 (_ / _ * ?t) _ _ = _ => assert (t = th) as ->; [|apply v3_eq; vunfold; field; lra] end.
  destruct (Rlt_dec (sqrt 2 / 2) s) as [L|L]; [unfold c; now rewrite acos_cos|].
  destruct (Rlt_dec 0 c) as [P|P].
  - unfold s. apply asin_sin. split; [pose proof PI_RGT_0; lra|]. destruct (Rle_dec th (PI / 2)); [easy|]. exfalso.
    assert (c <= 0) by (apply cos_le_0; lra). lra.
  - unfold s. rewrite <- sin_PI_x. rewrite asin_sin; [ring|]. pose proof PI_RGT_0. split; [lra|].
    destruct (Rle_dec (PI / 2) th); [lra|]. exfalso. assert (0 < c) by (apply cos_gt_0; lra). lra.
Qed.

Lemma not_normal : s <= eps8 ->
  (if Rlt_dec (4 * eps8 * eps8) (2 * s * (2 * s)) then if Rlt_dec (eps8 * eps8 / 2) (1 - Rabs c) then true else false else false) = false.
Proof. intro H. pose proof s_nn. destruct (Rlt_dec (4 * eps8 * eps8) _) as [A|A]; [exfalso; nra|reflexivity]. Qed.

Lemma rfR_small : s <= eps8 -> 0 < c -> r_from_R m = vscale s v.
Proof.
  intros H C. unfold r_from_R. cbv zeta. cbn [vx vy vz]. rewrite u0_, u1_, u2_, c_, n2_, (not_normal H).
  destruct (Rlt_dec 0 c); [|lra]. apply v3_eq; vunfold; field.
Qed.

(** close to a half turn: the axis, up to sign and a small error *)
Lemma near_abs : forall x t, -1 <= x <= 1 -> 0 <= t -> Rabs x <= sqrt (x * x + t * t * (1 - x * x)) <= Rabs x + t.
Proof.
  intros x t Hx Ht. set (y := sqrt _). pose proof (Rabs_pos x).
  assert (Rabs x * Rabs x = x * x) as A by (unfold Rabs; destruct (Rcase_abs x); ring).
  assert (0 <= 1 - x * x <= 1) by nra.
  assert (0 <= y) by apply sqrt_pos. assert (y * y = x * x + t * t * (1 - x * x)) as Y by (apply sqrt_sqrt; nra).
  split; (apply Rsqr_incr_0_var; [unfold Rsqr; nra|lra]).
Qed.

Definition sgn1 (x : R) : R := if Rlt_dec x 0 then -1 else 1.

Lemma near_flip : forall x y a t k, 0 < k -> 0 <= t -> 0 < Rabs x -> Rabs y <= a <= Rabs y + t ->
  Rabs ((if Rlt_dec (k * (x * y)) 0 then a * -1 else a) - sgn1 x * y) <= t.
Proof.
  intros x y a t k Hk Ht X A. unfold sgn1. revert X A. unfold Rabs at 1 2 3.
  destruct (Rcase_abs x), (Rcase_abs y); intros X A; destruct (Rlt_dec (k * (x * y)) 0) as [L|L]; destruct (Rlt_dec x 0); try lra.
  - exfalso. assert (0 < x * y) by nra. nra.
  - apply Rabs_le. lra.
  - apply Rabs_le. lra.
  - assert (y = 0). { destruct (Req_dec y 0); [easy|]. exfalso. apply L. assert (x * y < 0) by nra. nra. } subst y. apply Rabs_le. lra.
  - apply Rabs_le. lra.
  - exfalso. apply L. assert (x * y < 0) by nra. nra.
  - exfalso. assert (0 <= x * y) by nra. nra.
  - apply Rabs_le. lra.
Qed.
Lemma near_self : forall x a t, Rabs x <= a <= Rabs x + t -> Rabs (a - sgn1 x * x) <= t.
Proof. intros x a t. unfold sgn1, Rabs. destruct (Rcase_abs x), (Rlt_dec x 0); try lra; intros; destruct (Rcase_abs _); lra. Qed.

Lemma rfR_half_turn : s <= eps8 -> c <= 0 ->
  exists sg d, (sg = 1 \/ sg = -1) /\ (Rabs (vx d) <= eps8 /\ Rabs (vy d) <= eps8 /\ Rabs (vz d) <= eps8) /\
    r_from_R m = vadd (vscale (- s + PI * sg) v) (vscale PI d) /\
    (s = 0 -> d = v0).
Proof.
  intros H C. unfold r_from_R. cbv zeta. cbn [vx vy vz]. rewrite u0_, u1_, u2_, c_, n2_, (not_normal H).
  destruct (Rlt_dec 0 c); [lra|].
  pose proof sc_ as SC. pose proof s_nn as SN. assert (-1 <= c) as C1 by nra.
  set (t := sqrt ((1 + c) / 2)). assert (0 <= t) as T0 by apply sqrt_pos.
  assert (t * t = (1 + c) / 2) as T2 by (apply sqrt_sqrt; lra).
  assert (0 < eps8) as E8 by (unfold eps8; lra).
  assert (t <= eps8) as TE. { apply Rsqr_incr_0_var; [unfold Rsqr; nra|lra]. }
  assert (s = 0 -> t = 0) as TZ. { intro Z. assert ((1 + c) * (1 - c) = 0) by nra. assert (1 + c = 0) by nra. nra. }
  pose proof Hv as U. unfold norm2, dot in U.
  assert (-1 <= vx v <= 1 /\ -1 <= vy v <= 1 /\ -1 <= vz v <= 1) as (B1 & B2 & B3) by (split; [|split]; nra).
  assert (forall q, (if Rlt_dec 0 q then sqrt q else 0) = sqrt q) as AB.
  { intro q. destruct (Rlt_dec 0 q) as [|N]; [easy|]. symmetry. apply sqrt_neg_0. lra. }
  assert (forall x, (c + (1 - c) * x * x + 1) / 2 = x * x + t * t * (1 - x * x)) as DG by (intro; rewrite T2; field).
  rewrite !AB. unfold m, rod. cbn [m00 m01 m02 m10 m11 m12 m20 m21 m22]. rewrite !DG.
  pose proof (near_abs _ t B1 T0) as N1. pose proof (near_abs _ t B2 T0) as N2. pose proof (near_abs _ t B3 T0) as N3.
  set (a0 := sqrt (vx v * vx v + t * t * (1 - vx v * vx v))) in *. set (a1 := sqrt (vy v * vy v + t * t * (1 - vy v * vy v))) in *.
  set (a2 := sqrt (vz v * vz v + t * t * (1 - vz v * vz v))) in *. clearbody a0 a1 a2.
  assert (eps8 < 1 / 100) as E81 by (unfold eps8; lra).
  set (k := 2 * (1 - c)). assert (0 < k) as K by (unfold k; lra).
  assert (forall x y z, (1 - c) * x * y - s * z + ((1 - c) * x * y + s * z) = k * (x * y)) as K1 by (intros; unfold k; ring).
  assert (forall x y z, (1 - c) * x * y + s * z + ((1 - c) * x * y - s * z) = k * (x * y)) as K2 by (intros; unfold k; ring).
  rewrite !K1, !K2. clearbody k.
  assert (forall sg w, (sg = 1 \/ sg = -1) -> Rabs (vx w - sg * vx v) <= t -> Rabs (vy w - sg * vy v) <= t -> Rabs (vz w - sg * vz v) <= t ->
    exists sg d, (sg = 1 \/ sg = -1) /\ (Rabs (vx d) <= eps8 /\ Rabs (vy d) <= eps8 /\ Rabs (vz d) <= eps8) /\
    V3 (2 * s * vx v / -2 + vx w * PI) (2 * s * vy v / -2 + vy w * PI) (2 * s * vz v / -2 + vz w * PI) = vadd (vscale (- s + PI * sg) v) (vscale PI d) /\
    (s = 0 -> d = v0)) as FIN.
  { intros sg w Hsg W1 W2 W3. exists sg, (vsub w (vscale sg v)). split; [easy|]. split; [vunfold; lra|]. split; [apply v3_eq; vunfold; field|].
    intro Z. rewrite (TZ Z) in *. apply v3_eq; vunfold; [revert W1|revert W2|revert W3]; unfold Rabs; destruct (Rcase_abs _); lra. }
  assert (forall x, sgn1 x = 1 \/ sgn1 x = -1) as SG by (intro x; unfold sgn1; destruct (Rlt_dec x 0); auto).
  destruct (Rlt_dec (1 / 10) a0) as [D0|D0]; [|destruct (Rlt_dec (1 / 10) a1) as [D1|D1]].
  - apply (FIN (sgn1 (vx v))); cbn [vx vy vz]; [apply SG|apply near_self; easy|apply near_flip; try easy; lra|apply near_flip; try easy; lra].
  - apply (FIN (sgn1 (vy v))); cbn [vx vy vz]; [apply SG| |apply near_self; easy|apply near_flip; try easy; lra].
    rewrite (Rmult_comm (vx v) (vy v)). apply near_flip; try easy; lra.
  - assert (0 < Rabs (vz v)) as Z.
    { apply Rabs_pos_lt. intro Z. rewrite Z in U. assert (Rabs (vx v) <= 1 / 10) as X1 by lra. assert (Rabs (vy v) <= 1 / 10) as X2 by lra.
      apply Rabs_def2 in X1 || idtac. revert X1 X2. unfold Rabs. destruct (Rcase_abs (vx v)), (Rcase_abs (vy v)); intros; nra. }
    apply (FIN (sgn1 (vz v))); cbn [vx vy vz]; [apply SG| | |apply near_self; easy].
    + rewrite (Rmult_comm (vx v) (vz v)). apply near_flip; try easy; lra.
    + rewrite (Rmult_comm (vy v) (vz v)). apply near_flip; try easy; lra.
Qed.
End Rod.
