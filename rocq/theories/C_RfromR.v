(** C21: r_from_R() and R_from_r() undo each other. *)
From Coq Require Import Reals Lra Psatz.
From Verif Require Import S_Vec M_Dual M_Pose P_Trig P_Pose P_Euler P_RfromR.
Open Scope R_scope.

Lemma sin_lower : forall x, 11 / 1000000000 <= x <= PI - 11 / 1000000000 -> eps8 < sin x.
Proof.
  assert (forall x, 11 / 1000000000 <= x <= PI / 2 -> eps8 < sin x) as A.
  { intros x H. destruct (Rle_dec x (1 / 10)) as [L|L].
    - pose proof (sin_bounds x ltac:(lra)) as B. unfold eps8. assert (x ^ 3 <= x / 100) by (replace (x ^ 3) with (x * (x * x)) by ring; nra). lra.
    - assert (sin (1 / 10) <= sin x) as I by (apply sin_incr_1; pose proof PI2_1; lra).
      pose proof (sin_bounds (1 / 10) ltac:(lra)). unfold eps8. lra. }
  intros x H. destruct (Rle_dec x (PI / 2)); [apply A; lra|]. rewrite <- sin_PI_x. apply A. lra.
Qed.
Lemma unit_of_scale : forall v k, norm2 v = 1 -> 0 < k -> norm (vscale k v) = k /\ unit (vscale k v) = v.
Proof.
  intros v k Hv Hk. assert (norm (vscale k v) = k) as N.
  { rewrite norm_vscale. unfold norm. rewrite Hv, sqrt_1, Rabs_pos_eq; lra. }
  split; [exact N|]. unfold unit. rewrite N. apply v3_eq; vunfold; field; lra.
Qed.
Lemma R_from_scale : forall v k, norm2 v = 1 -> DBL_EPSILON <= k -> R_from_r (vscale k v) = rod v (sin k) (cos k).
Proof.
  intros v k Hv Hk. pose proof eps_pos. destruct (unit_of_scale v k Hv ltac:(lra)) as (A & B).
  rewrite R_from_r_rod by (rewrite A; exact Hk). now rewrite A, B.
Qed.
Lemma rod_by_scale : forall v s c k, norm2 v = 1 -> sin k = s -> cos k = c -> rotation_by (rod v s c) (vscale k v).
Proof.
  intros v s c k Hv <- <-. destruct (Rtotal_order 0 k) as [P|[<-|P]].
  - destruct (unit_of_scale v k Hv P) as (A & B). pose proof (rod_by (vscale k v)) as R. rewrite A, B in R. apply R. apply pos_ne0. now rewrite A.
  - replace (vscale 0 v) with v0 by (apply v3_eq; vunfold; ring). rewrite sin_0, cos_0.
    replace (rod v 0 1) with I3 by (unfold rod; apply m33_eq; vunfold; ring).
    split; [apply mv_I|]. intros w _. rewrite norm_v0, sin_0, mv_I. apply v3_eq; vunfold; ring.
  - assert (norm2 (vneg v) = 1) as Hv' by (rewrite <- Hv; vring). destruct (unit_of_scale (vneg v) (- k) Hv' ltac:(lra)) as (A & B).
    replace (vscale k v) with (vscale (- k) (vneg v)) by (apply v3_eq; vunfold; ring).
    pose proof (rod_by (vscale (- k) (vneg v))) as R. rewrite A, B in R.
    replace (rod v (sin k) (cos k)) with (rod (vneg v) (sin (- k)) (cos (- k))).
    + apply R. apply pos_ne0. rewrite A. lra.
    + rewrite sin_neg, cos_neg. unfold rod. apply m33_eq; vunfold; ring.
Qed.

(** Rotation vector -> matrix -> rotation vector: exact for r=0 and whenever the
    angle is at least 1.1e-8 away from 0 and from pi.
    Missing from the full claim: angles closer than that, where it is false
    (C21_roundtrip_refuted). *)
Theorem C21_r_roundtrip_partial : forall r,
  r = v0 \/ 11 / 1000000000 <= norm r <= PI - 11 / 1000000000 -> r_from_R (R_from_r r) = r.
Proof.
  intros r [-> | H].
  - rewrite R_from_r_tiny by (rewrite norm_v0; apply eps_pos).
    replace I3 with (rod (V3 0 0 1) (sin 0) (cos 0)) by (rewrite sin_0, cos_0; unfold rod; apply m33_eq; vunfold; ring).
    rewrite rfR_small; rewrite ?sin_0, ?cos_0; try (unfold eps8; lra); [apply v3_eq; vunfold; ring|vunfold; ring|pose proof PI_RGT_0; lra].
  - rewrite R_from_r_rod by (unfold DBL_EPSILON; lra). assert (r <> v0) as Hr by (apply pos_ne0; lra).
    rewrite rfR_normal; [now apply unit_scale|now apply unit_norm2|lra|now apply sin_lower].
Qed.
Print Assumptions C21_r_roundtrip_partial.

(** Matrix -> rotation vector -> matrix: exact for every proper rotation that is
    symmetric (the identity and all half turns) or whose antisymmetric part is
    larger than 1e-8; and the angle reported is at most pi.
    Missing from the full claim: non-symmetric rotations within 1e-8 of the
    identity or of a half turn. *)
Theorem C21_R_roundtrip_partial : forall m, is_rot m ->
  m = mT m \/ 2 / 100000000 < norm (V3 (m21 m - m12 m) (m02 m - m20 m) (m10 m - m01 m)) ->
  R_from_r (r_from_R m) = m /\ norm (r_from_R m) <= PI.
Proof.
  intros m Hm Hc. destruct (euler m Hm) as (v & th & Hv & Hth & ->).
  set (s := sin th) in *. set (c := cos th) in *.
  assert (0 <= s) as S0 by (apply sin_ge_0; lra). pose proof (sc1 th) as SC. fold s c in SC.
  assert (norm (V3 (m21 (rod v s c) - m12 (rod v s c)) (m02 (rod v s c) - m20 (rod v s c)) (m10 (rod v s c) - m01 (rod v s c))) = 2 * s) as N.
  { replace (V3 _ _ _) with (vscale (2 * s) v) by (unfold rod; apply v3_eq; vunfold; ring).
    rewrite norm_vscale. unfold norm. rewrite Hv, sqrt_1, Rabs_pos_eq; lra. }
  rewrite N in Hc. clear N. pose proof PI2_1 as P2.
  destruct (Rlt_dec eps8 s) as [L|L].
  - unfold s, c in *. rewrite rfR_normal by easy.
    assert (0 < th). { destruct (proj1 Hth) as [|E]; [easy|]. exfalso. rewrite <- E, sin_0 in L. unfold eps8 in L. lra. }
    assert (DBL_EPSILON <= th) as D. { pose proof (sin_lt_x th H). unfold eps8, DBL_EPSILON in *. lra. }
    split; [now apply R_from_scale|]. destruct (unit_of_scale v th Hv H) as (-> & _). lra.
  - destruct Hc as [Hc|Hc]; [|unfold eps8 in L; lra].
    assert (s = 0) as S.
    { unfold rod, mT in Hc. cbn in Hc. injection Hc as H1 H2 H3 H4 H5 H6.
      assert (s * vx v = 0) by lra. assert (s * vy v = 0) by lra. assert (s * vz v = 0) by lra. unfold norm2, dot in Hv.
      assert (s * s * (vx v * vx v + vy v * vy v + vz v * vz v) = 0) as Z.
      { replace (s * s * _) with (s * vx v * (s * vx v) + s * vy v * (s * vy v) + s * vz v * (s * vz v)) by ring. rewrite H, H0, H7. ring. }
      rewrite Hv in Z. nra. }
    assert (0 < eps8) as E8 by (unfold eps8; lra).
    destruct (Rlt_dec 0 c) as [C|C].
    + assert (c = 1) as C1 by nra. unfold s, c in *. rewrite rfR_small by (easy || lra). rewrite S, C1.
      replace (vscale 0 v) with v0 by (apply v3_eq; vunfold; ring).
      rewrite R_from_r_tiny by (rewrite norm_v0; apply eps_pos). rewrite norm_v0. split; [unfold rod; apply m33_eq; vunfold; ring|lra].
    + assert (c = -1) as C1 by nra.
      destruct (rfR_half_turn v th Hv Hth) as (sg & d & Hsg & _ & E & Z); fold s c; try lra.
      fold s c in E. rewrite E. rewrite (Z S), S, C1.
      destruct Hsg as [-> | ->].
      * replace (vadd _ _) with (vscale PI v) by (apply v3_eq; vunfold; ring).
        rewrite R_from_scale by (unfold DBL_EPSILON; lra || easy). rewrite sin_PI, cos_PI.
        destruct (unit_of_scale v PI Hv ltac:(lra)) as (-> & _). split; [reflexivity|lra].
      * assert (norm2 (vneg v) = 1) as Hv' by (rewrite <- Hv; vring).
        replace (vadd _ _) with (vscale PI (vneg v)) by (apply v3_eq; vunfold; ring).
        rewrite R_from_scale by (unfold DBL_EPSILON; lra || easy). rewrite sin_PI, cos_PI.
        destruct (unit_of_scale (vneg v) PI Hv' ltac:(lra)) as (-> & _). split; [unfold rod; apply m33_eq; vunfold; ring|lra].
Qed.
Print Assumptions C21_R_roundtrip_partial.

(** For EVERY proper rotation the result is within 5e-8 (per component) of a
    rotation vector of that rotation. *)
Theorem C21_r_from_R_accurate : forall m, is_rot m -> exists r, rotation_by m r /\
  forall i, (i < 3)%nat -> Rabs (vget (r_from_R m) i - vget r i) <= 5 / 100000000.
Proof.
  intros m Hm. destruct (euler m Hm) as (v & th & Hv & Hth & ->).
  set (s := sin th) in *. set (c := cos th) in *. pose proof PI2_1 as P2. pose proof PI_4 as P4.
  assert (0 <= s) as S0 by (apply sin_ge_0; lra). assert (0 < eps8 /\ eps8 = 1 / 100000000) as (E8 & EE) by (unfold eps8; lra).
  assert (-1 <= vx v <= 1 /\ -1 <= vy v <= 1 /\ -1 <= vz v <= 1) as (B1 & B2 & B3) by (unfold norm2, dot in Hv; split; [|split]; nra).
  assert (forall x, 0 <= x <= PI / 2 -> sin x <= eps8 -> 0 <= x - sin x <= 1 / 1000000000) as SM.
  { intros x Hx Hs. assert (x < 11 / 1000000000) as L.
    { destruct (Rlt_dec x (11 / 1000000000)); [easy|]. pose proof (sin_lower x ltac:(lra)). lra. }
    pose proof (sin_bounds x ltac:(lra)) as B. assert (0 <= x ^ 3 <= x) by (split; [apply pow_le; lra|replace (x ^ 3) with (x * (x * x)) by ring; nra]).
    assert (0 <= x ^ 5 <= x ^ 3). { replace (x ^ 5) with (x ^ 3 * (x * x)) by ring. split; nra. }
    assert (x ^ 3 <= x / 100) by (replace (x ^ 3) with (x * (x * x)) by ring; nra). lra. }
  assert (forall k x, 0 <= k -> -1 <= x <= 1 -> - k <= k * x <= k) as KX by (intros; nra).
  destruct (Rlt_dec eps8 s) as [L|L].
  - exists (vscale th v). split; [now apply rod_by_scale|]. intros i Hi. unfold s, c in *. rewrite rfR_normal by easy.
    replace (_ - _) with 0 by ring. rewrite Rabs_R0. lra.
  - destruct (Rlt_dec 0 c) as [C|C].
    + exists (vscale th v). split; [now apply rod_by_scale|]. intros i Hi.
      assert (th <= PI / 2) as T. { destruct (Rle_dec th (PI / 2)); [easy|]. assert (c <= 0) by (apply cos_le_0; lra). lra. }
      pose proof (SM th ltac:(lra)) as D. fold s in D. specialize (D ltac:(lra)).
      unfold s, c in *. rewrite rfR_small by (easy || lra).
      assert (forall x, -1 <= x <= 1 -> Rabs (sin th * x - th * x) <= 5 / 100000000) as F.
      { intros x Hx. replace (sin th * x - th * x) with (- ((th - sin th) * x)) by ring. rewrite Rabs_Ropp. apply Rabs_le.
        pose proof (KX (th - sin th) x ltac:(lra) Hx). lra. }
      destruct i as [|[|i]]; cbn [vget vscale vx vy vz]; now apply F.
    + destruct (rfR_half_turn v th Hv Hth) as (sg & d & Hsg & (D1 & D2 & D3) & E & _); fold s c; try lra. fold s c in E.
      assert (PI / 2 <= th) as T. { destruct (Rle_dec (PI / 2) th); [easy|]. assert (0 < c) by (apply cos_gt_0; lra). lra. }
      pose proof (SM (PI - th) ltac:(lra)) as D. rewrite sin_PI_x in D. fold s in D. specialize (D ltac:(lra)).
      rewrite E. assert (sin (th - 2 * PI) = s /\ cos (th - 2 * PI) = c) as (W1 & W2).
      { unfold s, c. rewrite <- (sin_period (th - 2 * PI) 1), <- (cos_period (th - 2 * PI) 1). cbn [INR]. split; f_equal; ring. }
      assert (forall e x, Rabs e <= eps8 -> -1 <= x <= 1 -> Rabs ((PI - th - s) * x + PI * e) <= 5 / 100000000) as F.
      { intros e x He Hx. apply Rabs_le. pose proof (KX (PI - th - s) x ltac:(lra) Hx). revert He. unfold Rabs. destruct (Rcase_abs e); intro; nra. }
      destruct Hsg as [-> | ->].
      * exists (vscale th v). split; [now apply rod_by_scale|]. intros i Hi.
        assert (forall e x, Rabs e <= eps8 -> -1 <= x <= 1 -> Rabs ((- s + PI * 1) * x + PI * e - th * x) <= 5 / 100000000) as F'.
        { intros e x He Hx. replace (_ - _) with ((PI - th - s) * x + PI * e) by ring. now apply F. }
        destruct i as [|[|i]]; cbn [vget vscale vadd vx vy vz]; now apply F'.
      * exists (vscale (th - 2 * PI) v). split; [now apply rod_by_scale|]. intros i Hi.
        assert (forall e x, Rabs e <= eps8 -> -1 <= x <= 1 -> Rabs ((- s + PI * -1) * x + PI * e - (th - 2 * PI) * x) <= 5 / 100000000) as F'.
        { intros e x He Hx. replace (_ - _) with ((PI - th - s) * x + PI * e) by ring. now apply F. }
        destruct i as [|[|i]]; cbn [vget vscale vadd vx vy vz]; now apply F'.
Qed.
Print Assumptions C21_r_from_R_accurate.

Lemma norm_x : forall a, norm (V3 a 0 0) = Rabs a.
Proof. intro a. unfold norm, norm2, dot. cbn. replace (a * a + 0 * 0 + 0 * 0) with (Rsqr a) by (unfold Rsqr; ring). apply sqrt_Rsqr_abs. Qed.

(** Not exact for tiny angles; and for angles slightly below pi about an axis
    pointing the "wrong" way the vector returned is not even close: the axis comes
    back reversed and the angle exceeds pi. *)
Theorem C21_roundtrip_refuted :
  (exists r, 0 < norm r < PI /\ r_from_R (R_from_r r) <> r) /\
  (exists r, norm r < PI /\ 5 < norm (vsub (r_from_R (R_from_r r)) r) /\ PI < norm (r_from_R (R_from_r r))).
Proof.
  pose proof PI2_1 as P2. assert (3 < PI) as P3 by (pose proof PI2_3_2; lra). split.
  - exists (V3 (/ 1000000000) 0 0). rewrite norm_x, Rabs_pos_eq by lra. split; [lra|].
    assert (norm2 (V3 1 0 0) = 1) as Hv by (vunfold; ring).
    replace (V3 (/ 1000000000) 0 0) with (vscale (/ 1000000000) (V3 1 0 0)) by (apply v3_eq; vunfold; ring).
    rewrite R_from_scale by (unfold DBL_EPSILON; lra || easy).
    assert (0 < / 1000000000) as Hp by lra. pose proof (sin_lt_x _ Hp) as S.
    rewrite rfR_small; try easy; try lra; [|unfold eps8; lra|apply cos_gt_0; lra].
    intro E. apply (f_equal vx) in E. cbn in E. lra.
  - set (e := / 1000000000). assert (0 < e /\ e < 1 / 100000000) as He by (unfold e; lra). clearbody e.
    exists (V3 (- (PI - e)) 0 0). rewrite norm_x, Rabs_Ropp, Rabs_pos_eq by lra. split; [lra|].
    assert (norm2 (V3 (-1) 0 0) = 1) as Hv by (vunfold; ring).
    replace (R_from_r (V3 (- (PI - e)) 0 0)) with (rod (V3 (-1) 0 0) (sin e) (- cos e)).
    2:{ replace (V3 (- (PI - e)) 0 0) with (vscale (PI - e) (V3 (-1) 0 0)) by (apply v3_eq; vunfold; ring).
        rewrite R_from_scale by (unfold DBL_EPSILON; lra || easy). rewrite sin_PI_x, cos_minus, cos_PI, sin_PI.
        f_equal. ring. }
    pose proof (sin_gt_0 e ltac:(lra) ltac:(lra)) as S1. pose proof (sin_lt_x e ltac:(lra)) as S2. pose proof (cos_gt_0 e ltac:(lra) ltac:(lra)) as C1. pose proof (sc1 e) as SC.
    set (s := sin e) in *. set (c := cos e) in *. clearbody s c.
    assert (exists y z, r_from_R (rod (V3 (-1) 0 0) s (- c)) = V3 (s + PI) y z) as (y & z & E).
    { unfold r_from_R, rod. cbv zeta. cbn [m00 m01 m02 m10 m11 m12 m20 m21 m22 vx vy vz].
      match goal with |- context[if (if Rlt_dec _ ?n then _ else _) then _ else _] => replace n with (4 * s * s) by ring end.
      destruct (Rlt_dec (4 * eps8 * eps8) _) as [A|A]; [exfalso; assert (s * s < eps8 * eps8) by (unfold eps8; nra); lra|].
      match goal with |- context[if Rlt_dec 0 ?n then V3 _ _ _ else _] => replace n with (- c) by field end.
      destruct (Rlt_dec 0 (- c)); [lra|].
      replace ((- c + (1 - - c) * -1 * -1 + 1) / 2) with 1 by field. destruct (Rlt_dec 0 1); [|lra]. rewrite sqrt_1.
      destruct (Rlt_dec (1 / 10) 1); [|lra]. cbn [vx vy vz]. eexists. eexists. apply v3_eq; cbn [vx vy vz]; [|reflexivity|reflexivity]. field. }
    rewrite E. split.
    + pose proof (norm_comp (vsub (V3 (s + PI) y z) (V3 (- (PI - e)) 0 0))) as (N & _). cbn [vsub vx] in N.
      pose proof (Rle_abs (s + PI - - (PI - e))). lra.
    + pose proof (norm_comp (V3 (s + PI) y z)) as (N & _). cbn [vx] in N. pose proof (Rle_abs (s + PI)). lra.
Qed.
Print Assumptions C21_roundtrip_refuted.

(** concrete cases *)
Example ex_r : r_from_R (R_from_r (V3 1 1 1)) = V3 1 1 1.
Proof.
  apply C21_r_roundtrip_partial. right. assert (norm (V3 1 1 1) = sqrt 3) as -> by (unfold norm; f_equal; vunfold; ring).
  assert (1 <= sqrt 3 <= 2). { split; [rewrite <- sqrt_1 at 1|replace 2 with (sqrt (2 * 2)) by (apply sqrt_square; lra)]; apply sqrt_le_1_alt; lra. }
  pose proof PI2_3_2. lra.
Qed.
(** a half turn about y *)
Example ex_half : let m := M33 (-1) 0 0 0 1 0 0 0 (-1) in is_rot m /\ m = mT m /\ R_from_r (r_from_R m) = m.
Proof.
  cbv zeta. assert (is_rot (M33 (-1) 0 0 0 1 0 0 0 (-1))) as H by (unfold is_rot; split; [|split]; try (apply m33_eq); vunfold; ring).
  split; [exact H|]. split; [reflexivity|]. apply (C21_R_roundtrip_partial _ H). left. reflexivity.
Qed.
