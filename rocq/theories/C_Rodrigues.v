(** C20: R_from_r and the direct rotation of a point. *)
From Coq Require Import Reals Lra Psatz Nsatz.
From Coquelicot Require Import Coquelicot.
From Verif Require Import S_Vec M_Dual M_Pose P_Trig P_Pose P_PoseJ.
Open Scope R_scope.

Definition ek (k : nat) : v3 := match k with O => V3 1 0 0 | S O => V3 0 1 0 | _ => V3 0 0 1 end.
Lemma rot_axis_k : forall m k t, t <> 0 -> rotation_by m (vscale t (ek k)) -> m = rod (ek k) (sin t) (cos t).
Proof.
  intros m k t Ht H.
  assert (norm (vscale t (ek k)) = Rabs t) as N.
  { unfold norm. replace (norm2 (vscale t (ek k))) with (Rsqr t); [apply sqrt_Rsqr_abs|].
    unfold Rsqr. destruct k as [|[|k]]; vunfold; cbn; ring. }
  assert (vscale t (ek k) <> v0) as Hn. { apply pos_ne0. rewrite N. now apply Rabs_pos_lt. }
  rewrite (rotation_by_rod _ _ Hn H). unfold unit. rewrite N. unfold Rabs. destruct (Rcase_abs t).
  - rewrite sin_neg, cos_neg. destruct k as [|[|k]]; unfold rod; apply m33_eq; vunfold; cbn; field; lra.
  - destruct k as [|[|k]]; unfold rod; apply m33_eq; vunfold; cbn; field; lra.
Qed.

(** ** The value *)
(** For every r the result is a proper rotation, and -r gives the transpose.  For
    r=0 or |r| >= DBL_EPSILON it is exactly the rotation by angle |r| about r; for
    smaller nonzero r the identity is returned, off by at most 2|r| < 4.5e-16 per
    entry from the exact one (m).
    Missing from the full claim: exactness for 0 < |r| < DBL_EPSILON, which is
    false (C20_tiny_refuted). *)
Theorem C20_R_from_r_partial : forall r,
  is_rot (R_from_r r) /\
  R_from_r (vneg r) = mT (R_from_r r) /\
  (r = v0 -> R_from_r r = I3) /\
  (r = v0 \/ DBL_EPSILON <= norm r -> rotation_by (R_from_r r) r) /\
  (forall m, norm r < DBL_EPSILON -> r <> v0 -> rotation_by m r ->
     forall i j, (i < 3)%nat -> (j < 3)%nat -> Rabs (mget m i j - mget (R_from_r r) i j) <= 2 * norm r).
Proof.
  intro r. pose proof eps_pos as He. split; [apply R_from_r_rot|split; [apply R_from_r_neg|split; [|split]]].
  - intros ->. apply R_from_r_tiny. rewrite norm_v0. exact He.
  - intros [-> | H].
    + rewrite R_from_r_tiny by (rewrite norm_v0; exact He). split; [apply mv_I|]. intros v _. rewrite norm_v0, sin_0, mv_I. apply v3_eq; vunfold; ring.
    + rewrite R_from_r_rod by easy. apply rod_by, pos_ne0. lra.
  - intros m H Hn Hm i j Hi Hj. rewrite R_from_r_tiny by easy. rewrite (rotation_by_rod r m Hn Hm).
    pose proof (norm_pos r Hn) as P. pose proof (unit_norm2 r Hn) as U. unfold norm2, dot in U.
    assert (DBL_EPSILON < 1) as E1 by (unfold DBL_EPSILON; lra).
    pose proof (sin_bounds (norm r) ltac:(lra)) as S. pose proof (cos_bounds (norm r) ltac:(lra)) as C.
    set (th := norm r) in *. set (s := sin th) in *. set (c := cos th) in *.
    assert (0 <= s <= th) as S' by nra. assert (0 <= 1 - c <= th / 2) as C' by nra. clear S C Hm.
    set (u := unit r) in *. clearbody th s c u. clear r Hn H.
    assert (-1 <= vx u <= 1 /\ -1 <= vy u <= 1 /\ -1 <= vz u <= 1) as (B1 & B2 & B3) by (split; [|split]; nra).
    assert (forall a b, -1 <= a <= 1 -> -1 <= b <= 1 -> - (1 - c) <= (1 - c) * a * b <= 1 - c) as PR.
    { intros a b Ha Hb. assert (-1 <= a * b <= 1) by nra. rewrite Rmult_assoc. nra. }
    assert (forall a, -1 <= a <= 1 -> - s <= s * a <= s) as PS by (intros; nra).
    pose proof (PR _ _ B1 B1); pose proof (PR _ _ B1 B2); pose proof (PR _ _ B1 B3); pose proof (PR _ _ B2 B2);
    pose proof (PR _ _ B2 B3); pose proof (PR _ _ B3 B3); pose proof (PS _ B1); pose proof (PS _ B2); pose proof (PS _ B3).
    destruct i as [|[|[|i]]]; [| | |lia]; (destruct j as [|[|[|j]]]; [| | |lia]);
      unfold rod, mget, mrow, vget, I3; cbn [vx vy vz m00 m01 m02 m10 m11 m12 m20 m21 m22]; apply Rabs_le; lra.
Qed.
Print Assumptions C20_R_from_r_partial.

Theorem C20_tiny_refuted : exists r, 0 < norm r /\ ~ rotation_by (R_from_r r) r.
Proof.
  assert (norm (V3 (DBL_EPSILON / 2) 0 0) = DBL_EPSILON / 2) as N.
  { unfold norm, norm2, dot. cbn. replace (_ + _ + _) with ((DBL_EPSILON / 2) * (DBL_EPSILON / 2)) by ring.
    apply sqrt_square. unfold DBL_EPSILON. lra. }
  exists (V3 (DBL_EPSILON / 2) 0 0). rewrite N. pose proof eps_pos as He. split; [lra|].
  intros [_ T]. specialize (T (V3 0 1 0)). rewrite R_from_r_tiny in T by (rewrite N; lra). rewrite N, mv_I in T.
  assert (dot (V3 (DBL_EPSILON / 2) 0 0) (V3 0 1 0) = 0) as D by (vunfold; ring). apply T in D.
  apply (f_equal vz) in D. vunfold.
  assert (0 < sin (DBL_EPSILON / 2)) as S. { apply sin_gt_0; [lra|]. pose proof PI2_1. unfold DBL_EPSILON. lra. }
  nra.
Qed.
Print Assumptions C20_tiny_refuted.

(** ** The gradient *)
Lemma true_gradient : forall F : v3 -> m33, (forall r, rotation_by (F r) r) -> forall r, r <> v0 -> is_mjacobian F r (Jrod r).
Proof.
  intros F HF r Hr k i j Hk Hi Hj. apply is_derive_Reals.
  pose proof (Jrod_ok r Hr k i j Hk Hi Hj) as D. apply is_derive_Reals in D.
  eapply is_derive_ext_loc; [|exact D].
  (* near r the vector stays nonzero *)
  assert (locally (vget r k) (fun t => norm2 (vset r k t) > 0)) as L.
  { assert (continuous (fun t => norm2 (vset r k t)) (vget r k)) as Cn.
    { apply (ex_derive_continuous (fun t => norm2 (vset r k t))). unfold norm2, dot.
      destruct k as [|[|k]]; cbn [vset vget vx vy vz]; auto_derive; easy. }
    apply (Cn (fun y => y > 0)). apply (open_gt 0). replace (vset r k (vget r k)) with r by (destruct r, k as [|[|k]]; reflexivity).
    destruct (norm2_nonneg r) as [?|Z]; [easy|]. exfalso. apply Hr. now apply norm2_zero. }
  revert L. apply filter_imp. intros t Ht.
  assert (vset r k t <> v0) as Hn. { intro Z. rewrite Z in Ht. unfold norm2, dot, v0 in Ht. cbn in Ht. lra. }
  f_equal. symmetry. apply rotation_by_rod; [easy|apply HF].
Qed.
(** F is the exact map from rotation vectors to rotations.  The reported gradient
    is its derivative for r=0 and for |r| >= DBL_EPSILON. *)
Theorem C20_gradient_partial : forall F : v3 -> m33, (forall r, rotation_by (F r) r) -> F v0 = I3 ->
  forall r, r = v0 \/ DBL_EPSILON <= norm r -> is_mjacobian F r (R_from_r_J r).
Proof.
  intros F HF F0 r [-> | H].
  - intros k i j Hk Hi Hj.
    assert (forall t, F (vset v0 k t) = rod (ek k) (sin t) (cos t)) as E.
    { intro t. destruct (Req_dec t 0) as [-> |Ht].
      - replace (vset v0 k 0) with v0 by (destruct k as [|[|k]]; reflexivity). rewrite F0, sin_0, cos_0.
        unfold rod. apply m33_eq; vunfold; ring.
      - apply rot_axis_k; [easy|]. replace (vscale t (ek k)) with (vset v0 k t); [apply HF|].
        destruct k as [|[|k]]; unfold vset, v0, vscale, ek; cbn; f_equal; ring. }
    apply is_derive_Reals. apply (is_derive_ext (fun t => mget (rod (ek k) (sin t) (cos t)) i j)); [intro t; now rewrite E|].
    assert (R_from_r_J v0 k = match k with O => M33 0 0 0 0 0 (-1) 0 1 0 | S O => M33 0 0 1 0 0 0 (-1) 0 0 | _ => M33 0 (-1) 0 1 0 0 0 0 0 end) as EJ.
    { unfold R_from_r_J, v0. cbn [vx vy vz]. destruct (Rlt_dec _ _) as [L|L]; [reflexivity|]. exfalso. apply L. pose proof eps_pos. nra. }
    rewrite EJ. replace (vget v0 k) with 0 by (destruct k as [|[|k]]; reflexivity).
    destruct k as [|[|[|k]]]; [| | |lia]; (destruct i as [|[|[|i]]]; [| | |lia]); (destruct j as [|[|[|j]]]; [| | |lia]);
      unfold rod, mget, mrow, vget, ek; cbn [vx vy vz m00 m01 m02 m10 m11 m12 m20 m21 m22];
      (auto_derive; [easy|]); rewrite ?sin_0, ?cos_0; ring.
  - pose proof eps_pos as He. assert (r <> v0) as Hr by (apply pos_ne0; lra).
    intros k i j Hk Hi Hj. rewrite R_from_r_J_big by easy. now apply true_gradient.
Qed.
Print Assumptions C20_gradient_partial.

Lemma ab_add : forall x y a b, Rabs x <= a -> Rabs y <= b -> Rabs (x + y) <= a + b.
Proof. intros x y a b H1 H2. pose proof (Rabs_triang x y). lra. Qed.
Lemma ab_sub : forall x y a b, Rabs x <= a -> Rabs y <= b -> Rabs (x - y) <= a + b.
Proof. intros x y a b H1 H2. unfold Rminus. apply ab_add; [easy|]. now rewrite Rabs_Ropp. Qed.
Lemma ab_mul : forall x u a, Rabs x <= a -> Rabs u <= 1 -> Rabs (x * u) <= a.
Proof. intros x u a H1 H2. rewrite Rabs_mult. pose proof (Rabs_pos x). pose proof (Rabs_pos u). nra. Qed.
Lemma ab_mul2 : forall x u a, Rabs x <= a -> Rabs u <= 1 -> Rabs (x * (u + u)) <= a + a.
Proof. intros x u a H1 H2. rewrite Rmult_plus_distr_l. apply ab_add; now apply ab_mul. Qed.
(** Below DBL_EPSILON the gradient of the rotation by 0 is reported: within 4|r| of the true one *)
Theorem C20_gradient_tiny : forall F : v3 -> m33, (forall r, rotation_by (F r) r) -> forall r, r <> v0 -> norm r < DBL_EPSILON ->
  exists J, is_mjacobian F r J /\
    forall k i j, (k < 3)%nat -> (i < 3)%nat -> (j < 3)%nat -> Rabs (mget (J k) i j - mget (R_from_r_J r k) i j) <= 4 * norm r.
Proof.
  intros F HF r Hr H. exists (Jrod r). split; [now apply true_gradient|]. intros k i j Hk Hi Hj.
  pose proof (norm_pos r Hr) as Hn. assert (DBL_EPSILON < 1 / 1000) as He by (unfold DBL_EPSILON; lra).
  assert (forall x, x * x <= norm2 r -> Rabs (x * (1 / norm r)) <= 1) as U.
  { intros x Hx. assert (Rabs x <= norm r) as A.
    { unfold norm. rewrite <- (sqrt_Rsqr_abs x). apply sqrt_le_1_alt. exact Hx. }
    rewrite Rabs_mult. rewrite (Rabs_right (1 / norm r)) by (apply Rle_ge; left; apply Rdiv_lt_0_compat; lra).
    apply Rmult_le_reg_r with (norm r); [easy|]. rewrite Rmult_assoc. replace (1 / norm r * norm r) with 1 by (field; lra). lra. }
  assert (Rabs (vx r * (1 / norm r)) <= 1) as U0 by (apply U; unfold norm2, dot; nra).
  assert (Rabs (vy r * (1 / norm r)) <= 1) as U1 by (apply U; unfold norm2, dot; nra).
  assert (Rabs (vz r * (1 / norm r)) <= 1) as U2 by (apply U; unfold norm2, dot; nra). clear U.
  assert (R_from_r_J r k = match k with O => M33 0 0 0 0 0 (-1) 0 1 0 | S O => M33 0 0 1 0 0 0 (-1) 0 0 | _ => M33 0 (-1) 0 1 0 0 0 0 0 end) as EJ.
  { unfold R_from_r_J. cbv zeta. destruct (Rlt_dec _ _) as [L|L]; [reflexivity|]. exfalso. apply L.
    pose proof (norm_lt r DBL_EPSILON ltac:(apply eps_pos)) as N. unfold norm2, dot in N. apply N in H. lra. }
  rewrite EJ. unfold Jrod. cbv zeta. cbn [vget vx vy vz].
  set (u0 := vx r * (1 / norm r)) in *. set (u1 := vy r * (1 / norm r)) in *. set (u2 := vz r * (1 / norm r)) in *.
  set (t := norm r) in *.
  destruct (sin_bounds t ltac:(lra)) as [S1 S2].
  assert (0 <= 1 - cos t <= t * t / 2) as C1.
  { destruct (COS_bound t) as [_ C]. split; [lra|]. replace t with (2 * (t / 2)) at 1 by field. rewrite cos_2a_sin.
    destruct (sin_bounds (t / 2) ltac:(lra)) as [A B]. set (x := t / 2) in *. replace t with (2 * x) by (unfold x; field).
    assert (0 < x < 1) by (unfold x; lra). assert (0 <= sin x) by (assert (x ^ 3 <= x) by (simpl; nra); lra).
    assert (sin x <= x) by (assert (x ^ 5 <= x ^ 3) by (simpl; assert (0 < x * x < 1) by nra; assert (0 < x * (x * x)) by nra; nra);
                            assert (0 < x ^ 3) by (apply pow_lt; lra); lra). nra. }
  assert (0 < t ^ 3) as T3 by (apply pow_lt; lra).
  assert (t ^ 5 <= t ^ 3) as T5 by (simpl; assert (0 < t * t < 1) by nra; assert (0 < t * (t * t)) by nra; nra).
  assert (Rabs (1 / t * sin t - 1) <= t) as A4.
  { replace (1 / t * sin t - 1) with ((sin t - t) * / t) by (field; lra). rewrite Rabs_mult, (Rabs_right (/ t)) by (apply Rle_ge; left; now apply Rinv_0_lt_compat).
    apply Rmult_le_reg_r with t; [easy|]. rewrite Rmult_assoc, Rinv_l, Rmult_1_r by lra. apply Rabs_le. simpl in *. nra. }
  assert (0 <= 1 / t * (1 - cos t) <= t / 2) as A2.
  { split; [apply Rmult_le_pos; [apply Rlt_le, Rdiv_lt_0_compat; lra|lra]|]. apply Rmult_le_reg_r with t; [easy|].
    replace (1 / t * (1 - cos t) * t) with (1 - cos t) by (field; lra). lra. }
  assert (Rabs (sin t) <= t) as As by (apply Rabs_le; simpl in *; nra).
  assert (Rabs (- sin t) <= t) as Ans by (now rewrite Rabs_Ropp).
  set (a4 := 1 / t * sin t) in *. set (a2 := 1 / t * (1 - cos t)) in *.
  assert (Rabs a2 <= t / 2) as A2' by (rewrite Rabs_right; lra).
  assert (Rabs (sin t - 2 * a2) <= t) as A1.
  { apply Rabs_le. assert (0 <= sin t) by (simpl in *; nra). assert (sin t <= t) by lra. lra. }
  assert (Rabs (cos t - a4) <= 3 / 2 * t) as A3.
  { replace (cos t - a4) with ((cos t - 1) - (a4 - 1)) by ring. eapply Rle_trans; [apply ab_sub; [|exact A4]; apply (Rabs_le _ (t / 2)); nra|]. lra. }
  assert (Rabs (a4 - 1) <= t) as A4' by exact A4. assert (Rabs (- a4 + 1) <= t) as A4n by (replace (- a4 + 1) with (- (a4 - 1)) by ring; now rewrite Rabs_Ropp).
  clearbody a4 a2 u0 u1 u2 t.
  assert (forall x b, Rabs x <= b -> Rabs (x - 0) <= b) as Z0 by (intros x b Hx; now rewrite Rminus_0_r).
  assert (forall x b, Rabs x <= b -> Rabs (x + a4 - 1) <= b + t) as Z1 by (intros x b Hx; replace (x + a4 - 1) with (x + (a4 - 1)) by ring; now apply ab_add).
  assert (forall x b, Rabs x <= b -> Rabs (x - a4 - -1) <= b + t) as Z2 by (intros x b Hx; replace (x - a4 - -1) with (x + (- a4 + 1)) by ring; now apply ab_add).
  destruct k as [|[|[|k]]]; [| | |lia]; (destruct i as [|[|[|i]]]; [| | |lia]); (destruct j as [|[|[|j]]]; [| | |lia]);
    unfold mget, mrow, vget; cbn [vx vy vz m00 m01 m02 m10 m11 m12 m20 m21 m22];
    (eapply Rle_trans; [first [apply Z1|apply Z2|apply Z0]; repeat first [eassumption|apply ab_sub|apply ab_add|apply ab_mul2|apply ab_mul]|]); try lra.
Qed.
Print Assumptions C20_gradient_tiny.

(** ** rotate_point_r agrees with the matrix *)
(** exactly for |r| >= 1e-5, and within 1e-10 |x| below that *)
Theorem C20_rotate_point_agrees_partial : forall r x inverted,
  (1 / 100000 <= norm r -> rotate_point_r r x inverted = mv (R_from_r (if inverted then vneg r else r)) x) /\
  (r = v0 -> rotate_point_r r x inverted = x) /\
  (forall m, norm r < 1 / 100000 -> r <> v0 -> rotation_by m (if inverted then vneg r else r) ->
     norm (vsub (rotate_point_r r x inverted) (mv m x)) <= 1 / 10000000000 * norm x).
Proof.
  intros r x inv. split; [|].
  { intro H. rewrite rotate_point_r_big by easy. destruct inv; [|reflexivity]. now rewrite R_from_r_neg. }
  assert (norm r < 1 / 100000 -> rotate_point_r r x inv =
     vadd (vadd x (vscale (if inv then -1 else 1) (cross r x))) (vscale (dot r x / 2) r)) as SM.
  { intro H. unfold rotate_point_r, rotate_point_r_core, nvval.
    cbn [n_x n_y n_z realops nval nadd nsub nmul nmulc ndiv nsqrt nsin ncos nconst vconst vx vy vz num].
    destruct (Rlt_dec _ _) as [L|L].
    2:{ exfalso. apply L. pose proof (norm_lt r (1 / 100000) ltac:(lra)) as N. unfold norm2, dot in N. apply N in H. lra. }
    cbn [n_x n_y n_z]. unfold ndivc. cbn [realops nmulc]. apply v3_eq; vunfold; field. }
  split.
  { intros ->. rewrite SM by (rewrite norm_v0; lra). destruct x. destruct inv; apply v3_eq; vunfold; field. }
  intros m H Hn Hm. rewrite SM by easy.
  assert (vneg r <> v0) as Hn'. { apply pos_ne0. rewrite norm_vneg. now apply norm_pos. }
  assert (m = if inv then mT (rodr r) else rodr r) as Em.
  { destruct inv.
    - rewrite (rotation_by_rod _ _ Hn' Hm). unfold rodr. rewrite norm_vneg, <- rod_neg. f_equal. unfold unit. rewrite norm_vneg. apply v3_eq; vunfold; ring.
    - now rewrite (rotation_by_rod _ _ Hn Hm). }
  pose proof (norm_pos r Hn) as P. pose proof (unit_scale r Hn) as US. pose proof (unit_norm2 r Hn) as UN.
  set (th := norm r) in *. set (u := unit r) in *. set (sg := if inv then -1 else 1).
  set (s := sin th) in *. set (c := cos th) in *.
  assert (mv m x = vadd (vadd (vscale c x) (vscale (sg * s) (cross u x))) (vscale ((1 - c) * dot u x) u)) as Emv.
  { rewrite Em. unfold sg. destruct inv.
    - unfold rodr. rewrite <- rod_neg. fold th u s c. rewrite rod_mv by (rewrite <- UN; vring). apply v3_eq; vunfold; ring.
    - unfold rodr. fold th u s c. rewrite rod_mv by easy. apply v3_eq; vunfold; ring. }
  rewrite Emv. pose proof (sin_bounds th ltac:(lra)) as Sb. pose proof (cos_bounds th ltac:(lra)) as Cb. fold s c in Sb, Cb.
  assert (vsub (vadd (vadd x (vscale sg (cross r x))) (vscale (dot r x / 2) r))
               (vadd (vadd (vscale c x) (vscale (sg * s) (cross u x))) (vscale ((1 - c) * dot u x) u))
    = vadd (vadd (vscale (1 - c) x) (vscale (sg * (th - s)) (cross u x))) (vscale ((th * th / 2 - (1 - c)) * dot u x) u)) as E.
  { rewrite <- US. apply v3_eq; vunfold; field. }
  rewrite E. eapply Rle_trans; [apply norm_triangle|]. eapply Rle_trans; [apply Rplus_le_compat_r, norm_triangle|].
  rewrite !norm_vscale, !Rabs_mult.
  assert (Rabs sg = 1) as -> by (unfold sg; destruct inv; [rewrite Rabs_left; lra|rewrite Rabs_right; lra]).
  assert (norm u = 1) as Nu. { unfold norm. rewrite UN. apply sqrt_1. }
  rewrite Nu. pose proof (norm_cross_le u x) as NC. pose proof (cauchy u x) as ND. rewrite Nu in NC, ND.
  pose proof (norm_nonneg x) as NX. pose proof (norm_nonneg (cross u x)) as NCp. pose proof (Rabs_pos (dot u x)) as NDp.
  assert (0 <= 1 - c <= th ^ 2 / 2) as B1 by nra.
  assert (0 <= th - s <= th ^ 3 / 6) as B2. { split; [|lra]. assert (0 <= th ^ 3) by (apply pow_le; lra). assert (th ^ 5 <= th ^ 3).
    { replace (th ^ 5) with (th ^ 3 * th ^ 2) by ring. rewrite <- (Rmult_1_r (th ^ 3)) at 2. apply Rmult_le_compat_l; nra. } lra. }
  assert (0 <= th * th / 2 - (1 - c) <= th ^ 4 / 24) as B3 by lra.
  rewrite (Rabs_right (1 - c)), (Rabs_right (th - s)), (Rabs_right (th * th / 2 - (1 - c))) by lra.
  assert (th ^ 2 <= 1 / 10000000000) as T2 by nra.
  assert (th ^ 3 <= 1 / 10000000000 * (1 / 100000)) as T3. { replace (th ^ 3) with (th ^ 2 * th) by ring. apply Rmult_le_compat; nra. }
  assert (th ^ 4 <= 1 / 10000000000 * (1 / 10000000000)) as T4. { replace (th ^ 4) with (th ^ 2 * th ^ 2) by ring. apply Rmult_le_compat; nra. }
  assert ((1 - c) * norm x <= 1 / 10000000000 / 2 * norm x) by (apply Rmult_le_compat_r; lra).
  assert (1 * (th - s) * norm (cross u x) <= 1 / 10000000000 / 100000 * norm x) by (rewrite Rmult_1_l; apply Rmult_le_compat; lra).
  assert ((th * th / 2 - (1 - c)) * Rabs (dot u x) * 1 <= 1 / 10000000000 / 100000 * norm x) by (rewrite Rmult_1_r; apply Rmult_le_compat; lra).
  lra.
Qed.
Print Assumptions C20_rotate_point_agrees_partial.

(** the small-angle branch is not exact *)
Theorem C20_rotate_small_refuted : exists r x, rotate_point_r r x false <> mv (R_from_r r) x.
Proof.
  assert (norm (V3 (1 / 1000000) 0 0) = 1 / 1000000) as N.
  { unfold norm, norm2, dot. cbn [vx vy vz]. replace (_ + _ + _) with ((1 / 1000000) * (1 / 1000000)) by ring. apply sqrt_square. lra. }
  exists (V3 (1 / 1000000) 0 0), (V3 0 1 0). intro E.
  rewrite R_from_r_rod in E by (rewrite N; unfold DBL_EPSILON; lra).
  apply (f_equal vy) in E. unfold rotate_point_r, rotate_point_r_core, nvval in E.
  cbn [n_x n_y n_z realops nval nadd nsub nmul nmulc ndiv nsqrt nsin ncos nconst vconst vx vy vz num] in E.
  destruct (Rlt_dec _ _) as [L|L]; [|apply L; lra]. cbn [n_x n_y n_z vx vy vz] in E. unfold ndivc in E. cbn [realops nmulc] in E.
  unfold rod, unit, mv in E. cbn [vx vy vz m00 m01 m02 m10 m11 m12 m20 m21 m22] in E. rewrite N in E.
  pose proof (cos_bounds (1 / 1000000) ltac:(lra)) as C. nra.
Qed.
Print Assumptions C20_rotate_small_refuted.

(** concrete rotation vector: a half turn about z, which meets every hypothesis above *)
Example ex_half_turn : DBL_EPSILON <= norm (V3 0 0 PI) /\ 1 / 100000 <= norm (V3 0 0 PI) /\
  mv (R_from_r (V3 0 0 PI)) (V3 1 2 3) = V3 (-1) (-2) 3.
Proof.
  pose proof PI2_1 as P. assert (norm (V3 0 0 PI) = PI) as N.
  { unfold norm, norm2, dot. cbn [vx vy vz]. replace (_ + _ + _) with (PI * PI) by ring. apply sqrt_square. lra. }
  rewrite N. unfold DBL_EPSILON. split; [lra|split; [lra|]]. rewrite R_from_r_rod by (rewrite N; unfold DBL_EPSILON; lra). rewrite N, sin_PI, cos_PI.
  unfold rod, unit. rewrite N. apply v3_eq; vunfold; field; lra.
Qed.
(** the exact map assumed in C20_gradient_partial exists *)
Example ex_exact_map : exists F : v3 -> m33, (forall r, rotation_by (F r) r) /\ F v0 = I3.
Proof.
  exists (fun r => if Req_EM_T (norm r) 0 then I3 else rodr r). split.
  - intro r. destruct (Req_EM_T (norm r) 0) as [Z|Z].
    + apply norm_0_iff in Z. subst. split; [apply mv_I|]. intros v _. rewrite norm_v0, sin_0, mv_I. apply v3_eq; vunfold; ring.
    + apply rod_by, pos_ne0. pose proof (norm_nonneg r). lra.
  - destruct (Req_EM_T (norm v0) 0) as [Z|Z]; [reflexivity|]. now rewrite norm_v0 in Z.
Qed.
