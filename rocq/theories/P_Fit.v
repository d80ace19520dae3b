(** The Procrustes fit of exactly corresponding points is exact. *)
From Coq Require Import Reals List Lra Psatz Nsatz Lia.
From Verif Require Import S_Vec M_Pose M_Align P_Trig P_Pose P_Euler C_Align.
Import ListNotations.
Open Scope R_scope.

(** three of the points in the list, in this order *)
Definition three (l : list v3) (o x y : v3) : Prop :=
  exists l0 l1 l2 l3, l = l0 ++ o :: l1 ++ x :: l2 ++ y :: l3.

(** *** the second singular value *)
(** the length of the data along v, from m *)
Fixpoint spread (l : list v3) (m v : v3) : R := match l with [] => 0 | b :: r => dot (vsub b m) v * dot (vsub b m) v + spread r m v end.
Lemma spread_nonneg : forall l m v, 0 <= spread l m v.
Proof. induction l as [|b l IH]; intros; cbn [spread]; [lra|]. specialize (IH m v). nra. Qed.
Lemma spread_app : forall a b m v, spread (a ++ b) m v = spread a m v + spread b m v.
Proof. induction a as [|x a IH]; intros; cbn [spread app]; [ring|]. rewrite IH. ring. Qed.
Lemma spread3 : forall l m o x y al be k, three l o x y ->
  dot (vsub x o) (vsub y o) = 0 -> norm2 (vsub x o) = k -> norm2 (vsub y o) = k ->
  let v := vadd (vscale al (vsub x o)) (vscale be (vsub y o)) in
  k / 3 * norm2 v <= spread l m v.
Proof.
  intros l m o x y al be k (l0 & l1 & l2 & l3 & ->) O Kx Ky v.
  assert (norm2 v = (al * al + be * be) * k) as Nv.
  { transitivity (al * al * norm2 (vsub x o) + be * be * norm2 (vsub y o) + 2 * al * be * dot (vsub x o) (vsub y o)); [unfold v; vring|]. rewrite Kx, Ky, O. ring. }
  assert (dot (vsub x m) v = dot (vsub o m) v + al * k) as Ex.
  { transitivity (dot (vsub o m) v + al * norm2 (vsub x o) + be * dot (vsub x o) (vsub y o)); [unfold v; vring|]. rewrite Kx, O. ring. }
  assert (dot (vsub y m) v = dot (vsub o m) v + be * k) as Ey.
  { transitivity (dot (vsub o m) v + be * norm2 (vsub y o) + al * dot (vsub x o) (vsub y o)); [unfold v; vring|]. rewrite Ky, O. ring. }
  repeat (rewrite spread_app; cbn [spread]). rewrite Ex, Ey, Nv. set (c := dot (vsub o m) v).
  pose proof (spread_nonneg l0 m v). pose proof (spread_nonneg l1 m v). pose proof (spread_nonneg l2 m v). pose proof (spread_nonneg l3 m v).
  assert (k / 3 * ((al * al + be * be) * k) <= c * c + (c + al * k) * (c + al * k) + (c + be * k) * (c + be * k)); [|lra].
  assert (c * c + (c + al * k) * (c + al * k) + (c + be * k) * (c + be * k) - k / 3 * ((al * al + be * be) * k)
    = 3 * ((c + (al + be) * k / 3) * (c + (al + be) * k / 3)) + (k * (al - be)) * (k * (al - be)) / 3 + (al * be) * 0) as E by field.
  pose proof (Rle_0_sqr (c + (al + be) * k / 3)) as S1. pose proof (Rle_0_sqr (k * (al - be))) as S2. unfold Rsqr in S1, S2. lra.
Qed.
Definition outer (v : v3) : m33 := M33 (vx v * vx v) (vx v * vy v) (vx v * vz v) (vy v * vx v) (vy v * vy v) (vy v * vz v) (vz v * vx v) (vz v * vy v) (vz v * vz v).
Lemma frob_outer : forall A Rm v, frob A (mm Rm (outer v)) = dot (mv A v) (mv Rm v).
Proof. intros. unfold frob, outer. vunfold. ring. Qed.
Lemma cross_spread : forall ps Rm t m1 v, is_rot Rm -> (forall a b, In (a, b) ps -> a = vadd (mv Rm b) t) ->
  cross_sum (map (fun p => (p, 1)) ps) (vadd (mv Rm m1) t) m1 (mm Rm (outer v)) = spread (map snd ps) m1 v.
Proof.
  intros ps Rm t m1 v HR. induction ps as [|[a b] ps IH]; intro H; cbn [map cross_sum spread snd]; [reflexivity|].
  rewrite IH by (intros; apply H; now right). rewrite (H a b (or_introl eq_refl)). f_equal.
  rewrite mv_mm. replace (vsub (vadd (mv Rm b) t) (vadd (mv Rm m1) t)) with (mv Rm (vsub b m1)) by vring. rewrite rot_dot by exact HR.
  replace (mv (outer v) (vsub b m1)) with (vscale (dot (vsub b m1) v) v) by (unfold outer; vring).
  rewrite Rmult_1_l. set (w := vsub b m1). unfold dot, vscale. cbn [vx vy vz]. ring.
Qed.
Lemma orth_norm2 : forall m v, orthogonal m -> norm2 (mv m v) = norm2 v.
Proof. intros m v (A & _). unfold norm2. rewrite dot_mv, <- mv_mm, A, mv_I. reflexivity. Qed.
Lemma cauchy2 : forall a b, dot a b * dot a b <= norm2 a * norm2 b.
Proof.
  intros a b. assert (norm2 a * norm2 b - dot a b * dot a b = norm2 (cross a b)) as E by vring.
  assert (0 <= norm2 (cross a b)) by (unfold norm2, dot; nra). lra.
Qed.
(** the image of a vector orthogonal to the first right singular vector is at most as long as the second singular value says *)
Lemma second_singular : forall A U d V v, is_svd A U d V -> m00 V * vx v + m10 V * vy v + m20 V * vz v = 0 -> norm2 (mv A v) <= vy d * vy d * norm2 v.
Proof.
  intros A U d V v (OU & OV & -> & D1 & D2 & D3) H. rewrite !mv_mm. rewrite orth_norm2 by exact OU. rewrite <- (orth_norm2 (mT V) v) by now apply orth_mT.
  set (c := mv (mT V) v). assert (vx c = 0) as C0 by (unfold c; vunfold; cbn [vx]; lra).
  unfold diag3, norm2, dot, mv. cbn [vx vy vz m00 m01 m02 m10 m11 m12 m20 m21 m22]. unfold dot. cbn [vx vy vz]. rewrite C0.
  assert (vz d * vz d <= vy d * vy d) by nra. assert (0 <= vz c * vz c) by nra. nra.
Qed.
Lemma v_choice : forall A U d V o x y k, is_svd A U d V -> 0 < k -> dot (vsub x o) (vsub y o) = 0 -> norm2 (vsub x o) = k -> norm2 (vsub y o) = k ->
  exists al be, let v := vadd (vscale al (vsub x o)) (vscale be (vsub y o)) in 0 < norm2 v /\ m00 V * vx v + m10 V * vy v + m20 V * vz v = 0.
Proof.
  intros A U d V o x y k S K O Kx Ky. set (X := vsub x o) in *. set (Y := vsub y o) in *.
  set (cx := m00 V * vx X + m10 V * vy X + m20 V * vz X). set (cy := m00 V * vx Y + m10 V * vy Y + m20 V * vz Y).
  assert (forall al be, norm2 (vadd (vscale al X) (vscale be Y)) = (al * al + be * be) * k) as N.
  { intros al be. transitivity (al * al * norm2 X + be * be * norm2 Y + 2 * al * be * dot X Y); [vring|]. rewrite Kx, Ky, O. ring. }
  destruct (Req_EM_T cx 0) as [E|E].
  - exists 1, 0. cbv zeta. split; [rewrite N; nra|]. unfold vadd, vscale. cbn [vx vy vz]. unfold cx in E. lra.
  - exists cy, (- cx). cbv zeta. split; [rewrite N; assert (0 < cx * cx) by nra; nra|]. unfold vadd, vscale, cx, cy. cbn [vx vy vz]. ring.
Qed.
Lemma mean_affine : forall ps Rm t, ps <> [] -> (forall a b, In (a, b) ps -> a = vadd (mv Rm b) t) -> mean_of fst ps = vadd (mv Rm (mean_of snd ps)) t.
Proof.
  intros ps Rm t Hn H.
  assert (0 < INR (length ps)) as P by (apply lt_0_INR; destruct ps; [contradiction|cbn; lia]).
  assert (forall l, (forall a b, In (a, b) l -> a = vadd (mv Rm b) t) -> vsum fst l = vadd (mv Rm (vsum snd l)) (vscale (INR (length l)) t)) as G.
  { induction l as [|[a b] l IH]; intro Hl; [cbn [vsum length INR]; vring|]. cbn [vsum fst snd]. rewrite IH by (intros; apply Hl; now right). rewrite (Hl a b (or_introl eq_refl)).
    cbn [length]. rewrite S_INR. vring. }
  pose proof (G ps H) as E. rewrite <- !mean_sum in E by exact Hn. set (n := INR (length ps)) in *. set (a := mean_of fst ps) in *. set (b := mean_of snd ps) in *.
  rewrite mv_vscale in E. set (c := mv Rm b) in *. apply v3_eq; [apply (f_equal vx) in E|apply (f_equal vy) in E|apply (f_equal vz) in E]; unfold vadd, vscale in *; cbn [vx vy vz] in *;
    apply Rmult_eq_reg_l with n; lra.
Qed.

(** *** uniqueness *)
Lemma cross_mv : forall m x y, mv (mT m) (cross (mv m x) (mv m y)) = vscale (det m) (cross x y).
Proof. intros. vring. Qed.
Lemma rot_cross : forall m x y, is_rot m -> mv m (cross x y) = cross (mv m x) (mv m y).
Proof.
  intros m x y H. pose proof (cross_mv m x y) as E. rewrite (proj2 (proj2 H)) in E.
  replace (cross x y) with (vscale 1 (cross x y)) by vring. rewrite <- E. now rewrite rot_mv_mT.
Qed.
Lemma rot_two : forall A B x y, is_rot A -> is_rot B -> 0 < norm2 (cross x y) -> mv A x = mv B x -> mv A y = mv B y -> A = B.
Proof.
  intros A B x y HA HB N Ex Ey.
  assert (forall M, is_rot M -> mv M (cross x y) = cross (mv M x) (mv M y)) as C by (intros M HM; now apply rot_cross).
  assert (mv A (cross x y) = mv B (cross x y)) as Ez by (rewrite !C by assumption; now rewrite Ex, Ey).
  set (z := cross x y) in *.
  (* every vector is a combination *)
  assert (forall w, norm2 z <> 0 -> vscale (norm2 z) w = vadd (vadd (vscale (dot w (cross y z)) x) (vscale (dot w (cross z x)) y)) (vscale (dot w z) z)) as W.
  { intros w _. unfold z. vring. }
  assert (forall w, mv A w = mv B w) as E.
  { intro w. assert (mv A (vscale (norm2 z) w) = mv B (vscale (norm2 z) w)) as F.
    { rewrite W by lra. rewrite !mv_vadd, !mv_vscale, Ex, Ey, Ez. reflexivity. }
    rewrite !mv_vscale in F. set (a := mv A w) in *. set (b := mv B w) in *. set (n := norm2 z) in *. apply v3_eq; [apply (f_equal vx) in F|apply (f_equal vy) in F|apply (f_equal vz) in F]; unfold vscale in F; cbn [vx vy vz] in F; apply Rmult_eq_reg_l with n; lra. }
  pose proof (E (V3 1 0 0)) as E1. pose proof (E (V3 0 1 0)) as E2. pose proof (E (V3 0 0 1)) as E3. clear - E1 E2 E3.
  destruct A, B. unfold mv, dot in *. cbn in *. injection E1 as A1 A2 A3. injection E2 as B1 B2 B3. injection E3 as C1 C2 C3. f_equal; lra.
Qed.
Lemma wsse_nonneg : forall l f, (forall a b w, In (a, b, w) l -> 0 <= w) -> 0 <= wsse l f /\ (wsse l f = 0 -> forall a b w, In (a, b, w) l -> 0 < w -> a = f b).
Proof.
  induction l as [|[[a b] w] l IH]; intros f H; cbn [wsse]; [split; [lra|intros _ a b w []]|].
  destruct (IH f) as (P & Z); [intros a1 b1 w1 I1; apply (H a1 b1 w1); now right|]. assert (0 <= w) as W by (apply (H a b w); now left).
  assert (0 <= norm2 (vsub a (f b))) as N by (unfold norm2, dot; nra).
  assert (0 <= w * norm2 (vsub a (f b))) as WN by (apply Rmult_le_pos; assumption).
  split; [lra|]. intros E a' b' w' [I|I] W'; [|apply (Z ltac:(lra) a' b' w' I W')].
  injection I as <- <- <-. assert (norm2 (vsub a (f b)) = 0) as N0 by (assert (w * norm2 (vsub a (f b)) = 0) as Q by lra; apply Rmult_integral in Q; lra).
  set (g := f b) in *. unfold norm2, dot, vsub in N0. cbn [vx vy vz] in N0.
  pose proof (Rle_0_sqr (vx a - vx g)) as X. pose proof (Rle_0_sqr (vy a - vy g)) as Y. pose proof (Rle_0_sqr (vz a - vz g)) as Z'. unfold Rsqr in X, Y, Z'.
  assert (forall u, u * u = 0 -> u = 0) as U by (intros u Hu; apply Rmult_integral in Hu; tauto).
  apply v3_eq; apply Rminus_diag_uniq, U; lra.
Qed.

Theorem fit_exact : forall svd ps Rm t o x y k,
  (forall A U d V, svd A = Some (U, d, V) -> is_svd A U d V) -> (forall A, svd A <> None) ->
  is_rot Rm -> (forall a b, In (a, b) ps -> a = vadd (mv Rm b) t) ->
  three (map snd ps) o x y -> dot (vsub x o) (vsub y o) = 0 -> norm2 (vsub x o) = k -> norm2 (vsub y o) = k -> 3 / 1000000000000 <= k ->
  align_points svd ps None = Solved (mkRt Rm t).
Proof.
  intros svd ps Rm t o x y k Hs Ht HR Hp H3 O Kx Ky K.
  assert (ps <> []) as Hn by (intros ->; destruct H3 as (l0 & l1 & l2 & l3 & E); destruct l0; discriminate).
  assert (exists p, align_points svd ps None = Solved p) as (p & Ep).
  { unfold align_points. cbv zeta. unfold procrustes_core. destruct (svd _) as [[[U d] V]|] eqn:E; [|now apply Ht in E]. apply Hs in E.
    destruct (Rlt_dec (vy d) _) as [L|L]; [exfalso|destruct (Rlt_dec _ 0); eexists; reflexivity].
    destruct (v_choice _ _ _ _ o x y k E ltac:(lra) O Kx Ky) as (al & be & Nv & Hv). cbv zeta in Nv, Hv.
    pose proof (spread3 (map snd ps) (mean_of snd ps) o x y al be k H3 O Kx Ky) as Sp. cbv zeta in Sp.
    set (v := vadd (vscale al (vsub x o)) (vscale be (vsub y o))) in *.
    pose proof (second_singular _ _ _ _ v E Hv) as Q.
    rewrite <- (cross_spread ps Rm t) in Sp by assumption. rewrite <- (mean_affine ps Rm t Hn Hp) in Sp.
    change (map (fun p => (p, 1)) ps) with (weighted ps None) in Sp. rewrite <- acc_frob, frob_outer in Sp.
    set (A := accumulate ps (mean_of fst ps) (mean_of snd ps) None) in *.
    pose proof (cauchy2 (mv A v) (mv Rm v)) as C. replace (norm2 (mv Rm v)) with (norm2 v) in C by (unfold norm2; now rewrite rot_dot).
    destruct E as (_ & _ & _ & D1 & D2 & _).
    assert ((k / 3 * norm2 v) * (k / 3 * norm2 v) <= dot (mv A v) (mv Rm v) * dot (mv A v) (mv Rm v)) as S2.
    { apply Rmult_le_compat; try exact Sp; apply Rmult_le_pos; lra. }
    assert ((k / 3 * norm2 v) * (k / 3 * norm2 v) <= vy d * vy d * norm2 v * norm2 v) as S3.
    { eapply Rle_trans; [exact S2|]. eapply Rle_trans; [exact C|]. apply Rmult_le_compat_r; lra. }
    assert (k / 3 * (k / 3) <= vy d * vy d) as S4.
    { apply Rmult_le_reg_r with (norm2 v * norm2 v); [apply Rmult_lt_0_compat; lra|]. lra. }
    assert (vy d * vy d < k / 3 * (k / 3)); [|lra]. apply Rmult_le_0_lt_compat; lra. }
  rewrite Ep. f_equal. destruct (C29_points_unweighted svd ps p Hs Ep) as (HRp & Opt). specialize (Opt Rm t HR).
  assert (wsse (weighted ps None) (fun b => vadd (mv Rm b) t) = 0) as Z0.
  { cbn [weighted]. clear - Hp. induction ps as [|[a b] ps IH]; cbn [map wsse]; [reflexivity|]. rewrite IH by (intros; apply Hp; now right). rewrite (Hp a b (or_introl eq_refl)). vring. }
  assert (forall a b w, In (a, b, w) (weighted ps None) -> w = 1 /\ In (a, b) ps) as Wi.
  { intros a b w I. cbn [weighted] in I. apply in_map_iff in I. destruct I as ((a' & b') & E & I). injection E as -> -> <-. auto. }
  destruct (wsse_nonneg (weighted ps None) (fun b => vadd (mv (Rt_R p) b) (Rt_t p))) as (P & Zp); [intros a b w I; destruct (Wi a b w I); lra|].
  specialize (Zp ltac:(lra)).
  assert (forall b, In b (map snd ps) -> vadd (mv (Rt_R p) b) (Rt_t p) = vadd (mv Rm b) t) as Eq.
  { intros b I. apply in_map_iff in I. destruct I as ((a & b') & <- & I). cbn [snd]. rewrite <- (Hp a b' I). symmetry. eapply Zp; [|apply Rlt_0_1]. cbn [weighted]. apply in_map_iff. exists (a, b'). split; [reflexivity|exact I]. }
  assert (In o (map snd ps) /\ In x (map snd ps) /\ In y (map snd ps)) as (Io & Ix & Iy).
  { destruct H3 as (l0 & l1 & l2 & l3 & ->). rewrite !in_app_iff; cbn; rewrite !in_app_iff; cbn; rewrite !in_app_iff; cbn. tauto. }
  apply Eq in Io, Ix, Iy.
  assert (forall z, vadd (mv (Rt_R p) z) (Rt_t p) = vadd (mv Rm z) t -> mv (Rt_R p) (vsub z o) = mv Rm (vsub z o)) as Df.
  { intros z Ez. rewrite !mv_vsub. set (a := mv (Rt_R p) z) in *. set (b := mv Rm z) in *. set (c := mv (Rt_R p) o) in *. set (e := mv Rm o) in *.
    apply v3_eq; [apply (f_equal vx) in Ez; apply (f_equal vx) in Io|apply (f_equal vy) in Ez; apply (f_equal vy) in Io|apply (f_equal vz) in Ez; apply (f_equal vz) in Io]; unfold vadd, vsub in *; cbn [vx vy vz] in *; lra. }
  assert (Rt_R p = Rm) as ER.
  { apply (rot_two (Rt_R p) Rm (vsub x o) (vsub y o)); try assumption; [|now apply Df|now apply Df].
    replace (norm2 (cross (vsub x o) (vsub y o))) with (norm2 (vsub x o) * norm2 (vsub y o) - dot (vsub x o) (vsub y o) * dot (vsub x o) (vsub y o)) by vring. rewrite Kx, Ky, O. nra. }
  destruct p as [Rp tp]. cbn [Rt_R Rt_t] in *. subst Rp. f_equal. clear - Io. set (a := mv Rm o) in *. apply v3_eq; [apply (f_equal vx) in Io|apply (f_equal vy) in Io|apply (f_equal vz) in Io]; unfold vadd in *; cbn [vx vy vz] in *; lra.
Qed.
