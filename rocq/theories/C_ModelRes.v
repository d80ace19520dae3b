(** C82: model_resolution__deg_pixel() reports the angles per pixel of the slowest and the fastest direction *)
From Coq Require Import Reals Lra Psatz Arith Lia ZArith Bool List.
From Coquelicot Require Import Coquelicot.
From Verif Require Import S_Vec S_Curve S_Callback M_Dual M_Pose M_Lens M_Layout M_Project M_OpenCV M_Unproject M_Callback M_Residuals M_ProjUncert M_UnprojGrad
  P_Dual P_Trig P_Atan2 P_Pose P_Spline P_DualPath C_Project C_ProjectGrad C_LensGrad C_Cahvore C_Unproject P_Jacobian C_Jacobian P_ProjUncert C_ImageMap C_UnprojGrad
  C_Rt C_RfromR M_Stereo C_Rectified C_Resolution M_Align C_Align C_WorstDir M_ModelRes.
Open Scope R_scope.

(** ** Specification *)
(** a direction to turn to *)
Definition tangent (v u : v3) : Prop := norm2 u = 1 /\ dot u v = 0.
(** the unit vector v, turned by an angle in degrees *)
Definition turned (v u : v3) (deg : R) : v3 := vadd (vscale (cos (rad deg)) v) (vscale (sin (rad deg)) u).
(** turning towards u moves the pixel with this velocity, in pixels per degree *)
Definition pixel_rate (m : lensmodel) (intr : nat -> R) (v u : v3) (g : p2) : Prop :=
  moves2 (fun s => lens_pixel m intr (turned v u s)) 0 g.

(** ** Proofs *)
Lemma turned_0 : forall v u, turned v u 0 = v.
Proof. intros. unfold turned, rad. replace (0 * PI / 180) with 0 by field. rewrite cos_0, sin_0. apply v3_eq; cbn [vadd vscale vx vy vz]; ring. Qed.
Lemma turned_moves : forall v u, moves3 (turned v u) 0 (vscale (PI / 180) u).
Proof.
  intros v u. unfold moves3, turned, rad. cbn [vadd vscale vx vy vz].
  split; [|split]; (auto_derive; [exact Logic.I|]); replace (0 * PI * / 180) with 0 by ring; rewrite cos_0, sin_0; unfold Rdiv; ring.
Qed.
Lemma rate_formula : forall stale m intr v u, focal_ok (core_of intr) -> lens_smooth m intr v ->
  let J := lens_pixel_J stale m intr v in
  pixel_rate m intr v u (P2 (PI / 180 * dot (dqx J) u) (PI / 180 * dot (dqy J) u)).
Proof.
  intros stale m intr v u HF Sm J. pose proof (camera_rate stale m intr I3 (turned v u) _ HF (turned_moves v u)) as C.
  rewrite turned_0, !mv_I in C. specialize (C Sm). fold J in C. destruct C as (A & B). cbn [px py] in A, B. rewrite dot_vscale_r in A, B. split; cbn [px py].
  - eapply is_derive_ext; [|exact A]. intro t. cbv beta. now rewrite mv_I.
  - eapply is_derive_ext; [|exact B]. intro t. cbv beta. now rewrite mv_I.
Qed.
Lemma rate_unique : forall m intr v u g g', pixel_rate m intr v u g -> pixel_rate m intr v u g' -> g = g'.
Proof.
  intros m intr v u [a b] [a' b'] (A & B) (A' & B'). cbn [px py] in *. f_equal.
  - rewrite <- (is_derive_unique _ _ _ A). apply is_derive_unique. exact A'.
  - rewrite <- (is_derive_unique _ _ _ B). apply is_derive_unique. exact B'.
Qed.
Section basis.
Context (v : v3) (V : norm2 v = 1).
Let r := R_aligned_to_vector v.
Let u0 := V3 (m00 r) (m01 r) (m02 r).
Let u1 := V3 (m10 r) (m11 r) (m12 r).
Lemma aligned : is_rot r /\ mv r v = V3 0 0 1.
Proof.
  destruct (C28_aligned v) as (A & B). { intros ->. revert V. vunfold. lra. }
  split; [exact A|]. unfold r. rewrite B. unfold norm. rewrite V, sqrt_1. reflexivity.
Qed.
Lemma third : mv (mT r) (V3 0 0 1) = v.
Proof. destruct aligned as (A & B). rewrite <- B. now apply rot_mT_mv. Qed.
Lemma back : forall a b c, mv (mT r) (V3 a b c) = vadd (vadd (vscale a u0) (vscale b u1)) (vscale c v).
Proof.
  intros a b c. rewrite <- third. unfold u0, u1. vunfold. apply v3_eq; cbn [vx vy vz]; ring.
Qed.
Lemma tangent_of : forall u, tangent v u <-> exists a b, unit2 a b /\ u = vadd (vscale a u0) (vscale b u1).
Proof.
  destruct aligned as (A & B). intro u. split.
  - intros (N & D). destruct (mv r u) as [a b c] eqn:E.
    assert (c = 0) as ->.
    { transitivity (dot (mv r u) (mv r v)); [rewrite E, B; vunfold; ring|]. rewrite rot_dot by exact A. exact D. }
    exists a, b. split.
    + unfold unit2. transitivity (dot (mv r u) (mv r u)); [rewrite E; vunfold; ring|]. rewrite rot_dot by exact A. exact N.
    + rewrite <- (rot_mT_mv r u A), E, back. vunfold. apply v3_eq; cbn [vx vy vz]; ring.
  - intros (a & b & U & ->). replace (vadd (vscale a u0) (vscale b u1)) with (mv (mT r) (V3 a b 0)) by (rewrite back; vunfold; apply v3_eq; cbn [vx vy vz]; ring).
    split.
    + unfold norm2. rewrite rot_dot by (apply is_rot_mT; exact A). unfold unit2 in U. vunfold. lra.
    + rewrite dot_mv, mT_mT, B. vunfold. ring.
Qed.
End basis.
(** the squared speed in pixels per radian, in the direction (a,b) of the basis of the tangent plane *)
Definition gram (M : (R * R) * (R * R)) : m22 :=
  let '((p, q), (s, t)) := M in {| c00 := p * p + s * s; c01 := p * q + s * t; c10 := p * q + s * t; c11 := q * q + t * t |}.
Lemma gram_psd : forall M, psd (gram M).
Proof.
  intros [[p q] [s t]]. split; [reflexivity|]. intros u w. unfold variance_along, gram. cbn [c00 c01 c10 c11].
  pose proof (Rle_0_sqr (p * u + q * w)). pose proof (Rle_0_sqr (s * u + t * w)). unfold Rsqr in *. lra.
Qed.
Lemma extremes : forall M, let '(lmin, lmax) := eigenvalues M in exists l, 0 <= l <= lmax /\
  lmin = (if Rlt_dec l (1 / 1000000) then 1 / 1000000 else l) /\
  (forall a b, unit2 a b -> l <= variance_along (gram M) a b <= lmax) /\
  (exists a b, unit2 a b /\ variance_along (gram M) a b = lmax) /\ (exists a b, unit2 a b /\ variance_along (gram M) a b = l).
Proof.
  intros M. pose proof (gram_psd M) as P. pose proof (C52_worst_direction (gram M) P) as (U & (x & y & X & E)).
  destruct M as [[p q] [s t]]. unfold eigenvalues, worst_direction_stdev_2 in *. cbn [gram c00 c01 c10 c11] in U, E. fold (gram (p, q, (s, t))) in *.
  change {| c00 := p * p + s * s; c01 := p * q + s * t; c10 := p * q + s * t; c11 := q * q + t * t |} with (gram (p, q, (s, t))) in *.
  set (d := sqrt ((p * p + s * s - (q * q + t * t)) * (p * p + s * s - (q * q + t * t)) / 4 + (p * q + s * t) * (p * q + s * t))) in *. assert (0 <= d) as D0 by apply sqrt_pos.
  set (h := (p * p + s * s + (q * q + t * t)) / 2) in *.
  assert (0 <= h) as H0 by (unfold h; pose proof (Rle_0_sqr p); pose proof (Rle_0_sqr q); pose proof (Rle_0_sqr s); pose proof (Rle_0_sqr t); unfold Rsqr in *; lra).
  assert (forall a b, unit2 a b -> variance_along (gram (p, q, (s, t))) a b + variance_along (gram (p, q, (s, t))) (- b) a = 2 * h) as Sum.
  { intros a b Ab. unfold variance_along, gram, h. cbn [c00 c01 c10 c11]. unfold unit2 in Ab.
    transitivity ((p * p + s * s + (q * q + t * t)) * (a * a + b * b)); [ring|rewrite Ab; field]. }
  assert (forall a b, unit2 a b -> unit2 (- b) a) as Perp by (unfold unit2; intros; lra).
  assert (forall a b, unit2 a b -> variance_along (gram (p, q, (s, t))) a b <= h + d) as Up.
  { intros a b Ab. specialize (U a b Ab). apply sqrt_le_0 in U; [exact U|apply P|lra]. }
  assert (variance_along (gram (p, q, (s, t))) x y = h + d) as Ex.
  { apply sqrt_inj; [apply P|lra|exact E]. }
  assert (variance_along (gram (p, q, (s, t))) (- y) x = h - d) as Em by (pose proof (Sum x y X); lra).
  exists (h - d). split; [split; [rewrite <- Em; apply P|lra]|]. split; [reflexivity|]. split; [|split].
  - intros a b Ab. split; [|apply Up; exact Ab]. pose proof (Sum a b Ab). pose proof (Up _ _ (Perp a b Ab)). lra.
  - exists x, y. split; assumption.
  - exists (- y), x. split; [apply Perp; exact X|exact Em].
Qed.

Lemma speed_form : forall J v a b, let r := R_aligned_to_vector v in
  let u := vadd (vscale a (V3 (m00 r) (m01 r) (m02 r))) (vscale b (V3 (m10 r) (m11 r) (m12 r))) in
  speed (P2 (PI / 180 * dot (dqx J) u) (PI / 180 * dot (dqy J) u)) = PI / 180 * sqrt (variance_along (gram (tangent_gradient J v)) a b).
Proof.
  intros J v a b r u. unfold speed. cbn [px py]. pose proof PI_RGT_0 as P.
  replace (PI / 180 * dot (dqx J) u * (PI / 180 * dot (dqx J) u) + PI / 180 * dot (dqy J) u * (PI / 180 * dot (dqy J) u))
    with ((PI / 180) * (PI / 180) * variance_along (gram (tangent_gradient J v)) a b).
  - assert (0 <= PI / 180) by lra. rewrite sqrt_mult_alt by (apply Rmult_le_pos; lra). rewrite sqrt_square by lra. reflexivity.
  - unfold tangent_gradient. fold r. cbv zeta. unfold gram, variance_along. cbn [c00 c01 c10 c11].
    assert (forall w, dot w u = a * dot w (V3 (m00 r) (m01 r) (m02 r)) + b * dot w (V3 (m10 r) (m11 r) (m12 r))) as E by (intro w; unfold u; vunfold; ring).
    rewrite !E. ring.
Qed.
(** the rates, in all directions, by the matrix of the code *)
Lemma rates : forall stale m intr v, norm2 v = 1 -> focal_ok (core_of intr) -> lens_smooth m intr v ->
  let G := gram (tangent_gradient (lens_pixel_J stale m intr v) v) in
  (forall u g, tangent v u -> pixel_rate m intr v u g -> exists a b, unit2 a b /\ speed g = PI / 180 * sqrt (variance_along G a b)) /\
  (forall a b, unit2 a b -> exists u g, tangent v u /\ pixel_rate m intr v u g /\ speed g = PI / 180 * sqrt (variance_along G a b)).
Proof.
  intros stale m intr v V HF Sm G. split.
  - intros u g T H. apply (tangent_of v V) in T. destruct T as (a & b & U & ->). exists a, b. split; [exact U|].
    rewrite (rate_unique _ _ _ _ _ _ H (rate_formula stale m intr v _ HF Sm)). apply speed_form.
  - intros a b U. eexists. eexists. split; [apply (tangent_of v V); exists a, b; split; [exact U|reflexivity]|].
    split; [apply (rate_formula stale); assumption|]. apply speed_form.
Qed.
(** the pixel moves in each direction, at no less than 1/1000 pixel per radian *)
Definition sensitive (m : lensmodel) (intr : nat -> R) (v : v3) : Prop :=
  forall u g, tangent v u -> pixel_rate m intr v u g -> PI / 180 / 1000 <= speed g.

Lemma inv_res : forall l s, 0 < l -> 0 <= s -> 1 / sqrt l * 180 / PI * (PI / 180 * sqrt s) = sqrt s / sqrt l.
Proof. intros l s L S0. pose proof PI_RGT_0. pose proof (sqrt_lt_R0 l L). field. lra. Qed.

(** 'min' is the angle per pixel in the direction where the pixel moves fastest, 'max' in the one where it moves slowest.
    'mean' is their mean, 'eccentricity' their ratio.  Any other mode is refused *)
Theorem C82_resolution : forall stale m intr v, norm2 v = 1 -> focal_ok (core_of intr) -> lens_smooth m intr v -> sensitive m intr v ->
  let res mode := model_resolution mode (lens_pixel_J stale m intr v) v in
  res Other_mode = None /\
  exists rmin rmax, 0 < rmin <= rmax /\ res Min = Some rmin /\ res Max = Some rmax /\ res Mean = Some ((rmin + rmax) / 2) /\ res Eccentricity = Some (rmax / rmin) /\
    (forall u, tangent v u -> exists g, pixel_rate m intr v u g /\ rmin * speed g <= 1 <= rmax * speed g) /\
    (exists u g, tangent v u /\ pixel_rate m intr v u g /\ rmin * speed g = 1) /\
    (exists u g, tangent v u /\ pixel_rate m intr v u g /\ rmax * speed g = 1).
Proof.
  intros stale m intr v V HF Sm Se res. destruct (rates stale m intr v V HF Sm) as (R1 & R2). pose proof PI_RGT_0 as P.
  unfold res, model_resolution. pose proof (extremes (tangent_gradient (lens_pixel_J stale m intr v) v)) as X.
  set (M := tangent_gradient (lens_pixel_J stale m intr v) v) in *. destruct (eigenvalues M) as [lmin lmax].
  destruct X as (l & L & El & B & (a1 & b1 & U1 & E1) & (a2 & b2 & U2 & E2)).
  assert (1 / 1000000 <= l) as Lb.
  { destruct (R2 a2 b2 U2) as (u & g & T & Hg & Sg). pose proof (Se u g T Hg) as Q. rewrite Sg, E2 in Q.
    assert (1 / 1000 <= sqrt l) as Q2. { apply (Rmult_le_reg_l (PI / 180)); [lra|]. unfold Rdiv in *. lra. }
    rewrite <- (sqrt_sqrt l) by lra. replace (1 / 1000000) with (1 / 1000 * (1 / 1000)) by field. apply Rmult_le_compat; lra. }
  assert (lmin = l) as -> by (rewrite El; destruct (Rlt_dec l (1 / 1000000)); lra). clear El.
  assert (0 < sqrt l) as S1 by (apply sqrt_lt_R0; lra). assert (sqrt l <= sqrt lmax) as S2 by (apply sqrt_le_1_alt; lra).
  split; [reflexivity|]. exists (1 / sqrt lmax * 180 / PI), (1 / sqrt l * 180 / PI). split.
  { assert (0 < 1 / sqrt lmax) by (apply Rdiv_lt_0_compat; lra). assert (1 / sqrt lmax <= 1 / sqrt l) by (unfold Rdiv; rewrite !Rmult_1_l; apply Rinv_le_contravar; lra).
    assert (0 < 180 / PI) by (apply Rdiv_lt_0_compat; lra).
    replace (1 / sqrt lmax * 180 / PI) with (1 / sqrt lmax * (180 / PI)) by (unfold Rdiv; ring).
    replace (1 / sqrt l * 180 / PI) with (1 / sqrt l * (180 / PI)) by (unfold Rdiv; ring).
    split; [apply Rmult_lt_0_compat; assumption|apply Rmult_le_compat_r; lra]. }
  do 4 (split; [reflexivity|]). split; [|split].
  - intros u T. pose proof T as T'. apply (tangent_of v V) in T'. destruct T' as (a & b & U & E).
    exists (P2 (PI / 180 * dot (dqx (lens_pixel_J stale m intr v)) u) (PI / 180 * dot (dqy (lens_pixel_J stale m intr v)) u)).
    split; [apply rate_formula; assumption|]. rewrite E, speed_form. fold M. specialize (B a b U).
    assert (sqrt l <= sqrt (variance_along (gram M) a b)) by (apply sqrt_le_1_alt; lra).
    assert (sqrt (variance_along (gram M) a b) <= sqrt lmax) by (apply sqrt_le_1_alt; lra).
    rewrite !inv_res by lra. split.
    + apply (Rmult_le_reg_r (sqrt lmax)); [lra|]. unfold Rdiv. rewrite Rmult_assoc, Rinv_l by lra. lra.
    + apply (Rmult_le_reg_r (sqrt l)); [lra|]. unfold Rdiv. rewrite Rmult_assoc, Rinv_l by lra. lra.
  - destruct (R2 a1 b1 U1) as (u & g & T & Hg & Sg). exists u, g. split; [exact T|]. split; [exact Hg|]. rewrite Sg, E1, inv_res by lra. field. lra.
  - destruct (R2 a2 b2 U2) as (u & g & T & Hg & Sg). exists u, g. split; [exact T|]. split; [exact Hg|]. rewrite Sg, E2, inv_res by lra. field. lra.
Qed.
(** Otherwise 'max' is limited to 1000 radians per pixel *)
Theorem C82_limit : forall stale m intr v, norm2 v = 1 -> focal_ok (core_of intr) -> lens_smooth m intr v -> ~ sensitive m intr v ->
  model_resolution Max (lens_pixel_J stale m intr v) v = Some (1000 * 180 / PI).
Proof.
  intros stale m intr v V HF Sm Ns. destruct (rates stale m intr v V HF Sm) as (R1 & R2). pose proof PI_RGT_0 as P.
  unfold model_resolution. pose proof (extremes (tangent_gradient (lens_pixel_J stale m intr v) v)) as X.
  set (M := tangent_gradient (lens_pixel_J stale m intr v) v) in *. destruct (eigenvalues M) as [lmin lmax].
  destruct X as (l & L & El & B & _ & _).
  assert (lmin = 1 / 1000000) as ->.
  { rewrite El. destruct (Rlt_dec l (1 / 1000000)) as [|G]; [reflexivity|]. exfalso. apply Ns. intros u g T Hg.
    destruct (R1 u g T Hg) as (a & b & U & ->). specialize (B a b U). replace (PI / 180 / 1000) with (PI / 180 * (/ 1000)) by field. apply Rmult_le_compat_l; [lra|].
    rewrite <- (sqrt_square (/ 1000)) by lra. apply sqrt_le_1_alt. lra. }
  replace (1 / 1000000) with (1 / 1000 * (1 / 1000)) by field. rewrite sqrt_square by lra. f_equal. field. lra.
Qed.

(** a lens of 10 pixels per degree *)
Definition intr_10 (i : nat) : R := match i with 0%nat | 1%nat => 1800 / PI | 2%nat => 320 | _ => 240 end.
(** 10 pixels per degree in the middle of a pinhole image *)
Example ex_C82 : norm2 (V3 0 0 1) = 1 /\ focal_ok (core_of intr_10) /\ lens_smooth M_Lens.PINHOLE intr_10 (V3 0 0 1) /\ sensitive M_Lens.PINHOLE intr_10 (V3 0 0 1) /\
  exists u g, tangent (V3 0 0 1) u /\ pixel_rate M_Lens.PINHOLE intr_10 (V3 0 0 1) u g /\ speed g = 10.
Proof.
  pose proof PI_RGT_0 as P. assert (0 < 1800 / PI) as F0 by (apply Rdiv_lt_0_compat; lra).
  assert (focal_ok (core_of intr_10)) as HF by (unfold focal_ok, core_of, intr_10; cbn [fx fy]; lra).
  assert (lens_smooth M_Lens.PINHOLE intr_10 (V3 0 0 1)) as Sm by (cbn; lra).
  assert (forall u, tangent (V3 0 0 1) u -> exists g, pixel_rate M_Lens.PINHOLE intr_10 (V3 0 0 1) u g /\ speed g = 10) as A.
  { intros u (N & D). eexists. split; [apply (rate_formula (J23 v0 v0)); assumption|]. unfold speed. cbn [px py lens_pixel_J].
    unfold project_pinhole_J, core_of, intr_10. cbn [dqx dqy fx fy cx cy vx vy vz].
    match goal with |- sqrt ?x = 10 => replace x with (10 * 10) end; [apply sqrt_square; lra|].
    destruct u as [a b c]. vunfold. assert (c = 0) as -> by lra. transitivity (100 * (a * a + b * b + 0 * 0)); [rewrite N; ring|field; lra]. }
  split; [vunfold; ring|]. split; [exact HF|]. split; [exact Sm|]. split.
  - intros u g T H. destruct (A u T) as (g' & H' & E). rewrite (rate_unique _ _ _ _ _ _ H H'), E. pose proof PI_4. lra.
  - assert (tangent (V3 0 0 1) (V3 1 0 0)) as T by (split; vunfold; ring). destruct (A _ T) as (g & H & E). exists (V3 1 0 0), g. easy.
Qed.

Print Assumptions C82_resolution.
Print Assumptions C82_limit.
