(** C35: the Lee-Civera corrections are the smallest that make the rays meet. *)
From Coq Require Import Reals Lra Psatz Bool.
From Verif Require Import S_Vec P_Trig M_Dual M_Triangulate P_Triangulate C_Triangulate.
Open Scope R_scope.

(** ** Specification *)
(** the angle between the vector v and the plane with normal n *)
Definition angle_to_plane (v n : v3) : R := asin (Rabs (dot v n) / (norm v * norm n)).
(** a plane through both cameras *)
Definition epipolar_plane (t n : v3) : Prop := n <> v0 /\ dot n t = 0.
(** w is the orthogonal projection of v onto the plane with normal n *)
Definition projected (v n w : v3) : Prop := dot w n = 0 /\ exists k, vsub v w = vscale k n.

(** ** Geometry of the planes through t *)
Lemma perp_split : forall n t v, dot n t = 0 -> norm2 (cross v t) * norm2 n = dot v n * dot v n * norm2 t + dot v (cross n t) * dot v (cross n t).
Proof.
  intros n t v H. apply Rminus_diag_uniq.
  replace (norm2 (cross v t) * norm2 n - (dot v n * dot v n * norm2 t + dot v (cross n t) * dot v (cross n t)))
    with (dot n t * (norm2 v * dot n t - 2 * dot v n * dot v t)) by (vunfold; ring). rewrite H. ring.
Qed.
Lemma triple_split : forall n t v w, dot n t = 0 -> - dot (cross v w) t * norm2 n = dot v n * dot w (cross n t) - dot v (cross n t) * dot w n.
Proof.
  intros n t v w H. apply Rminus_diag_uniq.
  replace (- dot (cross v w) t * norm2 n - (dot v n * dot w (cross n t) - dot v (cross n t) * dot w n)) with (- dot n t * dot (cross v w) n) by (vunfold; ring). rewrite H. ring.
Qed.
Lemma norm_cross_perp : forall n t, dot n t = 0 -> norm (cross n t) = norm n * norm t.
Proof.
  intros n t H. unfold norm. rewrite <- sqrt_mult by apply norm2_nonneg. f_equal. pose proof (lagrange n t) as L. rewrite H in L. lra.
Qed.
Lemma Rabs_sq : forall x, Rabs x * Rabs x = x * x.
Proof. intro x. rewrite <- Rabs_mult. apply Rabs_right. nra. Qed.

(** sine of the angle to the plane, and the complementary component *)
Definition sn (v n : v3) := Rabs (dot v n) / (norm v * norm n).
Definition sb (v t : v3) := norm (cross v t) / (norm v * norm t).
Lemma sn_bounds : forall v n, v <> v0 -> n <> v0 -> 0 <= sn v n <= 1.
Proof.
  intros v n V N. pose proof (norm_pos _ V). pose proof (norm_pos _ N). assert (0 < norm v * norm n) as P by now apply Rmult_lt_0_compat.
  unfold sn. split; [apply Rmult_le_pos; [apply Rabs_pos|left; now apply Rinv_0_lt_compat]|].
  apply (Rmult_le_reg_r (norm v * norm n)); [exact P|]. unfold Rdiv. rewrite Rmult_assoc, Rinv_l, Rmult_1_l, Rmult_1_r by lra. apply cauchy.
Qed.
Lemma split_unit : forall v n t, v <> v0 -> t <> v0 -> epipolar_plane t n -> sn v n * sn v n + sn v (cross n t) * sn v (cross n t) = sb v t * sb v t.
Proof.
  intros v n t V T [N H]. pose proof (norm_pos _ V). pose proof (norm_pos _ N). pose proof (norm_pos _ T). unfold sn, sb. rewrite norm_cross_perp by exact H.
  pose proof (perp_split n t v H) as P.
  replace (Rabs (dot v n) / (norm v * norm n) * (Rabs (dot v n) / (norm v * norm n)) + Rabs (dot v (cross n t)) / (norm v * (norm n * norm t)) * (Rabs (dot v (cross n t)) / (norm v * (norm n * norm t))))
    with ((Rabs (dot v n) * Rabs (dot v n) * (norm t * norm t) + Rabs (dot v (cross n t)) * Rabs (dot v (cross n t))) / (norm v * norm v * (norm n * norm n) * (norm t * norm t))) by (field; lra).
  rewrite !Rabs_sq, (norm_sq t), <- P. replace (norm2 (cross v t)) with (norm (cross v t) * norm (cross v t)) by apply norm_sq. rewrite <- (norm_sq n), <- (norm_sq t). field. lra.
Qed.
(** the volume spanned by the two (unit) rays and the (unit) baseline *)
Definition vol (v w t : v3) := Rabs (dot (cross v w) t) / (norm v * norm w * norm t).
Lemma vol_le : forall v w n t, v <> v0 -> w <> v0 -> t <> v0 -> epipolar_plane t n -> vol v w t <= sn v n * sn w (cross n t) + sn v (cross n t) * sn w n.
Proof.
  intros v w n t V W T [N H]. pose proof (norm_pos _ V). pose proof (norm_pos _ W). pose proof (norm_pos _ N). pose proof (norm_pos _ T). unfold sn, vol. rewrite norm_cross_perp by exact H.
  assert (0 < norm v * norm w * (norm n * norm n) * norm t) as P by (repeat apply Rmult_lt_0_compat; assumption).
  apply (Rmult_le_reg_r (norm v * norm w * (norm n * norm n) * norm t)); [exact P|].
  replace (Rabs (dot (cross v w) t) / (norm v * norm w * norm t) * (norm v * norm w * (norm n * norm n) * norm t)) with (Rabs (dot (cross v w) t) * (norm n * norm n)) by (field; lra).
  replace ((Rabs (dot v n) / (norm v * norm n) * (Rabs (dot w (cross n t)) / (norm w * (norm n * norm t))) + Rabs (dot v (cross n t)) / (norm v * (norm n * norm t)) * (Rabs (dot w n) / (norm w * norm n))) * (norm v * norm w * (norm n * norm n) * norm t))
    with (Rabs (dot v n) * Rabs (dot w (cross n t)) + Rabs (dot v (cross n t)) * Rabs (dot w n)) by (field; lra).
  rewrite norm_sq. pose proof (triple_split n t v w H) as E.
  assert (Rabs (dot (cross v w) t) * norm2 n = Rabs (- dot (cross v w) t * norm2 n)) as ->. { rewrite Rabs_mult, Rabs_Ropp, (Rabs_right (norm2 n)) by (apply Rle_ge, norm2_nonneg). reflexivity. }
  rewrite E. eapply Rle_trans; [apply Rabs_triang|]. rewrite Rabs_Ropp, !Rabs_mult. lra.
Qed.
(** what the two candidate corrections cost *)
Lemma sn_cross : forall v w t, v <> v0 -> w <> v0 -> t <> v0 -> cross w t <> v0 -> sn v (cross w t) = vol v w t / sb w t.
Proof.
  intros v w t V W T C. pose proof (norm_pos _ V). pose proof (norm_pos _ W). pose proof (norm_pos _ T). pose proof (norm_pos _ C). unfold sn, vol, sb.
  replace (dot v (cross w t)) with (dot (cross v w) t) by (vunfold; ring). field. lra.
Qed.
Lemma sb_pos : forall v t, v <> v0 -> t <> v0 -> cross v t <> v0 -> 0 < sb v t.
Proof. intros v t V T C. pose proof (norm_pos _ V). pose proof (norm_pos _ T). pose proof (norm_pos _ C). unfold sb. apply Rmult_lt_0_compat; [easy|]. apply Rinv_0_lt_compat. now apply Rmult_lt_0_compat. Qed.
Lemma sb_le1 : forall v t, v <> v0 -> t <> v0 -> 0 <= sb v t <= 1.
Proof.
  intros v t V T. pose proof (norm_pos _ V). pose proof (norm_pos _ T). assert (0 < norm v * norm t) as P by now apply Rmult_lt_0_compat.
  unfold sb. split; [apply Rmult_le_pos; [apply norm_nonneg|left; now apply Rinv_0_lt_compat]|].
  apply (Rmult_le_reg_r (norm v * norm t)); [exact P|]. unfold Rdiv. rewrite Rmult_assoc, Rinv_l, Rmult_1_l, Rmult_1_r by lra. apply norm_cross_le.
Qed.

(** ** The sum of two angles *)
Lemma asin_ge0 : forall x, 0 <= x <= 1 -> 0 <= asin x.
Proof. intros x H. destruct (Rle_lt_dec 0 (asin x)) as [?|L]; [easy|]. pose proof (asin_bound x). assert (sin (asin x) < 0) as S by (apply sin_lt_0_var; pose proof PI_RGT_0; lra). rewrite sin_asin in S by lra. lra. Qed.
Lemma asin_below : forall x th, -1 <= x <= 1 -> 0 <= th -> x <= sin th -> asin x <= th.
Proof.
  intros x th X T S. destruct (Rle_lt_dec (asin x) th) as [?|L]; [easy|]. pose proof (asin_bound x). pose proof PI_RGT_0.
  assert (sin th < sin (asin x)) as Q by (apply sin_increasing_1; lra). rewrite sin_asin in Q by lra. lra.
Qed.
Lemma cos_asin_ge : forall x, 0 <= x <= 1 -> cos (asin x) = sqrt (1 - x * x).
Proof. intros x H. rewrite cos_asin by lra. f_equal; unfold Rsqr; ring. Qed.
Lemma le_sqrt_sq : forall y z, 0 <= z -> 0 <= y -> y * y <= z -> y <= sqrt z.
Proof. intros y z Z Y H. rewrite <- (sqrt_square y) by exact Y. now apply sqrt_le_1_alt. Qed.
Lemma two_angles : forall x0 y0 x1 y1 s0 s1 d, 0 <= x0 <= 1 -> 0 <= x1 <= 1 -> 0 <= y0 -> 0 <= y1 -> 0 <= s1 <= s0 -> 0 < s0 <= 1 -> 0 <= d ->
  x0 * x0 + y0 * y0 = s0 * s0 -> x1 * x1 + y1 * y1 = s1 * s1 -> d <= x0 * y1 + y0 * x1 -> d / s0 <= 1 -> asin (d / s0) <= asin x0 + asin x1.
Proof.
  intros x0 y0 x1 y1 s0 s1 d X0 X1 Y0 Y1 S1 S0 D E0 E1 L M. apply asin_below.
  - split; [|exact M]. apply Rle_trans with 0; [lra|]. apply Rmult_le_pos; [easy|]. left. apply Rinv_0_lt_compat. lra.
  - pose proof (asin_ge0 _ X0). pose proof (asin_ge0 _ X1). lra.
  - rewrite sin_plus, !sin_asin, !cos_asin_ge by lra.
    assert (y1 / s0 <= sqrt (1 - x1 * x1)) as B1.
    { apply le_sqrt_sq; [nra|apply Rmult_le_pos; [lra|left; apply Rinv_0_lt_compat; lra]|]. apply (Rmult_le_reg_r (s0 * s0)); [nra|].
      replace (y1 / s0 * (y1 / s0) * (s0 * s0)) with (y1 * y1) by (field; lra). pose proof (Rmult_le_compat_r (x1 * x1) (s0 * s0) 1 ltac:(nra) ltac:(nra)). assert (s1 * s1 <= s0 * s0) by nra. lra. }
    assert (y0 / s0 <= sqrt (1 - x0 * x0)) as B0.
    { apply le_sqrt_sq; [nra|apply Rmult_le_pos; [lra|left; apply Rinv_0_lt_compat; lra]|]. apply (Rmult_le_reg_r (s0 * s0)); [nra|].
      replace (y0 / s0 * (y0 / s0) * (s0 * s0)) with (y0 * y0) by (field; lra). pose proof (Rmult_le_compat_r (x0 * x0) (s0 * s0) 1 ltac:(nra) ltac:(nra)). lra. }
    apply Rle_trans with (x0 * (y1 / s0) + y0 / s0 * x1).
    + replace (x0 * (y1 / s0) + y0 / s0 * x1) with ((x0 * y1 + y0 * x1) / s0) by (field; lra). apply Rmult_le_compat_r; [left; apply Rinv_0_lt_compat; lra|exact L].
    + apply Rplus_le_compat; [apply Rmult_le_compat_l; lra|apply Rmult_le_compat_r; lra].
Qed.
(** correcting only w, into the plane of v and t, where v is the ray further from the baseline *)
Lemma one_ray_best : forall v w t n, v <> v0 -> w <> v0 -> t <> v0 -> cross v t <> v0 -> sb w t <= sb v t -> epipolar_plane t n ->
  angle_to_plane v (cross v t) + angle_to_plane w (cross v t) <= angle_to_plane v n + angle_to_plane w n.
Proof.
  intros v w t n V W T C S [N H]. assert (angle_to_plane v (cross v t) = 0) as ->.
  { unfold angle_to_plane. replace (dot v (cross v t)) with 0 by (vunfold; ring). rewrite Rabs_R0. unfold Rdiv. rewrite Rmult_0_l. apply asin_0. }
  rewrite Rplus_0_l. unfold angle_to_plane. fold (sn w (cross v t)) (sn v n) (sn w n).
  assert (cross n t <> v0) as M. { intro Z. pose proof (norm_cross_perp n t H) as Q. rewrite Z in Q. pose proof (norm_pos _ N). pose proof (norm_pos _ T).
    assert (0 < norm n * norm t) by now apply Rmult_lt_0_compat. rewrite <- Q in *. unfold norm in *. replace (norm2 v0) with 0 in * by (vunfold; ring). rewrite sqrt_0 in *. lra. }
  assert (vol w v t = vol v w t) as Vs. { unfold vol. replace (dot (cross w v) t) with (- dot (cross v w) t) by (vunfold; ring). rewrite Rabs_Ropp. f_equal. ring. }
  pose proof (sn_cross w v t W V T C) as Q. pose proof (sn_bounds w (cross v t) W C) as B. rewrite Q in *.
  pose proof (sn_bounds v n V N). pose proof (sn_bounds w n W N). pose proof (sn_bounds v (cross n t) V M). pose proof (sn_bounds w (cross n t) W M).
  apply (two_angles _ (sn v (cross n t)) _ (sn w (cross n t)) _ (sb w t)); try lra.
  - pose proof (sb_le1 w t W T). lra.
  - pose proof (sb_pos v t V T C). pose proof (sb_le1 v t V T). lra.
  - unfold vol. apply Rmult_le_pos; [apply Rabs_pos|]. left. apply Rinv_0_lt_compat. pose proof (norm_pos _ V). pose proof (norm_pos _ W). pose proof (norm_pos _ T). repeat apply Rmult_lt_0_compat; assumption.
  - apply split_unit; try assumption. split; assumption.
  - apply split_unit; try assumption. split; assumption.
  - rewrite Vs. apply vol_le; try assumption. split; assumption.
Qed.

Lemma deflect_projected : forall v n, n <> v0 -> exists w, deflect realops (rv v) (rv n) = rv w /\ projected v n w.
Proof.
  intros v n N. pose proof (norm2_pos _ N) as P. unfold deflect. rvs. eexists. split; [reflexivity|]. split.
  - replace (dot (vsub v (vscale (/ norm2 n) (vscale (dot v n) n))) n) with (dot v n - / norm2 n * dot v n * norm2 n) by (vunfold; ring). field. lra.
  - exists (/ norm2 n * dot v n). vring.
Qed.
Lemma projected_self : forall v n, dot v n = 0 -> projected v n v.
Proof. intros v n H. split; [exact H|]. exists 0. vring. Qed.
Lemma sb_compare : forall v w t, v <> v0 -> w <> v0 -> t <> v0 -> dot v t * dot v t * norm2 w <= dot w t * dot w t * norm2 v -> sb w t <= sb v t.
Proof.
  intros v w t V W T H. pose proof (norm_pos _ V). pose proof (norm_pos _ W). pose proof (norm_pos _ T). pose proof (sb_le1 v t V T) as B.
  unfold sb in *. apply (Rmult_le_reg_r (norm v * norm w * norm t)); [repeat apply Rmult_lt_0_compat; assumption|].
  replace (norm (cross w t) / (norm w * norm t) * (norm v * norm w * norm t)) with (norm v * norm (cross w t)) by (field; lra).
  replace (norm (cross v t) / (norm v * norm t) * (norm v * norm w * norm t)) with (norm w * norm (cross v t)) by (field; lra).
  unfold norm. rewrite <- !sqrt_mult by apply norm2_nonneg. apply sqrt_le_1_alt. pose proof (lagrange v t) as L1. pose proof (lagrange w t) as L2.
  replace (norm2 (cross v t)) with (norm2 v * norm2 t - dot v t * dot v t) by lra. replace (norm2 (cross w t)) with (norm2 w * norm2 t - dot w t * dot w t) by lra. lra.
Qed.
Lemma sb_zero : forall v t, cross v t = v0 -> sb v t = 0.
Proof. intros v t Z. unfold sb. rewrite Z. unfold norm at 1. replace (norm2 v0) with 0 by (vunfold; ring). rewrite sqrt_0. unfold Rdiv. ring. Qed.

(** The L1 method: the adjusted rays lie in one plane through both cameras, they
    are the observation rays projected onto it, and of all such planes it has
    the smallest sum of the two angles. *)
Theorem C35_l1_optimal : forall a b t, a <> v0 -> b <> v0 -> t <> v0 -> cross a t <> v0 \/ cross b t <> v0 ->
  exists w0 w1 n, l1_rays realops (rv a) (rv b) (rv t) = (rv w0, rv w1) /\ epipolar_plane t n /\ projected a n w0 /\ projected b n w1 /\
    forall n', epipolar_plane t n' -> angle_to_plane a n + angle_to_plane b n <= angle_to_plane a n' + angle_to_plane b n'.
Proof.
  intros a b t A B T C. unfold l1_rays. rvs. cbn [nval realops].
  assert (forall v w, dot v (cross v w) = 0 /\ dot (cross v w) w = 0) as Z by (intros; split; vunfold; ring).
  destruct (Rltb _ _) eqn:L.
  - apply Rltb_iff in L. assert (sb a t <= sb b t) as S by (apply sb_compare; try assumption; lra).
    assert (cross b t <> v0) as C'. { intro Q. destruct C as [C|C]; [|easy]. pose proof (sb_pos a t A T C). rewrite (sb_zero b t Q) in S. lra. }
    destruct (deflect_projected a (cross b t) C') as (w & -> & Pw). exists w, b, (cross b t). split; [reflexivity|]. split; [split; [exact C'|apply Z]|]. split; [exact Pw|].
    split; [apply projected_self, Z|]. intros n' H. rewrite (Rplus_comm (angle_to_plane a _)), (Rplus_comm (angle_to_plane a n')). now apply one_ray_best.
  - assert (sb b t <= sb a t) as S. { apply sb_compare; try assumption. apply Rnot_lt_le. intro Q. apply Rltb_true in Q. rewrite Q in L. discriminate. }
    assert (cross a t <> v0) as C'. { intro Q. destruct C as [C|C]; [easy|]. pose proof (sb_pos b t B T C). rewrite (sb_zero a t Q) in S. lra. }
    destruct (deflect_projected b (cross a t) C') as (w & -> & Pw). exists a, w, (cross a t). split; [reflexivity|]. split; [split; [exact C'|apply Z]|].
    split; [apply projected_self, Z|]. split; [exact Pw|]. intros n' H. now apply one_ray_best.
Qed.
Print Assumptions C35_l1_optimal.

(** ** L-infinity *)
Definition along (v n : v3) := Rabs (dot v n) / norm n.
Lemma along_bound : forall v n t, t <> v0 -> epipolar_plane t n -> along v (cross n t) <= norm (cross v t) / norm t.
Proof.
  intros v n t T [N H]. pose proof (norm_pos _ N). pose proof (norm_pos _ T). unfold along. rewrite norm_cross_perp by exact H.
  apply (Rmult_le_reg_r (norm n * norm t)); [now apply Rmult_lt_0_compat|].
  replace (Rabs (dot v (cross n t)) / (norm n * norm t) * (norm n * norm t)) with (Rabs (dot v (cross n t))) by (field; lra).
  replace (norm (cross v t) / norm t * (norm n * norm t)) with (norm (cross v t) * norm n) by (field; lra).
  unfold norm. rewrite <- sqrt_mult by apply norm2_nonneg. rewrite <- (sqrt_Rsqr_abs (dot v (cross n t))). apply sqrt_le_1_alt. rewrite (perp_split n t v H). unfold Rsqr.
  pose proof (norm2_nonneg t). nra.
Qed.
Lemma along_vol : forall v w n t, t <> v0 -> epipolar_plane t n -> Rabs (dot (cross v w) t) / norm t <= along v n * along w (cross n t) + along v (cross n t) * along w n.
Proof.
  intros v w n t T [N H]. pose proof (norm_pos _ N). pose proof (norm_pos _ T). unfold along. rewrite norm_cross_perp by exact H.
  assert (0 < norm n * norm n * norm t) as P by (repeat apply Rmult_lt_0_compat; assumption).
  apply (Rmult_le_reg_r (norm n * norm n * norm t)); [exact P|].
  replace (Rabs (dot (cross v w) t) / norm t * (norm n * norm n * norm t)) with (Rabs (dot (cross v w) t) * (norm n * norm n)) by (field; lra).
  replace ((Rabs (dot v n) / norm n * (Rabs (dot w (cross n t)) / (norm n * norm t)) + Rabs (dot v (cross n t)) / (norm n * norm t) * (Rabs (dot w n) / norm n)) * (norm n * norm n * norm t))
    with (Rabs (dot v n) * Rabs (dot w (cross n t)) + Rabs (dot v (cross n t)) * Rabs (dot w n)) by (field; lra).
  rewrite norm_sq. pose proof (triple_split n t v w H) as E.
  assert (Rabs (dot (cross v w) t) * norm2 n = Rabs (- dot (cross v w) t * norm2 n)) as ->. { rewrite Rabs_mult, Rabs_Ropp, (Rabs_right (norm2 n)) by (apply Rle_ge, norm2_nonneg). reflexivity. }
  rewrite E. eapply Rle_trans; [apply Rabs_triang|]. rewrite Rabs_Ropp, !Rabs_mult. lra.
Qed.
Lemma along_nonneg : forall v n, n <> v0 -> 0 <= along v n.
Proof. intros v n N. pose proof (norm_pos _ N). apply Rmult_le_pos; [apply Rabs_pos|left; now apply Rinv_0_lt_compat]. Qed.
(** |x|+|y| over 2 with x = u+w, y = u-w is the larger of |u|, |w| *)
Lemma max_half : forall x y, Rabs (x + y) + Rabs (x - y) = 2 * Rmax (Rabs x) (Rabs y).
Proof. intros x y. unfold Rmax. destruct (Rle_dec _ _) as [L|L]; revert L; unfold Rabs; repeat destruct (Rcase_abs _); lra. Qed.
(** A x t at least as long as B x t *)
Lemma larger_best : forall A B n t, t <> v0 -> cross A t <> v0 -> norm2 (cross B t) <= norm2 (cross A t) -> epipolar_plane t n ->
  along B (cross A t) <= along A n + along B n.
Proof.
  intros A B n t T C L [N H]. pose proof (norm_pos _ T) as Pt. pose proof (norm_pos _ C) as Pc.
  assert (norm (cross B t) <= norm (cross A t)) as L' by (apply sqrt_le_1_alt; exact L).
  pose proof (along_vol A B n t T (conj N H)) as V. pose proof (along_bound A n t T (conj N H)) as BA. pose proof (along_bound B n t T (conj N H)) as BB.
  assert (norm (cross B t) / norm t <= norm (cross A t) / norm t) as BB' by (apply Rmult_le_compat_r; [left; now apply Rinv_0_lt_compat|exact L']).
  pose proof (along_nonneg A n N). pose proof (along_nonneg B n N). set (m := norm (cross A t) / norm t) in *.
  assert (0 < m) by (apply Rmult_lt_0_compat; [exact Pc|now apply Rinv_0_lt_compat]).
  assert (along B (cross A t) = Rabs (dot (cross A B) t) / norm t / m) as ->.
  { unfold along, m. replace (dot B (cross A t)) with (- dot (cross A B) t) by (vunfold; ring). rewrite Rabs_Ropp. field. lra. }
  apply (Rmult_le_reg_r m); [easy|]. replace (Rabs (dot (cross A B) t) / norm t / m * m) with (Rabs (dot (cross A B) t) / norm t) by (field; lra).
  eapply Rle_trans; [exact V|]. nra.
Qed.
Lemma norm_unit : forall a, a <> v0 -> norm (vscale (/ norm a) a) = 1.
Proof. intros a A. pose proof (norm_pos _ A). rewrite norm_vscale, Rabs_right; [field; lra|]. left. now apply Rinv_0_lt_compat. Qed.
Lemma sn_unit : forall a n, a <> v0 -> n <> v0 -> sn a n = along (vscale (/ norm a) a) n.
Proof.
  intros a n A N. pose proof (norm_pos _ A). pose proof (norm_pos _ N). unfold sn, along. replace (dot (vscale (/ norm a) a) n) with (/ norm a * dot a n) by (vunfold; ring).
  rewrite Rabs_mult, (Rabs_right (/ norm a)) by (left; now apply Rinv_0_lt_compat). field. lra.
Qed.
Lemma asin_mono : forall x y, 0 <= x <= 1 -> 0 <= y <= 1 -> x <= y -> asin x <= asin y.
Proof. intros x y X Y L. apply asin_below; [lra|now apply asin_ge0|rewrite sin_asin; lra]. Qed.
Lemma asin_max : forall x y, 0 <= x <= 1 -> 0 <= y <= 1 -> Rmax (asin x) (asin y) = asin (Rmax x y).
Proof.
  intros x y X Y. destruct (Rle_lt_dec x y) as [L|L].
  - rewrite !Rmax_right; [reflexivity|exact L|now apply asin_mono].
  - rewrite !Rmax_left; [reflexivity|lra|apply asin_mono; lra].
Qed.
Lemma along_max : forall u w n, n <> v0 -> 2 * Rmax (along u n) (along w n) = along (vadd u w) n + along (vsub u w) n.
Proof.
  intros u w n N. pose proof (norm_pos _ N). unfold along. replace (dot (vadd u w) n) with (dot u n + dot w n) by (vunfold; ring). replace (dot (vsub u w) n) with (dot u n - dot w n) by (vunfold; ring).
  pose proof (max_half (dot u n) (dot w n)) as M. replace (Rabs (dot u n + dot w n) / norm n + Rabs (dot u n - dot w n) / norm n) with ((Rabs (dot u n + dot w n) + Rabs (dot u n - dot w n)) / norm n) by (field; lra).
  rewrite M. unfold Rdiv. rewrite !(Rmult_comm _ (/ norm n)), (RmaxRmult _ _ (/ norm n)) by (left; now apply Rinv_0_lt_compat). ring.
Qed.

(** The L-infinity method: likewise, with the smallest maximum of the two angles. *)
Theorem C35_linf_optimal : forall a b t, a <> v0 -> b <> v0 -> t <> v0 -> cross a t <> v0 \/ cross b t <> v0 ->
  exists w0 w1 n, linf_rays realops (rv a) (rv b) (rv t) = (rv w0, rv w1) /\ epipolar_plane t n /\
    projected (vscale (/ norm a) a) n w0 /\ projected (vscale (/ norm b) b) n w1 /\
    forall n', epipolar_plane t n' -> Rmax (angle_to_plane a n) (angle_to_plane b n) <= Rmax (angle_to_plane a n') (angle_to_plane b n').
Proof.
  intros a b t A B T C. unfold linf_rays. rvs. cbn [nval realops]. set (u := vscale (/ norm a) a). set (w := vscale (/ norm b) b).
  pose proof (norm_pos _ A) as PA. pose proof (norm_pos _ B) as PB.
  assert (forall p q s, p <> v0 -> epipolar_plane t p -> cross q t = p -> norm2 (cross s t) <= norm2 p -> (q = vadd u w /\ s = vsub u w) \/ (q = vsub u w /\ s = vadd u w) ->
    forall n', epipolar_plane t n' -> Rmax (angle_to_plane a p) (angle_to_plane b p) <= Rmax (angle_to_plane a n') (angle_to_plane b n')) as Main.
  { intros p q s P EP Q L QS n' [N' H']. unfold angle_to_plane. fold (sn a p) (sn b p) (sn a n') (sn b n').
    pose proof (sn_bounds a p A P). pose proof (sn_bounds b p B P). pose proof (sn_bounds a n' A N'). pose proof (sn_bounds b n' B N').
    assert (forall x y, 0 <= x <= 1 -> 0 <= y <= 1 -> 0 <= Rmax x y <= 1) as MB by (intros x y X Y; unfold Rmax; destruct (Rle_dec x y); lra).
    rewrite !asin_max by assumption. apply asin_mono; [now apply MB|now apply MB|]. rewrite !sn_unit by assumption. fold u w.
    pose proof (along_max u w p P) as M1. pose proof (along_max u w n' N') as M2.
    assert (along q p = 0) as Z. { unfold along. rewrite <- Q. replace (dot q (cross q t)) with 0 by (vunfold; ring). rewrite Rabs_R0. unfold Rdiv. ring. }
    assert (along s p <= along q n' + along s n') as Best by (rewrite <- Q in *; apply larger_best; [exact T|exact P|exact L|split; assumption]).
    destruct QS as [[-> ->]|[-> ->]]; lra. }
  assert (norm2 (cross (vadd u w) t) <> 0 \/ norm2 (cross (vsub u w) t) <> 0) as NZ.
  { destruct (Req_dec (norm2 (cross (vadd u w) t)) 0) as [Z1|?]; [|now left]. destruct (Req_dec (norm2 (cross (vsub u w) t)) 0) as [Z2|?]; [|now right]. exfalso.
    apply norm2_zero in Z1. apply norm2_zero in Z2. destruct C as [C|C]; apply C.
    - replace (cross a t) with (vscale (norm a / 2) (vadd (cross (vadd u w) t) (cross (vsub u w) t))) by (unfold u, w; vsplit; vunfold; field; lra). rewrite Z1, Z2. vring.
    - replace (cross b t) with (vscale (norm b / 2) (vsub (cross (vadd u w) t) (cross (vsub u w) t))) by (unfold u, w; vsplit; vunfold; field; lra). rewrite Z1, Z2. vring. }
  pose proof (norm2_nonneg (cross (vadd u w) t)). pose proof (norm2_nonneg (cross (vsub u w) t)).
  assert (forall q, norm2 (cross q t) <> 0 -> cross q t <> v0) as NN by (intros q Q Z; apply Q; rewrite Z; vunfold; ring).
  assert (forall q, dot (cross q t) t = 0) as OT by (intros; vunfold; ring).
  destruct (Rltb _ _) eqn:L.
  - apply Rltb_iff in L. assert (cross (vadd u w) t <> v0) as P by (apply NN; lra).
    destruct (deflect_projected u _ P) as (w0 & -> & P0). destruct (deflect_projected w _ P) as (w1 & -> & P1). exists w0, w1, (cross (vadd u w) t).
    split; [reflexivity|]. split; [split; [exact P|apply OT]|]. split; [exact P0|]. split; [exact P1|].
    eapply Main with (q := vadd u w) (s := vsub u w); [exact P|split; [exact P|apply OT]|reflexivity|lra|tauto].
  - assert (norm2 (cross (vadd u w) t) <= norm2 (cross (vsub u w) t)) as L' by (apply Rnot_lt_le; intro Q; apply Rltb_true in Q; rewrite Q in L; discriminate).
    assert (cross (vsub u w) t <> v0) as P by (apply NN; lra).
    destruct (deflect_projected u _ P) as (w0 & -> & P0). destruct (deflect_projected w _ P) as (w1 & -> & P1). exists w0, w1, (cross (vsub u w) t).
    split; [reflexivity|]. split; [split; [exact P|apply OT]|]. split; [exact P0|]. split; [exact P1|].
    eapply Main with (q := vsub u w) (s := vadd u w); [exact P|split; [exact P|apply OT]|reflexivity|lra|tauto].
Qed.
Print Assumptions C35_linf_optimal.

(** A returned point lies on both adjusted rays: they do intersect. *)
Lemma coplanar_two : forall t n w0 w1, epipolar_plane t n -> dot w0 n = 0 -> dot w1 n = 0 -> dot (cross w0 w1) t = 0.
Proof.
  intros t n w0 w1 [N H] H0 H1. pose proof (norm2_pos _ N) as P. pose proof (triple_split n t w0 w1 H) as E. rewrite H0, H1 in E.
  assert (- dot (cross w0 w1) t * norm2 n = 0) as Z by lra. apply Rmult_integral in Z. destruct Z; lra.
Qed.
Theorem C35_result_on_both_rays : forall a b t m, a <> v0 -> b <> v0 -> t <> v0 -> cross a t <> v0 \/ cross b t <> v0 ->
  (tri_l1 realops (rv a) (rv b) (rv t) = Some m -> exists w0 w1 k0 k1, l1_rays realops (rv a) (rv b) (rv t) = (rv w0, rv w1) /\
     0 < k0 /\ 0 <= k1 /\ leecivera_l1 a b t = vscale k0 w0 /\ leecivera_l1 a b t = vadd t (vscale k1 w1)) /\
  (tri_linf realops (rv a) (rv b) (rv t) = Some m -> exists w0 w1 k0 k1, linf_rays realops (rv a) (rv b) (rv t) = (rv w0, rv w1) /\
     0 < k0 /\ 0 <= k1 /\ leecivera_linf a b t = vscale k0 w0 /\ leecivera_linf a b t = vadd t (vscale k1 w1)).
Proof.
  intros a b t m A B T C. unfold leecivera_l1, leecivera_linf, tri_l1, tri_linf. split.
  - destruct (C35_l1_optimal a b t A B T C) as (w0 & w1 & n & -> & E & [P0 _] & [P1 _] & _). intro S.
    destruct (assume_intersect_sound w0 w1 t m (coplanar_two t n w0 w1 E P0 P1) S) as (k0 & k1 & K0 & K1 & -> & M).
    exists w0, w1, k0, k1. rewrite S. cbn [point_of]. rewrite rv_val. auto.
  - destruct (C35_linf_optimal a b t A B T C) as (w0 & w1 & n & -> & E & [P0 _] & [P1 _] & _). intro S.
    destruct (assume_intersect_sound w0 w1 t m (coplanar_two t n w0 w1 E P0 P1) S) as (k0 & k1 & K0 & K1 & -> & M).
    exists w0, w1, k0, k1. rewrite S. cbn [point_of]. rewrite rv_val. auto.
Qed.
Print Assumptions C35_result_on_both_rays.
(** non-trivial case: rays that miss each other *)
Example ex_leecivera : V3 0 1 5 <> v0 /\ V3 (-1) 0 5 <> v0 /\ V3 1 0 0 <> v0 /\ cross (V3 0 1 5) (V3 1 0 0) <> v0 /\ dot (cross (V3 0 1 5) (V3 (-1) 0 5)) (V3 1 0 0) <> 0.
Proof. repeat split; try (intro Z; first [apply (f_equal vz) in Z; cbn in Z; lra | apply (f_equal vx) in Z; cbn in Z; lra | vunfold; lra]). Qed.
