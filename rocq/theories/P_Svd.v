(** Every 3x3 matrix of real numbers has a singular value decomposition: a LAPACK that never fails and always keeps its promises ([is_svd]) can exist. *)
From Coq Require Import Reals Lra Psatz.
From Verif Require Import S_Vec M_Align C_Align.
Open Scope R_scope.

Definition v3_dec : forall a b : v3, {a = b} + {a <> b}.
Proof. decide equality; apply Req_EM_T. Defined.
Definition onb (a b c : v3) : Prop := dot a a = 1 /\ dot b b = 1 /\ dot c c = 1 /\ dot a b = 0 /\ dot a c = 0 /\ dot b c = 0.
Definition cols (a b c : v3) : m33 := M33 (vx a) (vx b) (vx c) (vy a) (vy b) (vy c) (vz a) (vz b) (vz c).

(** *** one-sided inverses *)
Definition adj (m : m33) : m33 := let '(M33 a b c d e f g h i) := m in
  M33 (e * i - f * h) (c * h - b * i) (b * f - c * e) (f * g - d * i) (a * i - c * g) (c * d - a * f) (d * h - e * g) (b * g - a * h) (a * e - b * d).
Lemma mm_adj : forall m, mm m (adj m) = diag3 (V3 (det m) (det m) (det m)).
Proof. intros [a b c d e f g h i]. unfold diag3, adj. vring. Qed.
Lemma orth_sides : forall m, mm (mT m) m = I3 -> mm m (mT m) = I3.
Proof.
  intros m H. assert (det m * det m = 1) as D.
  { rewrite <- (det_mT m) at 1. rewrite <- det_mm, H. vunfold. ring. }
  assert (mT m = mm (mT m) (diag3 (V3 (det m * det m) (det m * det m) (det m * det m)))) as E.
  { rewrite D. unfold diag3. vring. }
  assert (forall k a, mm a (diag3 (V3 (k * k) (k * k) (k * k))) = mm (mm a (diag3 (V3 k k k))) (diag3 (V3 k k k))) as Q by (intros; unfold diag3; vring).
  assert (mm (mT m) (diag3 (V3 (det m) (det m) (det m))) = adj m) as Ad by (rewrite <- mm_adj, <- mm_assoc, H; apply mm_I_l).
  rewrite Q, Ad in E. rewrite E, <- mm_assoc, mm_adj.
  replace (mm (diag3 (V3 (det m) (det m) (det m))) (diag3 (V3 (det m) (det m) (det m)))) with (diag3 (V3 (det m * det m) (det m * det m) (det m * det m))) by (unfold diag3; vring).
  rewrite D. reflexivity.
Qed.
Lemma onb_orthogonal : forall a b c, onb a b c -> orthogonal (cols a b c).
Proof.
  intros a b c (A & B & C & AB & AC & BC). assert (mm (mT (cols a b c)) (cols a b c) = I3) as H.
  { unfold cols. apply m33_eq; vunfold; lra. }
  split; [exact H|now apply orth_sides].
Qed.
(** U d V' rebuilds A if A maps the columns of V to the scaled columns of U *)
Lemma rebuild : forall A a b c u v w d, onb a b c -> mv A a = vscale (vx d) u -> mv A b = vscale (vy d) v -> mv A c = vscale (vz d) w ->
  A = mm (mm (cols u v w) (diag3 d)) (mT (cols a b c)).
Proof.
  intros A a b c u v w d H Ea Eb Ec. destruct (onb_orthogonal _ _ _ H) as (_ & O).
  replace (mm (cols u v w) (diag3 d)) with (mm A (cols a b c)).
  - now rewrite mm_assoc, O, mm_I_r.
  - transitivity (cols (mv A a) (mv A b) (mv A c)); [unfold cols; vring|]. rewrite Ea, Eb, Ec. unfold cols, diag3. vring.
Qed.

(** *** directions *)
Definition unit (v : v3) : v3 := vscale (/ norm v) v.
Lemma unit_dot : forall v, v <> v0 -> dot (unit v) (unit v) = 1.
Proof.
  intros v H. pose proof (norm_pos v H) as P. pose proof (norm_sq v) as Q. unfold unit. transitivity (/ norm v * / norm v * norm2 v); [vunfold; ring|]. rewrite <- Q. field. lra.
Qed.
Lemma unit_scale : forall v, v <> v0 -> vscale (norm v) (unit v) = v.
Proof. intros v H. pose proof (norm_pos v H) as P. unfold unit. apply v3_eq; vunfold; field; lra. Qed.
Lemma dot_scale : forall j k u v, dot (vscale j u) (vscale k v) = j * k * dot u v.
Proof. vring. Qed.
Definition perp : forall v, {u | u <> v0 /\ dot v u = 0}.
Proof.
  intro v. destruct (v3_dec (V3 (- vy v) (vx v) 0) v0) as [E|E].
  - exists (V3 1 0 0). split; [intro X; apply (f_equal vx) in X; cbn in X; lra|]. apply (f_equal vy) in E. cbn in E. unfold dot. cbn. lra.
  - eexists. split; [exact E|]. vring.
Defined.
Definition complete : forall a, dot a a = 1 -> {bc | onb a (fst bc) (snd bc)}.
Proof.
  intros a A. destruct (perp a) as (u & U & P). exists (unit u, cross a (unit u)). cbn [fst snd].
  pose proof (unit_dot u U) as B. assert (dot a (unit u) = 0) as AB by (unfold unit; transitivity (/ norm u * dot a u); [vunfold; ring|rewrite P; ring]).
  split; [exact A|]. split; [exact B|]. split; [|split; [exact AB|split; vring]].
  transitivity (dot a a * dot (unit u) (unit u) - dot a (unit u) * dot a (unit u)); [vring|]. rewrite A, B, AB. ring.
Defined.
Lemma onb_cross : forall a b, dot a a = 1 -> dot b b = 1 -> dot a b = 0 -> onb a b (cross a b).
Proof.
  intros a b A B AB. split; [exact A|]. split; [exact B|]. split; [|split; [exact AB|split; vring]].
  transitivity (dot a a * dot b b - dot a b * dot a b); [vring|]. rewrite A, B, AB. ring.
Qed.

(** *** singular matrices have a null vector *)
Lemma parallel : forall r s v, r <> v0 -> cross r s = v0 -> dot r v = 0 -> dot s v = 0.
Proof.
  intros r s v N C D. assert (norm2 r <> 0) as P by (intro X; now apply N, norm2_zero).
  assert (norm2 r * dot s v = 0) as E; [|apply Rmult_integral in E; tauto].
  transitivity (dot r s * dot r v + dot (cross r s) (cross r v)); [vring|]. rewrite D, C. vunfold. ring.
Qed.
Lemma mv_rows : forall m v, dot (mrow m 0) v = 0 -> dot (mrow m 1) v = 0 -> dot (mrow m 2) v = 0 -> mv m v = v0.
Proof. intros m v A B C. apply v3_eq; [exact A|exact B|exact C]. Qed.
Lemma cross_swap : forall a b, cross a b = v0 -> cross b a = v0.
Proof. intros a b H. transitivity (vneg (cross a b)); [vring|]. rewrite H. apply v3_eq; vunfold; ring. Qed.
Definition null : forall m, det m = 0 -> {v | v <> v0 /\ mv m v = v0}.
Proof.
  intros m D. set (r0 := mrow m 0). set (r1 := mrow m 1). set (r2 := mrow m 2).
  assert (dot r2 (cross r0 r1) = 0 /\ dot r1 (cross r0 r2) = 0 /\ dot r0 (cross r1 r2) = 0) as (D2 & D1 & D0).
  { unfold r0, r1, r2, mrow. split; [|split]; rewrite <- D || rewrite <- (Ropp_involutive 0), Ropp_0, <- D; destruct m; vunfold; ring || lra. }
  destruct (v3_dec (cross r0 r1) v0) as [C01|C01].
  2:{ exists (cross r0 r1). split; [exact C01|]. apply mv_rows; fold r0 r1 r2; [vring|vring|exact D2]. }
  destruct (v3_dec (cross r0 r2) v0) as [C02|C02].
  2:{ exists (cross r0 r2). split; [exact C02|]. apply mv_rows; fold r0 r1 r2; [vring|exact D1|vring]. }
  destruct (v3_dec (cross r1 r2) v0) as [C12|C12].
  2:{ exists (cross r1 r2). split; [exact C12|]. apply mv_rows; fold r0 r1 r2; [exact D0|vring|vring]. }
  destruct (v3_dec r0 v0) as [E0|E0].
  - destruct (v3_dec r1 v0) as [E1|E1].
    + destruct (perp r2) as (u & U & P). exists u. split; [exact U|]. apply mv_rows; fold r0 r1 r2; [rewrite E0; vring|rewrite E1; vring|exact P].
    + destruct (perp r1) as (u & U & P). exists u. split; [exact U|]. apply mv_rows; fold r0 r1 r2; [rewrite E0; vring|exact P|exact (parallel r1 r2 u E1 C12 P)].
  - destruct (perp r0) as (u & U & P). exists u. split; [exact U|]. apply mv_rows; fold r0 r1 r2; [exact P|exact (parallel r0 r1 u E0 C01 P)|exact (parallel r0 r2 u E0 C02 P)].
Defined.

(** *** a real eigenvalue *)
Lemma cubic_root : forall c2 c1 c0, {x | - (x * x * x) + c2 * x * x + c1 * x + c0 = 0}.
Proof.
  intros c2 c1 c0. set (f := fun x => - (x * x * x) + c2 * x * x + c1 * x + c0). set (K := 1 + Rabs c2 + Rabs c1 + Rabs c0).
  pose proof (Rabs_pos c2) as P2. pose proof (Rabs_pos c1) as P1. pose proof (Rabs_pos c0) as P0.
  assert (1 <= K) as K1 by (unfold K; lra).
  assert (Rabs c2 * (K * K) + Rabs c1 * K + Rabs c0 <= K * K * K) as B.
  { assert (K <= K * K) as KK by nra. assert (1 <= K * K) as KK1 by lra.
    assert (Rabs c1 * K <= Rabs c1 * (K * K)) by (apply Rmult_le_compat_l; lra).
    assert (Rabs c0 * 1 <= Rabs c0 * (K * K)) by (apply Rmult_le_compat_l; lra).
    replace (K * K * K) with ((1 + Rabs c2 + Rabs c1 + Rabs c0) * (K * K)) by (unfold K; ring). nra. }
  assert (forall x y, 0 <= y -> - (Rabs x * y) <= x * y <= Rabs x * y) as AB.
  { intros x y Y. split; [rewrite Ropp_mult_distr_l|]; apply Rmult_le_compat_r; try exact Y; unfold Rabs; destruct (Rcase_abs x); lra. }
  pose proof (AB c2 (K * K) ltac:(nra)) as A2. pose proof (AB c1 K ltac:(lra)) as A1. pose proof (AB c0 1 ltac:(lra)) as A0.
  assert (f K <= 0) as FK by (unfold f; replace (c2 * K * K) with (c2 * (K * K)) by ring; lra).
  assert (0 <= f (- K)) as FM by (unfold f; replace (- (- K * - K * - K) + c2 * - K * - K + c1 * - K + c0) with (K * K * K + c2 * (K * K) - c1 * K + c0) by ring; lra).
  destruct (IVT_cor f (- K) K) as (x & _ & E); [|lra| |exists x; exact E].
  - unfold f. reg.
  - assert (0 <= f (- K) * (- f K)) by (apply Rmult_le_pos; lra). lra.
Qed.
Definition symmetric (s : m33) : Prop := mT s = s.
Definition eigen : forall s, {lv | snd lv <> v0 /\ mv s (snd lv) = vscale (fst lv) (snd lv)}.
Proof.
  intros s. set (sub := fun x => M33 (m00 s - x) (m01 s) (m02 s) (m10 s) (m11 s - x) (m12 s) (m20 s) (m21 s) (m22 s - x)).
  destruct (cubic_root (trace s) (- (m00 s * m11 s - m01 s * m10 s + m00 s * m22 s - m02 s * m20 s + m11 s * m22 s - m12 s * m21 s)) (det s)) as (x & E).
  destruct (null (sub x)) as (v & V & H).
  - rewrite <- E. unfold sub. vunfold. ring.
  - exists (x, v). cbn [fst snd]. split; [exact V|]. pose proof (f_equal vx H) as Hx. pose proof (f_equal vy H) as Hy. pose proof (f_equal vz H) as Hz. unfold sub in Hx, Hy, Hz. apply v3_eq; vunfold; lra.
Defined.

(** *** a symmetric matrix is diagonal in some frame *)
Lemma root2 : forall p q r, q <> 0 -> {xy | fst xy * fst xy + snd xy * snd xy = 1 /\ - fst xy * snd xy * p + (fst xy * fst xy - snd xy * snd xy) * q + fst xy * snd xy * r = 0}.
Proof.
  intros p q r Q. set (e := sqrt (((p - r) / 2) * ((p - r) / 2) + q * q)). set (l := (p + r) / 2 + e).
  assert (e * e = ((p - r) / 2) * ((p - r) / 2) + q * q) as E by (apply sqrt_sqrt, Rplus_le_le_0_compat; apply Rle_0_sqr).
  assert ((l - p) * (l - r) = q * q) as L by (transitivity (e * e - ((p - r) / 2) * ((p - r) / 2)); [unfold l; field|lra]).
  set (n := sqrt (q * q + (l - p) * (l - p))). assert (0 < q * q) as Qp by (destruct (Rtotal_order q 0) as [X|[X|X]]; [nra|contradiction|nra]).
  assert (0 <= (l - p) * (l - p)) as Lp by apply Rle_0_sqr.
  assert (0 < n) as N by (apply sqrt_lt_R0; lra). assert (n * n = q * q + (l - p) * (l - p)) as NN by (apply sqrt_sqrt; lra).
  exists (q / n, (l - p) / n). cbn [fst snd]. split.
  - transitivity ((q * q + (l - p) * (l - p)) / (n * n)); [field; lra|]. rewrite <- NN. field. lra.
  - transitivity (q * ((l - p) * (r - p) + q * q - (l - p) * (l - p)) / (n * n)); [field; lra|]. rewrite <- L. field. lra.
Qed.
Definition spectral : forall s, symmetric s ->
  {abc | let '(a, b, c) := abc in onb a b c /\ dot a (mv s b) = 0 /\ dot a (mv s c) = 0 /\ dot b (mv s c) = 0}.
Proof.
  intros s Hs. destruct (eigen s) as ((l & v) & V & Ev). cbn [fst snd] in V, Ev.
  set (a := unit v). assert (mv s a = vscale l a) as Ea by (unfold a, unit; rewrite mv_vscale, Ev; vring).
  destruct (complete a (unit_dot v V)) as ((b & c) & O). cbn [fst snd] in O. destruct O as (A & B & C & AB & AC & BC).
  assert (forall x, dot a x = 0 -> dot a (mv s x) = 0) as Sa.
  { intros x X. rewrite dot_comm, dot_mv, Hs, Ea. transitivity (l * dot a x); [vring|]. rewrite X. ring. }
  assert (forall x y, dot x (mv s y) = dot y (mv s x)) as Sy by (intros x y; rewrite dot_comm, dot_mv, Hs; reflexivity).
  destruct (Req_EM_T (dot b (mv s c)) 0) as [Q|Q].
  - exists (a, b, c). split; [split; [exact A|]; auto|]. auto.
  - destruct (root2 (dot b (mv s b)) (dot b (mv s c)) (dot c (mv s c)) Q) as ((x & y) & N & E). cbn [fst snd] in N, E.
    set (b' := vadd (vscale x b) (vscale y c)). set (c' := vadd (vscale (- y) b) (vscale x c)).
    assert (dot a b' = 0) as AB' by (unfold b'; transitivity (x * dot a b + y * dot a c); [vring|rewrite AB, AC; ring]).
    assert (dot a c' = 0) as AC' by (unfold c'; transitivity (- y * dot a b + x * dot a c); [vring|rewrite AB, AC; ring]).
    exists (a, b', c'). split.
    + split; [exact A|]. split; [|split; [|split; [exact AB'|split; [exact AC'|]]]].
      * unfold b'. transitivity (x * x * dot b b + y * y * dot c c + 2 * x * y * dot b c); [vring|]. rewrite B, C, BC. lra.
      * unfold c'. transitivity (y * y * dot b b + x * x * dot c c - 2 * x * y * dot b c); [vring|]. rewrite B, C, BC. lra.
      * unfold b', c'. transitivity (- x * y * dot b b + x * y * dot c c + (x * x - y * y) * dot b c); [vring|]. rewrite B, C, BC. ring.
    + split; [now apply Sa|]. split; [now apply Sa|]. unfold b', c'. rewrite mv_vadd, !mv_vscale.
      transitivity (- x * y * dot b (mv s b) + x * x * dot b (mv s c) - y * y * dot c (mv s b) + x * y * dot c (mv s c)); [generalize (mv s b) (mv s c); vring|].
      rewrite (Sy c b). rewrite <- E. ring.
Defined.

(** *** the decomposition *)
(** a frame whose images are orthogonal *)
Definition good (A : m33) (abc : v3 * v3 * v3) : Prop := let '(a, b, c) := abc in
  onb a b c /\ dot (mv A a) (mv A b) = 0 /\ dot (mv A a) (mv A c) = 0 /\ dot (mv A b) (mv A c) = 0.
Definition frame : forall A, {abc | good A abc}.
Proof.
  intro A. destruct (spectral (mm (mT A) A)) as (((a & b) & c) & O & AB & AC & BC); [unfold symmetric; rewrite mT_mm, mT_mT; reflexivity|].
  exists (a, b, c). split; [exact O|]. rewrite !dot_mv, <- !mv_mm. auto.
Defined.
Lemma good_swap12 : forall A a b c, good A (a, b, c) -> good A (b, a, c).
Proof. intros A a b c ((H1 & H2 & H3 & H4 & H5 & H6) & H7 & H8 & H9). unfold good, onb. rewrite (dot_comm b a), (dot_comm (mv A b) (mv A a)). tauto. Qed.
Lemma good_swap23 : forall A a b c, good A (a, b, c) -> good A (a, c, b).
Proof. intros A a b c ((H1 & H2 & H3 & H4 & H5 & H6) & H7 & H8 & H9). unfold good, onb. rewrite (dot_comm c b), (dot_comm (mv A c) (mv A b)). tauto. Qed.
Definition sorted_frame : forall A, {abc | good A abc /\ let '(a, b, c) := abc in norm (mv A c) <= norm (mv A b) <= norm (mv A a)}.
Proof.
  intro A. destruct (frame A) as (((a & b) & c) & G). set (n := fun x => norm (mv A x)).
  assert (forall x y z, good A (x, y, z) -> n z <= n y -> n y <= n x -> {abc | good A abc /\ let '(a, b, c) := abc in norm (mv A c) <= norm (mv A b) <= norm (mv A a)}) as K by (intros x y z H H1 H2; exists (x, y, z); auto).
  destruct (Rle_dec (n b) (n a)) as [L1|L1]; destruct (Rle_dec (n c) (n b)) as [L2|L2]; destruct (Rle_dec (n c) (n a)) as [L3|L3].
  - apply (K a b c); auto.
  - exfalso. lra.
  - apply (K a c b); [now apply good_swap23|lra|lra].
  - apply (K c a b); [apply good_swap12, good_swap23; exact G|lra|lra].
  - apply (K b a c); [now apply good_swap12|lra|lra].
  - apply (K b c a); [apply good_swap23, good_swap12; exact G|lra|lra].
  - exfalso. lra.
  - apply (K c b a); [apply good_swap12, good_swap23, good_swap12; exact G|lra|lra].
Defined.
Lemma norm0 : forall v, norm v <= 0 -> v = v0.
Proof. intros v H. destruct (v3_dec v v0) as [E|E]; [exact E|]. pose proof (norm_pos v E). lra. Qed.
Lemma norm_v0 : norm v0 = 0.
Proof. unfold norm. replace (norm2 v0) with 0 by vring. apply sqrt_0. Qed.
Lemma zero_scale : forall k, v0 = vscale 0 k.
Proof. vring. Qed.
Definition svd_total : forall A, {UdV | let '(U, d, V) := UdV in is_svd A U d V}.
Proof.
  intro A. destruct (sorted_frame A) as (((a & b) & c) & (O & AB & AC & BC) & L1 & L2).
  set (d := V3 (norm (mv A a)) (norm (mv A b)) (norm (mv A c))).
  assert (forall u v w, onb u v w -> mv A a = vscale (vx d) u -> mv A b = vscale (vy d) v -> mv A c = vscale (vz d) w -> is_svd A (cols u v w) d (cols a b c)) as K.
  { intros u v w Q Ea Eb Ec. split; [now apply onb_orthogonal|]. split; [now apply onb_orthogonal|]. split; [now apply rebuild|].
    unfold d. cbn [vx vy vz]. pose proof (norm_nonneg (mv A c)). lra. }
  assert (forall x y, dot (mv A x) (mv A y) = 0 -> dot (unit (mv A x)) (unit (mv A y)) = 0) as UD by (intros x y H; unfold unit; rewrite dot_scale, H; ring).
  destruct (v3_dec (mv A a) v0) as [Za|Za].
  - rewrite Za, norm_v0 in L2. pose proof (norm_nonneg (mv A b)) as Nb. pose proof (norm_nonneg (mv A c)) as Nc.
    assert (mv A b = v0) as Zb by (apply norm0; lra). assert (mv A c = v0) as Zc by (apply norm0; lra).
    exists (cols a b c, d, cols a b c). apply K; [exact O| | |]; unfold d; cbn [vx vy vz]; rewrite ?Za, ?Zb, ?Zc, norm_v0; apply zero_scale.
  - destruct (v3_dec (mv A b) v0) as [Zb|Zb].
    + rewrite Zb, norm_v0 in L1. assert (mv A c = v0) as Zc by (now apply norm0).
      destruct (complete (unit (mv A a)) (unit_dot _ Za)) as ((v & w) & Q). exists (cols (unit (mv A a)) v w, d, cols a b c).
      apply K; [exact Q| | |]; unfold d; cbn [vx vy vz]; [symmetry; now apply unit_scale|rewrite Zb, norm_v0; apply zero_scale|rewrite Zc, norm_v0; apply zero_scale].
    + destruct (v3_dec (mv A c) v0) as [Zc|Zc].
      * exists (cols (unit (mv A a)) (unit (mv A b)) (cross (unit (mv A a)) (unit (mv A b))), d, cols a b c).
        apply K; [apply onb_cross; [now apply unit_dot|now apply unit_dot|now apply UD]| | |]; unfold d; cbn [vx vy vz]; [symmetry; now apply unit_scale|symmetry; now apply unit_scale|rewrite Zc, norm_v0; apply zero_scale].
      * exists (cols (unit (mv A a)) (unit (mv A b)) (unit (mv A c)), d, cols a b c).
        apply K; [|symmetry; now apply unit_scale|symmetry; now apply unit_scale|symmetry; now apply unit_scale].
        split; [now apply unit_dot|]. split; [now apply unit_dot|]. split; [now apply unit_dot|]. split; [now apply UD|]. split; now apply UD.
Defined.
Definition some_svd (A : m33) : option (m33 * v3 * m33) := Some (proj1_sig (svd_total A)).
Lemma some_svd_ok : (forall A U d V, some_svd A = Some (U, d, V) -> is_svd A U d V) /\ (forall A, some_svd A <> None).
Proof.
  split; [|discriminate]. intros A U d V E. unfold some_svd in E. destruct (svd_total A) as (x & H). cbn in E. injection E as ->. exact H.
Qed.
Print Assumptions some_svd_ok.
