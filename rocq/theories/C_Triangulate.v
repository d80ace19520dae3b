(** C33, C34: triangulation of exact observations; the geometric method. *)
From Coq Require Import Reals Lra Psatz Bool.
From Verif Require Import S_Vec P_Trig M_Dual M_Triangulate P_Triangulate.
Open Scope R_scope.

(** The camera-0 ray (from the origin, along a) and the camera-1 ray (from t,
    along b) meet at P, in front of both cameras. *)
Definition meet_at (a b t P : v3) (k0 k1 : R) : Prop := 0 < k0 /\ 0 < k1 /\ P = vscale k0 a /\ P = vadd t (vscale k1 b).

Definition geometric (a b t : v3) : v3 := point_of (tri_geometric realops (rv a) (rv b) (rv t)).
Definition mid2 (a b t : v3) : v3 := point_of (tri_mid2 realops (rv a) (rv b) (rv t)).
Definition wmid2 (a b t : v3) : v3 := point_of (tri_wmid2 realops (rv a) (rv b) (rv t)).
Definition leecivera_l1 (a b t : v3) : v3 := point_of (tri_l1 realops (rv a) (rv b) (rv t)).
Definition leecivera_linf (a b t : v3) : v3 := point_of (tri_linf realops (rv a) (rv b) (rv t)).

(** ** C34 *)
(** the squared distance between the points with parameters x, y on the two lines *)
Definition gap2 (a b t : v3) (x y : R) : R := norm2 (vsub (vscale x a) (vadd t (vscale y b))).
Definition closest (a b t : v3) (k0 k1 : R) : Prop := forall x y, gap2 a b t k0 k1 <= gap2 a b t x y.

Lemma quad_min : forall A B, 0 <= A -> (forall e, 0 <= 2 * e * B + e * e * A) -> B = 0.
Proof.
  intros A B HA H. destruct (Req_dec A 0) as [->|N].
  - specialize (H (- B)). nra.
  - specialize (H (- B / A)). replace (2 * (- B / A) * B + - B / A * (- B / A) * A) with (- (B * B / A)) in H by (field; exact N).
    assert (0 <= B * B * / A) by (apply Rmult_le_pos; [nra|left; apply Rinv_0_lt_compat; lra]). unfold Rdiv in H.
    assert (B * B * / A = 0) as Z by lra. apply Rmult_integral in Z. destruct Z as [Z|Z]; [nra|]. exfalso. revert Z. apply Rinv_neq_0_compat. exact N.
Qed.
Lemma closest_normal : forall a b t k0 k1, closest a b t k0 k1 <->
  let r := vsub (vscale k0 a) (vadd t (vscale k1 b)) in dot r a = 0 /\ dot r b = 0.
Proof.
  intros a b t k0 k1. cbv zeta. set (r := vsub _ _). split.
  - intro H. split; [apply (quad_min (norm2 a))|apply (quad_min (norm2 b))]; try apply norm2_nonneg; intro e.
    + specialize (H (k0 + e) k1). unfold gap2 in H. fold r in H. replace (norm2 (vsub (vscale (k0 + e) a) (vadd t (vscale k1 b)))) with (norm2 r + (2 * e * dot r a + e * e * norm2 a)) in H by (unfold r; vunfold; ring). lra.
    + specialize (H k0 (k1 - e)). unfold gap2 in H. fold r in H. replace (norm2 (vsub (vscale k0 a) (vadd t (vscale (k1 - e) b)))) with (norm2 r + (2 * e * dot r b + e * e * norm2 b)) in H by (unfold r; vunfold; ring). lra.
  - intros [Ha Hb] x y. unfold gap2. fold r. set (d := vsub (vscale (x - k0) a) (vscale (y - k1) b)).
    replace (norm2 (vsub (vscale x a) (vadd t (vscale y b)))) with (norm2 r + 2 * ((x - k0) * dot r a - (y - k1) * dot r b) + norm2 d) by (unfold r, d; vunfold; ring).
    rewrite Ha, Hb. pose proof (norm2_nonneg d). lra.
Qed.
Definition geo_k0 (a b t : v3) := (norm2 b * dot a t - dot a b * dot b t) / norm2 (cross a b).
Definition geo_k1 (a b t : v3) := (dot a b * dot a t - norm2 a * dot b t) / norm2 (cross a b).
Lemma closest_unique : forall a b t k0 k1, norm2 (cross a b) <> 0 -> (closest a b t k0 k1 <-> k0 = geo_k0 a b t /\ k1 = geo_k1 a b t).
Proof.
  intros a b t k0 k1 D. rewrite closest_normal. cbv zeta. pose proof (lagrange a b) as L.
  assert (dot (vsub (vscale k0 a) (vadd t (vscale k1 b))) a = k0 * norm2 a - dot a t - k1 * dot a b) as -> by (vunfold; ring).
  assert (dot (vsub (vscale k0 a) (vadd t (vscale k1 b))) b = k0 * dot a b - dot b t - k1 * norm2 b) as -> by (vunfold; ring).
  unfold geo_k0, geo_k1. replace (norm2 (cross a b)) with (norm2 a * norm2 b - dot a b * dot a b) in * by lra.
  set (A := norm2 a) in *. set (B := norm2 b) in *. set (C := dot a b) in *. split.
  - intros [E1 E2]. assert (dot a t = k0 * A - k1 * C) as -> by lra. assert (dot b t = k0 * C - k1 * B) as -> by lra. split; field; exact D.
  - intros [-> ->]. split; field; exact D.
Qed.

Lemma geometric_value : forall a b t, geometric a b t =
  if Rle_dec (norm2 (cross a b)) tiny then v0 else if Rle_dec (geo_k0 a b t) 0 then v0 else if Rle_dec (geo_k1 a b t) 0 then v0 else
  vscale (1 / 2) (vadd (vadd (vscale (geo_k0 a b t) a) (vscale (geo_k1 a b t) b)) t).
Proof.
  intros a b t. unfold geometric, tri_geometric. rvs. cbn [nsub nmul ndiv nconst nval realops].
  pose proof (lagrange a b) as L. replace (norm2 a * norm2 b - dot a b * dot a b) with (norm2 (cross a b)) by lra.
  pose proof (norm2_nonneg (cross a b)) as P. assert (0 < tiny) by (unfold tiny; lra). rewrite (Rleb_true (- tiny)) by lra. cbn [andb].
  unfold Rleb at 1. destruct (Rle_dec (norm2 (cross a b)) tiny) as [T|T]; [reflexivity|].
  assert (1 / norm2 (cross a b) * (norm2 b * dot a t - dot a b * dot b t) = geo_k0 a b t) as -> by (unfold geo_k0; field; lra).
  assert (1 / norm2 (cross a b) * (dot a b * dot a t - norm2 a * dot b t) = geo_k1 a b t) as -> by (unfold geo_k1; field; lra).
  unfold Rleb. destruct (Rle_dec (geo_k0 a b t) 0); [reflexivity|]. destruct (Rle_dec (geo_k1 a b t) 0); [reflexivity|]. rvs. cbn [point_of]. now rewrite rv_val.
Qed.

(** There is exactly one pair of closest points unless the rays are parallel ... *)
Theorem C34_closest_exists : forall a b t, cross a b <> v0 ->
  exists k0 k1, closest a b t k0 k1 /\ forall x y, closest a b t x y -> x = k0 /\ y = k1.
Proof.
  intros a b t N. assert (norm2 (cross a b) <> 0) as D by (intro Z; apply N; now apply norm2_zero).
  exists (geo_k0 a b t), (geo_k1 a b t). split; [now apply closest_unique|]. intros x y. now apply closest_unique.
Qed.
Print Assumptions C34_closest_exists.
(** ... and the geometric method returns the midpoint between them if both are
    in front, and (0,0,0) otherwise.  The code treats rays with
    |a x b|^2 <= 1e-10 as parallel. *)
Theorem C34_geometric : forall a b t k0 k1, closest a b t k0 k1 ->
  (tiny < norm2 (cross a b) -> 0 < k0 -> 0 < k1 -> geometric a b t = vscale (1 / 2) (vadd (vscale k0 a) (vadd t (vscale k1 b)))) /\
  (norm2 (cross a b) <= tiny -> geometric a b t = v0) /\
  (k0 <= 0 \/ k1 <= 0 -> cross a b <> v0 -> geometric a b t = v0).
Proof.
  intros a b t k0 k1 C. assert (0 < tiny) by (unfold tiny; lra). rewrite geometric_value.
  split; [|split].
  - intros T K0 K1. apply closest_unique in C; [|lra]. destruct C as [-> ->]. destruct (Rle_dec _ tiny); [lra|]. destruct (Rle_dec _ 0); [lra|]. destruct (Rle_dec _ 0); [lra|]. vring.
  - intros T. destruct (Rle_dec _ tiny); [reflexivity|lra].
  - intros K N. apply closest_unique in C; [|intro Z; apply N; now apply norm2_zero]. destruct C as [-> ->].
    destruct (Rle_dec _ tiny); [reflexivity|]. destruct (Rle_dec _ 0); [reflexivity|]. destruct (Rle_dec _ 0); [reflexivity|lra].
Qed.
Print Assumptions C34_geometric.
Example ex_geometric : closest (V3 0 0 1) (V3 0 1 1) (V3 1 (-1) 0) 1 1 /\ geometric (V3 0 0 1) (V3 0 1 1) (V3 1 (-1) 0) = V3 (1 / 2) 0 1 /\
  geometric (V3 0 0 1) (V3 0 1 1) (V3 1 1 0) = v0.
Proof.
  assert (forall s, closest (V3 0 0 1) (V3 0 1 1) (V3 1 s 0) (- s) (- s)) as C.
  { intro s. apply closest_unique; [vunfold; lra|]. unfold geo_k0, geo_k1. vunfold. split; field. }
  assert (0 < tiny < 1) as T by (unfold tiny; lra).
  split; [|split].
  - assert (- (-1) = 1) as Q by ring. pose proof (C (-1)) as C1. rewrite Q in C1. exact C1.
  - destruct (C34_geometric _ _ _ _ _ (C (-1))) as (H & _). rewrite H; [|vunfold; lra|lra|lra]. vsplit; vunfold; field.
  - destruct (C34_geometric _ _ _ _ _ (C 1)) as (_ & _ & H). apply H; [lra|]. intro Z. apply (f_equal vx) in Z. cbn in Z. lra.
Qed.

(** ** C33 *)
Lemma meet_t : forall a b t P k0 k1, meet_at a b t P k0 k1 -> t = vsub (vscale k0 a) (vscale k1 b) /\ vscale k0 a = vadd t (vscale k1 b).
Proof. intros a b t P k0 k1 (_ & _ & E0 & E1). assert (vscale k0 a = vadd t (vscale k1 b)) as E by congruence. split; [rewrite E; vring|exact E]. Qed.

Theorem C33_geometric : forall a b t P k0 k1, meet_at a b t P k0 k1 -> tiny < norm2 (cross a b) -> geometric a b t = P.
Proof.
  intros a b t P k0 k1 M T. destruct (meet_t _ _ _ _ _ _ M) as [_ E]. destruct M as (K0 & K1 & -> & _).
  assert (closest a b t k0 k1) as C. { apply closest_normal. rewrite E. cbv zeta. split; vunfold; ring. }
  destruct (C34_geometric _ _ _ _ _ C) as (H & _). rewrite H, <- E by assumption. vsplit; vunfold; field.
Qed.
Print Assumptions C33_geometric.

Theorem C33_mid2 : forall a b t P k0 k1, meet_at a b t P k0 k1 -> cross a b <> v0 -> mid2 a b t = P.
Proof.
  intros a b t P k0 k1 M N. destruct (meet_t _ _ _ _ _ _ M) as [T E]. destruct M as (K0 & K1 & -> & _). pose proof (norm2_pos _ N) as Pos.
  unfold mid2, tri_mid2.
  assert (mid2_l0 realops (rv a) (rv b) (rv t) = k0) as L0.
  { unfold mid2_l0, cross_norm2. rvs. cbn [nsqrt nmul ndiv nconst realops]. replace (norm2 (cross b t)) with (k0 * k0 * norm2 (cross a b)) by (rewrite T; vunfold; ring).
    replace (k0 * k0 * norm2 (cross a b) * (1 / norm2 (cross a b))) with (k0 * k0) by (field; lra). apply sqrt_square; lra. }
  assert (mid2_l1 realops (rv a) (rv b) (rv t) = k1) as L1.
  { unfold mid2_l1, cross_norm2. rvs. cbn [nsqrt nmul ndiv nconst realops]. replace (norm2 (cross a t)) with (k1 * k1 * norm2 (cross a b)) by (rewrite T; vunfold; ring).
    replace (k1 * k1 * norm2 (cross a b) * (1 / norm2 (cross a b))) with (k1 * k1) by (field; lra). apply sqrt_square; lra. }
  unfold mid2_point. rewrite L0, L1, chirality_exact by assumption. rvs. cbn [point_of]. rewrite rv_val.
  replace (vadd (vadd (vscale k0 a) t) (vscale k1 b)) with (vadd (vscale k0 a) (vadd t (vscale k1 b))) by vring. rewrite <- E. vsplit; vunfold; field.
Qed.
Print Assumptions C33_mid2.

Lemma unit_meet : forall a b t k0 k1, a <> v0 -> b <> v0 -> vscale k0 a = vadd t (vscale k1 b) ->
  vscale (k0 * norm a) (vscale (/ norm a) a) = vadd t (vscale (k1 * norm b) (vscale (/ norm b) b)).
Proof.
  intros a b t k0 k1 Na Nb E. pose proof (norm_pos _ Na). pose proof (norm_pos _ Nb).
  replace (vscale (k0 * norm a) (vscale (/ norm a) a)) with (vscale k0 a) by (vsplit; vunfold; field; lra).
  replace (vscale (k1 * norm b) (vscale (/ norm b) b)) with (vscale k1 b) by (vsplit; vunfold; field; lra). exact E.
Qed.
Lemma cross_unit : forall a b, a <> v0 -> b <> v0 -> cross a b <> v0 -> cross (vscale (/ norm a) a) (vscale (/ norm b) b) <> v0.
Proof.
  intros a b Na Nb N Z. pose proof (norm_pos _ Na). pose proof (norm_pos _ Nb). apply N.
  replace (cross a b) with (vscale (norm a * norm b) (cross (vscale (/ norm a) a) (vscale (/ norm b) b))) by (vsplit; vunfold; field; lra). rewrite Z. vring.
Qed.
Lemma cross_nz : forall a b, cross a b <> v0 -> a <> v0 /\ b <> v0.
Proof. intros a b N. split; intros ->; apply N; vring. Qed.

Theorem C33_wmid2 : forall a b t P k0 k1, meet_at a b t P k0 k1 -> cross a b <> v0 -> wmid2 a b t = P.
Proof.
  intros a b t P k0 k1 M N. destruct (meet_t _ _ _ _ _ _ M) as [_ E]. destruct M as (K0 & K1 & -> & _). destruct (cross_nz _ _ N) as [Na Nb].
  pose proof (norm_pos _ Na) as Pa. pose proof (norm_pos _ Nb) as Pb. pose proof (unit_meet _ _ _ _ _ Na Nb E) as U. pose proof (cross_unit _ _ Na Nb N) as NU.
  unfold wmid2, tri_wmid2. rvs. set (u := vscale (/ norm a) a) in *. set (w := vscale (/ norm b) b) in *. set (l0 := k0 * norm a) in *. set (l1 := k1 * norm b) in *.
  assert (0 < l0) by (apply Rmult_lt_0_compat; lra). assert (0 < l1) by (apply Rmult_lt_0_compat; lra). pose proof (norm_pos _ NU) as Pc.
  assert (t = vsub (vscale l0 u) (vscale l1 w)) as T by (rewrite U; vring).
  assert (norm (cross w t) = l0 * norm (cross u w)) as C0. { replace (cross w t) with (vscale (- l0) (cross u w)) by (rewrite T; vring). rewrite norm_vscale, Rabs_Ropp, Rabs_right by lra. reflexivity. }
  assert (norm (cross u t) = l1 * norm (cross u w)) as C1. { replace (cross u t) with (vscale (- l1) (cross u w)) by (rewrite T; vring). rewrite norm_vscale, Rabs_Ropp, Rabs_right by lra. reflexivity. }
  unfold cross_mag. rvs. cbn [nmul ndiv nconst nadd realops]. rewrite C0, C1.
  replace (l0 * norm (cross u w) * (1 / norm (cross u w))) with l0 by (field; lra). replace (l1 * norm (cross u w) * (1 / norm (cross u w))) with l1 by (field; lra).
  rewrite chirality_exact by assumption. rvs. cbn [point_of]. rewrite rv_val.
  replace (vscale k0 a) with (vscale l0 u) by (unfold l0, u; vsplit; vunfold; field; lra). rewrite T. vsplit; vunfold; field; lra.
Qed.
Print Assumptions C33_wmid2.

(** no correction is made to rays that are already coplanar with the baseline *)
Lemma deflect_none : forall v n, dot v n = 0 -> deflect realops (rv v) (rv n) = rv v.
Proof. intros v n H. unfold deflect. rvs. rewrite H. f_equal. vring. Qed.

Theorem C33_l1 : forall a b t P k0 k1, meet_at a b t P k0 k1 -> tiny < dets a b -> leecivera_l1 a b t = P.
Proof.
  intros a b t P k0 k1 M D. destruct (meet_t _ _ _ _ _ _ M) as [T E]. destruct M as (K0 & K1 & -> & _).
  unfold leecivera_l1, tri_l1, l1_rays. rvs. rewrite !deflect_none by (rewrite T; vunfold; ring).
  destruct (Rltb _ _); rewrite (assume_intersect_exact a b t k0 k1) by assumption; apply rv_val.
Qed.
Print Assumptions C33_l1.
Lemma dets_unit : forall a b, a <> v0 -> b <> v0 -> dets (vscale (/ norm a) a) (vscale (/ norm b) b) = dets a b / (norm a * norm b).
Proof.
  intros a b Na Nb. pose proof (norm_pos _ Na). pose proof (norm_pos _ Nb). unfold dets.
  assert (0 < / (norm a * norm b)) as P by (apply Rinv_0_lt_compat; now apply Rmult_lt_0_compat).
  replace (cross (vscale (/ norm a) a) (vscale (/ norm b) b)) with (vscale (/ (norm a * norm b)) (cross a b)) by (vsplit; vunfold; field; lra).
  cbn [vscale vx vy]. rewrite !Rabs_mult, (Rabs_right (/ _)) by lra. rewrite RmaxRmult by lra. unfold Rdiv. ring.
Qed.
Theorem C33_linf : forall a b t P k0 k1, meet_at a b t P k0 k1 -> a <> v0 -> b <> v0 -> tiny < dets a b / (norm a * norm b) -> leecivera_linf a b t = P.
Proof.
  intros a b t P k0 k1 M Na Nb D. destruct (meet_t _ _ _ _ _ _ M) as [_ E]. destruct M as (K0 & K1 & -> & _).
  pose proof (norm_pos _ Na) as Pa. pose proof (norm_pos _ Nb) as Pb. pose proof (unit_meet _ _ _ _ _ Na Nb E) as U. rewrite <- (dets_unit a b Na Nb) in D.
  unfold leecivera_linf, tri_linf, linf_rays. rvs. set (u := vscale (/ norm a) a) in *. set (w := vscale (/ norm b) b) in *.
  assert (t = vsub (vscale (k0 * norm a) u) (vscale (k1 * norm b) w)) as T by (rewrite U; vring).
  assert (forall x : bool, deflect realops (rv u) (if x then rv (cross (vadd u w) t) else rv (cross (vsub u w) t)) = rv u /\
    deflect realops (rv w) (if x then rv (cross (vadd u w) t) else rv (cross (vsub u w) t)) = rv w) as F.
  { intros []; split; apply deflect_none; rewrite T; vunfold; ring. }
  destruct (F (Rltb (nval realops (norm2 (cross (vsub u w) t))) (nval realops (norm2 (cross (vadd u w) t))))) as [-> ->].
  rewrite (assume_intersect_exact u w t (k0 * norm a) (k1 * norm b)); [|now apply Rmult_lt_0_compat|now apply Rmult_lt_0_compat|exact U|exact D].
  cbn [point_of]. rewrite rv_val. unfold u. vsplit; vunfold; field; lra.
Qed.
Print Assumptions C33_linf.
(** every division made on the way has a nonzero denominator *)
Theorem C33_defined : forall a b t P k0 k1, meet_at a b t P k0 k1 -> cross a b <> v0 ->
  norm a <> 0 /\ norm b <> 0 /\ norm2 (cross a b) <> 0 /\ norm2 (cross b t) <> 0 /\ norm2 (cross a t) <> 0 /\
  Rmax (norm2 (cross (vadd (vscale (/ norm a) a) (vscale (/ norm b) b)) t)) (norm2 (cross (vsub (vscale (/ norm a) a) (vscale (/ norm b) b)) t)) <> 0.
Proof.
  intros a b t P k0 k1 M N. destruct (meet_t _ _ _ _ _ _ M) as [T E]. destruct M as (K0 & K1 & -> & _). destruct (cross_nz _ _ N) as [Na Nb].
  pose proof (norm_pos _ Na) as Pa. pose proof (norm_pos _ Nb) as Pb. pose proof (norm2_pos _ N) as Pc.
  assert (forall k, 0 < k -> 0 < k * k * norm2 (cross a b)) as Q by (intros; repeat apply Rmult_lt_0_compat; assumption).
  split; [lra|]. split; [lra|]. split; [lra|].
  split; [|split].
  - replace (norm2 (cross b t)) with (k0 * k0 * norm2 (cross a b)) by (rewrite T; vunfold; ring). specialize (Q k0 K0). lra.
  - replace (norm2 (cross a t)) with (k1 * k1 * norm2 (cross a b)) by (rewrite T; vunfold; ring). specialize (Q k1 K1). lra.
  - set (u := vscale _ a). set (w := vscale _ b). intro Z.
    pose proof (norm2_nonneg (cross (vadd u w) t)) as G1. pose proof (norm2_nonneg (cross (vsub u w) t)) as G2.
    pose proof (Rmax_l (norm2 (cross (vadd u w) t)) (norm2 (cross (vsub u w) t))). pose proof (Rmax_r (norm2 (cross (vadd u w) t)) (norm2 (cross (vsub u w) t))).
    assert (norm2 (cross (vadd u w) t) = 0) as Z1 by lra. assert (norm2 (cross (vsub u w) t) = 0) as Z2 by lra. apply norm2_zero in Z1. apply norm2_zero in Z2.
    assert (cross a t = v0) as Z3. { replace (cross a t) with (vscale (norm a / 2) (vadd (cross (vadd u w) t) (cross (vsub u w) t))) by (unfold u, w; vsplit; vunfold; field; lra). rewrite Z1, Z2. vring. }
    assert (norm2 (cross a t) = 0) as Z4 by (rewrite Z3; vunfold; ring). replace (norm2 (cross a t)) with (k1 * k1 * norm2 (cross a b)) in Z4 by (rewrite T; vunfold; ring). specialize (Q k1 K1). lra.
Qed.
Print Assumptions C33_defined.

(** Not so for the L1 and L-infinity methods if both rays are perpendicular to
    the optical axis (z) of camera 0, which a wide lens does see: they give up. *)
Lemma assume_intersect_none : forall w0 w1 t, dets w0 w1 <= tiny -> assume_intersect realops (rv w0) (rv w1) (rv t) = None.
Proof.
  intros w0 w1 t D. unfold assume_intersect. cbn [n_x n_y n_z rv nval realops].
  replace (- vx w0 * vz w1 + vz w0 * vx w1) with (vy (cross w0 w1)) by (cbn; ring).
  replace (- vy w0 * vz w1 + vz w0 * vy w1) with (- vx (cross w0 w1)) by (cbn; ring). rewrite Rabs_Ropp. unfold dets in D.
  pose proof (Rmax_l (Rabs (vx (cross w0 w1))) (Rabs (vy (cross w0 w1)))). pose proof (Rmax_r (Rabs (vx (cross w0 w1))) (Rabs (vy (cross w0 w1)))).
  rewrite !Rleb_true by lra. now destruct (Rltb _ _).
Qed.
Theorem C33_sideways_refuted : exists a b t P k0 k1, meet_at a b t P k0 k1 /\ cross a b <> v0 /\ P <> v0 /\ geometric a b t = P /\ mid2 a b t = P /\ wmid2 a b t = P /\
  leecivera_l1 a b t = v0 /\ leecivera_linf a b t = v0.
Proof.
  exists (V3 1 0 0), (V3 0 1 0), (V3 1 (-1) 0), (V3 1 0 0), 1, 1.
  assert (meet_at (V3 1 0 0) (V3 0 1 0) (V3 1 (-1) 0) (V3 1 0 0) 1 1) as M by (repeat split; try lra; vring).
  assert (cross (V3 1 0 0) (V3 0 1 0) <> v0) as N by (intro Z; apply (f_equal vz) in Z; cbn in Z; lra).
  assert (forall x y, dets (vscale x (V3 1 0 0)) (vscale y (V3 0 1 0)) <= tiny) as D.
  { intros x y. unfold dets. cbn [cross vscale vx vy vz]. match goal with |- Rmax (Rabs ?u) (Rabs ?v) <= _ => replace u with 0 by ring; replace v with 0 by ring end.
    rewrite Rabs_R0, Rmax_left by lra. unfold tiny. lra. }
  split; [exact M|]. split; [exact N|]. split; [intro Z; apply (f_equal vx) in Z; cbn in Z; lra|].
  split; [eapply C33_geometric; [exact M|unfold tiny; vunfold; lra]|]. split; [eapply C33_mid2; [exact M|exact N]|]. split; [eapply C33_wmid2; [exact M|exact N]|].
  split.
  - unfold leecivera_l1, tri_l1, l1_rays. rvs. rewrite !deflect_none by (vunfold; ring).
    specialize (D 1 1). replace (vscale 1 (V3 1 0 0)) with (V3 1 0 0) in D by vring. replace (vscale 1 (V3 0 1 0)) with (V3 0 1 0) in D by vring.
    destruct (Rltb _ _); rewrite assume_intersect_none by exact D; reflexivity.
  - unfold leecivera_linf, tri_linf, linf_rays. rvs. destruct (Rltb _ _); rewrite !deflect_none by (vunfold; ring); rewrite assume_intersect_none by apply D; reflexivity.
Qed.
Print Assumptions C33_sideways_refuted.
Example ex_meet : meet_at (V3 1 0 2) (V3 (-1) 0 2) (V3 2 0 0) (V3 1 0 2) 1 1 /\ cross (V3 1 0 2) (V3 (-1) 0 2) <> v0 /\ tiny < norm2 (cross (V3 1 0 2) (V3 (-1) 0 2)) /\
  tiny < dets (V3 1 0 2) (V3 (-1) 0 2) /\ leecivera_l1 (V3 1 0 2) (V3 (-1) 0 2) (V3 2 0 0) = V3 1 0 2.
Proof.
  assert (meet_at (V3 1 0 2) (V3 (-1) 0 2) (V3 2 0 0) (V3 1 0 2) 1 1) as M by (repeat split; try lra; vring).
  assert (tiny < dets (V3 1 0 2) (V3 (-1) 0 2)) as D.
  { unfold dets. eapply Rlt_le_trans; [|apply Rmax_r]. cbn. replace (2 * -1 - 1 * 2) with (- 4) by ring. rewrite Rabs_left by lra. unfold tiny. lra. }
  split; [exact M|]. split; [intro Z; apply (f_equal vy) in Z; cbn in Z; lra|]. split; [unfold tiny; vunfold; lra|]. split; [exact D|].
  eapply C33_l1; [exact M|exact D].
Qed.
