(** C39: stereo ranging inverts the rectified projection; invalid disparities give 0. *)
From Coq Require Import Reals ZArith List Bool Lia Lra Psatz.
From Verif Require Import S_Vec M_Pose P_Trig M_Project P_Atan2 C_Project M_Stereo C_Rectified.
Import ListNotations.
Open Scope R_scope.

(** *** Specification: a point seen by the two rectified cameras.  Camera 1 sits at (baseline,0,0). *)
Definition sees (model : rmodel) (p : v3) : Prop :=
  match model with
  | LATLON => ~ (vy p = 0 /\ vz p = 0)  (* not on the baseline *)
  | _ => 0 < vz p
  end.
Definition disparity_of (model : rmodel) (c : core) (baseline : R) (p : v3) : R :=
  px (project_rect model c p) - px (project_rect model c (vsub p (V3 baseline 0 0))).

Definition range_of (model : rmodel) (c : core) (baseline disparity : R) (q : p2) : xr :=
  stereo_range_one (Fin disparity) (Fin (px q)) (Fin (py q)) model (Fin (fx c)) (Fin (fy c)) (Fin (cx c)) (Fin (cy c)) (Fin baseline).

Lemma xdiv_fin : forall x y, y <> 0 -> xdiv (Fin x) (Fin y) = Fin (x / y).
Proof. intros x y H. unfold xdiv. destruct (Req_EM_T y 0); [contradiction|reflexivity]. Qed.

(** the azimuths of a point: asin(x/|p|) is the angle in the epipolar plane *)
Lemma latlon_angles : forall x y z, ~ (y = 0 /\ z = 0) ->
  let h := sqrt (y * y + z * z) in let n := norm (V3 x y z) in
  let az := asin (x * sqrt (1 / (x * x + y * y + z * z))) in
  0 < h /\ 0 < n /\ n * sin az = x /\ n * cos az = h /\ - (PI / 2) < az < PI / 2.
Proof.
  intros x y z H h n az.
  assert (0 < y * y + z * z) as Q.
  { destruct (Req_dec y 0) as [Y|Y]; [destruct (Req_dec z 0) as [Z|Z]; [tauto|nra]|nra]. }
  assert (0 < h) as Hp by now apply sqrt_lt_R0.
  assert (V3 x y z <> v0) as Nz by (intro E; inversion E; subst; lra).
  pose proof (norm_pos _ Nz) as Np. fold n in Np.
  assert (n * n = x * x + h * h) as Nn.
  { unfold n. rewrite norm_sq. unfold norm2, dot, h. cbn. rewrite sqrt_sqrt by lra. ring. }
  pose proof (inv_norm (V3 x y z) Nz) as I. cbn [vx vy vz] in I. fold n in I.
  set (s := x * / n). assert (-1 < s < 1) as S.
  { unfold s. assert (Rabs x < n). { apply Rsqr_incrst_0; [|apply Rabs_pos|lra]. rewrite <- Rsqr_abs. unfold Rsqr. nra. }
    apply Rabs_def2 in H0. split; apply Rmult_lt_reg_r with n; try exact Np; rewrite Rmult_assoc, Rinv_l by lra; lra. }
  assert (az = asin s) as Ea by (unfold az, s; now rewrite I).
  assert (sin az = s) as Es by (rewrite Ea; apply sin_asin; lra).
  pose proof (asin_bound_lt s S) as B. rewrite <- Ea in B.
  split; [exact Hp|]. split; [exact Np|]. split; [|split; [|exact B]].
  - rewrite Es. unfold s. field. lra.
  - assert (0 < cos az) as C by (apply cos_gt_0; lra). pose proof (sin2_cos2 az) as T. unfold Rsqr in T.
    assert (n * sin az = x) as X by (rewrite Es; unfold s; field; lra).
    assert ((n * cos az) * (n * cos az) = h * h) as E by nra.
    assert (0 < n * cos az) by nra. nra.
Qed.

Theorem C39_latlon : forall c baseline p, fx c <> 0 -> 0 < baseline -> sees LATLON p ->
  range_of LATLON c baseline (disparity_of LATLON c baseline p) (project_latlon c p) = Fin (norm p).
Proof.
  intros c b [x y z] F B S. unfold sees in S. cbn [vy vz] in S.
  destruct (latlon_angles x y z S) as (Hp & Np & Sx & Cx & Bx).
  destruct (latlon_angles (x - b) y z S) as (_ & Np1 & Sx1 & Cx1 & Bx1).
  set (h := sqrt (y * y + z * z)) in *. set (n := norm (V3 x y z)) in *. set (n1 := norm (V3 (x - b) y z)) in *.
  unfold disparity_of, range_of, project_rect, project_latlon, vsub. cbn [px py vx vy vz]. rewrite !Rminus_0_r.
  set (az := asin (x * sqrt (1 / (x * x + y * y + z * z)))) in *.
  set (az1 := asin ((x - b) * sqrt (1 / ((x - b) * (x - b) + y * y + z * z)))) in *.
  unfold stereo_range_one. unfold xsub, xneg, xadd. rewrite !xdiv_fin by exact F.
  replace ((az * fx c + cx c + - cx c) / fx c) with az by (field; exact F).
  replace ((az * fx c + cx c - (az1 * fx c + cx c)) / fx c) with (az - az1) by (field; exact F).
  cbn [xcos xsin xmul]. replace (az + - (az - az1)) with az1 by ring.
  assert (E : n * n1 * sin (az - az1) = b * h).
  { rewrite sin_minus. transitivity ((n * sin az) * (n1 * cos az1) - (n * cos az) * (n1 * sin az1)); [ring|]. rewrite Sx, Cx1, Cx, Sx1. ring. }
  assert (sin (az - az1) <> 0) as Sn by (intro Q; rewrite Q in E; nra).
  rewrite xdiv_fin by exact Sn. cbn [isfinite]. f_equal.
  apply Rmult_eq_reg_r with (sin (az - az1)); [|exact Sn]. unfold Rdiv. rewrite Rmult_assoc, Rinv_l, Rmult_1_r by exact Sn.
  apply Rmult_eq_reg_l with n1; [|lra]. transitivity (b * (n1 * cos az1)); [ring|]. rewrite Cx1, <- E. ring.
Qed.

Theorem C39_pinhole : forall c baseline p, fx c <> 0 -> fy c <> 0 -> 0 < baseline -> sees PINHOLE p ->
  range_of PINHOLE c baseline (disparity_of PINHOLE c baseline p) (project_pinhole c p) = Fin (norm p).
Proof.
  intros c b [x y z] FX FY B S. unfold sees in S. cbn [vz] in S.
  unfold disparity_of, range_of, project_rect, project_pinhole, vsub. cbn [px py vx vy vz]. rewrite !Rminus_0_r.
  unfold stereo_range_one. unfold xsub, xneg, xadd, xmul. rewrite !xdiv_fin by assumption.
  replace ((x * (1 / z) * fx c + cx c + - cx c) / fx c) with (x / z) by (field; lra).
  replace ((y * (1 / z) * fy c + cy c + - cy c) / fy c) with (y / z) by (field; lra).
  replace ((x * (1 / z) * fx c + cx c - ((x - b) * (1 / z) * fx c + cx c)) / fx c) with (b / z) by (field; lra).
  assert (0 < b / z) as Q by (apply Rdiv_lt_0_compat; lra).
  set (n := norm (V3 x y z)).
  assert (0 < n) as Np by (apply norm_pos; intro E; inversion E; lra).
  assert (Nn : n * n = x * x + y * y + z * z) by (unfold n; rewrite norm_sq; reflexivity).
  assert (E : y / z * (y / z) + 1 + x / z * (x / z) = (n / z) * (n / z)).
  { replace (n / z * (n / z)) with (n * n / (z * z)) by (field; lra). rewrite Nn. field. lra. }
  assert (0 < n / z) as Qn by (apply Rdiv_lt_0_compat; lra).
  rewrite E. unfold xsqrt. destruct (Rlt_dec _ _) as [L|L]; [exfalso; nra|].
  rewrite sqrt_square by lra. rewrite !xdiv_fin by lra. cbn [isfinite]. f_equal.
  apply Rmult_eq_reg_r with n; [|lra]. rewrite Nn. field. lra.
Qed.

(** the point itself comes back from stereo_unproject() *)
Theorem C39_unproject_latlon : forall c baseline p r, fx c <> 0 -> fy c <> 0 -> 0 < baseline -> sees LATLON p ->
  range_of LATLON c baseline (disparity_of LATLON c baseline p) (project_latlon c p) = Fin r ->
  stereo_unproject_one LATLON c (project_latlon c p) r = p.
Proof.
  intros c b p r FX FY B S E. rewrite C39_latlon in E by assumption. injection E as <-.
  assert (p <> v0) as Nz by (intro Q; apply S; rewrite Q; split; reflexivity).
  pose proof (C30_latlon_unproject_project c p (conj FX FY) Nz) as U.
  unfold stereo_unproject_one. set (v := unproject_latlon c (project_latlon c p)) in *.
  change (sqrt (vx v * vx v + vy v * vy v + vz v * vz v)) with (norm v).
  assert (norm v = 1) as Nv by (destruct (C30_unit c (project_latlon c p)) as [_ X]; exact X).
  rewrite Nv. pose proof (norm_pos p Nz) as Np.
  assert (p = vscale (norm p) v) as Ep.
  { rewrite U. apply v3_eq; unfold vscale; cbn [vx vy vz]; field; lra. }
  rewrite Ep at 4. apply v3_eq; unfold vscale; cbn [vx vy vz]; field.
Qed.
Theorem C39_unproject_pinhole : forall c baseline p r, fx c <> 0 -> fy c <> 0 -> 0 < baseline -> sees PINHOLE p ->
  range_of PINHOLE c baseline (disparity_of PINHOLE c baseline p) (project_pinhole c p) = Fin r ->
  stereo_unproject_one PINHOLE c (project_pinhole c p) r = p.
Proof.
  intros c b [x y z] r FX FY B S E. rewrite C39_pinhole in E by assumption. injection E as <-. unfold sees in S. cbn [vz] in S.
  unfold stereo_unproject_one. set (n := norm (V3 x y z)).
  assert (0 < n) as Np by (apply norm_pos; intro E; inversion E; lra).
  assert (Ev : unproject_pinhole c (project_pinhole c (V3 x y z)) = V3 (x / z) (y / z) 1).
  { unfold unproject_pinhole, project_pinhole. cbn. apply v3_eq; cbn; field; lra. }
  rewrite Ev. cbn [vx vy vz].
  assert (sqrt (x / z * (x / z) + y / z * (y / z) + 1 * 1) = n / z) as Es.
  { replace (x / z * (x / z) + y / z * (y / z) + 1 * 1) with (n / z * (n / z)).
    - apply sqrt_square. apply Rlt_le, Rdiv_lt_0_compat; lra.
    - replace (n / z * (n / z)) with (n * n / (z * z)) by (field; lra). unfold n. rewrite norm_sq. unfold norm2, dot. cbn. field. lra. }
  rewrite Es. apply v3_eq; cbn; field; lra.
Qed.

(** *** the result is a finite number whatever the inputs *)
Theorem C39_always_finite : forall d qx qy model fx fy cx cy b, isfinite (stereo_range_one d qx qy model fx fy cx cy b) = true.
Proof.
  intros. unfold stereo_range_one. destruct model; match goal with |- context [if isfinite ?r then _ else _] => destruct (isfinite r) eqn:E; [exact E|reflexivity] end.
Qed.

(** a disparity that is NaN, infinite, not positive, or outside the limits *)
Definition invalid (dmin dmax d : xr) : Prop :=
  match d with
  | Fin x => x <= 0 \/ match dmin with Fin m => x < m | PInf => True | _ => False end \/ match dmax with Fin m => m < x | MInf => True | _ => False end
  | _ => True
  end.
Lemma nan_range : forall d qx qy model fx fy cx cy b, d = NaN \/ d = PInf -> model <> OTHER -> stereo_range_one d qx qy model fx fy cx cy b = Fin 0.
Proof.
  intros d qx qy model fx fy cx cy b D M. unfold stereo_range_one. destruct model; [| |now destruct M].
  - assert (xsin (xdiv d fx) = NaN \/ exists x, fx = PInf /\ d = x \/ fx = MInf /\ d = x) as X.
    { destruct D as [-> | ->]; [left; destruct fx; reflexivity|]. destruct fx; cbn; try (right; exists PInf; tauto); left.
      - destruct (Req_EM_T r 0); [reflexivity|]. unfold xinf_times. destruct (Req_EM_T r 0); [reflexivity|]. destruct (Rlt_dec _ _); reflexivity.
      - reflexivity. }
    assert (xsin (xdiv d fx) = NaN) as E.
    { destruct X as [X|X]; [exact X|]. destruct D as [-> | ->]; destruct fx; try reflexivity; cbn.
      destruct (Req_EM_T r 0); [reflexivity|]. unfold xinf_times. destruct (Req_EM_T r 0); [reflexivity|]. destruct (Rlt_dec _ _); reflexivity. }
    rewrite E. assert (forall a, xdiv a NaN = NaN) as N by (intros [| | |]; reflexivity). rewrite N. reflexivity.
  - assert (isfinite (xdiv d fx) = false) as I.
    { destruct D as [-> | ->]; destruct fx; try reflexivity; cbn. destruct (Req_EM_T r 0); [reflexivity|].
      unfold xinf_times. destruct (Req_EM_T r 0); [reflexivity|]. destruct (Rlt_dec _ _); reflexivity. }
    assert (NA : forall a, xadd a NaN = NaN) by (intros [| | |]; reflexivity).
    assert (NA' : forall a, xadd NaN a = NaN) by (intros [| | |]; reflexivity).
    assert (NM : forall a, xmul a NaN = NaN) by (intros [| | |]; reflexivity).
    assert (ND : forall a, xdiv a NaN = NaN) by (intros [| | |]; reflexivity).
    set (t0 := xdiv (xsub qx cx) fx). set (s := xadd (xmul _ _) (Fin 1)). set (dd := xdiv d fx) in *.
    assert (xdiv (xadd s (xmul t0 (xsub t0 dd))) dd = NaN) as E.
    { destruct dd as [r| | |]; [discriminate| | |].
      - (* +inf *) destruct t0 as [t| | |]; cbn [xsub xneg xadd xmul]; rewrite ?NA; try reflexivity.
        + unfold xinf_times. destruct (Req_EM_T t 0); [rewrite NA; reflexivity|]. destruct (Rlt_dec 0 t); destruct s; reflexivity.
        + destruct s; reflexivity.
      - destruct t0 as [t| | |]; cbn [xsub xneg xadd xmul]; rewrite ?NA; try reflexivity.
        + unfold xinf_times. destruct (Req_EM_T t 0); [rewrite NA; reflexivity|]. destruct (Rlt_dec 0 t); destruct s; reflexivity.
        + destruct s; reflexivity.
      - apply ND. }
    rewrite E, NA', NM. reflexivity.
Qed.
Theorem C39_invalid_zero : forall ds qs dmin dmax model fx fy cx cy b out, stereo_range_sparse ds qs dmin dmax model fx fy cx cy b = Some out ->
  length ds = length qs -> length out = length ds /\
  forall i d, nth_error ds i = Some d -> invalid dmin dmax d -> nth_error out i = Some (Fin 0).
Proof.
  intros ds qs dmin dmax model fx fy cx cy b out H L. unfold stereo_range_sparse in H.
  assert (model <> OTHER) as M by (intros ->; discriminate).
  assert (out = map (fun '(d, (qx, qy)) => if (xle d (Fin 0) || xlt d dmin || xlt dmax d)%bool then Fin 0 else stereo_range_one d qx qy model fx fy cx cy b) (combine ds qs)) as ->.
  { destruct model; [| |discriminate]; destruct (xle dmax dmin); [discriminate| |discriminate|]; now inversion H. }
  clear H. split; [rewrite map_length, combine_length; lia|].
  revert qs L. induction ds as [|d0 ds IH]; intros [|[qx qy] qs] L i d E Iv; try discriminate; destruct i; try discriminate.
  - cbn in E |- *. inversion E; subst d0. clear E IH. f_equal.
    destruct (xle d (Fin 0)) eqn:E1; [reflexivity|]. destruct (xlt d dmin) eqn:E2; [reflexivity|]. destruct (xlt dmax d) eqn:E3; [reflexivity|]. cbn.
    destruct d as [x| | |]; [exfalso|apply nan_range; tauto|discriminate|apply nan_range; tauto].
    unfold invalid in Iv. cbn in E1, E2, E3. destruct Iv as [Iv|[Iv|Iv]].
    + destruct (Rle_dec x 0); [discriminate|lra].
    + destruct dmin as [m| | |]; try tauto; try discriminate. destruct (Rlt_dec x m); [discriminate|lra].
    + destruct dmax as [m| | |]; try tauto; try discriminate; cbn in E3. destruct (Rlt_dec m x); [discriminate|lra].
  - cbn in E |- *. assert (length ds = length qs) as L2 by (cbn in L; lia). exact (IH qs L2 i d E Iv).
Qed.
(** valid ones are processed: the reverse *)
Theorem C39_valid_processed : forall ds qs dmin dmax model fx fy cx cy b out i x q, stereo_range_sparse ds qs dmin dmax model fx fy cx cy b = Some out ->
  nth_error ds i = Some (Fin x) -> nth_error qs i = Some q -> ~ invalid dmin dmax (Fin x) ->
  nth_error out i = Some (stereo_range_one (Fin x) (fst q) (snd q) model fx fy cx cy b).
Proof.
  intros ds qs dmin dmax model fx fy cx cy b out i x q H E Q V. unfold stereo_range_sparse in H.
  assert (out = map (fun '(d, (qx, qy)) => if (xle d (Fin 0) || xlt d dmin || xlt dmax d)%bool then Fin 0 else stereo_range_one d qx qy model fx fy cx cy b) (combine ds qs)) as ->.
  { destruct model; [| |discriminate]; destruct (xle dmax dmin); [discriminate| |discriminate|]; now inversion H. }
  clear H. revert qs i E Q. induction ds as [|d0 ds IH]; intros [|[qx qy] qs] [|i] E Q; try discriminate.
  - cbn in E, Q |- *. inversion E; subst d0. inversion Q; subst q. f_equal. cbn [fst snd]. unfold invalid in V.
    cbn [xle]. destruct (Rle_dec x 0); [exfalso; tauto|]. cbn [orb].
    assert (xlt (Fin x) dmin = false) as ->.
    { destruct dmin as [m| | |]; try reflexivity; [cbn; destruct (Rlt_dec x m); [exfalso; tauto|reflexivity]|exfalso; tauto]. }
    assert (xlt dmax (Fin x) = false) as ->.
    { destruct dmax as [m| | |]; try reflexivity; [cbn; destruct (Rlt_dec m x); [exfalso; tauto|reflexivity]|exfalso; tauto]. }
    reflexivity.
  - cbn in E, Q |- *. exact (IH qs i E Q).
Qed.

(** *** dense images *)
(** a pixel whose scaled disparity is exact comes back with the range of the point *)
Theorem C39_dense : forall model im scale smin smax c baseline i j p,
  model <> OTHER -> fx c <> 0 -> fy c <> 0 -> 0 < baseline -> (0 < scale)%Z -> sees model p ->
  (smin < smax)%Z -> (0 < im i j)%Z -> (smin <= im i j <= smax)%Z ->
  project_rect model c p = P2 (INR j) (INR i) -> disparity_of model c baseline p = IZR (im i j) / IZR scale ->
  stereo_range_dense im scale smin smax model (Fin (fx c)) (Fin (fy c)) (Fin (cx c)) (Fin (cy c)) (Fin baseline) i j = Some (Fin (norm p)).
Proof.
  intros model im scale smin smax c b i j p M FX FY B Sc S L D1 D2 Q E. unfold stereo_range_dense.
  assert (IZR scale <> 0) as Sn by (apply not_0_IZR; lia).
  rewrite xdiv_fin by exact Sn. rewrite <- E.
  assert (forall X : xr, X = range_of model c b (disparity_of model c b p) (project_rect model c p) -> X = Fin (norm p)) as R.
  { intros X ->. destruct model; [apply C39_latlon; assumption|apply C39_pinhole; assumption|now destruct M]. }
  replace (Z.leb smax smin) with false by (symmetry; apply Z.leb_gt; lia).
  replace (Z.leb (im i j) 0) with false by (symmetry; apply Z.leb_gt; lia).
  replace (Z.ltb (im i j) smin) with false by (symmetry; apply Z.ltb_ge; lia).
  replace (Z.ltb smax (im i j)) with false by (symmetry; apply Z.ltb_ge; lia). cbn [orb].
  destruct model; [| |now destruct M]; f_equal; apply R; unfold range_of; rewrite Q; reflexivity.
Qed.
(** invalid: not positive or outside the limits *)
Theorem C39_dense_invalid : forall model im scale smin smax fx fy cx cy b i j out,
  stereo_range_dense im scale smin smax model fx fy cx cy b i j = Some out ->
  (im i j <= 0 \/ im i j < smin \/ smax < im i j)%Z -> out = Fin 0.
Proof.
  intros model im scale smin smax fx fy cx cy b i j out H D. unfold stereo_range_dense in H.
  assert ((Z.leb (im i j) 0 || Z.ltb (im i j) smin || Z.ltb smax (im i j))%bool = true) as E.
  { rewrite !orb_true_iff, Z.leb_le, !Z.ltb_lt. tauto. }
  rewrite E in H. destruct model; [| |discriminate]; destruct (Z.leb smax smin); try discriminate; now inversion H.
Qed.
(** signed 16-bit images (OpenCV's), as mrcal.stereo_range() passes them on: negative disparities are invalid, positive ones are not altered *)
Theorem C39_int16 : forall d scale model fx fy cx cy b i j, (-32768 <= d i j <= 32767)%Z -> model <> OTHER ->
  ((d i j <= 0)%Z -> stereo_range_py (I16 d) scale model fx fy cx cy b i j = Some (Fin 0)) /\
  ((0 < d i j)%Z -> stereo_range_py (I16 d) scale model fx fy cx cy b i j = stereo_range_dense d (u16 scale) 0 32767 model fx fy cx cy b i j).
Proof.
  intros d scale model fx fy cx cy b i j D M. unfold stereo_range_py. split; intro L.
  - destruct (stereo_range_dense _ _ _ _ _ _ _ _ _ _ i j) as [o|] eqn:E.
    + f_equal. apply (C39_dense_invalid _ _ _ _ _ _ _ _ _ _ _ _ _ E).
      destruct (Z.eq_dec (d i j) 0) as [Z|Z]; [left; unfold u16; rewrite Z; reflexivity|].
      right. right. unfold u16. replace (d i j) with (d i j + 65536 + -1 * 65536)%Z by lia. rewrite Z_mod_plus_full, Z.mod_small by lia. lia.
    + exfalso. unfold stereo_range_dense in E. destruct model; [discriminate|discriminate|now destruct M].
  - unfold stereo_range_dense. assert (u16 (d i j) = d i j) as -> by (unfold u16; apply Z.mod_small; lia). reflexivity.
Qed.
(** floating-point disparity images in pixels are documented, but the dense path converts them to integers first:
    a point with disparity 3/2 is reported at the range of disparity 1 *)
Theorem C39_dense_float_refuted : exists c baseline p i j (d : nat -> nat -> R),
  fx c <> 0 /\ fy c <> 0 /\ 0 < baseline /\ sees PINHOLE p /\
  project_pinhole c p = P2 (INR j) (INR i) /\ disparity_of PINHOLE c baseline p = d i j /\
  stereo_range_py (F64 d) 1 PINHOLE (Fin (fx c)) (Fin (fy c)) (Fin (cx c)) (Fin (cy c)) (Fin baseline) i j = Some (Fin (3 / 2)) /\ norm p = 1.
Proof.
  exists (Core 1 1 0 0), (3 / 2), (V3 0 0 1), 0%nat, 0%nat, (fun _ _ => 3 / 2). cbn [fx fy cx cy].
  split; [lra|]. split; [lra|]. split; [lra|]. split; [unfold sees; cbn; lra|].
  split; [unfold project_pinhole; cbn; f_equal; field|].
  split; [unfold disparity_of, project_rect, project_pinhole, vsub; cbn; field|].
  split.
  - unfold stereo_range_py, stereo_range_dense.
    assert (trunc0 (3 / 2) = 1%Z) as ->.
    { unfold trunc0. destruct (Rle_dec 0 (3 / 2)); [|exfalso; lra]. pose proof (base_Int_part (3 / 2)) as [A B]. set (k := Int_part (3 / 2)) in *.
      assert (IZR k < 2) as L by lra. assert (0 < IZR k) as M by lra. apply lt_IZR in L, M. lia. }
    change (u16 1) with 1%Z. cbn [Z.leb Z.ltb Z.compare Pos.compare Pos.compare_cont orb INR].
    unfold stereo_range_one, xsub, xneg, xadd, xmul. rewrite !xdiv_fin by lra.
    unfold xsqrt. destruct (Rlt_dec _ _) as [L|L]; [exfalso; lra|].
    replace ((0 + - 0) / 1 * ((0 + - 0) / 1) + 1 + (0 + - 0) / 1 * ((0 + - 0) / 1)) with 1 by field. rewrite sqrt_1.
    rewrite !xdiv_fin by lra. cbn [isfinite]. f_equal. f_equal. field.
  - unfold norm, norm2, dot. cbn. replace (0 * 0 + 0 * 0 + 1 * 1) with 1 by ring. apply sqrt_1.
Qed.
Print Assumptions C39_latlon.
Print Assumptions C39_dense_float_refuted.
Example ex_C39 : sees LATLON (V3 1 2 (-3)) /\ sees PINHOLE (V3 1 2 3) /\ ~ invalid (Fin 0) (Fin 100) (Fin 7) /\ invalid (Fin 0) PInf NaN.
Proof. unfold sees, invalid. cbn. repeat split; try lra. Qed.
Print Assumptions C39_pinhole.
Print Assumptions C39_unproject_latlon.
Print Assumptions C39_unproject_pinhole.
Print Assumptions C39_always_finite.
Print Assumptions C39_invalid_zero.
Print Assumptions C39_valid_processed.
Print Assumptions C39_dense.
Print Assumptions C39_dense_invalid.
Print Assumptions C39_int16.
