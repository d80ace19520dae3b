(** C31: the gradients of the closed-form projections and unprojections. *)
From Coq Require Import Reals Lra Psatz.
From Coquelicot Require Import Coquelicot.
From Verif Require Import S_Vec S_Curve P_Trig M_Project P_Atan2 C_Project.
Open Scope R_scope.

(** both components of a projection *)
Definition projection_gradient (f : v3 -> p2) (v : v3) (J : j23) : Prop :=
  has_gradient3 (fun p => px (f p)) v (dqx J) /\ has_gradient3 (fun p => py (f p)) v (dqy J).
Definition unprojection_gradient (f : p2 -> v3) (q : p2) (J : j32) : Prop :=
  has_gradient2 (fun x y => vx (f (P2 x y))) (px q) (py q) (px (dvx J)) (py (dvx J)) /\
  has_gradient2 (fun x y => vy (f (P2 x y))) (px q) (py q) (px (dvy J)) (py (dvy J)) /\
  has_gradient2 (fun x y => vz (f (P2 x y))) (px q) (py q) (px (dvz J)) (py (dvz J)).

Ltac rd := unfold scal, minus, plus, opp, zero, one, mult; simpl; unfold mult; simpl.
(** a path given by three real functions *)
Lemma grad3_intro : forall f v g,
  (forall (X Y Z : R -> R) (t dx dy dz : R), V3 (X t) (Y t) (Z t) = v -> is_derive X t dx -> is_derive Y t dy -> is_derive Z t dz ->
    is_derive (fun s => f (V3 (X s) (Y s) (Z s))) t (vx g * dx + vy g * dy + vz g * dz)) -> has_gradient3 f v g.
Proof.
  intros f v g H p t d E (DX & DY & DZ).
  apply is_derive_ext with (fun s => f (V3 (vx (p s)) (vy (p s)) (vz (p s)))). { intro s. now destruct (p s). }
  apply (H (fun s => vx (p s)) (fun s => vy (p s)) (fun s => vz (p s))); auto. rewrite <- E. now destruct (p t).
Qed.
Lemma dv : forall (f : R -> R) (t d : R), is_derive f t d -> ex_derive f t /\ Derive (fun x : R => f x) t = d.
Proof. intros f t d H. split; [now exists d|now apply is_derive_unique]. Qed.

Theorem C31_project_pinhole : forall c v, vz v <> 0 -> projection_gradient (project_pinhole c) v (project_pinhole_J c v).
Proof.
  intros c v H. split; apply grad3_intro; intros X Y Z t dx dy dz E DX DY DZ; subst v; cbn [vx vy vz] in *; unfold project_pinhole, project_pinhole_J; cbv zeta; cbn [px py dqx dqy vx vy vz];
    destruct (dv _ _ _ DX), (dv _ _ _ DY), (dv _ _ _ DZ); auto_derive; [now repeat split| |now repeat split|];
    rewrite ?H1, ?H3, ?H5; field; auto.
Qed.
Print Assumptions C31_project_pinhole.
Theorem C31_unproject_pinhole : forall c q, focal_ok c -> unprojection_gradient (unproject_pinhole c) q (unproject_pinhole_J c q).
Proof.
  intros c q [A B]. split; [|split]; intros a b t da db Ea Eb Da Db; unfold unproject_pinhole, unproject_pinhole_J; cbv zeta; cbn [px py dvx dvy dvz vx vy vz];
    destruct (dv _ _ _ Da), (dv _ _ _ Db); auto_derive; auto; rewrite ?H0, ?H2; field; auto.
Qed.
Print Assumptions C31_unproject_pinhole.

Theorem C31_project_stereographic : forall c v, norm v + vz v <> 0 ->
  projection_gradient (project_stereographic c) v (project_stereographic_J c v).
Proof.
  intros c v H. pose proof (z_above_minus_norm v H) as P. assert (0 < norm v) as N.
  { destruct (norm_nonneg v) as [?|E0]; auto. exfalso. assert (v = v0) as -> by (apply norm2_zero; rewrite <- norm_sq, <- E0; ring). cbn in P. lra. }
  split; apply grad3_intro; intros X Y Z t dx dy dz E DX DY DZ; subst v; cbn [vx vy vz] in *; unfold project_stereographic, project_stereographic_J; cbv zeta; cbn [px py dqx dqy vx vy vz];
    destruct (dv _ _ _ DX) as [XX X'], (dv _ _ _ DY) as [YY Y'], (dv _ _ _ DZ) as [ZZ Z'];
    assert (0 < X t * X t + Y t * Y t + Z t * Z t) as Q
      by (change (0 < norm2 (V3 (X t) (Y t) (Z t))); rewrite <- norm_sq; apply Rmult_lt_0_compat; auto);
    change (norm (V3 (X t) (Y t) (Z t))) with (sqrt (X t * X t + Y t * Y t + Z t * Z t)) in *;
    (auto_derive; [now repeat split|]); rewrite ?X', ?Y', ?Z';
    set (m := sqrt _) in *; field; repeat split; lra.
Qed.
Print Assumptions C31_project_stereographic.
Theorem C31_unproject_stereographic : forall c q, focal_ok c -> unprojection_gradient (unproject_stereographic c) q (unproject_stereographic_J c q).
Proof.
  intros c q [A B]. split; [|split]; intros a b t da db Ea Eb Da Db; unfold unproject_stereographic, unproject_stereographic_J; cbv zeta; cbn [px py dvx dvy dvz vx vy vz];
    rewrite <- ?Ea, <- ?Eb; destruct (dv _ _ _ Da), (dv _ _ _ Db); auto_derive; auto; rewrite ?H0, ?H2; field; auto.
Qed.
Print Assumptions C31_unproject_stereographic.

Theorem C31_unproject_lonlat : forall c q, focal_ok c -> unprojection_gradient (unproject_lonlat c) q (unproject_lonlat_J c q).
Proof.
  intros c q [A B]. split; [|split]; intros a b t da db Ea Eb Da Db; unfold unproject_lonlat, unproject_lonlat_J; cbv zeta; cbn [px py dvx dvy dvz vx vy vz];
    rewrite <- ?Ea, <- ?Eb; destruct (dv _ _ _ Da), (dv _ _ _ Db); auto_derive; auto; rewrite ?H0, ?H2; unfold Rminus, Rdiv; ring.
Qed.
Print Assumptions C31_unproject_lonlat.
Theorem C31_unproject_latlon : forall c q, focal_ok c -> unprojection_gradient (unproject_latlon c) q (unproject_latlon_J c q).
Proof.
  intros c q [A B]. split; [|split]; intros a b t da db Ea Eb Da Db; unfold unproject_latlon, unproject_latlon_J; cbv zeta; cbn [px py dvx dvy dvz vx vy vz];
    rewrite <- ?Ea, <- ?Eb; destruct (dv _ _ _ Da), (dv _ _ _ Db); auto_derive; auto; rewrite ?H0, ?H2; unfold Rminus, Rdiv; ring.
Qed.
Print Assumptions C31_unproject_latlon.

(** asin(a / |(a,b,z)|) along a path *)
Lemma derive_lat : forall (a b z : R -> R) t a' b' z', is_derive a t a' -> is_derive b t b' -> is_derive z t z' -> 0 < b t * b t + z t * z t ->
  let n2 := a t * a t + b t * b t + z t * z t in
  is_derive (fun s => asin (a s * sqrt (1 / (a s * a s + b s * b s + z s * z s)))) t
    (sqrt (1 / (b t * b t + z t * z t)) * (a' - a t * (a t * a' + b t * b' + z t * z') / n2)).
Proof.
  intros a b z t a' b' z' A B Z P n2. destruct (dv _ _ _ A) as [AA A'], (dv _ _ _ B) as [BB B'], (dv _ _ _ Z) as [ZZ Z'].
  assert (0 < n2) as N by (unfold n2; nra). assert (0 < sqrt n2) as SN by now apply sqrt_lt_R0.
  assert (0 < sqrt (b t * b t + z t * z t)) as SM by now apply sqrt_lt_R0.
  assert (sqrt n2 * sqrt n2 = n2) as SS by (apply sqrt_sqrt; lra).
  assert (sqrt (b t * b t + z t * z t) * sqrt (b t * b t + z t * z t) = b t * b t + z t * z t) as SS' by (apply sqrt_sqrt; lra).
  assert (forall x, 0 < x -> sqrt (1 / x) = / sqrt x) as SI by (intros x Hx; unfold Rdiv; rewrite Rmult_1_l; apply sqrt_inv).
  assert (is_derive (fun s => a s * sqrt (1 / (a s * a s + b s * b s + z s * z s))) t
    (a' / sqrt n2 - a t * (a t * a' + b t * b' + z t * z') / (n2 * sqrt n2))) as D.
  { auto_derive.
    - fold n2. repeat split; auto; [lra|]. apply Rmult_lt_0_compat; [lra|]. now apply Rinv_0_lt_compat.
    - fold n2. rewrite A', B', Z'. change (1 * / n2) with (1 / n2). rewrite SI by auto. set (m := sqrt n2) in *.
      replace n2 with (m * m) by auto. field. lra. }
  evar_last.
  - apply (is_derive_comp asin (fun s => a s * sqrt (1 / (a s * a s + b s * b s + z s * z s)))); [|exact D].
    fold n2. rewrite SI by auto. apply is_derive_asin. assert (a t * a t < n2) by (unfold n2; lra).
    assert (- sqrt n2 < a t < sqrt n2) as [L U] by nra. split.
    + apply Rmult_lt_reg_r with (sqrt n2); auto. field_simplify; lra.
    + apply Rmult_lt_reg_r with (sqrt n2); auto. field_simplify; lra.
  - rd. fold n2. rewrite !SI by auto. set (m := sqrt n2) in *. set (w := sqrt (b t * b t + z t * z t)) in *.
    replace (1 - a t * / m * (a t * / m)) with (w * / m * (w * / m)).
    2:{ apply Rmult_eq_reg_r with (m * m); [|nra]. replace (w * / m * (w * / m) * (m * m)) with (w * w) by (field; lra).
        replace ((1 - a t * / m * (a t * / m)) * (m * m)) with (m * m - a t * a t) by (field; lra). rewrite SS, SS'. unfold n2. ring. }
    rewrite sqrt_square by (apply Rlt_le, Rmult_lt_0_compat; [auto|now apply Rinv_0_lt_compat]).
    replace n2 with (m * m) by auto. field. lra.
Qed.

(** off the y axis (no longitude there) and off the half-plane behind the camera where the longitude jumps by a turn *)
Theorem C31_project_lonlat : forall c v, 0 < vz v \/ vx v <> 0 ->
  projection_gradient (project_lonlat c) v (project_lonlat_J c v).
Proof.
  intros c v H. assert (0 < vx v * vx v + vz v * vz v) as P by (destruct H; nra).
  split; apply grad3_intro; intros X Y Z t dx dy dz E DX DY DZ; subst v; cbn [vx vy vz] in *; unfold project_lonlat, project_lonlat_J; cbv zeta; cbn [px py dqx dqy vx vy vz].
  - pose proof (derive_atan2 _ _ _ _ _ DX DZ H) as D. evar_last.
    + apply (is_derive_plus (fun s => atan2 (X s) (Z s) * fx c) (fun _ => cx c)); [|apply is_derive_const].
      apply (is_derive_scal_l (K := R_AbsRing) (V := R_NormedModule) (fun s => atan2 (X s) (Z s))). exact D.
    + rd. field. nra.
  - assert (is_derive (fun s => asin (Y s * sqrt (1 / (X s * X s + Y s * Y s + Z s * Z s)))) t
      (sqrt (1 / (X t * X t + Z t * Z t)) * (dy - Y t * (Y t * dy + X t * dx + Z t * dz) / (Y t * Y t + X t * X t + Z t * Z t)))) as D.
    { eapply is_derive_ext; [|apply (derive_lat _ _ _ _ _ _ _ DY DX DZ P)]. intro s. cbn beta. do 4 f_equal. ring. }
    evar_last.
    + apply (is_derive_plus (fun s => asin (Y s * sqrt (1 / (X s * X s + Y s * Y s + Z s * Z s))) * fy c) (fun _ => cy c)); [|apply is_derive_const].
      apply (is_derive_scal_l (K := R_AbsRing) (V := R_NormedModule) (fun s => asin (Y s * sqrt (1 / (X s * X s + Y s * Y s + Z s * Z s))))). exact D.
    + rd. set (m := sqrt _). field. nra.
Qed.
Print Assumptions C31_project_lonlat.
Theorem C31_project_latlon : forall c v, 0 < vz v \/ vy v <> 0 ->
  projection_gradient (project_latlon c) v (project_latlon_J c v).
Proof.
  intros c v H. assert (0 < vy v * vy v + vz v * vz v) as P by (destruct H; nra).
  split; apply grad3_intro; intros X Y Z t dx dy dz E DX DY DZ; subst v; cbn [vx vy vz] in *; unfold project_latlon, project_latlon_J; cbv zeta; cbn [px py dqx dqy vx vy vz].
  - pose proof (derive_lat _ _ _ _ _ _ _ DX DY DZ P) as D. cbv zeta in D.
    evar_last.
    + apply (is_derive_plus (fun s => asin (X s * sqrt (1 / (X s * X s + Y s * Y s + Z s * Z s))) * fx c) (fun _ => cx c)); [|apply is_derive_const].
      apply (is_derive_scal_l (K := R_AbsRing) (V := R_NormedModule) (fun s => asin (X s * sqrt (1 / (X s * X s + Y s * Y s + Z s * Z s))))). exact D.
    + rd. set (m := sqrt _). field. nra.
  - pose proof (derive_atan2 _ _ _ _ _ DY DZ H) as D. evar_last.
    + apply (is_derive_plus (fun s => atan2 (Y s) (Z s) * fy c) (fun _ => cy c)); [|apply is_derive_const].
      apply (is_derive_scal_l (K := R_AbsRing) (V := R_NormedModule) (fun s => atan2 (Y s) (Z s))). exact D.
    + rd. field. nra.
Qed.
Print Assumptions C31_project_latlon.

Example ex_domain : vz (V3 1 2 3) <> 0 /\ norm (V3 1 2 (-3)) + vz (V3 1 2 (-3)) <> 0 /\ (0 < vz (V3 1 2 (-3)) \/ vx (V3 1 2 (-3)) <> 0).
Proof.
  split; [cbn; lra|]. split; [|right; cbn; lra]. intro E. apply C30_stereographic_domain in E as (E & _). cbn in E. lra.
Qed.
