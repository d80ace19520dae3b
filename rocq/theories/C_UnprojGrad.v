(** C74: the gradients reported by unproject(). *)
From Coq Require Import Reals ZArith List Bool Lia Lra Psatz.
From Coquelicot Require Import Coquelicot.
From Verif Require Import S_Vec S_Curve S_Callback M_Dual M_Pose M_Lens M_Layout M_Project M_OpenCV M_Unproject M_Callback M_Residuals M_ProjUncert M_UnprojGrad
  P_Dual P_Trig P_Pose P_Spline P_DualPath C_Project C_ProjectGrad C_LensGrad C_Cahvore C_Unproject P_Jacobian C_Jacobian P_ProjUncert C_ImageMap.
Open Scope R_scope.

(** *** Specification *)
Definition moves2 (q : R -> p2) (t : R) (d : p2) : Prop := is_derive (fun s => px (q s)) t (px d) /\ is_derive (fun s => py (q s)) t (py d).
Definition direction (v : v3) : v3 := vscale (/ norm v) v.
(** how fast the gradients say the vector moves *)
Definition rate (n : nat) (g : grads) (dq : p2) (dI : nat -> R) : v3 :=
  vadd (vadd (vscale (px dq) (g_dq0 g)) (vscale (py dq) (g_dq1 g)))
       (V3 (rsum n (fun i => dI i * vx (g_di g i))) (rsum n (fun i => dI i * vy (g_di g i))) (rsum n (fun i => dI i * vz (g_di g i)))).
Definition nparams (m : lensmodel) : nat := Z.to_nat (num_params m).
(** the closed-form unprojections *)
Definition closed_unproject (m : lensmodel) (intr : nat -> R) (q : p2) : v3 :=
  match m with
  | PINHOLE => unproject_pinhole (core_of intr) q | STEREOGRAPHIC => unproject_stereographic (core_of intr) q
  | LONLAT => unproject_lonlat (core_of intr) q | _ => unproject_latlon (core_of intr) q end.
Definition closed (m : lensmodel) : Prop := match m with PINHOLE | STEREOGRAPHIC | LONLAT | LATLON => True | _ => False end.

(** *** the normalization *)
Lemma rsum_scale : forall n k f, rsum n (fun i => k * f i) = k * rsum n f.
Proof. induction n as [|n IH]; intros; cbn [rsum]; [ring|]. rewrite IH. ring. Qed.
Lemma rsum_plus : forall n f g, rsum n (fun i => f i + g i) = rsum n f + rsum n g.
Proof. induction n as [|n IH]; intros; cbn [rsum]; [ring|]. rewrite IH. ring. Qed.
Lemma rsum_ext' : forall n f g, (forall i, f i = g i) -> rsum n f = rsum n g.
Proof. induction n as [|n IH]; intros f g E; cbn [rsum]; [reflexivity|]. now rewrite (IH f g), E. Qed.
Lemma normalize_column_lin : forall v r d, normalize_column v r d = vscale r (vsub d (vscale (dot v d) v)).
Proof. intros [x y z] r [a b c]. unfold normalize_column, vecmat. apply v3_eq; vunfold; ring. Qed.
Lemma rate_normalized : forall n g dq dI, let v := direction (g_v g) in
  rate n (apply_normalization g) dq dI = vscale (/ norm (g_v g)) (vsub (rate n g dq dI) (vscale (dot v (rate n g dq dI)) v)).
Proof.
  intros n g dq dI v. unfold apply_normalization.
  replace (1 / norm (g_v g)) with (/ norm (g_v g)) by (unfold Rdiv; ring).
  replace (V3 (vx (g_v g) * / norm (g_v g)) (vy (g_v g) * / norm (g_v g)) (vz (g_v g) * / norm (g_v g))) with v by (unfold v, direction; apply v3_eq; vunfold; ring).
  set (r := / norm (g_v g)). clearbody v r. unfold rate. cbn [g_dq0 g_dq1 g_di]. rewrite !normalize_column_lin.
  set (X := rsum n (fun i => dI i * vx (g_di g i))). set (Y := rsum n (fun i => dI i * vy (g_di g i))). set (Z := rsum n (fun i => dI i * vz (g_di g i))).
  assert (rsum n (fun i => dI i * dot v (g_di g i)) = vx v * X + vy v * Y + vz v * Z) as D.
  { unfold X, Y, Z. rewrite <- !rsum_scale, <- !rsum_plus. apply rsum_ext'. intro i. unfold dot. ring. }
  assert (forall (c : v3 -> R), (forall a b, c (vsub a b) = c a - c b) -> (forall k a, c (vscale k a) = k * c a) ->
    rsum n (fun i => dI i * c (normalize_column v r (g_di g i))) = r * (rsum n (fun i => dI i * c (g_di g i)) - (vx v * X + vy v * Y + vz v * Z) * c v)) as W.
  { intros c L1 L2. rewrite <- D. rewrite (rsum_ext' n _ (fun i => r * (dI i * c (g_di g i)) + (- r * c v) * (dI i * dot v (g_di g i)))).
    - rewrite rsum_plus, !rsum_scale. ring.
    - intro i. rewrite normalize_column_lin, L2, L1, L2. ring. }
  rewrite (W vx), (W vy), (W vz) by reflexivity. fold X Y Z. clearbody X Y Z. apply v3_eq; vunfold; ring.
Qed.
Lemma norm_derive : forall (X Y Z : R -> R) t dx dy dz, is_derive X t dx -> is_derive Y t dy -> is_derive Z t dz -> 0 < X t * X t + Y t * Y t + Z t * Z t ->
  is_derive (fun s => sqrt (X s * X s + Y s * Y s + Z s * Z s)) t ((X t * dx + Y t * dy + Z t * dz) / sqrt (X t * X t + Y t * Y t + Z t * Z t)).
Proof.
  intros X Y Z t dx dy dz DX DY DZ Q. pose proof (sqrt_lt_R0 _ Q).
  destruct (dv _ _ _ DX) as [XX X'], (dv _ _ _ DY) as [YY Y'], (dv _ _ _ DZ) as [ZZ Z']. auto_derive; [now repeat split|]. rewrite X', Y', Z'. set (m := sqrt _) in *. field. lra.
Qed.
Lemma over_derive : forall (n c : R -> R) t dn dc, is_derive n t dn -> is_derive c t dc -> n t <> 0 -> is_derive (fun s => / n s * c s) t (/ n t * (dc - dn * (/ n t * c t))).
Proof.
  intros n c t dn dc DN D N. destruct (dv _ _ _ DN) as [NN N'], (dv _ _ _ D) as [CC C']. auto_derive; [now repeat split|]. rewrite N', C'. field. exact N.
Qed.
Lemma direction_moves : forall V t d, moves3 V t d -> V t <> v0 -> let u := direction (V t) in
  moves3 (fun s => direction (V s)) t (vscale (/ norm (V t)) (vsub d (vscale (dot u d) u))).
Proof.
  intros V t d (DX & DY & DZ) N u. pose proof (norm_pos _ N) as P.
  assert (0 < vx (V t) * vx (V t) + vy (V t) * vy (V t) + vz (V t) * vz (V t)) as Q by (change (0 < norm2 (V t)); rewrite <- norm_sq; nra).
  assert (is_derive (fun s => norm (V s)) t (dot u d)) as DN.
  { eapply is_derive_rw; [apply (norm_derive _ _ _ _ _ _ _ DX DY DZ Q)|].
    change (sqrt (vx (V t) * vx (V t) + vy (V t) * vy (V t) + vz (V t) * vz (V t))) with (norm (V t)). unfold u, direction. vunfold. rr. field. lra. }
  assert (norm (V t) <> 0) as NN by lra.
  split; [|split]; (eapply is_derive_rw; [first [apply (over_derive (fun s => norm (V s)) (fun s => vx (V s)) t _ _ DN DX NN)|apply (over_derive (fun s => norm (V s)) (fun s => vy (V s)) t _ _ DN DY NN)
    |apply (over_derive (fun s => norm (V s)) (fun s => vz (V s)) t _ _ DN DZ NN)]|]); unfold u, direction; vunfold; rr; ring.
Qed.

(** *** the closed forms *)
Lemma closed_moves : forall func func_J (I : R -> nat -> R) (Q : R -> p2) t dI dQ,
  (forall c q, func c q = func (Core 1 1 0 0) (P2 ((px q - cx c) / fx c) ((py q - cy c) / fy c))) ->
  (forall c q, focal_ok c -> unprojection_gradient (func c) q (func_J c q)) ->
  (forall i, (i < 4)%nat -> is_derive (fun s => I s i) t (dI i)) -> moves2 Q t dQ -> focal_ok (core_of (I t)) ->
  moves3 (fun s => func (core_of (I s)) (Q s)) t (rate 4 (closed_grads func func_J (I t) (Q t)) dQ dI).
Proof.
  intros func func_J I Q t dI dQ E G DI (DQ0 & DQ1) F. pose proof F as (F0 & F1). cbn [core_of fx fy] in F0, F1.
  set (a := fun s => (px (Q s) - I s 2%nat) / I s 0%nat * I t 0%nat + I t 2%nat). set (b := fun s => (py (Q s) - I s 3%nat) / I s 1%nat * I t 1%nat + I t 3%nat).
  pose proof (DI 0%nat ltac:(lia)) as D0. pose proof (DI 1%nat ltac:(lia)) as D1. pose proof (DI 2%nat ltac:(lia)) as D2. pose proof (DI 3%nat ltac:(lia)) as D3.
  assert (forall (q c f : R -> R) dq dc df, is_derive q t dq -> is_derive c t dc -> is_derive f t df -> f t <> 0 ->
    is_derive (fun s => (q s - c s) / f s * f t + c t) t (dq - dc - (q t - c t) / f t * df)) as W.
  { intros q c f dq dc df Dq Dc Df N. destruct (dv _ _ _ Dq) as [QQ Q'], (dv _ _ _ Dc) as [CC C'], (dv _ _ _ Df) as [FF F']. auto_derive; [now repeat split|]. rewrite Q', C', F'. field. exact N. }
  pose proof (W _ _ _ _ _ _ DQ0 D2 D0 F0) as DA. pose proof (W _ _ _ _ _ _ DQ1 D3 D1 F1) as DB. cbv beta in DA, DB.
  destruct (G (core_of (I t)) (Q t) F) as (GX & GY & GZ).
  assert (a t = px (Q t)) as EA by (unfold a; field; exact F0). assert (b t = py (Q t)) as EB by (unfold b; field; exact F1).
  specialize (GX a b t _ _ EA EB DA DB). specialize (GY a b t _ _ EA EB DA DB). specialize (GZ a b t _ _ EA EB DA DB).
  assert (forall s, func (core_of (I t)) (P2 (a s) (b s)) = func (core_of (I s)) (Q s)) as Same.
  { intro s. rewrite (E (core_of (I s))), E. f_equal. cbn [px py core_of fx fy cx cy]. unfold a, b. set (x := (px (Q s) - I s 2%nat) / I s 0%nat). set (y := (py (Q s) - I s 3%nat) / I s 1%nat). clearbody x y. f_equal; field; assumption. }
  assert (forall (k : v3 -> R) x, is_derive (fun s => k (func (core_of (I t)) (P2 (a s) (b s)))) t x -> is_derive (fun s => k (func (core_of (I s)) (Q s))) t x) as X.
  { intros k x D. eapply is_derive_ext; [|exact D]. intro s. cbv beta. now rewrite Same. }
  apply X in GX. apply X in GY. apply X in GZ.
  split; [|split]; (eapply is_derive_rw; [eassumption|]); unfold rate, closed_grads, col0, col1; cbn [rsum g_dq0 g_dq1 g_di core_of fx fy cx cy]; vunfold; rr; field; split; assumption.
Qed.

Lemma closed_form_moves : forall m I Q t dI dQ func func_J always, closed_form m = Some (func, func_J, always) ->
  (forall i, (i < 4)%nat -> is_derive (fun s => I s i) t (dI i)) -> moves2 Q t dQ -> focal_ok (core_of (I t)) ->
  moves3 (fun s => closed_unproject m (I s) (Q s)) t (rate 4 (closed_grads func func_J (I t) (Q t)) dQ dI) /\
  closed_unproject m (I t) (Q t) = g_v (closed_grads func func_J (I t) (Q t)) /\ (always = true -> forall s, norm (closed_unproject m (I s) (Q s)) = 1) /\ closed_unproject m (I t) (Q t) <> v0.
Proof.
  intros m I Q t dI dQ func func_J always E DI DQ F.
  assert (forall v, norm v = 1 -> v <> v0) as N1 by (intros v N ->; unfold norm, norm2, dot, v0 in N; cbn in N; rewrite !Rmult_0_l, !Rplus_0_l, sqrt_0 in N; lra).
  assert (forall a, (a - 0) / 1 = a) as Z1 by (intro a; field). assert (forall a, (a - 0) * (1 / 1) = a) as Z2 by (intro a; field). assert (forall a b, a * (1 / b) = a / b) as D1 by (intros a b; unfold Rdiv; ring).
  destruct m; try discriminate; injection E as <- <- <-; unfold closed_unproject; (split; [apply closed_moves; try assumption|split; [reflexivity|split; [try discriminate|]]]).
  all: try (intros c q FO; first [now apply C31_unproject_pinhole|now apply C31_unproject_stereographic|now apply C31_unproject_lonlat|now apply C31_unproject_latlon]).
  all: try (intros c q; unfold unproject_pinhole, unproject_stereographic, unproject_lonlat, unproject_latlon; cbn [px py fx fy cx cy]; cbv zeta; rewrite ?Z1, ?Z2, ?D1; reflexivity).
    all: try (intros _ s; apply C30_unit). all: try (apply N1; apply C30_unit).
  - intro H. apply (f_equal vz) in H. cbn in H. lra.
  - intro H. pose proof (f_equal vx H) as HX. pose proof (f_equal vy H) as HY. pose proof (f_equal vz H) as HZ. unfold unproject_stereographic in HX, HY, HZ. cbn [vx vy vz v0] in HX, HY, HZ. rewrite HX, HY in HZ. lra.
Qed.

(** PINHOLE, STEREOGRAPHIC, LONLAT, LATLON: along every way of moving the pixel and the intrinsics, the reported gradients give the rate of change of the unprojected
    vector, or of its direction if it was to be normalized *)
Theorem C74_closed : forall stale m (I : R -> nat -> R) (Q : R -> p2) t dI dQ vs (normalize : bool),
  closed m -> (forall i, (i < nparams m)%nat -> is_derive (fun s => I s i) t (dI i)) -> moves2 Q t dQ -> focal_ok (core_of (I t)) ->
  let V := fun s => if normalize then direction (closed_unproject m (I s) (Q s)) else closed_unproject m (I s) (Q s) in
  exists g, unproject_grads stale m (I t) (Q t) vs normalize = Some g /\ g_v g = V t /\ moves3 V t (rate (nparams m) g dQ dI).
Proof.
  intros stale m I Q t dI dQ vs normalize C DI DQ F V. unfold unproject_grads.
  assert (nparams m = 4%nat) as N4 by (destruct m; try contradiction; reflexivity). rewrite N4 in *.
  destruct (closed_form m) as [[[func func_J] always]|] eqn:E; [|destruct m; try contradiction; discriminate].
  destruct (closed_form_moves m I Q t dI dQ func func_J always E DI DQ F) as (M & EV & AL & NZ). eexists. split; [reflexivity|].
  destruct normalize; cbn [andb]; [destruct always; cbn [negb]|].
  - assert (forall s, V s = closed_unproject m (I s) (Q s)) as EV'. { intro s. unfold V, direction. rewrite (AL eq_refl). apply v3_eq; vunfold; field. }
    split; [now rewrite EV', EV|]. destruct M as (A & B & D). split; [|split]; (eapply is_derive_ext; [|eassumption]); intro s; cbv beta; now rewrite EV'.
  - rewrite rate_normalized. split.
    + unfold V. rewrite EV. unfold apply_normalization, direction. cbn [g_v]. apply v3_eq; vunfold; unfold Rdiv; ring.
    + rewrite <- EV. exact (direction_moves _ _ _ M NZ).
  - split; [now rewrite <- EV|exact M].
Qed.
Print Assumptions C74_closed.

(** *** the other models *)
Definition c1 : core := Core 1 1 0 0.
Lemma solve2_spec : forall a0 a1 b r x y, solve2 a0 a1 b = Some r ->
  px r * (px a0 * x + py a0 * y) + py r * (px a1 * x + py a1 * y) = px b * x + py b * y.
Proof. intros [a b] [c d] [e f] r x y. unfold solve2. cbn [px py]. destruct (Req_EM_T _ _) as [|N]; [discriminate|]. injection 1 as <-. cbn [px py]. field. exact N. Qed.
Lemma unit_focal : focal_ok c1.
Proof. split; cbn; lra. Qed.
Lemma surface_back : forall v, vz v = 1 - (vx v * vx v + vy v * vy v) / 4 -> unproject_stereographic c1 (P2 (vx v) (vy v)) = v.
Proof. intros v H. unfold unproject_stereographic. apply v3_eq; cbn [vx vy vz px py fx fy cx cy c1]; rewrite ?H; field. Qed.
Lemma surface_gradient : forall (U : R -> p2) t dU, moves2 U t dU -> let D := unproject_stereographic_J c1 (U t) in
  moves3 (fun s => unproject_stereographic c1 (U s)) t (vadd (vscale (px dU) (col0 D)) (vscale (py dU) (col1 D))).
Proof.
  intros U t dU (DX & DY) D. destruct (C31_unproject_stereographic c1 (U t) unit_focal) as (GX & GY & GZ). fold D in GX, GY, GZ.
  specialize (GX _ _ t _ _ eq_refl eq_refl DX DY). specialize (GY _ _ t _ _ eq_refl eq_refl DX DY). specialize (GZ _ _ t _ _ eq_refl eq_refl DX DY).
  assert (forall s, P2 (px (U s)) (py (U s)) = U s) as Eta by (intro s; destruct (U s); reflexivity).
  assert (forall (k : v3 -> R) x y, is_derive (fun s => k (unproject_stereographic c1 (P2 (px (U s)) (py (U s))))) t x -> x = y -> is_derive (fun s => k (unproject_stereographic c1 (U s))) t y) as X.
  { intros k x y H <-. eapply is_derive_ext; [|exact H]. intro s. cbv beta. now rewrite Eta. }
  split; [|split]; (eapply X; [eassumption|]); unfold col0, col1; vunfold; rr; ring.
Qed.

Lemma dot_add : forall j a b, dot j (vadd a b) = dot j a + dot j b.
Proof. intros. vunfold. ring. Qed.
Lemma dot_scale : forall j k a, dot j (vscale k a) = k * dot j a.
Proof. intros. vunfold. ring. Qed.
Lemma dot_neg : forall j a, dot j (vneg a) = - dot j a.
Proof. intros. vunfold. ring. Qed.
Lemma combine0 : forall j D e f d, d <> 0 ->
  dot j (V3 ((px (dvx D) * e - py (dvx D) * f) / d) ((px (dvy D) * e - py (dvy D) * f) / d) ((px (dvz D) * e - py (dvz D) * f) / d)) = (dot j (col0 D) * e - dot j (col1 D) * f) / d.
Proof. intros. unfold col0, col1. vunfold. field. assumption. Qed.
Lemma combine1 : forall j D e f d, d <> 0 ->
  dot j (V3 ((py (dvx D) * e - px (dvx D) * f) / d) ((py (dvy D) * e - px (dvy D) * f) / d) ((py (dvz D) * e - px (dvz D) * f) / d)) = (dot j (col1 D) * e - dot j (col0 D) * f) / d.
Proof. intros. unfold col0, col1. vunfold. field. assumption. Qed.
Section Iterative.
  Variable stale : j23.
  Variable m : lensmodel.
  Hypothesis Hok : lens_ok m.
  Hypothesis Hlegal : lens_legal m.
  Hypothesis Hspl : splines_ok m.
  Variable I : R -> nat -> R.
  Variable t : R.
  Variable dI : nat -> R.
  Hypothesis HI : forall i, is_derive (fun s => I s i) t (dI i).
  Hypothesis HF : focal_ok (core_of (I t)).
  Variable vs : v3.
  Let u0 := project_stereographic c1 vs.
  Let w := unproject_stereographic c1 u0.
  Hypothesis Hsm : lens_smooth m (I t) w.
  Let J := lens_pixel_J stale m (I t) w.
  Let D := unproject_stereographic_J c1 u0.
  Let ir ixy := intr_rate m (I t) w ixy dI.

  Lemma dense_rates : forall ixy, (ixy = 0 \/ ixy = 1)%Z -> rsum (nparams m) (fun i => dense_row m (I t) w ixy i * dI i) = ir ixy.
  Proof. intros ixy H. unfold nparams, ir. now apply dense_total. Qed.
  Lemma rate_iterative : forall g dQ, iterative_grads stale m (I t) vs = Some g ->
    g_v g = w /\ rate (nparams m) g dQ dI = vadd (vscale (px dQ - ir 0) (g_dq0 g)) (vscale (py dQ - ir 1) (g_dq1 g)).
  Proof.
    intros g dQ. unfold iterative_grads. cbv zeta. fold c1. fold u0. fold w. fold J. fold D.
    destruct (solve2 _ _ (dvx D)) as [rx|]; [|discriminate]. destruct (solve2 _ _ (dvy D)) as [ry|]; [|discriminate]. destruct (solve2 _ _ (dvz D)) as [rz|]; [|discriminate].
    injection 1 as <-. split; [reflexivity|]. unfold rate. cbn [g_dq0 g_dq1 g_di].
    pose proof (dense_rates 0%Z ltac:(auto)) as E0. pose proof (dense_rates 1%Z ltac:(auto)) as E1.
    assert (forall (k : v3 -> R), (forall a v, k (vscale a v) = a * k v) -> (forall a b, k (vadd a b) = k a + k b) -> forall a b,
      rsum (nparams m) (fun i => dI i * k (vscale (-1) (vadd (vscale (dense_row m (I t) w 0 i) a) (vscale (dense_row m (I t) w 1 i) b)))) = - (ir 0 * k a + ir 1 * k b)) as W.
    { intros k L1 L2 a b. rewrite <- E0, <- E1. rewrite (rsum_ext' _ _ (fun i => (- k a) * (dense_row m (I t) w 0 i * dI i) + (- k b) * (dense_row m (I t) w 1 i * dI i))).
      - rewrite rsum_plus, !rsum_scale. ring.
      - intro i. rewrite L1, L2, !L1. ring. }
    rewrite !W by reflexivity. apply v3_eq; vunfold; ring.
  Qed.
  Lemma pixel_rate : forall V dV, moves3 V t dV -> V t = w -> moves2 (fun s => lens_pixel m (I s) (V s)) t (P2 (ir 0 + dot (dqx J) dV) (ir 1 + dot (dqy J) dV)).
  Proof.
    intros V dV DV E. pose proof (lens_path stale m I V t dI dV 0%Z ltac:(auto) HI DV HF) as A. pose proof (lens_path stale m I V t dI dV 1%Z ltac:(auto) HI DV HF) as B.
    rewrite E in A, B. split; [exact (A Hsm)|exact (B Hsm)].
  Qed.
  (** the vectors of the surface that keep projecting to the pixel *)
  Lemma surface_moves : forall g (U : R -> p2) dU Q dQ, iterative_grads stale m (I t) vs = Some g -> moves2 U t dU -> U t = u0 -> moves2 Q t dQ ->
    locally t (fun s => lens_pixel m (I s) (unproject_stereographic c1 (U s)) = Q s) ->
    moves3 (fun s => unproject_stereographic c1 (U s)) t (rate (nparams m) g dQ dI).
  Proof.
    intros g U dU Q dQ Eg DU EU (DQ0 & DQ1) L. pose proof (surface_gradient U t dU DU) as DV. rewrite EU in DV. cbv zeta in DV. fold D in DV. set (dV := vadd _ _) in DV.
    destruct (pixel_rate _ _ DV) as (A & B); [cbv beta; now rewrite EU|]. cbn [px py] in A, B.
    assert (px dQ = ir 0 + dot (dqx J) dV) as Ex.
    { rewrite <- (is_derive_unique _ _ _ DQ0). apply is_derive_unique. eapply is_derive_ext_loc; [|exact A]. eapply filter_imp; [|exact L]. intros s Hs. cbv beta in *. now rewrite Hs. }
    assert (py dQ = ir 1 + dot (dqy J) dV) as Ey.
    { rewrite <- (is_derive_unique _ _ _ DQ1). apply is_derive_unique. eapply is_derive_ext_loc; [|exact B]. eapply filter_imp; [|exact L]. intros s Hs. cbv beta in *. now rewrite Hs. }
    destruct (rate_iterative g dQ Eg) as (_ & ->). rewrite Ex, Ey.
    replace (ir 0 + dot (dqx J) dV - ir 0) with (dot (dqx J) dV) by ring. replace (ir 1 + dot (dqy J) dV - ir 1) with (dot (dqy J) dV) by ring.
    revert Eg. unfold iterative_grads. cbv zeta. fold c1. fold u0. fold w. fold J. fold D. set (a0 := P2 (dot (dqx J) (col0 D)) _). set (a1 := P2 (dot (dqy J) (col0 D)) _).
    destruct (solve2 a0 a1 (dvx D)) as [rx|] eqn:Rx; [|discriminate]. destruct (solve2 a0 a1 (dvy D)) as [ry|] eqn:Ry; [|discriminate]. destruct (solve2 a0 a1 (dvz D)) as [rz|] eqn:Rz; [|discriminate].
    injection 1 as <-. cbn [g_dq0 g_dq1].
    assert (dot (dqx J) dV = px a0 * px dU + py a0 * py dU) as H0 by (unfold dV, a0; cbn [px py]; vunfold; ring).
    assert (dot (dqy J) dV = px a1 * px dU + py a1 * py dU) as H1 by (unfold dV, a1; cbn [px py]; vunfold; ring).
    rewrite H0, H1. apply (fun r => solve2_spec _ _ _ r (px dU) (py dU)) in Rx, Ry, Rz.
    replace (vadd _ _) with dV; [exact DV|]. unfold dV, col0, col1. cbn [dvx dvy dvz]. apply v3_eq; cbn [vadd vscale vx vy vz]; lra.
  Qed.
  (** moving the vector as the gradients say moves the pixel as asked *)
  Lemma follows : forall g V dQ, iterative_grads stale m (I t) vs = Some g -> V t = w -> moves3 V t (rate (nparams m) g dQ dI) -> moves2 (fun s => lens_pixel m (I s) (V s)) t dQ.
  Proof.
    intros g V dQ Eg EV DV. destruct (pixel_rate _ _ DV EV) as (A & B). cbn [px py] in A, B.
    destruct (rate_iterative g dQ Eg) as (_ & ER). rewrite ER in A, B. clear ER.
    revert Eg A B. unfold iterative_grads. cbv zeta. fold c1. fold u0. fold w. fold J. fold D. set (a0 := P2 (dot (dqx J) (col0 D)) _). set (a1 := P2 (dot (dqy J) (col0 D)) _).
    assert (px a0 = dot (dqx J) (col0 D)) as E00 by reflexivity. assert (py a0 = dot (dqx J) (col1 D)) as E01 by reflexivity.
    assert (px a1 = dot (dqy J) (col0 D)) as E10 by reflexivity. assert (py a1 = dot (dqy J) (col1 D)) as E11 by reflexivity. clearbody a0 a1. clearbody D J.
    unfold solve2. destruct (Req_EM_T _ _) as [|N]; [discriminate|]. injection 1 as <-. cbn [g_dq0 g_dq1]. intros A B.
    unfold col0, col1 in A, B. cbn [dvx dvy dvz px py] in A, B. rewrite !dot_add, !dot_scale, combine0, combine1 in A, B by exact N.
    split; (eapply is_derive_rw; [eassumption|]); rr.
    - rewrite <- E00, <- E01. field. exact N.
    - rewrite <- E10, <- E11. field. exact N.
  Qed.
End Iterative.

(** the point of the surface that the code works with: a positive multiple of what the unprojection returned *)
Lemma on_surface : forall vs, norm vs + vz vs <> 0 -> exists k, 0 < k /\ unproject_stereographic c1 (project_stereographic c1 vs) = vscale k vs.
Proof. intros vs H. destruct (C30_stereographic_unproject_project c1 vs unit_focal H) as (k & K & E). exists k. auto. Qed.
Lemma not_closed : forall m, ~ closed m -> closed_form m = None.
Proof. intros m N. destruct m; try reflexivity; elim N; exact Logic.I. Qed.
Lemma smooth_ray : forall m intr vs, norm vs + vz vs <> 0 -> (forall a, 0 < a -> lens_smooth m intr (vscale a vs)) -> lens_smooth m intr (unproject_stereographic c1 (project_stereographic c1 vs)).
Proof. intros m intr vs H S. destruct (on_surface vs H) as (k & K & ->). now apply S. Qed.

(** The other models, not normalized.  The vector reported is the multiple of what the unprojection returned on the surface z = 1 - (x^2+y^2)/4, and the gradients give the rate of
    change of every vector of this surface that keeps projecting to the pixel while the pixel and the intrinsics move *)
Theorem C74_iterative : forall stale m (I : R -> nat -> R) Q V t dI dQ dV q vs g, ~ closed m -> lens_ok m -> lens_legal m -> splines_ok m -> norm vs + vz vs <> 0 ->
  (forall i, is_derive (fun s => I s i) t (dI i)) -> focal_ok (core_of (I t)) -> (forall a, 0 < a -> lens_smooth m (I t) (vscale a vs)) ->
  unproject_grads stale m (I t) q vs false = Some g ->
  (exists k, 0 < k /\ g_v g = vscale k vs) /\ vz (g_v g) = 1 - (vx (g_v g) * vx (g_v g) + vy (g_v g) * vy (g_v g)) / 4 /\
  (V t = g_v g -> moves3 V t dV -> moves2 Q t dQ -> (forall s, vz (V s) = 1 - (vx (V s) * vx (V s) + vy (V s) * vy (V s)) / 4) -> locally t (fun s => lens_pixel m (I s) (V s) = Q s) ->
   dV = rate (nparams m) g dQ dI) /\
  (V t = g_v g -> moves3 V t (rate (nparams m) g dQ dI) -> moves2 (fun s => lens_pixel m (I s) (V s)) t dQ).
Proof.
  intros stale m I Q V t dI dQ dV q vs g NC Hok Hl Hs Hv HI HF Hsm. unfold unproject_grads. rewrite (not_closed m NC). destruct (iterative_grads stale m (I t) vs) as [g'|] eqn:Eg; [|discriminate]. injection 1 as ->.
  pose proof (smooth_ray _ _ _ Hv Hsm) as Sm. destruct (rate_iterative stale m Hok Hl Hs I t dI vs g dQ Eg) as (EV & _). destruct (on_surface vs Hv) as (k & K & Ek).
  split; [exists k; split; [exact K|congruence]|]. split; [rewrite EV; unfold unproject_stereographic, c1; cbn [vx vy vz fx fy cx cy]; field|]. split.
  - intros Ht DV DQ Surf L. assert (forall s, unproject_stereographic c1 (P2 (vx (V s)) (vy (V s))) = V s) as Back by (intro s; apply surface_back, Surf).
    assert (moves3 (fun s => unproject_stereographic c1 (P2 (vx (V s)) (vy (V s)))) t (rate (nparams m) g dQ dI)) as M.
    { apply (surface_moves stale m Hok Hl Hs I t dI HI HF vs Sm g (fun s => P2 (vx (V s)) (vy (V s))) (P2 (vx dV) (vy dV)) Q dQ Eg).
      - split; cbn [px py]; [apply DV|apply DV].
      - rewrite Ht, EV. unfold unproject_stereographic. cbn [vx vy fx fy cx cy c1]. destruct (project_stereographic c1 vs) as [a b]. cbn [px py]. f_equal; field.
      - exact DQ.
      - eapply filter_imp; [|exact L]. intros s Hs'. cbv beta. now rewrite Back. }
    destruct DV as (A & B & C), M as (A' & B' & C'). apply is_derive_unique in A, B, C, A', B', C'.
    apply v3_eq; [rewrite <- A, <- A'|rewrite <- B, <- B'|rewrite <- C, <- C']; apply Derive_ext; intro s; cbv beta; now rewrite Back.
  - intros Ht DV. apply (follows stale m Hok Hl Hs I t dI HI HF vs Sm g V dQ Eg); [congruence|exact DV].
Qed.
Print Assumptions C74_iterative.

Lemma direction_scale : forall k v, 0 < k -> direction (vscale k v) = direction v.
Proof.
  intros k v K. unfold direction. rewrite norm_vscale, (Rabs_pos_eq k) by lra. destruct (Req_EM_T (norm v) 0) as [E|N].
  - assert (v = v0) as -> by (apply norm2_zero; rewrite <- norm_sq, E; ring). apply v3_eq; vunfold; ring.
  - apply v3_eq; vunfold; field; lra.
Qed.
Lemma in_front_locally : forall V t d, moves3 V t d -> norm (V t) + vz (V t) <> 0 -> locally t (fun s => norm (V s) + vz (V s) <> 0).
Proof.
  intros V t d (DX & DY & DZ) N.
  assert (V t <> v0) as NZ. { intro E. rewrite E in N. apply N. unfold norm. vunfold. cbn. rewrite !Rmult_0_l, !Rplus_0_l, sqrt_0. ring. }
  assert (0 < vx (V t) * vx (V t) + vy (V t) * vy (V t) + vz (V t) * vz (V t)) as Q by (change (0 < norm2 (V t)); rewrite <- norm_sq; pose proof (norm_pos _ NZ); nra).
  pose proof (norm_derive _ _ _ _ _ _ _ DX DY DZ Q) as DN. cbv beta in DN.
  assert (continuous (fun s => norm (V s) + vz (V s)) t) as C.
  { apply (continuous_plus (V := R_NormedModule)); apply (ex_derive_continuous (K := R_AbsRing) (V := R_NormedModule)); [eexists; exact DN|eexists; exact DZ]. }
  apply (C (fun y => y <> 0)). apply open_neq. exact N.
Qed.
(** Normalized.  The vector reported is the direction of what the unprojection returned, and the gradients give the rate of change of the direction of every vector that keeps
    projecting to the pixel while the pixel and the intrinsics move *)
Theorem C74_normalized : forall stale m (I : R -> nat -> R) Q V t dI dQ dV q vs g, ~ closed m -> lens_ok m -> lens_legal m -> splines_ok m -> norm vs + vz vs <> 0 ->
  (forall i, is_derive (fun s => I s i) t (dI i)) -> focal_ok (core_of (I t)) -> (forall a, 0 < a -> lens_smooth m (I t) (vscale a vs)) ->
  unproject_grads stale m (I t) q vs true = Some g ->
  g_v g = direction vs /\
  ((exists k, 0 < k /\ V t = vscale k vs) -> moves3 V t dV -> moves2 Q t dQ -> locally t (fun s => central_lens m (I s)) -> locally t (fun s => lens_pixel m (I s) (V s) = Q s) ->
   moves3 (fun s => direction (V s)) t (rate (nparams m) g dQ dI)).
Proof.
  intros stale m I Q V t dI dQ dV q vs g NC Hok Hl Hs Hv HI HF Hsm. unfold unproject_grads. rewrite (not_closed m NC). destruct (iterative_grads stale m (I t) vs) as [g'|] eqn:Eg; [|discriminate]. injection 1 as <-.
  pose proof (smooth_ray _ _ _ Hv Hsm) as Sm. destruct (rate_iterative stale m Hok Hl Hs I t dI vs g' dQ Eg) as (EV & _). destruct (on_surface vs Hv) as (k & K & Ek).
  assert (g_v (apply_normalization g') = direction (g_v g')) as Ed by (unfold apply_normalization, direction; cbn [g_v]; apply v3_eq; vunfold; unfold Rdiv; ring).
  split; [rewrite Ed, EV, Ek; now apply direction_scale|].
  intros (k' & K' & Ht) DV DQ LC L. rewrite rate_normalized. 
  assert (norm (V t) + vz (V t) <> 0) as Nt. { rewrite Ht, norm_vscale, (Rabs_pos_eq k') by lra. cbn [vscale vz]. intro Z. apply Hv. nra. }
  pose proof (in_front_locally _ _ _ DV Nt) as LN.
  set (U := fun s => project_stereographic c1 (V s)).
  assert (exists dU, moves2 U t dU) as (dU & DU).
  { destruct (C31_project_stereographic c1 (V t) Nt) as (A & B). eexists (P2 _ _). split; cbn [px py]; [exact (A V t dV eq_refl DV)|exact (B V t dV eq_refl DV)]. }
  assert (U t = project_stereographic c1 vs) as EU. { unfold U. rewrite Ht. apply (lens_scale STEREOGRAPHIC (fun i => match i with 0%nat | 1%nat => 1 | _ => 0 end)); [exact Logic.I|exact K']. }
  assert (forall s, norm (V s) + vz (V s) <> 0 -> exists a, 0 < a /\ unproject_stereographic c1 (U s) = vscale a (V s)) as Sd by (intros s; apply on_surface).
  assert (moves3 (fun s => unproject_stereographic c1 (U s)) t (rate (nparams m) g' dQ dI)) as M.
  { apply (surface_moves stale m Hok Hl Hs I t dI HI HF vs Sm g' U dU Q dQ Eg DU EU DQ). eapply filter_imp; [|exact (filter_and _ _ LN (filter_and _ _ LC L))].
    intros s (Ns & Cs & Es). destruct (Sd s Ns) as (a & A & ->). rewrite <- Es. now apply lens_scale. }
  assert (unproject_stereographic c1 (U t) = g_v g') as Et by (rewrite EU; now rewrite EV).
  assert (unproject_stereographic c1 (U t) <> v0) as NZ. { intro Z. destruct (Sd t Nt) as (a & A & E). rewrite E in Z. apply Nt. assert (V t = v0) as ->. { apply v3_eq; [apply (f_equal vx) in Z|apply (f_equal vy) in Z|apply (f_equal vz) in Z]; cbn in Z |- *; nra. }
    unfold norm. vunfold. cbn. rewrite !Rmult_0_l, !Rplus_0_l, sqrt_0. ring. }
  pose proof (direction_moves _ _ _ M NZ) as DM. cbv beta zeta in DM. rewrite Et in DM.
  destruct DM as (A & B & C). split; [|split]; (eapply is_derive_ext_loc; [|eassumption]); (eapply filter_imp; [|exact LN]); intros s Ns; cbv beta; destruct (Sd s Ns) as (a & P & E); rewrite E, direction_scale by exact P; reflexivity.
Qed.
Print Assumptions C74_normalized.

Lemma tot0 : forall n f, (forall i, f i = 0) -> S_LensGrad.tot n f = 0.
Proof. intros n f H. induction n as [|n IH]; cbn [S_LensGrad.tot]; [reflexivity|]. rewrite IH, H. ring. Qed.
(** There is no answer exactly if there is a way of moving on the surface that leaves the pixel where it is *)
Theorem C74_refused : forall stale m intr q vs normalize, ~ closed m -> norm vs + vz vs <> 0 -> focal_ok (core_of intr) -> (forall a, 0 < a -> lens_smooth m intr (vscale a vs)) ->
  unproject_grads stale m intr q vs normalize = None <->
  exists dU, (px dU <> 0 \/ py dU <> 0) /\ forall U t, U t = project_stereographic c1 vs -> moves2 U t dU -> moves2 (fun s => lens_pixel m intr (unproject_stereographic c1 (U s))) t (P2 0 0).
Proof.
  intros stale m intr q vs normalize NC Hv HF Hsm. pose proof (smooth_ray _ _ _ Hv Hsm) as Sm. set (u0 := project_stereographic c1 vs). set (w := unproject_stereographic c1 u0).
  set (J := lens_pixel_J stale m intr w). set (D := unproject_stereographic_J c1 u0).
  set (a0 := P2 (dot (dqx J) (col0 D)) (dot (dqx J) (col1 D))). set (a1 := P2 (dot (dqy J) (col0 D)) (dot (dqy J) (col1 D))).
  assert (forall U t dU, U t = u0 -> moves2 U t dU -> moves2 (fun s => lens_pixel m intr (unproject_stereographic c1 (U s))) t (P2 (px a0 * px dU + py a0 * py dU) (px a1 * px dU + py a1 * py dU))) as Rate.
  { intros U t dU EU DU. pose proof (surface_gradient U t dU DU) as DV. rewrite EU in DV. cbv zeta in DV. fold D in DV.
    assert (forall i, is_derive (fun _ : R => intr i) t 0) as DI by (intro i; apply (is_derive_const (K := R_AbsRing) (V := R_NormedModule))).
    destruct (pixel_rate stale m (fun _ => intr) t (fun _ => 0) DI HF vs Sm _ _ DV) as (A & B); [cbv beta; now rewrite EU|]. cbv beta in A, B. fold u0 in A, B. fold w in A, B. fold J in A, B. cbn [px py] in A, B.
    assert (forall ixy, intr_rate m intr w ixy (fun _ => 0) = 0) as IR.
    { intro ixy. unfold intr_rate. destruct m; try (rewrite weighted0; ring); rewrite tot0 by (intro; ring); ring. }
    rewrite !IR in A, B. split; cbn [px py]; (eapply is_derive_rw; [eassumption|]); rewrite dot_add, !dot_scale; unfold a0, a1; cbn [px py]; rr; ring. }
  assert (unproject_grads stale m intr q vs normalize = None <-> px a0 * py a1 - py a0 * px a1 = 0) as Iff.
  { unfold unproject_grads. rewrite (not_closed m NC). unfold iterative_grads. cbv zeta. fold c1. fold u0. fold w. fold J. fold D. fold a0. fold a1. unfold solve2.
    destruct (Req_EM_T (px a0 * py a1 - py a0 * px a1) 0) as [E|E]; split; intro H; try reflexivity; try assumption; try discriminate; contradiction. }
  rewrite Iff. clear Iff. split.
  - intro Z. destruct (Req_EM_T (px a0) 0) as [Z0|N0], (Req_EM_T (py a0) 0) as [Z1|N1].
    + destruct (Req_EM_T (px a1) 0) as [Z2|N2]; [destruct (Req_EM_T (py a1) 0) as [Z3|N3]|].
      * exists (P2 1 0). split; [left; cbn; lra|]. intros U t EU DU. pose proof (Rate U t _ EU DU) as X. cbn [px py] in X. rewrite Z0, Z1, Z2, Z3 in X. now replace (0 * 1 + 0 * 0) with 0 in X by ring.
      * exists (P2 (py a1) (- px a1)). split; [left; exact N3|]. intros U t EU DU. pose proof (Rate U t _ EU DU) as X. cbn [px py] in X. rewrite Z0, Z1 in X.
        replace (0 * py a1 + 0 * - px a1) with 0 in X by ring. now replace (px a1 * py a1 + py a1 * - px a1) with 0 in X by ring.
      * exists (P2 (py a1) (- px a1)). split; [right; cbn [py]; lra|]. intros U t EU DU. pose proof (Rate U t _ EU DU) as X. cbn [px py] in X. rewrite Z0, Z1 in X.
        replace (0 * py a1 + 0 * - px a1) with 0 in X by ring. now replace (px a1 * py a1 + py a1 * - px a1) with 0 in X by ring.
    + exists (P2 (py a0) (- px a0)). split; [left; exact N1|]. intros U t EU DU. pose proof (Rate U t _ EU DU) as X. cbn [px py] in X.
      replace (px a0 * py a0 + py a0 * - px a0) with 0 in X by ring. now replace (px a1 * py a0 + py a1 * - px a0) with 0 in X by lra.
    + exists (P2 (py a0) (- px a0)). split; [right; cbn [py]; lra|]. intros U t EU DU. pose proof (Rate U t _ EU DU) as X. cbn [px py] in X.
      replace (px a0 * py a0 + py a0 * - px a0) with 0 in X by ring. now replace (px a1 * py a0 + py a1 * - px a0) with 0 in X by lra.
    + exists (P2 (py a0) (- px a0)). split; [left; exact N1|]. intros U t EU DU. pose proof (Rate U t _ EU DU) as X. cbn [px py] in X.
      replace (px a0 * py a0 + py a0 * - px a0) with 0 in X by ring. now replace (px a1 * py a0 + py a1 * - px a0) with 0 in X by lra.
  - intros (dU & N & H).
    set (U := fun s => P2 (px u0 + s * px dU) (py u0 + s * py dU)). assert (U 0 = u0) as EU by (unfold U; rewrite !Rmult_0_l, !Rplus_0_r; destruct u0; reflexivity).
    assert (moves2 U 0 dU) as DU. { split; unfold U; cbn [px py]; auto_derive; auto; ring. }
    destruct (H U 0 EU DU) as (A & B), (Rate U 0 dU EU DU) as (A' & B'). cbn [px py] in A, B, A', B'. apply is_derive_unique in A, B, A', B'. rewrite A in A'. rewrite B in B'.
    destruct N as [N|N].
    + assert (px dU * (px a0 * py a1 - py a0 * px a1) = 0) as Z; [|destruct (Rmult_integral _ _ Z); [contradiction|assumption]].
      transitivity (py a1 * (px a0 * px dU + py a0 * py dU) - py a0 * (px a1 * px dU + py a1 * py dU)); [ring|]. rewrite <- A', <- B'. ring.
    + assert (py dU * (px a0 * py a1 - py a0 * px a1) = 0) as Z; [|destruct (Rmult_integral _ _ Z); [contradiction|assumption]].
      transitivity (px a0 * (px a1 * px dU + py a1 * py dU) - px a1 * (px a0 * px dU + py a0 * py dU)); [ring|]. rewrite <- A', <- B'. ring.
Qed.
Print Assumptions C74_refused.

(** The documentation: the normalized vectors are unit vectors, and their gradients are orthogonal to them *)
Definition orthogonal_grads (g : grads) : Prop := norm (g_v g) = 1 /\ dot (g_v g) (g_dq0 g) = 0 /\ dot (g_v g) (g_dq1 g) = 0 /\ forall i, dot (g_v g) (g_di g i) = 0.
Lemma normalization_orthogonal : forall g, g_v g <> v0 -> orthogonal_grads (apply_normalization g).
Proof.
  intros g N. pose proof (norm_pos _ N) as P. assert (norm (g_v (apply_normalization g)) = 1) as U.
  { unfold apply_normalization. cbn [g_v]. replace (V3 _ _ _) with (vscale (1 / norm (g_v g)) (g_v g)) by (apply v3_eq; vunfold; ring).
    rewrite norm_vscale, Rabs_pos_eq by (apply Rlt_le, Rdiv_lt_0_compat; lra). field. lra. }
  assert (forall d r, dot (g_v (apply_normalization g)) (normalize_column (g_v (apply_normalization g)) r d) = 0) as O.
  { intros d r. rewrite normalize_column_lin. set (v := g_v (apply_normalization g)) in *. clearbody v. pose proof (norm_sq v) as Q. rewrite U in Q. change (norm2 v) with (dot v v) in Q.
    replace (dot v (vscale r (vsub d (vscale (dot v d) v)))) with (r * (dot v d * (1 - dot v v))) by (vunfold; ring). rewrite <- Q. ring. }
  split; [exact U|]. split; [apply O|]. split; [apply O|]. intro i. apply O.
Qed.
Theorem C74_orthogonal : forall stale m intr q vs g, unproject_grads stale m intr q vs true = Some g -> orthogonal_grads g.
Proof.
  intros stale m intr q vs g. unfold unproject_grads. destruct (closed_form m) as [[[func func_J] always]|] eqn:E.
  - injection 1 as <-. destruct m; try discriminate; injection E as <- <- <-; cbn [andb negb].
    + apply normalization_orthogonal. cbn [closed_grads g_v]. intro Z. apply (f_equal vz) in Z. cbn in Z. lra.
    + apply normalization_orthogonal. cbn [closed_grads g_v]. intro H. pose proof (f_equal vx H) as HX. pose proof (f_equal vy H) as HY. pose proof (f_equal vz H) as HZ.
      unfold unproject_stereographic in HX, HY, HZ. cbn [vx vy vz v0] in HX, HY, HZ. rewrite HX, HY in HZ. lra.
    + assert (forall c, dot (unproject_lonlat c q) (col0 (unproject_lonlat_J c q)) = 0 /\ dot (unproject_lonlat c q) (col1 (unproject_lonlat_J c q)) = 0) as O.
      { intro c. unfold unproject_lonlat, unproject_lonlat_J, col0, col1. cbv zeta. cbn [dvx dvy dvz px py]. vunfold. set (lon := (px q - cx c) * (1 / fx c)). set (lat := (py q - cy c) * (1 / fy c)).
        set (a := 1 / fx c). set (b := 1 / fy c). pose proof (sin2_cos2 lon) as Q. unfold Rsqr in Q. clearbody a b lon lat. split; [ring|].
        transitivity (b * cos lat * sin lat * (1 - (sin lon * sin lon + cos lon * cos lon))); [ring|]. rewrite Q. ring. }
      specialize (O (core_of intr)). destruct O as (O0 & O1). split; [apply C30_unit|]. split; [exact O0|]. split; [exact O1|].
      intro i. do 3 (destruct i as [|i]; [cbn [closed_grads g_v g_di]; rewrite ?dot_scale, ?dot_neg, ?O0, ?O1; ring|]). cbn [closed_grads g_v g_di]. rewrite ?dot_neg, O1. ring.
    + assert (forall c, dot (unproject_latlon c q) (col0 (unproject_latlon_J c q)) = 0 /\ dot (unproject_latlon c q) (col1 (unproject_latlon_J c q)) = 0) as O.
      { intro c. unfold unproject_latlon, unproject_latlon_J, col0, col1. cbv zeta. cbn [dvx dvy dvz px py]. vunfold. set (lat := (px q - cx c) * (1 / fx c)). set (lon := (py q - cy c) * (1 / fy c)).
        set (a := 1 / fx c). set (b := 1 / fy c). pose proof (sin2_cos2 lon) as Q. unfold Rsqr in Q. clearbody a b lon lat. split; [|ring].
        transitivity (a * cos lat * sin lat * (1 - (sin lon * sin lon + cos lon * cos lon))); [ring|]. rewrite Q. ring. }
      specialize (O (core_of intr)). destruct O as (O0 & O1). split; [apply C30_unit|]. split; [exact O0|]. split; [exact O1|].
      intro i. do 3 (destruct i as [|i]; [cbn [closed_grads g_v g_di]; rewrite ?dot_scale, ?dot_neg, ?O0, ?O1; ring|]). cbn [closed_grads g_v g_di]. rewrite ?dot_neg, O1. ring.
  - destruct (iterative_grads stale m intr vs) as [g'|] eqn:Eg; [|discriminate]. injection 1 as <-. apply normalization_orthogonal.
    assert (g_v g' = unproject_stereographic c1 (project_stereographic c1 vs)) as ->.
    { revert Eg. unfold iterative_grads. cbv zeta. fold c1. repeat (destruct (solve2 _ _ _); [|discriminate]). injection 1 as <-. reflexivity. }
    intro H. pose proof (f_equal vx H) as HX. pose proof (f_equal vy H) as HY. pose proof (f_equal vz H) as HZ. unfold unproject_stereographic in HX, HY, HZ. cbn [vx vy vz v0] in HX, HY, HZ. rewrite HX, HY in HZ. lra.
Qed.
Print Assumptions C74_orthogonal.

(** A lens with distortion, changing: the radial distortion k1 grows and the center of the imager moves, while the observed point moves to the right *)
Definition ex_I (s : R) (i : nat) : R := match i with 0%nat => 1000 | 1%nat => 900 | 2%nat => 500 + s | 3%nat => 400 | 4%nat => 3 / 10 + 2 * s | _ => 0 end.
Definition ex_V (s : R) : v3 := V3 s 0 (1 - (s * s + 0 * 0) / 4).
Definition ex_vs : v3 := V3 0 0 7.
Lemma ex_sqrt49 : sqrt (0 * 0 + 0 * 0 + 7 * 7) = 7.
Proof. replace (0 * 0 + 0 * 0 + 7 * 7) with (7 * 7) by ring. apply sqrt_square. lra. Qed.
Lemma ex_w : unproject_stereographic c1 (project_stereographic c1 ex_vs) = V3 0 0 1.
Proof.
  unfold project_stereographic, ex_vs. cbn [vx vy vz]. rewrite ex_sqrt49. unfold unproject_stereographic, c1. cbn [px py fx fy cx cy]. apply v3_eq; cbn [vx vy vz]; field.
Qed.
Lemma ex_J : forall stale, lens_pixel_J stale OPENCV4 (ex_I 0) (V3 0 0 1) = J23 (V3 1000 0 0) (V3 0 900 0).
Proof.
  intro stale. cbn [lens_pixel_J]. unfold opencv_dq_dp. cbv zeta. unfold ocv_dm, ocv_icdist2, ocv_cdist, ocv_r6, ocv_r4, ocv_r2, ocv_x, ocv_y, ocv_z_recip, opencv_k.
  cbn [Nat.ltb Nat.leb Nat.add ex_I core_of fx fy fst snd vx vy vz]. f_equal; apply v3_eq; cbn [vx vy vz]; field; rewrite ?Rmult_0_l, ?Rplus_0_l; lra.
Qed.
Example C74_example : exists g dQ, unproject_grads (J23 v0 v0) OPENCV4 (ex_I 0) (P2 500 400) ex_vs false = Some g /\
  moves2 (fun s => lens_pixel OPENCV4 (ex_I s) (ex_V s)) 0 dQ /\ V3 1 0 0 = rate 8 g dQ (fun i => match i with 2%nat => 1 | 4%nat => 2 | _ => 0 end).
Proof.
  set (dI := fun i => match i with 2%nat => 1 | 4%nat => 2 | _ => 0 end).
  assert (forall i, is_derive (fun s => ex_I s i) 0 (dI i)) as DI. { intro i. unfold ex_I, dI. do 5 (destruct i as [|i]; [auto_derive; auto; ring|]). auto_derive; auto. }
  assert (norm ex_vs + vz ex_vs <> 0) as Nv by (unfold norm, norm2, dot, ex_vs; cbn [vx vy vz]; rewrite ex_sqrt49; lra).
  assert (focal_ok (core_of (ex_I 0))) as F by (split; cbn; lra).
  assert (forall a, 0 < a -> lens_smooth OPENCV4 (ex_I 0) (vscale a ex_vs)) as Sm by (intros a A; cbn [lens_smooth smooth sees]; unfold ocv_defined, opencv_k; cbn [Nat.ltb Nat.leb Nat.add vscale vz ex_vs]; split; [lra|]; rewrite !Rmult_0_l; lra).
  assert (moves3 ex_V 0 (V3 1 0 0)) as DV by (split; [|split]; unfold ex_V; cbn [vx vy vz]; auto_derive; auto; field).
  destruct (unproject_grads (J23 v0 v0) OPENCV4 (ex_I 0) (P2 500 400) ex_vs false) as [g|] eqn:E.
  - pose proof (smooth_ray OPENCV4 (ex_I 0) ex_vs Nv Sm) as Sm'.
    assert (ex_V 0 = unproject_stereographic c1 (project_stereographic c1 ex_vs)) as E0 by (rewrite ex_w; unfold ex_V; apply v3_eq; cbn [vx vy vz]; field).
    pose proof (pixel_rate (J23 v0 v0) OPENCV4 ex_I 0 dI DI F ex_vs Sm' ex_V _ DV E0) as DQ. set (dQ := P2 _ _) in DQ. exists g, dQ. split; [reflexivity|]. split; [exact DQ|].
    destruct (C74_iterative (J23 v0 v0) OPENCV4 ex_I (fun s => lens_pixel OPENCV4 (ex_I s) (ex_V s)) ex_V 0 dI dQ (V3 1 0 0) (P2 500 400) ex_vs g) as (_ & _ & H & _); try exact Logic.I; try assumption.
    { intros []. }
    apply H; try assumption.
    + rewrite E0. symmetry. revert E. unfold unproject_grads, closed_form. destruct (iterative_grads _ _ _ _) as [g'|] eqn:Eg; [|discriminate]. injection 1 as ->.
      apply (rate_iterative _ OPENCV4 Logic.I Logic.I Logic.I ex_I 0 dI _ _ dQ Eg).
    + intro s. unfold ex_V. cbn [vx vy vz]. ring.
    + apply filter_forall. reflexivity.
  - exfalso. revert E. unfold unproject_grads, closed_form, iterative_grads. cbv zeta. fold c1. rewrite ex_w, ex_J.
    unfold unproject_stereographic_J, c1. cbn [px py fx fy cx cy]. unfold solve2, col0, col1. cbn [dqx dqy dvx dvy dvz px py]. vunfold.
    destruct (Req_EM_T _ _) as [Z|Z]; [|discriminate]. exfalso. revert Z. apply Rgt_not_eq.
    match goal with |- ?x > 0 => replace x with 900000 by field end. lra.
Qed.
