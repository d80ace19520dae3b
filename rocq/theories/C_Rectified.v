(** C37: the geometry of the rectified system.
    C38: the rectified view keeps its distance from the baseline. *)
From Coq Require Import Reals ZArith List Bool Lia Lra Psatz.
From Verif Require Import S_Vec M_Pose P_Pose C_Rt C_RfromR M_Project P_Atan2 C_Project M_Stereo.
Import ListNotations.
Open Scope R_scope.

(** *** Specification *)
(** the position of a camera in the reference coordinate system: the point its pose maps to the origin *)
Definition is_center (p : Rt) (c : v3) : Prop := act p c = v0.
(** the viewing direction of a camera, in reference coordinates *)
Definition view_direction (p : Rt) : v3 := mv (mT (Rt_R p)) (V3 0 0 1).
Definition project_rect (model : rmodel) (c : core) (v : v3) : p2 :=
  match model with LATLON => project_latlon c v | _ => project_pinhole c v end.

Lemma center_ex : forall p, proper p -> is_center p (vneg (mv (mT (Rt_R p)) (Rt_t p))).
Proof.
  intros p P. unfold is_center, act. rewrite mv_vneg, rot_mv_mT by exact P. apply v3_eq; unfold vadd, vneg, v0; cbn; ring.
Qed.
Lemma center_unique : forall p c, proper p -> is_center p c -> c = vneg (mv (mT (Rt_R p)) (Rt_t p)).
Proof.
  intros p c P H. unfold is_center, act in H.
  assert (mv (Rt_R p) c = vneg (Rt_t p)) as E.
  { unfold v0 in H. apply v3_eq; [assert (vx (vadd (mv (Rt_R p) c) (Rt_t p)) = 0) as F by now rewrite H|assert (vy (vadd (mv (Rt_R p) c) (Rt_t p)) = 0) as F by now rewrite H|assert (vz (vadd (mv (Rt_R p) c) (Rt_t p)) = 0) as F by now rewrite H]; unfold vadd in F; cbn [vx vy vz] in F; unfold vneg; cbn [vx vy vz]; lra. }
  rewrite <- mv_vneg, <- E. symmetry. now apply rot_mT_mv.
Qed.

(** the axes, as vectors *)
Definition Rt01_of (A B : Rt) : Rt := compose_Rt2 A (invert_Rt B) false false.
Definition rows (a b c : v3) : m33 := M33 (vx a) (vy a) (vz a) (vx b) (vy b) (vz b) (vx c) (vy c) (vz c).
Lemma rows_is_rot : forall r f, norm2 r = 1 -> norm2 f = 1 -> dot f r = 0 -> is_rot (rows r (cross f r) f).
Proof.
  intros [a b c] [x y z]. unfold norm2, dot, cross, rows, is_rot, mm, mT, det, I3. cbn. intros HR HF HO.
  assert ((y * c - z * b) * (y * c - z * b) + (z * a - x * c) * (z * a - x * c) + (x * b - y * a) * (x * b - y * a) = 1) as D.
  { transitivity ((a * a + b * b + c * c) * (x * x + y * y + z * z) - (x * a + y * b + z * c) * (x * a + y * b + z * c)); [ring|]. rewrite HR, HF, HO. ring. }
  split; [|split].
  - apply m33_eq; cbn.
    + replace (a * a + (y * c - z * b) * (y * c - z * b) + x * x) with (1 + (a * a + b * b + c * c - 1) * (y * y + z * z) - (x * a + y * b + z * c) * (y * b + z * c - x * a) + (x * x + y * y + z * z - 1) * (1 - a * a)) by ring.
      rewrite HR, HF, HO. ring.
    + replace (a * b + (y * c - z * b) * (z * a - x * c) + x * y) with (- (a * a + b * b + c * c - 1) * (x * y) + (x * a + y * b + z * c) * (x * b + y * a) - (x * x + y * y + z * z - 1) * (a * b)) by ring.
      rewrite HR, HF, HO. ring.
    + replace (a * c + (y * c - z * b) * (x * b - y * a) + x * z) with (- (a * a + b * b + c * c - 1) * (x * z) + (x * a + y * b + z * c) * (x * c + z * a) - (x * x + y * y + z * z - 1) * (a * c)) by ring.
      rewrite HR, HF, HO. ring.
    + replace (b * a + (z * a - x * c) * (y * c - z * b) + y * x) with (- (a * a + b * b + c * c - 1) * (x * y) + (x * a + y * b + z * c) * (x * b + y * a) - (x * x + y * y + z * z - 1) * (a * b)) by ring.
      rewrite HR, HF, HO. ring.
    + replace (b * b + (z * a - x * c) * (z * a - x * c) + y * y) with (1 + (a * a + b * b + c * c - 1) * (x * x + z * z) - (x * a + y * b + z * c) * (x * a + z * c - y * b) + (x * x + y * y + z * z - 1) * (1 - b * b)) by ring.
      rewrite HR, HF, HO. ring.
    + replace (b * c + (z * a - x * c) * (x * b - y * a) + y * z) with (- (a * a + b * b + c * c - 1) * (y * z) + (x * a + y * b + z * c) * (y * c + z * b) - (x * x + y * y + z * z - 1) * (b * c)) by ring.
      rewrite HR, HF, HO. ring.
    + replace (c * a + (x * b - y * a) * (y * c - z * b) + z * x) with (- (a * a + b * b + c * c - 1) * (x * z) + (x * a + y * b + z * c) * (x * c + z * a) - (x * x + y * y + z * z - 1) * (a * c)) by ring.
      rewrite HR, HF, HO. ring.
    + replace (c * b + (x * b - y * a) * (z * a - x * c) + z * y) with (- (a * a + b * b + c * c - 1) * (y * z) + (x * a + y * b + z * c) * (y * c + z * b) - (x * x + y * y + z * z - 1) * (b * c)) by ring.
      rewrite HR, HF, HO. ring.
    + replace (c * c + (x * b - y * a) * (x * b - y * a) + z * z) with (1 + (a * a + b * b + c * c - 1) * (x * x + y * y) - (x * a + y * b + z * c) * (x * a + y * b - z * c) + (x * x + y * y + z * z - 1) * (1 - c * c)) by ring.
      rewrite HR, HF, HO. ring.
  - apply m33_eq; cbn; try (ring_simplify; lra); try lra; nra.
  - transitivity ((y * c - z * b) * (y * c - z * b) + (z * a - x * c) * (z * a - x * c) + (x * b - y * a) * (x * b - y * a)); [ring|exact D].
Qed.

Lemma norm2_sum : forall v, norm2 v = vx v * vx v + vy v * vy v + vz v * vz v.
Proof. reflexivity. Qed.
Lemma Rt01_t : forall A B c1, proper A -> proper B -> is_center B c1 -> Rt_t (Rt01_of A B) = act A c1.
Proof.
  intros A B c1 PA PB H. rewrite (center_unique B c1 PB H). unfold Rt01_of, compose_Rt2, act, invert_Rt. cbn [Rt_t Rt_R].
  apply v3_eq; unfold vadd, vneg, mv, mul_Rv, mT, invert_R; cbn; ring.
Qed.
Lemma Rt01_R : forall A B, Rt_R (Rt01_of A B) = mm (Rt_R A) (mT (Rt_R B)).
Proof. intros. unfold Rt01_of, compose_Rt2, invert_Rt. cbn [Rt_R]. rewrite mul_RR_mm. reflexivity. Qed.

Record axes_spec (A B : Rt) (a : axes) : Prop := {
  as_rot : is_rot (ax_R a);
  as_baseline : ax_baseline a = norm (Rt_t (Rt01_of A B));
  as_big : 1 / 1000000 <= ax_baseline a;
  as_right : mv (ax_R a) (Rt_t (Rt01_of A B)) = V3 (ax_baseline a) 0 0;
  as_forward : ax_forward01 a = vadd (mv (Rt_R (Rt01_of A B)) (V3 0 0 1)) (V3 0 0 1);
  as_mean : vy (mv (ax_R a) (ax_forward01 a)) = 0 /\ 0 < vz (mv (ax_R a) (ax_forward01 a)) /\ vx (mv (ax_R a) (ax_forward01 a)) = ax_proj a }.

Lemma dot_vscale_l : forall k a b, dot (vscale k a) b = k * dot a b.
Proof. intros. unfold dot, vscale. cbn. ring. Qed.
Lemma dot_vscale_r : forall k a b, dot a (vscale k b) = k * dot a b.
Proof. intros. unfold dot, vscale. cbn. ring. Qed.
Lemma mv_rows : forall a b c v, mv (rows a b c) v = V3 (dot a v) (dot b v) (dot c v).
Proof. intros. reflexivity. Qed.

(** the code's expressions in vector notation *)
Lemma rectified_axes_vec : forall A B,
  let t := Rt_t (Rt01_of A B) in let b := norm t in
  let right := vscale (/ b) t in
  let f01 := vadd (mv (Rt_R (Rt01_of A B)) (V3 0 0 1)) (V3 0 0 1) in
  let p := dot f01 right in
  let f := vsub f01 (vscale p right) in
  rectified_axes A B =
    if Rlt_dec b (1 / 1000000) then Axes_small_baseline
    else if Req_EM_T (norm2 f) 0 then Axes_nan
    else let fw := vscale (/ norm f) f in Axes_ok (Axes b (rows right (cross fw right) fw) f01 p).
Proof.
  intros A B t b right f01 p f. unfold rectified_axes. fold (Rt01_of A B). fold t.
  change (sqrt (vx t * vx t + vy t * vy t + vz t * vz t)) with b.
  destruct (Rlt_dec b (1 / 1000000)) as [L|L]; [reflexivity|].
  assert (Rr : V3 (vx t / b) (vy t / b) (vz t / b) = right) by (unfold right; apply v3_eq; cbn; unfold Rdiv; ring).
  assert (Rf : V3 (m02 (Rt_R (Rt01_of A B))) (m12 (Rt_R (Rt01_of A B))) (m22 (Rt_R (Rt01_of A B)) + 1) = f01).
  { unfold f01. apply v3_eq; unfold vadd, mv; cbn [vx vy vz]; ring. }
  rewrite Rr, Rf.
  change (vx f01 * vx right + vy f01 * vy right + vz f01 * vz right) with p.
  change (V3 (vx f01 - p * vx right) (vy f01 - p * vy right) (vz f01 - p * vz right)) with f.
  change (vx f * vx f + vy f * vy f + vz f * vz f) with (norm2 f).
  destruct (Req_EM_T (norm2 f) 0) as [E|E]; [reflexivity|].
  change (sqrt (norm2 f)) with (norm f).
  assert (Rw : V3 (vx f / norm f) (vy f / norm f) (vz f / norm f) = vscale (/ norm f) f) by (apply v3_eq; cbn; unfold Rdiv; ring).
  rewrite Rw. reflexivity.
Qed.

Lemma unit_of : forall v, norm v <> 0 -> norm2 (vscale (/ norm v) v) = 1.
Proof.
  intros v H. unfold norm2. rewrite dot_vscale_l, dot_vscale_r. change (dot v v) with (norm2 v). rewrite <- norm_sq. now field.
Qed.

Lemma resplit : forall g w f, f = vsub g w -> norm f <> 0 -> g = vadd (vscale (norm f) (vscale (/ norm f) f)) w.
Proof.
  intros g w f E H. assert (g = vadd f w) as -> by (rewrite E; apply v3_eq; unfold vadd, vsub; cbn; ring).
  clear E. generalize dependent (norm f). intros n H. apply v3_eq; unfold vadd, vscale; cbn; field; exact H.
Qed.
Lemma rectified_axes_spec : forall A B a, rectified_axes A B = Axes_ok a -> axes_spec A B a.
Proof.
  intros A B a. pose proof (rectified_axes_vec A B) as E. cbv zeta in E. rewrite E. clear E.
  set (t := Rt_t (Rt01_of A B)). set (b := norm t). set (right := vscale (/ b) t).
  set (f01 := vadd (mv (Rt_R (Rt01_of A B)) (V3 0 0 1)) (V3 0 0 1)). set (p := dot f01 right). set (f := vsub f01 (vscale p right)).
  destruct (Rlt_dec b (1 / 1000000)) as [L|L]; [discriminate|].
  destruct (Req_EM_T (norm2 f) 0) as [Z|Z]; [discriminate|]. intro H. inversion H as [H']. clear H H'.
  assert (B0 : norm t <> 0) by (fold b; lra).
  assert (F0 : norm f <> 0) by (intro Q; apply Z; rewrite <- norm_sq, Q; ring).
  pose proof (norm_nonneg f) as Fn. assert (0 < norm f) as Fp by lra.
  assert (U : norm2 right = 1) by (apply unit_of; exact B0).
  assert (Uf : norm2 (vscale (/ norm f) f) = 1) by (apply unit_of; exact F0).
  assert (O0 : dot f right = 0).
  { replace (dot f right) with (dot f01 right - p * norm2 right).
    - rewrite U. unfold p. ring.
    - unfold f, norm2, dot, vsub, vscale. cbn. ring. }
  assert (O : dot (vscale (/ norm f) f) right = 0) by (rewrite dot_vscale_l, O0; ring).
  assert (Tb : t = vscale b right).
  { unfold right. apply v3_eq; unfold vscale; cbn; field; exact B0. }
  assert (Dc : forall u v, dot (cross u v) u = 0 /\ dot (cross u v) v = 0).
  { intros. unfold dot, cross. cbn. split; ring. }
  assert (F01 : f01 = vadd (vscale (norm f) (vscale (/ norm f) f)) (vscale p right)).
  { apply resplit; [reflexivity|exact F0]. }
  assert (dot_add : forall u v w, dot u (vadd v w) = dot u v + dot u w) by (intros; unfold dot, vadd; cbn; ring).
  constructor; cbn [ax_R ax_baseline ax_forward01 ax_proj]; fold t.
  - now apply rows_is_rot.
  - reflexivity.
  - lra.
  - rewrite mv_rows, Tb, !dot_vscale_r. change (dot right right) with (norm2 right). rewrite U, (proj2 (Dc _ _)), O.
    apply v3_eq; cbn; ring.
  - reflexivity.
  - rewrite mv_rows. cbn [vx vy vz]. split; [|split].
    + rewrite F01, dot_add, !dot_vscale_r. destruct (Dc (vscale (/ norm f) f) right) as [D1 D2]. rewrite dot_vscale_r in D1.
      rewrite D2. rewrite D1. ring.
    + rewrite F01, dot_add, dot_vscale_r, (dot_vscale_r p), O. change (dot (vscale (/ norm f) f) (vscale (/ norm f) f)) with (norm2 (vscale (/ norm f) f)). rewrite Uf. lra.
    + unfold p. apply dot_comm.
Qed.

(** *** C37 *)
Section C37.
  Variable eig : R -> R -> R -> R -> option (list (R * R)).
  Variable dq_dv : v3 -> j23.

  Lemma rectified_system_inv : forall model auto ppa ppe fa fe a0 e0 mg rt0 rt1 r,
    rectified_system eig dq_dv model auto ppa ppe fa fe a0 e0 mg rt0 rt1 = Rect_ok r ->
    exists ax az0, rectified_axes (Rt_from_rt rt0) (Rt_from_rt rt1) = Axes_ok ax /\
      choose_az0 auto mg a0 fa (ax_proj ax) (ax_forward01 ax) = Some (r_az0_deg r, az0) /\
      r_baseline r = ax_baseline ax /\
      r_Rt_rect0_ref r = compose_Rt2 (mkRt (ax_R ax) (V3 0 0 0)) (Rt_from_rt rt0) false false /\
      r_rt_rect0_ref r = rt_from_Rt (r_Rt_rect0_ref r) /\ r_Nel r <> 0%Z /\ 0 < fa /\ 0 < fe /\
      let '(pa, pe) := rectified_resolution dq_dv model ppa ppe fa fe (r_az0_deg r) e0 (invert_R (ax_R ax)) in
      let el0 := e0 * PI / 180 in
      let fx := pa / PI * 180 in let fy := pe / PI * 180 in
      match model with
      | OTHER => False
      | LATLON => r_Naz r = round_away (fa * pa) /\ r_Nel r = round_away (fe * pe) /\
          r_core r = Core fx fy ((IZR (r_Naz r) - 1) / 2 - az0 * fx) ((IZR (r_Nel r) - 1) / 2 - el0 * fy)
      | PINHOLE => exists x y, r_core r = Core (fx * (cos az0 * cos az0)) (fy * (cos el0 * cos el0)) x y /\
          pinhole_cxy eig (fx * (cos az0 * cos az0)) (tan az0) fa = Some x /\
          pinhole_cxy eig (fy * (cos el0 * cos el0)) (tan el0) fe = Some y /\
          r_Naz r = (round_away ((tan az0 * (fx * (cos az0 * cos az0)) + x) * 2) + 1)%Z /\
          r_Nel r = (round_away ((tan el0 * (fy * (cos el0 * cos el0)) + y) * 2) + 1)%Z
      end.
  Proof.
    intros model auto ppa ppe fa fe a0 e0 mg rt0 rt1 r. unfold rectified_system.
    destruct model; [| |discriminate].
    all: destruct (Req_EM_T ppa 0); [discriminate|]; destruct (Req_EM_T ppe 0); [discriminate|].
    all: destruct (Rle_dec fa 0) as [Qa|Qa]; [discriminate|]; destruct (Rle_dec fe 0) as [Qe|Qe]; [discriminate|].
    all: destruct (rectified_axes _ _) as [ax| |]; try discriminate.
    all: destruct (choose_az0 _ _ _ _ _ _) as [[ad az0]|] eqn:Ca; [|discriminate].
    all: destruct (rectified_resolution _ _ _ _ _ _ _ _ _) as [pa pe] eqn:Er.
    - destruct (Z.eqb_spec (round_away (fe * pe)) 0) as [Z|Z]; [discriminate|]. intro H. inversion H; subst r. clear H.
      exists ax, az0. cbn [r_az0_deg r_baseline r_Rt_rect0_ref r_rt_rect0_ref r_Nel r_Naz r_core].
      rewrite Er. repeat (split; [first [reflexivity | assumption | lra]|]). reflexivity.
    - destruct (pinhole_cxy _ _ _ fa) as [x|] eqn:Ex; [|discriminate]. destruct (pinhole_cxy _ _ _ fe) as [y|] eqn:Ey; [|discriminate].
      match goal with |- context [Z.eqb ?n 0] => destruct (Z.eqb_spec n 0) as [Z|Z]; [discriminate|] end.
      intro H. inversion H; subst r. clear H.
      exists ax, az0. cbn [r_az0_deg r_baseline r_Rt_rect0_ref r_rt_rect0_ref r_Nel r_Naz r_core].
      rewrite Er. repeat (split; [first [reflexivity | assumption | lra]|]). exists x, y. repeat (split; [first [reflexivity | assumption]|]). reflexivity.
  Qed.

  (** The rectified coordinate system: a rotation of camera 0's, centered there; camera 1 is
      at (baseline,0,0); the baseline is the distance between the cameras; the mean of the two
      viewing directions has no vertical component and points forward. *)
  Theorem C37_geometry : forall model auto ppa ppe fa fe a0 e0 mg rt0 rt1 r c0 c1,
    rectified_system eig dq_dv model auto ppa ppe fa fe a0 e0 mg rt0 rt1 = Rect_ok r ->
    is_center (Rt_from_rt rt0) c0 -> is_center (Rt_from_rt rt1) c1 ->
    let P := r_Rt_rect0_ref r in
    proper P /\ act P c0 = v0 /\ act P c1 = V3 (r_baseline r) 0 0 /\
    r_baseline r = norm (vsub c1 c0) /\ 0 < r_baseline r /\
    (let d := mv (Rt_R P) (vadd (view_direction (Rt_from_rt rt0)) (view_direction (Rt_from_rt rt1))) in vy d = 0 /\ 0 < vz d).
  Proof.
    intros model auto ppa ppe fa fe a0 e0 mg rt0 rt1 r c0 c1 H C0 C1 P.
    destruct (rectified_system_inv _ _ _ _ _ _ _ _ _ _ _ _ H) as (ax & az0 & Ea & _ & Eb & EP & _).
    pose proof (rectified_axes_spec _ _ _ Ea) as S.
    set (A := Rt_from_rt rt0) in *. set (B := Rt_from_rt rt1) in *.
    assert (PA : proper A) by apply R_from_r_rot. assert (PB : proper B) by apply R_from_r_rot.
    assert (EPact : forall x, act P x = mv (ax_R ax) (act A x)).
    { intro x. unfold P. rewrite EP. change (compose_Rt2 (mkRt (ax_R ax) (V3 0 0 0)) A false false) with (comp (mkRt (ax_R ax) (V3 0 0 0)) A).
      rewrite <- !C22_transform_is_action. unfold comp. rewrite (proj1 (C22_compose _ _ _)). rewrite !C22_transform_is_action.
      unfold act. cbn [Rt_R Rt_t]. apply v3_eq; unfold vadd; cbn; ring. }
    assert (ER : Rt_R P = mm (ax_R ax) (Rt_R A)) by (unfold P; rewrite EP; cbn [compose_Rt2 Rt_R]; apply mul_RR_mm).
    assert (Et : Rt_t (Rt01_of A B) = act A c1) by now apply Rt01_t.
    destruct S as [S1 S2 S3 S4 S5 (S6 & S7 & _)].
    assert (act P c0 = v0) as E0.
    { rewrite EPact, C0. apply v3_eq; unfold mv, v0; cbn; ring. }
    assert (act P c1 = V3 (r_baseline r) 0 0) as E1 by (rewrite EPact, <- Et, S4, Eb; reflexivity).
    assert (proper P) as PP by (unfold proper; rewrite ER; apply is_rot_mm; assumption).
    split; [exact PP|]. split; [exact E0|]. split; [exact E1|]. split; [|split].
    - transitivity (norm (vsub (act P c1) (act P c0))).
      + rewrite E0, E1. unfold norm, norm2, dot, vsub, v0. cbn.
        replace ((r_baseline r - 0) * (r_baseline r - 0) + (0 - 0) * (0 - 0) + (0 - 0) * (0 - 0)) with (r_baseline r * r_baseline r) by ring.
        rewrite sqrt_square; [reflexivity|]. rewrite Eb. lra.
      + rewrite <- (rot_norm (Rt_R P) (vsub c1 c0) PP). f_equal. rewrite mv_vsub. unfold act. apply v3_eq; unfold vsub, vadd; cbn; ring.
    - rewrite Eb. lra.
    - intro d. assert (d = mv (ax_R ax) (ax_forward01 ax)) as Ed.
      { unfold d, view_direction. rewrite ER, mv_mm. f_equal. rewrite mv_vadd, rot_mv_mT by exact PA. rewrite S5, Rt01_R, mv_mm.
        apply v3_eq; unfold vadd; cbn; ring. }
      rewrite Ed. split; assumption.
  Qed.

  (** what is returned as an rt: the translation is exact, the rotation vector
      is within 5e-8 of one that describes the rotation (see C21) *)
  Theorem C37_returned_pose : forall model auto ppa ppe fa fe a0 e0 mg rt0 rt1 r,
    rectified_system eig dq_dv model auto ppa ppe fa fe a0 e0 mg rt0 rt1 = Rect_ok r ->
    rt_t (r_rt_rect0_ref r) = Rt_t (r_Rt_rect0_ref r) /\
    exists rv, rotation_by (Rt_R (r_Rt_rect0_ref r)) rv /\
      forall i, (i < 3)%nat -> Rabs (vget (rt_r (r_rt_rect0_ref r)) i - vget rv i) <= 5 / 100000000.
  Proof.
    intros model auto ppa ppe fa fe a0 e0 mg rt0 rt1 r H.
    destruct (rectified_system_inv _ _ _ _ _ _ _ _ _ _ _ _ H) as (ax & az0 & Ea & _ & Eb & EP & Er & _).
    rewrite Er. split; [reflexivity|]. cbn [rt_r rt_from_Rt].
    apply C21_r_from_R_accurate.
    pose proof (as_rot _ _ _ (rectified_axes_spec _ _ _ Ea)) as S. rewrite EP. cbn [Rt_R compose_Rt2]. rewrite mul_RR_mm.
    apply is_rot_mm; [exact S|]. apply R_from_r_rot.
  Qed.
End C37.

(** the second rectified camera has the orientation of the first, shifted by the baseline along +x *)
Theorem C37_second_camera : forall rt0 b x,
  rt_r (rt_rect1_ref rt0 b) = rt_r rt0 /\
  act (Rt_from_rt (rt_rect1_ref rt0 b)) x = vsub (act (Rt_from_rt rt0) x) (V3 b 0 0).
Proof. intros [r t] b x. split; [reflexivity|]. unfold act, rt_rect1_ref, Rt_from_rt. cbn. apply v3_eq; unfold vadd, vsub; cbn; ring. Qed.

(** any point appears in the same row of both rectified images, for any baseline *)
Theorem C37_same_row : forall model c b p, py (project_rect model c p) = py (project_rect model c (vsub p (V3 b 0 0))).
Proof.
  intros model c b [x y z]. destruct model; unfold project_rect, project_latlon, project_pinhole, vsub; cbn; now rewrite !Rminus_0_r.
Qed.
Print Assumptions C37_geometry.

(** *** C38 *)
(** the margin the documentation asks for, with the slack of the code *)
Definition clear_of_baseline (margin slack az0_deg fov_deg : R) : Prop :=
  -90 + margin - slack < az0_deg - fov_deg / 2 /\ az0_deg + fov_deg / 2 < 90 - margin + slack.
(** a center azimuth for which the view keeps the whole margin *)
Definition keeps_margin (margin az0_deg fov_deg : R) : Prop :=
  -90 + margin <= az0_deg - fov_deg / 2 /\ az0_deg + fov_deg / 2 <= 90 - margin.

Lemma choose_az0_rad : forall auto mg a0 fov p f x y, choose_az0 auto mg a0 fov p f = Some (x, y) -> y = x * PI / 180.
Proof.
  intros auto mg a0 fov p f x y. pose proof PI_RGT_0 as P. unfold choose_az0. destruct auto.
  - destruct (Rgt_dec _ _); [destruct (Rlt_dec _ _); [|destruct (Rgt_dec _ _); [discriminate|]]|destruct (Rgt_dec _ _); [discriminate|]];
      intro H; inversion H; subst; field; lra.
  - destruct (Rgt_dec _ _); [|discriminate]. destruct (Rlt_dec _ _); [|discriminate]. intro H. inversion H. reflexivity.
Qed.
Lemma choose_az0_margin : forall auto mg a0 fov p f x y, choose_az0 auto mg a0 fov p f = Some (x, y) -> clear_of_baseline mg (1 / 1000) x fov.
Proof.
  intros auto mg a0 fov p f x y. unfold choose_az0, clear_of_baseline. destruct auto.
  - destruct (Rgt_dec _ _) as [A|A]; [destruct (Rlt_dec _ _) as [B|B]; [|destruct (Rgt_dec _ _) as [C|C]; [discriminate|]]|destruct (Rgt_dec _ _) as [C|C]; [discriminate|]];
      intro H; inversion H; subst; lra.
  - destruct (Rgt_dec _ _) as [A|A]; [|discriminate]. destruct (Rlt_dec _ _) as [B|B]; [|discriminate]. intro H. inversion H; subst. lra.
Qed.
(** auto-detection fails only if nothing could work *)
Theorem C38_auto_fails_only_if_impossible : forall mg a0 fov p f,
  choose_az0 true mg a0 fov p f = None -> forall x, ~ keeps_margin mg x fov.
Proof.
  intros mg a0 fov p f. unfold choose_az0, keeps_margin.
  destruct (Rgt_dec _ _) as [A|A]; [destruct (Rlt_dec _ _) as [B|B]; [|destruct (Rgt_dec _ _) as [C|C]]|destruct (Rgt_dec _ _) as [C|C]];
    try discriminate; intros _ x X; lra.
Qed.
(** auto-detection keeps the mean viewing azimuth when that satisfies the margin; otherwise it
    moves by no more than necessary: no center closer to the detected one keeps the margin *)
Theorem C38_auto_minimal : forall mg a0 fov p f x y,
  choose_az0 true mg a0 fov p f = Some (x, y) -> 0 <= fov ->
  let detected := asin (p / norm f) * 180 / PI in
  (keeps_margin mg detected fov -> x = detected) /\
  (forall x', keeps_margin mg x' fov -> Rabs (x - detected) <= Rabs (x' - detected)).
Proof.
  intros mg a0 fov p f x y H F detected. unfold choose_az0 in H.
  change (sqrt (vx f * vx f + vy f * vy f + vz f * vz f)) with (norm f) in H. fold detected in H. unfold keeps_margin.
  revert H. destruct (Rgt_dec _ _) as [A|A]; [destruct (Rlt_dec _ _) as [B|B]; [|destruct (Rgt_dec _ _) as [C|C]; [discriminate|]]|destruct (Rgt_dec _ _) as [C|C]; [discriminate|]];
    intro H; inversion H; subst x; clear H.
  - split; [reflexivity|]. intros. rewrite Rminus_eq_0, Rabs_R0. apply Rabs_pos.
  - split; [lra|]. intros x' X'. rewrite !Rabs_left1 by lra. lra.
  - split; [lra|]. intros x' X'. rewrite !Rabs_pos_eq by lra. lra.
Qed.
(** with a given center the call is rejected only if the view gets too close *)
Theorem C38_given_center : forall mg a0 fov p f,
  (keeps_margin mg a0 fov -> choose_az0 false mg a0 fov p f = Some (a0, a0 * PI / 180)) /\
  (forall x y, choose_az0 false mg a0 fov p f = Some (x, y) -> x = a0).
Proof.
  intros mg a0 fov p f. unfold choose_az0, keeps_margin. split.
  - intros K. destruct (Rgt_dec _ _) as [A|A]; [|exfalso; lra]. destruct (Rlt_dec _ _) as [B|B]; [reflexivity|exfalso; lra].
  - intros x y. destruct (Rgt_dec _ _); [|discriminate]. destruct (Rlt_dec _ _); [|discriminate]. intro H. now inversion H.
Qed.

Lemma round_away_IZR : forall n, round_away (IZR n) = n.
Proof.
  assert (forall k, Int_part (IZR k + 1 / 2) = k) as G.
  { intro k. pose proof (base_Int_part (IZR k + 1 / 2)) as [A B].
    assert (IZR (Int_part (IZR k + 1 / 2)) < IZR (k + 1)) as L by (rewrite plus_IZR; lra).
    assert (IZR (k - 1) < IZR (Int_part (IZR k + 1 / 2))) as M by (rewrite minus_IZR; lra).
    apply lt_IZR in L, M. lia. }
  intro n. unfold round_away. destruct (Rle_dec 0 (IZR n)); [apply G|]. rewrite <- opp_IZR, G. lia.
Qed.
Lemma round_away_error : forall x, Rabs (IZR (round_away x) - x) <= 1 / 2.
Proof.
  intro x. unfold round_away. destruct (Rle_dec 0 x).
  - pose proof (base_Int_part (x + 1 / 2)). apply Rabs_le. lra.
  - pose proof (base_Int_part (- x + 1 / 2)). rewrite opp_IZR. apply Rabs_le. lra.
Qed.

(** in the LATLON model every pixel's azimuth, in degrees *)
Definition pixel_azimuth_deg (model : rmodel) (c : core) (x : R) : R :=
  match model with LATLON => (x - cx c) / fx c | _ => atan ((x - cx c) / fx c) end * 180 / PI.

Section C38.
  Variable eig : R -> R -> R -> R -> option (list (R * R)).
  Variable dq_dv : v3 -> j23.

  Theorem C38_margin : forall model auto ppa ppe fa fe a0 e0 mg rt0 rt1 r,
    rectified_system eig dq_dv model auto ppa ppe fa fe a0 e0 mg rt0 rt1 = Rect_ok r ->
    clear_of_baseline mg (1 / 1000) (r_az0_deg r) fa.
  Proof.
    intros model auto ppa ppe fa fe a0 e0 mg rt0 rt1 r H.
    destruct (rectified_system_inv _ _ _ _ _ _ _ _ _ _ _ _ _ _ H) as (ax & az0 & _ & Ca & _). exact (choose_az0_margin _ _ _ _ _ _ _ _ Ca).
  Qed.

  Lemma latlon_inv : forall auto ppa ppe fa fe a0 e0 mg rt0 rt1 r,
    rectified_system eig dq_dv LATLON auto ppa ppe fa fe a0 e0 mg rt0 rt1 = Rect_ok r ->
    fx (r_core r) = IZR (r_Naz r) / fa / PI * 180 /\ fy (r_core r) = IZR (r_Nel r) / fe / PI * 180 /\
    cx (r_core r) = (IZR (r_Naz r) - 1) / 2 - r_az0_deg r * PI / 180 * fx (r_core r) /\
    cy (r_core r) = (IZR (r_Nel r) - 1) / 2 - e0 * PI / 180 * fy (r_core r) /\ 0 < fa /\ 0 < fe.
  Proof.
    intros auto ppa ppe fa fe a0 e0 mg rt0 rt1 r H.
    destruct (rectified_system_inv _ _ _ _ _ _ _ _ _ _ _ _ _ _ H) as (ax & az0 & _ & Ca & _ & _ & _ & Nz & Fa & Fe & HH).
    pose proof (choose_az0_rad _ _ _ _ _ _ _ _ Ca) as Ra.
    unfold rectified_resolution in HH. destruct (center_vector _ _ _) as [v J].
    cbv zeta beta iota in HH.
    match type of HH with context [round_away (fa * (IZR (round_away (fa * ?p)) / fa))] => set (pa := p) in HH end.
    match type of HH with context [round_away (fe * (IZR (round_away (fe * ?p)) / fe))] => set (pe := p) in HH end.
    clearbody pa pe. destruct HH as (Ea & Ee & Ec).
    replace (fa * (IZR (round_away (fa * pa)) / fa)) with (IZR (round_away (fa * pa))) in Ea by (field; lra).
    replace (fe * (IZR (round_away (fe * pe)) / fe)) with (IZR (round_away (fe * pe))) in Ee by (field; lra).
    rewrite round_away_IZR in Ea, Ee. rewrite Ec, Ea, Ee. cbn [fx fy cx cy]. rewrite Ra. repeat split; assumption.
  Qed.

  (** every pixel of the LATLON image looks within the requested field of view, so clear of the baseline *)
  Theorem C38_latlon_pixels : forall auto ppa ppe fa fe a0 e0 mg rt0 rt1 r x,
    rectified_system eig dq_dv LATLON auto ppa ppe fa fe a0 e0 mg rt0 rt1 = Rect_ok r ->
    (0 < r_Naz r)%Z -> 0 <= x <= IZR (r_Naz r) - 1 ->
    let az := pixel_azimuth_deg LATLON (r_core r) x in
    r_az0_deg r - fa / 2 < az < r_az0_deg r + fa / 2 /\ -90 + mg - 1 / 1000 < az < 90 - mg + 1 / 1000.
  Proof.
    intros auto ppa ppe fa fe a0 e0 mg rt0 rt1 r x H N X az.
    destruct (latlon_inv _ _ _ _ _ _ _ _ _ _ _ H) as (Ef & _ & Ec & _ & Fa & _).
    pose proof (C38_margin _ _ _ _ _ _ _ _ _ _ _ _ H) as M. unfold clear_of_baseline in M.
    apply (IZR_lt 0) in N. pose proof PI_RGT_0 as P.
    assert (az = r_az0_deg r + (x - (IZR (r_Naz r) - 1) / 2) * fa / IZR (r_Naz r)) as E.
    { unfold az, pixel_azimuth_deg. rewrite Ec, Ef. field. repeat split; lra. }
    set (n := IZR (r_Naz r)) in *. clearbody n.
    assert (- (fa / 2) < (x - (n - 1) / 2) * fa / n < fa / 2) as B.
    { split.
      - apply Rmult_lt_reg_r with n; [lra|]. unfold Rdiv at 2. rewrite Rmult_assoc, Rinv_l, Rmult_1_r by lra. nra.
      - apply Rmult_lt_reg_r with n; [lra|]. unfold Rdiv at 1. rewrite Rmult_assoc, Rinv_l, Rmult_1_r by lra. nra. }
    rewrite E. lra.
  Qed.

  (** (az0,el0) is what the center of the LATLON image looks at *)
  Theorem C37_latlon_center : forall auto ppa ppe fa fe a0 e0 mg rt0 rt1 r,
    rectified_system eig dq_dv LATLON auto ppa ppe fa fe a0 e0 mg rt0 rt1 = Rect_ok r -> (r_Naz r <> 0)%Z -> (r_Nel r <> 0)%Z ->
    let az0 := r_az0_deg r * PI / 180 in let el0 := e0 * PI / 180 in
    unproject_latlon (r_core r) (P2 ((IZR (r_Naz r) - 1) / 2) ((IZR (r_Nel r) - 1) / 2)) =
    V3 (sin az0) (cos az0 * sin el0) (cos az0 * cos el0).
  Proof.
    intros auto ppa ppe fa fe a0 e0 mg rt0 rt1 r H N1 N2 az0 el0.
    destruct (latlon_inv _ _ _ _ _ _ _ _ _ _ _ H) as (Ef & Eg & Ec & Ed & Fa & Fe). pose proof PI_RGT_0 as P.
    apply not_0_IZR in N1, N2.
    assert (fx (r_core r) <> 0 /\ fy (r_core r) <> 0) as [F1 F2].
    { rewrite Ef, Eg. unfold Rdiv. split; repeat apply Rmult_integral_contrapositive_currified; try lra; try (apply Rinv_neq_0_compat; lra). }
    unfold unproject_latlon. cbn [px py]. rewrite Ec, Ed. fold az0 el0. 
    replace (((IZR (r_Naz r) - 1) / 2 - ((IZR (r_Naz r) - 1) / 2 - az0 * fx (r_core r))) * (1 / fx (r_core r))) with az0 by (field; exact F1).
    replace (((IZR (r_Nel r) - 1) / 2 - ((IZR (r_Nel r) - 1) / 2 - el0 * fy (r_core r))) * (1 / fy (r_core r))) with el0 by (field; exact F2).
    reflexivity.
  Qed.
End C38.

Lemma axes_example : rectified_axes (Rt_from_rt (mkrt v0 v0)) (Rt_from_rt (mkrt v0 (V3 (-1) 0 0))) = Axes_ok (Axes 1 I3 (V3 0 0 2) 0).
Proof.
  assert (E0 : R_from_r v0 = I3).
  { unfold R_from_r, v0. cbn [vx vy vz]. replace (0 * 0 + 0 * 0 + 0 * 0) with 0 by ring.
    destruct (Rlt_dec _ _) as [L|L].
    - apply m33_eq; cbn; ring.
    - exfalso. apply L. unfold DBL_EPSILON. lra. }
  unfold Rt_from_rt. cbn [rt_r rt_t]. rewrite E0.
  pose proof (rectified_axes_vec (mkRt I3 v0) (mkRt I3 (V3 (-1) 0 0))) as E. cbv zeta in E. rewrite E. clear E.
  assert (Et : Rt_t (Rt01_of (mkRt I3 v0) (mkRt I3 (V3 (-1) 0 0))) = V3 1 0 0).
  { apply v3_eq; unfold Rt01_of, compose_Rt2, invert_Rt, mul_Rv, invert_R, I3, v0; cbn; ring. }
  assert (ER : Rt_R (Rt01_of (mkRt I3 v0) (mkRt I3 (V3 (-1) 0 0))) = I3).
  { rewrite Rt01_R. cbn [Rt_R]. now rewrite mT_I, mm_I_l. }
  rewrite Et, ER.
  assert (En : norm (V3 1 0 0) = 1).
  { unfold norm, norm2, dot. cbn. replace (1 * 1 + 0 * 0 + 0 * 0) with 1 by ring. apply sqrt_1. }
  rewrite En. destruct (Rlt_dec _ _) as [L|L]; [exfalso; lra|].
  assert (Ef : vsub (vadd (mv I3 (V3 0 0 1)) (V3 0 0 1)) (vscale (dot (vadd (mv I3 (V3 0 0 1)) (V3 0 0 1)) (vscale (/ 1) (V3 1 0 0))) (vscale (/ 1) (V3 1 0 0))) = V3 0 0 2).
  { rewrite mv_I. apply v3_eq; unfold vsub, vadd, vscale, dot; cbn; field. }
  rewrite Ef. destruct (Req_EM_T _ _) as [Z|Z]; [exfalso; unfold norm2, dot in Z; cbn in Z; lra|].
  assert (Em : norm (V3 0 0 2) = 2).
  { unfold norm, norm2, dot. cbn. replace (0 * 0 + 0 * 0 + 2 * 2) with (2 * 2) by ring. apply sqrt_square. lra. }
  rewrite Em, mv_I. f_equal.
  assert (X1 : vscale (/ 1) (V3 1 0 0) = V3 1 0 0) by (apply v3_eq; cbn; field).
  assert (X2 : vscale (/ 2) (V3 0 0 2) = V3 0 0 1) by (apply v3_eq; cbn; field).
  assert (X3 : vadd (V3 0 0 1) (V3 0 0 1) = V3 0 0 2) by (apply v3_eq; cbn; ring).
  rewrite X1, X2, X3. f_equal.
  - apply m33_eq; cbn; ring.
  - unfold dot; cbn; ring.
Qed.
Lemma latlon_example : forall ppa (Na : Z), 0 < ppa -> round_away (90 * ppa) = Na ->
  exists r, rectified_system (fun _ _ _ _ => None) (fun _ => J23 v0 v0) LATLON true ppa 1 90 60 0 0 10 (mkrt v0 v0) (mkrt v0 (V3 (-1) 0 0)) = Rect_ok r /\
    r_Naz r = Na /\ r_Nel r = 60%Z /\ r_az0_deg r = 0.
Proof.
  intros ppa Na P E. unfold rectified_system.
  destruct (Req_EM_T ppa 0); [exfalso; lra|]. destruct (Req_EM_T 1 0); [exfalso; lra|].
  destruct (Rle_dec 90 0); [exfalso; lra|]. destruct (Rle_dec 60 0); [exfalso; lra|].
  rewrite axes_example. cbn [ax_proj ax_forward01 ax_R ax_baseline].
  assert (Ec : choose_az0 true 10 0 90 0 (V3 0 0 2) = Some (0, 0)).
  { unfold choose_az0. replace (0 / sqrt (vx (V3 0 0 2) * vx (V3 0 0 2) + vy (V3 0 0 2) * vy (V3 0 0 2) + vz (V3 0 0 2) * vz (V3 0 0 2))) with 0 by (unfold Rdiv; ring). rewrite asin_0. replace (0 * 180 / PI) with 0 by (unfold Rdiv; ring).
    destruct (Rgt_dec _ _); [|exfalso; lra]. destruct (Rlt_dec _ _); [reflexivity|exfalso; lra]. }
  rewrite Ec. unfold rectified_resolution. destruct (center_vector _ _ _) as [v J].
  destruct (Rlt_dec ppa 0); [exfalso; lra|]. destruct (Rlt_dec 1 0); [exfalso; lra|].
  replace (90 * (IZR (round_away (90 * ppa)) / 90)) with (IZR (round_away (90 * ppa))) by field.
  replace (60 * (IZR (round_away (60 * 1)) / 60)) with (IZR (round_away (60 * 1))) by field.
  rewrite !round_away_IZR, E. assert (round_away (60 * 1) = 60%Z) as E1.
  { replace (60 * 1) with (IZR 60) by ring. apply round_away_IZR. }
  rewrite E1. cbn [Z.eqb]. eexists. split; [reflexivity|]. cbn. auto.
Qed.
(** a successful call *)
Example ex_C37 : exists r, rectified_system (fun _ _ _ _ => None) (fun _ => J23 v0 v0) LATLON true 1 1 90 60 0 0 10 (mkrt v0 v0) (mkrt v0 (V3 (-1) 0 0)) = Rect_ok r /\
    r_Naz r = 90%Z /\ r_Nel r = 60%Z /\ r_az0_deg r = 0.
Proof. apply latlon_example; [lra|]. replace (90 * 1) with (IZR 90) by ring. apply round_away_IZR. Qed.
(** an empty image is reported as success: only the number of rows is checked.  The focal length is then 0. *)
Theorem C38_empty_image_refuted : exists model auto ppa ppe fa fe a0 e0 mg rt0 rt1 r,
  rectified_system (fun _ _ _ _ => None) (fun _ => J23 v0 v0) model auto ppa ppe fa fe a0 e0 mg rt0 rt1 = Rect_ok r /\
  r_Naz r = 0%Z /\ fx (r_core r) = 0.
Proof.
  destruct (latlon_example (1 / 1000) 0) as (r & H & N & _ & _); [lra| |].
  - unfold round_away. destruct (Rle_dec _ _); [|exfalso; lra].
    pose proof (base_Int_part (90 * (1 / 1000) + 1 / 2)) as [A B]. set (k := Int_part _) in *.
    assert (IZR k < 1) as L by lra. assert (-1 < IZR k) as M by lra. apply lt_IZR in L, M. lia.
  - do 11 eexists. exists r. split; [exact H|]. split; [exact N|].
    destruct (latlon_inv _ _ _ _ _ _ _ _ _ _ _ _ _ H) as (Ef & _). rewrite Ef, N. unfold Rdiv. ring.
Qed.
(** the pose computation succeeds for every pair of cameras that are at least 1e-6 apart and
    whose mean viewing direction is not along the baseline *)
Theorem C37_succeeds : forall A B c0 c1, proper A -> proper B -> is_center A c0 -> is_center B c1 ->
  1 / 1000000 <= norm (vsub c1 c0) ->
  (forall k, vadd (view_direction A) (view_direction B) <> vscale k (vsub c1 c0)) ->
  exists a, rectified_axes A B = Axes_ok a.
Proof.
  intros A B c0 c1 PA PB C0 C1 L K. pose proof (rectified_axes_vec A B) as E. cbv zeta in E. rewrite E. clear E.
  pose proof (Rt01_t A B c1 PA PB C1) as Et.
  assert (act A c1 = mv (Rt_R A) (vsub c1 c0)) as E1.
  { rewrite mv_vsub. assert (Rt_t A = vneg (mv (Rt_R A) c0)) as T.
    { unfold is_center, act, v0 in C0. pose proof (f_equal vx C0) as X. pose proof (f_equal vy C0) as Y. pose proof (f_equal vz C0) as Z.
      unfold vadd in X, Y, Z. cbn [vx vy vz] in X, Y, Z. apply v3_eq; unfold vneg; cbn [vx vy vz]; lra. }
    unfold act. rewrite T. apply v3_eq; unfold vadd, vneg, vsub; cbn; ring. }
  rewrite Et, E1, rot_norm by exact PA. set (d := vsub c1 c0) in *.
  destruct (Rlt_dec _ _) as [Q|Q]; [exfalso; lra|].
  match goal with |- context [Req_EM_T (norm2 ?f) 0] => set (w := f) end.
  destruct (Req_EM_T (norm2 w) 0) as [Z|Z]; [exfalso|eexists; reflexivity].
  apply norm2_zero in Z. unfold w in Z. rewrite Rt01_R in Z.
  match type of Z with vsub ?u (vscale ?p (vscale ?i ?v)) = v0 => assert (u = vscale (p * i) v) as U end.
  { pose proof (f_equal vx Z) as X. pose proof (f_equal vy Z) as Y. pose proof (f_equal vz Z) as W.
    unfold vsub, vscale, v0 in X, Y, W. cbn [vx vy vz] in X, Y, W. apply v3_eq; unfold vscale; cbn [vx vy vz]; lra. }
  apply (f_equal (mv (mT (Rt_R A)))) in U. rewrite mv_vscale, rot_mT_mv in U by exact PA.
  rewrite mv_vadd, mv_mm, rot_mT_mv in U by exact PA.
  match type of U with _ = vscale ?k _ => apply (K k) end. rewrite <- U. unfold view_direction.
  apply v3_eq; unfold vadd; cbn [vx vy vz]; ring.
Qed.
Print Assumptions C37_returned_pose.
Print Assumptions C37_second_camera.
Print Assumptions C37_same_row.
Print Assumptions C37_latlon_center.
Print Assumptions C37_succeeds.
Print Assumptions C38_margin.
Print Assumptions C38_auto_fails_only_if_impossible.
Print Assumptions C38_auto_minimal.
Print Assumptions C38_given_center.
Print Assumptions C38_latlon_pixels.
Print Assumptions C38_empty_image_refuted.
