(** C65: the CAHVORE lens model. *)
From Coq Require Import Reals Lra Psatz Lia Arith List.
From Coquelicot Require Import Coquelicot.
From Verif Require Import S_Vec S_Curve S_LensGrad P_Trig M_Dual P_Dual P_DualPath M_Project P_Atan2 C_Project M_OpenCV M_Cahvore C_ProjectGrad C_LensGrad.
Open Scope R_scope.
(** [num realops] is R *)
Ltac rr := match goal with |- @eq _ ?a ?b => change (@eq R a b) end.

(** ** The projection with plain numbers *)
(** the coordinates of the point with respect to the optical axis *)
Section Geometry.
  Variable intr : nat -> R.
  Variable p : v3.
  Definition axis : v3 := V3 (cos (intr 5%nat) * sin (intr 4%nat)) (sin (intr 5%nat)) (cos (intr 5%nat) * cos (intr 4%nat)).
  Definition along : R := dot p axis.
  Definition across : v3 := vsub p (vscale along axis).
  Definition off_axis : R := norm across.
  (** the angle between the point and the optical axis *)
  Definition angle : R := Ratan2 off_axis along.
  Definition central : Prop := intr 9%nat = 0 /\ intr 10%nat = 0 /\ intr 11%nat = 0.
End Geometry.

Lemma axis_unit : forall intr, norm2 (axis intr) = 1.
Proof.
  intro intr. unfold axis, norm2, dot. cbn [vx vy vz].
  pose proof (sin2_cos2 (intr 4%nat)) as A. pose proof (sin2_cos2 (intr 5%nat)) as B. unfold Rsqr in *.
  set (a := cos (intr 5%nat)) in *. set (b := sin (intr 5%nat)) in *. set (c := cos (intr 4%nat)) in *. set (d := sin (intr 4%nat)) in *.
  replace (a * d * (a * d) + b * b + a * c * (a * c)) with (a * a * (d * d + c * c) + b * b) by ring. rewrite A. lra.
Qed.
Lemma across_perp : forall intr p, dot (across intr p) (axis intr) = 0.
Proof.
  intros intr p. pose proof (axis_unit intr) as U. unfold across, along. set (o := axis intr) in *. clearbody o.
  transitivity (dot p o - dot p o * norm2 o); [unfold norm2; vunfold; ring|]. rewrite U. ring.
Qed.
Lemma pythagoras : forall intr p, off_axis intr p * off_axis intr p + along intr p * along intr p = norm2 p.
Proof.
  intros intr p. unfold off_axis. rewrite norm_sq. pose proof (axis_unit intr) as U. unfold across, along. set (o := axis intr) in *. clearbody o.
  transitivity (norm2 p + dot p o * dot p o * (norm2 o - 1)); [unfold norm2; vunfold; ring|]. rewrite U. ring.
Qed.

Lemma distort_real : forall lin intr p,
  cahvore_distorted lin intr p =
  match cv_newton realops (along intr p) (off_axis intr p) (intr 9%nat) (intr 10%nat) (intr 11%nat) 100 (angle intr p) with
  | None => None
  | Some theta => option_map (nvval realops) (cv_finish realops lin (rv3 p) (rv3 (axis intr)) (rv3 (across intr p)) (off_axis intr p)
                                               (intr 6%nat) (intr 7%nat) (intr 8%nat) theta)
  end.
Proof.
  intros lin intr p. unfold cahvore_distorted, cv_distort.
  assert (cv_o realops (intr (0 + 4)%nat) (intr (1 + 4)%nat) = rv3 (axis intr)) as E1 by reflexivity. rewrite E1.
  assert (nvdot realops (rv3 p) (rv3 (axis intr)) = along intr p) as E2.
  { unfold nvdot, rv3, along, nvconst. cbn [n_x n_y n_z nadd nmul nconst realops]. rr. vunfold. ring. }
  rewrite E2.
  assert (nvsub realops (rv3 p) (nvmul realops (rv3 (axis intr)) (along intr p)) = rv3 (across intr p)) as E3.
  { unfold nvsub, nvmul, nvmap, nvmap2, rv3, nvconst, across. cbn [n_x n_y n_z nsub nmul nconst realops]. f_equal; rr; vunfold; ring. }
  rewrite E3.
  assert (nvmag realops (rv3 (across intr p)) = off_axis intr p) as E4.
  { unfold nvmag, nvnorm2, nvdot, rv3, nvconst, off_axis, norm, norm2, dot. cbn [n_x n_y n_z nadd nmul nconst nsqrt realops]. rr. f_equal. ring. }
  rewrite E4. cbn [Nat.add]. change (natan2 realops (off_axis intr p) (along intr p)) with (angle intr p).
  match goal with |- context [cv_newton ?a ?b ?c ?d ?e ?f ?g ?h] => destruct (cv_newton a b c d e f g h) end; reflexivity.
Qed.

Lemma Ratan2_atan2 : forall y x, Ratan2 y x = atan2 y x. Proof. reflexivity. Qed.
Lemma off_axis_nonneg : forall intr p, 0 <= off_axis intr p. Proof. intros. apply norm_nonneg. Qed.
Lemma angle_spec : forall intr p, p <> v0 ->
  norm p * cos (angle intr p) = along intr p /\ norm p * sin (angle intr p) = off_axis intr p /\ 0 <= angle intr p <= PI.
Proof.
  intros intr p H. unfold angle. rewrite Ratan2_atan2. assert (norm2 p <> 0) as Hn by (intro Z; apply H; now apply norm2_zero).
  destruct (atan2_spec (along intr p) (off_axis intr p)) as (A & B & C). { pose proof (pythagoras intr p). lra. }
  replace (sqrt (along intr p * along intr p + off_axis intr p * off_axis intr p)) with (norm p) in *
    by (unfold norm; f_equal; pose proof (pythagoras intr p); lra).
  split; [exact A|]. split; [exact B|]. split; [|lra].
  destruct (Rlt_or_le (atan2 (off_axis intr p) (along intr p)) 0) as [N|]; [|auto]. exfalso.
  assert (0 < norm p) as P. { destruct (norm_nonneg p) as [|E]; auto. exfalso. apply Hn. rewrite <- norm_sq, <- E. ring. }
  assert (0 < sin (- atan2 (off_axis intr p) (along intr p))) by (apply sin_gt_0; lra). rewrite sin_neg in *.
  pose proof (off_axis_nonneg intr p). nra.
Qed.

(** with E = 0 the iteration stops immediately, at the angle between the point and the axis *)
Lemma newton_central : forall intr p n, p <> v0 ->
  cv_newton realops (along intr p) (off_axis intr p) 0 0 0 (S n) (angle intr p) = Some (angle intr p).
Proof.
  intros intr p n H. destruct (angle_spec intr p H) as (A & B & _). pose proof (sin2_cos2 (angle intr p)) as S. unfold Rsqr in S.
  assert (0 < norm p) as P. { destruct (norm_nonneg p) as [|E]; auto. exfalso. apply H. apply norm2_zero. rewrite <- norm_sq, <- E. ring. }
  cbn [cv_newton]. unfold cv_upsilon, cv_numer. cbn [nadd nsub nmul nmulc nsubc ncos nsin ndiv nval realops num].
  rewrite <- A, <- B. set (s := sin (angle intr p)) in *. set (c := cos (angle intr p)) in *. set (m := norm p) in *. set (th := angle intr p) in *.
  match goal with |- context [Req_EM_T ?x 0] => replace x with m by (transitivity (m * (s * s + c * c)); [rewrite S; ring|ring]) end.
  destruct (Req_EM_T m 0); [lra|].
  match goal with |- context [fabs_small ?x] => replace x with 0 by (field; auto) end.
  unfold fabs_small. rewrite Rabs_R0. destruct (Rlt_dec 0 (1 / 100000000)); [|lra]. f_equal. rr. ring.
Qed.

(** the function of the angle that defines the family of projections *)
Definition chi_of (lin theta : R) : R :=
  if Rlt_dec lin (- (1 / 1000000000000000)) then sin (theta * lin) / lin
  else if Rlt_dec (1 / 1000000000000000) lin then tan (theta * lin) / lin else theta.
Lemma chi_real : forall lin theta, cv_chi realops lin theta = chi_of lin theta.
Proof.
  intros. unfold cv_chi, chi_of, ndivc. cbn [nmulc nsin ntan realops num]. destruct (Rlt_dec _ _); [rr; field; lra|].
  destruct (Rlt_dec _ _); [|reflexivity]. rr. unfold tan. set (a := sin _ / cos _). field. lra.
Qed.
Lemma chi_pos : forall lin theta, 0 < theta -> theta * Rabs lin < PI / 2 -> 0 < chi_of lin theta.
Proof.
  intros lin theta T H. pose proof PI_RGT_0. unfold chi_of. destruct (Rlt_dec _ _) as [L|L].
  - rewrite Rabs_left in H by lra. assert (0 < sin (theta * - lin)) as S. { apply sin_gt_0; nra. }
    replace (theta * - lin) with (- (theta * lin)) in S by ring. rewrite sin_neg in S.
    replace (sin (theta * lin) / lin) with ((- sin (theta * lin)) / (- lin)) by (field; lra). apply Rdiv_lt_0_compat; lra.
  - destruct (Rlt_dec _ _) as [L'|L']; [|exact T]. rewrite Rabs_pos_eq in H by lra. apply Rdiv_lt_0_compat; [|lra].
    apply tan_gt_0; nra.
Qed.

(** E = 0: the distorted vector in closed form *)
Lemma distort_central : forall lin intr p, central intr -> p <> v0 -> 1 / 100000000 < angle intr p -> angle intr p * Rabs lin <= PI / 2 ->
  let chi := chi_of lin (angle intr p) in
  let mu := intr 6%nat + intr 7%nat * (chi * chi) + intr 8%nat * (chi * chi * (chi * chi)) in
  cahvore_distorted lin intr p = Some (vadd (vscale (off_axis intr p / chi) (axis intr)) (vscale (mu + 1) (across intr p))).
Proof.
  intros lin intr p (E0 & E1 & E2) P A B chi mu. rewrite distort_real, E0, E1, E2, newton_central by auto.
  unfold cv_finish. cbn [nval realops]. destruct (Rlt_dec (PI / 2) _); [lra|]. destruct (Rlt_dec _ (angle intr p)); [|lra].
  rewrite chi_real. fold chi. cbn [option_map]. f_equal.
  unfold nvval, nvadd, nvmul, nvmap, nvmap2, rv3, nvconst. cbn [n_x n_y n_z nadd nmul naddc nconst ndiv nval realops].
  apply v3_eq; unfold mu; vunfold; ring.
Qed.
Lemma distort_near_axis : forall lin intr p, central intr -> p <> v0 -> angle intr p <= 1 / 100000000 -> angle intr p * Rabs lin <= PI / 2 ->
  cahvore_distorted lin intr p = Some p.
Proof.
  intros lin intr p (E0 & E1 & E2) P A B. rewrite distort_real, E0, E1, E2, newton_central by auto.
  unfold cv_finish. cbn [nval realops]. destruct (Rlt_dec (PI / 2) _); [lra|]. destruct (Rlt_dec _ (angle intr p)); [lra|].
  cbn [option_map]. destruct p; reflexivity.
Qed.
Lemma distort_outside : forall lin intr p, central intr -> p <> v0 -> PI / 2 < angle intr p * Rabs lin -> cahvore_distorted lin intr p = None.
Proof.
  intros lin intr p (E0 & E1 & E2) P A. rewrite distort_real, E0, E1, E2, newton_central by auto.
  unfold cv_finish. cbn [nval realops]. destruct (Rlt_dec (PI / 2) _); [reflexivity|lra].
Qed.

(** *** C65: it is Newton's iteration: upsilon is the derivative of the function whose root is sought *)
Definition pupil_equation (zeta l e0 e1 e2 theta : R) : R :=
  zeta * sin theta - l * cos theta - (theta - sin theta) * (e0 + e1 * theta ^ 2 + e2 * theta ^ 4).
Theorem C65_newton_step : forall zeta l e0 e1 e2 theta,
  cv_numer realops zeta l e0 e1 e2 theta = pupil_equation zeta l e0 e1 e2 theta /\
  is_derive (pupil_equation zeta l e0 e1 e2) theta (cv_upsilon realops zeta l e0 e1 e2 theta).
Proof.
  intros. split.
  - unfold cv_numer, pupil_equation. cbn [nadd nsub nmul nmulc nsubc ncos nsin ndiv nval realops num]. ring.
  - unfold pupil_equation, cv_upsilon. cbn [nadd nsub nmul nmulc nsubc ncos nsin ndiv nval realops num]. auto_derive; [auto|]. ring.
Qed.
Print Assumptions C65_newton_step.

(** the iteration only ever stops at an angle one Newton step of less than 1e-8 away from the previous one *)
Theorem C65_newton_converged : forall zeta l e0 e1 e2 fuel theta0 theta, cv_newton realops zeta l e0 e1 e2 fuel theta0 = Some theta ->
  exists before, let slope := cv_upsilon realops zeta l e0 e1 e2 before in
    slope <> 0 /\ is_derive (pupil_equation zeta l e0 e1 e2) before slope /\
    theta = before - pupil_equation zeta l e0 e1 e2 before / slope /\ Rabs (theta - before) < 1 / 100000000.
Proof.
  intros zeta l e0 e1 e2 fuel. induction fuel as [|n IH]; intros theta0 theta H; [discriminate|]. cbn [cv_newton nval realops] in H.
  destruct (Req_EM_T _ 0) as [|U]; [discriminate|]. unfold fabs_small in H. cbn [ndiv nsub realops] in H.
  destruct (C65_newton_step zeta l e0 e1 e2 theta0) as [EN D].
  destruct (Rlt_dec _ _) as [L|L].
  - injection H as <-. exists theta0. cbv zeta. split; [exact U|]. split; [exact D|]. rewrite <- EN. split; [reflexivity|].
    match goal with |- Rabs (_ - ?d - _) < _ => replace (theta0 - d - theta0) with (- d) by ring end. now rewrite Rabs_Ropp.
  - eapply IH. exact H.
Qed.
Print Assumptions C65_newton_converged.

(** *** C65: the root is the direction of the ray from the moving entrance pupil *)
(** the pupil sits on the optical axis, (theta/sin theta - 1)(e0 + e1 theta^2 + e2 theta^4) in front of the camera center *)
Definition pupil (e0 e1 e2 theta : R) : R := (theta / sin theta - 1) * (e0 + e1 * theta ^ 2 + e2 * theta ^ 4).
Theorem C65_entrance_pupil : forall intr p e0 e1 e2 theta, off_axis intr p <> 0 -> sin theta <> 0 ->
  let n := vscale (/ off_axis intr p) (across intr p) in
  pupil_equation (along intr p) (off_axis intr p) e0 e1 e2 theta = 0 <->
  exists k, p = vadd (vscale (pupil e0 e1 e2 theta) (axis intr)) (vscale k (vadd (vscale (cos theta) (axis intr)) (vscale (sin theta) n))).
Proof.
  intros intr p e0 e1 e2 theta L S n. set (l := off_axis intr p) in *. set (o := axis intr) in *. set (z := along intr p) in *.
  assert (p = vadd (vscale z o) (vscale l n)) as P.
  { unfold n, across. fold z o. apply v3_eq; vunfold; field; auto. }
  assert (norm2 o = 1) as O1 by apply axis_unit.
  assert (dot n o = 0) as PO. { unfold n. transitivity (/ l * dot (across intr p) o); [vunfold; ring|]. unfold o. rewrite across_perp. ring. }
  assert (norm2 n = 1) as N1.
  { transitivity (/ l * / l * norm2 (across intr p)); [unfold n, norm2; vunfold; ring|]. rewrite <- norm_sq. fold (off_axis intr p). fold l. field. auto. }
  assert (z = dot p o) as ZD by reflexivity. clearbody n z. clearbody l. clearbody o.
  unfold pupil_equation, pupil. set (E := e0 + e1 * theta ^ 2 + e2 * theta ^ 4). clearbody E. split.
  - intro H. exists (l / sin theta). rewrite P at 1. assert (z = (theta / sin theta - 1) * E + l / sin theta * cos theta) as ->.
    { apply (Rmult_eq_reg_r (sin theta)); auto. field_simplify; auto. lra. }
    apply v3_eq; vunfold; field; auto.
  - intros [k K]. set (s := (theta / sin theta - 1) * E) in *.
    assert (z = s + k * cos theta) as Z.
    { rewrite ZD, K. transitivity (s * norm2 o + k * (cos theta * norm2 o + sin theta * dot n o)); [unfold norm2; vunfold; ring|].
      rewrite O1, PO. ring. }
    assert (l = k * sin theta) as LL.
    { assert (l = dot p n) as -> . { rewrite P. transitivity (z * dot n o + l * norm2 n); [rewrite PO, N1; ring|unfold norm2; vunfold; ring]. }
      rewrite K. transitivity (s * dot n o + k * (cos theta * dot n o + sin theta * norm2 n)); [unfold norm2; vunfold; ring|]. rewrite PO, N1. ring. }
    rewrite Z, LL. unfold s. field. auto.
Qed.
Print Assumptions C65_entrance_pupil.

(** *** C65: with E = 0 the model is central *)
Lemma scaled_geometry : forall intr p a, 0 < a ->
  along intr (vscale a p) = a * along intr p /\ across intr (vscale a p) = vscale a (across intr p) /\
  off_axis intr (vscale a p) = a * off_axis intr p /\ angle intr (vscale a p) = angle intr p.
Proof.
  intros intr p a A. assert (along intr (vscale a p) = a * along intr p) as E1 by (unfold along; vunfold; ring).
  assert (across intr (vscale a p) = vscale a (across intr p)) as E2 by (unfold across; rewrite E1; apply v3_eq; vunfold; ring).
  assert (off_axis intr (vscale a p) = a * off_axis intr p) as E3.
  { unfold off_axis. rewrite E2. unfold norm. replace (norm2 (vscale a (across intr p))) with (a * a * norm2 (across intr p)) by (unfold norm2; vunfold; ring).
    rewrite sqrt_mult, sqrt_square; try lra; [nra|apply norm2_nonneg]. }
  split; [exact E1|]. split; [exact E2|]. split; [exact E3|].
  destruct (Req_dec (norm2 p) 0) as [Z|Z].
  - unfold angle. apply norm2_zero in Z. subst p. replace (vscale a v0) with v0 by vring. reflexivity.
  - unfold angle. rewrite E1, E3. change Ratan2 with atan2. pose proof (atan2_range (off_axis intr p) (along intr p)).
    pose proof (pythagoras intr p). destruct (atan2_spec (along intr p) (off_axis intr p)) as (C & S & _); [lra|].
    set (r := sqrt _) in *. assert (0 < r) as R0 by (apply sqrt_lt_R0; pose proof (norm2_nonneg p); lra).
    set (th := atan2 _ _) in *. clearbody th r.
    apply atan2_unique with (a * r); [nra|auto|rewrite <- C; ring|rewrite <- S; ring].
Qed.
Lemma vscale_v0 : forall a p, 0 < a -> vscale a p = v0 -> p = v0.
Proof.
  intros a p A H. apply norm2_zero. assert (a * a * norm2 p = 0) as E.
  { transitivity (norm2 (vscale a p)); [unfold norm2; vunfold; ring|]. rewrite H. vunfold. unfold norm2. vunfold. ring. }
  apply Rmult_eq_reg_l with (a * a); [rewrite E; ring|apply Rgt_not_eq; nra].
Qed.
Lemma scaled_distorted : forall lin intr p a, central intr -> 0 < a -> p <> v0 ->
  cahvore_distorted lin intr (vscale a p) = option_map (vscale a) (cahvore_distorted lin intr p).
Proof.
  intros lin intr p a C A P. destruct (scaled_geometry intr p a A) as (E1 & E2 & E3 & E4).
  assert (vscale a p <> v0) as Q by (intro Z; apply P; now apply vscale_v0 with a).
  destruct (Rlt_or_le (PI / 2) (angle intr p * Rabs lin)) as [O|O].
  - now rewrite !distort_outside by (rewrite ?E4; auto).
  - destruct (Rlt_or_le (1 / 100000000) (angle intr p)) as [O'|O'].
    + rewrite !distort_central by (rewrite ?E4; auto). cbn [option_map]. f_equal. rewrite E2, E3, E4. unfold Rdiv. vring.
    + now rewrite !distort_near_axis by (rewrite ?E4; auto).
Qed.
Theorem C65_central_scale : forall lin intr p a, central intr -> 0 < a -> p <> v0 ->
  cahvore_project lin intr (vscale a p) = cahvore_project lin intr p.
Proof.
  intros lin intr p a C A P. unfold cahvore_project. rewrite scaled_distorted by auto. destruct (cahvore_distorted lin intr p) as [d|]; [|reflexivity].
  cbn [option_map]. f_equal. unfold vscale. cbn [vx vy vz]. destruct (Req_dec (vz d) 0) as [-> |Z].
  - replace (a * 0) with 0 by ring. unfold Rdiv. rewrite Rinv_0. f_equal; ring.
  - f_equal; field; lra.
Qed.
Print Assumptions C65_central_scale.

(** *** C65: CAHVORE_linearity=1 with E = 0 is CAHVOR *)
Lemma ca_o_axis : forall intr, ca_o intr = axis intr.
Proof. intro intr. unfold ca_o, axis, ca_al, ca_be. f_equal; ring. Qed.
Lemma angle_front : forall intr p, 0 < along intr p -> p <> v0 /\ angle intr p < PI / 2 /\ along intr p * tan (angle intr p) = off_axis intr p.
Proof.
  intros intr p H. assert (p <> v0) as P. { intros ->. revert H. unfold along. vunfold. lra. }
  destruct (angle_spec intr p P) as (A & B & C). split; [exact P|]. split.
  - unfold angle. rewrite Ratan2_xpos by auto. apply atan_bound.
  - assert (0 < cos (angle intr p)). { pose proof (norm_pos p P). nra. } unfold tan. rewrite <- A, <- B. field. lra.
Qed.
Theorem C65_perspective_is_cahvor : forall intr p, central intr -> 0 < along intr p -> 1 / 100000000 < angle intr p \/ off_axis intr p = 0 ->
  cahvore_project 1 intr p = Some (cahvor_project intr p).
Proof.
  intros intr p C Z H. destruct (angle_front intr p Z) as (P & A & T).
  assert (angle intr p * Rabs 1 <= PI / 2) as A1 by (rewrite Rabs_R1; lra).
  enough (cahvore_distorted 1 intr p = Some (ca_distorted intr p)) as D by (unfold cahvore_project; now rewrite D).
  assert (ca_omega intr p = along intr p) as EO by (unfold ca_omega, along; rewrite ca_o_axis; vunfold; ring).
  assert (ca_norm2p p = norm2 p) as EN by (unfold ca_norm2p, norm2; vunfold; ring).
  destruct (Rlt_or_le (1 / 100000000) (angle intr p)) as [L|L].
  - rewrite distort_central by auto. f_equal.
    assert (chi_of 1 (angle intr p) = tan (angle intr p)) as ->.
    { unfold chi_of. destruct (Rlt_dec _ _); [lra|]. destruct (Rlt_dec _ _); [|lra]. rewrite Rmult_1_r. field. }
    set (z := along intr p) in *. set (tn := tan (angle intr p)) in *.
    assert (0 < tn) as TP. { apply tan_gt_0; lra. }
    assert (ca_tau intr p = tn * tn) as ET.
    { unfold ca_tau, ca_omega_recip. rewrite EO, EN. fold z. rewrite <- (pythagoras intr p). fold z. rewrite <- T. field. lra. }
    assert (off_axis intr p / tn = z) as -> by (rewrite <- T; field; lra).
    unfold ca_distorted, ca_distorted_i, ca_mu. rewrite ET, EO, ca_o_axis. fold z.
    unfold across, ca_r0, ca_r1, ca_r2. fold z. apply v3_eq; vunfold; cbn [vget]; ring.
  - destruct H as [?|H]; [lra|]. rewrite distort_near_axis by auto. f_equal.
    unfold off_axis in H. assert (across intr p = v0) as AZ. { apply norm2_zero. rewrite <- norm_sq, H. ring. }
    unfold across in AZ. unfold ca_distorted, ca_distorted_i. rewrite EO, ca_o_axis.
    set (z := along intr p) in *. set (o := axis intr) in *. clearbody o z. 
    assert (vx p - z * vx o = 0 /\ vy p - z * vy o = 0 /\ vz p - z * vz o = 0) as (X & Y & W).
    { pose proof (f_equal vx AZ). pose proof (f_equal vy AZ). pose proof (f_equal vz AZ). revert H0 H1 H2. vunfold. auto. }
    destruct p as [x y w]. cbn [vget vx vy vz] in *. rewrite X, Y, W. f_equal; ring.
Qed.
Print Assumptions C65_perspective_is_cahvor.
(** within 1e-8 radians of the axis the distortion is skipped: the result is the pinhole projection *)
Theorem C65_near_axis : forall lin intr p, central intr -> p <> v0 -> angle intr p <= 1 / 100000000 -> angle intr p * Rabs lin <= PI / 2 ->
  cahvore_project lin intr p = Some (project_pinhole (core_of intr) p).
Proof.
  intros lin intr p C P A B. unfold cahvore_project. rewrite distort_near_axis by auto. reflexivity.
Qed.
Print Assumptions C65_near_axis.
(** directions outside the field of view of the projection family are refused, not folded back *)
Theorem C65_outside_refused : forall lin intr p, central intr -> p <> v0 -> PI / 2 < angle intr p * Rabs lin -> cahvore_project lin intr p = None.
Proof. intros lin intr p C P A. unfold cahvore_project. now rewrite distort_outside. Qed.
Print Assumptions C65_outside_refused.
Theorem C65_perspective_behind : forall intr p, central intr -> along intr p < 0 -> cahvore_project 1 intr p = None.
Proof.
  intros intr p C Z. assert (p <> v0) as P. { intros ->. revert Z. unfold along. vunfold. lra. }
  apply C65_outside_refused; auto. rewrite Rabs_R1, Rmult_1_r. destruct (angle_spec intr p P) as (A & B & D).
  destruct (Rlt_or_le (PI / 2) (angle intr p)) as [|L]; auto. exfalso. assert (0 <= cos (angle intr p)) by (apply cos_ge_0; lra).
  pose proof (norm_pos p P). nra.
Qed.
Print Assumptions C65_perspective_behind.

(** *** C65: without distortion and with the axis along z, the family is the textbook one: the pixel is at distance
    f chi(theta) from the center, in the direction of the point *)
Definition undistorted (intr : nat -> R) : Prop := forall i, (4 <= i < 12)%nat -> intr i = 0.
Definition radial (c : core) (rho : R) (p : v3) : p2 :=
  let l := sqrt (vx p * vx p + vy p * vy p) in P2 (fx c * (rho * (vx p / l)) + cx c) (fy c * (rho * (vy p / l)) + cy c).
Lemma undistorted_geometry : forall intr p, undistorted intr ->
  central intr /\ axis intr = V3 0 0 1 /\ along intr p = vz p /\ across intr p = V3 (vx p) (vy p) 0 /\ off_axis intr p = sqrt (vx p * vx p + vy p * vy p).
Proof.
  intros intr p U. assert (axis intr = V3 0 0 1) as EA.
  { unfold axis. rewrite (U 4%nat), (U 5%nat) by lia. rewrite sin_0, cos_0. f_equal; ring. }
  assert (along intr p = vz p) as EL by (unfold along; rewrite EA; vunfold; ring).
  assert (across intr p = V3 (vx p) (vy p) 0) as EC by (unfold across; rewrite EL, EA; apply v3_eq; vunfold; ring).
  split; [repeat split; apply U; lia|]. split; [exact EA|]. split; [exact EL|]. split; [exact EC|].
  unfold off_axis. rewrite EC. unfold norm, norm2. f_equal. vunfold. ring.
Qed.
Theorem C65_family : forall lin intr p, undistorted intr -> 1 / 100000000 < angle intr p -> angle intr p * Rabs lin < PI / 2 -> 0 < vx p * vx p + vy p * vy p ->
  cahvore_project lin intr p = Some (radial (core_of intr) (chi_of lin (angle intr p)) p).
Proof.
  intros lin intr p U A B H. destruct (undistorted_geometry intr p U) as (C & EA & EL & EC & EO).
  assert (p <> v0) as P. { intros ->. revert H. vunfold. lra. }
  pose proof (chi_pos lin (angle intr p) ltac:(lra) B) as CP. pose proof (sqrt_lt_R0 _ H) as LP.
  unfold cahvore_project. rewrite distort_central by (auto; lra). rewrite EA, EC, EO, (U 6%nat), (U 7%nat), (U 8%nat) by lia.
  set (chi := chi_of lin (angle intr p)) in *. unfold radial. set (l := sqrt _) in *. f_equal. vunfold. f_equal; field; lra.
Qed.
Print Assumptions C65_family.
(** linearity 1: a pinhole camera *)
Theorem C65_linearity1_pinhole : forall intr p, undistorted intr -> 1 / 100000000 < angle intr p -> 0 < vz p -> 0 < vx p * vx p + vy p * vy p ->
  cahvore_project 1 intr p = Some (project_pinhole (core_of intr) p).
Proof.
  intros intr p U A Z H. destruct (undistorted_geometry intr p U) as (C & EA & EL & EC & EO).
  assert (0 < along intr p) as Z' by lra. destruct (angle_front intr p Z') as (P & A' & T).
  rewrite C65_family; auto; [|rewrite Rabs_R1; lra]. f_equal.
  assert (chi_of 1 (angle intr p) = tan (angle intr p)) as ->.
  { unfold chi_of. destruct (Rlt_dec _ _); [lra|]. destruct (Rlt_dec _ _); [|lra]. rewrite Rmult_1_r. field. }
  rewrite EO, EL in T. pose proof (sqrt_lt_R0 _ H) as LP. unfold radial, project_pinhole. set (l := sqrt _) in *.
  replace (tan (angle intr p)) with (l / vz p) by (rewrite <- T; field; lra). f_equal; field; lra.
Qed.
Print Assumptions C65_linearity1_pinhole.
(** linearity 1/2: mrcal's stereographic model, also behind the camera *)
Lemma half_angle : forall intr p, p <> v0 -> norm p + along intr p <> 0 -> angle intr p < PI /\
  tan (angle intr p / 2) * (norm p + along intr p) = off_axis intr p.
Proof.
  intros intr p P H. destruct (angle_spec intr p P) as (A & B & C). pose proof (norm_pos p P) as N.
  set (th := angle intr p) in *. assert (th < PI) as T.
  { destruct (Rlt_or_le th PI) as [|G]; auto. exfalso. assert (th = PI) as E by lra. rewrite E, cos_PI in A. lra. }
  split; [exact T|]. assert (0 < cos (th / 2)) as CP by (apply cos_gt_0; lra).
  assert (cos th = 2 * cos (th / 2) * cos (th / 2) - 1) as E1 by (rewrite <- cos_2a_cos; f_equal; field).
  assert (sin th = 2 * sin (th / 2) * cos (th / 2)) as E2 by (rewrite <- sin_2a; f_equal; field).
  rewrite <- A, <- B, E1, E2. unfold tan. field. lra.
Qed.
Theorem C65_linearity_half_stereographic : forall intr p, undistorted intr -> 1 / 100000000 < angle intr p -> 0 < vx p * vx p + vy p * vy p ->
  cahvore_project (1 / 2) intr p = Some (project_stereographic (core_of intr) p).
Proof.
  intros intr p U A H. destruct (undistorted_geometry intr p U) as (C & EA & EL & EC & EO).
  assert (p <> v0) as P. { intros ->. revert H. vunfold. lra. }
  assert (0 < norm p + vz p) as Q.
  { assert (norm p * norm p = vx p * vx p + vy p * vy p + vz p * vz p) as N by (rewrite norm_sq; unfold norm2; vunfold; ring). pose proof (norm_nonneg p). nra. }
  destruct (half_angle intr p P) as [T E]; [rewrite EL; lra|]. rewrite EL, EO in E.
  rewrite C65_family; auto; [|rewrite Rabs_pos_eq; lra]. f_equal.
  assert (chi_of (1 / 2) (angle intr p) = 2 * tan (angle intr p / 2)) as ->.
  { unfold chi_of. destruct (Rlt_dec _ _); [lra|]. destruct (Rlt_dec _ _); [|lra]. replace (angle intr p * (1 / 2)) with (angle intr p / 2) by field. field. }
  pose proof (sqrt_lt_R0 _ H) as LP. unfold radial, project_stereographic. set (l := sqrt (vx p * vx p + vy p * vy p)) in *.
  replace (tan (angle intr p / 2)) with (l / (norm p + vz p)) by (rewrite <- E; field; lra).
  change (sqrt (vx p * vx p + vy p * vy p + vz p * vz p)) with (norm p).
  f_equal; field; lra.
Qed.
Print Assumptions C65_linearity_half_stereographic.
