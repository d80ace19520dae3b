(** C62: unprojection answers with a direction that projects back to the pixel, or says that it cannot. *)
From Coq Require Import Reals Lra Psatz Lia Arith ZArith QArith Qreals Bool List.
From Coquelicot Require Import Coquelicot.
From Verif Require Import S_Vec S_Curve S_LensGrad P_Trig M_Dual P_Dual P_DualPath M_Project P_Atan2 C_Project M_Lens M_OpenCV M_Cahvore M_Splined M_Unproject
  C_ProjectGrad C_LensGrad C_Splined C_Cahvore C_CahvoreGrad C_Batch.
Open Scope R_scope.

(** ** Specification *)
(** the projection of p is defined: nothing is divided by 0, and CAHVORE accepts the point *)
Definition sees (m : lensmodel) (intr : nat -> R) (p : v3) : Prop :=
  match m with
  | PINHOLE => vz p <> 0
  | STEREOGRAPHIC => norm p + vz p <> 0
  | LONLAT | LATLON => p <> v0
  | OPENCV4 => ocv_defined 4 intr p
  | OPENCV5 => ocv_defined 5 intr p
  | OPENCV8 => ocv_defined 8 intr p
  | OPENCV12 => ocv_defined 12 intr p
  | CAHVOR => ca_omega intr p <> 0 /\ vz (ca_distorted intr p) <> 0
  | CAHVORE lin => exists d, cahvore_distorted (Q2R lin) intr p = Some d /\ vz d <> 0
  | SPLINED _ => norm p + vz p <> 0
  end.
Definition dist2 (a b : p2) : R := (px a - px b) * (px a - px b) + (py a - py b) * (py a - py b).
(** v is an answer for q: a direction that is seen, and within 0.0142 pixels of q *)
Definition answers (m : lensmodel) (intr : nat -> R) (q : p2) (v : v3) : Prop :=
  v <> v0 /\ sees m intr v /\ dist2 (lens_pixel m intr v) q <= 2 / 10000.
(** the pixel is a pair of finite numbers; CAHVORE reports (0,0) for the points it refuses *)
Definition finite_pixel (m : lensmodel) (intr : nat -> R) (p : v3) : Prop :=
  match m with CAHVORE lin => forall d, cahvore_distorted (Q2R lin) intr p = Some d -> vz d <> 0 | _ => sees m intr p end.
(** What the optimizer promises of its answer u and of the norm2(x) it reports, if it does not report an error (a negative
    number, see mrcal.c:6441): it is the squared residual at u if that is a finite number; otherwise it is not *)
Definition honest (residual : p2 -> p2) (fin : p2 -> Prop) (u : p2) (n : cost) : Prop :=
  (fin u -> n = Cost (px (residual u) * px (residual u) + py (residual u) * py (residual u))) /\ (~ fin u -> n = Cost_inf \/ n = Cost_nan).

(** what the optimizer is called with and what it says, for one pixel *)
Section Call.
  Variable stale : j23.
  Variable opt : (p2 -> p2 * (p2 * p2)) -> p2 -> p2 * cost.
  Variable m : lensmodel.
  Variable intr : nat -> R.
  Variable q : p2.
  Definition callback := unproject_callback (lens_pixel m intr) (lens_pixel_J stale m intr) (core_of intr) q.
  Definition seed := project_stereographic (core_of intr) (V3 ((px q - cx (core_of intr)) / fx (core_of intr)) ((py q - cy (core_of intr)) / fy (core_of intr)) 1).
  Definition solved : p2 * cost := opt callback seed.
  (** the direction the optimizer ends at *)
  Definition found : v3 := unproject_stereographic (core_of intr) (fst solved).
  Definition solver_honest : Prop :=
    honest (fun u => fst (callback u)) (fun u => finite_pixel m intr (unproject_stereographic (core_of intr) u)) (fst solved) (snd solved).
End Call.
Definition iterative (m : lensmodel) : Prop := match m with PINHOLE | STEREOGRAPHIC | LONLAT | LATLON | CAHVORE _ => False | _ => True end.

(** ** Proofs *)
Lemma stereo_norm : forall c u, let v := unproject_stereographic c u in norm v + vz v = 2 /\ v <> v0.
Proof.
  intros c u. cbv zeta. unfold unproject_stereographic. set (x := (px u - cx c) * _). set (y := (py u - cy c) * _).
  assert (norm (V3 x y (1 - 1 / 4 * (x * x + y * y))) = 1 + 1 / 4 * (x * x + y * y)) as E.
  { unfold norm, norm2. vunfold. rewrite <- (sqrt_square (1 + 1 / 4 * (x * x + y * y))) by nra. f_equal. field. }
  split; [rewrite E; cbn [vz]; ring|]. intro Z. rewrite Z in E. unfold norm, norm2 in E. vunfold. replace (0 * 0 + 0 * 0 + 0 * 0) with 0 in E by ring.
  rewrite sqrt_0 in E. nra.
Qed.
Lemma neg_scale : forall v, V3 (vx v * -1) (vy v * -1) (vz v * -1) = vscale (-1) v.
Proof. intro v. apply v3_eq; vunfold; ring. Qed.
Lemma scale_ne0 : forall v, v <> v0 -> vscale (-1) v <> v0.
Proof.
  intros v N E. apply N. assert (vscale (-1) (vscale (-1) v) = v) as <- by (apply v3_eq; vunfold; ring). rewrite E. apply v3_eq; vunfold; ring.
Qed.
(** turning the direction around does not change the pixel of the models that cannot see behind the camera *)
Lemma flip_pixel : forall m intr v, iterative m -> can_project_behind_camera m = false -> sees m intr v ->
  sees m intr (vscale (-1) v) /\ lens_pixel m intr (vscale (-1) v) = lens_pixel m intr v.
Proof.
  assert (forall Nd intr v, ocv_defined Nd intr v -> ocv_defined Nd intr (vscale (-1) v)) as D.
  { intros Nd intr v (A & B). assert (ocv_x (vscale (-1) v) = ocv_x v /\ ocv_y (vscale (-1) v) = ocv_y v) as [EX EY].
    { unfold ocv_x, ocv_y, ocv_z_recip, vscale. cbn. split; field; lra. }
    unfold ocv_defined. rewrite EX, EY. split; [|exact B]. cbn. lra. }
  intros m intr v I B S. destruct m; try contradiction; try discriminate; cbn [sees lens_pixel] in *;
    try (split; [now apply D|apply C59_opencv_scale; [lra|apply S]]).
  destruct S as [A Z]. split; [|now apply C60_cahvor_scale; [lra| |]].
  assert (ca_omega intr (vscale (-1) v) = -1 * ca_omega intr v) as EO by (unfold ca_omega; cbn; ring).
  assert (ca_tau intr (vscale (-1) v) = ca_tau intr v) as ET. { unfold ca_tau, ca_omega_recip. rewrite EO. unfold ca_norm2p. cbn. field. auto. }
  assert (vz (ca_distorted intr (vscale (-1) v)) = -1 * vz (ca_distorted intr v)) as ED.
  { unfold ca_distorted, ca_distorted_i, ca_mu. rewrite ET, EO. cbn. ring. }
  rewrite EO, ED. split; lra.
Qed.
Lemma callback_dist : forall stale m intr q u, let r := fst (callback stale m intr q u) in
  px r * px r + py r * py r = dist2 (lens_pixel m intr (unproject_stereographic (core_of intr) u)) q.
Proof. intros. unfold r, callback, unproject_callback, dist2. cbn [fst px py]. ring. Qed.

Section Step.
  Variable stale : j23.
  Variable opt : (p2 -> p2 * (p2 * p2)) -> p2 -> p2 * cost.
  Variable m : lensmodel.
  Variable intr : nat -> R.
  Definition one (q : p2) (old : slot) : slot :=
    unproject_step (lens_pixel m intr) (lens_pixel_J stale m intr) (core_of intr) (can_project_behind_camera m) opt q old.
  Lemma one_eq : forall q old, one q old =
    if too_high (snd (solved stale opt m intr q)) then Slot None None (sz old)
    else if (negb (can_project_behind_camera m) && if Rlt_dec (vz (found stale opt m intr q)) 0 then true else false)%bool
         then of_v3 (vscale (-1) (found stale opt m intr q)) else of_v3 (found stale opt m intr q).
  Proof.
    intros q old. unfold one, unproject_step, found, solved, callback, seed. rewrite <- neg_scale. destruct (opt _ _) as [u n]. reflexivity.
  Qed.
  Lemma one_sound : forall q old, iterative m -> solver_honest stale opt m intr q -> snd (solved stale opt m intr q) <> Cost_nan ->
    match snd (solved stale opt m intr q) with Cost r => 0 <= r | _ => True end ->
    one q old = Slot None None (sz old) /\ ~ answers m intr q (found stale opt m intr q) \/
    exists v, one q old = of_v3 v /\ answers m intr q v /\ (can_project_behind_camera m = false -> 0 <= vz v) /\ (v = found stale opt m intr q \/ v = vscale (-1) (found stale opt m intr q)).
  Proof.
    intros q old I [H1 H2] NN NG. rewrite one_eq. pose proof (stereo_norm (core_of intr) (fst (solved stale opt m intr q))) as [_ N0].
    fold (found stale opt m intr q) in *. set (v := found stale opt m intr q) in *.
    assert (finite_pixel m intr v = sees m intr v) as EF by (destruct m; try contradiction; reflexivity). rewrite EF in *.
    rewrite callback_dist in H1. fold (found stale opt m intr q) in H1. fold v in H1.
    destruct (too_high _) eqn:T.
    - left. split; [reflexivity|]. intros (_ & S & L). rewrite (H1 S) in T. cbn in T. destruct (Rlt_dec _ _); [lra|discriminate].
    - right. assert (answers m intr q v) as A.
      { destruct (snd (solved stale opt m intr q)) as [r| |] eqn:E; [|discriminate|now elim NN]. cbn in T. destruct (Rlt_dec _ _) as [|L]; [discriminate|].
        assert (sees m intr v) as S.
        { destruct (Classical_Prop.classic (sees m intr v)) as [|F]; auto. destruct (H2 F); discriminate. }
        specialize (H1 S). injection H1 as H1. split; [exact N0|]. split; [exact S|]. lra. }
      destruct (can_project_behind_camera m) eqn:B; cbn [negb andb].
      + exists v. split; [reflexivity|]. split; [exact A|]. split; [discriminate|auto].
      + destruct (Rlt_dec (vz v) 0) as [L|L].
        * exists (vscale (-1) v). destruct A as (A1 & A2 & A3). destruct (flip_pixel m intr v I B A2) as [F1 F2].
          split; [reflexivity|]. split; [|split; [intros _; unfold vscale; cbn [vz]; lra|now right]]. split; [now apply scale_ne0|]. split; [auto|]. now rewrite F2.
        * exists v. split; [reflexivity|]. split; [exact A|]. split; [intros _; lra|now left].
  Qed.
End Step.

(** *** C62, the models that are inverted iteratively.  The points before N are answered one by one: either a direction that is
    an answer - in front of the camera, if the model cannot see behind - or NaN in x and y, and this only if the
    direction the optimizer stopped at is not an answer.  The slots from N on are not touched.
    Missing from the full claim: that the optimizer does not report NaN or an error, see the refutations below. *)
Theorem C62_sound_partial : forall stale opt m intr q N out, iterative m -> exists out',
  unproject_internal stale opt m intr q N out = Some out' /\ (forall i, (N <= i)%nat -> out' i = out i) /\
  forall i, (i < N)%nat ->
    let n := snd (solved stale opt m intr (q i)) in
    solver_honest stale opt m intr (q i) -> n <> Cost_nan -> match n with Cost r => 0 <= r | _ => True end ->
    out' i = Slot None None (sz (out i)) /\ ~ answers m intr (q i) (found stale opt m intr (q i)) \/
    exists v, out' i = of_v3 v /\ answers m intr (q i) v /\ (can_project_behind_camera m = false -> 0 <= vz v).
Proof.
  intros stale opt m intr q N out I.
  exists (unproject_loop (lens_pixel m intr) (lens_pixel_J stale m intr) (core_of intr) (can_project_behind_camera m) opt q N out).
  split; [destruct m; try contradiction; reflexivity|]. split.
  - intros i L. rewrite C32_iterative_unproject. destruct (Nat.ltb_spec i N); [lia|reflexivity].
  - intros i L n H A B. rewrite C32_iterative_unproject. destruct (Nat.ltb_spec i N); [|lia].
    destruct (one_sound stale opt m intr (q i) (out i) I H A B) as [R|(v & R)]; [left; exact R|right]. exists v. destruct R as (R1 & R2 & R3 & _). split; [exact R1|]. split; assumption.
Qed.
Print Assumptions C62_sound_partial.

(** *** C62, the closed forms: exact, for every pixel (lonlat, latlon: up to whole turns, see C30) *)
Theorem C62_closed : forall stale opt m intr q N out, focal_ok (core_of intr) ->
  match m with PINHOLE | STEREOGRAPHIC | LONLAT | LATLON => True | _ => False end -> exists out',
  unproject_internal stale opt m intr q N out = Some out' /\ (forall i, (N <= i)%nat -> out' i = out i) /\
  forall i, (i < N)%nat -> exists v, out' i = of_v3 v /\ v <> v0 /\ sees m intr v /\ (m = PINHOLE -> 0 < vz v) /\
    let lon := (px (q i) - intr 2%nat) / intr 0%nat in let lat := (py (q i) - intr 3%nat) / intr 1%nat in
    ((m = LONLAT -> chart lon lat) -> (m = LATLON -> chart lat lon) -> lens_pixel m intr v = q i).
Proof.
  intros stale opt m intr q N out F M.
  assert (forall f : p2 -> v3, let o := for_loop N (fun i b => put b i (of_v3 (f (q i)))) out in
    (forall i, (N <= i)%nat -> o i = out i) /\ forall i, (i < N)%nat -> o i = of_v3 (f (q i))) as L.
  { intros f o. assert (forall i, o i = if Nat.ltb i N then of_v3 (f (q i)) else out i) as E.
    { unfold o. apply for_loop_ind with (P := fun M (b : buf slot) => forall i, b i = if Nat.ltb i M then of_v3 (f (q i)) else out i).
      - intros []; reflexivity.
      - intros k b H i. destruct (Nat.eq_dec i k) as [-> |Ne].
        + rewrite put_same. destruct (Nat.ltb_spec k (S k)); [reflexivity|lia].
        + rewrite put_other, H by auto. destruct (Nat.ltb_spec i k), (Nat.ltb_spec i (S k)); lia || reflexivity. }
    split; intros i I; rewrite E; destruct (Nat.ltb_spec i N); lia || reflexivity. }
  assert (forall v, norm v = 1 -> v <> v0) as U.
  { intros v E ->. unfold norm, norm2 in E. vunfold. replace (0 * 0 + 0 * 0 + 0 * 0) with 0 in E by ring. rewrite sqrt_0 in E. lra. }
  destruct m; try contradiction; eexists; (split; [reflexivity|]).
  - destruct (L (unproject_pinhole (core_of intr))) as [A B]. split; [exact A|]. intros i I. eexists. split; [now apply B|].
    assert (vz (unproject_pinhole (core_of intr) (q i)) = 1) as Z by reflexivity.
    split; [intros E; rewrite E in Z; vunfold; lra|]. split; [cbn [sees]; lra|]. split; [intros _; lra|]. intros. now apply C30_pinhole_project_unproject.
  - destruct (L (unproject_stereographic (core_of intr))) as [A B]. split; [exact A|]. intros i I. eexists. split; [now apply B|].
    destruct (stereo_norm (core_of intr) (q i)) as [Z1 Z2]. split; [exact Z2|]. split; [cbn [sees]; lra|]. split; [discriminate|]. intros. now apply C30_stereographic_project_unproject.
  - destruct (L (unproject_lonlat (core_of intr))) as [A B]. split; [exact A|]. intros i I. eexists. split; [now apply B|].
    pose proof (U _ (proj1 (C30_unit (core_of intr) (q i)))) as Z. split; [exact Z|]. split; [exact Z|]. split; [discriminate|]. intros lon lat C _. apply C30_lonlat_project_unproject; auto.
  - destruct (L (unproject_latlon (core_of intr))) as [A B]. split; [exact A|]. intros i I. eexists. split; [now apply B|].
    pose proof (U _ (proj2 (C30_unit (core_of intr) (q i)))) as Z. split; [exact Z|]. split; [exact Z|]. split; [discriminate|]. intros lon lat _ C. apply C30_latlon_project_unproject; auto.
Qed.
Print Assumptions C62_closed.

(** *** C62, CAHVORE: refused exactly if it is not central; otherwise an answer if the optimizer stopped at a seen direction
    that is not behind the camera *)
Theorem C62_noncentral_refused : forall stale opt lin intr q N out,
  unproject_internal stale opt (CAHVORE lin) intr q N out = None <-> ~ central intr.
Proof.
  intros. unfold unproject_internal, central. destruct (Req_EM_T (intr 9%nat) 0), (Req_EM_T (intr 10%nat) 0), (Req_EM_T (intr 11%nat) 0); split; intro H; try reflexivity; try discriminate; intuition.
Qed.
Print Assumptions C62_noncentral_refused.
Theorem C62_cahvore_partial : forall stale opt lin intr q N out, central intr -> exists out',
  unproject_internal stale opt (CAHVORE lin) intr q N out = Some out' /\ (forall i, (N <= i)%nat -> out' i = out i) /\
  forall i, (i < N)%nat -> let v := found stale opt (CAHVORE lin) intr (q i) in
    solver_honest stale opt (CAHVORE lin) intr (q i) -> sees (CAHVORE lin) intr v -> 0 <= vz v ->
    out' i = Slot None None (sz (out i)) /\ ~ answers (CAHVORE lin) intr (q i) v \/ out' i = of_v3 v /\ answers (CAHVORE lin) intr (q i) v.
Proof.
  intros stale opt lin intr q N out (C1 & C2 & C3).
  exists (unproject_loop (lens_pixel (CAHVORE lin) intr) (lens_pixel_J stale (CAHVORE lin) intr) (core_of intr) false opt q N out).
  split; [|split].
  - unfold unproject_internal. destruct (Req_EM_T (intr 9%nat) 0), (Req_EM_T (intr 10%nat) 0), (Req_EM_T (intr 11%nat) 0); contradiction || reflexivity.
  - intros i L. rewrite C32_iterative_unproject. destruct (Nat.ltb_spec i N); [lia|reflexivity].
  - intros i L v [H1 H2] S B. rewrite C32_iterative_unproject. destruct (Nat.ltb_spec i N); [|lia].
    change (unproject_step _ _ _ _ _ _ _) with (one stale opt (CAHVORE lin) intr (q i) (out i)). rewrite one_eq. fold v.
    assert (finite_pixel (CAHVORE lin) intr v) as F. { destruct S as (d & E & Z). intros d' E'. congruence. }
    specialize (H1 F). rewrite callback_dist in H1. fold (found stale opt (CAHVORE lin) intr (q i)) in H1. fold v in H1. rewrite H1. cbn [too_high].
    pose proof (stereo_norm (core_of intr) (fst (solved stale opt (CAHVORE lin) intr (q i)))) as [_ N0]. fold (found stale opt (CAHVORE lin) intr (q i)) in N0. fold v in N0.
    destruct (Rlt_dec _ _) as [T|T].
    + left. split; [reflexivity|]. intros (_ & _ & X). lra.
    + right. cbn [can_project_behind_camera negb andb]. destruct (Rlt_dec (vz v) 0); [lra|]. split; [reflexivity|]. split; [exact N0|]. split; [exact S|lra].
Qed.
Print Assumptions C62_cahvore_partial.

(** *** C62: the Jacobian given to the optimizer is that of the residual *)
Definition smooth (m : lensmodel) (intr : nat -> R) (v : v3) : Prop :=
  match m with
  | SPLINED cfg => splined_ok cfg /\ sees m intr v
  | CAHVORE lin => cahvore_regular (Q2R lin) intr v /\ finite_pixel m intr v
  | _ => sees m intr v
  end.
Lemma lens_gradient3 : forall N f intr p h g, lens_gradient N f intr p h g -> has_gradient3 (f intr) p g.
Proof.
  intros N f intr p h g H path t d E D. specialize (H (fun _ => intr) path t (fun _ => 0) d eq_refl E).
  assert (tot N (fun i => h i * 0) = 0) as Z by (clear; induction N as [|N IH]; cbn [tot]; [reflexivity|rewrite IH; ring]).
  cbv beta in H. rewrite Z, Rplus_0_l in H. apply H; [|exact D]. intros i _. apply (is_derive_const (K := R_AbsRing) (V := R_NormedModule)).
Qed.
Lemma weighted0 : forall l, weighted l (fun _ => 0) = 0.
Proof. induction l as [|[i a] l IH]; cbn [weighted fold_right map]; [reflexivity|]. rewrite ?IH. cbn. ring. Qed.
Lemma splined_gradient : forall cfg (intr : Z -> R) v, splined_ok cfg -> norm v + vz v <> 0 ->
  projection_gradient (splined_project cfg intr) v (splined_dq_dp cfg intr v).
Proof.
  intros cfg intr v S1 S2.
  assert (forall n, (0 <= n < 4 + 2 * sp_Nx cfg * sp_Ny cfg)%Z -> forall t, is_derive (fun _ : R => intr n) t 0) as D0 by (intros; apply (is_derive_const (K := R_AbsRing) (V := R_NormedModule))).
  split; intros path t d E D; subst v; destruct (C61_splined_gradients cfg (fun _ => intr) path t (fun _ => 0) d S1 S2 (fun n H => D0 n H t) D) as [A B]; cbv beta in A, B.
  - rewrite weighted0 in A. eapply is_derive_rw; [exact A|]. generalize (dot (dqx (splined_dq_dp cfg intr (path t))) d) as x, (px (splined_dq_dfxy cfg intr (path t))) as y. intros; rr; ring.
  - rewrite weighted0 in B. eapply is_derive_rw; [exact B|]. generalize (dot (dqy (splined_dq_dp cfg intr (path t))) d) as x, (py (splined_dq_dfxy cfg intr (path t))) as y. intros; rr; ring.
Qed.
Lemma opencv_gradient : forall Nd intr v, opencv_model Nd -> ocv_defined Nd intr v -> intr 0%nat <> 0 -> intr 1%nat <> 0 ->
  projection_gradient (opencv_project Nd intr) v (opencv_dq_dp Nd intr v).
Proof.
  intros Nd intr v M S F0 F1. destruct (C59_opencv_gradients Nd intr v M S F0 F1) as [A B]. apply lens_gradient3 in A, B. now split.
Qed.
Lemma cahvore_gradient : forall stale lin intr v, cahvore_regular lin intr v -> (forall d, cahvore_distorted lin intr v = Some d -> vz d <> 0) -> intr 0%nat <> 0 -> intr 1%nat <> 0 ->
  projection_gradient (cahvore_pixel lin intr) v (snd (cahvore_project_point lin intr v stale)).
Proof.
  intros stale lin intr v S1 S2 F0 F1. destruct (C65_gradients lin intr v S1 F0 F1 S2) as (q & J & nc & Eq & EJ & _ & A & B).
  assert (snd (cahvore_project_point lin intr v stale) = J) as ->. { unfold cahvore_project_point. rewrite Eq, EJ. reflexivity. }
  apply lens_gradient3 in A. apply lens_gradient3 in B. cbv beta in A, B. exact (conj A B).
Qed.
Lemma cahvore_lens_pixel : forall lin intr p, lens_pixel (CAHVORE lin) intr p = cahvore_pixel (Q2R lin) intr p.
Proof. intros. unfold lens_pixel, cahvore_pixel. destruct (cahvore_project (Q2R lin) intr p); reflexivity. Qed.
Lemma cahvore_lens_pixel_J : forall stale lin intr p, lens_pixel_J stale (CAHVORE lin) intr p = snd (cahvore_project_point (Q2R lin) intr p stale).
Proof. intros. unfold lens_pixel_J. destruct (cahvore_project_point (Q2R lin) intr p stale); reflexivity. Qed.
Lemma gradient_ext : forall f g v J, (forall p, f p = g p) -> projection_gradient g v J -> projection_gradient f v J.
Proof.
  intros f g v J E [A B]. split; intros path t d P M; [pose proof (A path t d P M) as H|pose proof (B path t d P M) as H];
    (eapply is_derive_ext; [|exact H]); intro s; cbv beta; now rewrite E.
Qed.
Lemma model_gradient : forall stale m intr v, iterative m \/ (exists lin, m = CAHVORE lin) -> focal_ok (core_of intr) -> smooth m intr v ->
  projection_gradient (lens_pixel m intr) v (lens_pixel_J stale m intr v).
Proof.
  intros stale m intr v I [F0 F1] S. cbn [core_of fx fy] in F0, F1.
  destruct m; try (destruct I as [I|(? & ?)]; [contradiction|discriminate]); clear I.
  - now apply opencv_gradient; [unfold opencv_model; auto| | |].
  - now apply opencv_gradient; [unfold opencv_model; auto| | |].
  - now apply opencv_gradient; [unfold opencv_model; auto| | |].
  - now apply opencv_gradient; [unfold opencv_model; auto| | |].
  - destruct S as [S1 S2]. destruct (C60_cahvor_gradients intr v S1 S2 F0 F1) as [A B]. split; [exact (lens_gradient3 _ _ _ _ _ _ A)|exact (lens_gradient3 _ _ _ _ _ _ B)].
  - destruct S as [S1 S2]. apply gradient_ext with (cahvore_pixel (Q2R linearity) intr); [apply cahvore_lens_pixel|]. rewrite cahvore_lens_pixel_J. now apply cahvore_gradient.
  - destruct S as [S1 S2]. now apply splined_gradient.
Qed.
Lemma chain2 : forall F c u g k, focal_ok c -> has_gradient3 F (unproject_stereographic c u) g -> let D := unproject_stereographic_J c u in
  has_gradient2 (fun x y => F (unproject_stereographic c (P2 x y)) - k) (px u) (py u)
    (vx g * px (dvx D) + vy g * px (dvy D) + vz g * px (dvz D)) (vx g * py (dvx D) + vy g * py (dvy D) + vz g * py (dvz D)).
Proof.
  intros F c u g k FC G D a b t da db Ea Eb Da Db.
  pose proof (C31_unproject_stereographic c u FC) as (UX & UY & UZ). specialize (UX a b t da db Ea Eb Da Db). specialize (UY a b t da db Ea Eb Da Db). specialize (UZ a b t da db Ea Eb Da Db).
  assert (unproject_stereographic c (P2 (a t) (b t)) = unproject_stereographic c u) as EU by (rewrite Ea, Eb; now destruct u).
  pose proof (G (fun s => unproject_stereographic c (P2 (a s) (b s))) t (V3 _ _ _) EU (conj UX (conj UY UZ))) as H.
  pose proof (is_derive_minus _ (fun _ => k) t _ _ H (is_derive_const (K := R_AbsRing) (V := R_NormedModule) k t)) as H'.
  eapply is_derive_rw; [exact H'|]. fold D. unfold minus, plus, opp, zero, dot. cbn [vx vy vz]. simpl. ring.
Qed.
Theorem C62_callback_jacobian : forall stale m intr q u, iterative m \/ (exists lin, m = CAHVORE lin) -> focal_ok (core_of intr) ->
  smooth m intr (unproject_stereographic (core_of intr) u) ->
  let f := callback stale m intr q in let Jx := fst (snd (f u)) in let Jy := snd (snd (f u)) in
  has_gradient2 (fun x y => px (fst (f (P2 x y)))) (px u) (py u) (px Jx) (py Jx) /\
  has_gradient2 (fun x y => py (fst (f (P2 x y)))) (px u) (py u) (px Jy) (py Jy).
Proof.
  intros stale m intr q u I F S f Jx Jy. set (c := core_of intr) in *. pose proof (model_gradient stale m intr _ I F S) as [GX GY].
  split; [apply (chain2 (fun p => px (lens_pixel m intr p)) c u (dqx (lens_pixel_J stale m intr (unproject_stereographic c u))) (px q) F GX)
         |apply (chain2 (fun p => py (lens_pixel m intr p)) c u (dqy (lens_pixel_J stale m intr (unproject_stereographic c u))) (py q) F GY)].
Qed.
Print Assumptions C62_callback_jacobian.

(** *** What the claim cannot promise *)
Definition core1 (i : nat) : R := if Nat.ltb i 2 then 1 else 0.
Lemma one_of_internal : forall stale opt m intr q old, iterative m \/ (exists lin, m = CAHVORE lin) /\ central intr -> exists out',
  unproject_internal stale opt m intr (fun _ => q) 1 (fun _ => old) = Some out' /\ out' 0%nat = one stale opt m intr q old.
Proof.
  intros stale opt m intr q old H.
  exists (unproject_loop (lens_pixel m intr) (lens_pixel_J stale m intr) (core_of intr) (can_project_behind_camera m) opt (fun _ => q) 1 (fun _ => old)).
  split; [|now rewrite C32_iterative_unproject].
  destruct H as [I|((lin & ->) & C1 & C2 & C3)]; [destruct m; try contradiction; reflexivity|].
  unfold unproject_internal. destruct (Req_EM_T (intr 9%nat) 0), (Req_EM_T (intr 10%nat) 0), (Req_EM_T (intr 11%nat) 0); contradiction || reflexivity.
Qed.

(** a CAHVORE fisheye sees behind the camera, but can_project_behind_camera says it does not: the exact solution is turned
    around, and the answer is a different direction, far off the pixel *)
Definition fe_k : R := 2 + 2 * sqrt 2.
Lemma fe_k_pos : 0 < fe_k. Proof. unfold fe_k. pose proof (sqrt_lt_R0 2 ltac:(lra)). lra. Qed.
Lemma fisheye_found : unproject_stereographic (core_of core1) (P2 fe_k 0) = V3 fe_k 0 (- fe_k).
Proof.
  unfold unproject_stereographic, core_of, core1, fe_k. cbn [px py fx fy cx cy Nat.ltb Nat.leb]. pose proof (sqrt_sqrt 2 ltac:(lra)) as S.
  apply v3_eq; cbn [vx vy vz]; [field|field|]. replace (1 / 1) with 1 by field. nra.
Qed.
Lemma fisheye_pixel : forall s z, (s = 1 \/ s = -1) -> 1 / 100000000 < Ratan2 fe_k z ->
  exists d, cahvore_distorted 0 core1 (V3 (s * fe_k) 0 z) = Some d /\ vz d <> 0 /\ cahvore_project 0 core1 (V3 (s * fe_k) 0 z) = Some (P2 (s * Ratan2 fe_k z) 0).
Proof.
  intros s z HS L. pose proof fe_k_pos as K. set (k := fe_k) in *. clearbody k.
  assert (undistorted core1) as U. { intros i Hi. unfold core1. destruct (Nat.ltb_spec i 2); [lia|reflexivity]. }
  destruct (undistorted_geometry core1 (V3 (s * k) 0 z) U) as (C & EA & EL & EC & EO). cbn [vx vy vz] in *.
  assert (off_axis core1 (V3 (s * k) 0 z) = k) as EK. { rewrite EO. replace (s * k * (s * k) + 0 * 0) with (k * k) by (destruct HS as [-> | ->]; ring). apply sqrt_square. lra. }
  assert (angle core1 (V3 (s * k) 0 z) = Ratan2 k z) as EG by (unfold angle; now rewrite EK, EL).
  assert (angle core1 (V3 (s * k) 0 z) * Rabs 0 < PI / 2) as B by (rewrite Rabs_R0, Rmult_0_r; apply PI2_RGT_0).
  assert (V3 (s * k) 0 z <> v0) as P0 by (intro E; apply (f_equal vx) in E; cbn in E; destruct HS as [-> | ->]; lra).
  eexists. split; [apply distort_central; auto; [now rewrite EG|now apply Rlt_le]|]. split.
  - rewrite EA, EC, EK, EG. unfold chi_of. destruct (Rlt_dec _ _); [lra|]. destruct (Rlt_dec _ _); [lra|]. vunfold.
    intro E. assert (0 < k / Ratan2 k z) by (apply Rdiv_lt_0_compat; lra). lra.
  - rewrite C65_family; auto; [|now rewrite EG|cbn [vx vy]; destruct HS as [-> | ->]; nra].
    rewrite EG. unfold chi_of. destruct (Rlt_dec _ _); [lra|]. destruct (Rlt_dec _ _); [lra|]. unfold radial, core_of, core1. cbn [vx vy vz fx fy cx cy Nat.ltb Nat.leb].
    replace (s * k * (s * k) + 0 * 0) with (k * k) by (destruct HS as [-> | ->]; ring). rewrite sqrt_square by lra. do 2 f_equal; field; lra.
Qed.
Lemma angle_back : Ratan2 fe_k (- fe_k) = 3 * (PI / 4).
Proof. pose proof fe_k_pos. rewrite Ratan2_ypos by auto. replace (- fe_k / fe_k) with (Ropp 1) by (field; lra). rewrite atan_opp, atan_1. field. Qed.
Lemma angle_front1 : Ratan2 fe_k fe_k = PI / 4.
Proof. pose proof fe_k_pos. rewrite Ratan2_xpos by auto. replace (fe_k / fe_k) with 1 by (field; lra). apply atan_1. Qed.
Theorem C62_cahvore_behind_refuted : exists lin intr q opt, forall stale old, central intr /\ focal_ok (core_of intr) /\
  solver_honest stale opt (CAHVORE lin) intr q /\ snd (solved stale opt (CAHVORE lin) intr q) = Cost 0 /\
  answers (CAHVORE lin) intr q (found stale opt (CAHVORE lin) intr q) /\
  exists out' v, unproject_internal stale opt (CAHVORE lin) intr (fun _ => q) 1 (fun _ => old) = Some out' /\ out' 0%nat = of_v3 v /\
    1 < dist2 (lens_pixel (CAHVORE lin) intr v) q.
Proof.
  exists (0 # 1)%Q, core1, (P2 (3 * (PI / 4)) 0), (fun _ _ => (P2 fe_k 0, Cost 0)). intros stale old.
  assert (Q2R (0 # 1) = 0) as Q0 by (unfold Q2R; cbn; lra). pose proof fe_k_pos as K. pose proof PI_RGT_0 as HP. pose proof PI2_1 as HP1.
  assert (central core1) as C by (repeat split; reflexivity).
  destruct (fisheye_pixel 1 (- fe_k) ltac:(now left)) as (d & D & DZ & DP). { rewrite angle_back. lra. }
  rewrite Rmult_1_l in D, DP. rewrite angle_back, Rmult_1_l in DP.
  destruct (fisheye_pixel (-1) fe_k ltac:(now right)) as (d' & D' & DZ' & DP'). { rewrite angle_front1. lra. } rewrite angle_front1 in DP'.
  assert (lens_pixel (CAHVORE (0 # 1)) core1 (V3 fe_k 0 (- fe_k)) = P2 (3 * (PI / 4)) 0) as E. { rewrite cahvore_lens_pixel, Q0. unfold cahvore_pixel. now rewrite DP. }
  assert (lens_pixel (CAHVORE (0 # 1)) core1 (V3 (-1 * fe_k) 0 fe_k) = P2 (-1 * (PI / 4)) 0) as E'. { rewrite cahvore_lens_pixel, Q0. unfold cahvore_pixel. now rewrite DP'. }
  set (m := CAHVORE (0 # 1)) in *. set (opt := fun (_ : p2 -> p2 * (p2 * p2)) (_ : p2) => (P2 fe_k 0, Cost 0)).
  assert (found stale opt m core1 (P2 (3 * (PI / 4)) 0) = V3 fe_k 0 (- fe_k)) as EF by exact fisheye_found.
  split; [exact C|]. split; [split; cbn; lra|]. split.
  { split.
    - intros _. rewrite callback_dist. cbn [solved opt fst snd]. rewrite fisheye_found, E. unfold dist2. cbn [px py]. f_equal. ring.
    - intro F. exfalso. apply F. cbn [solved opt fst]. rewrite fisheye_found. unfold m, finite_pixel. rewrite Q0. intros x X. congruence. }
  split; [reflexivity|]. split.
  { rewrite EF. split; [intro Z; apply (f_equal vx) in Z; cbn in Z; lra|]. split; [exists d; rewrite Q0; auto|]. rewrite E. unfold dist2. cbn [px py]. lra. }
  destruct (one_of_internal stale opt m core1 (P2 (3 * (PI / 4)) 0) old) as (out' & O1 & O2); [right; split; [now exists (0 # 1)%Q|exact C]|].
  exists out', (V3 (-1 * fe_k) 0 fe_k). split; [exact O1|]. split.
  - rewrite O2, one_eq. change (snd (solved stale opt m core1 (P2 (3 * (PI / 4)) 0))) with (Cost 0). rewrite EF. cbn [too_high]. destruct (Rlt_dec _ _); [lra|].
    cbn [can_project_behind_camera m negb andb vz]. destruct (Rlt_dec (- fe_k) 0); [|lra]. f_equal. apply v3_eq; vunfold; ring.
  - rewrite E'. unfold dist2. cbn [px py]. nra.
Qed.
Print Assumptions C62_cahvore_behind_refuted.

(** CAHVORE: a refused projection is the pixel (0,0), so the search for the pixel (0,0) "succeeds" at the first direction
    that the model does not see; here that is where it starts *)
Definition side (i : nat) : R := match i with 0%nat => 1 | 1%nat => 1 | 2%nat => 2 | 4%nat => PI / 2 | _ => 0 end.
(** an optimizer that is content with where it starts *)
Definition stop (f : p2 -> p2 * (p2 * p2)) (u : p2) : p2 * cost := (u, Cost (px (fst (f u)) * px (fst (f u)) + py (fst (f u)) * py (fst (f u)))).
Lemma stop_cost : forall stale m intr q, snd (solved stale stop m intr q) = Cost (dist2 (lens_pixel m intr (found stale stop m intr q)) q).
Proof. intros. unfold solved, stop, found. cbn [snd]. rewrite callback_dist. reflexivity. Qed.
Lemma stop_honest : forall stale m intr q, finite_pixel m intr (found stale stop m intr q) -> solver_honest stale stop m intr q.
Proof.
  intros stale m intr q H. split; [intros _|intro N; exfalso; exact (N H)]. rewrite stop_cost, callback_dist. reflexivity.
Qed.
Lemma stop_found : forall stale m intr q, found stale stop m intr q = unproject_stereographic (core_of intr) (seed intr q).
Proof. reflexivity. Qed.
Lemma refused_distorted : forall lin intr p, cahvore_project lin intr p = None -> cahvore_distorted lin intr p = None.
Proof. intros lin intr p. unfold cahvore_project. destruct (cahvore_distorted lin intr p); [discriminate|reflexivity]. Qed.
Lemma refused_pixel : forall lin intr p, cahvore_project lin intr p = None -> cahvore_pixel lin intr p = P2 0 0.
Proof. intros lin intr p H. unfold cahvore_pixel. rewrite H. reflexivity. Qed.
Theorem C62_refused_is_origin_refuted : exists lin intr, let q := P2 0 0 in forall stale old, central intr /\ focal_ok (core_of intr) /\
  solver_honest stale stop (CAHVORE lin) intr q /\
  exists out' v, unproject_internal stale stop (CAHVORE lin) intr (fun _ => q) 1 (fun _ => old) = Some out' /\ out' 0%nat = of_v3 v /\
    0 < vz v /\ ~ sees (CAHVORE lin) intr v.
Proof.
  exists (1 # 1)%Q, side. intros q stale old.
  assert (Q2R (1 # 1) = 1) as Q1 by (unfold Q2R; cbn; lra).
  assert (central side) as C by (repeat split; reflexivity). assert (focal_ok (core_of side)) as F by (split; cbn; lra).
  assert (exists a, 0 < a /\ found stale stop (CAHVORE (1 # 1)) side q = vscale a (V3 (-2) 0 1)) as (a & A & EF).
  { destruct (C30_stereographic_unproject_project (core_of side) (V3 (-2) 0 1) F) as (a & A & E).
    - intro Z. apply C30_stereographic_domain in Z. cbn in Z. lra.
    - exists a. split; [exact A|]. rewrite <- E, stop_found. unfold seed. do 2 f_equal. unfold q, core_of, side. cbn [px py cx cy fx fy]. f_equal; field. }
  assert (axis side = V3 1 0 0) as EA. { unfold axis, side. rewrite sin_PI2, cos_PI2, cos_0, sin_0. f_equal; ring. }
  assert (along side (vscale a (V3 (-2) 0 1)) < 0) as AL. { unfold along. rewrite EA. vunfold. lra. }
  pose proof (C65_perspective_behind side _ C AL) as NP.
  assert (cahvore_distorted 1 side (vscale a (V3 (-2) 0 1)) = None) as ND by (exact (refused_distorted _ _ _ NP)).
  assert (lens_pixel (CAHVORE (1 # 1)) side (vscale a (V3 (-2) 0 1)) = P2 0 0) as EP by (rewrite cahvore_lens_pixel, Q1; exact (refused_pixel _ _ _ NP)).
  split; [exact C|]. split; [exact F|]. split.
  { apply stop_honest. rewrite EF. unfold finite_pixel. rewrite Q1. intros d D. rewrite ND in D. discriminate. }
  destruct (one_of_internal stale stop (CAHVORE (1 # 1)) side q old) as (out' & O1 & O2); [right; split; [now exists (1 # 1)%Q|exact C]|].
  exists out', (vscale a (V3 (-2) 0 1)). split; [exact O1|]. split; [|split].
  - rewrite O2, one_eq, stop_cost, EF, EP. unfold dist2, q. cbn [px py too_high]. destruct (Rlt_dec _ _); [lra|]. unfold vscale. cbn [can_project_behind_camera negb andb vz].
    destruct (Rlt_dec _ _); [lra|reflexivity].
  - unfold vscale. cbn [vz]. lra.
  - intros (d & D & _). rewrite Q1, ND in D. discriminate.
Qed.
Print Assumptions C62_refused_is_origin_refuted.

(** an optimizer that reports an error (a negative number), or that a division by 0 made it get nowhere (NaN), is taken to
    have succeeded: only norm2x > 2e-4 is checked *)
Definition pinhole4 : nat -> R := core1.
Theorem C62_error_accepted_refuted : exists intr q opt, forall stale old, focal_ok (core_of intr) /\ snd (solved stale opt OPENCV4 intr q) = Cost (-1) /\
  exists out' v, unproject_internal stale opt OPENCV4 intr (fun _ => q) 1 (fun _ => old) = Some out' /\ out' 0%nat = of_v3 v /\ 1 < dist2 (lens_pixel OPENCV4 intr v) q.
Proof.
  exists core1, (P2 10 0), (fun _ _ => (P2 0 0, Cost (-1))). intros stale old. set (opt := fun (_ : p2 -> p2 * (p2 * p2)) (_ : p2) => (P2 0 0, Cost (-1))).
  split; [split; cbn; lra|]. split; [reflexivity|].
  destruct (one_of_internal stale opt OPENCV4 core1 (P2 10 0) old) as (out' & O1 & O2); [now left|].
  assert (found stale opt OPENCV4 core1 (P2 10 0) = V3 0 0 1) as EF. { unfold found, solved, opt, unproject_stereographic, core_of, core1. cbn [fst px py fx fy cx cy Nat.ltb Nat.leb]. apply v3_eq; cbn [vx vy vz]; field. }
  exists out', (V3 0 0 1). split; [exact O1|]. split.
  - rewrite O2, one_eq, EF. change (snd (solved stale opt OPENCV4 core1 (P2 10 0))) with (Cost (-1)). cbn [too_high]. destruct (Rlt_dec _ _); [lra|].
    cbn [can_project_behind_camera negb andb vz]. destruct (Rlt_dec 1 0); [lra|reflexivity].
  - cbn [lens_pixel]. rewrite C59_opencv_pinhole; [|intros i Hi; unfold core1; destruct (Nat.ltb_spec i 2); [lia|reflexivity]|cbn; lra].
    unfold dist2, project_pinhole, core_of, core1. cbn [vx vy vz px py fx fy cx cy Nat.ltb Nat.leb]. lra.
Qed.
Print Assumptions C62_error_accepted_refuted.
Definition pole (i : nat) : R := match i with 0%nat => 1 | 1%nat => 1 | 4%nat => -1 | 9%nat => -1 | _ => 0 end.
Theorem C62_nan_accepted_refuted : exists intr q opt, forall stale old, focal_ok (core_of intr) /\ (forall f u, opt f u = (u, Cost_nan)) /\ solver_honest stale opt OPENCV8 intr q /\
  exists out' v, unproject_internal stale opt OPENCV8 intr (fun _ => q) 1 (fun _ => old) = Some out' /\ out' 0%nat = of_v3 v /\ ~ sees OPENCV8 intr v.
Proof.
  exists pole, (P2 1 0), (fun _ u => (u, Cost_nan)). intros stale old. set (opt := fun (_ : p2 -> p2 * (p2 * p2)) (u : p2) => (u, Cost_nan)). set (q := P2 1 0).
  assert (focal_ok (core_of pole)) as F by (split; cbn; lra).
  assert (exists a, 0 < a /\ found stale opt OPENCV8 pole q = vscale a (V3 1 0 1)) as (a & A & EF).
  { destruct (C30_stereographic_unproject_project (core_of pole) (V3 1 0 1) F) as (a & A & E).
    - intro Z. apply C30_stereographic_domain in Z. cbn in Z. lra.
    - exists a. split; [exact A|]. rewrite <- E. unfold found, solved, opt, seed. cbn [fst]. do 2 f_equal. unfold q, core_of, pole. cbn [px py cx cy fx fy]. f_equal; field. }
  assert (~ sees OPENCV8 pole (found stale opt OPENCV8 pole q)) as NS.
  { rewrite EF. cbn [sees]. intros (_ & D). apply D.
    assert (ocv_x (vscale a (V3 1 0 1)) = 1) as -> by (unfold ocv_x, ocv_z_recip, vscale; cbn; field; lra).
    assert (ocv_y (vscale a (V3 1 0 1)) = 0) as -> by (unfold ocv_y, ocv_z_recip, vscale; cbn; field; lra).
    unfold opencv_k, pole, ocv_r2, ocv_r4, ocv_r6, ocv_r4, ocv_r2. cbn [Nat.ltb Nat.leb Nat.add]. ring. }
  split; [exact F|]. split; [reflexivity|]. split. { split; [intro S; exfalso; exact (NS S)|intros _; now right]. }
  destruct (one_of_internal stale opt OPENCV8 pole q old) as (out' & O1 & O2); [now left|].
  exists out', (found stale opt OPENCV8 pole q). split; [exact O1|]. split; [|exact NS].
  rewrite O2, one_eq. change (snd (solved stale opt OPENCV8 pole q)) with Cost_nan. rewrite EF. unfold vscale. cbn [too_high can_project_behind_camera negb andb vz].
  destruct (Rlt_dec _ _); [lra|reflexivity].
Qed.
Print Assumptions C62_nan_accepted_refuted.

(** *** The hypotheses of C62_sound_partial and of C62_callback_jacobian are met: a distorted model, solved exactly *)
Definition barrel (i : nat) : R := match i with 0%nat => 1000 | 1%nat => 1000 | 2%nat => 500 | 3%nat => 400 | 4%nat => -1 / 10 | _ => 0 end.
Example ex_C62 : let u := P2 1500 400 in let v := V3 1 0 (3 / 4) in let q := lens_pixel OPENCV4 barrel v in let opt := fun (_ : p2 -> p2 * (p2 * p2)) (_ : p2) => (u, Cost 0) in
  forall stale, iterative OPENCV4 /\ solver_honest stale opt OPENCV4 barrel q /\ found stale opt OPENCV4 barrel q = v /\ answers OPENCV4 barrel q v /\
    smooth OPENCV4 barrel (unproject_stereographic (core_of barrel) u) /\ q <> project_pinhole (core_of barrel) v.
Proof.
  intros u v q opt stale. assert (unproject_stereographic (core_of barrel) u = v) as EU.
  { unfold unproject_stereographic, core_of, barrel, u, v. cbn [px py fx fy cx cy]. apply v3_eq; cbn [vx vy vz]; field. }
  assert (sees OPENCV4 barrel v) as S. { split; [cbn; lra|]. unfold opencv_k, ocv_r6, ocv_r4, ocv_r2. cbn [Nat.ltb Nat.leb]. lra. }
  split; [exact I|]. split; [|split; [exact EU|split; [|split]]].
  - split; [|rewrite <- EU in S; intro N; exfalso; exact (N S)]. intros _. rewrite callback_dist. cbn [solved opt fst snd]. rewrite EU. unfold dist2. f_equal. unfold q. ring.
  - split; [intro Z; apply (f_equal vx) in Z; cbn in Z; lra|]. split; [exact S|]. unfold dist2, q. lra.
  - now rewrite EU.
  - intro E. apply (f_equal px) in E. revert E. unfold q, lens_pixel, opencv_project, project_pinhole, ocv_xd, ocv_cdist, ocv_icdist2, ocv_r6, ocv_r4, ocv_r2, ocv_x, ocv_y, ocv_z_recip, opencv_k, core_of, barrel, v.
    cbn [px py vx vy vz fx fy cx cy Nat.ltb Nat.leb Nat.add]. lra.
Qed.
