(** C59, C60: the gradients of the OpenCV and CAHVOR lens models. *)
From Coq Require Import Reals Lra Psatz Lia Arith List.
From Coquelicot Require Import Coquelicot.
From Verif Require Import S_Vec S_Curve S_LensGrad M_Project C_ProjectGrad M_OpenCV.
Import ListNotations.
Open Scope R_scope.

(** mrcal.c:2938-2960: the dense dq_dintrinsics rows are assembled from dq_dfxy (off-diagonal 0), the identity for the
    center, and the distortion part *)
Definition dense_x (c : core) (q : p2) (nocore : nat -> R * R) (i : nat) : R :=
  match i with O => px (dq_dfxy_of c q) | S O => 0 | S (S O) => 1 | S (S (S O)) => 0 | S (S (S (S m))) => fst (nocore m) end.
Definition dense_y (c : core) (q : p2) (nocore : nat -> R * R) (i : nat) : R :=
  match i with O => 0 | S O => py (dq_dfxy_of c q) | S (S O) => 0 | S (S (S O)) => 1 | S (S (S (S m))) => snd (nocore m) end.

Lemma lens_grad_intro : forall N f intr p h g,
  (forall (I : nat -> R -> R) (X Y Z : R -> R) (t : R) (dI : nat -> R) (dx dy dz : R),
    (fun i => I i t) = intr -> V3 (X t) (Y t) (Z t) = p -> (forall i, (i < N)%nat -> is_derive (I i) t (dI i)) ->
    is_derive X t dx -> is_derive Y t dy -> is_derive Z t dz ->
    is_derive (fun s => f (fun i => I i s) (V3 (X s) (Y s) (Z s))) t (tot N (fun i => h i * dI i) + (vx g * dx + vy g * dy + vz g * dz))) ->
  lens_gradient N f intr p h g.
Proof.
  intros N f intr p h g H I P t dI dP EI EP DI (DX & DY & DZ).
  apply is_derive_ext with (fun s => f (fun i => I s i) (V3 (vx (P s)) (vy (P s)) (vz (P s)))). { intro s. now destruct (P s). }
  apply (H (fun i s => I s i) (fun s => vx (P s)) (fun s => vy (P s)) (fun s => vz (P s)) t dI); auto.
  - rewrite <- EP. now destruct (P t).
Qed.

(** ** OpenCV *)
(** the distorted coordinates along a path of (x, y, k) *)
Lemma ocv_xd_derive : forall (k : nat -> R -> R) (x y : R -> R) t dk dx dy,
  (forall i, (i < 12)%nat -> is_derive (k i) t (dk i)) -> is_derive x t dx -> is_derive y t dy ->
  let K := fun i => k i t in
  1 + K 5%nat * ocv_r2 (x t) (y t) + K 6%nat * ocv_r4 (x t) (y t) + K 7%nat * ocv_r6 (x t) (y t) <> 0 ->
  is_derive (fun s => ocv_xd (fun i => k i s) (x s) (y s)) t
    (fst (ocv_dm K (x t) (y t) dx dy) + tot 12 (fun i => fst (nth i (ocv_dk K (x t) (y t) 1 1 12) (0, 0)) * dk i)).
Proof.
  intros k x y t dk dx dy DK DX DY K H.
  assert (forall i, (i < 12)%nat -> ex_derive (k i) t /\ Derive (fun s : R => k i s) t = dk i) as E by (intros; now apply dv, DK).
  destruct (dv _ _ _ DX) as [EX EX'], (dv _ _ _ DY) as [EY EY'].
  unfold ocv_xd, ocv_cdist, ocv_icdist2, ocv_a1, ocv_a2, ocv_r6, ocv_r4, ocv_r2. unfold ocv_r6, ocv_r4, ocv_r2, K in H.
  auto_derive.
  - repeat split; auto; try (apply E; lia).
  - rewrite EX', EY'. repeat match goal with |- context [Derive (fun s : R => k ?i s) t] => rewrite (proj2 (E i ltac:(lia))) end.
    cbn [ocv_dk app Nat.ltb Nat.leb nth tot fst]. unfold ocv_dm, ocv_cdist, ocv_icdist2, ocv_a1, ocv_a2, ocv_r6, ocv_r4, ocv_r2, K. cbn [fst].
    field. exact H.
Qed.
Lemma ocv_yd_derive : forall (k : nat -> R -> R) (x y : R -> R) t dk dx dy,
  (forall i, (i < 12)%nat -> is_derive (k i) t (dk i)) -> is_derive x t dx -> is_derive y t dy ->
  let K := fun i => k i t in
  1 + K 5%nat * ocv_r2 (x t) (y t) + K 6%nat * ocv_r4 (x t) (y t) + K 7%nat * ocv_r6 (x t) (y t) <> 0 ->
  is_derive (fun s => ocv_yd (fun i => k i s) (x s) (y s)) t
    (snd (ocv_dm K (x t) (y t) dx dy) + tot 12 (fun i => snd (nth i (ocv_dk K (x t) (y t) 1 1 12) (0, 0)) * dk i)).
Proof.
  intros k x y t dk dx dy DK DX DY K H.
  assert (forall i, (i < 12)%nat -> ex_derive (k i) t /\ Derive (fun s : R => k i s) t = dk i) as E by (intros; now apply dv, DK).
  destruct (dv _ _ _ DX) as [EX EX'], (dv _ _ _ DY) as [EY EY'].
  unfold ocv_yd, ocv_cdist, ocv_icdist2, ocv_a1, ocv_a3, ocv_r6, ocv_r4, ocv_r2. unfold ocv_r6, ocv_r4, ocv_r2, K in H.
  auto_derive.
  - repeat split; auto; try (apply E; lia).
  - rewrite EX', EY'. repeat match goal with |- context [Derive (fun s : R => k ?i s) t] => rewrite (proj2 (E i ltac:(lia))) end.
    cbn [ocv_dk app Nat.ltb Nat.leb nth tot snd]. unfold ocv_dm, ocv_cdist, ocv_icdist2, ocv_a1, ocv_a3, ocv_r6, ocv_r4, ocv_r2, K. cbn [snd].
    field. exact H.
Qed.

(** opencv.c:85: the rational models divide by this *)
Definition ocv_defined (Nd : nat) (intr : nat -> R) (p : v3) : Prop :=
  let k := opencv_k Nd intr in let x := ocv_x p in let y := ocv_y p in
  vz p <> 0 /\ 1 + k 5%nat * ocv_r2 x y + k 6%nat * ocv_r4 x y + k 7%nat * ocv_r6 x y <> 0.
Definition opencv_model (Nd : nat) : Prop := Nd = 4%nat \/ Nd = 5%nat \/ Nd = 8%nat \/ Nd = 12%nat.

Lemma opencv_k_derive : forall Nd (I : nat -> R -> R) t dI, (forall i, (i < 4 + Nd)%nat -> is_derive (I i) t (dI i)) ->
  forall i, is_derive (fun s => opencv_k Nd (fun j => I j s) i) t (if Nat.ltb i Nd then dI (i + 4)%nat else 0).
Proof.
  intros Nd I t dI D i. unfold opencv_k. destruct (Nat.ltb_spec i Nd).
  - apply D. lia.
  - apply (is_derive_const (K := R_AbsRing) (V := R_NormedModule)).
Qed.
Lemma affine_derive : forall (a f c : R -> R) t da df dc, is_derive a t da -> is_derive f t df -> is_derive c t dc ->
  is_derive (fun s => a s * f s + c s) t (da * f t + a t * df + dc).
Proof.
  intros a f c t da df dc A F C. destruct (dv _ _ _ A) as [EA EA'], (dv _ _ _ F) as [EF EF'], (dv _ _ _ C) as [EC EC'].
  auto_derive; [auto|]. rewrite EA', EF', EC'. ring.
Qed.
Lemma ocv_x_derive : forall (X Z : R -> R) t dx dz, is_derive X t dx -> is_derive Z t dz -> Z t <> 0 ->
  is_derive (fun s => X s * (1 / Z s)) t (1 / Z t * dx + - (X t * (1 / Z t)) * (1 / Z t) * dz).
Proof.
  intros X Z t dx dz DX DZ H. destruct (dv _ _ _ DX) as [EX EX'], (dv _ _ _ DZ) as [EZ EZ']. auto_derive; [auto|]. rewrite EX', EZ'. field. auto.
Qed.

(** every entry of the gradient is written *)
Theorem C59_opencv_all_written : forall Nd intr p, opencv_model Nd -> length (opencv_dq_dnocore Nd intr p) = Nd.
Proof. intros Nd intr p [-> | [-> | [-> | ->]]]; reflexivity. Qed.
Print Assumptions C59_opencv_all_written.

Theorem C59_opencv_gradients : forall Nd intr p, opencv_model Nd -> ocv_defined Nd intr p -> intr 0%nat <> 0 -> intr 1%nat <> 0 ->
  let q := opencv_project Nd intr p in
  let nocore := fun m => nth m (opencv_dq_dnocore Nd intr p) (0, 0) in
  lens_gradient (4 + Nd) (fun i v => px (opencv_project Nd i v)) intr p (dense_x (core_of intr) q nocore) (dqx (opencv_dq_dp Nd intr p)) /\
  lens_gradient (4 + Nd) (fun i v => py (opencv_project Nd i v)) intr p (dense_y (core_of intr) q nocore) (dqy (opencv_dq_dp Nd intr p)).
Proof.
  intros Nd intr p M [HZ HD] F0 F1 q nocore.
  split; apply lens_grad_intro; intros I X Y Z t dI dx dy dz EI EP DI DX DY DZ; subst p; subst intr; cbn [vz] in HZ;
    pose proof (ocv_x_derive _ _ _ _ _ DX DZ HZ) as DU; pose proof (ocv_x_derive _ _ _ _ _ DY DZ HZ) as DV;
    set (k := fun i s => opencv_k Nd (fun j => I j s) i); set (dk := fun i => if Nat.ltb i Nd then dI (i + 4)%nat else 0);
    assert (forall i, (i < 12)%nat -> is_derive (k i) t (dk i)) as DK by (intros i _; now apply opencv_k_derive).
  - pose proof (ocv_xd_derive k (fun s => X s * (1 / Z s)) (fun s => Y s * (1 / Z s)) t dk _ _ DK DU DV HD) as D.
    evar_last; [apply (affine_derive (fun s => ocv_xd (fun i => k i s) (X s * (1 / Z s)) (Y s * (1 / Z s)))); [exact D|apply DI; lia|apply DI; lia]|].
    unfold q, nocore, opencv_project, opencv_dq_dnocore, opencv_dq_dp, dense_x, dq_dfxy_of. cbn [px core_of fx cx dqx vx vy vz].
    unfold ocv_x, ocv_y, ocv_z_recip. cbn [vx vy vz].
    change (opencv_k Nd (fun i => I i t)) with (fun i => k i t). set (K := fun i => k i t). cbv beta.
    set (u := X t * (1 / Z t)). set (v := Y t * (1 / Z t)). set (w := 1 / Z t).
    change (ocv_xd (opencv_k Nd (fun i => I i t)) u v) with (ocv_xd K u v).
    replace ((ocv_xd K u v * I 0%nat t + I 2%nat t - I 2%nat t) / I 0%nat t) with (ocv_xd K u v) by (field; auto).
    unfold ocv_dm. cbn [fst]. set (xd := ocv_xd K u v). set (cd := ocv_cdist K u v). set (ic := ocv_icdist2 K u v).
    clearbody xd cd ic K. unfold dk. destruct M as [-> | [-> | [-> | ->]]]; cbn [Nat.add tot ocv_dk app nth fst Nat.ltb Nat.leb]; ring.
  - pose proof (ocv_yd_derive k (fun s => X s * (1 / Z s)) (fun s => Y s * (1 / Z s)) t dk _ _ DK DU DV HD) as D.
    evar_last; [apply (affine_derive (fun s => ocv_yd (fun i => k i s) (X s * (1 / Z s)) (Y s * (1 / Z s)))); [exact D|apply DI; lia|apply DI; lia]|].
    unfold q, nocore, opencv_project, opencv_dq_dnocore, opencv_dq_dp, dense_y, dq_dfxy_of. cbn [py core_of fy cy dqy vx vy vz].
    unfold ocv_x, ocv_y, ocv_z_recip. cbn [vx vy vz].
    change (opencv_k Nd (fun i => I i t)) with (fun i => k i t). set (K := fun i => k i t). cbv beta.
    set (u := X t * (1 / Z t)). set (v := Y t * (1 / Z t)). set (w := 1 / Z t).
    change (ocv_yd (opencv_k Nd (fun i => I i t)) u v) with (ocv_yd K u v).
    replace ((ocv_yd K u v * I 1%nat t + I 3%nat t - I 3%nat t) / I 1%nat t) with (ocv_yd K u v) by (field; auto).
    unfold ocv_dm. cbn [snd]. set (xd := ocv_yd K u v). set (cd := ocv_cdist K u v). set (ic := ocv_icdist2 K u v).
    clearbody xd cd ic K. unfold dk. destruct M as [-> | [-> | [-> | ->]]]; cbn [Nat.add tot ocv_dk app nth snd Nat.ltb Nat.leb]; ring.
Qed.
Print Assumptions C59_opencv_gradients.

(** scaling the point, also to behind the camera, does not move its projection *)
Theorem C59_opencv_scale : forall Nd intr p a, a <> 0 -> vz p <> 0 -> opencv_project Nd intr (vscale a p) = opencv_project Nd intr p.
Proof.
  intros Nd intr p a A Z. assert (ocv_x (vscale a p) = ocv_x p /\ ocv_y (vscale a p) = ocv_y p) as [EX EY].
  { unfold ocv_x, ocv_y, ocv_z_recip, vscale. cbn. split; field; auto. }
  unfold opencv_project. now rewrite EX, EY.
Qed.
Print Assumptions C59_opencv_scale.
(** with all distortion coefficients 0 it is the pinhole projection, for every one of these models *)
Theorem C59_opencv_pinhole : forall Nd intr p, (forall i, (4 <= i < 4 + Nd)%nat -> intr i = 0) -> vz p <> 0 ->
  opencv_project Nd intr p = project_pinhole (core_of intr) p.
Proof.
  intros Nd intr p H Z. assert (forall i, opencv_k Nd intr i = 0) as K.
  { intro i. unfold opencv_k. destruct (Nat.ltb_spec i Nd); [apply H; lia|reflexivity]. }
  unfold opencv_project, project_pinhole, ocv_xd, ocv_yd, ocv_cdist, ocv_icdist2. rewrite !K. unfold ocv_x, ocv_y, ocv_z_recip. f_equal; field; auto.
Qed.
Print Assumptions C59_opencv_pinhole.

Example ex_opencv : opencv_model 8 /\ ocv_defined 8 (fun i => if Nat.ltb i 4 then 1000 else 1 / 10) (V3 1 2 5).
Proof. split; [unfold opencv_model; auto|]. unfold ocv_defined, ocv_x, ocv_y, ocv_z_recip, ocv_r6, ocv_r4, ocv_r2, opencv_k. cbn. lra. Qed.

(** ** CAHVOR *)
Section CahvorPath.
  Variables (I : nat -> R -> R) (X Y Z : R -> R) (t : R) (dI : nat -> R) (dx dy dz : R).
  Let intr := fun i => I i t.
  Let p := V3 (X t) (Y t) (Z t).
  Let ps s := V3 (X s) (Y s) (Z s).
  Let is s := fun i => I i s.
  Hypothesis DI : forall i, (i < 9)%nat -> is_derive (I i) t (dI i).
  Hypotheses (DX : is_derive X t dx) (DY : is_derive Y t dy) (DZ : is_derive Z t dz).
  Hypothesis HO : ca_omega intr p <> 0.
  Let dp := V3 dx dy dz.

  Let d_o := vadd (vscale (dI 4%nat) (ca_do_dalpha intr)) (vscale (dI 5%nat) (ca_do_dbeta intr)).
  Lemma o_derive : forall i, (i < 3)%nat -> is_derive (fun s => vget (ca_o (is s)) i) t (vget d_o i).
  Proof.
    intros i Hi. destruct (dv _ _ _ (DI 4 ltac:(lia))) as [EA EA'], (dv _ _ _ (DI 5 ltac:(lia))) as [EB EB'].
    destruct i as [|[|[|i]]]; [| | |lia]; unfold ca_o, ca_al, ca_be, is, d_o, ca_do_dalpha, ca_do_dbeta; cbn [vget vadd vscale vx vy vz];
      (auto_derive; [auto|]); rewrite ?EA', ?EB'; unfold ca_al, ca_be, intr; ring.
  Qed.
  Lemma p_derive : forall i, (i < 3)%nat -> is_derive (fun s => vget (ps s) i) t (vget dp i).
  Proof. intros i Hi. destruct i as [|[|[|i]]]; [| | |lia]; assumption. Qed.
  Let dom := dot (ca_o intr) dp + ca_domega_dalpha intr p * dI 4%nat + ca_domega_dbeta intr p * dI 5%nat.
  Lemma omega_derive : is_derive (fun s => ca_omega (is s) (ps s)) t dom.
  Proof.
    unfold ca_omega.
    pose proof (o_derive 0 ltac:(lia)) as O0. pose proof (o_derive 1 ltac:(lia)) as O1. pose proof (o_derive 2 ltac:(lia)) as O2. cbn [vget] in O0, O1, O2.
    set (o0 := fun s => vx (ca_o (is s))) in *. set (o1 := fun s => vy (ca_o (is s))) in *. set (o2 := fun s => vz (ca_o (is s))) in *.
    apply is_derive_ext with (fun s => X s * o0 s + Y s * o1 s + Z s * o2 s); [reflexivity|].
    destruct (dv o0 t _ O0) as [E0 E0'], (dv o1 t _ O1) as [E1 E1'], (dv o2 t _ O2) as [E2 E2'].
    destruct (dv _ _ _ DX) as [EX EX'], (dv _ _ _ DY) as [EY EY'], (dv _ _ _ DZ) as [EZ EZ'].
    auto_derive; [repeat split; auto|]. rewrite E0', E1', E2', EX', EY', EZ'.
    unfold dom, d_o, ca_domega_dalpha, ca_domega_dbeta, dot, o0, o1, o2, is, intr, dp, p. cbn [vx vy vz vadd vscale]. ring.
  Qed.
  Let dtau := (2 * X t * dx + 2 * Y t * dy + 2 * Z t * dz) * ca_omega_recip intr p * ca_omega_recip intr p + ca_s_dtau intr p * dom.
  Lemma tau_derive : is_derive (fun s => ca_tau (is s) (ps s)) t dtau.
  Proof.
    unfold ca_tau, ca_omega_recip. set (om := fun s => ca_omega (is s) (ps s)).
    apply is_derive_ext with (fun s => (X s * X s + Y s * Y s + Z s * Z s) * (1 / om s) * (1 / om s) - 1); [reflexivity|].
    destruct (dv om t _ omega_derive) as [EO EO'].
    destruct (dv _ _ _ DX) as [EX EX'], (dv _ _ _ DY) as [EY EY'], (dv _ _ _ DZ) as [EZ EZ'].
    auto_derive; [repeat split; auto|]. rewrite EX', EY', EZ'. rewrite EO'.
    unfold dtau, ca_s_dtau, ca_omega_recip, ca_norm2p, p. cbn [vx vy vz]. change (om t) with (ca_omega intr p). fold p. set (w := ca_omega intr p) in *. field. exact HO.
  Qed.
  Let dmu := dI 6%nat + ca_tau intr p * dI 7%nat + ca_tau intr p * ca_tau intr p * dI 8%nat + ca_dmu_dtau intr p * dtau.
  Lemma mu_derive : is_derive (fun s => ca_mu (is s) (ps s)) t dmu.
  Proof.
    unfold ca_mu, ca_r0, ca_r1, ca_r2. set (ta := fun s => ca_tau (is s) (ps s)).
    apply is_derive_ext with (fun s => I 6%nat s + ta s * I 7%nat s + ta s * ta s * I 8%nat s); [reflexivity|].
    destruct (dv ta t _ tau_derive) as [ET ET'].
    destruct (dv _ _ _ (DI 6 ltac:(lia))) as [E6 E6'], (dv _ _ _ (DI 7 ltac:(lia))) as [E7 E7'], (dv _ _ _ (DI 8 ltac:(lia))) as [E8 E8'].
    auto_derive; [repeat split; auto|]. rewrite ET', E6', E7', E8'. unfold dmu, ca_dmu_dtau, ca_r1, ca_r2, ta, intr, is, p, ps. ring.
  Qed.
  Lemma distorted_derive : forall i, (i < 3)%nat -> is_derive (fun s => ca_distorted_i (is s) (ps s) i) t
    (ca_dpcam intr p i 0 * dx + ca_dpcam intr p i 1 * dy + ca_dpcam intr p i 2 * dz + tot 5 (fun m => ca_ddist intr p i m * dI (4 + m)%nat)).
  Proof.
    intros i Hi. unfold ca_distorted_i. pose proof (o_derive i Hi) as O. pose proof (p_derive i Hi) as P.
    set (oi := fun s => vget (ca_o (is s)) i) in *. set (pi := fun s => vget (ps s) i) in *.
    set (om := fun s => ca_omega (is s) (ps s)). set (mu := fun s => ca_mu (is s) (ps s)).
    apply is_derive_ext with (fun s => pi s + mu s * (pi s - om s * oi s)); [reflexivity|].
    destruct (dv oi t _ O) as [EO EO'], (dv pi t _ P) as [EP EP'], (dv om t _ omega_derive) as [EW EW'], (dv mu t _ mu_derive) as [EM EM'].
    auto_derive; [repeat split; auto|]. rewrite EO', EP', EW', EM'.
    cbn [tot Nat.add]. unfold ca_ddist, ca_dmu_ddist, ca_dpcam, ca_dmu_dxyz, ca_s_dmu.
    change (om t) with (ca_omega intr p). change (mu t) with (ca_mu intr p). change (oi t) with (vget (ca_o intr) i). change (pi t) with (vget p i).
    unfold dmu, dtau, dom, d_o.
    destruct i as [|[|[|i]]]; [| | |lia]; cbn [Nat.eqb vget vadd vscale vx vy vz dot]; unfold dot, dp, p; cbn [vx vy vz]; fold p;
      set (w := ca_omega intr p); set (wr := ca_omega_recip intr p); set (sd := ca_s_dtau intr p); set (mm := ca_mu intr p); set (dt := ca_dmu_dtau intr p);
      set (tt := ca_tau intr p); ring.
  Qed.
End CahvorPath.

Theorem C60_cahvor_gradients : forall intr p, ca_omega intr p <> 0 -> vz (ca_distorted intr p) <> 0 -> intr 0%nat <> 0 -> intr 1%nat <> 0 ->
  let q := cahvor_project intr p in
  let nocore := cahvor_dq_dnocore intr p in
  lens_gradient 9 (fun i v => px (cahvor_project i v)) intr p (dense_x (core_of intr) q nocore) (dqx (cahvor_dq_dp intr p)) /\
  lens_gradient 9 (fun i v => py (cahvor_project i v)) intr p (dense_y (core_of intr) q nocore) (dqy (cahvor_dq_dp intr p)).
Proof.
  intros intr p HO HZ F0 F1 q nocore.
  split; apply lens_grad_intro; intros I X Y Z t dI dx dy dz EI EP DI DX DY DZ; subst p; subst intr;
    pose proof (distorted_derive I X Y Z t dI dx dy dz DI DX DY DZ HO) as D;
    set (d := fun i s => ca_distorted_i (fun j => I j s) (V3 (X s) (Y s) (Z s)) i);
    pose proof (D 0%nat ltac:(lia)) as D0; pose proof (D 1%nat ltac:(lia)) as D1; pose proof (D 2%nat ltac:(lia)) as D2;
    change (is_derive (d 0%nat) t) with (is_derive (fun s => d 0%nat s) t) in *;
    pose proof (DI 0%nat ltac:(lia)) as DF0; pose proof (DI 1%nat ltac:(lia)) as DF1; pose proof (DI 2%nat ltac:(lia)) as DC2; pose proof (DI 3%nat ltac:(lia)) as DC3.
  - pose proof (ocv_x_derive (d 0%nat) (d 2%nat) t _ _ D0 D2 HZ) as DU.
    evar_last; [apply (affine_derive (fun s => d 0%nat s * (1 / d 2%nat s)) (I 0%nat) (I 2%nat)); [exact DU|exact DF0|exact DC2]|].
    unfold q, nocore, cahvor_project, cahvor_dq_dp, cahvor_dq_dnocore, dense_x, dq_dfxy_of. cbn [px core_of fx cx dqx vx vy vz ca_distorted].
    unfold ca_distorted in *. cbn [vx vy vz fst] in *.
    set (i := fun j => I j t) in *. set (p := V3 (X t) (Y t) (Z t)) in *.
    change (d 0%nat t) with (ca_distorted_i i p 0). change (d 2%nat t) with (ca_distorted_i i p 2).
    set (w := 1 / ca_distorted_i i p 2) in *. set (a := ca_distorted_i i p 0) in *.
    change (I 0%nat t) with (i 0%nat). cbn [tot Nat.add fst]. clearbody w a. field. assumption.
  - pose proof (ocv_x_derive (d 1%nat) (d 2%nat) t _ _ D1 D2 HZ) as DU.
    evar_last; [apply (affine_derive (fun s => d 1%nat s * (1 / d 2%nat s)) (I 1%nat) (I 3%nat)); [exact DU|exact DF1|exact DC3]|].
    unfold q, nocore, cahvor_project, cahvor_dq_dp, cahvor_dq_dnocore, dense_y, dq_dfxy_of. cbn [py core_of fy cy dqy vx vy vz ca_distorted].
    unfold ca_distorted in *. cbn [vx vy vz snd] in *.
    set (i := fun j => I j t) in *. set (p := V3 (X t) (Y t) (Z t)) in *.
    change (d 1%nat t) with (ca_distorted_i i p 1). change (d 2%nat t) with (ca_distorted_i i p 2).
    set (w := 1 / ca_distorted_i i p 2) in *. set (a := ca_distorted_i i p 1) in *.
    change (I 1%nat t) with (i 1%nat). cbn [tot Nat.add snd]. clearbody w a. field. assumption.
Qed.
Print Assumptions C60_cahvor_gradients.

Theorem C60_cahvor_scale : forall intr p a, a <> 0 -> ca_omega intr p <> 0 -> vz (ca_distorted intr p) <> 0 ->
  cahvor_project intr (vscale a p) = cahvor_project intr p.
Proof.
  intros intr p a A HO HZ.
  assert (ca_omega intr (vscale a p) = a * ca_omega intr p) as EO by (unfold ca_omega; cbn; ring).
  assert (ca_tau intr (vscale a p) = ca_tau intr p) as ET.
  { unfold ca_tau, ca_omega_recip. rewrite EO. unfold ca_norm2p. cbn. field. auto. }
  assert (ca_distorted intr (vscale a p) = vscale a (ca_distorted intr p)) as ED.
  { unfold ca_distorted, ca_distorted_i, ca_mu. rewrite ET, EO. apply v3_eq; cbn; ring. }
  unfold cahvor_project. rewrite ED. cbn [vscale vx vy vz]. f_equal; field; auto.
Qed.
Print Assumptions C60_cahvor_scale.
Theorem C60_cahvor_pinhole : forall intr p, (forall i, (4 <= i < 9)%nat -> intr i = 0) -> vz p <> 0 ->
  cahvor_project intr p = project_pinhole (core_of intr) p.
Proof.
  intros intr p H Z. unfold cahvor_project, project_pinhole, ca_distorted, ca_distorted_i, ca_mu, ca_r0, ca_r1, ca_r2. rewrite (H 6%nat), (H 7%nat), (H 8%nat) by lia.
  cbn [vx vy vz vget]. f_equal; field; auto.
Qed.
Print Assumptions C60_cahvor_pinhole.
Example ex_cahvor : let intr := fun i : nat => if Nat.ltb i 2 then 1000 else if Nat.eqb i 7 then 1 / 10 else 0 in
  ca_omega intr (V3 1 2 5) <> 0 /\ vz (ca_distorted intr (V3 1 2 5)) <> 0.
Proof.
  unfold ca_distorted, ca_distorted_i, ca_mu, ca_tau, ca_omega_recip, ca_norm2p, ca_omega, ca_o, ca_al, ca_be, ca_r0, ca_r1, ca_r2. cbn [vx vy vz vget Nat.ltb Nat.leb Nat.eqb]. rewrite sin_0, cos_0. split; lra.
Qed.
