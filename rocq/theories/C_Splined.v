(** C61: gradients and range of the splined lens model. *)
From Coq Require Import Reals ZArith Lra Psatz Lia Bool List.
From Coquelicot Require Import Coquelicot.
From Verif Require Import S_Vec S_Curve P_Trig M_Lens M_SplineIdx M_Spline P_Spline C_Spline M_Project C_Project C_ProjectGrad M_Splined.
Import ListNotations.
Open Scope R_scope.

(** a surface along a path of the sample position and of all control points *)
Lemma W_comp : forall F F' order N i (x : R -> R) t dx, (1 <= last_seg order N)%Z -> matches F (shift order) -> matches F' (shift order) ->
  (forall x j, is_derive (fun x => F x j) x (F' x j)) -> is_derive x t dx -> is_derive (fun s => W F order N i (x s)) t (W F' order N i (x t) * dx).
Proof.
  intros. evar_last; [apply (is_derive_comp (W F order N i) x); [now apply W_derive with (F' := F')|eassumption]|].
  unfold scal; simpl; unfold mult; simpl. ring.
Qed.
Lemma rsum_split3 : forall n a b c u v, rsum n (fun i => a i * u + b i * v + c i) = rsum n a * u + rsum n b * v + rsum n c.
Proof. induction n; intros; cbn; [ring|]. rewrite IHn. ring. Qed.
Lemma mult_derive : forall (f g : R -> R) (t df dg : R), is_derive f t df -> is_derive g t dg -> is_derive (fun s => f s * g s) t (df * g t + f t * dg).
Proof. intros f g t df dg F G. destruct (dv _ _ _ F) as [EF EF'], (dv _ _ _ G) as [EG EG']. auto_derive; [auto|]. rewrite EF', EG'. ring. Qed.

Lemma surface_path : forall cfg k (I : R -> Z -> R) (x y : R -> R) t dI dx dy, spline_legal cfg = true -> (k = 0 \/ k = 1)%Z ->
  (forall n, (4 <= n < 4 + 2 * sp_Nx cfg * sp_Ny cfg)%Z -> is_derive (fun s => I s n) t (dI n)) -> is_derive x t dx -> is_derive y t dy ->
  is_derive (fun s => surface cfg (I s) k (x s) (y s)) t
    (surface_dx cfg (I t) k (x t) (y t) * dx + surface_dy cfg (I t) k (x t) (y t) * dy + surface cfg dI k (x t) (y t)).
Proof.
  intros cfg k I x y t dI dx dy H K DI DX DY. destruct (legal_cases cfg H) as (O & Lx & Ly & Ex & Ey).
  set (o := sp_order cfg) in *. set (Nx := sp_Nx cfg) in *. set (Ny := sp_Ny cfg) in *.
  pose proof (coefs_match _ O) as M. pose proof (grad_match _ O) as M'. pose proof (coefs_derive _ O) as D.
  unfold surface, surface_dx, surface_dy. rewrite !surface_bigsum by auto using coefs_short, grad_short.
  apply is_derive_ext with (fun s => bigsum (coefs o) (coefs o) cfg (I s) k (x s) (y s)). { intro s. symmetry. apply surface_bigsum; auto using coefs_short. }
  unfold bigsum. fold o Nx Ny.
  assert (forall j, (j < Z.to_nat Ny)%nat -> is_derive (fun s => rsum (Z.to_nat Nx) (fun i => W (coefs o) o Nx (Z.of_nat i) (x s) * cpoint cfg (I s) k j i)) t
    (rsum (Z.to_nat Nx) (fun i => W (coefs_grad o) o Nx (Z.of_nat i) (x t) * cpoint cfg (I t) k j i) * dx + 
     rsum (Z.to_nat Nx) (fun i => W (coefs o) o Nx (Z.of_nat i) (x t) * cpoint cfg dI k j i))) as Inner.
  { intros j Hj. evar_last.
    - apply (rsum_derive _ (fun i s => W (coefs o) o Nx (Z.of_nat i) (x s) * cpoint cfg (I s) k j i)
        (fun i => (W (coefs_grad o) o Nx (Z.of_nat i) (x t) * dx) * cpoint cfg (I t) k j i + W (coefs o) o Nx (Z.of_nat i) (x t) * cpoint cfg dI k j i)).
      intros i Hi. apply (mult_derive (fun s => W (coefs o) o Nx (Z.of_nat i) (x s)) (fun s => cpoint cfg (I s) k j i)).
      + now apply W_comp.
      + unfold cpoint. fold Nx. apply DI. nia.
    - rewrite rsum_plus. f_equal. rewrite Rmult_comm, <- rsum_scal. apply rsum_ext. intros. ring. }
  evar_last.
  - apply (rsum_derive _ (fun j s => W (coefs o) o Ny (Z.of_nat j) (y s) * rsum (Z.to_nat Nx) (fun i => W (coefs o) o Nx (Z.of_nat i) (x s) * cpoint cfg (I s) k j i))
      (fun j => (W (coefs_grad o) o Ny (Z.of_nat j) (y t) * dy) * rsum (Z.to_nat Nx) (fun i => W (coefs o) o Nx (Z.of_nat i) (x t) * cpoint cfg (I t) k j i) +
        W (coefs o) o Ny (Z.of_nat j) (y t) * (rsum (Z.to_nat Nx) (fun i => W (coefs_grad o) o Nx (Z.of_nat i) (x t) * cpoint cfg (I t) k j i) * dx + 
          rsum (Z.to_nat Nx) (fun i => W (coefs o) o Nx (Z.of_nat i) (x t) * cpoint cfg dI k j i)))).
    intros j Hj. apply (mult_derive (fun s => W (coefs o) o Ny (Z.of_nat j) (y s)) (fun s => rsum (Z.to_nat Nx) (fun i => W (coefs o) o Nx (Z.of_nat i) (x s) * cpoint cfg (I s) k j i))).
    + now apply W_comp.
    + now apply Inner.
  - rewrite <- rsum_split3. apply rsum_ext. intros. ring.
Qed.

(** the sum over the written entries, weighted by how fast each intrinsic moves *)
Fixpoint weighted (l : list (Z * R)) (d : Z -> R) : R := match l with [] => 0 | (n, a) :: r => a * d n + weighted r d end.
Lemma entries_surface : forall cfg intr p dI k, spline_legal cfg = true -> (2 * sp_Nx cfg < 65536)%Z -> 
  weighted (splined_entries cfg intr p k) dI = intr k * surface cfg dI k (sp_ix cfg p) (sp_iy cfg p).
Proof.
  intros cfg intr p dI k H B. destruct (legal_cases cfg H) as (O & Lx & Ly & Ex & Ey).
  unfold splined_entries, ivar_stridey. rewrite Z.mod_small by lia. unfold surface, surface_with, interp.
  set (b := ivar0_at cfg (sp_ix cfg p) (sp_iy cfg p)). set (wx := coefs (sp_order cfg) _). set (wy := coefs (sp_order cfg) (sp_iy cfg p - _)). set (st := (2 * sp_Nx cfg)%Z).
  clearbody b st. assert (forall j i, (b + st * Z.of_nat j + Z.of_nat i * 2 + k)%Z = (b + Z.of_nat j * st + Z.of_nat i * 2 + k)%Z) as E by (intros; ring).
  destruct O as [-> | ->]; [change (Z.to_nat (2 + 1)) with 3%nat; change (2 =? 3)%Z with false|change (Z.to_nat (3 + 1)) with 4%nat; change (3 =? 3)%Z with true]; cbv iota;
    unfold interp_cubic, interp_quad; cbn [seq flat_map map app weighted]; rewrite !E; cbn [Z.of_nat Pos.of_succ_nat Pos.succ]; ring.
Qed.

Definition splined_ok (cfg : spline_cfg) : Prop := spline_legal cfg = true /\ (2 * sp_Nx cfg < 65536)%Z.
Theorem C61_splined_gradients : forall cfg (I : R -> Z -> R) (P : R -> v3) t dI dP, splined_ok cfg -> norm (P t) + vz (P t) <> 0 ->
  (forall n, (0 <= n < 4 + 2 * sp_Nx cfg * sp_Ny cfg)%Z -> is_derive (fun s => I s n) t (dI n)) -> moves3 P t dP ->
  is_derive (fun s => px (splined_project cfg (I s) (P s))) t
    (px (splined_dq_dfxy cfg (I t) (P t)) * dI 0%Z + 1 * dI 2%Z + weighted (splined_entries cfg (I t) (P t) 0) dI + dot (dqx (splined_dq_dp cfg (I t) (P t))) dP) /\
  is_derive (fun s => py (splined_project cfg (I s) (P s))) t
    (py (splined_dq_dfxy cfg (I t) (P t)) * dI 1%Z + 1 * dI 3%Z + weighted (splined_entries cfg (I t) (P t) 1) dI + dot (dqy (splined_dq_dp cfg (I t) (P t))) dP).
Proof.
  intros cfg I P t dI dP [H B] N DI DP. destruct (legal_cases cfg H) as (O & Lx & Ly & Ex & Ey).
  pose proof (C31_project_stereographic (Core 1 1 0 0) (P t) N) as [GX GY]. specialize (GX P t dP eq_refl DP). specialize (GY P t dP eq_refl DP).
  assert (is_derive (fun s => sp_ux (P s)) t (dot (sp_dux_dp (P t)) dP)) as DU.
  { eapply is_derive_ext; [|evar_last; [exact GX|]].
    - intro s. unfold project_stereographic, sp_ux, sp_scale, sp_mag. cbn [px fx cx]. rewrite Rmult_1_r. apply Rplus_0_r.
    - unfold project_stereographic_J, sp_dux_dp, dot, sp_B, sp_A, sp_scale, sp_mag. cbn [dqx vx vy vz fx]. ring. }
  assert (is_derive (fun s => sp_uy (P s)) t (dot (sp_duy_dp (P t)) dP)) as DV.
  { eapply is_derive_ext; [|evar_last; [exact GY|]].
    - intro s. unfold project_stereographic, sp_uy, sp_scale, sp_mag. cbn [py fy cy]. rewrite Rmult_1_r. apply Rplus_0_r.
    - unfold project_stereographic_J, sp_duy_dp, dot, sp_B, sp_A, sp_scale, sp_mag. cbn [dqy vx vy vz fy]. ring. }
  clear GX GY. set (ux := fun s => sp_ux (P s)) in *. set (uy := fun s => sp_uy (P s)) in *.
  assert (forall (u : R -> R) d N, is_derive u t d -> is_derive (fun s => u s * segments_per_u cfg + IZR (N - 1) / 2) t (d * segments_per_u cfg)) as DS.
  { intros u d n U. destruct (dv _ _ _ U) as [EU EU']. auto_derive; [auto|]. rewrite EU'. ring. }
  pose proof (DS _ _ (sp_Nx cfg) DU) as DIX. pose proof (DS _ _ (sp_Ny cfg) DV) as DIY.
  assert (forall k, (k = 0 \/ k = 1)%Z -> is_derive (fun s => sp_deltau cfg (I s) (P s) k) t
    (sp_ddeltau_dux cfg (I t) (P t) k * dot (sp_dux_dp (P t)) dP + sp_ddeltau_duy cfg (I t) (P t) k * dot (sp_duy_dp (P t)) dP + surface cfg dI k (sp_ix cfg (P t)) (sp_iy cfg (P t)))) as DD.
  { intros k K. evar_last; [apply (surface_path cfg k I (fun s => sp_ix cfg (P s)) (fun s => sp_iy cfg (P s)) t dI (dot (sp_dux_dp (P t)) dP * segments_per_u cfg) (dot (sp_duy_dp (P t)) dP * segments_per_u cfg) H K); [|exact DIX|exact DIY]|].
    - intros n Hn. apply DI. lia.
    - unfold sp_ddeltau_dux, sp_ddeltau_duy. ring. }
  assert (forall (u d f c : R -> R) (du dd df dc : R), is_derive u t du -> is_derive d t dd -> is_derive f t df -> is_derive c t dc ->
    is_derive (fun s => (u s + d s) * f s + c s) t ((du + dd) * f t + (u t + d t) * df + dc)) as Comb.
  { intros u d f c du dd df dc U D F C. destruct (dv _ _ _ U) as [EU EU'], (dv _ _ _ D) as [ED ED'], (dv _ _ _ F) as [EF EF'], (dv _ _ _ C) as [EC EC'].
    auto_derive; [auto|]. rewrite EU', ED', EF', EC'. ring. }
  assert (0 < 2 * sp_Nx cfg * sp_Ny cfg)%Z as Pos by (assert (1 <= sp_Nx cfg /\ 1 <= sp_Ny cfg)%Z as [? ?] by lia; nia).
  rewrite !entries_surface by auto.
  split.
  - evar_last; [apply (Comb ux (fun s => sp_deltau cfg (I s) (P s) 0) (fun s => I s 0%Z) (fun s => I s 2%Z)); [exact DU|apply DD; auto|apply DI; lia|apply DI; lia]|].
    unfold splined_dq_dfxy, splined_dq_dp, dot. cbn [px dqx vx vy vz vget]. unfold ux. ring.
  - evar_last; [apply (Comb uy (fun s => sp_deltau cfg (I s) (P s) 1) (fun s => I s 1%Z) (fun s => I s 3%Z)); [exact DV|apply DD; auto|apply DI; lia|apply DI; lia]|].
    unfold splined_dq_dfxy, splined_dq_dp, dot. cbn [py dqy vx vy vz vget]. unfold uy. ring.
Qed.
Print Assumptions C61_splined_gradients.

(** the gradient with respect to any parameters e of the point is the gradient with respect to the point times dp/de *)
Theorem C61_splined_chain : forall cfg intr p D,
  dqx (splined_dq_deee cfg intr p D) = mv (mT D) (dqx (splined_dq_dp cfg intr p)) /\ dqy (splined_dq_deee cfg intr p D) = mv (mT D) (dqy (splined_dq_dp cfg intr p)).
Proof.
  intros. unfold splined_dq_deee, splined_dq_dp, sp_du_deee. cbn [dqx dqy vget]. split; apply v3_eq; cbn [mv mT vx vy vz m00 m01 m02 m10 m11 m12 m20 m21 m22]; ring.
Qed.
Print Assumptions C61_splined_chain.

(** with all control points 0, it is the stereographic projection *)
Theorem C61_splined_stereographic : forall cfg intr p, spline_legal cfg = true -> (forall n, (4 <= n)%Z -> intr n = 0) ->
  splined_project cfg intr p = project_stereographic (Core (intr 0%Z) (intr 1%Z) (intr 2%Z) (intr 3%Z)) p.
Proof.
  intros cfg intr p H Z. destruct (legal_cases cfg H) as (O & Lx & Ly & Ex & Ey).
  assert (forall k, (k = 0 \/ k = 1)%Z -> sp_deltau cfg intr p k = 0) as E.
  { intros k K. apply (C13_constant cfg intr k 0 H). intros j i J I. apply Z. unfold control_index. nia. }
  unfold splined_project. rewrite !E by auto. unfold project_stereographic, sp_ux, sp_uy, sp_scale, sp_mag. cbn [fx fy cx cy]. f_equal; ring.
Qed.
Print Assumptions C61_splined_stereographic.

(** the projection depends only on the direction of the point *)
Theorem C61_splined_scale : forall cfg intr p a, 0 < a -> norm p + vz p <> 0 -> splined_project cfg intr (vscale a p) = splined_project cfg intr p.
Proof.
  intros cfg intr p a A N. assert (sp_mag (vscale a p) = a * sp_mag p) as M.
  { unfold sp_mag. cbn [vscale vx vy vz]. replace (a * vx p * (a * vx p) + a * vy p * (a * vy p) + a * vz p * (a * vz p)) with ((a * a) * (vx p * vx p + vy p * vy p + vz p * vz p)) by ring.
    rewrite sqrt_mult, sqrt_square; [reflexivity|lra|nra|nra]. }
  assert (sp_mag p + vz p <> 0) as N' by exact N.
  assert (sp_ux (vscale a p) = sp_ux p) as EX. { unfold sp_ux, sp_scale. rewrite M. cbn [vscale vx vy vz]. field. split; [exact N'|]. intro E. apply N'. nra. }
  assert (sp_uy (vscale a p) = sp_uy p) as EY. { unfold sp_uy, sp_scale. rewrite M. cbn [vscale vx vy vz]. field. split; [exact N'|]. intro E. apply N'. nra. }
  unfold splined_project, sp_deltau, sp_ix, sp_iy. now rewrite EX, EY.
Qed.
Print Assumptions C61_splined_scale.

(** the knots reported to the user are where the sample position is a whole number *)
Theorem C61_knots : forall cfg N i, segments_per_u cfg <> 0 -> knot cfg N i * segments_per_u cfg + IZR (N - 1) / 2 = IZR i.
Proof. intros cfg N i H. unfold knot. field. exact H. Qed.
Print Assumptions C61_knots.
(** the horizontal field of view is covered: every direction inside it samples the supported range (half-open, as in_bounds is) *)
Theorem C61_fov : forall cfg s, spline_legal cfg = true -> (0 < sp_fov cfg < 360)%Z -> -1 <= s < 1 ->
  let u_edge := 2 * tan (IZR (sp_fov cfg) * PI / 180 / 4) in
  in_bounds (sp_order cfg) (sp_Nx cfg) (s * u_edge * segments_per_u cfg + IZR (sp_Nx cfg - 1) / 2).
Proof.
  intros cfg s H F S u. destruct (legal_cases cfg H) as (O & Lx & _ & Ex & _).
  assert (0 < tan (IZR (sp_fov cfg) * PI / 180 / 4)) as T.
  { apply tan_gt_0; pose proof PI_RGT_0; assert (0 < IZR (sp_fov cfg) < 360) as [F1 F2] by (split; apply IZR_lt; lia); nra. }
  assert (u * segments_per_u cfg = IZR (sp_Nx cfg - 1 - (if (sp_order cfg =? 2)%Z then 1 else 2)) / 2) as E.
  { unfold segments_per_u, u. replace (IZR (sp_fov cfg) / 2 * PI / 180 / 2) with (IZR (sp_fov cfg) * PI / 180 / 4) by field.
    set (w := tan _) in *. field. lra. }
  replace (s * u * segments_per_u cfg) with (s * (u * segments_per_u cfg)) by ring. rewrite E.
  unfold in_bounds. destruct O as [Q|Q]; rewrite Q in *; unfold last_seg, shift in *; cbn [Z.eqb Pos.eqb] in *; rewrite !minus_IZR; cbn [Z.eqb Pos.eqb] in *;
    assert (3 <= IZR (sp_Nx cfg)) as L by (apply IZR_le; lia); try assert (4 <= IZR (sp_Nx cfg)) as L' by (apply IZR_le; lia); nra.
Qed.
Print Assumptions C61_fov.

(** the hypotheses are met by the model used throughout the mrcal documentation *)
Definition ex_cfg : spline_cfg := {| sp_order := 3; sp_Nx := 30; sp_Ny := 18; sp_fov := 150 |}.
Example ex_splined : splined_ok ex_cfg /\ norm (V3 1 2 3) + vz (V3 1 2 3) <> 0 /\ segments_per_u ex_cfg <> 0 /\
  length (splined_entries ex_cfg (fun _ => 1) (V3 1 2 3) 0) = 16%nat.
Proof.
  split; [|split; [|split]].
  - split; reflexivity.
  - pose proof (norm_nonneg (V3 1 2 3)). cbn [vz]. lra.
  - unfold segments_per_u, ex_cfg. cbn [sp_order sp_Nx sp_fov Z.eqb Pos.eqb]. pose proof PI_RGT_0.
    assert (0 < tan (150 / 2 * PI / 180 / 2)) by (apply tan_gt_0; lra). apply Rmult_integral_contrapositive_currified; [apply not_0_IZR; discriminate|]. apply Rinv_neq_0_compat. lra.
  - reflexivity.
Qed.
