(** C13: spline surfaces are smooth, local and reproduce constants. *)
From Coq Require Import Reals ZArith Lia Lra List Bool.
From Coquelicot Require Import Coquelicot.
From Verif Require Import M_Lens M_SplineIdx M_Spline S_BSpline P_Spline.
Open Scope R_scope.

(** the control points of surface k: intrinsics[4 + 2*(j*Nx + i) + k] *)
Definition control_index (cfg : spline_cfg) (k j i : Z) : Z := (4 + 2 * (j * sp_Nx cfg + i) + k)%Z.

(** The weights sum to 1, the gradient weights to 0 ... *)
Theorem C13_partition_of_unity : forall x,
  coefs 3 x 0 + coefs 3 x 1 + coefs 3 x 2 + coefs 3 x 3 = 1 /\ coefs 2 x 0 + coefs 2 x 1 + coefs 2 x 2 = 1.
Proof. intro x. unfold coefs, cubic_ABCD, quad_ABC. cbn. split; field. Qed.
Print Assumptions C13_partition_of_unity.

(** ... so constant control points give that constant everywhere (also when extrapolating) *)
Theorem C13_constant : forall cfg intr k a, spline_legal cfg = true ->
  (forall j i, (0 <= j < sp_Ny cfg)%Z -> (0 <= i < sp_Nx cfg)%Z -> intr (control_index cfg k j i) = a) ->
  forall ix iy, surface cfg intr k ix iy = a /\ surface_dx cfg intr k ix iy = 0 /\ surface_dy cfg intr k ix iy = 0.
Proof.
  intros cfg intr k a H C ix iy. destruct (legal_cases cfg H) as (O & Lx & Ly & Ex & Ey).
  destruct (seg_spec (sp_order cfg) (sp_Nx cfg) ix Lx) as (Ax & _ & _). destruct (seg_spec (sp_order cfg) (sp_Ny cfg) iy Ly) as (Ay & _ & _).
  unfold surface, surface_dx, surface_dy, surface_with, interp, ivar0_at.
  set (kx := seg (sp_order cfg) (sp_Nx cfg) ix) in *. set (ky := seg (sp_order cfg) (sp_Ny cfg) iy) in *.
  assert (forall jy jx, (0 <= jy <= sp_order cfg)%Z -> (0 <= jx <= sp_order cfg)%Z ->
    intr (4 + 2 * ((ky - 1) * sp_Nx cfg + (kx - 1)) + jy * (2 * sp_Nx cfg) + jx * 2 + k)%Z = a) as I.
  { intros jy jx ? ?. rewrite <- (C (ky - 1 + jy) (kx - 1 + jx))%Z by lia. unfold control_index. f_equal. ring. }
  destruct O as [O|O]; rewrite O in *; unfold interp_cubic, interp_quad, coefs, coefs_grad, cubic_ABCD, quad_ABC, cubic_ABCDgrad, quad_ABCgrad;
    [change (2 =? 3)%Z with false|change (3 =? 3)%Z with true]; cbv iota beta zeta; rewrite !I by lia; repeat split; field.
Qed.
Print Assumptions C13_constant.

(** The reported position gradients are the true derivatives, everywhere: inside the cells, on the cell
    boundaries, and out of bounds *)
Theorem C13_gradients : forall cfg intr k, spline_legal cfg = true -> forall ix iy,
  is_derive (fun s => surface cfg intr k s iy) ix (surface_dx cfg intr k ix iy) /\
  is_derive (fun s => surface cfg intr k ix s) iy (surface_dy cfg intr k ix iy).
Proof.
  intros cfg intr k H ix iy. destruct (legal_cases cfg H) as (O & Lx & Ly & Ex & Ey). unfold surface, surface_dx, surface_dy. split.
  - rewrite surface_bigsum by auto using coefs_short, grad_short.
    apply is_derive_ext with (fun s => bigsum (coefs (sp_order cfg)) (coefs (sp_order cfg)) cfg intr k s iy).
    { intro t. symmetry. apply surface_bigsum; auto using coefs_short. }
    apply bigsum_dx; auto using coefs_match, grad_match, coefs_derive.
  - rewrite surface_bigsum by auto using coefs_short, grad_short.
    apply is_derive_ext with (fun s => bigsum (coefs (sp_order cfg)) (coefs (sp_order cfg)) cfg intr k ix s).
    { intro t. symmetry. apply surface_bigsum; auto using coefs_short. }
    apply bigsum_dy; auto using coefs_match, grad_match, coefs_derive.
Qed.
Print Assumptions C13_gradients.

(** Nothing jumps at a cell boundary: the surface and its first derivatives are continuous (both orders) *)
Lemma surface_cont : forall cfg X Y intr k ix iy, spline_legal cfg = true -> short (sp_order cfg) X -> short (sp_order cfg) Y ->
  matches X (shift (sp_order cfg)) -> matches Y (shift (sp_order cfg)) ->
  (forall x j, continuity_pt (fun x => X x j) x) -> (forall x j, continuity_pt (fun x => Y x j) x) ->
  continuity_2d_pt (surface_with X Y cfg intr k) ix iy.
Proof.
  intros cfg X Y intr k ix iy H SX SY MX MY CX CY. destruct (legal_cases cfg H) as (O & Lx & Ly & Ex & Ey).
  apply continuity_2d_pt_ext with (bigsum X Y cfg intr k). { intros a b. symmetry. now apply surface_bigsum. }
  now apply bigsum_cont.
Qed.
Lemma coefs_continuous : forall order, order = 2%Z \/ order = 3%Z -> forall x j, continuity_pt (fun x => coefs order x j) x.
Proof. intros order O x j. eapply derive_continuity, coefs_derive, O. Qed.
Theorem C13_C1 : forall cfg intr k, spline_legal cfg = true -> forall ix iy,
  continuity_2d_pt (surface cfg intr k) ix iy /\ continuity_2d_pt (surface_dx cfg intr k) ix iy /\ continuity_2d_pt (surface_dy cfg intr k) ix iy.
Proof.
  intros cfg intr k H ix iy. destruct (legal_cases cfg H) as (O & _). unfold surface, surface_dx, surface_dy.
  repeat split; apply surface_cont; auto using coefs_short, grad_short, coefs_match, grad_match, coefs_continuous, grad_continuous.
Qed.
Print Assumptions C13_C1.

(** cubic: twice continuously differentiable *)
Theorem C13_cubic_C2 : forall cfg intr k, spline_legal cfg = true -> sp_order cfg = 3%Z ->
  exists fxx fxy fyy : R -> R -> R, forall ix iy,
    is_derive (fun s => surface_dx cfg intr k s iy) ix (fxx ix iy) /\ is_derive (fun s => surface_dx cfg intr k ix s) iy (fxy ix iy) /\
    is_derive (fun s => surface_dy cfg intr k s iy) ix (fxy ix iy) /\ is_derive (fun s => surface_dy cfg intr k ix s) iy (fyy ix iy) /\
    continuity_2d_pt fxx ix iy /\ continuity_2d_pt fxy ix iy /\ continuity_2d_pt fyy ix iy.
Proof.
  intros cfg intr k H O3. destruct (legal_cases cfg H) as (O & Lx & Ly & Ex & Ey).
  pose proof (coefs_short _ O) as S0. pose proof (grad_short _ O) as S1. pose proof (coefs_match _ O) as M0. pose proof (grad_match _ O) as M1.
  pose proof (coefs_derive _ O) as D0. pose proof (coefs_continuous _ O) as K0. pose proof (grad_continuous _ O) as K1.
  assert (forall x j, is_derive (fun x => coefs_grad (sp_order cfg) x j) x (cubic2 x j)) as D1 by (rewrite O3; apply cubic2_derive).
  assert (short (sp_order cfg) cubic2) as S2 by (rewrite O3; apply cubic2_short).
  assert (matches cubic2 (shift (sp_order cfg))) as M2 by (rewrite O3; apply cubic2_match).
  pose proof cubic2_continuous as K2.
  exists (bigsum cubic2 (coefs (sp_order cfg)) cfg intr k), (bigsum (coefs_grad (sp_order cfg)) (coefs_grad (sp_order cfg)) cfg intr k),
    (bigsum (coefs (sp_order cfg)) cubic2 cfg intr k).
  intros ix iy. unfold surface_dx, surface_dy.
  split; [|split; [|split; [|split; [|split; [|split]]]]]; try (now apply bigsum_cont).
  - apply is_derive_ext with (fun s => bigsum (coefs_grad (sp_order cfg)) (coefs (sp_order cfg)) cfg intr k s iy);
      [intro t; symmetry; now apply surface_bigsum|now apply bigsum_dx].
  - apply is_derive_ext with (fun s => bigsum (coefs_grad (sp_order cfg)) (coefs (sp_order cfg)) cfg intr k ix s);
      [intro t; symmetry; now apply surface_bigsum|now apply bigsum_dy].
  - apply is_derive_ext with (fun s => bigsum (coefs (sp_order cfg)) (coefs_grad (sp_order cfg)) cfg intr k s iy);
      [intro t; symmetry; now apply surface_bigsum|now apply bigsum_dx].
  - apply is_derive_ext with (fun s => bigsum (coefs (sp_order cfg)) (coefs_grad (sp_order cfg)) cfg intr k ix s);
      [intro t; symmetry; now apply surface_bigsum|now apply bigsum_dy].
Qed.
Print Assumptions C13_cubic_C2.

(** The control-point gradient: the derivative of the surface with respect to the control point at row iy0-1+jy,
    column ix0-1+jx of the active patch is ABCDx[jx]*ABCDy[jy] *)
Definition set_at (intr : Z -> R) (n : Z) (a : R) : Z -> R := fun m => if (m =? n)%Z then a else intr m.
Lemma derive_ext_sym : forall (g f : R -> R) t d, (forall s, g s = f s) -> is_derive f t d -> is_derive g t d.
Proof. intros g f t d E. apply is_derive_ext. intro s. now rewrite E. Qed.
Theorem C13_control_gradients : forall cfg intr k ix iy jx jy, spline_legal cfg = true -> (k = 0 \/ k = 1)%Z ->
  (Z.of_nat jx <= sp_order cfg)%Z -> (Z.of_nat jy <= sp_order cfg)%Z ->
  let x0 := seg (sp_order cfg) (sp_Nx cfg) ix in let y0 := seg (sp_order cfg) (sp_Ny cfg) iy in
  let n := control_index cfg k (y0 - 1 + Z.of_nat jy) (x0 - 1 + Z.of_nat jx) in
  is_derive (fun a => surface cfg (set_at intr n a) k ix iy) (intr n) (coefs (sp_order cfg) (ix - IZR x0) jx * coefs (sp_order cfg) (iy - IZR y0) jy).
Proof.
  intros cfg intr k ix iy jx jy H K Jx Jy x0 y0 n. destruct (legal_cases cfg H) as (O & Lx & Ly & Ex & Ey).
  destruct (seg_spec (sp_order cfg) (sp_Nx cfg) ix Lx) as (Ax & _ & _). destruct (seg_spec (sp_order cfg) (sp_Ny cfg) iy Ly) as (Ay & _ & _).
  fold x0 in Ax. fold y0 in Ay. unfold surface, surface_with, interp, ivar0_at. fold x0 y0.
  assert (forall a a' b, (0 <= a <= sp_order cfg)%Z -> (0 <= b <= sp_order cfg)%Z -> 
    set_at intr n a' (4 + 2 * ((y0 - 1) * sp_Nx cfg + (x0 - 1)) + a * (2 * sp_Nx cfg) + b * 2 + k)%Z =
    if ((a =? Z.of_nat jy) && (b =? Z.of_nat jx))%Z%bool then a' else intr (4 + 2 * ((y0 - 1) * sp_Nx cfg + (x0 - 1)) + a * (2 * sp_Nx cfg) + b * 2 + k)%Z) as I.
  { intros a a' b ? ?. unfold set_at.
    match goal with |- (if ?c then _ else _) = (if ?d then _ else _) => replace c with d; [reflexivity|] end.
    apply Bool.eq_iff_eq_true. rewrite andb_true_iff, !Z.eqb_eq. unfold n, control_index. split; [intros [-> ->]; ring|].
    intro E. apply Z.sub_move_0_r in E. match type of E with ?l = _ => replace l with (2 * (sp_Nx cfg * (a - Z.of_nat jy) + (b - Z.of_nat jx)))%Z in E by ring end.
    assert (sp_Nx cfg * (a - Z.of_nat jy) = Z.of_nat jx - b)%Z as E' by lia.
    assert (a = Z.of_nat jy); [|nia]. assert (- sp_Nx cfg < Z.of_nat jx - b < sp_Nx cfg)%Z by lia. nia. }
  set (wx := coefs (sp_order cfg) (ix - IZR x0)). set (wy := coefs (sp_order cfg) (iy - IZR y0)).
  destruct O as [O|O]; rewrite O in *; unfold interp_cubic, interp_quad; [change (2 =? 3)%Z with false|change (3 =? 3)%Z with true]; cbv iota beta zeta.
  - assert (jx = 0 \/ jx = 1 \/ jx = 2)%nat as Cx by lia. assert (jy = 0 \/ jy = 1 \/ jy = 2)%nat as Cy by lia. clearbody n. clear Jx Jy.
    destruct Cx as [-> | [-> | ->]]; destruct Cy as [-> | [-> | ->]];
      (eapply derive_ext_sym; [intro t; do 9 rewrite I by lia; cbn [Z.eqb Z.of_nat Pos.of_succ_nat Pos.succ Pos.eqb andb]; reflexivity|]; auto_derive; [exact Logic.I|ring]).
  - assert (jx = 0 \/ jx = 1 \/ jx = 2 \/ jx = 3)%nat as Cx by lia. assert (jy = 0 \/ jy = 1 \/ jy = 2 \/ jy = 3)%nat as Cy by lia. clearbody n. clear Jx Jy.
    destruct Cx as [-> | [-> | [-> | ->]]]; destruct Cy as [-> | [-> | [-> | ->]]];
      (eapply derive_ext_sym; [intro t; do 16 rewrite I by lia; cbn [Z.eqb Z.of_nat Pos.of_succ_nat Pos.succ Pos.eqb andb]; reflexivity|]; auto_derive; [exact Logic.I|ring]).
Qed.
Print Assumptions C13_control_gradients.

(** ** The surface is the tensor-product B-spline surface (in bounds) *)
Lemma bspline_support : forall n t, t < 0 \/ INR n + 1 <= t -> bspline n t = 0.
Proof.
  induction n as [|n IH]; intros t H.
  - cbn in *. destruct (Rle_dec 0 t); [|reflexivity]. destruct (Rlt_dec t 1); [lra|reflexivity].
  - rewrite S_INR in H. cbn [bspline]. rewrite S_INR. pose proof (pos_INR n). destruct H as [H|H].
    + rewrite (IH t), (IH (t - 1)) by lra. ring.
    + rewrite (IH t) by lra. destruct (Req_dec (t - 1) (INR n + 1)) as [E|E].
      * rewrite (IH (t - 1)) by lra. ring.
      * rewrite (IH (t - 1)) by lra. ring.
Qed.
Lemma bspline3_cell : forall x j, 0 <= x < 1 -> (j <= 3)%nat -> bspline 3 (x + 3 - INR j) = coefs 3 x j.
Proof.
  intros x j X J. assert (j = 0 \/ j = 1 \/ j = 2 \/ j = 3)%nat as C by lia.
  destruct C as [-> | [-> | [-> | ->]]]; cbn [bspline INR]; unfold coefs, cubic_ABCD; cbn [Z.eqb Pos.eqb];
    repeat match goal with
           | |- context [Rle_dec ?a ?b] => destruct (Rle_dec a b); [|try (exfalso; lra)]; try (exfalso; lra)
           | |- context [Rlt_dec ?a ?b] => destruct (Rlt_dec a b); [|try (exfalso; lra)]; try (exfalso; lra)
           end; field.
Qed.
Lemma bspline2_cell : forall x j, - (1 / 2) <= x < 1 / 2 -> (j <= 2)%nat -> bspline 2 (x + 5 / 2 - INR j) = coefs 2 x j.
Proof.
  intros x j X J. assert (j = 0 \/ j = 1 \/ j = 2)%nat as C by lia.
  destruct C as [-> | [-> | ->]]; cbn [bspline INR]; unfold coefs, quad_ABC; cbn [Z.eqb Pos.eqb];
    repeat match goal with
           | |- context [Rle_dec ?a ?b] => destruct (Rle_dec a b); [|try (exfalso; lra)]; try (exfalso; lra)
           | |- context [Rlt_dec ?a ?b] => destruct (Rlt_dec a b); [|try (exfalso; lra)]; try (exfalso; lra)
           end; field.
Qed.
(** the sample lies between the outermost cells *)
Definition in_bounds (order N : Z) (t : R) : Prop :=
  if (order =? 3)%Z then 1 <= t < IZR N - 2 else 1 / 2 <= t < IZR N - 3 / 2.
Lemma W_bspline : forall order N t i, (order = 2 \/ order = 3)%Z -> (1 <= last_seg order N)%Z -> in_bounds order N t ->
  W (coefs order) order N (Z.of_nat i) t = bspline (Z.to_nat order) (t - INR i + (IZR order + 1) / 2).
Proof.
  intros order N t i O L B. destruct (seg_spec order N t L) as (A & P & Q). unfold W, piece. set (k := seg order N t) in *.
  assert (IZR k <= t + shift order < IZR k + 1) as K.
  { split.
    - destruct (Z.ltb_spec 1 k); [auto|]. replace k with 1%Z by lia. destruct O as [-> | ->]; unfold in_bounds, shift in *; cbn in *; lra.
    - destruct (Z.ltb_spec k (last_seg order N)); [auto|]. replace k with (last_seg order N) by lia.
      destruct O as [-> | ->]; unfold in_bounds, shift, last_seg in *; cbn in *; rewrite minus_IZR; lra. }
  clearbody k. clear P Q B. rewrite INR_IZR_INZ. destruct (Z.leb_spec (k - 1) (Z.of_nat i)) as [I|I].
  - set (j := Z.to_nat (Z.of_nat i - (k - 1))). assert (Z.of_nat i = k - 1 + Z.of_nat j)%Z as E by lia. rewrite E, plus_IZR, minus_IZR.
    destruct O as [-> | ->]; unfold shift in K; cbn in K.
    + change (Z.to_nat 2) with 2%nat. destruct (le_lt_dec j 2) as [J|J].
      * rewrite <- bspline2_cell by (lra || lia). f_equal. rewrite INR_IZR_INZ. lra.
      * rewrite bspline_support. { rewrite (coefs_short 2); [reflexivity|auto|lia]. }
        left. assert (3 <= IZR (Z.of_nat j)) by (apply IZR_le; lia). lra.
    + change (Z.to_nat 3) with 3%nat. destruct (le_lt_dec j 3) as [J|J].
      * rewrite <- bspline3_cell by (lra || lia). f_equal. rewrite INR_IZR_INZ. lra.
      * rewrite bspline_support. { rewrite (coefs_short 3); [reflexivity|auto|lia]. }
        left. assert (4 <= IZR (Z.of_nat j)) by (apply IZR_le; lia). lra.
  - symmetry. apply bspline_support. right. assert (IZR (Z.of_nat i) <= IZR k - 2) by (rewrite <- minus_IZR; apply IZR_le; lia).
    destruct O as [-> | ->]; unfold shift in K; cbn in K; [change (Z.to_nat 2) with 2%nat|change (Z.to_nat 3) with 3%nat]; cbn [INR]; lra.
Qed.
Theorem C13_is_bspline : forall cfg intr k ix iy, spline_legal cfg = true ->
  in_bounds (sp_order cfg) (sp_Nx cfg) ix -> in_bounds (sp_order cfg) (sp_Ny cfg) iy ->
  let n := Z.to_nat (sp_order cfg) in let h := (IZR (sp_order cfg) + 1) / 2 in
  surface cfg intr k ix iy =
  rsum (Z.to_nat (sp_Ny cfg)) (fun j => rsum (Z.to_nat (sp_Nx cfg)) (fun i =>
    bspline n (ix - INR i + h) * bspline n (iy - INR j + h) * intr (control_index cfg k (Z.of_nat j) (Z.of_nat i)))).
Proof.
  intros cfg intr k ix iy H Bx By n h. destruct (legal_cases cfg H) as (O & Lx & Ly & Ex & Ey). unfold surface.
  rewrite surface_bigsum by auto using coefs_short. unfold bigsum. apply rsum_ext. intros j _. rewrite <- rsum_scal. apply rsum_ext. intros i _.
  rewrite !W_bspline by assumption. unfold cpoint, control_index, n, h. ring.
Qed.
Print Assumptions C13_is_bspline.

(** A legal configuration, a sample on a cell corner *)
Definition ex_cfg := {| sp_order := 3; sp_Nx := 6; sp_Ny := 5; sp_fov := 120 |}.
Example ex_legal : spline_legal ex_cfg = true /\ in_bounds 3 (sp_Nx ex_cfg) 2 /\ in_bounds 3 (sp_Ny ex_cfg) (5 / 2) /\
  surface ex_cfg (fun n => if (n =? control_index ex_cfg 0 2 2)%Z then 9 else 0) 0 2 2 = 4.
Proof.
  split; [reflexivity|]. split; [unfold in_bounds; cbn; lra|]. split; [unfold in_bounds; cbn; lra|].
  unfold surface, surface_with, ivar0_at. assert (forall N, (5 <= N)%Z -> seg 3 N 2 = 2%Z) as S2.
  { intros N HN. apply seg_unique; unfold last_seg, shift; cbn; [lia|intros; lra|intros; lra]. }
  unfold ex_cfg. cbn [sp_order sp_Nx sp_Ny]. rewrite !S2 by lia. unfold interp, interp_cubic, coefs, cubic_ABCD, control_index. cbn [Z.eqb Pos.eqb sp_Nx]. cbn. field.
Qed.
