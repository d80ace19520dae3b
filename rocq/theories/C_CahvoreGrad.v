(** C65: the gradients of the CAHVORE lens model, through the Newton iteration. *)
From Coq Require Import Reals Lra Psatz Lia Arith List.
From Coquelicot Require Import Coquelicot.
From Verif Require Import S_Vec S_Curve S_LensGrad P_Trig M_Dual P_Dual P_DualPath M_Project P_Atan2 C_Project M_OpenCV M_Cahvore C_ProjectGrad C_LensGrad C_Cahvore.
Open Scope R_scope.

(** no iterate sits exactly on the exit threshold *)
Section Regular.
  Variables zeta l e0 e1 e2 : R.
  Fixpoint newton_regular (fuel : nat) (theta : R) : Prop :=
    match fuel with
    | O => False
    | S n =>
        let ups := cv_upsilon realops zeta l e0 e1 e2 theta in
        let dtheta := cv_numer realops zeta l e0 e1 e2 theta / ups in
        ups <> 0 /\ Rabs dtheta <> 1 / 100000000 /\
        (1 / 100000000 < Rabs dtheta -> newton_regular n (theta - dtheta))
    end.
End Regular.
Definition newton_at (intr : nat -> R) (p : v3) : option R :=
  cv_newton realops (along intr p) (off_axis intr p) (intr 9%nat) (intr 10%nat) (intr 11%nat) 100 (angle intr p).
(** away from the thresholds of the code: the point off the axis, the converged angle neither 1e-8 nor at the edge of the field of view *)
Definition cahvore_regular (lin : R) (intr : nat -> R) (p : v3) : Prop :=
  0 < off_axis intr p /\
  newton_regular (along intr p) (off_axis intr p) (intr 9%nat) (intr 10%nat) (intr 11%nat) 100 (angle intr p) /\
  forall theta, newton_at intr p = Some theta -> theta <> 1 / 100000000 /\ theta * Rabs lin < PI / 2.

Section Path.
Variable N : nat.
Variable t : R.
Variable dI : nat -> R.
Notation prel := (prel N t dI).
Notation pvrel := (pvrel N t dI).

Lemma pr_add : forall F G a b, prel F a -> prel G b -> prel (fun s => nadd realops (F s) (G s)) (nadd dualops a b). Proof. intros. now apply prel_add. Qed.
Lemma pr_sub : forall F G a b, prel F a -> prel G b -> prel (fun s => nsub realops (F s) (G s)) (nsub dualops a b). Proof. intros. now apply prel_sub. Qed.
Lemma pr_mul : forall F G a b, prel F a -> prel G b -> prel (fun s => nmul realops (F s) (G s)) (nmul dualops a b). Proof. intros. now apply prel_mul. Qed.
Lemma pr_div : forall F G a b, prel F a -> prel G b -> G t <> 0 -> prel (fun s => ndiv realops (F s) (G s)) (ndiv dualops a b). Proof. intros. now apply prel_div. Qed.
Lemma pr_mulc : forall F a c, prel F a -> prel (fun s => nmulc realops (F s) c) (nmulc dualops a c). Proof. intros. now apply prel_mulc. Qed.
Lemma pr_subc : forall F a c, prel F a -> prel (fun s => nsubc realops (F s) c) (nsubc dualops a c). Proof. intros. now apply prel_subc. Qed.
Lemma pr_addc : forall F a c, prel F a -> prel (fun s => naddc realops (F s) c) (naddc dualops a c). Proof. intros. now apply prel_addc. Qed.
Lemma pr_sin : forall F a, prel F a -> prel (fun s => nsin realops (F s)) (nsin dualops a). Proof. intros. now apply prel_sin. Qed.
Lemma pr_cos : forall F a, prel F a -> prel (fun s => ncos realops (F s)) (ncos dualops a). Proof. intros. now apply prel_cos. Qed.
Ltac pauto := repeat first [assumption | apply pr_add | apply pr_sub | apply pr_mul | apply pr_mulc | apply pr_subc | apply pr_addc | apply pr_sin | apply pr_cos].

Section Newton.
  Variables Z L E0 E1 E2 : R -> R.
  Variables z l e0 e1 e2 : dual.
  Hypotheses (HZ : prel Z z) (HL : prel L l) (H0 : prel E0 e0) (H1 : prel E1 e1) (H2 : prel E2 e2).
  Lemma ups_path : forall T th, prel T th ->
    prel (fun s => cv_upsilon realops (Z s) (L s) (E0 s) (E1 s) (E2 s) (T s)) (cv_upsilon dualops z l e0 e1 e2 th).
  Proof. intros T th HT. unfold cv_upsilon. pauto. Qed.
  Lemma numer_path : forall T th, prel T th ->
    prel (fun s => cv_numer realops (Z s) (L s) (E0 s) (E1 s) (E2 s) (T s)) (cv_numer dualops z l e0 e1 e2 th).
  Proof. intros T th HT. unfold cv_numer. pauto. Qed.

  Lemma newton_path : forall fuel T th, prel T th ->
    newton_regular (Z t) (L t) (E0 t) (E1 t) (E2 t) fuel (T t) ->
    exists (TH : R -> R) d, cv_newton dualops z l e0 e1 e2 fuel th = Some d /\ prel TH d /\
      locally t (fun s => cv_newton realops (Z s) (L s) (E0 s) (E1 s) (E2 s) fuel (T s) = Some (TH s)).
  Proof.
    induction fuel as [|n IH]; intros T th HT R; [destruct R|]. cbn [newton_regular] in R. cbv zeta in R. destruct R as (U & A & B).
    pose proof (ups_path T th HT) as HU. pose proof (numer_path T th HT) as HN.
    pose proof (pr_div _ _ _ _ HN HU U) as HD. pose proof (pr_sub _ _ _ _ HT HD) as HT'.
    set (UF := fun s => cv_upsilon realops (Z s) (L s) (E0 s) (E1 s) (E2 s) (T s)) in *.
    set (NF := fun s => cv_numer realops (Z s) (L s) (E0 s) (E1 s) (E2 s) (T s)) in *.
    pose proof (prel_ne N t dI UF _ 0 HU U) as LU. 
    cbn [cv_newton]. destruct HU as [VU DU]. destruct HD as [VD DD].
    change (nval dualops (cv_upsilon dualops z l e0 e1 e2 th)) with (dx (cv_upsilon dualops z l e0 e1 e2 th)).
    change (nval dualops (ndiv dualops (cv_numer dualops z l e0 e1 e2 th) (cv_upsilon dualops z l e0 e1 e2 th)))
      with (dx (ndiv dualops (cv_numer dualops z l e0 e1 e2 th) (cv_upsilon dualops z l e0 e1 e2 th))).
    rewrite VU, VD. destruct (Req_EM_T (UF t) 0) as [|_]; [contradiction|].
    pose proof (conj VD DD : prel (fun s => ndiv realops (NF s) (UF s)) _) as HD.
    unfold fabs_small. destruct (Rlt_dec (Rabs _) _) as [S|S].
    - eexists _, _. split; [reflexivity|]. split; [exact HT'|].
      apply Rabs_def2 in S. destruct S as [S1 S2].
      generalize (filter_and _ _ LU (filter_and _ _ (prel_lt N t dI _ _ _ HD S1) (prel_gt N t dI _ _ _ HD S2))).
      apply filter_imp. intros s (X & Y1 & Y2). unfold NF, UF in *. cbn [nval realops].
      destruct (Req_EM_T _ 0) as [Q|_]; [contradiction|]. destruct (Rlt_dec _ _) as [|Q]; [reflexivity|]. exfalso. apply Q. now apply Rabs_def1.
    - assert (1 / 100000000 < Rabs (NF t / UF t)) as S'. { change (ndiv realops (NF t) (UF t)) with (NF t / UF t) in S. unfold NF, UF in *. lra. }
      destruct (IH _ _ HT' (B S')) as (TH & d & I1 & I2 & I3). exists TH, d. split; [exact I1|]. split; [exact I2|].
      assert (locally t (fun s => 1 / 100000000 < Rabs (NF s / UF s))) as LS.
      { unfold Rabs in S'. destruct (Rcase_abs (NF t / UF t)) as [c|c].
        - generalize (prel_lt N t dI _ _ (- (1 / 100000000)) HD ltac:(cbn [ndiv realops]; lra)). apply filter_imp. intros s Hs. cbn [ndiv realops] in Hs.
          rewrite Rabs_left by lra. lra.
        - generalize (prel_gt N t dI _ _ (1 / 100000000) HD ltac:(cbn [ndiv realops]; lra)). apply filter_imp. intros s Hs. cbn [ndiv realops] in Hs.
          rewrite Rabs_pos_eq by lra. lra. }
      generalize (filter_and _ _ LU (filter_and _ _ LS I3)). apply filter_imp. intros s (X & Y & W).
      unfold NF, UF in *. cbn [nval realops ndiv nsub] in *.
      destruct (Req_EM_T _ 0) as [Q|_]; [contradiction|]. destruct (Rlt_dec _ _) as [Q|_]; [lra|]. exact W.
  Qed.
End Newton.

Lemma chi_path : forall lin T th, prel T th -> 0 < T t -> T t * Rabs lin < PI / 2 ->
  prel (fun s => cv_chi realops lin (T s)) (cv_chi dualops lin th).
Proof.
  intros lin T th HT P B. unfold cv_chi. destruct (Rlt_dec lin _) as [L|L].
  - unfold ndivc. pauto.
  - destruct (Rlt_dec _ lin) as [L'|L']; [|exact HT]. unfold ndivc. apply pr_mulc. apply (prel_tan N t dI (fun s => nmulc realops (T s) lin)); [pauto|].
    cbn [nmulc realops]. rewrite Rabs_pos_eq in B by lra. pose proof PI_RGT_0. apply Rgt_not_eq. apply cos_gt_0; nra.
Qed.

Definition vec_defined (F : R -> option (nv3 realops)) (G : R -> nv3 realops) : Prop := locally t (fun s => F s = Some (G s)).
Lemma finish_path : forall lin P O LL L R0 R1 R2 T p o ll l r0 r1 r2 th,
  pvrel P p -> pvrel O o -> pvrel LL ll -> prel L l -> prel R0 r0 -> prel R1 r1 -> prel R2 r2 -> prel T th ->
  T t <> 1 / 100000000 -> T t * Rabs lin < PI / 2 ->
  exists G g, cv_finish dualops lin p o ll l r0 r1 r2 th = Some g /\ pvrel G g /\
    vec_defined (fun s => cv_finish realops lin (P s) (O s) (LL s) (L s) (R0 s) (R1 s) (R2 s) (T s)) G.
Proof.
  intros lin P O LL L R0 R1 R2 T p o ll l r0 r1 r2 th HP HO HLL HL HR0 HR1 HR2 HT NE FOV.
  assert (locally t (fun s => T s * Rabs lin < PI / 2)) as LF.
  { apply (prel_lt N t dI (fun s => T s * Rabs lin) (d_mulc th (Rabs lin))); [now apply prel_mulc|exact FOV]. }
  unfold vec_defined, cv_finish. change (nval dualops th) with (dx th). pose proof (proj1 HT) as V. rewrite V.
  destruct (Rlt_dec (PI / 2) _) as [Q|_]; [lra|]. destruct (Rlt_dec _ (T t)) as [Q|Q].
  - pose proof (chi_path lin T th HT ltac:(lra) FOV) as HC.
    assert (cv_chi realops lin (T t) <> 0) as CN. { rewrite chi_real. pose proof (chi_pos lin (T t) ltac:(lra) FOV). lra. }
    pose proof (pr_div _ _ _ _ HL HC CN) as HZ.
    set (CF := fun s => cv_chi realops lin (T s)) in *. set (chi := cv_chi dualops lin th) in *.
    exists (fun s => nvadd realops (nvmul realops (O s) (ndiv realops (L s) (CF s)))
       (nvmul realops (LL s) (naddc realops (nadd realops (nadd realops (R0 s) (nmul realops (R1 s) (nmul realops (CF s) (CF s))))
           (nmul realops (R2 s) (nmul realops (CF s) (nmul realops (CF s) (nmul realops (CF s) (CF s)))))) 1))).
    eexists. split; [reflexivity|]. split.
    + apply pvrel_add; apply pvrel_mul; auto. pauto.
    + generalize (filter_and _ _ LF (prel_gt N t dI _ _ _ HT Q)). apply filter_imp. intros s (X & Y). cbn [nval realops].
      destruct (Rlt_dec (PI / 2) _); [lra|]. destruct (Rlt_dec _ (T s)); [|lra]. reflexivity.
  - exists P, p. split; [reflexivity|]. split; [exact HP|].
    assert (T t < 1 / 100000000) as Q' by lra.
    generalize (filter_and _ _ LF (prel_lt N t dI _ _ _ HT Q')). apply filter_imp. intros s (X & Y). cbn [nval realops].
    destruct (Rlt_dec (PI / 2) _); [lra|]. destruct (Rlt_dec _ (T s)); [lra|]. reflexivity.
Qed.
End Path.

(** ** The whole projection along a path of all 12 intrinsics and the point *)
Section Whole.
Variables (lin : R) (I : nat -> R -> R) (X Y Z : R -> R) (t : R) (dI : nat -> R) (ddx ddy ddz : R).
Let intr s := fun i => I i s.
Let pt s := V3 (X s) (Y s) (Z s).
Hypothesis DI : forall i, (i < 12)%nat -> is_derive (I i) t (dI i).
Hypotheses (DX : is_derive X t ddx) (DY : is_derive Y t ddy) (DZ : is_derive Z t ddz).
Hypothesis REG : cahvore_regular lin (intr t) (pt t).
(** the velocities of the variables of the automatic differentiation *)
Definition vel (i : nat) : R := if Nat.ltb i 8 then dI (i + 4)%nat else if Nat.eqb i 8 then ddx else if Nat.eqb i 9 then ddy else ddz.

Lemma distort_path : exists G g,
  cahvore_distorted_withgrad lin (intr t) (pt t) = Some g /\ pvrel 11 t vel G g /\
  locally t (fun s => cahvore_distorted lin (intr s) (pt s) = Some (nvval realops (G s))).
Proof.
  assert (forall k, (k < 8)%nat -> prel 11 t vel (fun s => I (k + 4)%nat s) (d_var (intr t (k + 4)%nat) k)) as HI.
  { intros k Hk. apply prel_var; [lia|reflexivity|]. unfold vel. destruct (Nat.ltb_spec k 8); [|lia]. apply DI. lia. }
  assert (pvrel 11 t vel (fun s => rv3 (pt s)) (d_vars (pt t) 8)) as HP.
  { split; [|split]; cbn [rv3 nvconst n_x n_y n_z d_vars pt vx vy vz nconst realops]; apply prel_var; try lia; try reflexivity; assumption. }
  assert (pvrel 11 t vel (fun s => cv_o realops (I 4%nat s) (I 5%nat s)) (cv_o dualops (d_var (intr t 4%nat) 0) (d_var (intr t 5%nat) 1))) as HO.
  { pose proof (HI 0%nat ltac:(lia)) as A. pose proof (HI 1%nat ltac:(lia)) as B. cbn [Nat.add] in A, B.
    split; [|split]; cbn [cv_o n_x n_y n_z]; try apply pr_mul; try apply pr_sin; try apply pr_cos; assumption. }
  pose proof (prel_dot 11 t vel _ _ _ _ HP HO) as HZ. pose proof (pvrel_sub 11 t vel _ _ _ _ HP (pvrel_mul 11 t vel _ _ _ _ HO HZ)) as HLL.
  destruct REG as (OFF & NR & FIN).
  assert (forall s, nvdot realops (rv3 (pt s)) (cv_o realops (I 4%nat s) (I 5%nat s)) = along (intr s) (pt s)) as EZ.
  { intro s. unfold nvdot, rv3, along, nvconst, cv_o, axis. cbn [n_x n_y n_z nadd nmul ncos nsin nconst realops]. rr. unfold intr. vunfold. ring. }
  assert (forall s, nvsub realops (rv3 (pt s)) (nvmul realops (cv_o realops (I 4%nat s) (I 5%nat s)) (nvdot realops (rv3 (pt s)) (cv_o realops (I 4%nat s) (I 5%nat s))))
     = rv3 (across (intr s) (pt s))) as EL.
  { intro s. rewrite EZ. unfold nvsub, nvmul, nvmap, nvmap2, rv3, nvconst, across, cv_o, axis. cbn [n_x n_y n_z nsub nmul ncos nsin nconst realops].
    unfold intr at 2 4 6. f_equal; rr; unfold intr; vunfold; ring. }
  assert (forall s, nvmag realops (rv3 (across (intr s) (pt s))) = off_axis (intr s) (pt s)) as EM.
  { intro s. unfold nvmag, nvnorm2, nvdot, rv3, nvconst, off_axis, norm, norm2, dot. cbn [n_x n_y n_z nadd nmul nconst nsqrt realops]. rr. f_equal. ring. }
  set (zd := nvdot dualops (d_vars (pt t) 8) (cv_o dualops (d_var (intr t 4%nat) 0) (d_var (intr t 5%nat) 1))) in *.
  set (od := cv_o dualops (d_var (intr t 4%nat) 0) (d_var (intr t 5%nat) 1)) in *.
  set (lld := nvsub dualops (d_vars (pt t) 8) (nvmul dualops od zd)) in *.
  assert (prel 11 t vel (fun s => off_axis (intr s) (pt s)) (nvmag dualops lld)) as HL.
  { eapply prel_ext; [|apply prel_mag; [exact HLL|]].
    - intro s. cbv beta. rewrite EL. apply EM.
    - cbv beta. rewrite EL. change (0 < nvnorm2 realops (rv3 (across (intr t) (pt t)))).
      replace (nvnorm2 realops (rv3 (across (intr t) (pt t)))) with (norm2 (across (intr t) (pt t)))
        by (unfold nvnorm2, nvdot, rv3, nvconst, norm2, dot; cbn [n_x n_y n_z nadd nmul nconst realops]; rr; ring).
      rewrite <- norm_sq. unfold off_axis in OFF. nra. }
  apply (prel_ext 11 t vel _ (fun s => along (intr s) (pt s))) in HZ; [|exact EZ].
  assert (prel 11 t vel (fun s => angle (intr s) (pt s)) (natan2 dualops (nvmag dualops lld) zd)) as HA.
  { apply (prel_atan2 11 t vel (fun s => off_axis (intr s) (pt s)) (fun s => along (intr s) (pt s))); auto. }
  destruct (newton_path 11 t vel _ _ _ _ _ _ _ _ _ _ HZ HL (HI 5%nat ltac:(lia)) (HI 6%nat ltac:(lia)) (HI 7%nat ltac:(lia)) 100 _ _ HA NR)
    as (TH & th & N1 & N2 & N3).
  pose proof (locally_singleton _ _ N3) as NT. cbv beta in NT. destruct (FIN (TH t) NT) as [NE FOV].
  destruct (finish_path 11 t vel lin _ _ _ _ _ _ _ _ _ _ _ _ _ _ _ _ HP HO HLL HL (HI 2%nat ltac:(lia)) (HI 3%nat ltac:(lia)) (HI 4%nat ltac:(lia)) N2 NE FOV)
    as (G & g & G1 & G2 & G3).
  exists G, g. split; [|split; [exact G2|]].
  - unfold cahvore_distorted_withgrad, cv_distort. cbn [Nat.add] in *. fold od. fold zd. fold lld. rewrite N1. exact G1.
  - generalize (filter_and _ _ N3 G3). apply filter_imp. intros s (A & B). rewrite distort_real. cbn [Nat.add] in A.
    change (intr s 9%nat) with (I 9%nat s). change (intr s 10%nat) with (I 10%nat s). change (intr s 11%nat) with (I 11%nat s). rewrite A.
    cbn [Nat.add] in B. rewrite EL in B. change (cv_o realops (I 4%nat s) (I 5%nat s)) with (rv3 (axis (intr s))) in B. 
    match goal with |- option_map _ ?x = _ => replace x with (Some (G s)) by (symmetry; exact B) end. reflexivity.
Qed.
End Whole.

(** the pixel as the callers see it: (0,0) if the projection failed (mrcal.c:2505) *)
Definition cahvore_pixel (lin : R) (intr : nat -> R) (p : v3) : p2 := match cahvore_project lin intr p with Some q => q | None => P2 0 0 end.

Lemma pixel_derive : forall (A B F C : R -> R) t a b f c, is_derive A t a -> is_derive B t b -> is_derive F t f -> is_derive C t c -> B t <> 0 ->
  is_derive (fun s => A s * (1 / B s) * F s + C s) t (F t * (1 / B t) * (a - A t * (1 / B t) * b) + A t * (1 / B t) * f + c).
Proof.
  intros A B F C t a b f c DA DB DF DC H. destruct (dv _ _ _ DA) as [EA EA'], (dv _ _ _ DB) as [EB EB'], (dv _ _ _ DF) as [EF EF'], (dv _ _ _ DC) as [EC EC'].
  auto_derive; [repeat split; auto|]. rewrite EA', EB', EF', EC'. field. auto.
Qed.

Theorem C65_gradients : forall lin intr p, cahvore_regular lin intr p -> intr 0%nat <> 0 -> intr 1%nat <> 0 ->
  (forall d, cahvore_distorted lin intr p = Some d -> vz d <> 0) ->
  exists q J nocore, cahvore_project lin intr p = Some q /\ cahvore_dq_dp lin intr p = Some J /\
    (forall m, cahvore_dq_dnocore lin intr p m = Some (nocore m)) /\
    lens_gradient 12 (fun i v => px (cahvore_pixel lin i v)) intr p (dense_x (core_of intr) q nocore) (dqx J) /\
    lens_gradient 12 (fun i v => py (cahvore_pixel lin i v)) intr p (dense_y (core_of intr) q nocore) (dqy J).
Proof.
  intros lin intr p REG F0 F1 HZ.
  (* what is computed does not depend on the path *)
  assert (exists g, cahvore_distorted_withgrad lin intr p = Some g /\ cahvore_distorted lin intr p = Some (nvval dualops g)) as (g & G1 & G2).
  { destruct (distort_path lin (fun i _ => intr i) (fun _ => vx p) (fun _ => vy p) (fun _ => vz p) 0 (fun _ => 0) 0 0 0) as (G & g & A & B & C).
    - intros. apply (is_derive_const (K := R_AbsRing) (V := R_NormedModule)).
    - apply (is_derive_const (K := R_AbsRing) (V := R_NormedModule)).
    - apply (is_derive_const (K := R_AbsRing) (V := R_NormedModule)).
    - apply (is_derive_const (K := R_AbsRing) (V := R_NormedModule)).
    - destruct p; exact REG.
    - replace (V3 (vx p) (vy p) (vz p)) with p in A by (destruct p; reflexivity).
      exists g. split; [exact A|]. pose proof (locally_singleton _ _ C) as E. cbv beta in E. replace (V3 (vx p) (vy p) (vz p)) with p in E by (destruct p; reflexivity).
      change (cahvore_distorted lin intr p = Some (nvval realops (G 0))) in E. rewrite E. f_equal. destruct B as ((B1 & _) & (B2 & _) & (B3 & _)). unfold nvval. cbn [nval dualops realops]. now rewrite B1, B2, B3. }
  pose proof (HZ _ G2) as DZ0.
  unfold cahvore_project, cahvore_dq_dp, cahvore_dq_dnocore. rewrite G1, G2.
  eexists _, _, (fun m => _). split; [reflexivity|]. split; [reflexivity|]. split; [intro; reflexivity|].
  split; apply lens_grad_intro; intros I X Y Z t dI ddx ddy ddz EI EP DI DX DY DZ; subst p; subst intr;
    destruct (distort_path lin I X Y Z t dI ddx ddy ddz DI DX DY DZ REG) as (G & g' & A & ((V1 & D1) & (V2 & D2) & (V3' & D3)) & L);
    assert (Some g' = Some g) as E by (rewrite <- A; exact G1); injection E as ->; clear A;
    unfold nvval in DZ0; cbn [vz nval dualops] in DZ0; rewrite V3' in DZ0.
  - assert (is_derive (fun s => n_x (G s) * (1 / n_z (G s)) * I 0%nat s + I 2%nat s) t
       (I 0%nat t * (1 / n_z (G t)) * (rate 11 (vel dI ddx ddy ddz) (n_x g) - n_x (G t) * (1 / n_z (G t)) * rate 11 (vel dI ddx ddy ddz) (n_z g))
        + n_x (G t) * (1 / n_z (G t)) * dI 0%nat + dI 2%nat)) as D.
    { apply (pixel_derive (fun s => n_x (G s)) (fun s => n_z (G s)) (I 0%nat) (I 2%nat)); auto; apply DI; lia. }
    apply is_derive_ext_loc with (fun s => n_x (G s) * (1 / n_z (G s)) * I 0%nat s + I 2%nat s).
    { generalize L. apply filter_imp. intros s E. unfold cahvore_pixel, cahvore_project. rewrite E. reflexivity. }
    eapply is_derive_rw; [exact D|].
    unfold rate. cbn [tot vel Nat.ltb Nat.leb Nat.eqb Nat.add]. unfold vel. cbn [Nat.ltb Nat.leb Nat.eqb Nat.add].
    unfold dense_x, dq_dfxy_of, nvval, core_of. cbn [px py fx fy cx cy dqx vx vy vz nval dualops fst snd]. rewrite V1, V3'.
    change (num realops) with R in *. set (a := n_x (G t)) in *. set (c := n_z (G t)) in *. clearbody a c. rr. field. auto.
  - assert (is_derive (fun s => n_y (G s) * (1 / n_z (G s)) * I 1%nat s + I 3%nat s) t
       (I 1%nat t * (1 / n_z (G t)) * (rate 11 (vel dI ddx ddy ddz) (n_y g) - n_y (G t) * (1 / n_z (G t)) * rate 11 (vel dI ddx ddy ddz) (n_z g))
        + n_y (G t) * (1 / n_z (G t)) * dI 1%nat + dI 3%nat)) as D.
    { apply (pixel_derive (fun s => n_y (G s)) (fun s => n_z (G s)) (I 1%nat) (I 3%nat)); auto; apply DI; lia. }
    apply is_derive_ext_loc with (fun s => n_y (G s) * (1 / n_z (G s)) * I 1%nat s + I 3%nat s).
    { generalize L. apply filter_imp. intros s E. unfold cahvore_pixel, cahvore_project. rewrite E. reflexivity. }
    eapply is_derive_rw; [exact D|].
    unfold rate. cbn [tot vel Nat.ltb Nat.leb Nat.eqb Nat.add]. unfold vel. cbn [Nat.ltb Nat.leb Nat.eqb Nat.add].
    unfold dense_y, dq_dfxy_of, nvval, core_of. cbn [px py fx fy cx cy dqy vx vy vz nval dualops fst snd]. rewrite V2, V3'.
    change (num realops) with R in *. set (a := n_y (G t)) in *. set (c := n_z (G t)) in *. clearbody a c. rr. field. auto.
Qed.
Print Assumptions C65_gradients.

(** ** Asking for gradients does not change the pixel, nor whether the projection fails *)
Lemma newton_value : forall z l e0 e1 e2 fuel th,
  option_map dx (cv_newton dualops z l e0 e1 e2 fuel th) = cv_newton realops (dx z) (dx l) (dx e0) (dx e1) (dx e2) fuel (dx th).
Proof.
  intros z l e0 e1 e2 fuel. induction fuel as [|n IH]; intro th; [reflexivity|]. cbn [cv_newton].
  change (nval dualops (cv_upsilon dualops z l e0 e1 e2 th)) with (nval realops (cv_upsilon realops (dx z) (dx l) (dx e0) (dx e1) (dx e2) (dx th))).
  destruct (Req_EM_T _ 0); [reflexivity|].
  change (nval dualops (ndiv dualops (cv_numer dualops z l e0 e1 e2 th) (cv_upsilon dualops z l e0 e1 e2 th)))
    with (nval realops (ndiv realops (cv_numer realops (dx z) (dx l) (dx e0) (dx e1) (dx e2) (dx th)) (cv_upsilon realops (dx z) (dx l) (dx e0) (dx e1) (dx e2) (dx th)))).
  destruct (fabs_small _); [reflexivity|]. now rewrite IH.
Qed.
Theorem C65_same_with_gradients : forall lin intr p,
  option_map (nvval dualops) (cahvore_distorted_withgrad lin intr p) = cahvore_distorted lin intr p.
Proof.
  intros lin intr p. unfold cahvore_distorted_withgrad, cahvore_distorted, cv_distort.
  match goal with |- option_map _ (match cv_newton dualops ?z ?l ?a ?b ?c ?n ?th with _ => _ end) = _ => pose proof (newton_value z l a b c n th) as E end.
  match type of E with option_map _ ?x = ?y => destruct x as [th|]; cbn [option_map] in E end.
  - match goal with |- _ = option_map _ (match ?y with _ => _ end) => replace y with (Some (dx th)) end.
    unfold cv_finish. change (nval dualops th) with (nval realops (dx th)). destruct (Rlt_dec (PI / 2) _); [reflexivity|]. destruct (Rlt_dec _ _); [|reflexivity].
    unfold cv_chi. destruct (Rlt_dec _ _); [reflexivity|]. destruct (Rlt_dec _ _); reflexivity.
  - match goal with |- _ = option_map _ (match ?y with _ => _ end) => replace y with (@None R) end. reflexivity.
Qed.
Print Assumptions C65_same_with_gradients.

(** ** A failing projection *)
(** the pixel and the gradient of its x coordinate are cleared; the gradient of y is left as it was *)
Theorem C65_failure : forall lin intr p old, cahvore_project lin intr p = None ->
  cahvore_project_point lin intr p old = (P2 0 0, J23 (V3 0 0 0) (dqy old)).
Proof. intros lin intr p old H. unfold cahvore_project_point. now rewrite H. Qed.
Print Assumptions C65_failure.
(** "Setting result and all gradients to 0" (mrcal.c:2503) is not what happens *)
Theorem C65_failure_clears_gradients_refuted : exists lin intr p, cahvore_project lin intr p = None /\
  forall old, dqy old <> V3 0 0 0 -> snd (cahvore_project_point lin intr p old) <> J23 (V3 0 0 0) (V3 0 0 0).
Proof.
  exists 1, (fun i => if Nat.ltb i 4 then 1 else 0), (V3 0 0 (-1)).
  assert (cahvore_project 1 (fun i => if Nat.ltb i 4 then 1 else 0) (V3 0 0 (-1)) = None) as H.
  { apply C65_perspective_behind; [repeat split; reflexivity|]. unfold along, axis. cbn [Nat.ltb Nat.leb]. rewrite sin_0, cos_0. vunfold. lra. }
  split; [exact H|]. intros old N E. rewrite C65_failure in E by exact H. cbn [snd] in E. injection E as E. now apply N.
Qed.
Print Assumptions C65_failure_clears_gradients_refuted.
(** a successful one writes all of it *)
Lemma gradient_defined : forall lin intr p q, cahvore_project lin intr p = Some q -> exists J, cahvore_dq_dp lin intr p = Some J.
Proof.
  intros lin intr p q H. pose proof (C65_same_with_gradients lin intr p) as E. revert H. unfold cahvore_project, cahvore_dq_dp. rewrite <- E.
  generalize (cahvore_distorted_withgrad lin intr p). intros [g|] H; [|discriminate]. eexists. reflexivity.
Qed.
Theorem C65_success : forall lin intr p q old old', cahvore_project lin intr p = Some q ->
  cahvore_project_point lin intr p old = cahvore_project_point lin intr p old' /\ fst (cahvore_project_point lin intr p old) = q.
Proof.
  intros lin intr p q old old' H. destruct (gradient_defined lin intr p q H) as [J E]. unfold cahvore_project_point. rewrite H, E. split; reflexivity.
Qed.
Print Assumptions C65_success.

(** ** The hypotheses can be met *)
(** started at a root, the iteration stops there *)
Lemma regular_at_root : forall z l e0 e1 e2 theta n, cv_numer realops z l e0 e1 e2 theta = 0 -> cv_upsilon realops z l e0 e1 e2 theta <> 0 ->
  newton_regular z l e0 e1 e2 (S n) theta.
Proof.
  intros z l e0 e1 e2 theta n Z U. cbn [newton_regular]. cbv zeta. rewrite Z. match goal with |- context [0 / ?u] => replace (0 / u) with 0 by (unfold Rdiv; ring) end. rewrite Rabs_R0.
  split; [exact U|]. split; [lra|]. intro. lra.
Qed.
Lemma newton_at_root : forall z l e0 e1 e2 theta n, cv_numer realops z l e0 e1 e2 theta = 0 -> cv_upsilon realops z l e0 e1 e2 theta <> 0 ->
  cv_newton realops z l e0 e1 e2 (S n) theta = Some theta.
Proof.
  intros z l e0 e1 e2 theta n Z U. cbn [cv_newton nval realops ndiv nsub]. rewrite Z. destruct (Req_EM_T _ 0); [contradiction|].
  unfold Rdiv at 1. rewrite Rmult_0_l. unfold fabs_small. rewrite Rabs_R0. destruct (Rlt_dec 0 _); [|lra]. f_equal. unfold Rdiv. rr. ring.
Qed.
Lemma regular_from_root : forall lin intr p,
  cv_numer realops (along intr p) (off_axis intr p) (intr 9%nat) (intr 10%nat) (intr 11%nat) (angle intr p) = 0 ->
  cv_upsilon realops (along intr p) (off_axis intr p) (intr 9%nat) (intr 10%nat) (intr 11%nat) (angle intr p) <> 0 ->
  0 < off_axis intr p -> angle intr p <> 1 / 100000000 -> angle intr p * Rabs lin < PI / 2 -> cahvore_regular lin intr p.
Proof.
  intros lin intr p Z U L A B. unfold cahvore_regular, newton_at. generalize 99%nat. intro n.
  split; [exact L|]. split; [now apply regular_at_root|].
  intros theta H. rewrite newton_at_root in H by assumption. injection H as <-. auto.
Qed.
Theorem C65_central_regular : forall lin intr p, central intr -> 0 < off_axis intr p -> angle intr p <> 1 / 100000000 -> angle intr p * Rabs lin < PI / 2 ->
  cahvore_regular lin intr p.
Proof.
  intros lin intr p (E0 & E1 & E2) L A B.
  assert (p <> v0) as P. { intros ->. revert L. unfold off_axis, across, along. replace (vsub v0 (vscale (dot v0 (axis intr)) (axis intr))) with v0 by (apply v3_eq; vunfold; ring).
    unfold norm, norm2. vunfold. replace (0 * 0 + 0 * 0 + 0 * 0) with 0 by ring. rewrite sqrt_0. lra. }
  destruct (angle_spec intr p P) as (C & SN & _). pose proof (norm_pos p P) as NP. pose proof (sin2_cos2 (angle intr p)) as T. unfold Rsqr in T.
  apply regular_from_root; auto; rewrite E0, E1, E2; unfold cv_upsilon, cv_numer; cbn [nadd nsub nmul nmulc nsubc ncos nsin ndiv nval realops num];
    rewrite <- C, <- SN; set (s := sin (angle intr p)) in *; set (c := cos (angle intr p)) in *; set (m := norm p) in *.
  - rr. ring.
  - match goal with |- ?u <> 0 => replace u with m by (transitivity (m * (s * s + c * c)); [rewrite T; ring|ring]) end. lra.
Qed.
Print Assumptions C65_central_regular.

(** E <> 0: a lens whose pupil does not move for rays at 45 degrees *)
Definition ex_intr (i : nat) : R :=
  match i with 0%nat | 1%nat => 1000 | 2%nat | 3%nat => 500 | 6%nat => 1 / 10 | 9%nat => - (PI / 4 * (PI / 4)) | 10%nat => 1 | _ => 0 end.
Example ex_cahvore_regular : cahvore_regular (1 / 2) ex_intr (V3 1 0 1) /\ ~ central ex_intr.
Proof.
  split; [|intros (_ & H & _); cbn in H; lra].
  assert (axis ex_intr = V3 0 0 1) as EA. { unfold axis, ex_intr. rewrite sin_0, cos_0. f_equal; ring. }
  assert (along ex_intr (V3 1 0 1) = 1) as EL by (unfold along; rewrite EA; vunfold; ring).
  assert (across ex_intr (V3 1 0 1) = V3 1 0 0) as EC by (unfold across; rewrite EL, EA; apply v3_eq; vunfold; ring).
  assert (off_axis ex_intr (V3 1 0 1) = 1) as EO.
  { unfold off_axis. rewrite EC. unfold norm, norm2. vunfold. replace (1 * 1 + 0 * 0 + 0 * 0) with 1 by ring. apply sqrt_1. }
  assert (angle ex_intr (V3 1 0 1) = PI / 4) as EG. { unfold angle. rewrite EL, EO, Ratan2_xpos by lra. replace (1 / 1) with 1 by field. apply atan_1. }
  pose proof PI_RGT_0 as P0. pose proof PI_4 as P4.
  assert (0 < cv_upsilon realops 1 1 (- (PI / 4 * (PI / 4))) 1 0 (PI / 4)) as U.
  { unfold cv_upsilon. cbn [nadd nsub nmul nmulc nsubc ncos nsin realops num]. pose proof (sin_lt_x (PI / 4) ltac:(lra)) as S1.
    pose proof (SIN_bound (PI / 4)). rewrite cos_PI4, sin_PI4 in *.
    assert (7 / 10 < 1 / sqrt 2) as Q.
    { assert (0 < sqrt 2) by (apply sqrt_lt_R0; lra). assert (sqrt 2 < 10 / 7) by (rewrite <- (sqrt_square (10 / 7)) by lra; apply sqrt_lt_1; lra).
      apply (Rmult_lt_reg_r (sqrt 2)); auto. replace (1 / sqrt 2 * sqrt 2) with 1 by (field; lra). lra. }
    set (w := 1 / sqrt 2) in *. clearbody w. set (h := PI / 4) in *. assert (0 < h <= 1) by (unfold h; lra). clearbody h.
    replace (1 * w + 1 * w + (w - 1) * (- (h * h) + 1 * (h * h) + 0 * (h * (h * (h * h)))) - (h - w) * (1 * h * 2 + 0 * (h * (h * h)) * 4))
      with (2 * w - 2 * h * (h - w)) by ring. nra. }
  assert (cv_numer realops 1 1 (- (PI / 4 * (PI / 4))) 1 0 (PI / 4) = 0) as Z.
  { unfold cv_numer. cbn [nadd nsub nmul nmulc nsubc ncos nsin realops num]. rr. rewrite cos_PI4, sin_PI4. ring. }
  apply regular_from_root; rewrite ?EO, ?EL, ?EG; try lra; cbn [ex_intr]; [exact Z|lra|pose proof PI2_1; lra|rewrite Rabs_pos_eq; lra].
Qed.
