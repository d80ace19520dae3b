(** C75: the uncertainty of triangulate(). *)
From Coq Require Import Reals Lra Psatz Arith Lia ZArith Bool List.
From Verif Require C_Triangulate.
From Coquelicot Require Import Coquelicot.
From Verif Require Import S_Callback M_Callback M_OpenCV C_ProjectGrad C_Cahvore C_Unproject C_ImageMap S_Vec S_Curve S_LensGrad P_Trig M_Dual P_Dual P_Pose P_DualPath M_Pose P_PoseJ P_PoseGrad P_Compose C_PoseGrad P_PathGrad C_Rodrigues C_Rt C_RtVec
  M_Lens M_Layout S_Layout P_Layout M_Project C_Project P_Spline M_Unproject C_LensGrad M_Pack P_Pack M_Residuals P_Jacobian C_Jacobian C_Residuals
  M_Triangulate P_TriGrad C_TriGrad M_ProjUncert P_ProjUncert C_ProjUncert M_UnprojGrad C_UnprojGrad M_TriUncert P_TriUncert P_TriState.
Import ListNotations.
Open Scope R_scope.

(** *** Specification *)
(** V follows the rays of the pixels Q; vs: what the numerical unprojection found *)
Definition follows_pixel (m : lensmodel) (I : R -> nat -> R) (Q : R -> p2) (vs : v3) (V : R -> v3) : Prop :=
  (closed m /\ forall s, V s = closed_unproject m (I s) (Q s)) \/
  (~ closed m /\ norm vs + vz vs <> 0 /\ (forall a, 0 < a -> lens_smooth m (I 0) (vscale a vs)) /\ (exists k, 0 < k /\ V 0 = vscale k vs) /\ (exists dV, moves3 V 0 dV) /\
   (forall s, vz (V s) = 1 - (vx (V s) * vx (V s) + vy (V s) * vy (V s)) / 4) /\ locally 0 (fun s => lens_pixel m (I s) (V s) = Q s)).
(** the rotation and the translation from camera 1 to camera 0 *)
Definition R01 (C0 C1 : rt) : m33 := mm (rodr (rt_r C0)) (mT (rodr (rt_r C1))).
Definition t01 (C0 C1 : rt) : v3 := vsub (rt_t C0) (mv (R01 C0 C1) (rt_t C1)).
Definition triangulated (m : tmethod) (C0 C1 : rt) (v0 v1 : v3) : option (nv3 realops) := tri_of realops m (rv v0) (rv (mv (R01 C0 C1) v1)) (rv (t01 C0 C1)).

(** a point seen from a camera or from a frame *)
Definition there (T : rt) (x : v3) : v3 := vadd (mv (rodr (rt_r T)) x) (rt_t T).
Definition back (T : rt) (y : v3) : v3 := mv (mT (rodr (rt_r T))) (vsub y (rt_t T)).
(** the triangulated point, in the coordinates camera 0 had at s = 0.
    Not stabilized: as reported. Stabilized: where the reference, or on average the frames, take it *)
Definition settled (c : context) (B : R -> nat -> R) (e0 : Z) (stabilize_coords : bool) (X : R -> v3) (s : R) : v3 :=
  let F i s := rt_frame (params c (B s)) (Z.of_nat i) in
  if stabilize_coords then
    if do_frames (p_sel (c_p c)) && (0 <? p_Nframes (c_p c))%Z then
      mean (map (fun i => there (cpose c B e0 0) (there (F i 0) (back (F i s) (back (cpose c B e0 s) (X s))))) (seq 0 (Z.to_nat (p_Nframes (c_p c)))))
    else there (cpose c B e0 0) (back (cpose c B e0 s) (X s))
  else X s.

(** *** the rays *)
Lemma surface_scale : forall v k k', 0 < k -> 0 < k' -> vz (vscale k v) = 1 - (vx (vscale k v) * vx (vscale k v) + vy (vscale k v) * vy (vscale k v)) / 4 ->
  vz (vscale k' v) = 1 - (vx (vscale k' v) * vx (vscale k' v) + vy (vscale k' v) * vy (vscale k' v)) / 4 -> k = k'.
Proof.
  intros [x y z] k k' K K'. cbn [vscale vx vy vz]. intros E E'.
  set (r := x * x + y * y). assert (0 <= r) by (unfold r; nra).
  assert (k * z + k * k * r / 4 = 1) as F by (unfold r; lra). assert (k' * z + k' * k' * r / 4 = 1) as F' by (unfold r; lra). clearbody r. clear E E'.
  assert (k - k' = - (k * k' * r / 4) * (k - k')) as G by (replace (k - k') with (k * (k' * z + k' * k' * r / 4) - k' * (k * z + k * k * r / 4)) at 1 by (rewrite F, F'; ring); field).
  assert (0 <= k * k' * r) by (apply Rmult_le_pos; nra). nra.
Qed.
Lemma ray_rate : forall stale m (I : R -> nat -> R) Q vs V dI dQ g, lens_ok m -> lens_legal m -> splines_ok m -> (forall i, is_derive (fun s => I s i) 0 (dI i)) -> moves2 Q 0 dQ -> focal_ok (core_of (I 0)) ->
  follows_pixel m I Q vs V -> unproject_grads stale m (I 0) (Q 0) vs false = Some g -> g_v g = V 0 /\ moves3 V 0 (rate (nparams m) g dQ dI).
Proof.
  intros stale m I Q vs V dI dQ g HO HL HS DI DQ HF [[C E]|(NC & Hv & Sm & (k & K & Ek) & (dV & DV) & Surf & Loc)] Eg.
  - destruct (C74_closed stale m I Q 0 dI dQ vs false C (fun i _ => DI i) DQ HF) as (g' & E' & EV & M). rewrite Eg in E'. injection E' as <-. cbv beta iota zeta in EV, M. split; [now rewrite E|].
    eapply moves3_ext; [|exact M]. intro s. now rewrite E.
  - destruct (C74_iterative stale m I Q V 0 dI dQ dV (Q 0) vs g NC HO HL HS Hv DI HF Sm Eg) as ((k' & K' & Ek') & Sg & A & _).
    assert (V 0 = g_v g) as E. { rewrite Ek, Ek'. f_equal. apply (surface_scale vs); auto; [rewrite <- Ek; apply Surf|rewrite <- Ek'; exact Sg]. }
    split; [now symmetry|]. rewrite <- (A E DV DQ Surf Loc). exact DV.
Qed.
Lemma mv_isum : forall c M f w, mv M (isum c f w) = isum c (fun i => mv M (f i)) w.
Proof.
  intros c M f w. unfold isum. cbv zeta. generalize (Z.to_nat (num_params (p_lens (c_p c)))). intro n. destruct M as [a b e a' b' e' a'' b'' e''].
  assert (forall x y z, rsum n (fun i => w i * (x * vx (f i) + y * vy (f i) + z * vz (f i))) = x * rsum n (fun i => w i * vx (f i)) + y * rsum n (fun i => w i * vy (f i)) + z * rsum n (fun i => w i * vz (f i))) as L.
  { intros x y z. induction n as [|n IH]; cbn [rsum]; [ring|]. rewrite IH. ring. }
  apply v3_eq; unfold mv; cbn [vx vy vz m00 m01 m02 m10 m11 m12 m20 m21 m22]; rewrite L; reflexivity.
Qed.

Lemma mv_minus1 : forall u, mv (mscale (-1) I3) u = vneg u. Proof. intro u. apply v3_eq; unfold mscale, I3, mv, vneg; cbn [vx vy vz m00 m01 m02 m10 m11 m12 m20 m21 m22]; ring. Qed.
Lemma mv_zero33 : forall u, mv zero33 u = v0. Proof. intro u. apply v3_eq; unfold mv, zero33, v0; cbn [vx vy vz m00 m01 m02 m10 m11 m12 m20 m21 m22]; ring. Qed.
Lemma mv_mscale : forall k M u, mv (mscale k M) u = vscale k (mv M u). Proof. intros k M u. apply v3_eq; unfold mscale, mv, vscale; cbn [vx vy vz m00 m01 m02 m10 m11 m12 m20 m21 m22]; ring. Qed.
Lemma lin3 : forall (f g h : R -> R) a b e k t df dg dh, is_derive f t df -> is_derive g t dg -> is_derive h t dh -> is_derive (fun s => a * f s + b * g s + e * h s + k) t (a * df + b * dg + e * dh).
Proof.
  intros f g h a b e k t df dg dh F G H. auto_derive; [repeat split; eexists; eassumption|].
  change (fun x : R => f x) with f. change (fun x : R => g x) with g. change (fun x : R => h x) with h. rewrite (is_derive_unique _ _ _ F), (is_derive_unique _ _ _ G), (is_derive_unique _ _ _ H). ring.
Qed.
Ltac atoms := repeat match goal with |- context [mv ?A ?u] => let x := fresh "x" in set (x := mv A u); clearbody x end.

(** *** the motion of the triangulated point *)
Section Main.
  Variable stale : j23.
  Variable c : context.
  Let p := c_p c.
  Let m := p_lens p.
  Variable method : tmethod.
  Variables i0 i1 e0 e1 : Z.
  Variable B : R -> nat -> R.
  Variable d : nat -> R.
  Variables Q0 Q1 : R -> p2.
  Variables dQ0 dQ1 : p2.
  Variables vs0 vs1 : v3.
  Variables V0 V1 : R -> v3.
  Let I (i : Z) (s : R) : nat -> R := intrinsics_data c (params c (B s)) i.
  Let C (e : Z) (s : R) : rt := cpose c B e s.
  Hypothesis Hok : problem_ok p.
  Hypothesis HL : lens_legal m.
  Hypothesis SO : splines_ok m.
  Hypothesis HB : leaves B d.
  Hypothesis Hi0 : (0 <= i0 < p_Nci p)%Z.
  Hypothesis Hi1 : (0 <= i1 < p_Nci p)%Z.
  Hypothesis He0 : (e0 < p_Nce p)%Z.
  Hypothesis He1 : (e1 < p_Nce p)%Z.
  Hypothesis Hi : i0 <> i1.
  Hypothesis He : (e0 <> e1 \/ e0 < 0)%Z.
  Hypothesis D0 : moves2 Q0 0 dQ0.
  Hypothesis D1 : moves2 Q1 0 dQ1.
  Hypothesis HF0 : focal_ok (core_of (I i0 0)).
  Hypothesis HF1 : focal_ok (core_of (I i1 0)).
  Hypothesis HV0 : follows_pixel m (I i0) Q0 vs0 V0.
  Hypothesis HV1 : follows_pixel m (I i1) Q1 vs1 V1.
  Hypothesis A0ok : angle_ok (rt_r (C e0 0)).
  Hypothesis A1ok : angle_ok (rt_r (C e1 0)).
  Hypothesis Hreg : compose_regular (rt_r (C e0 0)) (vneg (rt_r (C e1 0))).
  Hypothesis Hcmp : composes (fun s => rt_r (C e0 s)) (fun s => rt_r (C e1 s)) 0.
  Hypothesis A01ok : angle_ok (compose_r2 (rt_r (C e0 0)) (vneg (rt_r (C e1 0))) false false).
  Let X (s : R) : option (nv3 realops) := triangulated method (C e0 s) (C e1 s) (V0 s) (V1 s).
  Hypothesis Hmr : method_regular method (V0 0) (mv (R01 (C e0 0) (C e1 0)) (V1 0)) (t01 (C e0 0) (C e1 0)).
  Variable t : tri_grad.
  Hypothesis Ht : triangulate_grad stale p (Some method) (I i0 0) (I i1 0) (C e0 0) (C e1 0) (Q0 0) (Q1 0) vs0 vs1 = inl t.

  Definition pixel_part : v3 := vadd (vadd (vscale (px dQ0) (dp_dq t 0)) (vscale (py dQ0) (dp_dq t 1))) (vadd (vscale (px dQ1) (dp_dq t 2)) (vscale (py dQ1) (dp_dq t 3))).
  Let E1part : v3 := vadd (mv (A1 t) (rt_r (cvel c d e1))) (mv (B1 t) (rt_t (cvel c d e1))).
  Let I0part : v3 := isum c (fun i => mv (t_dv0 t) (t_di0 t i)) (dI c d i0).
  Let I1part : v3 := isum c (fun i => mv (t_dv1 t) (mv (t_v1v t) (t_di1 t i))) (dI c d i1).
  Lemma params_move : forall icam, (0 <= icam < p_Nci p)%Z -> forall i, is_derive (fun s => I icam s i) 0 (if (Z.of_nat i <? num_params m)%Z then dI c d icam i else 0).
  Proof.
    intros icam Hc i. unfold I, intrinsics_data. fold p. fold m. destruct (Z.ltb_spec (Z.of_nat i) (num_params m)) as [L|L].
    - eapply is_derive_ext; [|exact (intr_moves c (fun s z => B s (Z.to_nat z)) 0 (fun z => d (Z.to_nat z)) (fun n => HB (Z.to_nat n)) icam i)]. intro s. cbv beta. now apply (intr_unpacked c (fun z => B s (Z.to_nat z)) Hok icam i).
    - apply (is_derive_const (K := R_AbsRing) (V := R_NormedModule)).
  Qed.
  Lemma rate_isum : forall g dQ icam, rate (nparams m) g dQ (fun i => if (Z.of_nat i <? num_params m)%Z then dI c d icam i else 0) = vadd (vadd (vscale (px dQ) (g_dq0 g)) (vscale (py dQ) (g_dq1 g))) (isum c (g_di g) (dI c d icam)).
  Proof.
    intros g dQ icam. unfold rate, isum. fold p. fold m. cbv zeta. change (nparams m) with (Z.to_nat (num_params m)). f_equal. f_equal; apply rsum_ext; intros i Hi'; (destruct (Z.ltb_spec (Z.of_nat i) (num_params m)); [reflexivity|lia]).
  Qed.
  Lemma point_moves : t_p t = M_Triangulate.point_of (X 0) /\
    (X 0 <> None -> moves3 (fun s => M_Triangulate.point_of (X s)) 0
      (vadd (vadd (vadd (vadd I0part I1part) E1part) (vadd (mv (A0 t) (rt_r (cvel c d e0))) (mv (B0 t) (rt_t (cvel c d e0))))) pixel_part)).
  Proof.
    unfold triangulate_grad in Ht. fold m in Ht. destruct (cpose_moves c B d Hok HB e0 He0) as [MA MTA]. destruct (cpose_moves c B d Hok HB e1 He1) as [MB MTB]. fold (C e0) in MA, MTA. fold (C e1) in MB, MTB.
    destruct (unproject_grads stale m (I i0 0) (Q0 0) vs0 false) as [g0|] eqn:G0; [|destruct (inverted (C e1 0)) as [[? ?] ?]; destruct (compose_rt2_grad _ _ _ _); discriminate].
    destruct (unproject_grads stale m (I i1 0) (Q1 0) vs1 false) as [g1|] eqn:G1; [|destruct (inverted (C e1 0)) as [[? ?] ?]; destruct (compose_rt2_grad _ _ _ _); discriminate].
    destruct (ray_rate stale m (I i0) Q0 vs0 V0 _ dQ0 g0 (proj1 Hok) HL SO (params_move i0 Hi0) D0 HF0 HV0 G0) as [EV0 MV0].
    destruct (ray_rate stale m (I i1) Q1 vs1 V1 _ dQ1 g1 (proj1 Hok) HL SO (params_move i1 Hi1) D1 HF1 HV1 G1) as [EV1 MV1].
    rewrite rate_isum in MV0, MV1. rewrite EV0, EV1 in Ht.
    pose proof (relative_moves (fun s => rt_r (C e0 s)) (fun s => rt_r (C e1 s)) (fun s => rt_t (C e0 s)) (fun s => rt_t (C e1 s)) V1 0 _ _ _ _ _ MA MB MTA MTB MV1 A0ok A1ok Hreg Hcmp A01ok) as RM. cbv beta in RM.
    replace (mkrt (rt_r (C e1 0)) (rt_t (C e1 0))) with (C e1 0) in RM by (now destruct (C e1 0)). replace (mkrt (rt_r (C e0 0)) (rt_t (C e0 0))) with (C e0 0) in RM by (now destruct (C e0 0)).
    destruct (inverted (C e1 0)) as [[rt_ref1 Jr] Jt]. destruct (compose_rt2_grad (C e0 0) rt_ref1 false false) as [rt01 gg]. destruct (rotJ (rt_r rt01) (V1 0) false) as [[v1 J1r] J1v].
    cbv zeta in RM. destruct RM as (Ev1 & Et & Z01 & M1 & MT). fold (R01 (C e0 0) (C e1 0)) in Ev1, Et. fold (t01 (C e0 0) (C e1 0)) in Et. rewrite Ev1, Et in Ht.
    pose proof (method_moves method V0 (fun s => mv (R01 (C e0 s) (C e1 s)) (V1 s)) (fun s => t01 (C e0 s) (C e1 s)) 0 _ _ _ MV0 M1 MT Hmr) as MM. cbv beta zeta in MM. destruct MM as [EP MP].
    set (tg := method_grads method (V0 0) (mv (R01 (C e0 0) (C e1 0)) (V1 0)) (t01 (C e0 0) (C e1 0))) in *.
    unfold pixel_part. injection Ht as <-. unfold E1part, I0part, I1part, A0, B0, A1, B1. cbn [t_p dp_dq t_inv t_cmp t_di0 t_di1 t_v1r t_v1v t_dv0 t_dv1 t_dt01].
    split; [exact EP|]. intro NN. specialize (MP NN). match type of MP with moves3 _ _ ?x => match goal with |- moves3 _ _ ?y => replace y with x; [exact MP|] end end. clear MP EP.
    rewrite <- (mv_isum c (tg_dv0 tg)), <- (mv_isum c (tg_dv1 tg) (fun i => mv J1v (g_di g1 i))), <- (mv_isum c J1v). rewrite Z01.
    set (S0 := isum c (g_di g0) (dI c d i0)). set (S1 := isum c (g_di g1) (dI c d i1)). set (ra := rt_r (cvel c d e0)). set (ta := rt_t (cvel c d e0)). set (rb := rt_r (cvel c d e1)). set (tb := rt_t (cvel c d e1)).
    clearbody S0 S1 ra ta rb tb tg. clear. repeat rewrite ?mv_madd, ?mv_mm, ?mv_vadd, ?mv_vsub, ?mv_vscale, ?mv_minus1, ?mv_zero33, ?mv_vneg, ?mv_v0. atoms. vring.
  Qed.
End Main.

(** *** stabilization *)
Section Stabilize.
  Variable c : context.
  Let p := c_p c.
  Variable e0 : Z.
  Variable B : R -> nat -> R.
  Variable d : nat -> R.
  Let C (e : Z) (s : R) : rt := cpose c B e s.
  Hypothesis Hok : problem_ok p.
  Hypothesis HB : leaves B d.
  Hypothesis He0 : (e0 < p_Nce p)%Z.
  Hypothesis A0ok : angle_ok (rt_r (C e0 0)).
  Lemma rodr_I : forall r x, mv (rodr r) (mv (mT (rodr r)) x) = x. Proof. intros r x. apply rot_mv_mT, rodr_rot. Qed.
  Lemma there_moves : forall T (x : R -> v3) dx, moves3 x 0 dx -> moves3 (fun s => there T (x s)) 0 (mv (rodr (rt_r T)) dx).
  Proof.
    intros T x dx (X1 & X2 & X3). unfold there. split; [|split]; apply (lin3 _ _ _ _ _ _ _ _ _ _ _ X1 X2 X3).
  Qed.
  Lemma camera_back : forall X dX a b, moves3 X 0 dX -> stabilize_camera (C e0 0) (X 0) = Some (a, b) ->
    exists y', moves3 (fun s => back (C e0 s) (X s)) 0 y' /\ mv (rodr (rt_r (C e0 0))) y' = vadd dX (vadd (mv a (rt_r (cvel c d e0))) (mv b (rt_t (cvel c d e0)))).
  Proof.
    intros X' dX a b MX. destruct (cpose_moves c B d Hok HB e0 He0) as [MA MTA]. fold (C e0) in MA, MTA.
    pose proof (back_path (fun s => rt_r (C e0 s)) (fun s => rt_t (C e0 s)) X' 0 _ _ _ MA MTA MX A0ok) as P. cbv beta in P. replace (mkrt (rt_r (C e0 0)) (rt_t (C e0 0))) with (C e0 0) in P by (now destruct (C e0 0)).
    pose proof (back_Jx (C e0 0) (X' 0) A0ok) as J. unfold stabilize_camera. destruct (back_J (C e0 0) (X' 0)) as [[[y Jr] Jt] Jx]. destruct P as [_ P]. subst Jx.
    destruct (solve33 _ Jr) as [a'|] eqn:Ea; [|discriminate]. destruct (solve33 _ Jt) as [b'|] eqn:Eb; [|discriminate]. injection 1 as -> ->.
    apply solve33_spec in Ea, Eb. subst Jr Jt. eexists. split; [exact P|]. rewrite !mv_vadd, !mv_mm, !rodr_I. atoms. vring.
  Qed.
  Lemma frame_back : forall X dX y' i a b n, moves3 X 0 dX -> angle_ok (rt_r (rt_frame (params c (B 0)) i)) -> (0 <= i < p_Nframes p)%Z -> (0 < n)%Z ->
    moves3 (fun s => back (C e0 s) (X s)) 0 y' -> stabilize_frame (C e0 0) (X 0) n (rt_frame (params c (B 0)) i) = Some (a, b) ->
    let F := frame_of (still c) (fun z => d (Z.to_nat z)) i in
    moves3 (fun s => there (C e0 0) (there (rt_frame (params c (B 0)) i) (back (rt_frame (params c (B s)) i) (back (C e0 s) (X s))))) 0
      (vadd (mv (rodr (rt_r (C e0 0))) y') (vscale (IZR n) (vadd (mv a (rt_r F)) (mv b (rt_t F))))).
  Proof.
    intros X' dX y' i a b n MX AF Hi' Hn MY Es F. unfold F. clear F. destruct (frame_pose_moves c B d Hok HB i Hi') as [MA MT].
    pose proof (back_path (fun s => rt_r (rt_frame (params c (B s)) i)) (fun s => rt_t (rt_frame (params c (B s)) i)) (fun s => back (C e0 s) (X' s)) 0 _ _ _ MA MT MY AF) as P. cbv beta in P.
    replace (mkrt (rt_r (rt_frame (params c (B 0)) i)) (rt_t (rt_frame (params c (B 0)) i))) with (rt_frame (params c (B 0)) i) in P by reflexivity.
    unfold stabilize_frame in Es. destruct (cpose_moves c B d Hok HB e0 He0) as [MA0 MTA0]. fold (C e0) in MA0, MTA0.
    pose proof (back_path (fun s => rt_r (C e0 s)) (fun s => rt_t (C e0 s)) X' 0 _ _ _ MA0 MTA0 MX A0ok) as P0. cbv beta in P0. replace (mkrt (rt_r (C e0 0)) (rt_t (C e0 0))) with (C e0 0) in P0 by (now destruct (C e0 0)).
    pose proof (back_Jx (C e0 0) (X' 0) A0ok) as J. destruct (back_J (C e0 0) (X' 0)) as [[[y Jr] Jt] Jx]. destruct P0 as [Ey _]. subst Jx.
    change (mv (mT (rodr (rt_r (C e0 0)))) (vsub (X' 0) (rt_t (C e0 0)))) with (back (C e0 0) (X' 0)) in Ey. rewrite Ey in Es.
    pose proof (back_Jx (rt_frame (params c (B 0)) i) (back (C e0 0) (X' 0)) AF) as JF. destruct (back_J (rt_frame (params c (B 0)) i) (back (C e0 0) (X' 0))) as [[[z Fr] Ft] Fx]. destruct P as [_ P]. subst Fx.
    destruct (solve33 _ Fr) as [a'|] eqn:Ea; [|discriminate]. destruct (solve33 _ Ft) as [b'|] eqn:Eb; [|discriminate]. injection Es as <- <-.
    apply solve33_spec in Ea, Eb. subst Fr Ft.
    match goal with |- moves3 _ _ ?y => evar (x : v3); replace y with x; [apply there_moves, there_moves; exact P|subst x] end.
    rewrite !mv_vadd, !mv_mm, !rodr_I. rewrite !mv_mscale. atoms. assert (IZR n <> 0) by (apply not_0_IZR; lia). apply v3_eq; vunfold; field; auto.
  Qed.
End Stabilize.

(** *** lists *)
Lemma all_some_nth : forall T (dflt : T) (f : nat -> option T) n k l, all_some (map f (seq k n)) = Some l -> forall i, (i < n)%nat -> f (k + i)%nat = Some (nth i l dflt).
Proof.
  intros T dflt f n. induction n as [|n IH]; intros k l; [intros _ i Hi; lia|]. cbn [seq map all_some]. destruct (f k) as [x|] eqn:E; [|discriminate].
  destruct (all_some (map f (seq (S k) n))) as [r|] eqn:Er; [|discriminate]. injection 1 as <-. intros [|i] Hi; [now rewrite Nat.add_0_r|]. cbn [nth]. rewrite <- (IH _ _ Er i) by lia. f_equal. lia.
Qed.
Lemma vsum_shift : forall K k (g : nat -> v3) l, vsum (map (fun i => vadd K (vscale k (g i))) l) = vadd (vscale (INR (length l)) K) (vscale k (vsum (map g l))).
Proof.
  intros K k g l. induction l as [|x l IH]; [cbn [map vsum fold_right length INR]; vring|]. cbn [map vsum fold_right]. fold (vsum (map (fun i => vadd K (vscale k (g i))) l)). fold (vsum (map g l)). rewrite IH.
  change (length (x :: l)) with (S (length l)). rewrite S_INR. set (y := vsum _). clearbody y. set (z := g x). clearbody z. set (q := INR _). clearbody q. vring.
Qed.
Lemma mean_shift : forall K (g : nat -> v3) N, (0 < N)%Z -> mean (map (fun i => vadd K (vscale (IZR N) (g i))) (seq 0 (Z.to_nat N))) = vadd K (vsum (map g (seq 0 (Z.to_nat N)))).
Proof.
  intros K g N H. unfold mean. rewrite vsum_shift, map_length, seq_length. rewrite INR_IZR_INZ, Z2Nat.id by lia. assert (IZR N <> 0) by (apply not_0_IZR; lia). set (y := vsum _). clearbody y. apply v3_eq; vunfold; field; auto.
Qed.

(** ** the columns of the state and of the pixels are those of the reported point *)
Theorem C75_gradient : forall stale c method i0 i1 e0 e1 (stabilize_coords : bool) B d Q0 Q1 dQ0 dQ1 vs0 vs1 V0 V1 t db,
  let p := c_p c in let I i s := intrinsics_data c (params c (B s)) i in let C := cpose c B in
  let X s := triangulated method (C e0 s) (C e1 s) (V0 s) (V1 s) in
  (* the problem, the cameras; the pixels and the state move *)
  problem_ok p -> lens_legal (p_lens p) -> splines_ok (p_lens p) -> leaves B d -> (0 <= i0 < p_Nci p)%Z -> (0 <= i1 < p_Nci p)%Z -> (e0 < p_Nce p)%Z -> (e1 < p_Nce p)%Z -> i0 <> i1 -> (e0 <> e1 \/ e0 < 0)%Z ->
  moves2 Q0 0 dQ0 -> moves2 Q1 0 dQ1 -> focal_ok (core_of (I i0 0)) -> focal_ok (core_of (I i1 0)) -> follows_pixel (p_lens p) (I i0) Q0 vs0 V0 -> follows_pixel (p_lens p) (I i1) Q1 vs1 V1 ->
  (* no tiny rotation *)
  angle_ok (rt_r (C e0 0)) -> angle_ok (rt_r (C e1 0)) -> compose_regular (rt_r (C e0 0)) (vneg (rt_r (C e1 0))) -> composes (fun s => rt_r (C e0 s)) (fun s => rt_r (C e1 s)) 0 ->
  angle_ok (compose_r2 (rt_r (C e0 0)) (vneg (rt_r (C e1 0))) false false) -> (forall i, (0 <= i < p_Nframes p)%Z -> angle_ok (rt_r (rt_frame (params c (B 0)) i))) ->
  method_regular method (V0 0) (mv (R01 (C e0 0) (C e1 0)) (V1 0)) (t01 (C e0 0) (C e1 0)) ->
  (* what the code computes *)
  triangulate_grad stale p (Some method) (I i0 0) (I i1 0) (C e0 0) (C e1 0) (Q0 0) (Q1 0) vs0 vs1 = inl t ->
  dp_db p (C e0 0) (rt_frame (params c (B 0))) i0 i1 e0 e1 stabilize_coords t = inl db ->
  t_p t = M_Triangulate.point_of (X 0) /\
  (X 0 <> None -> moves3 (settled c B e0 stabilize_coords (fun s => M_Triangulate.point_of (X s))) 0 (vadd (csum c d db) (pixel_part dQ0 dQ1 t))).
Proof.
  intros stale c method i0 i1 e0 e1 stab B d Q0 Q1 dQ0 dQ1 vs0 vs1 V0 V1 t db p I C X Hok HL SO HB Hi0 Hi1 He0 He1 Hi He D0 D1 HF0 HF1 HV0 HV1 A0ok A1ok Hreg Hcmp A01ok AF Hmr Ht Hdb.
  destruct (point_moves stale c method i0 i1 e0 e1 B d Q0 Q1 dQ0 dQ1 vs0 vs1 V0 V1 Hok HL SO HB Hi0 Hi1 He0 He1 D0 D1 HF0 HF1 HV0 HV1 A0ok A1ok Hreg Hcmp A01ok Hmr t Ht) as [EP MP].
  split; [exact EP|]. intro NN. specialize (MP NN). fold C in MP, EP. change (triangulated method (C e0 0) (C e1 0) (V0 0) (V1 0)) with (X 0) in EP.
  change (moves3 (fun s => M_Triangulate.point_of (X s)) 0
    (vadd (vadd (vadd (vadd (isum c (fun i => mv (t_dv0 t) (t_di0 t i)) (dI c d i0)) (isum c (fun i => mv (t_dv1 t) (mv (t_v1v t) (t_di1 t i))) (dI c d i1))) (vadd (mv (A1 t) (rt_r (cvel c d e1))) (mv (B1 t) (rt_t (cvel c d e1)))))
      (vadd (mv (A0 t) (rt_r (cvel c d e0))) (mv (B0 t) (rt_t (cvel c d e0))))) (pixel_part dQ0 dQ1 t))) in MP.
  destruct (dp_db_sum c d Hok (C e0 0) (rt_frame (params c (B 0))) i0 i1 e0 e1 stab t db Hi He Hi0 Hi1 He0 He1 Hdb) as (a & b & l & Hab & Hl & ES). rewrite ES. clear ES Hdb Ht.
  set (P s := M_Triangulate.point_of (X s)) in *. change (M_Triangulate.point_of (X 0)) with (P 0) in EP. rewrite EP in Hab, Hl.
  set (I0 := isum c _ (dI c d i0)) in *. set (I1 := isum c _ (dI c d i1)) in *. set (E1 := vadd (mv (A1 t) _) _) in *. set (pp := pixel_part dQ0 dQ1 t) in *. clearbody I0 I1 E1 pp.
  rewrite !mv_madd. set (x0 := mv (A0 t) _) in *. set (x1 := mv (B0 t) _) in *. clearbody x0 x1.
  unfold moving_frames in *. fold p in Hl |- *. unfold settled. cbv zeta. fold p. fold C. destruct stab; cbn [andb] in *.
  - destruct (camera_back c e0 B d Hok HB He0 A0ok P _ a b MP Hab) as (y' & MY & EY). fold C in MY, EY. set (ya := mv a _) in *. set (yb := mv b _) in *. clearbody ya yb.
    destruct (do_frames (p_sel p) && (0 <? p_Nframes p)%Z)%bool eqn:EF.
    + apply andb_prop in EF. destruct EF as [_ EF]. apply Z.ltb_lt in EF. specialize (Hl eq_refl). pose proof (all_some_nth _ (zero33, zero33) _ _ _ _ Hl) as Hn. clear Hl. cbn [Nat.add] in Hn.
      set (K := mv (rodr (rt_r (C e0 0))) y') in *.
      match goal with |- moves3 _ _ ?y => replace y with (vadd K (vsum (map (fterm c d l) (seq 0 (Z.to_nat (p_Nframes p)))))) end.
      2:{ rewrite EY. set (z := vsum _). clearbody z. vring. }
      rewrite <- mean_shift by exact EF. apply mean_moves. intros i Hin. apply in_seq in Hin. specialize (Hn i ltac:(lia)). assert (0 <= Z.of_nat i < p_Nframes p)%Z as Hr by lia.
      unfold fterm. cbv zeta. destruct (nth i l (zero33, zero33)) as [a' b']. cbn [fst snd].
      exact (frame_back c e0 B d Hok HB He0 A0ok P _ y' (Z.of_nat i) a' b' (p_Nframes p) MP (AF _ Hr) Hr EF MY Hn).
    + match goal with |- moves3 _ _ ?y => replace y with (mv (rodr (rt_r (C e0 0))) y') end; [apply there_moves; exact MY|]. rewrite EY. vring.
  - destruct Hab as [-> ->]. rewrite !mv_zero33. match type of MP with moves3 _ _ ?x => match goal with |- moves3 _ _ ?y => replace y with x end end; [exact MP|]. vring.
Qed.
Print Assumptions C75_gradient.

(** ** nothing else can go wrong: the rotations can be solved for, and the columns fit, but see below *)
Lemma solvable : forall A B, det A <> 0 -> solve33 A B <> None.
Proof. intros A B D. unfold solve33. destruct (Req_EM_T _ _); [contradiction|discriminate]. Qed.
Lemma det_back : forall r, det (mT (rodr r)) = 1.
Proof. intro r. rewrite det_mT. apply (rodr_rot r). Qed.
Lemma camera_solvable : forall rt0 x, angle_ok (rt_r rt0) -> exists ab, stabilize_camera rt0 x = Some ab.
Proof.
  intros rt0 x H. unfold stabilize_camera. pose proof (back_Jx rt0 x H) as J. destruct (back_J rt0 x) as [[[y Jr] Jt] Jx]. subst Jx.
  assert (det (mT (rodr (rt_r rt0))) <> 0) as D by (rewrite det_back; lra). pose proof (solvable _ Jr D). pose proof (solvable _ Jt D). destruct (solve33 _ Jr); [|contradiction]. destruct (solve33 _ Jt); [|contradiction]. now eexists.
Qed.
Lemma frame_solvable : forall rt0 x n f, angle_ok (rt_r rt0) -> angle_ok (rt_r f) -> exists ab, stabilize_frame rt0 x n f = Some ab.
Proof.
  intros rt0 x n f H F. unfold stabilize_frame. pose proof (back_Jx rt0 x H) as J. destruct (back_J rt0 x) as [[[y Jr] Jt] Jx]. subst Jx. pose proof (back_Jx f y F) as J. destruct (back_J f y) as [[[z Fr] Ft] Fx]. subst Fx.
  assert (det (mm (mT (rodr (rt_r f))) (mT (rodr (rt_r rt0)))) <> 0) as D by (rewrite det_mm, !det_back; lra). pose proof (solvable _ Fr D). pose proof (solvable _ Ft D). destruct (solve33 _ Fr); [|contradiction]. destruct (solve33 _ Ft); [|contradiction]. now eexists.
Qed.
Lemma all_solvable : forall T (f : nat -> option T) l, (forall i, In i l -> exists x, f i = Some x) -> exists r, all_some (map f l) = Some r.
Proof.
  intros T f l. induction l as [|i l IH]; intro H; [now exists []|]. cbn [map all_some]. destruct (H i (or_introl eq_refl)) as [x ->]. destruct (IH (fun j J => H j (or_intror J))) as [r ->]. now eexists.
Qed.
(** the lenses of 4 parameters: PINHOLE, STEREOGRAPHIC, LONLAT, LATLON. slice(None,-0) is empty *)
Definition core_only (p : problem) : Prop := do_core (p_sel p) = true /\ do_dist (p_sel p) = false /\ num_params (p_lens p) = 4%Z.
Lemma params_4 : forall m, lens_ok m -> (4 <= num_params m)%Z.
Proof. intros []; cbn [lens_ok num_params]; try lia. unfold u16. intros (_ & ? & ? & _). nia. Qed.
Lemma slice_fits : forall p, problem_ok p -> (0 < num_intrinsics_opt (p_sel p) (p_lens p))%Z ->
  snd (slice_optimized_intrinsics p) = num_intrinsics_opt (p_sel p) (p_lens p) <-> ~ core_only p.
Proof.
  intros p Hok. unfold core_only, slice_optimized_intrinsics, num_intrinsics_opt, num_distortions_opt, has_core. cbv zeta. cbn [snd]. pose proof (params_4 _ (proj1 Hok)) as N4.
  destruct (do_core (p_sel p)), (do_dist (p_sel p)); cbn [negb andb]; intro P.
  - split; [intros _ (_ & F & _); discriminate|]. intros _. lia.
  - destruct (Z.eqb_spec (num_params (p_lens p) - 4) 0).
    + split; [lia|]. intro F. destruct F. repeat split; lia.
    + split; [intros _ (_ & _ & F); lia|]. intros _. lia.
  - split; [intros _ (F & _); discriminate|]. intros _. lia.
  - lia.
Qed.
Lemma put_fits : forall p db icam f, problem_ok p -> ~ core_only p -> exists r, put_intrinsics_cols p db icam f = inl r.
Proof.
  intros p db icam f Hok H. unfold put_intrinsics_cols. destruct (maybe_index (state_index_intrinsics p icam)) as [i|] eqn:E; [|now eexists].
  assert (0 < num_intrinsics_opt (p_sel p) (p_lens p))%Z as P. { revert E. unfold maybe_index, state_index_intrinsics. destruct (p_Nci p <=? 0)%Z; [discriminate|]. destruct (Z.leb_spec (num_intrinsics_opt (p_sel p) (p_lens p)) 0); [discriminate|lia]. }
  apply (slice_fits p Hok P) in H. destruct (slice_optimized_intrinsics p) as [start n]. cbn [snd] in H. rewrite H, Z.eqb_refl. now eexists.
Qed.
Theorem C75_reported : forall p rt0 frame i0 i1 e0 e1 (stabilize_coords : bool) t, problem_ok p -> (0 <= i0 < p_Nci p)%Z -> angle_ok (rt_r rt0) -> (forall i, (0 <= i < p_Nframes p)%Z -> angle_ok (rt_r (frame i))) ->
  ((exists db, dp_db p rt0 frame i0 i1 e0 e1 stabilize_coords t = inl db) <-> ~ core_only p) /\ (dp_db p rt0 frame i0 i1 e0 e1 stabilize_coords t = inr Bad_shape <-> core_only p).
Proof.
  intros p rt0 frame i0 i1 e0 e1 stab t Hok Hi H0 HF. unfold dp_db. cbv zeta.
  assert (exists cam, (if stab then match stabilize_camera rt0 (t_p t) with Some s => Some (Some s) | None => None end else Some None) = Some cam) as [cam ->].
  { destruct stab; [|now eexists]. destruct (camera_solvable rt0 (t_p t) H0) as [ab ->]. now eexists. }
  match goal with |- context [match ?x with Some i => match all_some _ with _ => _ end | None => Some None end] => assert (exists fr, match x with Some i => match all_some (map (fun j => stabilize_frame rt0 (t_p t) (p_Nframes p) (frame (Z.of_nat j))) (seq 0 (Z.to_nat (p_Nframes p)))) with Some l => Some (Some (i, l)) | None => None end | None => Some None end = Some fr) as [fr ->] end.
  { destruct (if stab then _ else _) as [i|]; [|now eexists]. destruct (all_solvable _ (fun j => stabilize_frame rt0 (t_p t) (p_Nframes p) (frame (Z.of_nat j))) (seq 0 (Z.to_nat (p_Nframes p)))) as [l ->]; [|now eexists].
    intros i' Hin. apply in_seq in Hin. apply frame_solvable; [exact H0|apply HF; lia]. }
  assert (~ core_only p -> exists db, match put_intrinsics_cols p (fun _ => v0) i0 (fun i => mv (t_dv0 t) (t_di0 t i)) with
    | inl db => match put_intrinsics_cols p db i1 (fun i => mv (t_dv1 t) (mv (t_v1v t) (t_di1 t i))) with
      | inl db => inl (match fr with Some (i, l) => put_cols (put_e0 p e0 t cam (put_e1 p e1 t db)) i (num_states_frames p) (fun n => let '(a, b) := nth (n / 6) l (zero33, zero33) in col6 a b (n mod 6)) | None => put_e0 p e0 t cam (put_e1 p e1 t db) end)
      | inr e => inr e end | inr e => inr e end = inl db) as Y.
  { intro H. destruct (put_fits p (fun _ => v0) i0 (fun i => mv (t_dv0 t) (t_di0 t i)) Hok H) as [r ->]. destruct (put_fits p r i1 (fun i => mv (t_dv1 t) (mv (t_v1v t) (t_di1 t i))) Hok H) as [r' ->]. now eexists. }
  assert (core_only p -> put_intrinsics_cols p (fun _ => v0) i0 (fun i => mv (t_dv0 t) (t_di0 t i)) = inr Bad_shape) as N.
  { intro H. unfold put_intrinsics_cols. assert (num_intrinsics_opt (p_sel p) (p_lens p) = 4)%Z as E4. { destruct H as (A & B & N4). unfold num_intrinsics_opt, num_distortions_opt, has_core. rewrite A, B. reflexivity. }
    assert (snd (slice_optimized_intrinsics p) <> num_intrinsics_opt (p_sel p) (p_lens p)) as NE by (intro E; apply slice_fits in E; [now apply E|exact Hok|lia]).
    unfold maybe_index, state_index_intrinsics. rewrite E4 in *. destruct (Z.leb_spec (p_Nci p) 0); [lia|]. cbn [Z.leb Z.compare]. destruct (Z.leb_spec 0 i0), (Z.ltb_spec i0 (p_Nci p)); try lia. cbn [andb negb].
    destruct (Z.ltb_spec (i0 * 4) 0); [lia|]. destruct (slice_optimized_intrinsics p) as [start n]. cbn [snd] in NE. destruct (Z.eqb_spec n 4); [contradiction|reflexivity]. }
  assert (core_only p \/ ~ core_only p) as [D|D]. { unfold core_only. destruct (do_core (p_sel p)), (do_dist (p_sel p)); try (right; intros (? & ? & ?); discriminate). destruct (Z.eq_dec (num_params (p_lens p)) 4) as [E|E]; [left; auto|right; intros (_ & _ & ?); contradiction]. }
  - rewrite (N D). split; split; try tauto. intros [db F]. discriminate.
  - destruct (Y D) as [db E]. split; split; try tauto. intro F. exfalso. congruence.
Qed.
Print Assumptions C75_reported.

(** ** noise in the pixels *)
Definition quad3 (V : nat -> nat -> R) (w : v3) : R := rsum 3 (fun a => rsum 3 (fun b => vcol w a * V a b * vcol w b)).
Theorem C75_observation : forall (J : nat -> v3) sigma c w,
  quad3 (propagate4 J (Var_q_triangulation sigma c)) w =
    (* noise common to both cameras, and noise of each *)
    (sigma * c) ^ 2 * (dot w (vadd (J 0%nat) (J 2%nat)) ^ 2 + dot w (vadd (J 1%nat) (J 3%nat)) ^ 2) +
    sigma ^ 2 * (1 - c ^ 2) * rsum 4 (fun i => dot w (J i) ^ 2) /\
  (-1 <= c <= 1 -> 0 <= quad3 (propagate4 J (Var_q_triangulation sigma c)) w).
Proof.
  intros J sigma c w.
  assert (quad3 (propagate4 J (Var_q_triangulation sigma c)) w = (sigma * c) ^ 2 * (dot w (vadd (J 0%nat) (J 2%nat)) ^ 2 + dot w (vadd (J 1%nat) (J 3%nat)) ^ 2) + sigma ^ 2 * (1 - c ^ 2) * rsum 4 (fun i => dot w (J i) ^ 2)) as E.
  { unfold quad3, propagate4, Var_q_triangulation. cbn [fold_left rsum Nat.eqb vcol]. vunfold. ring. }
  split; [exact E|]. intro H. rewrite E. cbn [rsum]. assert (0 <= 1 - c ^ 2) by nra.
  repeat match goal with |- 0 <= _ + _ => apply Rplus_le_le_0_compat | |- 0 <= _ * _ => apply Rmult_le_pos | |- 0 <= _ ^ 2 => apply pow2_ge_0 end; lra.
Qed.
Print Assumptions C75_observation.
Theorem C75_observation_symmetric : forall (J : nat -> v3) sigma c a b, (a < 3)%nat -> (b < 3)%nat -> propagate4 J (Var_q_triangulation sigma c) a b = propagate4 J (Var_q_triangulation sigma c) b a.
Proof.
  intros J sigma c a b _ _. unfold propagate4, Var_q_triangulation. cbn [fold_left Nat.eqb]. ring.
Qed.
Print Assumptions C75_observation_symmetric.

(** ** what triangulate() returns *)
Lemma add_blocks : forall Vo n V i j, fold_left (fun V ipt => add_block V ipt (Vo ipt)) (seq 0 n) V i j =
  V i j + (if Nat.eqb (i / 3) (j / 3) && Nat.ltb (i / 3) n then Vo (i / 3)%nat (i mod 3)%nat (j mod 3)%nat else 0).
Proof.
  intros Vo n V i j. induction n as [|n IH]; [cbn [seq fold_left]; rewrite andb_false_r; ring|].
  rewrite seq_S, fold_left_app. cbn [fold_left Nat.add]. unfold add_block at 1. rewrite IH. clear IH.
  pose proof (Nat.div_mod i 3 ltac:(lia)). pose proof (Nat.div_mod j 3 ltac:(lia)). pose proof (Nat.mod_upper_bound i 3 ltac:(lia)). pose proof (Nat.mod_upper_bound j 3 ltac:(lia)).
  set (qi := (i / 3)%nat) in *. set (ri := (i mod 3)%nat) in *. set (qj := (j / 3)%nat) in *. set (rj := (j mod 3)%nat) in *. clearbody qi ri qj rj.
  destruct (Nat.leb_spec (n * 3) i), (Nat.ltb_spec i ((n + 1) * 3)), (Nat.leb_spec (n * 3) j), (Nat.ltb_spec j ((n + 1) * 3)), (Nat.eqb_spec qi qj), (Nat.ltb_spec qi n), (Nat.ltb_spec qi (S n)); cbn [andb]; try lia; try ring.
  assert (qi = n) as -> by lia. replace (i - n * 3)%nat with ri by lia. replace (j - n * 3)%nat with rj by lia. ring.
Qed.
Theorem C75_outputs : forall N qc qo Vcal Vobs, (forall s, qo = Some s -> 0 <= s) ->
  exists v, covariances N qc qo Vcal Vobs = Some v /\
  match qc, qo, v with
  | None, None, Nothing_asked => True
  | Some s, None, Calibration Vc => (s = 0 -> forall i j, Vc i j = 0) /\ (0 < s -> Vc = Vcal (Some s)) /\ (s < 0 -> Vc = Vcal None)
  | None, Some s, Observation Vo => (s = 0 -> forall k i j, Vo k i j = 0) /\ (0 < s -> Vo = Vobs)
  | Some s, Some r, Both Vc Vo Vj =>
    (s = 0 -> forall i j, Vc i j = 0) /\ (0 < s -> Vc = Vcal (Some s)) /\ (s < 0 -> Vc = Vcal None) /\ (s = 0 /\ r = 0 -> forall k i j, Vo k i j = 0) /\ (s <> 0 \/ r <> 0 -> Vo = Vobs) /\
    (* the points have independent observation noise, and this is independent of the calibration noise *)
    forall k l a b, (k < N)%nat -> (l < N)%nat -> (a < 3)%nat -> (b < 3)%nat -> Vj (3 * k + a)%nat (3 * l + b)%nat = Vc (3 * k + a)%nat (3 * l + b)%nat + if Nat.eqb k l then Vo k a b else 0
  | _, _, _ => False
  end.
Proof.
  intros N qc qo Vcal Vobs H. unfold covariances.
  assert ((match qo with Some s => if Rlt_dec s 0 then true else false | None => false end) = false) as ->. { destruct qo as [s|]; [|reflexivity]. specialize (H s eq_refl). destruct (Rlt_dec s 0); [lra|reflexivity]. }
  cbv zeta. eexists. split; [reflexivity|].
  assert (forall Vc Vo (k l a b : nat), (k < N)%nat -> (l < N)%nat -> (a < 3)%nat -> (b < 3)%nat ->
    fold_left (fun V ipt => add_block V ipt (Vo ipt)) (seq 0 N) Vc (3 * k + a)%nat (3 * l + b)%nat = Vc (3 * k + a)%nat (3 * l + b)%nat + if Nat.eqb k l then Vo k a b else 0) as J.
  { intros Vc Vo k l a b K L A B. rewrite add_blocks. replace ((3 * k + a) / 3)%nat with k by (apply Nat.div_unique with a; lia). replace ((3 * l + b) / 3)%nat with l by (apply Nat.div_unique with b; lia).
    replace ((3 * k + a) mod 3)%nat with a by (apply Nat.mod_unique with k; lia). replace ((3 * l + b) mod 3)%nat with b by (apply Nat.mod_unique with l; lia). destruct (Nat.ltb_spec k N); [|lia]. rewrite andb_true_r. reflexivity. }
  destruct qc as [s|], qo as [r|]; cbn [none_or_0]; repeat destruct (Req_EM_T _ _); cbn [andb]; subst; repeat destruct (Rlt_dec _ _); try (specialize (H _ eq_refl));
    repeat match goal with |- _ /\ _ => split end; try exact Logic.I; intros; try reflexivity; try lra; try (now apply J); try (exfalso; tauto).
  destruct (Nat.eqb k l); ring.
Qed.
Print Assumptions C75_outputs.
Theorem C75_refused : forall N qc s Vcal Vobs, s < 0 -> covariances N qc (Some s) Vcal Vobs = None.
Proof. intros N qc s Vcal Vobs H. unfold covariances. destruct (Rlt_dec s 0); [reflexivity|lra]. Qed.
Print Assumptions C75_refused.

(** two calibrated pinhole cameras, only the focal lengths and the centers being optimized: an exception *)
Definition ex75_p (dist : bool) : problem :=
  {| p_lens := PINHOLE; p_sel := {| do_core := true; do_dist := dist; do_ext := true; do_frames := true; do_warp := false; do_reg := false; do_unity := false |}; p_Nci := 2; p_Nce := 1; p_Nframes := 1; p_Npoints := 0; p_Npoints_fixed := 0;
     p_boards := [{| bo_icam_i := 0; bo_icam_e := -1; bo_iframe := 0 |}; {| bo_icam_i := 1; bo_icam_e := 0; bo_iframe := 0 |}]; p_points := []; p_tri := []; p_w := 2; p_h := 2 |}%Z.
Lemma ex75_ok : forall dist, problem_ok (ex75_p dist) /\ obs_ok (ex75_p dist).
Proof. intro dist. split; [repeat split; cbn; lia|]. repeat split; repeat constructor; cbn; lia. Qed.
Theorem C75_pinhole_refuted : exists p, problem_ok p /\ obs_ok p /\ (0 < num_intrinsics_opt (p_sel p) (p_lens p))%Z /\
  forall rt0 frame e0 e1 (stabilize_coords : bool) t, angle_ok (rt_r rt0) -> (forall i, angle_ok (rt_r (frame i))) -> dp_db p rt0 frame 0 1 e0 e1 stabilize_coords t = inr Bad_shape.
Proof.
  exists (ex75_p false). destruct (ex75_ok false) as [A B]. split; [exact A|]. split; [exact B|]. split; [cbn; lia|].
  intros rt0 frame e0 e1 stab t H0 HF. apply C75_reported; auto; [cbn; lia|]. repeat split.
Qed.
Print Assumptions C75_pinhole_refuted.

(** ** The hypotheses are satisfiable *)
Definition ex75_c : context :=
  {| c_p := ex75_p true; c_intr := fun _ _ => 0; c_cam := fun _ => mkrt v0 v0; c_frame := fun _ => mkrt v0 v0; c_point := fun _ => v0;
     c_warp := None; c_imager := fun _ => 1000%Z; c_spacing := 1; c_bpool := fun _ => V3 0 0 1; c_ppool := fun _ => V3 0 0 1; c_tri_px := fun _ => v0 |}.
Definition ex75_b (k : nat) : R := match k with 11%nat => -2 | 13%nat => 2 | 14%nat => 1 | _ => if Nat.ltb k 8 then 1 else 0 end.
Example C75_example : forall stale d vs0 vs1 (stabilize_coords : bool),
  let c := ex75_c in let B := fun s k => ex75_b k + s * d k in let I i s := intrinsics_data c (params c (B s)) i in let C := cpose c B in
  let Q0 s := P2 (20 + 250 + s) (20 - 3 * s) in let Q1 s := P2 (20 - 125) (20 + s) in
  let V0 s := closed_unproject PINHOLE (I 0%Z s) (Q0 s) in let V1 s := closed_unproject PINHOLE (I 1%Z s) (Q1 s) in
  let X s := triangulated Leecivera_mid2 (C (-1)%Z s) (C 0%Z s) (V0 s) (V1 s) in
  M_Triangulate.point_of (X 0) = V3 1 0 2 /\
  exists t db, triangulate_grad stale (c_p c) (Some Leecivera_mid2) (I 0%Z 0) (I 1%Z 0) (C (-1)%Z 0) (C 0%Z 0) (Q0 0) (Q1 0) vs0 vs1 = inl t /\
    dp_db (c_p c) (C (-1)%Z 0) (rt_frame (params c (B 0))) 0 1 (-1) 0 stabilize_coords t = inl db /\ t_p t = V3 1 0 2 /\
    moves3 (settled c B (-1) stabilize_coords (fun s => M_Triangulate.point_of (X s))) 0 (vadd (csum c d db) (pixel_part (P2 1 (-3)) (P2 0 1) t)).
Proof.
  intros stale d vs0 vs1 stab c B I C Q0 Q1 V0 V1 X. destruct (ex75_ok true) as [Hok _].
  assert (forall k, B 0 k = ex75_b k) as E0 by (intro k; unfold B; ring).
  assert (C 0%Z 0 = mkrt v0 (V3 (-2) 0 2)) as EC.
  {
    change (C 0%Z 0) with (mkrt (V3 (B 0 8%nat * scale S_rot_cam) (B 0 9%nat * scale S_rot_cam) (B 0 10%nat * scale S_rot_cam)) (V3 (B 0 11%nat * scale S_trans_cam) (B 0 12%nat * scale S_trans_cam) (B 0 13%nat * scale S_trans_cam))).
    rewrite !E0. cbn [ex75_b Nat.ltb Nat.leb scale]. unfold v0. f_equal; apply v3_eq; cbn [vx vy vz]; ring. }
  assert (forall i, (i < 2)%nat -> core_of (I (Z.of_nat i) 0) = {| fx := 500; fy := 500; cx := 20; cy := 20 |}) as EI.
  { intros i Hi. assert (i = 0 \/ i = 1)%nat as [-> | ->] by lia.
    - change (core_of (I (Z.of_nat 0) 0)) with {| fx := B 0 0%nat * scale S_focal; fy := B 0 1%nat * scale S_focal; cx := B 0 2%nat * scale S_center; cy := B 0 3%nat * scale S_center |}. rewrite !E0. cbn [ex75_b Nat.ltb Nat.leb scale]. f_equal; ring.
    - change (core_of (I (Z.of_nat 1) 0)) with {| fx := B 0 4%nat * scale S_focal; fy := B 0 5%nat * scale S_focal; cx := B 0 6%nat * scale S_center; cy := B 0 7%nat * scale S_center |}. rewrite !E0. cbn [ex75_b Nat.ltb Nat.leb scale]. f_equal; ring. }
  pose proof (EI 0%nat ltac:(lia)) as EI0. pose proof (EI 1%nat ltac:(lia)) as EI1. cbn [Z.of_nat Pos.of_succ_nat] in EI0, EI1. clear EI.
  assert (V0 0 = V3 (1 / 2) 0 1) as EV0 by (unfold V0, Q0, closed_unproject, unproject_pinhole; rewrite EI0; cbn [fx fy cx cy px py]; apply v3_eq; cbn [vx vy vz]; field).
  assert (V1 0 = V3 (- 1 / 4) 0 1) as EV1 by (unfold V1, Q1, closed_unproject, unproject_pinhole; rewrite EI1; cbn [fx fy cx cy px py]; apply v3_eq; cbn [vx vy vz]; field).
  assert (C (-1)%Z 0 = mkrt v0 v0) as EM by reflexivity.
  assert (R01 (C (-1)%Z 0) (C 0%Z 0) = I3) as ER by (rewrite EM, EC; unfold R01; cbn [rt_r]; rewrite rodr_0; vring).
  assert (t01 (C (-1)%Z 0) (C 0%Z 0) = V3 2 0 (-2)) as ET by (unfold t01; rewrite ER, mv_I, EM, EC; cbn [rt_t]; vring).
  assert (M_Triangulate.point_of (X 0) = V3 1 0 2) as EX.
  { unfold X, triangulated. rewrite ER, ET, mv_I, EV0, EV1. cbn [tri_of]. apply (C_Triangulate.C33_mid2 (V3 (1 / 2) 0 1) (V3 (- 1 / 4) 0 1) (V3 2 0 (-2)) (V3 1 0 2) 2 4).
    - repeat split; try lra; apply v3_eq; vunfold; field.
    - intro Z. apply (f_equal vy) in Z. vunfold. lra. }
  split; [exact EX|].
  assert (angle_ok (rt_r (C (-1)%Z 0))) as A0 by (left; reflexivity). assert (angle_ok (rt_r (C 0%Z 0))) as A1 by (left; rewrite EC; reflexivity).
  assert (forall i, (0 <= i < p_Nframes (c_p c))%Z -> angle_ok (rt_r (rt_frame (params c (B 0)) i))) as AF.
  { intros i Hi. assert (i = 0)%Z as -> by (cbn in Hi; lia). right.
    change (rt_r (rt_frame (params c (B 0)) 0)) with (V3 (B 0 14%nat * scale S_rot_frame) (B 0 15%nat * scale S_rot_frame) (B 0 16%nat * scale S_rot_frame)). rewrite !E0. cbn [ex75_b Nat.ltb Nat.leb scale].
    pose proof PI2_1 as P2. unfold norm. match goal with |- _ < sqrt ?x => replace x with ((15 * PI / 180) * (15 * PI / 180)) by (vunfold; ring) end. rewrite sqrt_square by lra. lra. }
  destruct (triangulate_grad stale (c_p c) (Some Leecivera_mid2) (I 0%Z 0) (I 1%Z 0) (C (-1)%Z 0) (C 0%Z 0) (Q0 0) (Q1 0) vs0 vs1) as [t|e] eqn:Et.
  2:{ exfalso. revert Et. unfold triangulate_grad. destruct (inverted _) as [[? ?] ?]. destruct (compose_rt2_grad _ _ _ _). cbn [c_p c ex75_c ex75_p p_lens unproject_grads closed_form]. destruct (rotJ _ _ _) as [[? ?] ?]. discriminate. }
  destruct (C75_reported (c_p c) (C (-1)%Z 0) (rt_frame (params c (B 0))) 0 1 (-1) 0 stab t Hok ltac:(cbn; lia) A0 AF) as [[_ K] _]. destruct K as [db Edb]; [intros (_ & F & _); discriminate|].
  exists t, db. split; [reflexivity|]. split; [exact Edb|].
  destruct (C75_gradient stale c Leecivera_mid2 0 1 (-1) 0 stab B d Q0 Q1 (P2 1 (-3)) (P2 0 1) vs0 vs1 V0 V1 t db) as [EP MP]; try exact Logic.I; try assumption; try (cbn; lia).
  - intro k. unfold B. auto_derive; [exact Logic.I|ring].
  - split; unfold Q0; cbn [px py]; auto_derive; auto; ring.
  - split; unfold Q1; cbn [px py]; auto_derive; auto; ring.
  - fold (I 0%Z 0). rewrite EI0. split; cbn; lra.
  - fold (I 1%Z 0). rewrite EI1. split; cbn; lra.
  - left. split; [exact Logic.I|reflexivity].
  - left. split; [exact Logic.I|reflexivity].
  - fold C. rewrite EM, EC. cbn [rt_r]. assert (vneg v0 = v0) as -> by vring. assert (half v0 = 0) as HH by (unfold half, norm, norm2; replace (dot v0 v0) with 0 by (vunfold; ring); rewrite sqrt_0; ring). unfold compose_regular. rewrite HH. unfold eps8. repeat split; intros; lra.
  - right. left. reflexivity.
  - fold C. rewrite EM, EC. cbn [rt_r]. assert (vneg v0 = v0) as -> by vring. rewrite (proj1 (C23_compose_identity v0)). now left.
  - split; [rewrite EP; exact EX|]. apply MP. intro N. fold (X 0) in N. change (X 0 = None) in N. rewrite N in EX. apply (f_equal vx) in EX. cbn in EX. lra.
Qed.
