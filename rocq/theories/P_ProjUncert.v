(** Proofs for C70: rotations along a path, the dense rows of mrcal_project(), sums over the state. *)
From Coq Require Import Reals Lra Psatz Lia Arith ZArith QArith Qreals Bool List Sorted.
From Coquelicot Require Import Coquelicot.
From Verif Require Import S_Vec S_Curve S_LensGrad P_Trig M_Dual P_Dual P_DualPath P_Pose M_Pose P_PoseJ P_PoseGrad P_Compose C_PoseGrad P_PathGrad C_Rodrigues C_Rt C_RtVec
  M_Project C_Project M_Lens M_Layout S_Layout P_Layout M_SplineIdx M_Spline P_Spline C_Spline M_OpenCV M_Cahvore M_Splined M_Unproject
  C_ProjectGrad C_LensGrad C_Splined C_Cahvore C_CahvoreGrad C_Unproject M_Callback S_Callback P_Callback M_Pack S_Pack P_Pack M_Residuals P_Jacobian C_Jacobian C_Residuals P_Uncert M_ProjUncert.
Import ListNotations.
Open Scope R_scope.

(** ** A rotation that moves *)
Lemma sin_quad : forall n, 0 <= n -> Rabs (sin n - n) <= 2 * (n * n).
Proof.
  intros n H. destruct (Rle_dec n 1) as [L|L].
  - destruct (sin_bounds n ltac:(lra)) as [A B]. apply Rabs_le. assert (0 <= n ^ 3 <= n * n) by (split; [apply pow_le; lra|simpl; nra]).
    assert (n ^ 5 <= n ^ 3) by (replace (n ^ 5) with (n ^ 3 * (n * n)) by ring; nra). lra.
  - destruct (SIN_bound n). apply Rabs_le. nra.
Qed.
Lemma cos_quad : forall n, 0 <= n -> 0 <= 1 - cos n <= n * n.
Proof.
  intros n H. destruct (COS_bound n). split; [lra|]. destruct (Rle_dec n 2) as [L|L]; [|nra].
  replace n with (2 * (n / 2)) at 1 by field. rewrite cos_2a_sin.
  assert (Rabs (sin (n / 2)) <= n / 2) as Q.
  { destruct (sin_bounds (n / 2) ltac:(lra)) as [A B]. set (x := n / 2) in *. assert (0 <= x <= 1) by (unfold x; lra).
    assert (0 <= x ^ 3 <= x) by (split; [apply pow_le; lra|simpl; nra]).
    assert (x ^ 5 <= x ^ 3) by (replace (x ^ 5) with (x ^ 3 * (x * x)) by ring; nra). apply Rabs_le. lra. }
  apply Rabs_def2 in Q || idtac. assert (- (n / 2) <= sin (n / 2) <= n / 2) as [Q1 Q2] by (apply Rabs_le_between; exact Q). nra.
Qed.
Lemma rodr_0 : rodr v0 = I3.
Proof. unfold rodr. rewrite norm_v0, sin_0, cos_0. unfold rod, unit, v0. cbn [vx vy vz]. apply m33_eq; vunfold; ring. Qed.
Lemma rodr_near : forall r i j, (i < 3)%nat -> (j < 3)%nat -> Rabs (mget (rodr r) i j - mget I3 i j - mget (skew_symmetric r) i j) <= 4 * norm2 r.
Proof.
  intros r i j Hi Hj. destruct (Req_dec (norm2 r) 0) as [Z|Z].
  { apply norm2_zero in Z. subst r. rewrite rodr_0. destruct i as [|[|[|i]]]; [| | |lia]; destruct j as [|[|[|j]]]; try lia; vunfold; unfold skew_symmetric; cbn; match goal with |- Rabs ?x <= ?y => replace x with 0 by ring; replace y with 0 by ring end; rewrite Rabs_R0; lra. }
  assert (r <> v0) as N. { intros ->. apply Z. vunfold. ring. }
  pose proof (unit_scale r N) as E. pose proof (P_Pose.unit_norm2 r N) as U. pose proof (norm_sq r) as Q. pose proof (norm_nonneg r) as P.
  replace (skew_symmetric r) with (skew_symmetric (vscale (norm r) (unit r))) by now rewrite E. unfold rodr. set (u := unit r) in *. rewrite <- Q. set (n := norm r) in *. clearbody u n. clear E Q Z N r.
  pose proof (sin_quad n P) as Sq. pose proof (cos_quad n P) as Cq. apply Rabs_le_between in Sq.
  destruct u as [a b c]. unfold norm2, dot in U. cbn [vx vy vz] in U.
  assert (-1 <= a <= 1) by nra. assert (-1 <= b <= 1) by nra. assert (-1 <= c <= 1) by nra.
  set (s := sin n) in *. set (co := 1 - cos n) in *. assert (cos n = 1 - co) as -> by (unfold co; ring). clearbody s co.
  assert (forall x y, -1 <= x <= 1 -> -1 <= y <= 1 -> - (n * n) <= co * x * y <= n * n) as W.
  { intros x y Hx Hy. assert (-1 <= x * y <= 1) by nra. rewrite Rmult_assoc. set (w := x * y) in *. nra. }
  assert (forall x, -1 <= x <= 1 -> - (2 * (n * n)) <= (s - n) * x <= 2 * (n * n)) as V by (intros x Hx; nra).
  assert (forall x, -1 <= x <= 1 -> - (n * n) <= co * (x * x - 1) <= n * n) as D by (intros x Hx; assert (-1 <= x * x - 1 <= 0) by nra; nra).
  pose proof (W a b ltac:(lra) ltac:(lra)). pose proof (W a c ltac:(lra) ltac:(lra)). pose proof (W b c ltac:(lra) ltac:(lra)).
  pose proof (V a ltac:(lra)). pose proof (V b ltac:(lra)). pose proof (V c ltac:(lra)). pose proof (D a ltac:(lra)). pose proof (D b ltac:(lra)). pose proof (D c ltac:(lra)). clear W V D.
  assert (0 <= n * n) by nra.
  apply Rabs_le. destruct i as [|[|[|i]]]; [| | |lia]; destruct j as [|[|[|j]]]; try lia; unfold rod, skew_symmetric, vscale, I3, mget, mrow, vget; cbn [vx vy vz m00 m01 m02 m10 m11 m12 m20 m21 m22]; lra.
Qed.
Lemma squeeze : forall (f a b c : R -> R) t da db dc k, (forall s, Rabs (f s) <= k * (a s * a s + b s * b s + c s * c s)) ->
  a t = 0 -> b t = 0 -> c t = 0 -> is_derive a t da -> is_derive b t db -> is_derive c t dc -> is_derive f t 0.
Proof.
  intros f a b c t da db dc k H Ha Hb Hc A B C.
  assert (is_derive (fun s => k * (a s * a s + b s * b s + c s * c s)) t 0) as G.
  { destruct (dv _ _ _ A) as [E0 E0'], (dv _ _ _ B) as [E1 E1'], (dv _ _ _ C) as [E2 E2']. auto_derive; [now repeat split|]. rewrite Ha, Hb, Hc. ring. }
  apply is_derive_Reals. apply is_derive_Reals in G. intros eps He. destruct (G eps He) as [del D]. exists del. intros h Hh Hd. specialize (D h Hh Hd).
  assert (f t = 0) as F0. { pose proof (H t) as T. rewrite Ha, Hb, Hc in T. replace (k * _) with 0 in T by ring. pose proof (Rabs_pos (f t)). apply Rabs_eq_0. lra. }
  rewrite Ha, Hb, Hc in D. rewrite F0. rewrite Rminus_0_r in D |- *. rewrite Rminus_0_r.
  replace (k * (0 * 0 + 0 * 0 + 0 * 0)) with 0 in D by ring. rewrite !Rminus_0_r in D.
  eapply Rle_lt_trans; [|exact D]. unfold Rdiv. rewrite !Rabs_mult. apply Rmult_le_compat_r; [apply Rabs_pos|]. eapply Rle_trans; [apply H|]. rewrite <- Rabs_mult. apply Rle_abs.
Qed.
Lemma add_back : forall (F f g : R -> R) t d k, is_derive f t 0 -> is_derive g t d -> (forall s, F s = f s + k + g s) -> is_derive F t d.
Proof.
  intros F f g t d k H0 H1 E. apply is_derive_ext with (fun s => f s + k + g s); [intro s; now rewrite E|]. destruct (dv _ _ _ H0) as [E0 E0'], (dv _ _ _ H1) as [E1 E1']. auto_derive; [auto|]. rewrite E0', E1'. ring.
Qed.
Lemma rodr_moves0 : forall A t d, moves3 A t d -> A t = v0 -> mmoves (fun s => rodr (A s)) t (skew_symmetric d).
Proof.
  intros A t d (X & Y & Z) E i j Hi Hj.
  assert (is_derive (fun s => mget (rodr (A s)) i j - mget I3 i j - mget (skew_symmetric (A s)) i j) t 0) as S0.
  { apply (squeeze _ (fun s => vx (A s)) (fun s => vy (A s)) (fun s => vz (A s)) t (vx d) (vy d) (vz d) 4); try assumption; try (cbv beta; rewrite E; reflexivity).
    intro s. exact (rodr_near (A s) i j Hi Hj). }
  assert (is_derive (fun s => mget (skew_symmetric (A s)) i j) t (mget (skew_symmetric d) i j)) as S1.
  { destruct i as [|[|[|i]]]; [| | |lia]; destruct j as [|[|[|j]]]; try lia; unfold mget, mrow, vget, skew_symmetric; cbn [vx vy vz m00 m01 m02 m10 m11 m12 m20 m21 m22];
      try assumption; try apply (is_derive_const (K := R_AbsRing) (V := R_NormedModule));
      apply (is_derive_opp (K := R_AbsRing) (V := R_NormedModule)); assumption. }
  apply (add_back _ _ _ t _ (mget I3 i j) S0 S1). intro s. cbv beta. rr. ring.
Qed.
Lemma moves3_unique : forall F t d d', moves3 F t d -> moves3 F t d' -> d = d'.
Proof. intros F t d d' (X & Y & Z) (X' & Y' & Z'). apply v3_eq; [rewrite <- (is_derive_unique _ _ _ X); now apply is_derive_unique|rewrite <- (is_derive_unique _ _ _ Y); now apply is_derive_unique|rewrite <- (is_derive_unique _ _ _ Z); now apply is_derive_unique]. Qed.
Lemma moves3_ext_loc : forall F G t d, locally t (fun s => F s = G s) -> moves3 F t d -> moves3 G t d.
Proof. intros F G t d L (X & Y & Z). split; [|split]; (eapply is_derive_ext_loc; [|eassumption]); revert L; apply filter_imp; intros s E; now rewrite E. Qed.
(** a rotation vector that the code handles exactly *)
Definition angle_ok (r : v3) : Prop := r = v0 \/ 1 / 100000 < norm r.
Lemma R_from_r_rodr : forall r, angle_ok r -> R_from_r r = rodr r.
Proof.
  intros r [-> | H].
  - rewrite rodr_0. apply R_from_r_tiny. rewrite norm_v0. apply eps_pos.
  - apply R_from_r_rod. assert (DBL_EPSILON < 1 / 100000) by (unfold DBL_EPSILON; lra). lra.
Qed.
Lemma rot_exact : forall r x inv, angle_ok r -> rotate_point_r r x inv = mv (if inv then mT (rodr r) else rodr r) x.
Proof. intros r x inv H. rewrite <- R_from_r_rodr by exact H. apply rot_zero_or_big. destruct H as [H|H]; [now left|right; lra]. Qed.
Lemma angle_regular : forall r, angle_ok r -> norm2_regular r.
Proof.
  intros r [-> | H]; unfold norm2_regular.
  - vunfold. lra.
  - rewrite <- norm_sq. nra.
Qed.
Lemma small_locally : forall A t d, moves3 A t d -> A t = v0 -> locally t (fun s => small (A s)).
Proof.
  intros A t d (X & Y & Z) E.
  assert (exists k, is_derive (fun s => vx (A s) * vx (A s) + vy (A s) * vy (A s) + vz (A s) * vz (A s)) t k) as [k D].
  { set (a := fun s => vx (A s)) in *. set (b := fun s => vy (A s)) in *. set (e := fun s => vz (A s)) in *.
    change (is_derive a t (vx d)) in X. change (is_derive b t (vy d)) in Y. change (is_derive e t (vz d)) in Z.
    exists (2 * a t * vx d + 2 * b t * vy d + 2 * e t * vz d). change (is_derive (fun s => a s * a s + b s * b s + e s * e s) t (2 * a t * vx d + 2 * b t * vy d + 2 * e t * vz d)). clearbody a b e.
    destruct (dv _ _ _ X) as [E0 E0'], (dv _ _ _ Y) as [E1 E1'], (dv _ _ _ Z) as [E2 E2']. auto_derive; [now repeat split|]. rewrite E0', E1', E2'. ring. }
  refine (ex_derive_continuous (fun s => vx (A s) * vx (A s) + vy (A s) * vy (A s) + vz (A s) * vz (A s)) t _ (fun y => y < 1 / 10000000000) _); [eexists; exact D|].
  apply (open_lt (1 / 10000000000)). rewrite E. cbn [v0 vx vy vz]. lra.
Qed.
Lemma rot_small_moves : forall A X t da dx, moves3 A t da -> moves3 X t dx -> A t = v0 ->
  moves3 (fun s => rot_small (A s) (X s) false) t (vadd (mv (skew_symmetric da) (X t)) dx).
Proof.
  intros A X t da dx (AX & AY & AZ) (XX & XY & XZ) E.
  pose proof (f_equal vx E) as E0. pose proof (f_equal vy E) as E1. pose proof (f_equal vz E) as E2. cbn [v0 vx vy vz] in E0, E1, E2. clear E.
  set (a := fun s => vx (A s)). set (b := fun s => vy (A s)). set (c := fun s => vz (A s)). set (x := fun s => vx (X s)). set (y := fun s => vy (X s)). set (z := fun s => vz (X s)).
  change (is_derive a t (vx da)) in AX. change (is_derive b t (vy da)) in AY. change (is_derive c t (vz da)) in AZ.
  change (is_derive x t (vx dx)) in XX. change (is_derive y t (vy dx)) in XY. change (is_derive z t (vz dx)) in XZ.
  change (a t = 0) in E0. change (b t = 0) in E1. change (c t = 0) in E2.
  replace (vadd (mv (skew_symmetric da) (X t)) dx) with (V3 (vy da * z t - vz da * y t + vx dx) (vz da * x t - vx da * z t + vy dx) (vx da * y t - vy da * x t + vz dx))
    by (unfold skew_symmetric, x, y, z; apply v3_eq; vunfold; ring).
  apply moves3_ext with (fun s => V3 (x s + (b s * z s - c s * y s) + a s * (a s * x s + b s * y s + c s * z s) / 2)
    (y s + (c s * x s - a s * z s) + b s * (a s * x s + b s * y s + c s * z s) / 2) (z s + (a s * y s - b s * x s) + c s * (a s * x s + b s * y s + c s * z s) / 2)).
  { intro s. unfold rot_small, a, b, c, x, y, z. apply v3_eq; cbn [vx vy vz]; field. }
  clearbody a b c x y z.
  destruct (dv _ _ _ AX) as [F0 F0'], (dv _ _ _ AY) as [F1 F1'], (dv _ _ _ AZ) as [F2 F2'], (dv _ _ _ XX) as [G0 G0'], (dv _ _ _ XY) as [G1 G1'], (dv _ _ _ XZ) as [G2 G2'].
  split; [|split]; cbn [vx vy vz]; (auto_derive; [now repeat split|]); rewrite F0', F1', F2', ?G0', ?G1', ?G2', E0, E1, E2; field.
Qed.
(** the gradients of rotate_point_r() are those of the exact rotation *)
Lemma rodr_path : forall A X t da dx, moves3 A t da -> moves3 X t dx -> angle_ok (A t) ->
  let '(_, Jr, Jx) := rotJ (A t) (X t) false in moves3 (fun s => mv (rodr (A s)) (X s)) t (vadd (mv Jr da) (mv Jx dx)).
Proof.
  intros A X t da dx HA HX HR. pose proof (rotate_moves A X t da dx false HA HX (angle_regular _ HR)) as RM. destruct (rotJ (A t) (X t) false) as [[y Jr] Jx].
  destruct HR as [E|L].
  - assert (moves3 (fun s => rotate_point_r (A s) (X s) false) t (vadd (mv (skew_symmetric da) (X t)) dx)) as K.
    { eapply moves3_ext_loc; [|exact (rot_small_moves A X t da dx HA HX E)]. generalize (small_locally A t da HA E). apply filter_imp. intros s H. now rewrite rot_is_small. }
    rewrite (moves3_unique _ _ _ _ RM K).
    apply moves3_ext with (fun s => mul_Rv (rodr (A s)) (X s)); [intro s; apply mul_Rv_mv|].
    pose proof (mulRv_moves (fun s => rodr (A s)) X t _ _ (rodr_moves0 A t da HA E) HX) as D. cbv beta in D. rewrite E, rodr_0, !mul_Rv_mv, mv_I in D. exact D.
  - eapply moves3_ext_loc; [|exact RM]. generalize (norm_gt_locally A t da (1 / 100000) ltac:(lra) HA L). apply filter_imp. intros s H. apply (rot_exact (A s) (X s) false). now right.
Qed.
Lemma rotJ_x : forall r x, angle_ok r -> snd (rotJ r x false) = rodr r.
Proof.
  intros r x H. pose proof (rotJ_spec r x false) as S. destruct (rotJ r x false) as [[y Jr] Jx]. destruct S as (_ & _ & ->). cbn [snd].
  assert (forall e, mv (rotM r false) e = mv (rodr r) e) as M by (intro e; rewrite <- rot_linear; now apply (rot_exact r e false)).
  pose proof (M (V3 1 0 0)) as M0. pose proof (M (V3 0 1 0)) as M1. pose proof (M (V3 0 0 1)) as M2. clear M. set (P := rotM r false) in *. set (Q := rodr r) in *. clearbody P Q.
  unfold mv in *. cbn [vx vy vz] in *. injection M0 as ? ? ?. injection M1 as ? ? ?. injection M2 as ? ? ?. destruct P as [p0 p1 p2 p3 p4 p5 p6 p7 p8], Q as [q0 q1 q2 q3 q4 q5 q6 q7 q8]. cbn [m00 m01 m02 m10 m11 m12 m20 m21 m22] in *. apply m33_eq; cbn [m00 m01 m02 m10 m11 m12 m20 m21 m22]; lra.
Qed.

(** ** The dense rows of mrcal_project() *)
Lemma store_other : forall l row i, (forall e, In e l -> fst e <> Z.of_nat i) -> fold_left store l row i = row i.
Proof.
  induction l as [|e l IH]; intros row i H; [reflexivity|]. cbn [fold_left]. rewrite IH by (intros x X; apply H; now right). unfold store.
  destruct (Z.eqb_spec (Z.of_nat i) (fst e)) as [E|E]; [|reflexivity]. exfalso. apply (H e (or_introl eq_refl)). now symmetry.
Qed.
Lemma store_sum : forall l n row d, NoDup (map fst l) -> (forall e, In e l -> (0 <= fst e < Z.of_nat n)%Z /\ row (Z.to_nat (fst e)) = 0) ->
  rsum n (fun i => fold_left store l row i * d i) = rsum n (fun i => row i * d i) + weighted l (fun z => d (Z.to_nat z)).
Proof.
  induction l as [|[k a] l IH]; intros n row d ND H; cbn [fold_left weighted]; [ring|]. cbn [map fst] in ND. apply NoDup_cons_iff in ND. destruct ND as [N0 ND].
  pose proof (H (k, a) (or_introl eq_refl)) as [Hk Z0]. cbn [fst] in Hk, Z0. rewrite IH.
  - assert (rsum n (fun i => store row (k, a) i * d i) = rsum n (fun i => row i * d i) + a * d (Z.to_nat k)) as ->; [|ring].
    assert (rsum n (fun i => store row (k, a) i * d i - row i * d i) = a * d (Z.to_nat k)) as X; [|rewrite rsum_minus in X; lra].
    rewrite (rsum_one n (Z.to_nat k)); [|lia|intros i Hi Ni; unfold store; cbn [fst]; destruct (Z.eqb_spec (Z.of_nat i) k); [lia|ring]].
    unfold store. cbn [fst snd]. rewrite Z2Nat.id, Z.eqb_refl, Z0 by lia. ring.
  - exact ND.
  - intros e E. destruct (H e (or_intror E)) as [R0 R1]. split; [exact R0|]. unfold store. cbn [fst snd]. rewrite Z2Nat.id by lia. destruct (Z.eqb_spec (fst e) k) as [Ek|Ek]; [|exact R1].
    exfalso. apply N0. rewrite <- Ek. now apply in_map.
Qed.
Lemma tot_rsum : forall n f, S_LensGrad.tot n f = rsum n f.
Proof. induction n as [|n IH]; intro f; [reflexivity|]. cbn [S_LensGrad.tot rsum]. now rewrite IH. Qed.
Lemma weighted_tot : forall n (g : nat -> R) (d : nat -> R), weighted (map (fun i => ((4 + Z.of_nat i)%Z, g i)) (seq 0 n)) (fun z => d (Z.to_nat z)) = S_LensGrad.tot n (fun i => g i * d (4 + i)%nat).
Proof.
  induction n as [|n IH]; intros; [reflexivity|]. rewrite seq_S, map_app, weighted_app, IH. cbn [Nat.add map weighted S_LensGrad.tot]. rewrite Rplus_0_r. do 3 f_equal. lia.
Qed.
Lemma sorted_nodup : forall l, StronglySorted Z.lt l -> NoDup l.
Proof.
  induction 1 as [|a l HS IH HF]; constructor; [|exact IH]. intro I. rewrite List.Forall_forall in HF. specialize (HF a I). lia.
Qed.
Lemma dense_total : forall m intr v ixy dI, lens_ok m -> lens_legal m -> splines_ok m -> (ixy = 0 \/ ixy = 1)%Z ->
  rsum (Z.to_nat (num_params m)) (fun i => dense_row m intr v ixy i * dI i) = intr_rate m intr v ixy dI.
Proof.
  intros m intr v ixy dI HO HL SO Hi. pose proof (num_params_ge4 _ HO) as G.
  set (fxy := p2get (lens_dfxy m intr v) ixy). set (l1 := if (ixy =? 0)%Z then [(0, fxy); (1, 0%R); (2, 1%R); (3, 0%R)]%Z else [(0, 0%R); (1, fxy); (2, 0%R); (3, 1%R)]%Z).
  set (row1 := fold_left store l1 (fun _ => 0)).
  assert (forall e, In e l1 -> (0 <= fst e < 4)%Z) as B1. { intros e E. unfold l1 in E. destruct (ixy =? 0)%Z; repeat (destruct E as [<-|E]; [cbn; lia|]); destruct E. }
  assert (rsum (Z.to_nat (num_params m)) (fun i => row1 i * dI i) = fxy * dI (Z.to_nat ixy) + dI (Z.to_nat ixy + 2)%nat) as S1.
  { unfold row1. rewrite store_sum.
    - rewrite rsum_0 by (intros; ring). unfold l1. destruct Hi as [-> | ->]; cbn [Z.eqb weighted]; change (Z.to_nat 0) with 0%nat; change (Z.to_nat 1) with 1%nat; change (Z.to_nat 2) with 2%nat; change (Z.to_nat 3) with 3%nat; cbn [Nat.add]; ring.
    - unfold l1. destruct (ixy =? 0)%Z; cbn [map fst]; repeat constructor; cbn [In]; intuition discriminate.
    - intros e E. specialize (B1 e E). split; [lia|reflexivity]. }
  assert (forall l, NoDup (map fst l) -> (forall e, In e l -> (4 <= fst e < num_params m)%Z) ->
    rsum (Z.to_nat (num_params m)) (fun i => fold_left store l row1 i * dI i) = fxy * dI (Z.to_nat ixy) + dI (Z.to_nat ixy + 2)%nat + weighted l (fun z => dI (Z.to_nat z))) as K.
  { intros l ND B. rewrite store_sum; [now rewrite S1|exact ND|]. intros e E. specialize (B e E). split; [lia|]. unfold row1. rewrite store_other; [reflexivity|]. intros x X. specialize (B1 x X). lia. }
  assert (forall g : nat -> R, rsum (Z.to_nat (num_params m)) (fun i => fold_left store (map (fun i => ((4 + Z.of_nat i)%Z, g i)) (seq 0 (Z.to_nat (num_params m - 4)))) row1 i * dI i) =
    fxy * dI (Z.to_nat ixy) + dI (Z.to_nat ixy + 2)%nat + S_LensGrad.tot (Z.to_nat (num_params m - 4)) (fun i => g i * dI (4 + i)%nat)) as Dense.
  { intro g. rewrite K; [now rewrite weighted_tot| |].
    - rewrite map_map. cbn [fst]. apply FinFun.Injective_map_NoDup; [intros x y E; lia|apply seq_NoDup].
    - intros e E. apply in_map_iff in E. destruct E as (i & <- & I). apply in_seq in I. cbn [fst]. lia. }
  unfold dense_row, intr_rate. cbv zeta. fold fxy. fold l1. fold row1. destruct m eqn:Em; try apply Dense. clear Dense. apply K.
  - rewrite splined_cols. apply sorted_nodup. apply grad_cols_seg; [exact HL|cbn [lens_narrow]; pose proof (proj2 SO); lia|lia].
  - intros e E. cbn [num_params]. apply (in_map fst) in E. rewrite splined_cols in E. assert (0 <= ixy <= 1)%Z as I01 by lia. apply (grad_cols_in _ _ _ _ _ HL I01) in E. lia.
Qed.

(** ** Sums over the state vector *)
Section State.
  Variable c : context.
  Let p := c_p c.
  Let N := Z.to_nat (num_states p).
  Hypothesis Hok : problem_ok p.
  Variable d : nat -> R.
  Let dB : Z -> R := fun z => d (Z.to_nat z).
  Let u (k : nat) : R := unpack_vec p dB (Z.of_nat k).

  Lemma unpack_item : forall it j, optimized p it -> (0 <= j < item_size p it)%Z ->
    unpack_vec p dB (state_index p it + j) = unpack_struct p dB (caller (still c)) (item_loc p it j).
  Proof.
    intros it j Ho Hj. destruct (state_in_range p it Hok Ho) as [A B]. rewrite (unpack_struct_val p Hok dB _ it j Ho Hj).
    destruct (pack_vec_val p Hok dB (state_index p it + j) ltac:(lia)) as (s & E & _ & ->).
    rewrite nth_error_map, (prog_position p Hok it j Ho Hj) in E. cbn [option_map snd] in E. injection E as <-. reflexivity.
  Qed.
  (** a block of the state *)
  Lemma block_sum : forall it (g : nat -> R) (n : nat), optimized p it -> item_size p it = Z.of_nat n ->
    rsum N (fun k => (if (state_index p it <=? Z.of_nat k)%Z && (Z.of_nat k <? state_index p it + Z.of_nat n)%Z then g (Z.to_nat (Z.of_nat k - state_index p it)) else 0) * u k) =
    rsum n (fun j => g j * unpack_struct p dB (caller (still c)) (item_loc p it (Z.of_nat j))).
  Proof.
    intros it g n Ho Hn. destruct (state_in_range p it Hok Ho) as [A B]. rewrite Hn in B.
    rewrite (rsum_window n N (Z.to_nat (state_index p it))).
    - apply rsum_ext. intros j Hj. rewrite <- unpack_item by (auto; lia). unfold u. replace (Z.of_nat (Z.to_nat (state_index p it) + j)) with (state_index p it + Z.of_nat j)%Z by lia.
      destruct (Z.leb_spec (state_index p it) (state_index p it + Z.of_nat j)); [|lia]. destruct (Z.ltb_spec (state_index p it + Z.of_nat j) (state_index p it + Z.of_nat n)); [|lia]. cbn [andb].
      do 2 f_equal. lia.
    - unfold N. lia.
    - intros i Hi Ho'. destruct (Z.leb_spec (state_index p it) (Z.of_nat i)); destruct (Z.ltb_spec (Z.of_nat i) (state_index p it + Z.of_nat n)); cbn [andb]; try ring; lia.
  Qed.
  Lemma packed_sum : forall K j, rsum N (fun k => Kunpacked p K j k * u k) = rsum N (fun k => K j k * d k).
  Proof.
    intros K j. apply rsum_ext. intros k Hk. unfold Kunpacked, u, N in *.
    destruct (pack_vec_val p Hok (fun z => K j (Z.to_nat z)) (Z.of_nat k) ltac:(lia)) as (s & E & P & _). destruct (pack_vec_val p Hok dB (Z.of_nat k) ltac:(lia)) as (s' & E' & _ & U).
    rewrite E in E'. injection E' as <-. rewrite P, U. unfold dB. rewrite Nat2Z.id. pose proof (scale_pos s). field. lra.
  Qed.

  Variable icam : Z.
  Variable intr : nat -> R.
  Variable p_cam : v3.
  Hypothesis Hc : (0 <= icam < p_Nci p)%Z.
  Hypothesis HL : lens_legal (p_lens p).
  Hypothesis SO : splines_ok (p_lens p).
  Lemma intrinsics_sum : forall ixy, (ixy = 0 \/ ixy = 1)%Z ->
    rsum N (fun k => put_intrinsics p icam intr p_cam ixy k * u k) = intr_rate (p_lens p) intr p_cam ixy (intr_of (still c) dB icam).
  Proof.
    intros ixy Hi. rewrite <- (dense_total _ _ _ _ _ (proj1 Hok) HL SO Hi). pose proof (num_params_ge4 _ (proj1 Hok)) as G.
    set (D := dense_row (p_lens p) intr p_cam ixy). set (dI := intr_of (still c) dB icam). unfold put_intrinsics, slice_intrinsics, maybe_index.
    destruct (item_size p (SI_intr icam)) as [|n|n] eqn:Es.
    - (* nothing optimized *)
      assert (state_index_intrinsics p icam = -1)%Z as ->.
      { unfold state_index_intrinsics, num_intrinsics_opt, num_distortions_opt. cbn [item_size] in Es. unfold has_core.
        destruct (p_Nci p <=? 0)%Z; [reflexivity|]. destruct (do_core (p_sel p)), (do_dist (p_sel p)); cbn [andb] in *; try lia;
        match goal with |- context [(?x <=? 0)%Z] => destruct (Z.leb_spec x 0) end; try reflexivity; lia. }
      cbn [Z.ltb Z.compare]. rewrite rsum_0 by (intros; ring). symmetry. apply rsum_0. intros i Hi'. unfold dI.
      assert (intr_of (still c) dB icam i = 0) as ->; [|ring]. unfold intr_of. cbn [c_p still c_intr]. fold p. cbn [item_size] in Es.
      destruct (Nat.ltb_spec i 4); destruct (do_core (p_sel p)), (do_dist (p_sel p)); try reflexivity; lia.
    - assert (optimized p (SI_intr icam)) as Ho. { cbn [optimized]. split; [exact Hc|]. cbn [item_size] in Es. destruct (do_core (p_sel p)); [now left|]. destruct (do_dist (p_sel p)); [right; split; [reflexivity|lia]|lia]. }
      destruct (state_in_range p _ Hok Ho) as [A B]. cbn [state_index] in A, B. destruct (Z.ltb_spec (state_index_intrinsics p icam) 0); [lia|].
      assert (num_intrinsics_opt (p_sel p) (p_lens p) = Z.pos n) as ->.
      { rewrite <- Es. unfold num_intrinsics_opt, num_distortions_opt, has_core. cbn [item_size]. destruct (do_core (p_sel p)); cbn [andb]; lia. }
      set (a0 := (if negb (do_core (p_sel p)) && has_core (p_lens p) then 4 else 0)%Z).
      pose proof (block_sum (SI_intr icam) (fun j => D (Z.to_nat (a0 + Z.of_nat j))) (Pos.to_nat n) Ho ltac:(rewrite Es; lia)) as BS. cbn [state_index] in BS.
      etransitivity; [|etransitivity; [exact BS|]].
      + apply rsum_ext. intros k Hk. f_equal. rewrite positive_nat_Z. destruct (Z.leb_spec (state_index_intrinsics p icam) (Z.of_nat k)); [|reflexivity]. destruct (Z.ltb _ _); [|reflexivity].
        cbn [andb]. unfold dq_dintrinsics. fold D. do 2 f_equal. lia.
      + assert (forall i, (Z.of_nat i < num_params (p_lens p))%Z -> dI i = unpack_struct p dB (caller (still c)) (LIntr (icam * num_params (p_lens p) + Z.of_nat i))) as EI.
        { intros i Hi'. unfold dI. rewrite (intr_unpacked (still c) dB Hok icam i Hc Hi'). reflexivity. }
        symmetry. rewrite (rsum_window (Pos.to_nat n) (Z.to_nat (num_params (p_lens p))) (Z.to_nat a0)).
        * apply rsum_ext. intros j Hj. assert (a0 + Z.of_nat j < num_params (p_lens p))%Z as Lj.
          { cbn [item_size] in Es. unfold a0, has_core. destruct (do_core (p_sel p)), (do_dist (p_sel p)); cbn [negb andb]; lia. }
          assert (0 <= a0)%Z by (unfold a0; destruct (_ && _)%bool; lia).
          replace (Z.to_nat a0 + j)%nat with (Z.to_nat (a0 + Z.of_nat j)) by lia. f_equal. rewrite EI by lia. f_equal. cbn [item_loc]. f_equal. f_equal.
          rewrite Z2Nat.id by lia. unfold a0, has_core. destruct (do_core (p_sel p)); cbn [negb andb]; lia.
        * cbn [item_size] in Es. unfold a0, has_core. destruct (do_core (p_sel p)), (do_dist (p_sel p)); cbn [negb andb]; lia.
        * intros i Hi' Hout. assert (dI i = 0) as ->; [|ring]. unfold dI, intr_of. cbn [c_p still c_intr]. fold p. cbn [item_size] in Es.
          unfold a0, has_core in Hout. destruct (Nat.ltb_spec i 4); destruct (do_core (p_sel p)), (do_dist (p_sel p)); cbn [negb andb] in Hout; try reflexivity; lia.
    - exfalso. cbn [item_size] in Es. destruct (do_core (p_sel p)), (do_dist (p_sel p)); lia.
  Qed.

  (** six numbers of a pose *)
  Definition pose6 (x : rt) (l : nat) : R := if Nat.ltb l 3 then vcol (rt_r x) l else vcol (rt_t x) (l - 3).
  Lemma pose6_cam : forall i l, (0 <= i < p_Nce p)%Z -> (l < 6)%nat -> unpack_struct p dB (caller (still c)) (LExt (6 * i + Z.of_nat l)) = pose6 (cam_of (still c) dB i) l.
  Proof.
    intros i l Hi' Hl. rewrite (cam_unpacked (still c) dB Hok i Hi'). unfold cam_r, cam_t, vec_at, pose6. cbn [rt_r rt_t]. rewrite <- !Z.add_assoc.
    do 6 (destruct l as [|l]; [cbn [Nat.ltb Nat.leb Nat.sub vcol vx vy vz]; try (rewrite Z.add_0_r); reflexivity|]). lia.
  Qed.
  Lemma pose6_frame : forall i l, (0 <= i < p_Nframes p)%Z -> (l < 6)%nat -> unpack_struct p dB (caller (still c)) (LFrame (6 * i + Z.of_nat l)) = pose6 (frame_of (still c) dB i) l.
  Proof.
    intros i l Hi' Hl. rewrite (frame_unpacked (still c) dB Hok i Hi'). unfold frame_r, frame_t, vec_at, pose6. cbn [rt_r rt_t]. rewrite <- !Z.add_assoc.
    do 6 (destruct l as [|l]; [cbn [Nat.ltb Nat.leb Nat.sub vcol vx vy vz]; try (rewrite Z.add_0_r); reflexivity|]). lia.
  Qed.
End State.
