(** Proofs for C75: the triangulation methods, and the transformations back, along a path. *)
From Coq Require Import Reals Lra Psatz Arith Lia ZArith Bool List.
From Coquelicot Require Import Coquelicot.
From Verif Require Import S_Vec S_Curve S_LensGrad P_Trig M_Dual P_Dual P_Pose P_DualPath M_Pose P_PoseJ P_PoseGrad P_Compose C_PoseGrad P_PathGrad C_Rodrigues C_Rt C_RtVec
  M_Triangulate P_Triangulate P_TriGrad C_Triangulate C_TriError C_TriGrad P_TriPath M_Residuals P_Jacobian M_ProjUncert P_ProjUncert C_ProjUncert M_TriUncert.
Import ListNotations.
Open Scope R_scope.

(** ** the methods *)
Section L.
Variable N : nat.
Variable vel : nat -> R.
Notation L := (lrel N vel).
Notation VL := (vlrel N vel).
Definition olrel (o o' : option (nv3 dualops)) : Prop := match o, o' with Some y, Some y' => VL y y' | None, None => True | _, _ => False end.
Lemma geometric_lrel : forall a b t a' b' t', VL a a' -> VL b b' -> VL t t' -> olrel (tri_geometric dualops a b t) (tri_geometric dualops a' b' t').
Proof.
  intros a b t a' b' t' A B T. unfold tri_geometric. cbv zeta.
  pose proof (dot_lrel N vel _ _ _ _ A A) as AA. pose proof (dot_lrel N vel _ _ _ _ B B) as BB. pose proof (dot_lrel N vel _ _ _ _ A B) as AB. pose proof (dot_lrel N vel _ _ _ _ A T) as AT. pose proof (dot_lrel N vel _ _ _ _ B T) as BT.
  unfold nvnorm2. set (aa := nvdot dualops a a) in *. set (aa' := nvdot dualops a' a') in *. set (bb := nvdot dualops b b) in *. set (bb' := nvdot dualops b' b') in *. set (ab := nvdot dualops a b) in *. set (ab' := nvdot dualops a' b') in *.
  set (at1 := nvdot dualops a t) in *. set (at2 := nvdot dualops a' t') in *. set (bt := nvdot dualops b t) in *. set (bt' := nvdot dualops b' t') in *. clearbody aa aa' bb bb' ab ab' at1 at2 bt bt'.
  set (D := nsub dualops (nmul dualops aa bb) (nmul dualops ab ab)). set (D' := nsub dualops (nmul dualops aa' bb') (nmul dualops ab' ab')). assert (L D D') as HD by (unfold D, D'; lr). clearbody D D'.
  set (r := ndiv dualops (nconst dualops 1) D). set (r' := ndiv dualops (nconst dualops 1) D'). assert (L r r') as Hr by (unfold r, r'; lr). clearbody r r'.
  set (k0 := nmul dualops r (nsub dualops (nmul dualops bb at1) _)). set (k0' := nmul dualops r' (nsub dualops (nmul dualops bb' at2) _)). assert (L k0 k0') as H0 by (unfold k0, k0'; lr). clearbody k0 k0'.
  set (k1 := nmul dualops r (nsub dualops (nmul dualops ab at1) _)). set (k1' := nmul dualops r' (nsub dualops (nmul dualops ab' at2) _)). assert (L k1 k1') as H1 by (unfold k1, k1'; lr). clearbody k1 k1'.
  cbn [nval dualops]. change (num dualops) with dual in *. rewrite (proj1 HD), (proj1 H0), (proj1 H1). destruct (_ && _)%bool; [exact Logic.I|]. destruct (Rleb _ _); [exact Logic.I|]. destruct (Rleb _ _); [exact Logic.I|]. cbn [olrel]. lr.
Qed.
Lemma chirality_lrel : forall l0 l1 a b t l0' l1' a' b' t', L l0 l0' -> L l1 l1' -> VL a a' -> VL b b' -> VL t t' -> chirality dualops l0 a l1 b t = chirality dualops l0' a' l1' b' t'.
Proof.
  intros l0 l1 a b t l0' l1' a' b' t' L0 L1 A B T.
  set (w0 := worsening0 dualops l0 a l1 b t). set (w0' := worsening0 dualops l0' a' l1' b' t'). assert (L w0 w0') as W0 by (unfold w0, w0', worsening0, worsening; cbv zeta; lr).
  set (w1 := worsening1 dualops l0 a l1 b t). set (w1' := worsening1 dualops l0' a' l1' b' t'). assert (L w1 w1') as W1 by (unfold w1, w1', worsening1, worsening; cbv zeta; lr).
  set (w2 := worsening01 dualops l0 a l1 b t). set (w2' := worsening01 dualops l0' a' l1' b' t'). assert (L w2 w2') as W2 by (unfold w2, w2', worsening01, worsening; cbv zeta; lr).
  unfold chirality. fold w0 w0' w1 w1' w2 w2'. cbn [nval dualops]. rewrite (proj1 W0), (proj1 W1), (proj1 W2). reflexivity.
Qed.
Lemma mid2_lrel : forall a b t a' b' t', VL a a' -> VL b b' -> VL t t' -> olrel (tri_mid2 dualops a b t) (tri_mid2 dualops a' b' t').
Proof.
  intros a b t a' b' t' A B T. unfold tri_mid2, mid2_point.
  set (l0 := mid2_l0 dualops a b t). set (l0' := mid2_l0 dualops a' b' t'). set (l1 := mid2_l1 dualops a b t). set (l1' := mid2_l1 dualops a' b' t').
  assert (L l0 l0') as L0. { unfold l0, l0', mid2_l0. pose proof (cross_norm2_lrel N vel _ _ _ _ B T). pose proof (cross_norm2_lrel N vel _ _ _ _ A B). lr. }
  assert (L l1 l1') as L1. { unfold l1, l1', mid2_l1. pose proof (cross_norm2_lrel N vel _ _ _ _ A T). pose proof (cross_norm2_lrel N vel _ _ _ _ A B). lr. }
  clearbody l0 l0' l1 l1'. rewrite (chirality_lrel _ _ _ _ _ _ _ _ _ _ L0 L1 A B T). destruct (chirality _ _ _ _ _ _); [cbn [olrel]; lr|exact Logic.I].
Qed.
Lemma normalized_lrel : forall a a', VL a a' -> VL (nvdiv dualops a (nvmag dualops a)) (nvdiv dualops a' (nvmag dualops a')).
Proof. intros a a' A. assert (L (nvmag dualops a) (nvmag dualops a')) by lr. lr. Qed.
Lemma cross_mag_lrel : forall a b a' b', VL a a' -> VL b b' -> L (cross_mag dualops a b) (cross_mag dualops a' b').
Proof. intros. unfold cross_mag. pose proof (cross_lrel N vel _ _ _ _ H H0). lr. Qed.
Lemma wmid2_lrel : forall a b t a' b' t', VL a a' -> VL b b' -> VL t t' -> olrel (tri_wmid2 dualops a b t) (tri_wmid2 dualops a' b' t').
Proof.
  intros a b t a' b' t' A B T. unfold tri_wmid2. cbv zeta. apply normalized_lrel in A, B.
  set (x := nvdiv dualops a _) in *. set (x' := nvdiv dualops a' _) in *. set (y := nvdiv dualops b _) in *. set (y' := nvdiv dualops b' _) in *. clearbody x x' y y'.
  pose proof (cross_mag_lrel _ _ _ _ A B) as XY. pose proof (cross_mag_lrel _ _ _ _ B T) as YT. pose proof (cross_mag_lrel _ _ _ _ A T) as XT.
  set (l0 := nmul dualops (cross_mag dualops y t) _). set (l0' := nmul dualops (cross_mag dualops y' t') _). assert (L l0 l0') as L0 by (unfold l0, l0'; lr).
  set (l1 := nmul dualops (cross_mag dualops x t) _). set (l1' := nmul dualops (cross_mag dualops x' t') _). assert (L l1 l1') as L1 by (unfold l1, l1'; lr).
  clearbody l0 l0' l1 l1'. rewrite (chirality_lrel _ _ _ _ _ _ _ _ _ _ L0 L1 A B T). destruct (chirality _ _ _ _ _ _); [cbn [olrel]; lr|exact Logic.I].
Qed.
Lemma deflect_lrel : forall a n a' n', VL a a' -> VL n n' -> VL (deflect dualops a n) (deflect dualops a' n').
Proof. intros a n a' n' A B. unfold deflect. pose proof (dot_lrel N vel _ _ _ _ A B). pose proof (dot_lrel N vel _ _ _ _ B B). unfold nvnorm2. set (u := nvdot dualops a n) in *. set (u' := nvdot dualops a' n') in *. set (w := nvdot dualops n n) in *. set (w' := nvdot dualops n' n') in *. clearbody u u' w w'. lr. Qed.
Definition slrel (o o' : option (num dualops)) : Prop := match o, o' with Some y, Some y' => L y y' | None, None => True | _, _ => False end.
Lemma k0_lrel : forall v0a v0z v1a v1z ta tz v0a' v0z' v1a' v1z' ta' tz', L v0a v0a' -> L v0z v0z' -> L v1a v1a' -> L v1z v1z' -> L ta ta' -> L tz tz' ->
  slrel (intersect_k0 dualops v0a v0z v1a v1z ta tz) (intersect_k0 dualops v0a' v0z' v1a' v1z' ta' tz').
Proof.
  intros v0a v0z v1a v1z ta tz v0a' v0z' v1a' v1z' ta' tz' A B C D E F. unfold intersect_k0. cbv zeta.
  set (d := nsub dualops (nmul dualops v1a v0z) _). set (d' := nsub dualops (nmul dualops v1a' v0z') _). assert (L d d') as Hd by (unfold d, d'; lr). clearbody d d'.
  set (k := ndiv dualops _ d). set (k' := ndiv dualops _ d'). assert (L k k') as Hk by (unfold k, k'; lr). clearbody k k'.
  cbn [nval dualops]. change (num dualops) with dual in *. rewrite (proj1 Hk), (proj1 Hd), (proj1 A), (proj1 B), (proj1 E), (proj1 F). destruct (Rleb _ _); [exact Logic.I|]. destruct (xorb _ _); [exact Logic.I|exact Hk].
Qed.
Lemma intersect_lrel : forall a b t a' b' t', VL a a' -> VL b b' -> VL t t' -> olrel (assume_intersect dualops a b t) (assume_intersect dualops a' b' t').
Proof.
  intros a b t a' b' t' A B T. unfold assume_intersect. cbv zeta. destruct A as (A0 & A1 & A2), B as (B0 & B1 & B2), T as (T0 & T1 & T2).
  cbn [nval dualops]. change (num dualops) with dual in *. rewrite (proj1 A0), (proj1 A1), (proj1 A2), (proj1 B0), (proj1 B1), (proj1 B2).
  pose proof (k0_lrel _ _ _ _ _ _ _ _ _ _ _ _ A0 A2 B0 B2 T0 T2) as K0. pose proof (k0_lrel _ _ _ _ _ _ _ _ _ _ _ _ A1 A2 B1 B2 T1 T2) as K1.
  assert (VL a a') as A by (split; [|split]; assumption).
  destruct (Rltb _ _); (destruct (Rleb _ _); [exact Logic.I|]).
  - destruct (intersect_k0 dualops (n_x a) _ _ _ _ _), (intersect_k0 dualops (n_x a') _ _ _ _ _); cbn [slrel] in K0; try contradiction; [cbn [olrel]; lr|exact Logic.I].
  - destruct (intersect_k0 dualops (n_y a) _ _ _ _ _), (intersect_k0 dualops (n_y a') _ _ _ _ _); cbn [slrel] in K1; try contradiction; [cbn [olrel]; lr|exact Logic.I].
Qed.
Lemma l1_lrel : forall a b t a' b' t', VL a a' -> VL b b' -> VL t t' -> olrel (tri_l1 dualops a b t) (tri_l1 dualops a' b' t').
Proof.
  intros a b t a' b' t' A B T. unfold tri_l1, l1_rays. cbv zeta. unfold nvnorm2. cbn [nval dualops].
  rewrite (proj1 (dot_lrel N vel _ _ _ _ A A)), (proj1 (dot_lrel N vel _ _ _ _ B B)), (proj1 (dot_lrel N vel _ _ _ _ A T)), (proj1 (dot_lrel N vel _ _ _ _ B T)).
  destruct (Rltb _ _); apply intersect_lrel; auto; apply deflect_lrel; auto; apply cross_lrel; auto.
Qed.
Lemma linf_lrel : forall a b t a' b' t', VL a a' -> VL b b' -> VL t t' -> olrel (tri_linf dualops a b t) (tri_linf dualops a' b' t').
Proof.
  intros a b t a' b' t' A B T. unfold tri_linf, linf_rays. cbv zeta. apply normalized_lrel in A, B.
  set (x := nvdiv dualops a _) in *. set (x' := nvdiv dualops a' _) in *. set (y := nvdiv dualops b _) in *. set (y' := nvdiv dualops b' _) in *. clearbody x x' y y'.
  assert (VL (nvcross dualops (nvadd dualops x y) t) (nvcross dualops (nvadd dualops x' y') t')) as P by (apply cross_lrel; [lr|exact T]).
  assert (VL (nvcross dualops (nvsub dualops x y) t) (nvcross dualops (nvsub dualops x' y') t')) as Q by (apply cross_lrel; [lr|exact T]).
  set (n := nvcross dualops (nvadd dualops x y) t) in *. set (n' := nvcross dualops (nvadd dualops x' y') t') in *. set (k := nvcross dualops (nvsub dualops x y) t) in *. set (k' := nvcross dualops (nvsub dualops x' y') t') in *. clearbody n n' k k'.
  unfold nvnorm2. cbn [nval dualops]. rewrite (proj1 (dot_lrel N vel _ _ _ _ P P)), (proj1 (dot_lrel N vel _ _ _ _ Q Q)).
  destruct (Rltb _ _); apply intersect_lrel; auto; apply deflect_lrel; auto.
Qed.
Lemma tri_lrel : forall m a b t a' b' t', VL a a' -> VL b b' -> VL t t' -> olrel (tri_of dualops m a b t) (tri_of dualops m a' b' t').
Proof. intros []; cbn [tri_of]; auto using geometric_lrel, l1_lrel, linf_lrel, mid2_lrel, wmid2_lrel. Qed.
End L.

(** where the method is known to have a derivative (C63) *)
Definition method_regular (m : tmethod) (a b t : v3) : Prop :=
  match m with
  | Geometric | Leecivera_mid2 | Leecivera_wmid2 => True
  | Leecivera_l1 => dot b t * dot b t * norm2 a <> dot a t * dot a t * norm2 b /\
      (let '(w0, w1) := l1_rays realops (rv a) (rv b) (rv t) in ai_regular (nvval realops w0) (nvval realops w1) t)
  | Leecivera_linf => a <> v0 /\ b <> v0 /\
      norm2 (cross (vadd (vscale (/ norm a) a) (vscale (/ norm b) b)) t) <> norm2 (cross (vsub (vscale (/ norm a) a) (vscale (/ norm b) b)) t) /\
      (let '(w0, w1) := linf_rays realops (rv a) (rv b) (rv t) in ai_regular (nvval realops w0) (nvval realops w1) t)
  end.
Lemma tri_orel : forall m I p F0 F1 FT d0 d1 dt, vrel I p F0 d0 -> vrel I p F1 d1 -> vrel I p FT dt ->
  method_regular m (nvval realops (F0 p)) (nvval realops (F1 p)) (nvval realops (FT p)) ->
  orel I p (fun q => tri_of realops m (F0 q) (F1 q) (FT q)) (tri_of dualops m d0 d1 dt).
Proof.
  intros [] I p F0 F1 FT d0 d1 dt A B T H; cbn [tri_of method_regular] in *.
  - now apply geometric_orel.
  - destruct H as [H1 H2]. apply l1_orel; auto. revert H2. now destruct (F0 p), (F1 p), (FT p).
  - destruct H as (H1 & H2 & H3 & H4). apply linf_orel; auto.
  - now apply mid2_orel.
  - now apply wmid2_orel.
Qed.
Definition vel9 (da db dc : v3) : nat -> R := lay da db dc.
Lemma vlrel9 : forall a da db dc, vlrel 9 (vel9 da db dc) (d_vars a 0) (pdual a da) /\ vlrel 9 (vel9 da db dc) (d_vars a 3) (pdual a db) /\ vlrel 9 (vel9 da db dc) (d_vars a 6) (pdual a dc).
Proof. intros a [] [] []. repeat match goal with |- _ /\ _ => split end; (split; [|split]); (split; [reflexivity|]); cbn; ring. Qed.
Lemma grad_contract9 : forall y y' da db dc, vlrel 9 (vel9 da db dc) y y' ->
  V3 (dj (n_x y') 0%nat) (dj (n_y y') 0%nat) (dj (n_z y') 0%nat) = vadd (vadd (mv (grad3 y 0) da) (mv (grad3 y 3) db)) (mv (grad3 y 6) dc).
Proof. intros y y' [] [] [] ((_ & X) & (_ & Y) & (_ & Z)). rewrite X, Y, Z. unfold contract, vel9. apply v3_eq; vunfold; cbn; ring. Qed.
Lemma par_vrel : forall t A d, moves3 A t d -> P_TriGrad.vrel one (par t) (fun q => rv (A (q 0%nat))) (pdual (A t) d).
Proof. intros t A d M. destruct (vcarries_par t A d M) as (_ & X & Y & Z). split; [exact X|split; [exact Y|exact Z]]. Qed.
Lemma method_moves : forall m V0 V1 T t d0 d1 dt, moves3 V0 t d0 -> moves3 V1 t d1 -> moves3 T t dt -> method_regular m (V0 t) (V1 t) (T t) ->
  let g := method_grads m (V0 t) (V1 t) (T t) in
  tg_p g = M_Triangulate.point_of (tri_of realops m (rv (V0 t)) (rv (V1 t)) (rv (T t))) /\
  (tri_of realops m (rv (V0 t)) (rv (V1 t)) (rv (T t)) <> None ->
   moves3 (fun s => M_Triangulate.point_of (tri_of realops m (rv (V0 s)) (rv (V1 s)) (rv (T s)))) t (vadd (vadd (mv (tg_dv0 g) d0) (mv (tg_dv1 g) d1)) (mv (tg_dt01 g) dt))).
Proof.
  intros m V0 V1 T t d0 d1 dt M0 M1 MT H g. unfold g, method_grads.
  destruct (vlrel9 (V0 t) d0 d1 dt) as (A & _ & _). destruct (vlrel9 (V1 t) d0 d1 dt) as (_ & B & _). destruct (vlrel9 (T t) d0 d1 dt) as (_ & _ & C).
  pose proof (tri_lrel 9 (vel9 d0 d1 dt) m _ _ _ _ _ _ A B C) as E.
  assert (method_regular m (nvval realops (rv (V0 t))) (nvval realops (rv (V1 t))) (nvval realops (rv (T t)))) as H'. { revert H. now destruct (V0 t), (V1 t), (T t). }
  pose proof (tri_orel m one (par t) (fun q => rv (V0 (q 0%nat))) (fun q => rv (V1 (q 0%nat))) (fun q => rv (T (q 0%nat))) _ _ _ (par_vrel t V0 d0 M0) (par_vrel t V1 d1 M1) (par_vrel t T dt MT) H') as Q.
  destruct (tri_of dualops m (d_vars (V0 t) 0) _ _) as [y|], (tri_of dualops m (pdual (V0 t) d0) _ _) as [y'|]; cbn [olrel orel] in E, Q; try contradiction.
  - destruct Q as (G & [Np Nn] & R). cbv beta in Np. unfold par in Np at 1 2 3. cbn [tg_p tg_dv0 tg_dv1 tg_dt01]. split.
    + rewrite Np. cbn [M_Triangulate.point_of]. rewrite <- (vrel_val _ _ _ _ R). unfold value3, nvval. cbn [nval dualops]. destruct E as ((-> & _) & (-> & _) & (-> & _)). reflexivity.
    + intros _. rewrite <- (grad_contract9 y y' d0 d1 dt E). destruct R as ((_ & _ & X) & (_ & _ & Y) & (_ & _ & Z)). specialize (Nn 0%nat eq_refl). specialize (X 0%nat eq_refl). specialize (Y 0%nat eq_refl). specialize (Z 0%nat eq_refl).
      unfold par at 1 in Nn. unfold par in X at 2. unfold par in Y at 2. unfold par in Z at 2.
      split; [|split]; cbn [vx vy vz]; [apply (is_derive_ext_loc (fun x => n_x (G (setv (par t) 0 x)))); [|exact X]|apply (is_derive_ext_loc (fun x => n_y (G (setv (par t) 0 x)))); [|exact Y]|apply (is_derive_ext_loc (fun x => n_z (G (setv (par t) 0 x)))); [|exact Z]];
        generalize Nn; apply filter_imp; intros x Ex; cbv beta in Ex; change (setv (par t) 0 x 0%nat) with x in Ex; now rewrite Ex.
  - unfold par in Q. rewrite Q. split; [reflexivity|]. intro K. now elim K.
Qed.

(** ** transform_point_rt(inverted=True) *)
Lemma vsub_moves : forall A B t da db, moves3 A t da -> moves3 B t db -> moves3 (fun s => vsub (A s) (B s)) t (vsub da db).
Proof.
  intros A B t da db (AX & AY & AZ) (BX & BY & BZ).
  split; [|split]; cbn [vx vy vz vsub]; [apply (is_derive_minus (fun s => vx (A s)) (fun s => vx (B s)))|apply (is_derive_minus (fun s => vy (A s)) (fun s => vy (B s)))|apply (is_derive_minus (fun s => vz (A s)) (fun s => vz (B s)))]; assumption.
Qed.
Lemma rot_small_neg : forall r x, rot_small r x true = rot_small (vneg r) x false.
Proof. intros r x. unfold rot_small. apply v3_eq; cbn [vx vy vz vneg]; field. Qed.
Lemma small_vneg : forall r, small r -> small (vneg r).
Proof. intros r. rewrite !small_norm2. replace (norm2 (vneg r)) with (norm2 r) by (unfold norm2, dot, vneg; cbn [vx vy vz]; ring). auto. Qed.
Lemma back_moves : forall A T X t da dt dx, moves3 A t da -> moves3 T t dt -> moves3 X t dx -> norm2_regular (A t) ->
  let '(y, Jr, Jt, Jx) := back_J (mkrt (A t) (T t)) (X t) in
  y = rotate_point_r (A t) (vsub (X t) (T t)) true /\
  moves3 (fun s => rotate_point_r (A s) (vsub (X s) (T s)) true) t (vadd (vadd (mv Jr da) (mv Jx dx)) (mv Jt dt)).
Proof.
  intros A T X t da dt dx HA HT HX Hr. unfold back_J, transform_point_rt_full. cbn [rt_r rt_t d_vec].
  set (y := rx_minus_rt dualops _ _ _).
  destruct (vlrel9 (A t) da dx dt) as (LA & _ & _). destruct (vlrel9 (X t) da dx dt) as (_ & LX & _). destruct (vlrel9 (T t) da dx dt) as (_ & _ & LT).
  pose proof (vsub_moves X T t dx dt HX HT) as HS.
  set (y' := rotate_point_r_core dualops (pdual (A t) da) (pdual (vsub (X t) (T t)) (vsub dx dt)) true).
  assert (vlrel 9 (vel9 da dx dt) y y') as E.
  { unfold y, y', rx_minus_rt. apply rotate_lrel; [exact LA|]. 
    assert (vlrel 9 (vel9 da dx dt) (nvsub dualops (d_vars (X t) 3) (d_vars (T t) 6)) (nvsub dualops (pdual (X t) dx) (pdual (T t) dt))) as Q by lr. exact Q. }
  assert (vcarries one (par t) (fun q => rotate_point_r (A (q 0%nat)) (vsub (X (q 0%nat)) (T (q 0%nat))) true) y') as C.
  { apply (rotate_carries one (par t) (fun q => A (q 0%nat)) (fun q => vsub (X (q 0%nat)) (T (q 0%nat)))); [now apply vcarries_par|now apply (vcarries_par t (fun s => vsub (X s) (T s)))|].
    apply (small_stable one (par t) (fun q => A (q 0%nat)) (pdual (A t) da)); [now apply vcarries_par|exact Hr]. }
  split.
  - destruct C as (_ & (_ & X0 & _) & (_ & Y0 & _) & (_ & Z0 & _)). destruct E as ((e0 & _) & (e1 & _) & (e2 & _)). unfold value3, nvval. cbn [nval dualops].
    unfold par in X0, Y0, Z0. rewrite e0, e1, e2. apply v3_eq; cbn [vx vy vz]; assumption.
  - rewrite <- (grad_contract9 y y' da dx dt E). apply (moves_par t (fun s => rotate_point_r (A s) (vsub (X s) (T s)) true) y' C).
Qed.
(** the gradients of the exact transformation *)
Lemma back_path : forall A T X t da dt dx, moves3 A t da -> moves3 T t dt -> moves3 X t dx -> angle_ok (A t) ->
  let '(y, Jr, Jt, Jx) := back_J (mkrt (A t) (T t)) (X t) in
  y = mv (mT (rodr (A t))) (vsub (X t) (T t)) /\
  moves3 (fun s => mv (mT (rodr (A s))) (vsub (X s) (T s))) t (vadd (vadd (mv Jr da) (mv Jx dx)) (mv Jt dt)).
Proof.
  intros A T X t da dt dx HA HT HX HR. pose proof (back_moves A T X t da dt dx HA HT HX (angle_regular _ HR)) as BM.
  destruct (back_J (mkrt (A t) (T t)) (X t)) as [[[y Jr] Jt] Jx]. destruct BM as [-> BM]. split; [exact (rot_exact _ _ true HR)|].
  pose proof (vsub_moves X T t dx dt HX HT) as HS. destruct HR as [E|L].
  - assert (vneg (A t) = v0) as E' by (rewrite E; unfold v0; vring). pose proof (vneg_moves _ _ _ HA) as HN.
    assert (moves3 (fun s => rotate_point_r (A s) (vsub (X s) (T s)) true) t (vadd (mv (skew_symmetric (vneg da)) (vsub (X t) (T t))) (vsub dx dt))) as K.
    { eapply moves3_ext_loc; [|exact (rot_small_moves (fun s => vneg (A s)) (fun s => vsub (X s) (T s)) t _ _ HN HS E')].
      generalize (small_locally A t da HA E). apply filter_imp. intros s H. rewrite rot_is_small by exact H. symmetry. apply rot_small_neg. }
    rewrite (moves3_unique _ _ _ _ BM K).
    apply moves3_ext with (fun s => mul_Rv (rodr (vneg (A s))) (vsub (X s) (T s))); [intro s; now rewrite mul_Rv_mv, rodr_neg|].
    pose proof (mulRv_moves (fun s => rodr (vneg (A s))) (fun s => vsub (X s) (T s)) t _ _ (rodr_moves0 (fun s => vneg (A s)) t _ HN E') HS) as D. cbv beta in D. rewrite E', rodr_0, !mul_Rv_mv, mv_I in D. exact D.
  - eapply moves3_ext_loc; [|exact BM]. generalize (norm_gt_locally A t da (1 / 100000) ltac:(lra) HA L). apply filter_imp. intros s H. apply (rot_exact (A s) (vsub (X s) (T s)) true). now right.
Qed.
(** a matrix is known by what it does *)
Lemma mv_inj : forall P Q, (forall x, mv P x = mv Q x) -> P = Q.
Proof.
  intros P Q M. pose proof (M (V3 1 0 0)) as M0. pose proof (M (V3 0 1 0)) as M1. pose proof (M (V3 0 0 1)) as M2. clear M.
  unfold mv in *. cbn [vx vy vz] in *. injection M0 as ? ? ?. injection M1 as ? ? ?. injection M2 as ? ? ?. destruct P as [p0 p1 p2 p3 p4 p5 p6 p7 p8], Q as [q0 q1 q2 q3 q4 q5 q6 q7 q8]. cbn [m00 m01 m02 m10 m11 m12 m20 m21 m22] in *. apply m33_eq; cbn [m00 m01 m02 m10 m11 m12 m20 m21 m22]; lra.
Qed.
Lemma moves_line : forall x d t, moves3 (fun s => vadd x (vscale (s - t) d)) t d.
Proof. intros x d t. split; [|split]; cbn [vx vy vz vadd vscale]; (auto_derive; [exact Logic.I|ring]). Qed.
Lemma back_Jx : forall T x, angle_ok (rt_r T) -> let '(_, _, _, Jx) := back_J T x in Jx = mT (rodr (rt_r T)).
Proof.
  intros [r t] x H. cbn [rt_r] in *. 
  assert (forall d, let '(_, _, _, Jx) := back_J (mkrt r t) x in mv Jx d = mv (mT (rodr r)) d) as K.
  { intro d. pose proof (back_path (fun _ => r) (fun _ => t) (fun s => vadd x (vscale (s - 0) d)) 0 v0 v0 d (moves3_const _ _) (moves3_const _ _) (moves_line x d 0) H) as B. cbv beta in B.
    replace (vadd x (vscale (0 - 0) d)) with x in B by vring. destruct (back_J (mkrt r t) x) as [[[y Jr] Jt] Jx]. destruct B as [_ B].
    assert (moves3 (fun s => mv (mT (rodr r)) (vsub (vadd x (vscale (s - 0) d)) t)) 0 (mv (mT (rodr r)) d)) as D.
    { generalize (mT (rodr r)). intro M. split; [|split]; cbn [vx vy vz mv vadd vsub vscale]; (auto_derive; [exact Logic.I|ring]). }
    pose proof (moves3_unique _ _ _ _ B D) as U. rewrite <- U. vring. }
  destruct (back_J (mkrt r t) x) as [[[y Jr] Jt] Jx]. apply mv_inj. exact K.
Qed.

(** ** np.linalg.solve() *)
Lemma solve33_spec : forall A B X, solve33 A B = Some X -> mm A X = B.
Proof.
  intros A B X. unfold solve33. destruct (Req_EM_T _ _) as [E|E]; [discriminate|]. intro H. injection H as <-.
  unfold mm, mscale, det in *. cbn [m00 m01 m02 m10 m11 m12 m20 m21 m22] in *. apply m33_eq; cbn [m00 m01 m02 m10 m11 m12 m20 m21 m22]; field; exact E.
Qed.

(** ** the pose of one camera relative to the other *)
Definition trace_limit : R := 4 * ((1 - eps8 * eps8 / 2) * (1 - eps8 * eps8 / 2)) - 1.
(** two rotations that the code composes exactly, also nearby *)
Definition composes (A B : R -> v3) (t : R) : Prop :=
  (1 / 50000 < norm (A t) /\ 1 / 50000 < norm (B t) /\ trace (mm (rodr (A t)) (mT (rodr (B t)))) < trace_limit) \/ (forall s, A s = v0) \/ (forall s, B s = v0).
Lemma R_from_r_big : forall r, 1 / 50000 <= norm r -> R_from_r r = rodr r.
Proof. intros r H. apply R_from_r_rodr. right. lra. Qed.
Lemma norm_neg : forall r, norm (vneg r) = norm r.
Proof. intro r. unfold norm. f_equal. vunfold. ring. Qed.
Lemma relative_exact : forall a b, 1 / 50000 <= norm a -> 1 / 50000 <= norm b -> trace (mm (rodr a) (mT (rodr b))) <= trace_limit ->
  rodr (compose_r2 a (vneg b) false false) = mm (rodr a) (mT (rodr b)).
Proof.
  intros a b Ha Hb HT. pose proof (C23_compose_r_partial a (vneg b) false false Ha ltac:(rewrite norm_neg; exact Hb)) as C. cbv beta iota zeta in C.
  rewrite (R_from_r_big a Ha), (R_from_r_big (vneg b)), rodr_neg in C by (rewrite norm_neg; exact Hb). destruct C as (r & HR & _ & _ & _ & HE).
  rewrite (HE HT). symmetry. now apply is_rotvec_rodr.
Qed.
Lemma trace_moves : forall A B t da db, moves3 A t da -> moves3 B t db -> A t <> v0 -> B t <> v0 -> continuous (fun s => trace (mm (rodr (A s)) (mT (rodr (B s))))) t.
Proof.
  intros A B t da db HA HB NA NB. pose proof (rodr_moves A t da HA NA) as MA. pose proof (rodr_moves B t db HB NB) as MB.
  assert (forall i j, (i < 3)%nat -> (j < 3)%nat -> ex_derive (fun s => mget (rodr (A s)) i j * mget (rodr (B s)) i j) t) as P.
  { intros i j Hi Hj. apply (ex_derive_mult (fun s => mget (rodr (A s)) i j) (fun s => mget (rodr (B s)) i j)); eexists; [exact (MA i j Hi Hj)|exact (MB i j Hi Hj)]. }
  apply (ex_derive_continuous (K := R_AbsRing) (V := R_NormedModule) (fun s => trace (mm (rodr (A s)) (mT (rodr (B s)))))). set (f := fun i j s => mget (rodr (A s)) i j * mget (rodr (B s)) i j).
  apply ex_derive_ext with (fun s => f 0%nat 0%nat s + f 0%nat 1%nat s + f 0%nat 2%nat s + (f 1%nat 0%nat s + f 1%nat 1%nat s + f 1%nat 2%nat s) + (f 2%nat 0%nat s + f 2%nat 1%nat s + f 2%nat 2%nat s)).
  { intro s. unfold f. generalize (rodr (A s)) (rodr (B s)). intros [] []. unfold trace, mm, mT, mget, mrow, vget. cbn. ring. }
  assert (forall i j, (i < 3)%nat -> (j < 3)%nat -> ex_derive (f i j) t) as P' by exact P. clearbody f.
  pose proof (P' 0%nat 0%nat ltac:(lia) ltac:(lia)). pose proof (P' 0%nat 1%nat ltac:(lia) ltac:(lia)). pose proof (P' 0%nat 2%nat ltac:(lia) ltac:(lia)).
  pose proof (P' 1%nat 0%nat ltac:(lia) ltac:(lia)). pose proof (P' 1%nat 1%nat ltac:(lia) ltac:(lia)). pose proof (P' 1%nat 2%nat ltac:(lia) ltac:(lia)).
  pose proof (P' 2%nat 0%nat ltac:(lia) ltac:(lia)). pose proof (P' 2%nat 1%nat ltac:(lia) ltac:(lia)). pose proof (P' 2%nat 2%nat ltac:(lia) ltac:(lia)).
  auto_derive. repeat match goal with |- _ /\ _ => split end; first [assumption|exact Logic.I].
Qed.
Lemma relative_locally : forall A B t da db, moves3 A t da -> moves3 B t db -> composes A B t ->
  locally t (fun s => rodr (compose_r2 (A s) (vneg (B s)) false false) = mm (rodr (A s)) (mT (rodr (B s)))).
Proof.
  intros A B t da db HA HB [(LA & LB & LT)|[E|E]].
  - assert (A t <> v0) as NA by (intro Z; rewrite Z, norm_v0 in LA; lra). assert (B t <> v0) as NB by (intro Z; rewrite Z, norm_v0 in LB; lra).
    pose proof (norm_gt_locally A t da (1 / 50000) ltac:(lra) HA LA) as GA. pose proof (norm_gt_locally B t db (1 / 50000) ltac:(lra) HB LB) as GB.
    assert (locally t (fun s => trace (mm (rodr (A s)) (mT (rodr (B s)))) < trace_limit)) as GT.
    { exact (trace_moves A B t da db HA HB NA NB (fun y => y < trace_limit) (open_lt trace_limit _ LT)). }
    generalize (filter_and _ _ GA (filter_and _ _ GB GT)). apply filter_imp. intros s (X & Y & Z). apply relative_exact; lra.
  - apply filter_forall. intro s. rewrite E, (proj1 (C23_compose_identity _)), rodr_neg, rodr_0. generalize (mT (rodr (B s))). intros []. apply m33_eq; cbn; ring.
  - apply filter_forall. intro s. rewrite E. replace (vneg v0) with v0 by (apply v3_eq; vunfold; ring). rewrite (proj2 (C23_compose_identity _)), rodr_0. generalize (rodr (A s)). intros []. apply m33_eq; cbn; ring.
Qed.
(** the rotation and the translation between the cameras, with the code's gradients *)
Lemma relative_moves : forall A B TA TB V t da db dta dtb dv, moves3 A t da -> moves3 B t db -> moves3 TA t dta -> moves3 TB t dtb -> moves3 V t dv ->
  angle_ok (A t) -> angle_ok (B t) -> compose_regular (A t) (vneg (B t)) -> composes A B t -> angle_ok (compose_r2 (A t) (vneg (B t)) false false) ->
  let '(rt_ref1, Jr, Jt) := inverted (mkrt (B t) (TB t)) in
  let '(rt01, gg) := compose_rt2_grad (mkrt (A t) (TA t)) rt_ref1 false false in
  let '(v1, J1r, J1v) := rotJ (rt_r rt01) (V t) false in
  let M s := mm (rodr (A s)) (mT (rodr (B s))) in
  v1 = mv (M t) (V t) /\ rt_t rt01 = vsub (TA t) (mv (M t) (TB t)) /\ dt_r1 gg = zero33 /\
  moves3 (fun s => mv (M s) (V s)) t (vadd (mv J1r (vsub (mv (dr_r0 gg) da) (mv (dr_r1 gg) db))) (mv J1v dv)) /\
  moves3 (fun s => vsub (TA s) (mv (M s) (TB s))) t (vadd (vadd (mv (dt_r0 gg) da) (mv (dt_t0 gg) dta)) (mv (dt_t1 gg) (vadd (mv Jr db) (mv Jt dtb)))).
Proof.
  intros A B TA TB V t da db dta dtb dv HA HB HTA HTB HV OA OB CR CO O01. pose proof (vneg_moves _ _ _ HB) as HN.
  pose proof (rodr_path (fun s => vneg (B s)) TB t (vneg db) dtb HN HTB (angle_neg _ OB)) as P1. pose proof (rotJ_spec (vneg (B t)) (TB t) false) as S1.
  unfold inverted, invert_rt_full, rotate_point_r_full. cbn [rt_r rt_t option_map]. change (V3 (- vx (B t)) (- vy (B t)) (- vz (B t))) with (vneg (B t)).
  unfold rotJ in P1, S1. set (y1 := rotate_point_r_core dualops (d_vec (vneg (B t)) (Some 0%nat)) (d_vec (TB t) (Some 3%nat)) false) in *.
  destruct S1 as (E1 & _ & _). rewrite (rot_exact _ _ false (angle_neg _ OB)) in E1.
  set (X := fun s => vneg (mv (rodr (vneg (B s))) (TB s))). pose proof (vneg_moves _ _ _ P1) as HX. change (moves3 X t (vneg (vadd (mv (grad3 y1 0) (vneg db)) (mv (grad3 y1 3) dtb)))) in HX.
  assert (scale3 (-1) (value3 y1) = X t) as EX. { rewrite E1. unfold X, scale3. generalize (mv (rodr (vneg (B t))) (TB t)). intro w. apply v3_eq; vunfold; ring. }
  rewrite EX. set (Jr := grad3 y1 0) in *. set (Jt := grad3 y1 3) in *. clearbody Jr Jt. clear E1 EX P1. clearbody y1. clear y1.
  unfold compose_rt2_grad. cbn [rt_r rt_t]. pose proof (compose_r_moves A (fun s => vneg (B s)) t da (vneg db) HA HN CR) as CM. cbv zeta in CM.
  rewrite (gen_value (A t) (vneg (B t)) (Some 0%nat) (Some 3%nat) false false).
  set (K0 := grad3 (compose_r_gen dualops (d_vec (A t) (Some 0%nat)) (d_vec (vneg (B t)) (Some 3%nat)) false false) 0) in *. set (K1 := grad3 (compose_r_gen dualops _ _ false false) 3) in *. clearbody K0 K1.
  pose proof (rodr_path A X t da _ HA HX OA) as P2. pose proof (rotJ_spec (A t) (X t) false) as S2. destruct (rotJ (A t) (X t) false) as [[y2 Jr2] Jx2]. destruct S2 as (E2 & _ & _).
  rewrite (rot_exact _ _ false OA) in E2. cbn iota in E2. cbn [rt_r rt_t].
  pose proof (rodr_path (fun s => compose_r2 (A s) (vneg (B s)) false false) V t _ dv CM HV O01) as P3. cbv beta in P3. pose proof (rotJ_spec (compose_r2 (A t) (vneg (B t)) false false) (V t) false) as S3.
  destruct (rotJ (compose_r2 (A t) (vneg (B t)) false false) (V t) false) as [[y3 Jr3] Jx3]. destruct S3 as (E3 & _ & _). rewrite (rot_exact _ _ false O01) in E3. cbn iota in E3.
  pose proof (relative_locally A B t da db HA HB CO) as RL. pose proof (locally_singleton _ _ RL) as R0.
  assert (forall s, mv (rodr (A s)) (X s) = vneg (mv (mm (rodr (A s)) (mT (rodr (B s)))) (TB s))) as EX.
  { intro s. unfold X. rewrite rodr_neg, mv_mm. generalize (mv (mT (rodr (B s))) (TB s)) (rodr (A s)). intros w Q. apply v3_eq; vunfold; ring. }
  cbn [dr_r0 dr_r1 dt_r0 dt_r1 dt_t0 dt_t1].
  repeat match goal with |- _ /\ _ => split end.
  - now rewrite E3, R0.
  - rewrite E2, EX. generalize (mv (mm (rodr (A t)) (mT (rodr (B t)))) (TB t)). intro w. apply v3_eq; vunfold; ring.
  - reflexivity.
  - eapply moves3_ext_loc; [|replace (vsub (mv K0 da) (mv K1 db)) with (vadd (mv K0 da) (mv K1 (vneg db))) by (apply v3_eq; vunfold; ring); exact P3].
    revert RL. apply filter_imp. intros s ->. reflexivity.
  - apply moves3_ext with (fun s => vadd (mv (rodr (A s)) (X s)) (TA s)).
    { intro s. rewrite EX. generalize (mv (mm (rodr (A s)) (mT (rodr (B s)))) (TB s)). intro w. apply v3_eq; vunfold; ring. }
    replace (vadd (vadd (mv Jr2 da) (mv identity_R dta)) (mv Jx2 (vadd (mv Jr db) (mv (mscale (-1) Jt) dtb)))) with (vadd (vadd (mv Jr2 da) (mv Jx2 (vneg (vadd (mv Jr (vneg db)) (mv Jt dtb))))) dta)
      by (unfold identity_R, mscale; apply v3_eq; vunfold; ring).
    now apply moves3_add.
Qed.
