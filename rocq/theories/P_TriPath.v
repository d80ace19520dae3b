(** The residual of a pair of observations of a triangulated point along a path of the ray and of the baseline. *)
From Coq Require Import Reals Lra Psatz Arith Lia.
From Coquelicot Require Import Coquelicot.
From Verif Require Import S_Vec S_Curve S_LensGrad M_Dual P_Dual P_Pose P_DualPath M_Pose P_PoseJ P_PoseGrad P_PathGrad M_Triangulate P_TriGrad C_TriError C_TriGrad.
Open Scope R_scope.

Ltac same x y H := assert (lrel _ _ x y) as H by lr.
Section L.
Variable N : nat.
Variable vel : nat -> R.
Notation L := (lrel N vel).
Notation VL := (vlrel N vel).
Lemma cross_lrel : forall a b a' b', VL a a' -> VL b b' -> VL (nvcross dualops a b) (nvcross dualops a' b').
Proof. intros. lr. Qed.
Lemma dot_lrel : forall a b a' b', VL a a' -> VL b b' -> L (nvdot dualops a b) (nvdot dualops a' b').
Proof. intros. lr. Qed.
Lemma cross_norm2_lrel : forall a b a' b', VL a a' -> VL b b' -> L (cross_norm2 dualops a b) (cross_norm2 dualops a' b').
Proof. intros. unfold cross_norm2, nvnorm2. apply dot_lrel; now apply cross_lrel. Qed.
Lemma angle_lrel : forall a b a' b', VL a a' -> VL b b' -> L (angle_error dualops a b) (angle_error dualops a' b').
Proof.
  intros a b a' b' A B. unfold angle_error. cbv zeta.
  set (c := ndiv dualops (nvdot dualops a b) _). set (c' := ndiv dualops (nvdot dualops a' b') _). assert (L c c') as C by (unfold c, c'; lr). clearbody c c'.
  set (e := if Rltb (nval dualops c) 0 then _ else _). set (e' := if Rltb (nval dualops c') 0 then _ else _).
  assert (L e e') as E. { unfold e, e'. cbn [nval dualops]. rewrite (proj1 C). destruct (Rltb (dx c') 0); lr. } clearbody e e'.
  set (h := naddc dualops _ _). set (h' := naddc dualops (nmulc dualops e' _) _). assert (L h h') as H by (unfold h, h'; lr). clearbody h h'.
  cbn [nval dualops]. change (num dualops) with dual in *. rewrite (proj1 H). destruct (Rltb _ _); lr.
Qed.
Lemma sigmoid_lrel : forall x x' k, L x x' -> L (sigmoid dualops x k) (sigmoid dualops x' k).
Proof.
  intros x x' k H. unfold sigmoid. cbv zeta. cbn [nval dualops]. change (num dualops) with dual in *. rewrite (proj1 H). destruct (Rleb _ _); [lr|]. destruct (Rleb _ _); [lr|]. destruct (Rltb _ _); lr.
Qed.
Lemma tri_error_lrel : forall a b t a' b' t', VL a a' -> VL b b' -> VL t t' -> L (triangulated_error dualops a b t) (triangulated_error dualops a' b' t').
Proof.
  intros a b t a' b' t' A B T. unfold triangulated_error. cbv zeta.
  set (l0 := mid2_l0 dualops a b t). set (l0' := mid2_l0 dualops a' b' t'). set (l1 := mid2_l1 dualops a b t). set (l1' := mid2_l1 dualops a' b' t').
  assert (L l0 l0') as L0. { unfold l0, l0', mid2_l0. pose proof (cross_norm2_lrel _ _ _ _ B T). pose proof (cross_norm2_lrel _ _ _ _ A B). lr. }
  assert (L l1 l1') as L1. { unfold l1, l1', mid2_l1. pose proof (cross_norm2_lrel _ _ _ _ A T). pose proof (cross_norm2_lrel _ _ _ _ A B). lr. }
  assert (VL (mid2_point dualops a b t) (mid2_point dualops a' b' t')) as M by (unfold mid2_point; fold l0 l0' l1 l1'; clearbody l0 l0' l1 l1'; lr).
  clearbody l0 l0' l1 l1'. pose proof (angle_lrel _ _ _ _ A M) as E. pose proof (angle_lrel _ _ _ _ A B) as V.
  set (w0 := worsening0 dualops l0 a l1 b t). set (w0' := worsening0 dualops l0' a' l1' b' t'). assert (L w0 w0') as W0 by (unfold w0, w0', worsening0, worsening; cbv zeta; lr).
  set (w1 := worsening1 dualops l0 a l1 b t). set (w1' := worsening1 dualops l0' a' l1' b' t'). assert (L w1 w1') as W1 by (unfold w1, w1', worsening1, worsening; cbv zeta; lr).
  set (w2 := worsening01 dualops l0 a l1 b t). set (w2' := worsening01 dualops l0' a' l1' b' t'). assert (L w2 w2') as W2 by (unfold w2, w2', worsening01, worsening; cbv zeta; lr).
  unfold chirality. fold w0 w0' w1 w1' w2 w2'. clearbody w0 w0' w1 w1' w2 w2'.
  set (p := angle_error dualops a _) in *. set (p' := angle_error dualops a' (mid2_point _ _ _ _)) in *. set (v := angle_error dualops a b) in *. set (v' := angle_error dualops a' b') in *. clearbody p p' v v'.
  pose proof (sigmoid_lrel _ _ 3 (lrel_mulc N vel _ _ (-1) W0)) as S0. pose proof (sigmoid_lrel _ _ 3 (lrel_mulc N vel _ _ (-1) W1)) as S1. pose proof (sigmoid_lrel _ _ 3 (lrel_mulc N vel _ _ (-1) W2)) as S2.
  unfold nneg. change (nmulc dualops) with d_mulc. cbn [nval dualops]. rewrite (proj1 W0), (proj1 W1), (proj1 W2). destruct (_ && _)%bool; lr.
Qed.
End L.

Lemma angle_val : forall a a' b b', vv a a' -> vv b b' -> nval dualops (angle_error dualops a b) = nval realops (angle_error realops a' b').
Proof.
  intros a a' b b' A B. unfold angle_error. cbv zeta.
  set (c := ndiv dualops (nvdot dualops a b) _). set (c' := ndiv realops (nvdot realops a' b') _).
  assert (dx c = c') as C by (unfold c, c'; valt). clearbody c c'. cbn [nval dualops realops]. rewrite C.
  destruct (Rltb c' 0); cbn; rewrite C; destruct (Rltb _ _); cbn; rewrite ?C; reflexivity.
Qed.
Lemma sigmoid_val : forall x (x' : num realops) k, dx x = x' -> dx (sigmoid dualops x k) = sigmoid realops x' k.
Proof.
  intros x x' k H. unfold sigmoid. cbv zeta. cbn [nval dualops realops]. rewrite H. destruct (Rleb _ _); [reflexivity|]. destruct (Rleb _ _); [reflexivity|]. destruct (Rltb _ _); cbn; rewrite H; reflexivity.
Qed.
Lemma tri_error_val : forall a b b' t t', vv b (rv b') -> vv t (rv t') -> dx (triangulated_error dualops (nvconst dualops a) b t) = tri_err a b' t'.
Proof.
  intros a b b' t t' B T. assert (vv (nvconst dualops a) (rv a)) as A by (repeat split). unfold tri_err, triangulated_error. cbv zeta.
  destruct (mid2_l_val _ _ _ _ _ _ A B T) as [E0 E1].
  assert (vv (mid2_point dualops (nvconst dualops a) b t) (mid2_point realops (rv a) (rv b') (rv t'))) as M.
  { unfold mid2_point. set (l0 := mid2_l0 dualops _ _ _) in *. set (l0' := mid2_l0 realops _ _ _) in *. set (l1 := mid2_l1 dualops _ _ _) in *. set (l1' := mid2_l1 realops _ _ _) in *. clearbody l0 l0' l1 l1'.
    cbn [nval dualops realops] in E0, E1. destruct A as (A0 & A1 & A2), B as (B0 & B1 & B2), T as (T0 & T1 & T2). unfold vv. cbn in *. rewrite E0, E1, B0, B1, B2, T0, T1, T2. repeat split. }
  pose proof (angle_val _ _ _ _ A M) as EP. pose proof (angle_val _ _ _ _ A B) as EV. rewrite (chirality_val _ _ _ _ _ _ _ _ _ _ A B T E0 E1).
  set (l0 := mid2_l0 dualops _ _ _) in *. set (l0' := mid2_l0 realops _ _ _) in *. set (l1 := mid2_l1 dualops _ _ _) in *. set (l1' := mid2_l1 realops _ _ _) in *. clearbody l0 l0' l1 l1'.
  cbn [nval dualops realops] in E0, E1.
  assert (dx (nneg dualops (worsening0 dualops l0 (nvconst dualops a) l1 b t)) = nneg realops (worsening0 realops l0' (rv a) l1' (rv b') (rv t'))) as W0 by (unfold worsening0, worsening, nneg; valt).
  assert (dx (nneg dualops (worsening1 dualops l0 (nvconst dualops a) l1 b t)) = nneg realops (worsening1 realops l0' (rv a) l1' (rv b') (rv t'))) as W1 by (unfold worsening1, worsening, nneg; valt).
  assert (dx (nneg dualops (worsening01 dualops l0 (nvconst dualops a) l1 b t)) = nneg realops (worsening01 realops l0' (rv a) l1' (rv b') (rv t'))) as W2 by (unfold worsening01, worsening, nneg; valt).
  pose proof (sigmoid_val _ _ 3 W0) as S0. pose proof (sigmoid_val _ _ 3 W1) as S1. pose proof (sigmoid_val _ _ 3 W2) as S2.
  destruct (chirality _ _ _ _ _ _); cbn [nval dualops realops nmulc nadd nmul d_mulc d_add d_mul dx] in *; rewrite EP; [reflexivity|]. rewrite EV, S0, S1, S2. reflexivity.
Qed.

(** where the residual has a derivative *)
Definition pair_regular (a b t : v3) : Prop :=
  cross a b <> v0 /\ cross a t <> v0 /\ cross b t <> v0 /\ angle_regular a (nvval realops (mid2_point realops (rv a) (rv b) (rv t))) /\ angle_regular a b.
Lemma vars_vv : forall v k, vv (d_vars v k) (rv v). Proof. intros. repeat split. Qed.
Lemma tri_path : forall a V T t dv dt, moves3 V t dv -> moves3 T t dt -> pair_regular a (V t) (T t) ->
  let e := triangulated_error dualops (nvconst dualops a) (d_vars (V t) 0) (d_vars (T t) 3) in
  is_derive (fun s => dx (triangulated_error dualops (nvconst dualops a) (d_vars (V s) 0) (d_vars (T s) 3))) t
    (dot (V3 (dj e 0%nat) (dj e 1%nat) (dj e 2%nat)) dv + dot (V3 (dj e 3%nat) (dj e 4%nat) (dj e 5%nat)) dt).
Proof.
  intros a V T t dv dt MV MT (N1 & N2 & N3 & A1 & A2) e.
  destruct (vcarries_par t V dv MV) as (_ & V1 & V2 & V3'). destruct (vcarries_par t T dt MT) as (_ & T1 & T2 & T3).
  assert (P_TriGrad.vrel one (par t) (fun q => rv (V (q 0%nat))) (pdual (V t) dv)) as RV by (split; [exact V1|split; [exact V2|exact V3']]).
  assert (P_TriGrad.vrel one (par t) (fun q => rv (T (q 0%nat))) (pdual (T t) dt)) as RT by (split; [exact T1|split; [exact T2|exact T3]]).
  destruct (residual_rel one (par t) a (fun q => V (q 0%nat)) (fun q => T (q 0%nat)) _ _ RV RT N1 N2 N3 A1 A2) as (_ & _ & D). specialize (D 0%nat eq_refl).
  pose proof (tri_error_lrel 6 (vel6 dv dt) _ _ _ _ _ _ (vlrel_const _ _ a) (vlrel_vars0 (V t) dv dt) (vlrel_vars3 (T t) dv dt)) as [_ E]. fold e in E.
  apply is_derive_ext with (fun s => tri_err a (V s) (T s)). { intro s. symmetry. apply tri_error_val; apply vars_vv. }
  eapply is_derive_rw; [exact D|]. rewrite E. unfold contract, vel6, dot. destruct dv, dt. cbn. ring.
Qed.
