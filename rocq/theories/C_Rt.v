(** C22: pose algebra in the matrix (Rt) representation. *)
From Coq Require Import Reals Lra Psatz List.
Import ListNotations.
From Verif Require Import S_Vec M_Dual M_Pose.
Open Scope R_scope.

(** ** Specification: a pose acts on points as x -> R x + t *)
Definition act (p : Rt) (x : v3) : v3 := vadd (mv (Rt_R p) x) (Rt_t p).
Definition proper (p : Rt) : Prop := is_rot (Rt_R p).

Lemma mul_Rv_mv : forall m v, mul_Rv m v = mv m v.
Proof. reflexivity. Qed.
Lemma mul_Rtv_mv : forall m v, mul_Rtv m v = mv (mT m) v.
Proof. reflexivity. Qed.
Lemma mul_RR_mm : forall a b, mul_RR a b = mm a b.
Proof. intros. unfold mul_RR, mul_Rtv, row_of. apply m33_eq; vunfold; ring. Qed.
Lemma swap_mT : forall a, swap_strides a = mT a.
Proof. reflexivity. Qed.

Theorem C22_transform_is_action : forall p x, transform_point_Rt p x false = act p x.
Proof. intros. unfold transform_point_Rt, rotate_point_R, act. rewrite mul_Rv_mv. reflexivity. Qed.

Lemma act_inj_R : forall p q, (forall x, act p x = act q x) -> p = q.
Proof.
  intros [R t] [R' t'] H. unfold act in H. cbn in H.
  pose proof (H v0) as H0. pose proof (H (V3 1 0 0)) as H1. pose proof (H (V3 0 1 0)) as H2. pose proof (H (V3 0 0 1)) as H3.
  assert (t = t') as Et.
  { apply v3_eq; [apply (f_equal vx) in H0|apply (f_equal vy) in H0|apply (f_equal vz) in H0]; vunfold; lra. }
  subst t'. f_equal.
  pose proof (f_equal vx H1); pose proof (f_equal vy H1); pose proof (f_equal vz H1).
  pose proof (f_equal vx H2); pose proof (f_equal vy H2); pose proof (f_equal vz H2).
  pose proof (f_equal vx H3); pose proof (f_equal vy H3); pose proof (f_equal vz H3).
  clear H H0 H1 H2 H3. apply m33_eq; vunfold; lra.
Qed.

Lemma invert_act : forall p x, proper p -> act (invert_Rt p) (act p x) = x /\ act p (act (invert_Rt p) x) = x.
Proof.
  intros p x Hp. unfold invert_Rt. rewrite mul_Rv_mv. replace (invert_R (Rt_R p)) with (mT (Rt_R p)) by reflexivity.
  unfold act. cbn [Rt_R Rt_t]. split.
  - rewrite mv_vadd, rot_mT_mv by easy. apply v3_eq; vunfold; ring.
  - rewrite mv_vadd, rot_mv_mT by easy.
    replace (V3 (-1 * vx (mv (mT (Rt_R p)) (Rt_t p))) (-1 * vy (mv (mT (Rt_R p)) (Rt_t p))) (-1 * vz (mv (mT (Rt_R p)) (Rt_t p))))
      with (vneg (mv (mT (Rt_R p)) (Rt_t p))) by (apply v3_eq; cbn; ring).
    rewrite mv_vneg, rot_mv_mT by easy. apply v3_eq; vunfold; ring.
Qed.

(** inverting: undoes the pose, on either side, stays a proper pose, and twice is
    the identity; transform with inverted=true is the transform by the inverse *)
Theorem C22_invert : forall p x, proper p ->
  proper (invert_Rt p) /\
  transform_point_Rt (invert_Rt p) (transform_point_Rt p x false) false = x /\
  transform_point_Rt p (transform_point_Rt (invert_Rt p) x false) false = x /\
  transform_point_Rt p x true = transform_point_Rt (invert_Rt p) x false /\
  rotate_point_R (Rt_R p) x true = rotate_point_R (invert_R (Rt_R p)) x false /\
  invert_Rt (invert_Rt p) = p.
Proof.
  intros p x Hp. rewrite !C22_transform_is_action. destruct (invert_act p x Hp) as [A B].
  assert (proper (invert_Rt p)) as Hq by (unfold proper; cbn; apply (is_rot_mT _ Hp)).
  split; [exact Hq|split; [exact A|split; [exact B|split; [|split; [reflexivity|]]]]].
  - unfold transform_point_Rt, rotate_point_R, act. rewrite mul_Rv_mv, swap_mT. cbn [Rt_R Rt_t invert_Rt].
    apply v3_eq; vunfold; cbn; ring.
  - apply act_inj_R. intro y. destruct (invert_act p y Hp) as [A1 _]. destruct (invert_act (invert_Rt p) (act p y) Hq) as [A2 _].
    rewrite A1 in A2. exact A2.
Qed.
Print Assumptions C22_invert.

(** each flag gives what inverting that argument first would give *)
Theorem C22_compose_flags : forall a b inverted0 inverted1, (inverted0 = true -> proper a) -> (inverted1 = true -> proper b) ->
  compose_Rt2 a b inverted0 inverted1 = compose_Rt2 (if inverted0 then invert_Rt a else a) (if inverted1 then invert_Rt b else b) false false.
Proof.
  intros a b i0 i1 _ _. unfold compose_Rt2. destruct i0, i1; rewrite ?mul_RR_mm, ?swap_mT; cbn [Rt_R Rt_t invert_Rt]; f_equal;
    apply v3_eq; unfold invert_R, mul_Rv, mul_Rtv; vunfold; cbn; ring.
Qed.
Print Assumptions C22_compose_flags.

(** composing = applying one after the other; proper poses stay proper *)
Theorem C22_compose : forall a b x,
  transform_point_Rt (compose_Rt2 a b false false) x false = transform_point_Rt a (transform_point_Rt b x false) false /\
  (proper a -> proper b -> proper (compose_Rt2 a b false false)).
Proof.
  intros a b x. rewrite !C22_transform_is_action. unfold compose_Rt2, act, proper. rewrite mul_RR_mm. cbn [Rt_R Rt_t]. split.
  - rewrite mv_mm, mv_vadd. unfold mul_Rv. apply v3_eq; vunfold; ring.
  - apply is_rot_mm.
Qed.
Print Assumptions C22_compose.

(** with flags: the corresponding combination of transforms *)
Theorem C22_compose_flags_act : forall a b inverted0 inverted1 x, (inverted0 = true -> proper a) -> (inverted1 = true -> proper b) ->
  transform_point_Rt (compose_Rt2 a b inverted0 inverted1) x false =
  transform_point_Rt a (transform_point_Rt b x inverted1) inverted0.
Proof.
  intros a b i0 i1 x Ha Hb. rewrite C22_compose_flags by easy. rewrite (proj1 (C22_compose _ _ _)).
  destruct i0, i1; cbv iota; try reflexivity.
  - destruct (C22_invert b x (Hb eq_refl)) as (_ & _ & _ & E & _). rewrite E.
    destruct (C22_invert a (transform_point_Rt (invert_Rt b) x false) (Ha eq_refl)) as (_ & _ & _ & E' & _). now rewrite E'.
  - destruct (C22_invert a (transform_point_Rt b x false) (Ha eq_refl)) as (_ & _ & _ & E' & _). now rewrite E'.
  - destruct (C22_invert b x (Hb eq_refl)) as (_ & _ & _ & E & _). now rewrite E.
Qed.
Print Assumptions C22_compose_flags_act.

Definition comp (a b : Rt) : Rt := compose_Rt2 a b false false.
Theorem C22_associative : forall a b c, comp (comp a b) c = comp a (comp b c).
Proof.
  intros a b c. apply act_inj_R. intro x. rewrite <- !C22_transform_is_action. unfold comp. now rewrite !(proj1 (C22_compose _ _ _)).
Qed.
Lemma comp_id : forall a, comp identity_Rt a = a /\ comp a identity_Rt = a.
Proof.
  intros [R t]. unfold comp, compose_Rt2, identity_Rt. cbn [Rt_R Rt_t]. rewrite !mul_RR_mm.
  replace identity_R with I3 by reflexivity. rewrite mm_I_l, mm_I_r. split; f_equal; apply v3_eq; unfold mul_Rv; vunfold; cbn; ring.
Qed.
(** The n-ary Python compose: any number of poses (two or more) gives the pose that
    applies the last one first, ..., the first one last - whatever the grouping. *)
Inductive grouping : list Rt -> Rt -> Prop :=
| g_one : forall a, grouping [a] a
| g_split : forall l1 l2 a b, grouping l1 a -> grouping l2 b -> grouping (l1 ++ l2) (comp a b).
Definition apply_all (ps : list Rt) (x : v3) : v3 := fold_right act x ps.

Lemma grouping_act : forall ps r, grouping ps r -> forall x, act r x = apply_all ps x.
Proof.
  induction 1; intro x; [reflexivity|]. unfold apply_all in *. rewrite fold_right_app, <- IHgrouping2, <- IHgrouping1.
  rewrite <- !C22_transform_is_action. apply C22_compose.
Qed.
Lemma fold_comp_act : forall rest a x, act (fold_left comp rest a) x = act a (apply_all rest x).
Proof.
  induction rest as [|b rest IH]; intros a x; [reflexivity|]. cbn [fold_left]. rewrite IH.
  unfold comp. rewrite <- !C22_transform_is_action. rewrite (proj1 (C22_compose _ _ _)). now rewrite !C22_transform_is_action.
Qed.
Theorem C22_nary : forall ps, (2 <= length ps)%nat -> exists r, compose_Rt_n ps = Some r /\
  (forall x, transform_point_Rt r x false = apply_all ps x) /\ (forall r', grouping ps r' -> r = r').
Proof.
  intros [|a [|b rest]] H; [cbn in H; lia..|]. cbn [compose_Rt_n]. eexists. split; [reflexivity|].
  assert (forall x, act (compose_Rt2 a (fold_left (fun p q => compose_Rt2 p q false false) rest b) false false) x = apply_all (a :: b :: rest) x) as E.
  { intro x. rewrite <- C22_transform_is_action. rewrite (proj1 (C22_compose _ _ _)). rewrite !C22_transform_is_action.
    change (fun p q => compose_Rt2 p q false false) with comp. rewrite fold_comp_act. reflexivity. }
  split.
  - intro x. rewrite C22_transform_is_action. apply E.
  - intros r' G. apply act_inj_R. intro x. rewrite E. symmetry. now apply grouping_act.
Qed.
Print Assumptions C22_nary.

(** the gradients of the matrix functions (part of C26) *)
Definition mset (m : m33) (j k : nat) (t : R) : m33 :=
  match j with
  | O => let v := vset (mrow m 0) k t in M33 (vx v) (vy v) (vz v) (m10 m) (m11 m) (m12 m) (m20 m) (m21 m) (m22 m)
  | S O => let v := vset (mrow m 1) k t in M33 (m00 m) (m01 m) (m02 m) (vx v) (vy v) (vz v) (m20 m) (m21 m) (m22 m)
  | _ => let v := vset (mrow m 2) k t in M33 (m00 m) (m01 m) (m02 m) (m10 m) (m11 m) (m12 m) (vx v) (vy v) (vz v)
  end.

(** Not vacuous: a proper pose that is not the identity, and three poses to compose *)
Example ex_pose : Rt := mkRt (M33 0 (-1) 0 1 0 0 0 0 1) (V3 1 2 3).
Example ex_pose_proper : proper ex_pose /\ transform_point_Rt ex_pose (V3 1 0 0) false = V3 1 3 3 /\
  transform_point_Rt ex_pose (V3 1 3 3) true = V3 1 0 0 /\ compose_Rt_n [ex_pose; ex_pose; identity_Rt] <> None.
Proof.
  split; [|split; [|split]].
  - split; [|split]; [apply m33_eq; vunfold; cbn; ring..|vunfold; cbn; ring].
  - apply v3_eq; cbn; ring.
  - apply v3_eq; cbn; ring.
  - discriminate.
Qed.
Print Assumptions C22_transform_is_action.
Print Assumptions C22_associative.
