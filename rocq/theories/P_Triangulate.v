(** Lemmas about the triangulation model on plain values. *)
From Coq Require Import Reals Lra Psatz Bool.
From Verif Require Import S_Vec P_Trig M_Dual M_Triangulate.
Open Scope R_scope.

Lemma Rltb_true : forall x y, x < y -> Rltb x y = true. Proof. intros. unfold Rltb. destruct (Rlt_dec x y); [easy|lra]. Qed.
Lemma Rltb_false : forall x y, y <= x -> Rltb x y = false. Proof. intros. unfold Rltb. destruct (Rlt_dec x y); [lra|easy]. Qed.
Lemma Rleb_true : forall x y, x <= y -> Rleb x y = true. Proof. intros. unfold Rleb. destruct (Rle_dec x y); [easy|lra]. Qed.
Lemma Rleb_false : forall x y, y < x -> Rleb x y = false. Proof. intros. unfold Rleb. destruct (Rle_dec x y); [lra|easy]. Qed.
Lemma Rltb_iff : forall x y, Rltb x y = true <-> x < y. Proof. intros. unfold Rltb. destruct (Rlt_dec x y); split; easy. Qed.
Lemma Rleb_iff : forall x y, Rleb x y = true <-> x <= y. Proof. intros. unfold Rleb. destruct (Rle_dec x y); split; easy. Qed.

Lemma rv_dot : forall a b, nvdot realops (rv a) (rv b) = dot a b. Proof. intros. cbn. unfold dot. ring. Qed.
Lemma rv_norm2 : forall a, nvnorm2 realops (rv a) = norm2 a. Proof. intros. unfold nvnorm2. rewrite rv_dot. reflexivity. Qed.
Lemma rv_mag : forall a, nvmag realops (rv a) = norm a. Proof. intros. unfold nvmag. rewrite rv_norm2. reflexivity. Qed.
Lemma rv_eq : forall a b c d e f : R, a = d -> b = e -> c = f -> @NV3 realops a b c = @NV3 realops d e f. Proof. intros; subst; reflexivity. Qed.
Lemma rv_cross : forall a b, nvcross realops (rv a) (rv b) = rv (cross a b). Proof. reflexivity. Qed.
Lemma rv_add : forall a b, nvadd realops (rv a) (rv b) = rv (vadd a b). Proof. reflexivity. Qed.
Lemma rv_sub : forall a b, nvsub realops (rv a) (rv b) = rv (vsub a b). Proof. reflexivity. Qed.
Lemma rv_mul : forall a k, nvmul realops (rv a) k = rv (vscale k a). Proof. intros. apply rv_eq; cbn; ring. Qed.
Lemma rv_mulc : forall a k, nvmulc realops (rv a) k = rv (vscale k a). Proof. intros. apply rv_eq; cbn; ring. Qed.
Lemma rv_div : forall a k, nvdiv realops (rv a) k = rv (vscale (/ k) a). Proof. intros. apply rv_eq; cbn; unfold Rdiv; ring. Qed.
Lemma rv_val : forall a, nvval realops (rv a) = a. Proof. now intros []. Qed.
Ltac rvs := repeat first [rewrite rv_dot | rewrite rv_norm2 | rewrite rv_mag | rewrite rv_cross | rewrite rv_add | rewrite rv_sub | rewrite rv_mul | rewrite rv_mulc | rewrite rv_div].

(** ** triangulate_assume_intersect *)
Definition dets (w0 w1 : v3) : R := Rmax (Rabs (vx (cross w0 w1))) (Rabs (vy (cross w0 w1))).

Lemma k0_exact : forall a0 z0 a1 z1 ta tz k0 k1 : R, 0 < k0 -> 0 < k1 -> a1 * z0 - a0 * z1 <> 0 -> k0 * a0 = ta + k1 * a1 -> k0 * z0 = tz + k1 * z1 ->
  intersect_k0 realops a0 z0 a1 z1 ta tz = Some k0.
Proof.
  intros a0 z0 a1 z1 ta tz k0 k1 K0 K1 D Ea Ez. unfold intersect_k0. cbn [nsub nmul ndiv nval realops].
  replace ta with (k0 * a0 - k1 * a1) by lra. replace tz with (k0 * z0 - k1 * z1) by lra.
  replace (((k0 * z0 - k1 * z1) * a1 - (k0 * a0 - k1 * a1) * z1) / (a1 * z0 - a0 * z1)) with k0 by (field; exact D).
  rewrite (Rleb_false k0 0) by exact K0. set (d := a1 * z0 - a0 * z1) in *.
  assert ((k0 * z0 - k1 * z1) * a0 - (k0 * a0 - k1 * a1) * z0 = k1 * d) as E by (unfold d; ring).
  destruct (Rlt_le_dec 0 d) as [P|P].
  - rewrite (Rltb_true 0 d) by easy. rewrite Rltb_true; [reflexivity|]. assert (0 < k1 * d) by now apply Rmult_lt_0_compat. lra.
  - rewrite (Rltb_false 0 d) by easy. rewrite Rltb_false; [reflexivity|]. assert (0 < k1 * - d) by (apply Rmult_lt_0_compat; lra). lra.
Qed.

Lemma assume_intersect_exact : forall w0 w1 t k0 k1, 0 < k0 -> 0 < k1 -> vscale k0 w0 = vadd t (vscale k1 w1) -> tiny < dets w0 w1 ->
  assume_intersect realops (rv w0) (rv w1) (rv t) = Some (rv (vscale k0 w0)).
Proof.
  intros w0 w1 t k0 k1 K0 K1 E T.
  assert (k0 * vx w0 = vx t + k1 * vx w1) as Ex by exact (f_equal vx E). assert (k0 * vy w0 = vy t + k1 * vy w1) as Ey by exact (f_equal vy E).
  assert (k0 * vz w0 = vz t + k1 * vz w1) as Ez by exact (f_equal vz E).
  unfold assume_intersect. cbn [n_x n_y n_z rv nval realops].
  replace (- vx w0 * vz w1 + vz w0 * vx w1) with (vy (cross w0 w1)) by (cbn; ring).
  replace (- vy w0 * vz w1 + vz w0 * vy w1) with (- vx (cross w0 w1)) by (cbn; ring). rewrite Rabs_Ropp.
  assert (0 < tiny) by (unfold tiny; lra). unfold dets, Rmax in T. destruct (Rltb _ _) eqn:B.
  - apply Rltb_iff in B. rewrite Rleb_false by (destruct (Rle_dec _ _) in T; lra). erewrite k0_exact; [|exact K0|exact K1| |exact Ex|exact Ez].
    + now rewrite rv_mul.
    + intro Z. assert (vy (cross w0 w1) = 0) as Z' by (cbn; lra). rewrite Z', Rabs_R0 in *. pose proof (Rabs_pos (vx (cross w0 w1))). lra.
  - assert (~ Rabs (vx (cross w0 w1)) < Rabs (vy (cross w0 w1))) by (intro Q; apply Rltb_true in Q; congruence).
    rewrite Rleb_false by (destruct (Rle_dec _ _) in T; lra). erewrite k0_exact; [|exact K0|exact K1| |exact Ey|exact Ez].
    + now rewrite rv_mul.
    + intro Z. assert (vx (cross w0 w1) = 0) as Z' by (cbn; lra). rewrite Z', Rabs_R0 in *. destruct (Rle_dec _ _) in T; lra.
Qed.

Lemma k0_sound : forall a0 z0 a1 z1 ta tz k0 : R, a1 * z0 - a0 * z1 <> 0 -> intersect_k0 realops a0 z0 a1 z1 ta tz = Some k0 ->
  0 < k0 /\ exists k1, 0 <= k1 /\ k0 * a0 = ta + k1 * a1 /\ k0 * z0 = tz + k1 * z1.
Proof.
  intros a0 z0 a1 z1 ta tz k0 D. unfold intersect_k0. cbn [nsub nmul ndiv nval realops].
  destruct (Rleb _ 0) eqn:P; [discriminate|]. destruct (xorb _ _) eqn:X; [discriminate|]. intro E. injection E as E.
  assert (0 < k0) as K0. { destruct (Rlt_le_dec 0 k0) as [?|Q]; [easy|]. rewrite <- E in Q. apply Rleb_true in Q. congruence. }
  split; [exact K0|]. set (d := a1 * z0 - a0 * z1) in *. exists ((tz * a0 - ta * z0) / d). split; [|split].
  - destruct (Rlt_le_dec 0 d) as [Q|Q].
    + rewrite (Rltb_true 0 d) in X by easy. destruct (Rltb (ta * z0) (tz * a0)) eqn:Y; [|discriminate]. apply Rltb_iff in Y. apply Rmult_le_pos; [lra|]. left. now apply Rinv_0_lt_compat.
    + rewrite (Rltb_false 0 d) in X by easy. destruct (Rltb (ta * z0) (tz * a0)) eqn:Y; [discriminate|].
      assert (~ ta * z0 < tz * a0) by (intro W; apply Rltb_true in W; congruence). replace ((tz * a0 - ta * z0) / d) with ((ta * z0 - tz * a0) * / - d) by (field; exact D).
      apply Rmult_le_pos; [lra|]. left. apply Rinv_0_lt_compat. lra.
  - rewrite <- E. unfold d. field. exact D.
  - rewrite <- E. unfold d. field. exact D.
Qed.

Lemma assume_intersect_sound : forall w0 w1 t m, dot (cross w0 w1) t = 0 -> assume_intersect realops (rv w0) (rv w1) (rv t) = Some m ->
  exists k0 k1, 0 < k0 /\ 0 <= k1 /\ m = rv (vscale k0 w0) /\ vscale k0 w0 = vadd t (vscale k1 w1).
Proof.
  intros w0 w1 t m C. unfold assume_intersect. cbn [n_x n_y n_z rv nval realops].
  replace (- vx w0 * vz w1 + vz w0 * vx w1) with (vy (cross w0 w1)) by (cbn; ring).
  replace (- vy w0 * vz w1 + vz w0 * vy w1) with (- vx (cross w0 w1)) by (cbn; ring). rewrite Rabs_Ropp.
  assert (0 < tiny) by (unfold tiny; lra).
  destruct (Rltb _ _) eqn:B; (destruct (Rleb _ tiny) eqn:L; [discriminate|]); (destruct (intersect_k0 _ _ _ _ _ _ _) as [k0|] eqn:K; [|discriminate]); intro M; injection M as <-.
  - assert (vy (cross w0 w1) <> 0) as D. { intro Z. rewrite Z, Rabs_R0 in L. rewrite Rleb_true in L by lra. discriminate. }
    apply k0_sound in K; [|cbn in D; lra]. destruct K as (K0 & k1 & K1 & Ex & Ez). exists k0, k1. split; [exact K0|]. split; [exact K1|]. split; [apply rv_mul|].
    apply v3_eq; cbn; [exact Ex| |exact Ez].
    assert ((k0 * vy w0 - vy t - k1 * vy w1) * vy (cross w0 w1) = - dot (cross w0 w1) t) as F.
    { assert (vx t = k0 * vx w0 - k1 * vx w1) as Tx by lra. assert (vz t = k0 * vz w0 - k1 * vz w1) as Tz by lra. unfold dot. cbn. rewrite Tx, Tz. ring. }
    rewrite C, Ropp_0 in F. apply Rmult_integral in F. destruct F as [F|F]; [lra|contradiction].
  - assert (vx (cross w0 w1) <> 0) as D. { intro Z. rewrite Z, Rabs_R0 in L. rewrite Rleb_true in L by lra. discriminate. }
    apply k0_sound in K; [|cbn in D; lra]. destruct K as (K0 & k1 & K1 & Ey & Ez). exists k0, k1. split; [exact K0|]. split; [exact K1|]. split; [apply rv_mul|].
    apply v3_eq; cbn; [|exact Ey|exact Ez].
    assert ((k0 * vx w0 - vx t - k1 * vx w1) * vx (cross w0 w1) = - dot (cross w0 w1) t) as F.
    { assert (vy t = k0 * vy w0 - k1 * vy w1) as Ty by lra. assert (vz t = k0 * vz w0 - k1 * vz w1) as Tz by lra. unfold dot. cbn. rewrite Ty, Tz. ring. }
    rewrite C, Ropp_0 in F. apply Rmult_integral in F. destruct F as [F|F]; [lra|contradiction].
Qed.

(** ** chirality *)
Lemma worsening_real : forall l0 v0 l1 v1 t,
  worsening0 realops l0 (rv v0) l1 (rv v1) (rv t) = norm2 (vadd (vadd t (vscale l1 v1)) (vscale l0 v0)) - norm2 (vsub (vadd t (vscale l1 v1)) (vscale l0 v0)) /\
  worsening1 realops l0 (rv v0) l1 (rv v1) (rv t) = norm2 (vsub (vsub t (vscale l1 v1)) (vscale l0 v0)) - norm2 (vsub (vadd t (vscale l1 v1)) (vscale l0 v0)) /\
  worsening01 realops l0 (rv v0) l1 (rv v1) (rv t) = norm2 (vadd (vsub t (vscale l1 v1)) (vscale l0 v0)) - norm2 (vsub (vadd t (vscale l1 v1)) (vscale l0 v0)).
Proof. intros. unfold worsening0, worsening1, worsening01, worsening, nneg. cbn. vunfold. repeat split; ring. Qed.
Lemma norm2_pos : forall v, v <> v0 -> 0 < norm2 v.
Proof. intros v H. destruct (norm2_nonneg v) as [?|E]; [easy|]. exfalso. apply H. now apply norm2_zero. Qed.
Lemma chirality_exact : forall l0 a l1 b t, 0 < l0 -> 0 < l1 -> vscale l0 a = vadd t (vscale l1 b) -> cross a b <> v0 -> chirality realops l0 (rv a) l1 (rv b) (rv t) = true.
Proof.
  intros l0 a l1 b t L0 L1 E C. unfold chirality. cbn [nval realops]. destruct (worsening_real l0 a l1 b t) as (-> & -> & ->).
  assert (t = vsub (vscale l0 a) (vscale l1 b)) as -> by (rewrite E; vring).
  assert (a <> v0) as Na by (intros ->; apply C; vring). assert (b <> v0) as Nb by (intros ->; apply C; vring).
  pose proof (norm2_pos _ Na) as Pa. pose proof (norm2_pos _ Nb) as Pb. pose proof (norm2_pos _ C) as Pc.
  rewrite !Rltb_true; [reflexivity| | |].
  - replace (norm2 _ - norm2 _) with (4 * norm2 (vsub (vscale l0 a) (vscale l1 b))) by (vunfold; ring).
    apply Rmult_lt_0_compat; [lra|]. apply norm2_pos. intro Z. apply C. assert (vscale l0 (cross a b) = v0) as Z'.
    { replace (vscale l0 (cross a b)) with (cross (vadd (vsub (vscale l0 a) (vscale l1 b)) (vscale l1 b)) b) by vring. rewrite Z. vring. }
    apply norm2_zero. assert (norm2 (vscale l0 (cross a b)) = 0) as Q by (rewrite Z'; vunfold; ring).
    replace (norm2 (vscale l0 (cross a b))) with (l0 * l0 * norm2 (cross a b)) in Q by (vunfold; ring).
    apply Rmult_integral in Q. destruct Q as [Q|Q]; [nra|exact Q].
  - replace (norm2 _ - norm2 _) with (4 * (l1 * l1) * norm2 b) by (vunfold; ring). repeat apply Rmult_lt_0_compat; lra.
  - replace (norm2 _ - norm2 _) with (4 * (l0 * l0) * norm2 a) by (vunfold; ring). repeat apply Rmult_lt_0_compat; lra.
Qed.
