(** C81: projection_diff() compares lenses up to the rigid motion that its cost function selects *)
From Coq Require FinFun.
From Coq Require Import Reals ZArith List Bool Lra Lia Psatz ClassicalEpsilon.
From Coquelicot Require Import Coquelicot.
From Verif Require Import S_Vec M_Pose C_Rodrigues C_PoseGrad P_Fit M_Match M_Diff.
From Verif Require C_Match.
Import ListNotations.
Open Scope R_scope.
Local Notation Forall := List.Forall.
Local Notation Forall2 := List.Forall2.

(** ** Specification *)
Definition unit (v : v3) : v3 := vscale (/ norm v) v.
(** rotate_point_r() is a rotation outside of this range of tiny rotations (C20) *)
Definition not_tiny (r : v3) : Prop := r = v0 \/ 1 / 100000 <= norm r.
(** the 3 partial derivatives of a function of a vector *)
Definition is_gradient (f : v3 -> R) (x g : v3) : Prop :=
  forall j, (j < 3)%nat -> derivable_pt_lim (fun t => f (vset x j t)) (vget x j) (vget g j).
(** scipy.optimize.least_squares(loss='huber', f_scale): the cost *)
Definition huber (z : R) : R := if Rle_dec z 1 then z else 2 * sqrt z - 1.
Definition cost (fs : R) (x : list R) : R := sumR (map (fun x => fs * fs * huber ((x / fs) * (x / fs))) x) / 2.
(** the optimizer finds the least cost *)
Definition finds_best {A B} (fs : R) (lsq : (A -> list (R * B)) -> A) : Prop :=
  forall f a, cost fs (map fst (f (lsq f))) <= cost fs (map fst (f a)).
(** the lens: unproject() makes unit vectors, project() is its inverse, along the whole ray *)
Definition good_lens (m : model) : Prop :=
  forall q v, m_unproject m q = Some v -> norm2 v = 1 /\ forall k, 0 < k -> m_project m (vscale k v) = q.

(** ** The residuals *)
Lemma rot_moves : forall r x, not_tiny r -> rotate_point_r r x false = mv (R_from_r r) x.
Proof.
  intros r x [-> | H].
  - destruct (C20_rotate_point_agrees_partial v0 x false) as (_ & B0 & _). rewrite B0 by reflexivity.
    destruct (C20_R_from_r_partial v0) as (_ & _ & E & _). rewrite E by reflexivity. now rewrite mv_I.
  - destruct (C20_rotate_point_agrees_partial r x false) as (A & _). now rewrite A.
Qed.
Lemma rr_value : forall r p v w, fst (residual_r r (p, v, w)) = 2 * (1 - dot (rotate_point_r r p false) v) * w.
Proof.
  intros. unfold residual_r. pose proof (C26_rotate_point_r_partial r p false true true) as H.
  destruct (rotate_point_r_full r p false true true) as [[y Jr] Jx]. destruct H as (-> & _). reflexivity.
Qed.
Lemma rrt_value : forall q p v w,
  fst (residual_rt q (p, v, w)) = 2 * (1 - dot (transform_point_rt q p false) v / norm (transform_point_rt q p false)) * w.
Proof.
  intros. unfold residual_rt. pose proof (C26_transform_point_rt_partial q p false true true) as H.
  destruct (transform_point_rt_full q p false true true) as [[y Jr] Jx]. destruct H as (-> & (a & b & -> & _) & _). reflexivity.
Qed.
Lemma chord : forall a b, norm2 a = 1 -> norm2 b = 1 -> norm2 (vsub a b) = 2 * (1 - dot a b).
Proof. intros a b A B. transitivity (norm2 a + norm2 b - 2 * dot a b); [vunfold; ring|lra]. Qed.
Lemma unit_norm2 : forall a, a <> v0 -> norm2 (unit a) = 1.
Proof.
  intros a H. pose proof (norm_pos a H). pose proof (norm_sq a).
  unfold unit. transitivity (/ norm a * / norm a * norm2 a); [vunfold; ring|]. rewrite <- H1. field. lra.
Qed.
Lemma unit_dot : forall a b, dot (unit a) b = dot a b / norm a.
Proof. intros. unfold unit, Rdiv. vunfold. ring. Qed.

(** The residual of a point is its weight times the squared distance between the transformed direction and the other camera's *)
Theorem C81_residual : forall r t p v w, norm2 v = 1 -> not_tiny r ->
  (norm2 p = 1 -> fst (residual_r r (p, v, w)) = w * norm2 (vsub (mv (R_from_r r) p) v)) /\
  (vadd (mv (R_from_r r) p) t <> v0 ->
     fst (residual_rt (mkrt r t) (p, v, w)) = w * norm2 (vsub (unit (vadd (mv (R_from_r r) p) t)) v)).
Proof.
  intros r t p v w V N. split; intro H.
  - rewrite rr_value, (rot_moves r p N), chord; [ring| |exact V].
    unfold norm2. rewrite rot_dot by apply C20_R_from_r_partial. exact H.
  - rewrite rrt_value. unfold transform_point_rt. cbn [rt_r rt_t]. rewrite (rot_moves r p N).
    fold (vadd (mv (R_from_r r) p) t). rewrite chord, unit_dot; [ring|apply unit_norm2; exact H|exact V].
Qed.

(** ** The gradients *)
Lemma mget_row : forall m j, (j < 3)%nat -> forall a b c, mget m 0 j * a + mget m 1 j * b + mget m 2 j * c = vget (vm (V3 a b c) m) j.
Proof. intros m [|[|[|j]]] H a b c; try lia; unfold mget, vm; vunfold; cbn [mrow vget vx vy vz]; ring. Qed.
Lemma vset_self : forall x j, (j < 3)%nat -> vset x j (vget x j) = x.
Proof. intros [a b c] [|[|[|j]]] H; try lia; reflexivity. Qed.
Lemma vm_eta : forall v m, vm (V3 (vx v) (vy v) (vz v)) m = vm v m.
Proof. intros [a b c] m. reflexivity. Qed.
Ltac inR := match goal with |- @eq _ ?a ?b => change (@eq R a b); cbv beta; ring end.
Section grads.
Context (F : v3 -> v3) (x v : v3) (J : m33) (w : R) (HJ : is_jacobian F x J).
Lemma comp_d : forall j, (j < 3)%nat ->
  is_derive (fun t => vx (F (vset x j t))) (vget x j) (mget J 0 j) /\
  is_derive (fun t => vy (F (vset x j t))) (vget x j) (mget J 1 j) /\
  is_derive (fun t => vz (F (vset x j t))) (vget x j) (mget J 2 j).
Proof. intros j Hj. split; [|split]; apply is_derive_Reals; [apply (HJ 0%nat j)|apply (HJ 1%nat j)|apply (HJ 2%nat j)]; lia. Qed.
Lemma dot_d : forall j, (j < 3)%nat -> is_derive (fun t => dot (F (vset x j t)) v) (vget x j) (vget (vm v J) j).
Proof.
  intros j Hj. destruct (comp_d j Hj) as (A & B & C). rewrite <- vm_eta, <- mget_row by exact Hj. unfold dot.
  eapply is_derive_ext; [intro t; reflexivity|].
  evar_last; [apply (is_derive_plus (K := R_AbsRing) (V := R_NormedModule)); [apply (is_derive_plus (K := R_AbsRing) (V := R_NormedModule))|];
    apply (is_derive_scal_l (K := R_AbsRing) (V := R_NormedModule)); eassumption|]. reflexivity.
Qed.
Lemma sq_d : forall j, (j < 3)%nat -> is_derive (fun t => norm2 (F (vset x j t))) (vget x j) (2 * vget (vm (F x) J) j).
Proof.
  intros j Hj. destruct (comp_d j Hj) as (A & B & C). rewrite <- vm_eta, <- mget_row by exact Hj. unfold norm2, dot.
  pose proof (is_derive_mult _ _ _ _ _ A A Rmult_comm) as A2. pose proof (is_derive_mult _ _ _ _ _ B B Rmult_comm) as B2.
  pose proof (is_derive_mult _ _ _ _ _ C C Rmult_comm) as C2.
  pose proof (is_derive_plus _ _ _ _ _ (is_derive_plus _ _ _ _ _ A2 B2) C2) as D.
  cbv beta in D. rewrite (vset_self x j Hj) in D. eapply is_derive_ext; [|evar_last; [exact D|]].
  - intro t. reflexivity.
  - unfold plus, mult; cbn -[Rplus Rmult mget]. ring.
Qed.
Lemma norm_d : F x <> v0 -> forall j, (j < 3)%nat -> is_derive (fun t => norm (F (vset x j t))) (vget x j) (/ norm (F x) * vget (vm (F x) J) j).
Proof.
  intros H j Hj. pose proof (norm_pos _ H) as P. assert (0 < norm2 (F x)) as P2 by (rewrite <- norm_sq; nra).
  unfold norm at 1. evar_last; [apply (is_derive_comp sqrt (fun t => norm2 (F (vset x j t)))); [|apply sq_d; exact Hj]|].
  - rewrite (vset_self x j Hj). apply is_derive_Reals, derivable_pt_lim_sqrt. exact P2.
  - unfold scal; cbn -[Rmult vm]. unfold mult; cbn -[Rmult vm]. fold (norm (F x)). field. lra.
Qed.
End grads.

(** The Jacobians given to the optimizer are the gradients of the residuals.
    Partial: not at |r| = 1e-5, where rotate_point_r() switches formulas and isn't differentiable (C26_threshold_refuted) *)
Theorem C81_gradient_partial : forall q p v w,
  (norm2 (rt_r q) <> 1 / 10000000000 ->
     is_gradient (fun r => fst (residual_r r (p, v, w))) (rt_r q) (snd (residual_r (rt_r q) (p, v, w)))) /\
  (transform_point_rt q p false <> v0 ->
     (norm2 (rt_r q) <> 1 / 10000000000 ->
        is_gradient (fun r => fst (residual_rt (mkrt r (rt_t q)) (p, v, w))) (rt_r q) (fst (snd (residual_rt q (p, v, w))))) /\
     is_gradient (fun t => fst (residual_rt (mkrt (rt_r q) t) (p, v, w))) (rt_t q) (snd (snd (residual_rt q (p, v, w))))).
Proof.
  assert (forall F x v w J, is_jacobian F x J -> F x <> v0 ->
    is_gradient (fun r => 2 * (1 - dot (F r) v / norm (F r)) * w) x
      (vscale (2 / (norm (F x) * norm (F x)) * w)
         (vsub (vscale (dot (F x) v) (vscale (/ norm (F x)) (vm (F x) J))) (vscale (norm (F x)) (vm v J))))) as G.
  { intros F x v w J HJ N j Hj. apply is_derive_Reals. pose proof (norm_pos _ N) as P.
    pose proof (dot_d F x v J HJ j Hj) as D. pose proof (norm_d F x J HJ N j Hj) as E.
    assert (norm (F (vset x j (vget x j))) <> 0) as NZ by (rewrite (vset_self x j Hj); lra).
    pose proof (is_derive_div _ _ _ _ _ D E NZ) as Q. cbv beta in Q. rewrite (vset_self x j Hj) in Q.
    evar_last; [apply (is_derive_ext (fun t => (-2 * w) * (dot (F (vset x j t)) v / norm (F (vset x j t))) + 2 * w)); [intro t; inR|];
      apply (is_derive_plus (K := R_AbsRing) (V := R_NormedModule)); [apply is_derive_scal; exact Q|apply (is_derive_const (K := R_AbsRing) (V := R_NormedModule))]|].
    unfold plus, zero; cbn -[Rmult Rplus Rdiv vm dot norm vget]. 
    transitivity (2 / (norm (F x) * norm (F x)) * w * (dot (F x) v * (/ norm (F x) * vget (vm (F x) J) j) - norm (F x) * vget (vm v J) j)).
    - field. lra.
    - destruct j as [|[|[|j]]]; [| | |lia]; reflexivity. }
  intros q p v w. split.
  - intros H j Hj. pose proof (C26_rotate_point_r_partial (rt_r q) p false true true) as C. apply is_derive_Reals.
    eapply is_derive_ext; [intro t; symmetry; apply rr_value|]. unfold residual_r.
    destruct (rotate_point_r_full (rt_r q) p false true true) as [[y Jr] Jx]. destruct C as (-> & (J & -> & HJ) & _). specialize (HJ H). cbn [snd].
    pose proof (dot_d _ _ v J HJ j Hj) as D. cbv beta in D.
    evar_last; [apply (is_derive_ext (fun t => (-2 * w) * dot (rotate_point_r (vset (rt_r q) j t) p false) v + 2 * w)); [intro t; inR|];
      apply (is_derive_plus (K := R_AbsRing) (V := R_NormedModule)); [apply is_derive_scal; exact D|apply (is_derive_const (K := R_AbsRing) (V := R_NormedModule))]|].
    unfold plus, zero; cbn -[Rmult Rplus Rdiv vm dot norm vget vscale].
    destruct j as [|[|[|j]]]; [| | |lia]; cbn [vget vscale vx vy vz]; ring.
  - intro N. pose proof (C26_transform_point_rt_partial q p false true true) as C. unfold residual_rt at 2 4.
    destruct (transform_point_rt_full q p false true true) as [[y Jrt] Jx]. destruct C as (-> & (Jr & Jt & -> & HJr & HJt) & _). cbn [fst snd].
    destruct q as [r t]. cbn [rt_r rt_t] in *. split; [intro H|]; intros j Hj.
    + pose proof (G _ _ v w Jr (HJr H) N j Hj) as X. apply is_derive_Reals. apply is_derive_Reals in X.
      eapply is_derive_ext; [intro s; symmetry; apply rrt_value|]. exact X.
    + pose proof (G _ _ v w Jt HJt N j Hj) as X. apply is_derive_Reals. apply is_derive_Reals in X.
      eapply is_derive_ext; [intro s; symmetry; apply rrt_value|]. exact X.
Qed.

(** ** The fit *)
Lemma huber_pos : forall z, 0 <= z -> 0 <= huber z /\ (huber z = 0 -> z = 0).
Proof.
  intros z H. unfold huber. destruct (Rle_dec z 1); [lra|]. assert (1 < sqrt z); [|lra].
  rewrite <- sqrt_1. apply sqrt_lt_1; lra.
Qed.
Lemma cost_zero : forall fs l, 0 < fs -> 0 <= cost fs l /\ (cost fs l <= 0 -> Forall (fun x => x = 0) l) /\ (Forall (fun x => x = 0) l -> cost fs l = 0).
Proof.
  intros fs l F. unfold cost. induction l as [|x l IH]; cbn [map].
  - unfold sumR. cbn [fold_right]. split; [lra|]. split; [constructor|lra].
  - change (sumR (?a :: ?b)) with (a + sumR b). destruct IH as (A & B & C).
    pose proof (Rle_0_sqr (x / fs)) as S1. unfold Rsqr in S1. destruct (huber_pos _ S1) as (P & Z).
    assert (0 <= fs * fs * huber (x / fs * (x / fs))) as P2 by (apply Rmult_le_pos; [apply Rmult_le_pos; lra|exact P]).
    split; [lra|]. split.
    + intro L. constructor; [|apply B; lra].
      assert (fs * fs * huber (x / fs * (x / fs)) = 0) as E by lra. apply Rmult_integral in E. destruct E as [E|E]; [nra|].
      specialize (Z E). assert (x / fs = 0) as X by nra. replace x with (x / fs * fs) by (field; lra). rewrite X. ring.
    + intro Fa. inversion Fa; subst. rewrite Rplus_comm. unfold Rdiv at 1. 
      replace (huber (0 / fs * (0 / fs))) with 0; [specialize (C H2); lra|].
      replace (0 / fs * (0 / fs)) with 0 by (unfold Rdiv; ring). unfold huber. destruct (Rle_dec 0 1); lra.
Qed.
(** The optimizer: if the least cost is attained at an acceptable point, it reports such a point *)
Definition optimizer {A B} (fs : R) (ok : A -> Prop) (lsq : (A -> list (R * B)) -> A) : Prop :=
  forall f, (exists a, ok a /\ forall b, cost fs (map fst (f a)) <= cost fs (map fst (f b))) ->
    ok (lsq f) /\ forall b, cost fs (map fst (f (lsq f))) <= cost fs (map fst (f b)).
Lemma perfect : forall A B fs ok (lsq : (A -> list (R * B)) -> A) f a, 0 < fs -> optimizer fs ok lsq -> ok a ->
  Forall (fun x => fst x = 0) (f a) -> ok (lsq f) /\ Forall (fun x => fst x = 0) (f (lsq f)).
Proof.
  intros A B fs ok lsq f a F O K Z.
  assert (forall l : list (R * B), Forall (fun x => fst x = 0) l <-> Forall (fun x => x = 0) (map fst l)) as M by (intro l; now rewrite Forall_map).
  apply M in Z. destruct (cost_zero fs (map fst (f a)) F) as (_ & _ & E). specialize (E Z).
  destruct (O f) as (K2 & L).
  - exists a. split; [exact K|]. intro b. rewrite E. apply cost_zero. exact F.
  - split; [exact K2|]. apply M. apply (cost_zero fs _ F). specialize (L a). lra.
Qed.

Lemma combine_nth_error : forall A B (l : list A) (m : list B) k a b,
  nth_error (combine l m) k = Some (a, b) <-> nth_error l k = Some a /\ nth_error m k = Some b.
Proof.
  induction l as [|x l IH]; intros [|y m] [|k] a b; cbn; try (split; [discriminate|intros (? & ?); discriminate]).
  - split; [intros [= -> ->]; easy|intros ([= ->] & [= ->]); reflexivity].
  - apply IH.
Qed.
(** the point number k of slice number j takes part in the fit, as the datum x *)
Definition takes_part (c : pixel) (rad : R) (q0 : list pixel) (v1 : list (option v3)) (p0 : list (list (option v3)))
  (ws : list (list (option R))) (j k : nat) (x : datum) : Prop :=
  exists ps w q v p wk, nth_error p0 j = Some ps /\ nth_error ws j = Some w /\ nth_error q0 k = Some q /\ nth_error v1 k = Some v /\
    nth_error ps k = Some p /\ nth_error w k = Some wk /\
    (fst q - fst c) * (fst q - fst c) + (snd q - snd c) * (snd q - snd c) < rad * rad /\ x = clean p v wk.
Lemma in_focus_spec : forall c rad q, in_focus c rad q = true <->
  (fst q - fst c) * (fst q - fst c) + (snd q - snd c) * (snd q - snd c) < rad * rad.
Proof. intros. unfold in_focus. destruct (Rlt_dec _ _); easy. Qed.
Lemma in_fit : forall c rad q0 v1 p0 weights x,
  In x (fit_data c rad q0 v1 p0 weights) <->
  exists j k, takes_part c rad q0 v1 p0 (match weights with Some w => w | None => map (map (fun _ => Some 1)) p0 end) j k x.
Proof.
  intros. unfold fit_data. rewrite in_flat_map. split.
  - intros ([ps w] & I1 & I2). unfold slice_data in I2. apply in_map_iff in I2. destruct I2 as ([[q v] [p wk]] & <- & I2).
    apply filter_In in I2. destruct I2 as (I2 & Fo). apply In_nth_error in I1, I2. destruct I1 as (j & I1), I2 as (k & I2).
    apply combine_nth_error in I1, I2. destruct I1 as (J1 & J2), I2 as (K1 & K2). apply combine_nth_error in K1, K2.
    apply in_focus_spec in Fo. exists j, k, ps, w, q, v, p, wk. cbn [fst snd] in *. tauto.
  - intros (j & k & ps & w & q & v & p & wk & J1 & J2 & K1 & K2 & K3 & K4 & Fo & ->). exists (ps, w). split.
    + eapply nth_error_In. apply combine_nth_error. split; eassumption.
    + unfold slice_data. apply in_map_iff. exists ((q, v), (p, wk)). split; [reflexivity|]. apply filter_In. split.
      * eapply nth_error_In. apply combine_nth_error. split; apply combine_nth_error; split; eassumption.
      * apply in_focus_spec. exact Fo.
Qed.
Lemma unit_eq : forall a b, norm2 a = 1 -> norm2 b = 1 -> dot a b = 1 -> a = b.
Proof.
  intros a b A B D. assert (vsub a b = v0) as E by (apply norm2_zero; rewrite chord by assumption; lra).
  apply v3_eq; [apply (f_equal vx) in E|apply (f_equal vy) in E|apply (f_equal vz) in E]; vunfold; lra.
Qed.

Section fit.
Context (lsq_r : (v3 -> list (R * v3)) -> v3) (lsq_rt : (rt -> list (R * (v3 * v3))) -> rt) (fs : R).
Context (q0 : list pixel) (p0 : list (list (option v3))) (v1 : list (option v3)) (weights : option (list (list (option R)))) (c : pixel) (rad : R).
Definition part (j k : nat) (x : datum) : Prop :=
  takes_part c rad q0 v1 p0 (match weights with Some w => w | None => map (map (fun _ => Some 1)) p0 end) j k x.

(** If some rotation aligns all the points that have a nonzero weight then the fitted transformation aligns them *)
Theorem C81_fit_infinity : forall r0 Rt10, 0 < fs -> optimizer fs not_tiny lsq_r -> not_tiny r0 ->
  (forall j k p v w, part j k (p, v, w) -> w <> 0 -> norm2 p = 1 /\ norm2 v = 1 /\ mv (R_from_r r0) p = v) ->
  implied_Rt10 lsq_r lsq_rt q0 p0 v1 weights true c rad = Some Rt10 ->
  is_rot (Rt_R Rt10) /\ Rt_t Rt10 = v0 /\ forall j k p v w, part j k (p, v, w) -> w <> 0 -> mv (Rt_R Rt10) p = v.
Proof.
  intros r0 Rt10 F O N E H. unfold implied_Rt10 in H. destruct (_ <? 3)%nat; [discriminate|]. 
  set (f := fun r => map (residual_r r) (fit_data c rad q0 v1 p0 weights)) in H.
  apply (f_equal (fun o => match o with Some x => x | None => Rt10 end)) in H. cbv iota in H. subst Rt10. cbn [Rt_R Rt_t].
  split; [apply C20_R_from_r_partial|]. split; [reflexivity|].
  destruct (perfect _ _ fs not_tiny lsq_r f r0 F O N) as (N2 & Z).
  { unfold f. apply Forall_map, Forall_forall. intros [[p v] w] I1. apply in_fit in I1. destruct I1 as (j & k & I1).
    rewrite rr_value. destruct (Req_dec w 0) as [-> | W]; [ring|]. destruct (E j k p v w I1 W) as (A & B & <-).
    rewrite rot_moves by exact N. unfold norm2 in B. rewrite B. ring. }
  intros j k p v w P W. destruct (E j k p v w P W) as (A & B & _).
  unfold f in Z at 1. rewrite Forall_map, Forall_forall in Z. specialize (Z (p, v, w)). rewrite rr_value, rot_moves in Z by exact N2.
  assert (In (p, v, w) (fit_data c rad q0 v1 p0 weights)) as I1 by (apply in_fit; exists j, k; exact P). specialize (Z I1).
  apply Rmult_integral in Z. destruct Z as [Z|Z]; [|contradiction].
  apply unit_eq; [unfold norm2; rewrite rot_dot by apply C20_R_from_r_partial; exact A|exact B|lra].
Qed.
(** The same with a translation.  The aligned points lie on the other camera's rays *)
Theorem C81_fit : forall r0 t0 Rt10, 0 < fs -> optimizer fs (fun q => not_tiny (rt_r q)) lsq_rt -> not_tiny r0 ->
  (forall j k p v w, part j k (p, v, w) -> w <> 0 -> norm2 v = 1 /\ exists d, 0 < d /\ vadd (mv (R_from_r r0) p) t0 = vscale d v) ->
  implied_Rt10 lsq_r lsq_rt q0 p0 v1 weights false c rad = Some Rt10 ->
  is_rot (Rt_R Rt10) /\ forall j k p v w, part j k (p, v, w) -> w <> 0 -> exists d, 0 < d /\ vadd (mv (Rt_R Rt10) p) (Rt_t Rt10) = vscale d v.
Proof.
  intros r0 t0 Rt10 F O N E H. unfold implied_Rt10 in H. destruct (_ <? 3)%nat; [discriminate|]. 
  set (f := fun q => map (residual_rt q) (fit_data c rad q0 v1 p0 weights)) in H.
  apply (f_equal (fun o => match o with Some x => x | None => Rt10 end)) in H. cbv iota in H. subst Rt10. unfold Rt_from_rt. cbn [Rt_R Rt_t].
  split; [apply C20_R_from_r_partial|].
  destruct (perfect _ _ fs (fun q => not_tiny (rt_r q)) lsq_rt f (mkrt r0 t0) F O N) as (N2 & Z).
  { unfold f. apply Forall_map, Forall_forall. intros [[p v] w] I1. apply in_fit in I1. destruct I1 as (j & k & I1).
    rewrite rrt_value. destruct (Req_dec w 0) as [-> | W]; [ring|]. destruct (E j k p v w I1 W) as (B & d & D & Q).
    unfold transform_point_rt. cbn [rt_r rt_t]. rewrite rot_moves by exact N. fold (vadd (mv (R_from_r r0) p) t0). rewrite Q.
    assert (norm (vscale d v) = d) as ->.
    { unfold norm. replace (norm2 (vscale d v)) with (d * d) by (transitivity (d * d * norm2 v); [rewrite B; ring|vunfold; ring]). apply sqrt_square. lra. }
    replace (dot (vscale d v) v) with (d * norm2 v) by (vunfold; ring). rewrite B. field. lra. }
  intros j k p v w P W. destruct (E j k p v w P W) as (B & _).
  unfold f in Z at 1. rewrite Forall_map, Forall_forall in Z. specialize (Z (p, v, w)). rewrite rrt_value in Z.
  assert (In (p, v, w) (fit_data c rad q0 v1 p0 weights)) as I1 by (apply in_fit; exists j, k; exact P). specialize (Z I1).
  unfold transform_point_rt in Z. cbn [rt_r rt_t] in Z. rewrite rot_moves in Z by exact N2.
  set (y := mv (R_from_r (rt_r (lsq_rt f))) p) in *. fold (vadd y (rt_t (lsq_rt f))) in Z. set (z := vadd y (rt_t (lsq_rt f))) in *.
  apply Rmult_integral in Z. destruct Z as [Z|Z]; [|contradiction].
  assert (z <> v0) as NZ. { intro Q. rewrite Q in Z. replace (dot v0 v) with 0 in Z by (vunfold; ring). unfold Rdiv in Z. lra. }
  pose proof (norm_pos z NZ). exists (norm z). split; [lra|].
  rewrite <- (unit_eq (unit z) v); [|apply unit_norm2; exact NZ|exact B|rewrite unit_dot; lra].
  unfold unit. apply v3_eq; cbn [vscale vx vy vz]; field; lra.
Qed.
End fit.

(** ** The differences *)
(** the pixels that take part in the fit: (model_analysis.py:1798-1805) the center and radius of the region, if the uncertainties aren't used *)
Definition focus_center (o : opts) (m : model) : pixel :=
  match o_focus_center o with Some c => c | None => ((IZR (fst (m_size m)) - 1) / 2, (IZR (snd (m_size m)) - 1) / 2) end.
Definition focus_radius (o : opts) (m : model) : R :=
  if Rlt_dec (o_focus_radius o) 0 then IZR (Z.min (fst (m_size m)) (snd (m_size m))) / 6 else o_focus_radius o.
Definition focused (o : opts) (m : model) (q : pixel) : Prop :=
  let c := focus_center o m in
  (fst q - fst c) * (fst q - fst c) + (snd q - snd c) * (snd q - snd c) < focus_radius o m * focus_radius o m.
(** element (j,k) of an array *)
Definition entry {A} (l : list (list A)) (j k : nat) : option A := match nth_error l j with Some r => nth_error r k | None => None end.

Section top.
Context (lsq_r : (v3 -> list (R * v3)) -> v3) (lsq_rt : (rt -> list (R * (v3 * v3))) -> rt).
Context (uncertainty : bool -> list (list (option v3)) -> model -> option (list (list (option R)))).
Notation pdiff := (projection_diff lsq_r lsq_rt uncertainty).

Lemma act : forall p x, transform_point_Rt p x false = vadd (mv (Rt_R p) x) (Rt_t p).
Proof. reflexivity. Qed.
Definition grid (o : opts) (m : model) : list pixel := sample_imager (o_gw o) (o_gh o) (fst (m_size m)) (snd (m_size m)).
Lemma two : forall m0 m1 o, o_use_uncertainties o = false ->
  pdiff [m0; m1] None o =
  if ((fst (m_size m1) =? fst (m_size m0)) && (snd (m_size m1) =? snd (m_size m0)))%Z then
    match get_Rt10 lsq_r lsq_rt o (focus_center o m0) (focus_radius o m0) (grid o m0) m0 m1
            (map (m_unproject m0) (grid o m0)) (map (m_unproject m1) (grid o m0)) None with
    | Some Rt => let d := diffs Rt m1 (grid o m0) (map (m_unproject m0) (grid o m0)) (distances (o_distance o)) in
                 Some (Res (map (map (option_map mag)) d) (Some d) (grid o m0) [Rt])
    | None => None
    end
  else None.
Proof.
  intros m0 m1 o U. unfold projection_diff, focus_center, focus_radius, grid. rewrite U.
  destruct (m_size m0) as [W H] eqn:E. cbn [length Nat.eqb negb andb forallb fst snd]. rewrite E. cbn [fst snd]. rewrite !Z.eqb_refl.
  cbn [andb]. rewrite andb_true_r. destruct (_ && _)%bool; [|reflexivity]. cbn [negb andb seq combine]. unfold get_all. cbn [map all_some fst snd].
  destruct (get_Rt10 _ _ _ _ _ _ _ _ _ _ _); reflexivity.
Qed.
Lemma diffs_entry : forall Rt m1 q0 v0 ds j k d q v, length v0 = length q0 -> nth_error ds j = Some d -> nth_error q0 k = Some q -> nth_error v0 k = Some v ->
  entry (diffs Rt m1 q0 v0 ds) j k = Some (reproject Rt m1 q (option_map (fun v => vscale d v) v)).
Proof.
  intros Rt m1 q0 v0 ds j k d q v L D Q V. unfold entry, diffs, points. rewrite map_map. rewrite (map_nth_error _ _ _ D).
  erewrite map_nth_error; [|apply combine_nth_error; split; [exact Q|apply map_nth_error; exact V]]. reflexivity.
Qed.
Lemma part_of : forall o m0 m1 j k x, 
  part (grid o m0) (points (map (m_unproject m0) (grid o m0)) (distances (o_distance o))) (map (m_unproject m1) (grid o m0)) None
    (focus_center o m0) (focus_radius o m0) j k x <->
  exists d q, nth_error (distances (o_distance o)) j = Some d /\ nth_error (grid o m0) k = Some q /\ focused o m0 q /\
    x = clean (option_map (fun v => vscale d v) (m_unproject m0 q)) (m_unproject m1 q) (Some 1).
Proof.
  intros. unfold part, takes_part. split.
  - intros (ps & w & q & v & p & wk & J1 & J2 & K1 & K2 & K3 & K4 & Fo & ->). unfold points in J1.
    rewrite nth_error_map in J1. destruct (nth_error (distances (o_distance o)) j) as [d|] eqn:D; [|discriminate]. cbn in J1. injection J1 as <-.
    rewrite nth_error_map in J2. unfold points in J2. rewrite (map_nth_error _ _ _ D) in J2. cbn in J2. injection J2 as <-.
    rewrite map_map, nth_error_map, K1 in K3. cbn in K3. injection K3 as <-. rewrite nth_error_map, K1 in K2. cbn in K2. injection K2 as <-.
    rewrite !map_map, nth_error_map, K1 in K4. cbn in K4. injection K4 as <-. exists d, q. split; [reflexivity|]. split; [exact K1|]. split; [exact Fo|reflexivity].
  - intros (d & q & D & Q & Fo & ->). unfold points. do 2 eexists. exists q. do 3 eexists.
    split; [apply map_nth_error; exact D|]. split; [apply map_nth_error, map_nth_error; exact D|]. split; [exact Q|].
    split; [apply map_nth_error; exact Q|]. split; [apply map_nth_error, map_nth_error; exact Q|]. 
    split; [apply map_nth_error, map_nth_error, map_nth_error; exact Q|]. split; [exact Fo|reflexivity].
Qed.

(** If a rigid motion takes the rays of camera 0, at the given distances, to the rays of camera 1, the reported difference is 0
    wherever the fit looks *)
Theorem C81_same_lens : forall fs m0 m1 o res r0 t0, 0 < fs -> optimizer fs (fun q => not_tiny (rt_r q)) lsq_rt -> not_tiny r0 ->
  good_lens m0 -> good_lens m1 ->
  o_use_uncertainties o = false -> o_intrinsics_only o = false -> focus_radius o m0 <> 0 -> o_distance o <> Infinity ->
  (forall q d a b, In q (grid o m0) -> In d (distances (o_distance o)) -> m_unproject m0 q = Some a -> m_unproject m1 q = Some b ->
     exists k, 0 < k /\ vadd (mv (R_from_r r0) (vscale d a)) t0 = vscale k b) ->
  pdiff [m0; m1] None o = Some res ->
  exists D, r_diff res = Some D /\ r_q0 res = grid o m0 /\
    forall j k d q a b, nth_error (distances (o_distance o)) j = Some d -> nth_error (grid o m0) k = Some q -> focused o m0 q ->
      m_unproject m0 q = Some a -> m_unproject m1 q = Some b -> entry D j k = Some (Some (0, 0)).
Proof.
  intros fs m0 m1 o res r0 t0 F O N G0 G1 U I1 Ra NI E H. rewrite two in H by exact U. destruct (_ && _)%bool; [|discriminate].
  unfold get_Rt10 in H. rewrite I1 in H. destruct (Req_EM_T _ 0); [contradiction|]. cbn [option_map] in H.
  assert (at_infinity (o_distance o) = false) as AI by (destruct (o_distance o); [contradiction|reflexivity|reflexivity]). rewrite AI in H.
  destruct (implied_Rt10 _ _ _ _ _ _ _ _ _) as [Rt10|] eqn:EI; [|discriminate]. cbv zeta in H.
  apply (f_equal (fun o => match o with Some x => x | None => res end)) in H. cbv iota in H. subst res. cbn [r_diff r_q0]. eexists. split; [reflexivity|]. split; [reflexivity|].
  pose proof (C81_fit lsq_r lsq_rt fs (grid o m0) (points (map (m_unproject m0) (grid o m0)) (distances (o_distance o))) (map (m_unproject m1) (grid o m0)) None (focus_center o m0) (focus_radius o m0) r0 t0 Rt10 F O N) as X. destruct (fun h => X h EI) as (_ & Al).
  { intros j k p v w P W. apply part_of in P. destruct P as (d & q & D & Q & Fo & Ex).
    destruct (m_unproject m0 q) as [a|] eqn:A; [|cbn in Ex; congruence]. destruct (m_unproject m1 q) as [b|] eqn:B; [|cbn in Ex; congruence].
    cbn in Ex. injection Ex as -> -> ->. split; [apply (G1 q b B)|].
    apply (E q d a b); [eapply nth_error_In; exact Q|eapply nth_error_In; exact D|exact A|exact B]. }
  intros j k d q a b D Q Fo A B. rewrite (diffs_entry _ _ _ _ _ j k d q (Some a));
    [|now rewrite map_length|exact D|exact Q|rewrite (map_nth_error _ _ _ Q), A; reflexivity].
  destruct (Al j k (vscale d a) b 1) as (z & Z & Ez); [apply part_of; exists d, q; rewrite A, B; cbn; easy|lra|].
  unfold reproject. cbn [option_map]. rewrite act, Ez, (proj2 (G1 q b B) z Z). do 2 f_equal. f_equal; ring.
Qed.

Lemma rot_unique : forall M N a b, is_rot M -> is_rot N -> mv M a = mv N a -> mv M b = mv N b -> cross a b <> v0 -> forall x, mv M x = mv N x.
Proof.
  intros M N a b HM HN Ea Eb Hc x.
  assert (forall K, is_rot K -> mv K (cross a b) = cross (mv K a) (mv K b)) as RC by (intros; apply rot_cross; assumption).
  pose proof (RC M HM) as C1. pose proof (RC N HN) as C2. rewrite Ea, Eb, <- C2 in C1. set (c := cross a b) in *.
  set (y := vsub (mv M x) (mv N x)).
  assert (forall u, mv M u = mv N u -> dot y (mv N u) = 0) as Z.
  { intros u Eu. unfold y. replace (dot (vsub (mv M x) (mv N x)) (mv N u)) with (dot (mv M x) (mv N u) - dot (mv N x) (mv N u)) by (generalize (mv M x) (mv N x) (mv N u); intros; vunfold; ring).
    rewrite <- Eu at 1. rewrite !rot_dot by assumption. ring. }
  pose proof (Z a Ea) as Za. pose proof (Z b Eb) as Zb. pose proof (Z c C1) as Zc. rewrite C2 in Zc.
  assert (0 < norm2 (cross (mv N a) (mv N b))) as P.
  { rewrite <- C2. unfold norm2. rewrite rot_dot by assumption. fold (norm2 c). destruct (Rle_lt_or_eq_dec 0 _ (norm2_nonneg c)) as [|Q]; [assumption|].
    exfalso. apply Hc, norm2_zero. auto. }
  revert Za Zb Zc P. generalize (mv N a) (mv N b). intros a' b' Za Zb Zc P.
  assert (norm2 y * norm2 (cross a' b') = 0) as Q.
  { transitivity (norm2 (vsub (vscale (dot y b') a') (vscale (dot y a') b')) + dot y (cross a' b') * dot y (cross a' b')); [clearbody y; vunfold; ring|].
    rewrite Za, Zb, Zc. vunfold. ring. }
  apply Rmult_integral in Q. destruct Q as [Q|Q]; [|lra]. apply norm2_zero in Q. unfold y in Q.
  apply v3_eq; [apply (f_equal vx) in Q|apply (f_equal vy) in Q|apply (f_equal vz) in Q]; cbn [vsub vx vy vz v0] in Q; lra.
Qed.
(** At infinity the same with a rotation.  If the fit looks in two different directions, the difference is 0 everywhere *)
Theorem C81_same_lens_infinity : forall fs m0 m1 o res r0, 0 < fs -> optimizer fs not_tiny lsq_r -> not_tiny r0 ->
  good_lens m0 -> good_lens m1 ->
  o_use_uncertainties o = false -> o_intrinsics_only o = false -> focus_radius o m0 <> 0 -> o_distance o = Infinity ->
  (forall q a b, In q (grid o m0) -> m_unproject m0 q = Some a -> m_unproject m1 q = Some b -> mv (R_from_r r0) a = b) ->
  pdiff [m0; m1] None o = Some res ->
  exists D Rt10, r_diff res = Some D /\ r_q0 res = grid o m0 /\ r_Rt10 res = [Rt10] /\ Rt_t Rt10 = v0 /\
    (forall k q a b, nth_error (grid o m0) k = Some q -> focused o m0 q ->
      m_unproject m0 q = Some a -> m_unproject m1 q = Some b -> entry D 0 k = Some (Some (0, 0))) /\
    ((exists q q' a a' b b', In q (grid o m0) /\ In q' (grid o m0) /\ focused o m0 q /\ focused o m0 q' /\
        m_unproject m0 q = Some a /\ m_unproject m0 q' = Some a' /\ m_unproject m1 q = Some b /\ m_unproject m1 q' = Some b' /\ cross a a' <> v0) ->
     (forall x, mv (Rt_R Rt10) x = mv (R_from_r r0) x) /\
     forall k q a b, nth_error (grid o m0) k = Some q -> m_unproject m0 q = Some a -> m_unproject m1 q = Some b -> entry D 0 k = Some (Some (0, 0))).
Proof.
  intros fs m0 m1 o res r0 F O N G0 G1 U I1 Ra NI E H. rewrite two in H by exact U. destruct (_ && _)%bool; [|discriminate].
  unfold get_Rt10 in H. rewrite I1 in H. destruct (Req_EM_T _ 0); [contradiction|]. cbn [option_map] in H.
  assert (at_infinity (o_distance o) = true) as AI by (now rewrite NI). rewrite AI in H.
  destruct (implied_Rt10 _ _ _ _ _ _ _ _ _) as [Rt10|] eqn:EI; [|discriminate]. cbv zeta in H.
  apply (f_equal (fun o => match o with Some x => x | None => res end)) in H. cbv iota in H. subst res. cbn [r_diff r_q0 r_Rt10].
  assert (forall a, vscale 1 a = a) as S1 by (intro; apply v3_eq; cbn [vscale vx vy vz]; ring).
  assert (forall a, vadd a v0 = a) as A0 by (intro; apply v3_eq; cbn [vadd vx vy vz v0]; ring).
  pose proof (C81_fit_infinity lsq_r lsq_rt fs (grid o m0) (points (map (m_unproject m0) (grid o m0)) (distances (o_distance o))) (map (m_unproject m1) (grid o m0)) None (focus_center o m0) (focus_radius o m0) r0 Rt10 F O N) as X. destruct (fun h => X h EI) as (IR & T0 & Al).
  { intros j k p v w P W. apply part_of in P. rewrite NI in P. destruct P as (d & q & D & Q & Fo & Ex).
    assert (d = 1) as -> by (destruct j as [|[|j]]; cbn in D; congruence).
    destruct (m_unproject m0 q) as [a|] eqn:A; [|cbn in Ex; congruence]. destruct (m_unproject m1 q) as [b|] eqn:B; [|cbn in Ex; congruence].
    cbn -[vscale] in Ex. injection Ex as -> -> ->. rewrite S1. split; [apply (G0 q a A)|]. split; [apply (G1 q b B)|].
    apply (E q a b); [eapply nth_error_In; exact Q|exact A|exact B]. }
  assert (forall k q a b, nth_error (grid o m0) k = Some q -> focused o m0 q -> m_unproject m0 q = Some a -> m_unproject m1 q = Some b -> mv (Rt_R Rt10) a = b) as Us.
  { intros k q a b Q Fo A B. apply (Al 0%nat k a b 1); [|lra]. apply part_of. exists 1, q. rewrite NI, A, B. cbn -[vscale]. rewrite S1. easy. }
  assert (forall k q a b, nth_error (grid o m0) k = Some q -> m_unproject m0 q = Some a -> m_unproject m1 q = Some b -> mv (Rt_R Rt10) a = b ->
    entry (diffs Rt10 m1 (grid o m0) (map (m_unproject m0) (grid o m0)) (distances (o_distance o))) 0 k = Some (Some (0, 0))) as Fin.
  { intros k q a b Q A B M. rewrite (diffs_entry _ _ _ _ _ 0 k 1 q (Some a));
      [|now rewrite map_length|now rewrite NI|exact Q|rewrite (map_nth_error _ _ _ Q), A; reflexivity].
    unfold reproject. cbn [option_map]. rewrite act, T0, A0, S1, M. rewrite <- (S1 b), (proj2 (G1 q b B) 1 Rlt_0_1). do 2 f_equal. f_equal; ring. }
  exists (diffs Rt10 m1 (grid o m0) (map (m_unproject m0) (grid o m0)) (distances (o_distance o))), Rt10.
  split; [reflexivity|]. split; [reflexivity|]. split; [reflexivity|]. split; [exact T0|]. split.
  - intros k q a b Q Fo A B. apply (Fin k q a b Q A B). exact (Us k q a b Q Fo A B).
  - intros (q & q' & a & a' & b & b' & Q & Q' & Fo & Fo' & A & A' & B & B' & C).
    assert (forall x, mv (Rt_R Rt10) x = mv (R_from_r r0) x) as Un.
    { apply In_nth_error in Q as Qk, Q' as Qk'. destruct Qk as (k & Qk), Qk' as (k' & Qk').
      apply (rot_unique _ _ a a'); [exact IR|apply C20_R_from_r_partial| | |exact C].
      - rewrite (Us k q a b Qk Fo A B). symmetry. apply (E q); assumption.
      - rewrite (Us k' q' a' b' Qk' Fo' A' B'). symmetry. apply (E q'); assumption. }
    split; [exact Un|]. intros k2 q2 a2 b2 Q2 A2 B2. apply (Fin k2 q2 a2 b2 Q2 A2 B2). rewrite Un. apply (E q2); [eapply nth_error_In; exact Q2|exact A2|exact B2].
Qed.
End top.

(** ** intrinsics_only, many models *)
Section more.
Context (lsq_r : (v3 -> list (R * v3)) -> v3) (lsq_rt : (rt -> list (R * (v3 * v3))) -> rt).
Context (uncertainty : bool -> list (list (option v3)) -> model -> option (list (list (option R)))).
Notation pdiff := (projection_diff lsq_r lsq_rt uncertainty).

(** intrinsics_only: the reported difference is between the pixel and the other lens's projection of the same ray, at any distance *)
Theorem C81_intrinsics_only : forall m0 m1 o, o_use_uncertainties o = false -> o_intrinsics_only o = true -> m_size m1 = m_size m0 ->
  (forall k v, 0 < k -> m_project m1 (vscale k v) = m_project m1 v) ->
  exists res D, pdiff [m0; m1] None o = Some res /\ r_diff res = Some D /\
    forall j k d q, nth_error (distances (o_distance o)) j = Some d -> 0 < d -> nth_error (grid o m0) k = Some q ->
      entry D j k = Some (match m_unproject m0 q with
                          | Some v => Some (fst (m_project m1 v) - fst q, snd (m_project m1 v) - snd q)
                          | None => None end).
Proof.
  intros m0 m1 o U I1 S1 P. rewrite two by exact U. rewrite S1, !Z.eqb_refl. cbn [andb]. unfold get_Rt10. rewrite I1. cbv zeta.
  eexists _, _. split; [reflexivity|]. split; [reflexivity|]. intros j k d q D Dp Q.
  rewrite (diffs_entry _ _ _ _ _ j k d q (m_unproject m0 q)); [|now rewrite map_length|exact D|exact Q|apply map_nth_error; exact Q].
  destruct (m_unproject m0 q) as [v|]; [|reflexivity]. unfold reproject. cbn [option_map]. rewrite act.
  change (Rt_R identity_Rt) with I3. change (Rt_t identity_Rt) with v0. rewrite mv_I.
  replace (vadd (vscale d v) v0) with (vscale d v) by (apply v3_eq; cbn [vadd v0 vx vy vz]; ring). rewrite P by exact Dp. reflexivity.
Qed.

Lemma transpose_nth : forall A B (f : list A -> B) n ls k, (k < n)%nat ->
  nth_error (transpose_with f n ls) k = Some (f (flat_map (fun l => match nth_error l k with Some a => [a] | None => [] end) ls)).
Proof.
  induction n as [|n IH]; intros ls k K; [lia|]. destruct k as [|k]; cbn [transpose_with nth_error].
  - do 2 f_equal. apply flat_map_ext. intros [|a l]; reflexivity.
  - rewrite IH by lia. do 2 f_equal. rewrite !flat_map_concat_map, map_map. f_equal. apply map_ext. intros [|a l]; [now destruct k|reflexivity].
Qed.
Lemma all_some_map_some : forall A B (f : A -> option B) l r, all_some (map f l) = Some r <-> Forall2 (fun a b => f a = Some b) l r.
Proof.
  induction l as [|a l IH]; intro r; cbn [map all_some].
  - split; [intros [= <-]; constructor|intro H; inversion H; reflexivity].
  - split.
    + destruct (f a) as [b|] eqn:E; [|discriminate]. destruct (all_some (map f l)) as [q|] eqn:Q; [|discriminate]. intros [= <-].
      constructor; [exact E|]. now apply IH.
    + intro H. inversion H as [|? b ? q E Q]; subst. rewrite E. apply IH in Q. now rewrite Q.
Qed.
Lemma F2_length : forall A B (P : A -> B -> Prop) l r, Forall2 P l r -> length l = length r.
Proof. induction 1; cbn; congruence. Qed.

(** More than two models: each one is compared to the first one, as if alone; the reported difference is the RMS of these *)
Theorem C81_many : forall m0 others o res, (2 <= length others)%nat -> o_use_uncertainties o = false ->
  pdiff (m0 :: others) None o = Some res ->
  exists pairs, Forall2 (fun m r => pdiff [m0; m] None o = Some r) others pairs /\
    r_diff res = None /\ r_Rt10 res = flat_map r_Rt10 pairs /\
    forall j k es, (j < length (distances (o_distance o)))%nat -> (k < length (grid o m0))%nat ->
      Forall2 (fun r e => exists D, r_diff r = Some D /\ entry D j k = Some (Some e)) pairs es ->
      exists x, entry (r_difflen res) j k = Some (Some x) /\ 0 <= x /\
        x * x * INR (length others) = sumR (map (fun e => fst e * fst e + snd e * snd e) es).
Proof.
  intros m0 others o res L U H.
  assert (exists Rts, Forall2 (fun m Rt => ((fst (m_size m) =? fst (m_size m0)) && (snd (m_size m) =? snd (m_size m0)))%Z = true /\
      get_Rt10 lsq_r lsq_rt o (focus_center o m0) (focus_radius o m0) (grid o m0) m0 m (map (m_unproject m0) (grid o m0)) (map (m_unproject m) (grid o m0)) None = Some Rt) others Rts /\
      res = Res (transpose_with (fun l => transpose_with rms (length (grid o m0)) l) (length (distances (o_distance o)))
        (map (fun e => diffs (fst e) (snd e) (grid o m0) (map (m_unproject m0) (grid o m0)) (distances (o_distance o))) (combine Rts others))) None (grid o m0) Rts) as (Rts & HR & ->).
  { unfold projection_diff in H. destruct others as [|m1 others]; [cbn in L; lia|]. unfold focus_center, focus_radius, grid. 
    rewrite andb_false_r in H. destruct (forallb _ _) eqn:Fb; cbn [negb] in H; [|discriminate].
    destruct (m_size m0) as [W Hh] eqn:E. rewrite U in H. cbn [andb fst snd] in *. 
    destruct (get_all _ _) as [Rts|] eqn:GA; [|discriminate]. unfold get_all in GA. apply all_some_map_some in GA.
    set (g := fun m => get_Rt10 lsq_r lsq_rt o match o_focus_center o with Some c => c | None => ((IZR W - 1) / 2, (IZR Hh - 1) / 2) end
        (if Rlt_dec (o_focus_radius o) 0 then IZR (Z.min W Hh) / 6 else o_focus_radius o) (sample_imager (o_gw o) (o_gh o) W Hh) m0 m
        (map (m_unproject m0) (sample_imager (o_gw o) (o_gh o) W Hh)) (map (m_unproject m) (sample_imager (o_gw o) (o_gh o) W Hh)) None).
    assert (Forall2 (fun m Rt => g m = Some Rt) (m1 :: others) Rts) as GA2.
    { clear -GA. change (Forall2 (fun (a : nat * model) b => g (snd a) = Some b) (combine (seq 1 (length (m1 :: others))) (m1 :: others)) Rts) in GA.
      revert GA. generalize 1%nat, (m1 :: others), Rts. intros n l. revert n. induction l as [|m l IH]; intros n r GA; cbn in GA; inversion GA; subst; constructor; eauto. }
    exists Rts. split.
    - assert (forall m, In m (m1 :: others) -> ((fst (m_size m) =? W) && (snd (m_size m) =? Hh))%Z = true) as Sz.
      { intros m Im. rewrite forallb_forall in Fb. apply Fb. right. exact Im. }
      clear -GA2 Sz. revert GA2 Sz. generalize (m1 :: others). intros l GA2. induction GA2; constructor; [split; [apply Sz; left; reflexivity|assumption]|].
      apply IHGA2. intros m Im. apply Sz. right. exact Im.
    - pose proof (F2_length _ _ _ _ _ GA2) as Le. destruct Rts as [|R1 [|R2 Rts]]; cbn in Le, L; try lia.
      destruct others as [|m2 others]; [cbn in Le; lia|]. cbn [combine map] in H |- *.
      apply (f_equal (fun o => match o with Some x => x | None => res end)) in H. symmetry. exact H. }
  set (dd := fun (Rt : Rt) m => diffs Rt m (grid o m0) (map (m_unproject m0) (grid o m0)) (distances (o_distance o))) in *.
  exists (map (fun e => Res (map (map (option_map mag)) (dd (fst e) (snd e))) (Some (dd (fst e) (snd e))) (grid o m0) [fst e]) (combine Rts others)).
  cbn [r_diff r_Rt10 r_difflen]. split; [|split; [reflexivity|split]].
  - clear -HR U. induction HR as [|m Rt l r (S1 & G)]; cbn [combine map]; constructor; [|exact IHHR].
    rewrite two by exact U. rewrite S1, G. reflexivity.
  - clear -HR. induction HR; cbn [combine map flat_map r_Rt10]; [reflexivity|]. cbn [fst app]. now f_equal.
  - intros j k es J K Fe. unfold entry at 1. rewrite transpose_nth by exact J. rewrite transpose_nth by exact K.
    match goal with |- context [rms ?l] => assert (l = map Some es) as -> end.
    { clear -Fe J K. unfold dd in Fe. clear dd. revert es Fe. generalize (combine Rts others). intro l. induction l as [|[Rt m] l IH]; intros es Fe; inversion Fe as [|? e ? es' (D & ED & En) Fe']; subst; [reflexivity|].
      cbn [map flat_map fst snd]. cbn [r_diff] in ED. injection ED as <-. unfold entry in En. cbn [fst snd] in En.
      destruct (nth_error (diffs Rt m _ _ _) j) as [row|] eqn:Er; [|discriminate]. cbn [app flat_map]. rewrite En. cbn [app]. f_equal. apply IH. exact Fe'. }
    assert (length es = length others) as Le.
    { apply F2_length in Fe. rewrite map_length, combine_length in Fe. apply F2_length in HR. lia. }
    unfold rms. assert (all_some (map Some es) = Some es) as -> by (clear; induction es as [|e es IH]; cbn; [reflexivity|now rewrite IH]). cbn [option_map].
    eexists. split; [reflexivity|]. split; [apply sqrt_pos|]. rewrite <- Le. assert (0 < INR (length es)) as Lp by (apply lt_0_INR; lia).
    rewrite sqrt_sqrt; [unfold Rdiv; rewrite Rmult_assoc, Rinv_l, Rmult_1_r by (apply Rgt_not_eq; exact Lp); reflexivity|]. unfold Rdiv. apply Rmult_le_pos; [|left; apply Rinv_0_lt_compat; exact Lp].
    clear. induction es as [|e es IH]; cbn; [lra|]. pose proof (Rle_0_sqr (fst e)). pose proof (Rle_0_sqr (snd e)). unfold Rsqr in *. unfold sumR in IH. lra.
Qed.

(** With uncertainties, and no radius given, every pixel of the grid takes part, weighted by 1/(u0 u1)^2; points without
    an unprojection or uncertainty get the weight 0 *)
Theorem C81_uncertainties : forall m0 m1 o u0 u1 res, o_use_uncertainties o = true -> o_intrinsics_only o = false -> o_focus_radius o < 0 ->
  o_focus_center o = None -> (0 < fst (m_size m0))%Z -> (0 < snd (m_size m0))%Z ->
  (let P m := points (map (m_unproject m) (grid o m0)) (distances (o_distance o)) in
   uncertainty (at_infinity (o_distance o)) (P m0) m0 = Some u0 /\ uncertainty (at_infinity (o_distance o)) (P m1) m1 = Some u1) ->
  pdiff [m0; m1] None o = Some res ->
  exists data,
    r_Rt10 res = [if at_infinity (o_distance o) then mkRt (R_from_r (lsq_r (fun r => map (residual_r r) data))) v0
                  else Rt_from_rt (lsq_rt (fun q => map (residual_rt q) data))] /\
    (forall j k d q a b u u', nth_error (distances (o_distance o)) j = Some d -> nth_error (grid o m0) k = Some q ->
       0 <= fst q <= IZR (fst (m_size m0)) - 1 -> 0 <= snd q <= IZR (snd (m_size m0)) - 1 ->
       m_unproject m0 q = Some a -> m_unproject m1 q = Some b -> entry u0 j k = Some (Some u) -> entry u1 j k = Some (Some u') -> u * u' <> 0 ->
       In (vscale d a, b, / ((u * u') * (u * u'))) data) /\
    (forall p v w, In (p, v, w) data -> w <> 0 ->
       exists j k d q a u u', nth_error (distances (o_distance o)) j = Some d /\ nth_error (grid o m0) k = Some q /\ m_unproject m0 q = Some a /\
         p = vscale d a /\ m_unproject m1 q = Some v /\ entry u0 j k = Some (Some u) /\ entry u1 j k = Some (Some u') /\ w = / ((u * u') * (u * u'))).
Proof.
  intros m0 m1 o u0 u1 res U I1 Fr Fc Wp Hp (E0 & E1) H. unfold projection_diff in H. unfold grid in *. rewrite U, I1, Fc in H.
  destruct (m_size m0) as [W Hh] eqn:E. cbn [fst snd] in *. cbn [length Nat.eqb negb andb] in H.
  destruct (forallb _ _); [|discriminate]. cbn [negb andb] in H. destruct (Req_EM_T (o_focus_radius o) 0); [lra|]. cbn [negb andb] in H.
  unfold get_all in H. cbn [map all_some] in H. rewrite E0, E1 in H. cbn [seq combine map all_some fst snd nth] in H.
  destruct (Rlt_dec (o_focus_radius o) 0); [|lra]. unfold get_Rt10 in H. rewrite I1 in H.
  set (rad := IZR (Z.max W Hh) * 100) in *. assert (1 <= IZR (Z.max W Hh)) as M1 by (apply IZR_le; lia).
  destruct (Req_EM_T rad 0); [unfold rad in *; lra|]. cbn [option_map fst snd] in H.
  unfold implied_Rt10 in H. destruct (_ <? 3)%nat; [discriminate|]. cbn [combine map] in H.
  apply (f_equal (fun o => match o with Some x => x | None => res end)) in H. cbv iota in H. subst res. cbn [r_Rt10].
  eexists. split; [reflexivity|].
  assert (forall j k u u', entry u0 j k = Some u -> entry u1 j k = Some u' -> exists w, nth_error (weights_of u0 u1) j = Some w /\ nth_error w k = Some (weight_of u u')) as Wt.
  { intros j k u u' A B. unfold entry in A, B. destruct (nth_error u0 j) as [r0'|] eqn:R0; [|discriminate]. destruct (nth_error u1 j) as [r1'|] eqn:R1; [|discriminate].
    unfold weights_of. eexists. split; [apply map_nth_error, combine_nth_error; split; eassumption|]. cbn [fst snd].
    apply (map_nth_error (fun e => weight_of (fst e) (snd e)) k (combine r0' r1') (d := (u, u'))). apply combine_nth_error. split; assumption. }
  split.
  - intros j k d q a b u u' D Q Bx By A B Eu Eu' Nz. apply in_fit. exists j, k. destruct (Wt j k _ _ Eu Eu') as (w & Hw & Hwk).
    unfold takes_part, points. do 2 eexists. exists q. do 3 eexists. split; [apply map_nth_error; exact D|]. split; [exact Hw|]. split; [exact Q|].
    split; [apply map_nth_error; exact Q|]. split; [apply map_nth_error, map_nth_error; exact Q|]. split; [exact Hwk|]. split.
    + cbn [fst snd]. assert (IZR W <= IZR (Z.max W Hh)) by (apply IZR_le; lia). assert (IZR Hh <= IZR (Z.max W Hh)) by (apply IZR_le; lia).
      unfold rad. set (mx := IZR (Z.max W Hh)) in *. clearbody mx.
      assert (forall z n, 0 <= z <= n - 1 -> n <= mx -> (z - (n - 1) / 2) * (z - (n - 1) / 2) <= mx * mx) as Sq.
      { intros z n1 Z1 Z2. apply Rsqr_le_abs_1. rewrite (Rabs_right mx) by lra. apply Rabs_le. lra. }
      pose proof (Sq _ _ Bx H). pose proof (Sq _ _ By H0). assert (1 <= mx * mx) by nra. nra.
    + rewrite A, B. unfold weight_of. destruct (Req_EM_T (u * u') 0); [contradiction|]. cbn [option_map clean]. f_equal. field.
      split; intro Z0; apply Nz; rewrite Z0; ring.
  - intros p v w I2 Wn. apply in_fit in I2. destruct I2 as (j & k & ps & ws & q & v' & p' & wk & J1 & J2 & K1 & K2 & K3 & K4 & _ & Ex).
    unfold points in J1. rewrite nth_error_map in J1. destruct (nth_error (distances (o_distance o)) j) as [d|] eqn:D; [|discriminate]. cbn [option_map] in J1. injection J1 as <-.
    rewrite map_map, nth_error_map, K1 in K3. cbn [option_map] in K3. injection K3 as <-. rewrite nth_error_map, K1 in K2. cbn [option_map] in K2. injection K2 as <-.
    unfold weights_of in J2. rewrite nth_error_map in J2. destruct (nth_error (combine u0 u1) j) as [[r0' r1']|] eqn:R01; [|discriminate]. cbn [option_map fst snd] in J2. injection J2 as <-.
    rewrite nth_error_map in K4. destruct (nth_error (combine r0' r1') k) as [[u u']|] eqn:Uk; [|discriminate]. cbn [option_map fst snd] in K4. injection K4 as <-.
    apply combine_nth_error in R01, Uk. destruct R01 as (R0 & R1), Uk as (Uk & Uk').
    destruct (m_unproject m0 q) as [a|] eqn:A; [|cbn in Ex; congruence]. destruct (m_unproject m1 q) as [b|] eqn:B; [|cbn in Ex; congruence].
    unfold weight_of in Ex. destruct u as [u|]; [|cbn in Ex; congruence]. destruct u' as [u'|]; [|cbn in Ex; congruence].
    destruct (Req_EM_T (u * u') 0) as [|Nz]; [cbn in Ex; congruence|]. cbn [option_map clean] in Ex. 
    exists j, k, d, q, a, u, u'. unfold entry. rewrite R0, R1.
    assert (p = vscale d a) as -> by congruence. assert (v = b) as -> by congruence.
    assert (w = 1 / (u * u') * (1 / (u * u'))) as -> by congruence. repeat (split; [assumption || reflexivity|]). 
    field. split; intro Z0; apply Nz; rewrite Z0; ring.
Qed.
(** If the uncertainties of some model aren't available, they're not used at all *)
Theorem C81_fallback : forall m0 m1 o o', o_use_uncertainties o' = false ->
  o = Opts (o_gw o') (o_gh o') (o_intrinsics_only o') (o_distance o') true (o_focus_center o') (o_focus_radius o') ->
  (exists m, In m [m0; m1] /\ forall b P, uncertainty b P m = None) ->
  pdiff [m0; m1] None o = pdiff [m0; m1] None o'.
Proof.
  intros m0 m1 o o' U -> (m & Im & N). destruct o' as [a b c d e f g]. cbn [o_use_uncertainties] in U. subst e. 
  unfold projection_diff. destruct (negb _ && _)%bool; [reflexivity|]. destruct (negb _); [reflexivity|]. destruct (m_size m0) as [W Hh].
  cbn [o_gw o_gh o_intrinsics_only o_distance o_use_uncertainties o_focus_center o_focus_radius].
  match goal with |- context [if ?x then get_all ?f ?l else None] => assert ((if x then get_all f l else None) = None) as -> end; [|reflexivity].
  destruct (_ && _ && _ && _)%bool; [|reflexivity]. unfold get_all. cbn [map all_some].
  destruct Im as [<- | [<- | []]]; rewrite N; [reflexivity|]. destruct (uncertainty _ _ m0); reflexivity.
Qed.
(** Two models: the reported transformation is the one that was applied; what's reported at each pixel is where the point at the given
    distance along the ray of camera 0, transformed, projects to in camera 1, minus the pixel.  A given transformation is used as it is;
    with focus_radius=0 the transformation is the one from camera 0 to camera 1 *)
Theorem C81_report : forall m0 m1 implied o res, pdiff [m0; m1] implied o = Some res ->
  exists Rt10 D, r_Rt10 res = [Rt10] /\ r_diff res = Some D /\ r_q0 res = grid o m0 /\ m_size m1 = m_size m0 /\
    (forall j k d q, nth_error (distances (o_distance o)) j = Some d -> nth_error (grid o m0) k = Some q ->
       entry D j k = Some (match m_unproject m0 q with
         | Some v => let q1 := m_project m1 (vadd (mv (Rt_R Rt10) (vscale d v)) (Rt_t Rt10)) in Some (fst q1 - fst q, snd q1 - snd q)
         | None => None end)) /\
    (forall j k e, entry D j k = Some e -> exists x, entry (r_difflen res) j k = Some x /\
       match e, x with
       | Some e, Some x => 0 <= x /\ x * x = fst e * fst e + snd e * snd e
       | None, None => True
       | _, _ => False
       end) /\
    (forall X, implied = Some X -> Rt10 = X) /\
    (implied = None -> o_intrinsics_only o = true -> forall x, vadd (mv (Rt_R Rt10) x) (Rt_t Rt10) = x) /\
    (implied = None -> o_intrinsics_only o = false -> o_focus_radius o = 0 -> is_rot (Rt_R (m_cam_ref m0)) -> forall x,
       vadd (mv (Rt_R Rt10) (vadd (mv (Rt_R (m_cam_ref m0)) x) (Rt_t (m_cam_ref m0)))) (Rt_t Rt10) =
       vadd (mv (Rt_R (m_cam_ref m1)) x) (Rt_t (m_cam_ref m1))).
Proof.
  intros m0 m1 implied o res H.
  assert (exists Rt10, res = Res (map (map (option_map mag)) (diffs Rt10 m1 (grid o m0) (map (m_unproject m0) (grid o m0)) (distances (o_distance o))))
    (Some (diffs Rt10 m1 (grid o m0) (map (m_unproject m0) (grid o m0)) (distances (o_distance o)))) (grid o m0) [Rt10] /\ m_size m1 = m_size m0 /\
    (forall X, implied = Some X -> Rt10 = X) /\
    (implied = None -> exists c rad vi unc, (o_focus_radius o = 0 -> rad = 0) /\
       get_Rt10 lsq_r lsq_rt o c rad (grid o m0) m0 m1 (map (m_unproject m0) (grid o m0)) vi unc = Some Rt10)) as (Rt10 & -> & Sz & G1 & G2).
  { unfold projection_diff in H. unfold grid. destruct (negb _ && _)%bool; [discriminate|]. destruct (forallb _ _) eqn:Fb; [|discriminate]. cbn [negb] in H.
    assert (m_size m1 = m_size m0) as Sz.
    { rewrite forallb_forall in Fb. specialize (Fb m1 (or_intror (or_introl eq_refl))). apply andb_prop in Fb. rewrite !Z.eqb_eq in Fb.
      destruct (m_size m1), (m_size m0). cbn in Fb. destruct Fb. congruence. }
    destruct (m_size m0) as [W Hh] eqn:E. cbn [fst snd]. destruct implied as [X|].
    - exists X. cbn [combine map] in H. apply (f_equal (fun o => match o with Some x => x | None => res end)) in H. cbv iota in H. subst res.
      split; [reflexivity|]. split; [exact Sz|]. split; [intros ? [= ->]; reflexivity|discriminate].
    - cbv zeta in H. match type of H with context [if Rlt_dec _ 0 then match ?u with Some _ => _ | None => _ end else _] => set (unc := u) in H end.
      clearbody unc. unfold get_all in H. cbn [length seq combine map all_some fst snd] in H.
      match type of H with context [get_Rt10 lsq_r lsq_rt o ?c ?r ?q m0 m1 ?a ?b ?u] => 
        destruct (get_Rt10 lsq_r lsq_rt o c r q m0 m1 a b u) as [X|] eqn:EG end; [|discriminate]. exists X. cbn [combine map] in H.
      apply (f_equal (fun o => match o with Some x => x | None => res end)) in H. cbv iota in H. subst res.
      split; [reflexivity|]. split; [exact Sz|]. split; [discriminate|]. intros _. do 4 eexists. split; [|exact EG].
      intros ->. destruct (Rlt_dec 0 0); [lra|reflexivity]. }
  exists Rt10. eexists. cbn [r_Rt10 r_diff r_q0 r_difflen]. split; [reflexivity|]. split; [reflexivity|]. split; [reflexivity|]. split; [exact Sz|]. split; [|split; [|split; [exact G1|split]]].
  - intros j k d q D Q. rewrite (diffs_entry _ _ _ _ _ j k d q (m_unproject m0 q)); [|now rewrite map_length|exact D|exact Q|apply map_nth_error; exact Q].
    destruct (m_unproject m0 q); reflexivity.
  - intros j k e. unfold entry. rewrite nth_error_map. destruct (nth_error _ j) as [row|]; [|discriminate]. intro Er. cbn [option_map].
    exists (option_map mag e). split; [apply map_nth_error; exact Er|]. destruct e as [e|]; [|exact Logic.I]. cbn [option_map]. unfold mag.
    split; [apply sqrt_pos|]. apply sqrt_sqrt. pose proof (Rle_0_sqr (fst e)). pose proof (Rle_0_sqr (snd e)). unfold Rsqr in *. lra.
  - intros N I1 x. destruct (G2 N) as (c & rad & vi & unc & _ & G). unfold get_Rt10 in G. rewrite I1 in G.
    apply (f_equal (fun o => match o with Some x => x | None => Rt10 end)) in G. cbv iota in G. subst Rt10.
    change (Rt_R identity_Rt) with I3. rewrite mv_I. apply v3_eq; cbn [vadd identity_Rt Rt_t vx vy vz]; ring.
  - intros N I1 Fr HR x. destruct (G2 N) as (c & rad & vi & unc & R0 & G). unfold get_Rt10 in G. rewrite I1 in G.
    destruct (Req_EM_T rad 0) as [_|Nz]; [|exfalso; auto].
    apply (f_equal (fun o => match o with Some x => x | None => Rt10 end)) in G. cbv iota in G. subst Rt10.
    destruct (m_cam_ref m0) as [R0' t0], (m_cam_ref m1) as [R1 t1]. cbn [Rt_R Rt_t] in *.
    assert (Rt_R (compose_Rt2 (mkRt R1 t1) (invert_Rt (mkRt R0' t0)) false false) = mm R1 (mT R0')) as -> by (destruct R0', R1; apply m33_eq; reflexivity || (unfold mm, mT; cbn; ring)).
    assert (Rt_t (compose_Rt2 (mkRt R1 t1) (invert_Rt (mkRt R0' t0)) false false) = vadd (mv R1 (vneg (mv (mT R0') t0))) t1) as ->.
    { apply v3_eq; unfold compose_Rt2, invert_Rt, invert_R, mul_Rv; cbn [Rt_R Rt_t vx vy vz m00 m01 m02 m10 m11 m12 m20 m21 m22]; vunfold; ring. }
    rewrite mv_mm, mv_vadd, rot_mT_mv by exact HR. rewrite mv_vadd, mv_vneg. generalize (mv R1 x) (mv R1 (mv (mT R0') t0)). intros. vunfold. apply v3_eq; cbn [vx vy vz]; ring.
Qed.
(** The fit refuses if the region has fewer than 3 pixels of the grid *)
Theorem C81_too_few : forall m0 m1 o, o_use_uncertainties o = false -> o_intrinsics_only o = false -> focus_radius o m0 <> 0 -> m_size m1 = m_size m0 ->
  (pdiff [m0; m1] None o = None <-> forall l, NoDup l -> (forall k, In k l -> exists q, nth_error (grid o m0) k = Some q /\ focused o m0 q) -> (length l < 3)%nat).
Proof.
  intros m0 m1 o U I1 Fr Sz. rewrite two by exact U. rewrite Sz, !Z.eqb_refl. cbn [andb]. unfold get_Rt10. rewrite I1.
  destruct (Req_EM_T _ 0) as [|_]; [contradiction|]. unfold implied_Rt10.
  set (f := in_focus (focus_center o m0) (focus_radius o m0)).
  assert (forall g : list pixel, exists ks, NoDup ks /\ length ks = length (filter f g) /\ forall k, In k ks <-> exists q, nth_error g k = Some q /\ f q = true) as K.
  { induction g as [|q g (ks & N & L & E)].
    - exists []. split; [constructor|]. split; [reflexivity|]. intro k. split; [intros []|]. intros (q & Q & _). destruct k; discriminate.
    - assert (NoDup (map S ks)) as N2 by (apply FinFun.Injective_map_NoDup; [intros ? ? [= ->]; reflexivity|exact N]).
      assert (forall k, In (S k) (map S ks) <-> In k ks) as E2 by (intro k; rewrite in_map_iff; split; [intros (x & [= ->] & X); exact X|intro X; exists k; easy]).
      assert (~ In 0%nat (map S ks)) as E0 by (rewrite in_map_iff; intros (x & X & _); discriminate).
      cbn [filter]. destruct (f q) eqn:Fq.
      + exists (0%nat :: map S ks). split; [constructor; assumption|]. split; [cbn [length]; now rewrite map_length, L|]. intros [|k]; cbn [In nth_error].
        * split; [intros _; exists q; easy|intros _; now left].
        * rewrite E2, E. split; [intros [X|X]; [discriminate|exact X]|intro X; right; exact X].
      + exists (map S ks). split; [exact N2|]. split; [now rewrite map_length, L|]. intros [|k]; cbn [nth_error].
        * split; [contradiction|]. intros (x & [= <-] & X). congruence.
        * rewrite E2, E. reflexivity. }
  destruct (K (grid o m0)) as (ks & N & L & E). fold f.
  assert (forall q, f q = true <-> focused o m0 q) as Ff by (intro q; apply in_focus_spec).
  destruct (length (filter f (grid o m0)) <? 3)%nat eqn:Lt.
  - apply Nat.ltb_lt in Lt. split; [|reflexivity]. intros _ l Nl Hl. apply Nat.le_lt_trans with (length ks); [|lia].
    apply NoDup_incl_length; [exact Nl|]. intros k Ik. apply E. destruct (Hl k Ik) as (q & Q & Fq). exists q. split; [exact Q|now apply Ff].
  - apply Nat.ltb_ge in Lt. split; [discriminate|]. intro A. exfalso. specialize (A ks N). rewrite L in A.
    assert (length (filter f (grid o m0)) < 3)%nat; [|lia]. apply A. intros k Ik. apply E in Ik. destruct Ik as (q & Q & Fq). exists q. split; [exact Q|now apply Ff].
Qed.
(** When it refuses *)
Theorem C81_refuses : forall models implied o,
  ((length models < 2)%nat \/ (implied <> None /\ length models <> 2%nat) \/ (exists m m', In m models /\ In m' models /\ m_size m <> m_size m')) ->
  pdiff models implied o = None.
Proof.
  intros models implied o H. unfold projection_diff. destruct models as [|m0 [|m1 ms]]; [reflexivity|reflexivity|].
  destruct H as [H|[(H & L)|(m & m' & I1 & I2 & N)]].
  - cbn in H. lia.
  - destruct implied; [|contradiction]. apply Nat.eqb_neq in L. rewrite L. reflexivity.
  - destruct (negb _ && _)%bool; [reflexivity|]. destruct (forallb _ _) eqn:F; [|reflexivity]. exfalso. rewrite forallb_forall in F.
    pose proof (F m I1) as A. pose proof (F m' I2) as B. apply andb_prop in A, B. rewrite !Z.eqb_eq in A, B. apply N.
    destruct (m_size m), (m_size m'), (m_size m0). cbn in *. destruct A, B. congruence.
Qed.
End more.

(** ** The grid *)
Lemma linspace_nth : forall b n i, (0 <= i < n)%Z -> nth_error (linspace b n) (Z.to_nat i) = Some (IZR i * (b / IZR (n - 1))).
Proof.
  intros b n i H. unfold linspace. erewrite map_nth_error; [|rewrite (nth_error_nth' _ 0%nat) by (rewrite seq_length; lia); rewrite seq_nth by lia; reflexivity].
  cbn [Nat.add]. rewrite Z2Nat.id by lia. reflexivity.
Qed.
Lemma grid_nth : forall (w h : list R) i j x y, nth_error w i = Some x -> nth_error h j = Some y ->
  nth_error (flat_map (fun y => map (fun x => (x, y)) w) h) (j * length w + i) = Some (x, y).
Proof.
  induction h as [|a h IH]; intros i [|j] x y X Y; cbn in Y; try discriminate; cbn [flat_map Nat.mul Nat.add].
  - injection Y as ->. rewrite nth_error_app1; [erewrite map_nth_error by exact X; reflexivity|].
    rewrite map_length. apply nth_error_Some. congruence.
  - rewrite nth_error_app2; rewrite map_length; [|lia]. replace (length w + j * length w + i - length w)%nat with (j * length w + i)%nat by lia. apply IH; assumption.
Qed.
(** Row-major; the pixel at column i, row j; from one edge of the imager to the other.  The height keeps the aspect ratio of the imager *)
Theorem C81_grid : forall gw gh W H, let n := grid_height gh gw W H in
  (forall i j, (0 <= i < gw)%Z -> (0 <= j < n)%Z ->
     nth_error (sample_imager gw gh W H) (Z.to_nat (j * gw + i)) = Some (IZR i * (IZR (W - 1) / IZR (gw - 1)), IZR j * (IZR (H - 1) / IZR (n - 1)))) /\
  ((0 <= gw)%Z -> (0 <= n)%Z -> length (sample_imager gw gh W H) = Z.to_nat (gw * n)) /\
  ((2 <= gw)%Z -> (2 <= n)%Z -> nth_error (sample_imager gw gh W H) (Z.to_nat (gw * n - 1)) = Some (IZR (W - 1), IZR (H - 1))) /\
  (gh = None -> Rabs (IZR n - IZR H / IZR W * IZR gw) <= 1 / 2).
Proof.
  intros gw gh W H n.
  assert (forall i j, (0 <= i < gw)%Z -> (0 <= j < n)%Z ->
     nth_error (sample_imager gw gh W H) (Z.to_nat (j * gw + i)) = Some (IZR i * (IZR (W - 1) / IZR (gw - 1)), IZR j * (IZR (H - 1) / IZR (n - 1)))) as A.
  { intros i j Hi Hj. unfold sample_imager. cbv zeta. fold n.
    replace (Z.to_nat (j * gw + i)) with (Z.to_nat j * length (linspace (IZR (W - 1)) gw) + Z.to_nat i)%nat
      by (unfold linspace; rewrite map_length, seq_length, Z2Nat.inj_add, Z2Nat.inj_mul by nia; reflexivity).
    apply grid_nth; apply linspace_nth; assumption. }
  split; [exact A|]. split; [|split].
  - intros G N. unfold sample_imager. cbv zeta. fold n. rewrite Z2Nat.inj_mul by lia.
    assert (forall (w h : list R), length (flat_map (fun y => map (fun x => (x, y)) w) h) = (length w * length h)%nat) as Le.
    { induction h as [|a h IH]; cbn [flat_map length]; [lia|]. rewrite app_length, map_length, IH. lia. }
    rewrite Le. unfold linspace. now rewrite !map_length, !seq_length.
  - intros G N. replace (gw * n - 1)%Z with ((n - 1) * gw + (gw - 1))%Z by ring. rewrite A by lia.
    assert (IZR (gw - 1) <> 0) by (apply not_0_IZR; lia). assert (IZR (n - 1) <> 0) by (apply not_0_IZR; lia). do 2 f_equal; field; assumption.
  - intros ->. unfold n, grid_height. apply C_Match.rint_err.
Qed.

(** ** Concrete cases *)
Definition pin_project (p : v3) : pixel := (vx p / vz p, vy p / vz p).
Definition pin_unproject (q : pixel) : option v3 := Some (unit (V3 (fst q) (snd q) 1)).
(** a pinhole camera, mounted with the rotation M *)
Definition pin (M : m33) (E : Rt) : model :=
  Model (3, 3)%Z E (fun q => option_map (mv M) (pin_unproject q)) (fun p => pin_project (mv (mT M) p)).
Lemma ray_nz : forall a b, V3 a b 1 <> v0.
Proof. intros a b H. apply (f_equal vz) in H. cbn in H. lra. Qed.
Lemma pin_good : forall M E, is_rot M -> good_lens (pin M E).
Proof.
  intros M E HM q v H. cbn in H. injection H as <-. split.
  - unfold norm2. rewrite rot_dot by exact HM. apply unit_norm2, ray_nz.
  - intros k K. cbn [pin m_project]. rewrite mv_vscale, rot_mT_mv by exact HM. pose proof (norm_pos _ (ray_nz (fst q) (snd q))) as P.
    unfold unit, pin_project. cbn [vscale vx vy vz]. destruct q as [x y]. cbn [fst snd] in *. f_equal; field; lra.
Qed.
Definition ex_opts (d : dist) (rad : R) : opts := Opts 3 (Some 3%Z) false d false None rad.
Lemma ex_grid_explicit : forall M E d rad, Forall (fun q => focused (ex_opts d 10) (pin M E) q) (grid (ex_opts d rad) (pin M E)) /\
  length (grid (ex_opts d rad) (pin M E)) = 9%nat.
Proof.
  intros. split; [|reflexivity]. unfold grid, sample_imager, linspace, grid_height, focused, focus_center, focus_radius. cbn [ex_opts o_gw o_gh o_focus_center o_focus_radius pin m_size fst snd].
  destruct (Rlt_dec 10 0); [lra|]. change (3 - 1)%Z with 2%Z. change (Z.to_nat 3) with 3%nat. cbn [seq map flat_map app Z.of_nat Pos.of_succ_nat Pos.succ].
  repeat (apply Forall_cons; [cbn [fst snd]; lra|]). constructor.
Qed.
Lemma filter_all : forall A (f : A -> bool) l, Forall (fun x => f x = true) l -> filter f l = l.
Proof. induction 1; cbn; [reflexivity|]. now rewrite H, IHForall. Qed.
Lemma ex_runs : forall lsq_r lsq_rt unc d M, exists res, projection_diff lsq_r lsq_rt unc [pin I3 identity_Rt; pin M identity_Rt] None (ex_opts d 10) = Some res.
Proof.
  intros. rewrite two by reflexivity. cbn [pin m_size fst snd Z.eqb Pos.eqb andb]. unfold get_Rt10. cbn [ex_opts o_intrinsics_only].
  destruct (Req_EM_T _ 0) as [E|_]; [eexists; reflexivity|]. unfold implied_Rt10.
  destruct (ex_grid_explicit I3 identity_Rt d 10) as (F & L). change (pin M identity_Rt) with (pin M identity_Rt).
  assert (Forall (fun q => in_focus (focus_center (ex_opts d 10) (pin I3 identity_Rt)) (focus_radius (ex_opts d 10) (pin I3 identity_Rt)) q = true) (grid (ex_opts d 10) (pin I3 identity_Rt))) as F2
    by (eapply Forall_impl; [|exact F]; intros q Q; apply in_focus_spec; exact Q).
  fold (ex_opts d 10). rewrite (filter_all _ _ _ F2), L. cbn [Nat.ltb Nat.leb]. eexists. reflexivity.
Qed.
Lemma an_optimizer : forall A B (a0 : A) fs ok, exists lsq : (A -> list (R * B)) -> A, optimizer fs ok lsq.
Proof.
  intros A B a0 fs ok.
  exists (fun f => epsilon (inhabits a0) (fun a => ok a /\ forall b, cost fs (map fst (f a)) <= cost fs (map fst (f b)))).
  intros f H. apply (epsilon_spec (inhabits a0) (fun a => ok a /\ forall b, cost fs (map fst (f a)) <= cost fs (map fst (f b)))). exact H.
Qed.
(** Two cameras with different mounting: all the hypotheses of C81_same_lens and C81_same_lens_infinity hold *)
Example ex_C81 : let M := R_from_r (V3 0 0 1) in let m0 := pin I3 identity_Rt in let m1 := pin M identity_Rt in
  let r0 := V3 0 0 1 in let o := ex_opts Infinity 10 in let o2 := ex_opts (Iterable [1; 2]) 10 in
  exists lsq_r lsq_rt fs, 0 < fs /\ optimizer fs not_tiny lsq_r /\ optimizer fs (fun q => not_tiny (rt_r q)) lsq_rt /\ not_tiny r0 /\
  good_lens m0 /\ good_lens m1 /\ focus_radius o m0 <> 0 /\ focus_radius o2 m0 <> 0 /\
  (forall q a b, m_unproject m0 q = Some a -> m_unproject m1 q = Some b -> mv (R_from_r r0) a = b) /\
  (forall q d a b, In d [1; 2] -> m_unproject m0 q = Some a -> m_unproject m1 q = Some b ->
     exists k, 0 < k /\ vadd (mv (R_from_r r0) (vscale d a)) v0 = vscale k b) /\
  (exists a a', m_unproject m0 (0, 0) = Some a /\ m_unproject m0 (1, 0) = Some a' /\ cross a a' <> v0) /\
  forall unc, (exists res, projection_diff lsq_r lsq_rt unc [m0; m1] None o = Some res) /\
              (exists res, projection_diff lsq_r lsq_rt unc [m0; m1] None o2 = Some res).
Proof.
  intros M m0 m1 r0 o o2. destruct (an_optimizer v3 v3 v0 1 not_tiny) as (lr & Hr).
  destruct (an_optimizer rt (v3 * v3) (mkrt v0 v0) 1 (fun q => not_tiny (rt_r q))) as (lt & Ht). exists lr, lt, 1.
  split; [lra|]. split; [exact Hr|]. split; [exact Ht|]. split.
  { right. unfold r0, norm. replace (norm2 (V3 0 0 1)) with (1 * 1) by (vunfold; ring). rewrite sqrt_square by lra. lra. }
  split; [apply pin_good, is_rot_I|]. split; [apply pin_good, C20_R_from_r_partial|].
  assert (forall d, focus_radius (ex_opts d 10) m0 <> 0) as Fr by (intro d; unfold focus_radius; cbn; destruct (Rlt_dec 10 0); lra).
  split; [apply Fr|]. split; [apply Fr|].
  assert (forall q a b, m_unproject m0 q = Some a -> m_unproject m1 q = Some b -> mv (R_from_r r0) a = b) as Ab.
  { intros q a b A B. unfold m0, m1, pin in A, B. cbn [m_unproject] in A, B. unfold pin_unproject in A, B. cbn [option_map] in A, B.
    apply (f_equal (fun o => match o with Some x => x | None => v0 end)) in A, B. cbv iota in A, B. rewrite mv_I in A. subst. reflexivity. }
  split; [exact Ab|]. split.
  { intros q d a b D A B. exists d. split; [destruct D as [<- | [<- | []]]; lra|]. rewrite mv_vscale, (Ab q a b A B).
    apply v3_eq; cbn [vadd v0 vx vy vz]; ring. }
  split.
  { do 2 eexists. split; [reflexivity|]. split; [reflexivity|]. rewrite !mv_I. unfold unit. cbn [fst snd]. intro C. apply (f_equal vy) in C.
    pose proof (norm_pos _ (ray_nz 0 0)) as P1. pose proof (norm_pos _ (ray_nz 1 0)) as P2. cbn [cross vscale vx vy vz v0] in C.
    pose proof (Rinv_0_lt_compat _ P1). pose proof (Rinv_0_lt_compat _ P2). pose proof (Rmult_lt_0_compat _ _ H H0). lra. }
  intro unc. split; apply ex_runs.
Qed.

(** distance=None asks for infinity.  If the cameras' own extrinsics are used (focus_radius=0) the translation is applied to the unit vectors anyway.
    Here are two identical lenses, with a shift of 1.  The difference at the distance d is 1/d, which goes to 0; what's reported at infinity is
    the difference at the distance 1 *)
Theorem C81_infinity_refuted : exists m0 m1, good_lens m0 /\ good_lens m1 /\ forall lsq_r lsq_rt unc,
  (forall d, 0 < d -> exists res D, projection_diff lsq_r lsq_rt unc [m0; m1] None (ex_opts (Scalar d) 0) = Some res /\
     r_diff res = Some D /\ entry D 0 0 = Some (Some (1 / d, 0))) /\
  exists res D, projection_diff lsq_r lsq_rt unc [m0; m1] None (ex_opts Infinity 0) = Some res /\
     r_diff res = Some D /\ entry D 0 0 = Some (Some (1, 0)).
Proof.
  exists (pin I3 identity_Rt), (pin I3 (mkRt I3 (V3 1 0 0))). split; [apply pin_good, is_rot_I|]. split; [apply pin_good, is_rot_I|].
  intros lsq_r lsq_rt unc.
  assert (forall ds d, nth_error (distances ds) 0 = Some d -> 0 < d -> exists res D,
    projection_diff lsq_r lsq_rt unc [pin I3 identity_Rt; pin I3 (mkRt I3 (V3 1 0 0))] None (ex_opts ds 0) = Some res /\
    r_diff res = Some D /\ entry D 0 0 = Some (Some (1 / d, 0))) as A.
  { intros ds d Hd Dp. rewrite two by reflexivity. cbn [pin m_size fst snd Z.eqb Pos.eqb andb]. unfold get_Rt10. cbn [ex_opts o_intrinsics_only].
    fold (ex_opts ds 0). destruct (Req_EM_T _ 0) as [_|E]; [|exfalso; apply E; unfold focus_radius; cbn; destruct (Rlt_dec 0 0); [lra|reflexivity]].
    cbv zeta. do 2 eexists. split; [reflexivity|]. split; [reflexivity|].
    assert (nth_error (grid (ex_opts ds 0) (pin I3 identity_Rt)) 0 = Some (0, 0)) as G.
    { unfold grid. destruct (C81_grid 3 (Some 3%Z) 3 3) as (G & _). specialize (G 0%Z 0%Z ltac:(lia) ltac:(cbn; lia)).
      etransitivity; [exact G|]. do 2 f_equal; ring. }
    rewrite (diffs_entry _ _ _ _ _ 0 0 d (0, 0) (m_unproject (pin I3 identity_Rt) (0, 0))); [|now rewrite map_length|exact Hd|exact G|apply map_nth_error; exact G].
    assert (m_unproject (pin I3 identity_Rt) (0, 0) = Some (V3 0 0 1)) as ->.
    { cbn [pin m_unproject]. unfold pin_unproject. cbn [option_map fst snd]. rewrite mv_I. f_equal. unfold unit, norm.
      replace (norm2 (V3 0 0 1)) with (1 * 1) by (vunfold; ring). rewrite sqrt_square by lra. rewrite Rinv_1. apply v3_eq; cbn [vscale vx vy vz]; ring. }
    unfold reproject. cbn [option_map pin m_project m_cam_ref]. rewrite act, mT_I, mv_I.
    match goal with |- context [pin_project ?x] => replace x with (V3 1 0 d) end.
    - unfold pin_project. cbn [vx vy vz fst snd]. do 2 f_equal. f_equal; field; lra.
    - apply v3_eq; unfold compose_Rt2, invert_Rt, identity_Rt, identity_R, mul_RR, mul_Rtv, row_of, mul_Rv, invert_R; cbn [Rt_R Rt_t vadd mv vscale vx vy vz m00 m01 m02 m10 m11 m12 m20 m21 m22]; vunfold; cbn [m00 m01 m02 m10 m11 m12 m20 m21 m22]; ring. }
  split; [intros d Dp; apply (A (Scalar d) d eq_refl Dp)|]. destruct (A Infinity 1 eq_refl Rlt_0_1) as (res & D & H1 & H2 & H3).
  exists res, D. split; [exact H1|]. split; [exact H2|]. rewrite H3. do 3 f_equal. lra.
Qed.

Print Assumptions C81_residual.
Print Assumptions C81_fit_infinity.
Print Assumptions C81_fit.
Print Assumptions C81_uncertainties.
Print Assumptions C81_fallback.
Print Assumptions C81_gradient_partial.
Print Assumptions C81_same_lens.
Print Assumptions C81_same_lens_infinity.
Print Assumptions C81_intrinsics_only.
Print Assumptions C81_many.
Print Assumptions C81_refuses.
Print Assumptions C81_grid.
Print Assumptions C81_report.
Print Assumptions C81_too_few.
Print Assumptions C81_infinity_refuted.
