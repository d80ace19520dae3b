(** C27: the gradients of composing with an infinitesimal rotation. *)
From Coq Require Import Reals Lra Psatz Nsatz Lia.
From Coquelicot Require Import Coquelicot.
From Verif Require Import S_Vec M_Dual M_Pose P_Dual P_Trig P_Pose P_PoseGrad P_Compose P_Quat C_Rodrigues C_Rt C_PoseGrad C_RtVec.
Open Scope R_scope.

(** ** with respect to the true composition *)
(** left factor: the rotation by t about axis k; w and v of the product *)
Definition pw (k : nat) (w : R) (v : v3) (t : R) : R := cos (t / 2) * w - sin (t / 2) * dot (ek k) v.
Definition pv (k : nat) (w : R) (v : v3) (t : R) : v3 :=
  vadd (vadd (vscale (cos (t / 2)) v) (vscale (w * sin (t / 2)) (ek k))) (vscale (sin (t / 2)) (cross (ek k) v)).
Lemma rod_k_Q : forall k t, rod (ek k) (sin t) (cos t) = Q (cos (t / 2)) (vscale (sin (t / 2)) (ek k)).
Proof.
  intros k t. replace t with (2 * (t / 2)) at 1 2 by field. apply rod_Q. destruct k as [|[|k]]; vunfold; cbn; ring.
Qed.
Lemma ek_unit : forall k, norm2 (ek k) = 1.
Proof. intros [|[|k]]; vunfold; cbn; ring. Qed.
Lemma pq_mul : forall k w v t, mm (rod (ek k) (sin t) (cos t)) (Q w v) = Q (pw k w v t) (pv k w v t).
Proof.
  intros. rewrite rod_k_Q, Q_mul. unfold pw, pv. f_equal; [vunfold; ring|]. apply v3_eq; vunfold; ring.
Qed.
Lemma pq_unit : forall k w v t, w * w + norm2 v = 1 -> pw k w v t * pw k w v t + norm2 (pv k w v t) = 1.
Proof.
  intros k w v t H. pose proof (sc1 (t / 2)) as S.
  assert (cos (t / 2) * cos (t / 2) + norm2 (vscale (sin (t / 2)) (ek k)) = 1) as U.
  { replace (norm2 (vscale (sin (t / 2)) (ek k))) with (sin (t / 2) * sin (t / 2) * norm2 (ek k)) by vring. rewrite ek_unit. lra. }
  pose proof (q_mul_unit _ _ _ _ U H) as M. cbv zeta in M. rewrite <- M. unfold pw, pv. f_equal; [vunfold; ring|]. f_equal. apply v3_eq; vunfold; ring.
Qed.
Lemma pw0 : forall k w v, pw k w v 0 = w.
Proof. intros. unfold pw. replace (0 / 2) with 0 by field. rewrite cos_0, sin_0. ring. Qed.
Lemma pv0 : forall k w v, pv k w v 0 = v.
Proof. intros. unfold pv. replace (0 / 2) with 0 by field. rewrite cos_0, sin_0. apply v3_eq; vunfold; ring. Qed.
Lemma pw_derive : forall k w v, is_derive (pw k w v) 0 (- (1 / 2) * dot (ek k) v).
Proof. intros. unfold pw. auto_derive; [easy|]. replace (0 * / 2) with 0 by field. rewrite cos_0, sin_0. field. Qed.
Lemma pv_derive : forall k w v i, is_derive (fun t => vget (pv k w v t) i) 0 (vget (vscale (1 / 2) (vadd (vscale w (ek k)) (cross (ek k) v))) i).
Proof.
  intros k w v i. assert (forall t, vget (pv k w v t) i = cos (t / 2) * vget v i + w * sin (t / 2) * vget (ek k) i + sin (t / 2) * vget (cross (ek k) v) i) as E
   by (intro t; destruct i as [|[|i]]; reflexivity).
  eapply is_derive_ext; [intro t; symmetry; apply E|]. auto_derive; [easy|]. replace (0 * / 2) with 0 by field. rewrite cos_0, sin_0.
  destruct i as [|[|i]]; unfold vget; vunfold; field.
Qed.
(** acos w / sqrt (1 - w^2) *)
Lemma h_derive : forall w, -1 < w < 1 -> is_derive (fun w => acos w / sqrt (1 - w * w)) w ((-1 + acos w * w / sqrt (1 - w * w)) / (1 - w * w)).
Proof.
  intros w H. assert (0 < 1 - w * w) as P by nra. pose proof (sqrt_lt_R0 _ P) as S. pose proof (sqrt_sqrt _ (Rlt_le _ _ P)) as SS.
  pose proof (derivable_pt_lim_acos w H) as D. apply is_derive_Reals in D.
  assert (is_derive (fun w => sqrt (1 - w * w)) w (- w / sqrt (1 - w * w))) as D2.
  { auto_derive; [lra|]. replace (1 + - (w * w)) with (1 - w * w) by ring. field. lra. }
  assert (sqrt (1 - w * w) <> 0) as Hn by lra.
  unfold Rsqr in D. pose proof (is_derive_div _ _ _ _ _ D D2 Hn) as D3. cbv beta in D3. unfold minus, plus, opp, scal in D3. simpl in D3. unfold mult in D3. simpl in D3.
  set (s := sqrt (1 - w * w)) in *. rewrite <- SS.
  match type of D3 with is_derive _ _ ?d => replace ((-1 + acos w * w / s) / (s * s)) with d; [exact D3|] end.
  field. lra.
Qed.
Definition gk (k : nat) (w : R) (v : v3) (t : R) : v3 := rvec (pw k w v t) (pv k w v t).
Lemma gk_derive : forall k w v i, -1 < w < 1 ->
  let h := acos w / sqrt (1 - w * w) in let dh := (-1 + acos w * w / sqrt (1 - w * w)) / (1 - w * w) in
  is_derive (fun t => vget (gk k w v t) i) 0
    (2 * (dh * (- (1 / 2) * dot (ek k) v) * vget v i + h * vget (vscale (1 / 2) (vadd (vscale w (ek k)) (cross (ek k) v))) i)).
Proof.
  intros k w v i H h dh.
  apply (is_derive_ext (fun t => 2 * ((acos (pw k w v t) / sqrt (1 - pw k w v t * pw k w v t)) * vget (pv k w v t) i))).
  { intro t. unfold gk, rvec. set (q := acos _ / _). match goal with |- ?a = ?b => change (@eq R a b) end. destruct i as [|[|i]]; unfold vget; vunfold; ring. }
  apply @is_derive_scal.
  assert (is_derive (fun t => acos (pw k w v t) / sqrt (1 - pw k w v t * pw k w v t)) 0 (dh * (- (1 / 2) * dot (ek k) v))) as D1.
  { rewrite Rmult_comm. apply (is_derive_comp (fun w => acos w / sqrt (1 - w * w)) (pw k w v)); [|apply pw_derive].
    rewrite pw0. now apply h_derive. }
  pose proof (is_derive_mult _ _ _ _ _ D1 (pv_derive k w v i) ltac:(intros; apply Rmult_comm)) as D2. cbv beta in D2.
  rewrite pw0, pv0 in D2. exact D2.
Qed.
Lemma acos_half : forall r, 0 < norm r < 2 * PI -> acos (qw r) = half r /\ sqrt (1 - qw r * qw r) = sin (half r) /\ 0 < sin (half r) /\ -1 < qw r < 1.
Proof.
  intros r H. unfold qw. assert (0 < half r < PI) as Hh by (unfold half; lra). assert (0 < sin (half r)) as S by (apply sin_gt_0; lra).
  pose proof (sc1 (half r)) as E. split; [apply acos_cos; lra|]. split; [|split; [easy|split; nra]].
  replace (1 - cos (half r) * cos (half r)) with (sin (half r) * sin (half r)) by lra. apply sqrt_square. lra.
Qed.
Lemma tiny_branch : forall r, 2 * eps8 <= norm r -> (if Rlt_dec (vx r * vx r + vy r * vy r + vz r * vz r) ((2 * eps8) * (2 * eps8)) then true else false) = false.
Proof.
  intros r H. destruct (Rlt_dec _ _) as [L|]; [|reflexivity]. exfalso.
  pose proof (norm_lt r (2 * eps8) ltac:(unfold eps8; lra)) as N. unfold norm2, dot in N. apply N in L. lra.
Qed.
Lemma grad_entry : forall r i k, (i < 3)%nat -> (k < 3)%nat -> 2 * eps8 <= norm r ->
  let B := half r in let bt := B / tan B in
  mget (compose_r_tinyr0_gradientr0 r) i k =
  - (vget r i * vget r k * ((bt - 1) / (4 * B * B))) + bt * vget (ek k) i + vget (cross (ek k) r) i / 2.
Proof.
  intros r i k Hi Hk H B bt. pose proof (tiny_branch r H) as E. unfold compose_r_tinyr0_gradientr0. cbv zeta.
  destruct (Rlt_dec _ _) as [|_]; [discriminate|]. rewrite sqrt_norm2. replace (norm r / 2) with B by (unfold B, half; field).
  fold bt. unfold outer_plus. set (q := (bt - 1) / (4 * B * B)).
  destruct i as [|[|[|i]]]; [| | |lia]; (destruct k as [|[|[|k]]]; [| | |lia]); unfold mget, mrow, vget, ek; vunfold; field.
Qed.

(** tiny r0 on the left of r1, 2e-8 <= |r1| < 2pi: moving r0 from 0 along axis k,
    g is the rotation vector of the composition, starting at r1; the matrix holds its
    derivatives *)
Theorem C27_left : forall r1 k, (k < 3)%nat -> 2 * eps8 <= norm r1 < 2 * PI ->
  exists g : R -> v3, g 0 = r1 /\
    locally 0 (fun t => forall M, is_rotvec M (vscale t (ek k)) -> is_rotvec (mm M (R_from_r r1)) (g t)) /\
    forall i, (i < 3)%nat -> derivable_pt_lim (fun t => vget (g t) i) 0 (mget (compose_r_tinyr0_gradientr0 r1) i k).
Proof.
  intros r k Hk H. assert (0 < norm r < 2 * PI) as H' by (unfold eps8 in H; lra). assert (r <> v0) as Hr by (apply pos_ne0; lra).
  destruct (acos_half r H') as (A1 & A2 & A3 & A4). pose proof (q_unit r Hr) as U.
  exists (gk k (qw r) (qv r)). split; [|split].
  - unfold gk. rewrite pw0, pv0. unfold rvec. rewrite A1, A2. unfold qv. assert (0 < half r) by (unfold half; lra).
    apply v3_eq; vunfold; field; lra.
  - assert (locally 0 (fun t => -1 < pw k (qw r) (qv r) t < 1)) as L.
    { assert (continuous (pw k (qw r) (qv r)) 0) as C by (apply @ex_derive_continuous; eexists; apply pw_derive).
      apply (C (fun y => -1 < y < 1)). rewrite pw0. apply (open_and _ _ (open_gt (-1)) (open_lt 1)). lra. }
    revert L. apply filter_imp. intros t Ht M HM.
    assert (R_from_r r = Q (qw r) (qv r)) as ->. { rewrite R_from_r_rod by (unfold DBL_EPSILON, eps8 in *; lra). now apply rod_r_Q. }
    assert (M = rod (ek k) (sin t) (cos t)) as ->.
    { destruct HM as [HM HM0]. destruct (Req_dec t 0) as [-> |Hz]; [|now apply rot_axis_k]. rewrite HM0 by (apply v3_eq; vunfold; ring).
      rewrite sin_0, cos_0. unfold rod. apply m33_eq; vunfold; ring. }
    rewrite pq_mul. pose proof (pq_unit k _ _ t U) as U'. split; [now apply rvec_Q|]. intro Z. exfalso. revert Z. now apply rvec_ne.
  - intros i Hi. apply is_derive_Reals. rewrite grad_entry by easy. pose proof (gk_derive k (qw r) (qv r) i A4) as D. cbv zeta in D.
    rewrite A1, A2 in D. replace (1 - qw r * qw r) with (sin (half r) * sin (half r)) in D by (pose proof (sc1 (half r)); unfold qw; lra).
    assert (0 < half r) as Pb by (unfold half; lra). set (B := half r) in *.
    assert (B / tan B = B * cos B / sin B) as ->.
    { destruct (Req_dec (cos B) 0) as [Z|Z]; [|unfold tan; field; lra]. unfold tan. rewrite Z.
      unfold Rdiv. rewrite Rinv_0, Rmult_0_r, Rinv_0. ring. }
    match type of D with is_derive _ _ ?d => match goal with |- is_derive _ _ ?e => replace e with d; [exact D|] end end.
    unfold qw, qv. fold B. set (s := sin B) in *. set (c := cos B) in *.
    destruct i as [|[|[|i]]]; [| | |lia]; (destruct k as [|[|[|k]]]; [| | |lia]); unfold vget, ek; vunfold; field; lra.
Qed.
(** the mirror image: R0 M = ((M^T) (R0^T))^T *)
Lemma rotvec_T : forall m r, is_rotvec m r -> is_rotvec (mT m) (vneg r).
Proof.
  intros m r [H Z]. assert (r = v0 \/ r <> v0) as [-> |Hr] by apply Classical_Prop.classic.
  - rewrite (Z eq_refl), mT_I. replace (vneg v0) with v0 by vring. split; [|easy]. split; [vring|]. intros v Hv. rewrite norm_v0. vring.
  - assert (vneg r <> v0) as Hn. { intro E. apply Hr. replace r with (vneg (vneg r)) by vring. rewrite E. vring. }
    rewrite (rotation_by_rod _ _ Hr H). replace (mT (rod (unit r) (sin (norm r)) (cos (norm r)))) with (rod (unit (vneg r)) (sin (norm (vneg r))) (cos (norm (vneg r)))).
    + split; [now apply rod_by|easy].
    + rewrite <- rod_neg, norm_vneg. f_equal. unfold unit. rewrite norm_vneg. vring.
Qed.
Lemma grad_mirror : forall r, compose_r_tinyr1_gradientr1 r = compose_r_tinyr0_gradientr0 (vneg r).
Proof.
  intro r. unfold compose_r_tinyr1_gradientr1, compose_r_tinyr0_gradientr0. cbv zeta.
  replace (vx (vneg r) * vx (vneg r) + vy (vneg r) * vy (vneg r) + vz (vneg r) * vz (vneg r)) with (vx r * vx r + vy r * vy r + vz r * vz r) by vring.
  destruct (Rlt_dec _ _); [reflexivity|]. set (q := sqrt _ / 2). set (bt := q / tan q). set (f := (bt - 1) / _).
  unfold outer_plus. apply m33_eq; vunfold; field.
Qed.
Theorem C27_right : forall r0 k, (k < 3)%nat -> 2 * eps8 <= norm r0 < 2 * PI ->
  exists g : R -> v3, g 0 = r0 /\
    locally 0 (fun t => forall M, is_rotvec M (vscale t (ek k)) -> is_rotvec (mm (R_from_r r0) M) (g t)) /\
    forall i, (i < 3)%nat -> derivable_pt_lim (fun t => vget (g t) i) 0 (mget (compose_r_tinyr1_gradientr1 r0) i k).
Proof.
  intros r k Hk H. destruct (C27_left (vneg r) k Hk) as (g & G0 & GL & GD); [now rewrite norm_vneg|].
  exists (fun t => vneg (g (- t))). split; [|split].
  - rewrite Ropp_0, G0. vring.
  - assert (locally 0 (fun t => forall M, is_rotvec M (vscale (- t) (ek k)) -> is_rotvec (mm M (R_from_r (vneg r))) (g (- t)))) as L.
    { assert (continuous Ropp 0) as C by (apply @ex_derive_continuous; auto_derive; easy). 
      apply (C (fun t => forall M, is_rotvec M (vscale t (ek k)) -> is_rotvec (mm M (R_from_r (vneg r))) (g t))). now rewrite Ropp_0. }
    revert L. apply filter_imp. intros t L M HM. specialize (L (mT M)).
    replace (vscale (- t) (ek k)) with (vneg (vscale t (ek k))) in L by vring. specialize (L (rotvec_T _ _ HM)).
    apply rotvec_T in L. rewrite R_from_r_neg, mT_mm, !mT_mT in L. exact L.
  - intros i Hi. rewrite grad_mirror. specialize (GD i Hi). apply is_derive_Reals in GD. apply is_derive_Reals.
    apply (is_derive_ext (fun t => - vget (g (- t)) i)); [intro t; destruct i as [|[|i]]; reflexivity|].
    assert (is_derive (fun t => vget (g t) i) (- 0) (mget (compose_r_tinyr0_gradientr0 (vneg r)) i k)) as D by now rewrite Ropp_0.
    assert (is_derive Ropp 0 (-1)) as D1 by (auto_derive; [easy|ring]).
    pose proof (is_derive_opp _ _ _ (is_derive_comp (fun t => vget (g t) i) Ropp 0 _ _ D D1)) as D2.
    match type of D2 with is_derive _ _ ?d => replace (mget (compose_r_tinyr0_gradientr0 (vneg r)) i k) with d; [exact D2|] end.
    unfold opp, scal. simpl. unfold mult. simpl. ring.
Qed.

(** ** with respect to the composition the library computes *)
Lemma half_set0 : forall j t, half (vset v0 j t) = Rabs t * (1 / 2).
Proof.
  intros j t. unfold half, norm. f_equal. rewrite <- sqrt_Rsqr_abs. f_equal. unfold Rsqr. destruct j as [|[|j]]; vunfold; cbn; ring.
Qed.
Lemma abs_small : forall d, 0 < d -> locally 0 (fun t => Rabs t < d).
Proof.
  intros d H. exists (mkposreal d H). intros y Hy. change (Rabs (y - 0) < d) in Hy. now rewrite Rminus_0_r in Hy.
Qed.
Lemma lin_derive : forall a b x, is_derive (fun t => a + b * t) x b.
Proof. intros. auto_derive; [easy|ring]. Qed.
Lemma grad_id : forall r, norm r < 2 * eps8 -> compose_r_tinyr0_gradientr0 r = I3.
Proof.
  intros r H. unfold compose_r_tinyr0_gradientr0. cbv zeta. destruct (Rlt_dec _ _) as [|N]; [reflexivity|].
  exfalso. apply N. pose proof (norm_lt r (2 * eps8) ltac:(unfold eps8; lra)) as E. unfold norm2, dot in E. now apply E.
Qed.
Lemma half_lt : forall r, half r < eps8 <-> norm r < 2 * eps8.
Proof. intro r. unfold half. lra. Qed.
Theorem C27_left_code : forall r1, is_jacobian (fun r0 => compose_r2 r0 r1 false false) v0 (compose_r_tinyr0_gradientr0 r1).
Proof.
  intros r i j Hi Hj. replace (vget v0 j) with 0 by (destruct j as [|[|j]]; reflexivity). apply is_derive_Reals.
  assert (0 < eps8) as E8 by (unfold eps8; lra).
  apply (is_derive_ext_loc (fun t => vget r i + mget (compose_r_tinyr0_gradientr0 r) i j * t)); [|apply lin_derive].
  generalize (abs_small eps8 E8). apply filter_imp. intros t Ht. rewrite compose_r2_cmp. cbn [sgn]. unfold cmp. rewrite half_set0.
  destruct (Rlt_dec _ _) as [_|N]; [|lra]. destruct (Rlt_dec _ _) as [L|L].
  - rewrite grad_id by now apply half_lt.
    destruct i as [|[|[|i]]]; [| | |lia]; (destruct j as [|[|[|j]]]; [| | |lia]); unfold mget, mrow, vget, cmp_sum; vunfold; cbn; ring.
  - rewrite grad_entry by (try easy; rewrite half_lt in L; lra). unfold cmp_tiny. set (bt := half r / tan (half r)).
    unfold Rdiv. replace (half r * half r * 4) with (4 * half r * half r) by ring. set (q := / (4 * half r * half r)).
    destruct i as [|[|[|i]]]; [| | |lia]; (destruct j as [|[|[|j]]]; [| | |lia]); unfold vget, ek; vunfold; cbn; field.
Qed.
Theorem C27_right_code_partial : forall r0, norm r0 < eps8 \/ 2 * eps8 <= norm r0 ->
  is_jacobian (fun r1 => compose_r2 r0 r1 false false) v0 (compose_r_tinyr1_gradientr1 r0).
Proof.
  intros r HH i j Hi Hj. replace (vget v0 j) with 0 by (destruct j as [|[|j]]; reflexivity). apply is_derive_Reals. rewrite grad_mirror.
  assert (0 < eps8) as E8 by (unfold eps8; lra).
  apply (is_derive_ext_loc (fun t => vget r i + mget (compose_r_tinyr0_gradientr0 (vneg r)) i j * t)); [|apply lin_derive].
  generalize (abs_small eps8 E8). apply filter_imp. intros t Ht. rewrite compose_r2_cmp. cbn [sgn]. unfold cmp. rewrite half_set0.
  destruct (Rlt_dec (half r) (eps8 / 2)) as [L|L]; (destruct (Rlt_dec _ eps8) as [_|N]; [|lra]).
  - rewrite grad_id by (rewrite norm_vneg; unfold half in L; lra).
    destruct i as [|[|[|i]]]; [| | |lia]; (destruct j as [|[|[|j]]]; [| | |lia]); unfold mget, mrow, vget, cmp_sum; vunfold; cbn; ring.
  - assert (2 * eps8 <= norm r) as H2 by (unfold half in L; lra).
    rewrite grad_entry by (try easy; now rewrite norm_vneg). replace (half (vneg r)) with (half r) by (unfold half; now rewrite norm_vneg).
    unfold cmp_tiny. set (bt := half r / tan (half r)).
    unfold Rdiv. replace (half r * half r * 4) with (4 * half r * half r) by ring. set (q := / (4 * half r * half r)).
    destruct i as [|[|[|i]]]; [| | |lia]; (destruct j as [|[|[|j]]]; [| | |lia]); unfold vget, ek; vunfold; cbn; field.
Qed.
(** the two thresholds disagree (1e-8 in compose_r, 2e-8 in the gradient), and between them
    the gradient is not that of the composition *)
Theorem C27_right_code_refuted : exists r0, eps8 <= norm r0 < 2 * eps8 /\
  ~ is_jacobian (fun r1 => compose_r2 r0 r1 false false) v0 (compose_r_tinyr1_gradientr1 r0).
Proof.
  assert (0 < eps8) as E8 by (unfold eps8; lra). set (z := 3 / 2 * eps8).
  assert (norm (V3 0 0 z) = z) as N. { unfold norm. replace (norm2 (V3 0 0 z)) with (z * z) by (vunfold; cbn; ring). apply sqrt_square. unfold z. lra. }
  exists (V3 0 0 z). rewrite N. split; [unfold z; lra|]. intro J. specialize (J 0%nat 1%nat ltac:(lia) ltac:(lia)). apply is_derive_Reals in J.
  rewrite grad_mirror, grad_id in J by (rewrite norm_vneg, N; unfold z; lra).
  assert (is_derive (fun t => vget (compose_r2 (V3 0 0 z) (vset v0 1 t) false false) 0) 0 (- (z / 2))) as D.
  { apply (is_derive_ext_loc (fun t => 0 + - (z / 2) * t)); [|apply lin_derive].
    generalize (abs_small eps8 E8). apply filter_imp. intros t Ht. rewrite compose_r2_cmp. cbn [sgn]. unfold cmp. rewrite half_set0.
    destruct (Rlt_dec _ _) as [L|L]; [unfold half in L; rewrite N in L; unfold z in L; lra|]. destruct (Rlt_dec _ _) as [_|L2]; [|lra].
    unfold cmp_tiny, vget. vunfold. cbn. unfold Rdiv. ring. }
  pose proof (is_derive_unique _ _ _ J) as U1. pose proof (is_derive_unique _ _ _ D) as U2. pose proof (eq_trans (eq_sym U1) U2) as U. cbn in U. unfold z in U. lra.
Qed.
(** at the identity the gradient is the identity *)
Theorem C27_at_identity : compose_r_tinyr0_gradientr0 v0 = I3 /\ compose_r_tinyr1_gradientr1 v0 = I3.
Proof.
  assert (norm v0 < 2 * eps8) as H by (rewrite norm_v0; unfold eps8; lra). split; [now apply grad_id|]. rewrite grad_mirror. apply grad_id. now rewrite norm_vneg.
Qed.
(** ** |r| below 2e-8: the code returns the identity *)
Definition true_entry (r : v3) (i k : nat) : R :=
  let B := half r in let bt := B * cos B / sin B in
  - (vget r i * vget r k * ((bt - 1) / (4 * B * B))) + bt * vget (ek k) i + vget (cross (ek k) r) i / 2.
Lemma left_true : forall r k, (k < 3)%nat -> 0 < norm r < 2 * PI ->
  exists g : R -> v3, g 0 = r /\
    locally 0 (fun t => forall M M1, is_rotvec M1 r -> is_rotvec M (vscale t (ek k)) -> is_rotvec (mm M M1) (g t)) /\
    forall i, (i < 3)%nat -> derivable_pt_lim (fun t => vget (g t) i) 0 (true_entry r i k).
Proof.
  intros r k Hk H'. assert (r <> v0) as Hr by (apply pos_ne0; lra).
  destruct (acos_half r H') as (A1 & A2 & A3 & A4). pose proof (q_unit r Hr) as U.
  exists (gk k (qw r) (qv r)). split; [|split].
  - unfold gk. rewrite pw0, pv0. unfold rvec. rewrite A1, A2. unfold qv. assert (0 < half r) by (unfold half; lra).
    apply v3_eq; vunfold; field; lra.
  - assert (locally 0 (fun t => -1 < pw k (qw r) (qv r) t < 1)) as L.
    { assert (continuous (pw k (qw r) (qv r)) 0) as C by (apply @ex_derive_continuous; eexists; apply pw_derive).
      apply (C (fun y => -1 < y < 1)). rewrite pw0. apply (open_and _ _ (open_gt (-1)) (open_lt 1)). lra. }
    revert L. apply filter_imp. intros t Ht M M1 HM1 HM.
    assert (M1 = Q (qw r) (qv r)) as ->. { destruct HM1 as [HM1 _]. rewrite (rotation_by_rod _ _ Hr HM1). now apply rod_r_Q. }
    assert (M = rod (ek k) (sin t) (cos t)) as ->.
    { destruct HM as [HM HM0]. destruct (Req_dec t 0) as [-> |Hz]; [|now apply rot_axis_k]. rewrite HM0 by (apply v3_eq; vunfold; ring).
      rewrite sin_0, cos_0. unfold rod. apply m33_eq; vunfold; ring. }
    rewrite pq_mul. pose proof (pq_unit k _ _ t U) as U'. split; [now apply rvec_Q|]. intro Z. exfalso. revert Z. now apply rvec_ne.
  - intros i Hi. apply is_derive_Reals. unfold true_entry. cbv zeta. pose proof (gk_derive k (qw r) (qv r) i A4) as D. cbv zeta in D.
    rewrite A1, A2 in D. replace (1 - qw r * qw r) with (sin (half r) * sin (half r)) in D by (pose proof (sc1 (half r)); unfold qw; lra).
    assert (0 < half r) as Pb by (unfold half; lra). set (B := half r) in *.
    match type of D with is_derive _ _ ?d => match goal with |- is_derive _ _ ?e => replace e with d; [exact D|] end end.
    unfold qw, qv. fold B. set (s := sin B) in *. set (c := cos B) in *.
    destruct i as [|[|[|i]]]; [| | |lia]; (destruct k as [|[|[|k]]]; [| | |lia]); unfold vget, ek; vunfold; field; lra.
Qed.
Lemma comp_le_norm : forall r i, Rabs (vget r i) <= norm r.
Proof.
  intros r i. unfold norm. rewrite <- (sqrt_Rsqr_abs (vget r i)). apply sqrt_le_1_alt. unfold Rsqr, norm2, dot. destruct i as [|[|i]]; unfold vget; nra.
Qed.
Lemma true_entry_near : forall r i k, (i < 3)%nat -> (k < 3)%nat -> 0 < norm r < 1 / 100 -> Rabs (true_entry r i k - mget I3 i k) <= 2 * norm r.
Proof.
  intros r i k Hi Hk H. unfold true_entry. cbv zeta. set (B := half r). assert (norm r = 2 * B) as N by (unfold B, half; field).
  assert (0 < B < 1 / 200) as HB by lra. set (bt := B * cos B / sin B).
  destruct (sin_bounds B ltac:(lra)) as [S1 S2].
  assert (B ^ 3 = B * (B * B)) as E3 by ring. assert (B ^ 5 = B * (B * B) * (B * B)) as E5 by ring.
  assert (0 < B * B < 1 / 100) as HB2 by nra. assert (0 < B * (B * B) < B / 100) as HB3 by nra.
  assert (B * (B * B) * (B * B) <= B * (B * B)) as HB5 by nra.
  assert (B / 2 <= sin B <= B) as HS by lra.
  assert (Rabs (bt - 1) <= B) as Hbt.
  { assert (bt - 1 = (B * cos B - sin B) * / sin B) as -> by (unfold bt; field; lra).
    assert (0 <= 1 - cos B <= B * B / 2) as C1.
    { destruct (COS_bound B) as [_ C]. split; [lra|]. set (x := B / 2) in *. replace B with (2 * x) by (unfold x; field). rewrite cos_2a_sin.
      destruct (sin_bounds x ltac:(unfold x; lra)) as [X1 X2]. assert (0 < x < 1 / 400) as Hx by (unfold x; lra).
      assert (x ^ 3 = x * (x * x)) as F3 by ring. assert (x ^ 5 = x * (x * x) * (x * x)) as F5 by ring.
      assert (0 < x * x < 1 / 100) by nra. assert (0 < x * (x * x) < x / 100) by nra. assert (x * (x * x) * (x * x) <= x * (x * x)) by nra.
      assert (0 <= sin x <= x) by lra. nra. }
    rewrite Rabs_mult, (Rabs_right (/ sin B)) by (apply Rle_ge, Rlt_le, Rinv_0_lt_compat; lra).
    apply Rmult_le_reg_r with (sin B); [lra|]. rewrite Rmult_assoc, Rinv_l, Rmult_1_r by lra.
    assert (B * (1 - cos B) <= B * (B * B) / 2) by nra. assert (0 <= B * (1 - cos B)) by nra.
    apply Rle_trans with (B * B / 2); [|nra]. apply Rabs_le. nra. }
  assert (Rabs (vget r i * vget r k * ((bt - 1) / (4 * B * B))) <= B) as T1.
  { replace (vget r i * vget r k * ((bt - 1) / (4 * B * B))) with ((bt - 1) * (vget r i * (1 / norm r)) * (vget r k * (1 / norm r))) by (rewrite N; field; lra).
    assert (forall j, Rabs (vget r j * (1 / norm r)) <= 1) as U.
    { intro j. rewrite Rabs_mult, (Rabs_right (1 / norm r)) by (apply Rle_ge, Rlt_le, Rdiv_lt_0_compat; lra).
      apply Rmult_le_reg_r with (norm r); [lra|]. rewrite Rmult_assoc. replace (1 / norm r * norm r) with 1 by (field; lra). pose proof (comp_le_norm r j). lra. }
    apply ab_mul; [|apply U]. apply ab_mul; [exact Hbt|apply U]. }
  assert (Rabs (vget (cross (ek k) r) i / 2) <= B) as T2.
  { assert (Rabs (vget (cross (ek k) r) i) <= norm r) as T.
    { pose proof (comp_le_norm r 0) as N0. pose proof (comp_le_norm r 1) as N1. pose proof (comp_le_norm r 2) as N2. pose proof (Rlt_le _ _ (proj1 H)) as N3. unfold vget in *.
      destruct i as [|[|[|i]]]; [| | |lia]; (destruct k as [|[|[|k]]]; [| | |lia]); unfold ek; vunfold;
        match goal with |- Rabs ?e <= _ => ring_simplify e end; rewrite ?Rabs_Ropp, ?Rabs_R0; assumption. }
    unfold Rdiv. rewrite Rabs_mult, (Rabs_right (/ 2)) by lra. lra. }
  assert (Rabs ((bt - 1) * vget (ek k) i) <= B) as T3.
  { apply ab_mul; [exact Hbt|]. destruct i as [|[|[|i]]]; [| | |lia]; (destruct k as [|[|[|k]]]; [| | |lia]); unfold ek, vget; cbn [vx vy vz]; rewrite ?Rabs_R0, ?Rabs_R1; lra. }
  replace (mget I3 i k) with (vget (ek k) i) by (destruct i as [|[|[|i]]]; [| | |lia]; (destruct k as [|[|[|k]]]; [| | |lia]); reflexivity).
  set (x := vget r i * vget r k * ((bt - 1) / (4 * B * B))) in *. set (y := vget (cross (ek k) r) i / 2) in *.
  replace (- x + bt * vget (ek k) i + y - vget (ek k) i) with ((bt - 1) * vget (ek k) i - x + y) by ring.
  eapply Rle_trans; [apply ab_add; [apply ab_sub; [exact T3|exact T1]|exact T2]|]. lra.
Qed.
(** The true derivative is within 2|r| of the reported one.  M1 is the exact rotation by r1 *)
Theorem C27_left_tiny : forall r1 k, (k < 3)%nat -> 0 < norm r1 < 2 * eps8 ->
  exists (g : R -> v3) (d : nat -> R), g 0 = r1 /\
    locally 0 (fun t => forall M M1, is_rotvec M1 r1 -> is_rotvec M (vscale t (ek k)) -> is_rotvec (mm M M1) (g t)) /\
    forall i, (i < 3)%nat -> derivable_pt_lim (fun t => vget (g t) i) 0 (d i) /\
      Rabs (d i - mget (compose_r_tinyr0_gradientr0 r1) i k) <= 2 * norm r1.
Proof.
  intros r k Hk H. pose proof PI2_3_2. destruct (left_true r k Hk) as (g & G0 & GL & GD); [unfold eps8 in H; lra|].
  exists g, (fun i => true_entry r i k). split; [exact G0|]. split; [exact GL|]. intros i Hi. split; [now apply GD|].
  rewrite grad_id by easy. apply true_entry_near; [easy|easy|unfold eps8 in H; lra].
Qed.
Theorem C27_right_tiny : forall r0 k, (k < 3)%nat -> 0 < norm r0 < 2 * eps8 ->
  exists (g : R -> v3) (d : nat -> R), g 0 = r0 /\
    locally 0 (fun t => forall M M0, is_rotvec M0 r0 -> is_rotvec M (vscale t (ek k)) -> is_rotvec (mm M0 M) (g t)) /\
    forall i, (i < 3)%nat -> derivable_pt_lim (fun t => vget (g t) i) 0 (d i) /\
      Rabs (d i - mget (compose_r_tinyr1_gradientr1 r0) i k) <= 2 * norm r0.
Proof.
  intros r k Hk H. destruct (C27_left_tiny (vneg r) k Hk) as (g & d & G0 & GL & GD); [now rewrite norm_vneg|].
  exists (fun t => vneg (g (- t))), d. split; [|split].
  - rewrite Ropp_0, G0. vring.
  - assert (locally 0 (fun t => forall M M1, is_rotvec M1 (vneg r) -> is_rotvec M (vscale (- t) (ek k)) -> is_rotvec (mm M M1) (g (- t)))) as L.
    { assert (continuous Ropp 0) as C by (apply @ex_derive_continuous; auto_derive; easy).
      apply (C (fun t => forall M M1, is_rotvec M1 (vneg r) -> is_rotvec M (vscale t (ek k)) -> is_rotvec (mm M M1) (g t))). now rewrite Ropp_0. }
    revert L. apply filter_imp. intros t L M M0 HM0 HM. specialize (L (mT M) (mT M0) (rotvec_T _ _ HM0)).
    replace (vscale (- t) (ek k)) with (vneg (vscale t (ek k))) in L by vring. specialize (L (rotvec_T _ _ HM)).
    apply rotvec_T in L. rewrite mT_mm, !mT_mT in L. exact L.
  - intros i Hi. rewrite grad_mirror. destruct (GD i Hi) as [D B]. rewrite norm_vneg in B. split; [|exact B].
    apply is_derive_Reals in D. apply is_derive_Reals.
    apply (is_derive_ext (fun t => - vget (g (- t)) i)); [intro t; destruct i as [|[|i]]; reflexivity|].
    assert (is_derive (fun t => vget (g t) i) (- 0) (d i)) as D' by now rewrite Ropp_0.
    assert (is_derive Ropp 0 (-1)) as D1 by (auto_derive; [easy|ring]).
    pose proof (is_derive_opp _ _ _ (is_derive_comp (fun t => vget (g t) i) Ropp 0 _ _ D' D1)) as D2.
    match type of D2 with is_derive _ _ ?e => replace (d i) with e; [exact D2|] end.
    unfold opp, scal. simpl. unfold mult. simpl. ring.
Qed.
Print Assumptions C27_left_tiny.
Print Assumptions C27_right_tiny.
Example ex_tiny : 2 * eps8 <= norm (V3 0 0 1) < 2 * PI.
Proof.
  replace (norm (V3 0 0 1)) with 1. { pose proof PI2_3_2. unfold eps8. lra. }
  unfold norm. replace (norm2 (V3 0 0 1)) with 1 by (vunfold; cbn; ring). symmetry. apply sqrt_1.
Qed.
Print Assumptions C27_left.
Print Assumptions C27_right.
Print Assumptions C27_left_code.
Print Assumptions C27_right_code_partial.
Print Assumptions C27_right_code_refuted.
Print Assumptions C27_at_identity.
