(** C28: R_aligned_to_vector;  C29: Procrustes alignment. *)
From Coq Require Import Reals List Lra Psatz Nsatz.
From Verif Require Import S_Vec M_Pose M_Align P_Trig P_Pose P_Euler.
Import ListNotations.
Open Scope R_scope.

(** ** C28 *)
Theorem C28_aligned : forall v, v <> v0 ->
  is_rot (R_aligned_to_vector v) /\ mv (R_aligned_to_vector v) v = V3 0 0 (norm v).
Proof.
  intros v Hv. pose proof (norm_pos v Hv) as P. pose proof (norm_sq v) as Q.
  unfold R_aligned_to_vector. cbv zeta. rewrite sqrt_norm2. cbn [vx vy vz].
  set (n := norm v) in *. 
  assert (exists a b c, vx v = n * a /\ vy v = n * b /\ vz v = n * c /\ vx v / n = a /\ vy v / n = b /\ vz v / n = c) as (a & b & c & V1 & V2 & V3_ & D1 & D2 & D3).
  { exists (vx v / n), (vy v / n), (vz v / n). repeat split; field; lra. }
  rewrite D1, D2, D3. assert (a * a + b * b + c * c = 1) as U.
  { unfold norm2, dot in Q. rewrite V1, V2, V3_ in Q. assert (n * n * (a * a + b * b + c * c) = n * n * 1) as E by lra. apply Rmult_eq_reg_l in E; nra. }
  clearbody n.
  assert (forall x0 x1 x2, x0 * a + x1 * b + x2 * c = 0 -> 0 < x0 * x0 + x1 * x1 + x2 * x2 ->
    let m := sqrt (x0 * x0 + x1 * x1 + x2 * x2) in
    let R := M33 (x0 / m) (x1 / m) (x2 / m) (b * (x2 / m) - c * (x1 / m)) (c * (x0 / m) - a * (x2 / m)) (a * (x1 / m) - b * (x0 / m)) a b c in
    is_rot R /\ mv R v = V3 0 0 n) as G.
  { intros x0 x1 x2 O N m. assert (0 < m) as Hm by now apply sqrt_lt_R0. assert (m * m = x0 * x0 + x1 * x1 + x2 * x2) as M by (apply sqrt_sqrt; lra).
    clearbody m. assert (exists p q r, x0 = m * p /\ x1 = m * q /\ x2 = m * r /\ x0 / m = p /\ x1 / m = q /\ x2 / m = r) as (p & q & r & X0 & X1 & X2 & -> & -> & ->).
    { exists (x0 / m), (x1 / m), (x2 / m). repeat split; field; lra. }
    subst x0 x1 x2. assert (p * p + q * q + r * r = 1) as W by (assert (m * m * (p * p + q * q + r * r) = m * m * 1) as E by lra; apply Rmult_eq_reg_l in E; nra).
    assert (p * a + q * b + r * c = 0) as O' by (assert (m * (p * a + q * b + r * c) = m * 0) as E by lra; apply Rmult_eq_reg_l in E; lra).
    clear - W O' U V1 V2 V3_. cbv zeta. split.
    - unfold is_rot. split; [|split].
      + apply m33_eq; vunfold; nsatz.
      + apply m33_eq; vunfold; nsatz.
      + vunfold; nsatz.
    - apply v3_eq; unfold mv; cbn [vx vy vz m00 m01 m02 m10 m11 m12 m20 m21 m22]; rewrite V1, V2, V3_.
      + replace (_ + _ + _) with (n * (p * a + q * b + r * c)) by ring. rewrite O'. ring.
      + ring.
      + replace (_ + _ + _) with (n * (a * a + b * b + c * c)) by ring. rewrite U. ring. }
  destruct (Rlt_dec (Rabs a) (9 / 10)) as [L|L]; cbn [vx vy vz].
  - refine (G (1 - a * a) (0 - a * b) (0 - a * c) _ _); [match goal with |- ?e = 0 => replace e with (a * (1 - (a * a + b * b + c * c))) by ring end; rewrite U; ring|]. apply Rabs_def2 in L. assert (a * a < 1) by nra.
    match goal with |- 0 < ?e => replace e with (1 - a * a * 2 + a * a * (a * a + b * b + c * c)) by ring end. rewrite U. lra.
  - refine (G (0 - b * a) (1 - b * b) (0 - b * c) _ _); [match goal with |- ?e = 0 => replace e with (b * (1 - (a * a + b * b + c * c))) by ring end; rewrite U; ring|]. assert (81 / 100 <= a * a) by (revert L; unfold Rabs; destruct (Rcase_abs a); nra). assert (b * b < 1) by nra.
    match goal with |- 0 < ?e => replace e with (1 - b * b * 2 + b * b * (a * a + b * b + c * c)) by ring end. rewrite U. lra.
Qed.
Print Assumptions C28_aligned.
Example ex_aligned : V3 3 (-4) 12 <> v0 /\ mv (R_aligned_to_vector (V3 3 (-4) 12)) (V3 3 (-4) 12) = V3 0 0 13.
Proof.
  assert (V3 3 (-4) 12 <> v0) as H by (intro E; injection E as E _ _; lra). split; [exact H|].
  rewrite (proj2 (C28_aligned _ H)). f_equal. unfold norm. replace (norm2 _) with (13 * 13) by (vunfold; ring). apply sqrt_square. lra.
Qed.

(** ** C29: specification *)
(** weighted sum of squared errors of mapping each second vector with f onto the first *)
Fixpoint wsse (l : list (v3 * v3 * R)) (f : v3 -> v3) : R :=
  match l with
  | [] => 0
  | (a, b, w) :: r => w * norm2 (vsub a (f b)) + wsse r f
  end.
(** the data with its weights; without weights each counts once *)
Definition weighted (ps : list (v3 * v3)) (ws : option (list R)) : list (v3 * v3 * R) :=
  match ws with None => map (fun p => (p, 1)) ps | Some w => combine ps w end.
Definition diag3 (d : v3) : m33 := M33 (vx d) 0 0 0 (vy d) 0 0 0 (vz d).
Definition orthogonal (m : m33) : Prop := mm (mT m) m = I3 /\ mm m (mT m) = I3.
(** what LAPACK promises *)
Definition is_svd (A U : m33) (d : v3) (V : m33) : Prop :=
  orthogonal U /\ orthogonal V /\ A = mm (mm U (diag3 d)) (mT V) /\ vz d >= 0 /\ vy d >= vz d /\ vx d >= vy d.

(** ** C29: proofs *)
Definition frob (A B : m33) : R :=
  m00 A * m00 B + m01 A * m01 B + m02 A * m02 B + m10 A * m10 B + m11 A * m11 B + m12 A * m12 B + m20 A * m20 B + m21 A * m21 B + m22 A * m22 B.

Lemma frob_svd : forall U d V B, frob (mm (mm U (diag3 d)) (mT V)) B = frob (diag3 d) (mm (mm (mT U) B) V).
Proof. intros. unfold frob, diag3. vunfold. ring. Qed.
Lemma UVt : forall U V sg, U_Vt U V sg = mm (mm U (diag3 (V3 1 1 sg))) (mT V).
Proof. intros. unfold U_Vt, diag3. apply m33_eq; vunfold; ring. Qed.
Lemma orth_mT : forall m, orthogonal m -> orthogonal (mT m).
Proof. intros m (A & B). unfold orthogonal. rewrite mT_mT. auto. Qed.
Lemma orth_mm : forall a b, orthogonal a -> orthogonal b -> orthogonal (mm a b).
Proof.
  intros a b (A1 & A2) (B1 & B2). unfold orthogonal. rewrite mT_mm. split.
  - rewrite mm_assoc, <- (mm_assoc (mT a)), A1, mm_I_l. exact B1.
  - rewrite mm_assoc, <- (mm_assoc b), B2, mm_I_l. exact A2.
Qed.
Lemma orth_det : forall m, orthogonal m -> det m = 1 \/ det m = -1.
Proof.
  intros m (A & _). assert (det (mm (mT m) m) = 1) as E by (rewrite A; vunfold; ring). rewrite det_mm, det_mT in E.
  assert ((det m - 1) * (det m + 1) = 0) as F by (rewrite Rmult_minus_distr_r; lra). apply Rmult_integral in F as [F|F]; [left|right]; lra.
Qed.
Lemma rot_orth : forall m, is_rot m <-> orthogonal m /\ det m = 1.
Proof. intro m. unfold is_rot, orthogonal. tauto. Qed.
Lemma orth_le1 : forall m, orthogonal m -> m00 m <= 1 /\ m11 m <= 1 /\ m22 m <= 1.
Proof. intros [a b c d e f g h i] (A & _). unfold mm, mT, I3 in A. cbn in *. injection A as A0 A1 A2 A3 A4 A5 A6 A7 A8. repeat split; nra. Qed.
(** a reflection has trace at most 1 *)
Lemma refl_trace : forall m, orthogonal m -> det m = -1 -> trace m <= 1.
Proof.
  intros m O D. set (n := M33 (- m00 m) (- m01 m) (- m02 m) (- m10 m) (- m11 m) (- m12 m) (- m20 m) (- m21 m) (- m22 m)).
  assert (is_rot n) as H.
  { destruct O as (A & B). unfold is_rot. split; [|split].
    - rewrite <- A. unfold n. vring.
    - rewrite <- B. unfold n. vring.
    - transitivity (- det m); [unfold n; vring|lra]. }
  pose proof (rot_trace n H) as T. unfold n, trace in T. cbn in T. unfold trace. lra.
Qed.

Lemma frob_diag_bound : forall d Q, vz d >= 0 -> vy d >= vz d -> vx d >= vy d -> orthogonal Q ->
  (det Q = 1 -> frob (diag3 d) Q <= vx d + vy d + vz d) /\ (det Q = -1 -> frob (diag3 d) Q <= vx d + vy d - vz d).
Proof.
  intros d Q H1 H2 H3 O. destruct (orth_le1 Q O) as (A & B & C).
  assert (frob (diag3 d) Q = vx d * m00 Q + vy d * m11 Q + vz d * m22 Q) as -> by (unfold frob, diag3; cbn; ring).
  split; intro D.
  - nra.
  - pose proof (refl_trace Q O D) as T. unfold trace in T.
    replace (vx d * m00 Q + vy d * m11 Q + vz d * m22 Q) with (vz d * (m00 Q + m11 Q + m22 Q) + (vx d - vz d) * m00 Q + (vy d - vz d) * m11 Q) by ring.
    nra.
Qed.

Lemma det_R_det : forall m, m00 m * (m11 m * m22 m - m12 m * m21 m) - m01 m * (m10 m * m22 m - m12 m * m20 m) + m02 m * (m10 m * m21 m - m11 m * m20 m) = det m.
Proof. reflexivity. Qed.

Lemma core_opt : forall svd ps m0 m1 ws Rm,
  (forall A U d V, svd A = Some (U, d, V) -> is_svd A U d V) ->
  procrustes_core svd ps m0 m1 ws = Solved Rm ->
  is_rot Rm /\ forall R', is_rot R' -> frob (accumulate ps m0 m1 ws) R' <= frob (accumulate ps m0 m1 ws) Rm.
Proof.
  intros svd ps m0 m1 ws Rm Hs H. unfold procrustes_core in H. set (M := accumulate ps m0 m1 ws) in *. clearbody M.
  destruct (svd M) as [[[U d] V]|] eqn:E; [|discriminate]. apply Hs in E as (OU & OV & EM & D1 & D2 & D3).
  destruct (Rlt_dec (vy d) _); [discriminate|]. cbv zeta in H. rewrite det_R_det in H. rewrite !UVt in H.
  set (Dg sg := diag3 (V3 1 1 sg)).
  change (diag3 (V3 1 1 1)) with (Dg 1) in H. change (diag3 (V3 1 1 (-1))) with (Dg (-1)) in H.
  assert (forall sg, sg = 1 \/ sg = -1 -> orthogonal (Dg sg) /\ det (Dg sg) = sg) as OD.
  { intros sg [-> | ->]; (split; [split; unfold Dg, diag3; vring|unfold Dg, diag3; vunfold; ring]). }
  assert (forall sg, sg = 1 \/ sg = -1 -> orthogonal (mm (mm U (Dg sg)) (mT V))) as OR.
  { intros sg Hsg. apply orth_mm; [apply orth_mm; [easy|now apply OD]|now apply orth_mT]. }
  assert (forall sg, sg = 1 \/ sg = -1 -> det (mm (mm U (Dg sg)) (mT V)) = det U * sg * det V) as DR.
  { intros sg Hsg. rewrite !det_mm, det_mT, (proj2 (OD sg Hsg)). reflexivity. }
  assert (forall sg, sg = 1 \/ sg = -1 -> frob M (mm (mm U (Dg sg)) (mT V)) = vx d + vy d + sg * vz d) as FR.
  { intros sg Hsg. rewrite EM, frob_svd.
    replace (mm (mm (mT U) (mm (mm U (Dg sg)) (mT V))) V) with (Dg sg).
    - unfold frob, Dg, diag3. cbn. ring.
    - rewrite !mm_assoc. rewrite (proj1 OV), mm_I_r, <- mm_assoc, (proj1 OU), mm_I_l. reflexivity. }
  assert (forall R', is_rot R' -> let Q := mm (mm (mT U) R') V in orthogonal Q /\ det Q = det U * det V) as QQ.
  { intros R' HR Q. apply rot_orth in HR as (HR & HD). split; [apply orth_mm; [apply orth_mm; [now apply orth_mT|easy]|easy]|].
    unfold Q. rewrite !det_mm, det_mT, HD. ring. }
  assert (det U * det V = 1 \/ det U * det V = -1) as DD.
  { destruct (orth_det U OU) as [-> | ->], (orth_det V OV) as [-> | ->]; (left; lra) || (right; lra). }
  destruct (Rlt_dec (det (mm (mm U (Dg 1)) (mT V))) 0) as [L|L]; injection H as <-; rewrite DR in L by auto.
  - split.
    + apply rot_orth. split; [apply OR; auto|]. rewrite DR by auto. lra.
    + intros R' HR. destruct (QQ R' HR) as (OQ & DQ). rewrite FR by auto. rewrite EM, frob_svd.
      destruct (frob_diag_bound d _ D1 D2 D3 OQ) as (_ & B). specialize (B ltac:(lra)). lra.
  - split.
    + apply rot_orth. split; [apply OR; auto|]. rewrite DR by auto. lra.
    + intros R' HR. destruct (QQ R' HR) as (OQ & DQ). rewrite FR by auto. rewrite EM, frob_svd.
      destruct (frob_diag_bound d _ D1 D2 D3 OQ) as (B & _). specialize (B ltac:(lra)). lra.
Qed.

(** the accumulated matrix carries the cross terms of the error *)
Fixpoint cross_sum (l : list (v3 * v3 * R)) (m0 m1 : v3) (Rm : m33) : R :=
  match l with [] => 0 | (a, b, w) :: r => w * dot (vsub a m0) (mv Rm (vsub b m1)) + cross_sum r m0 m1 Rm end.
Lemma acc_frob : forall ps m0 m1 ws Rm, frob (accumulate ps m0 m1 ws) Rm = cross_sum (weighted ps ws) m0 m1 Rm.
Proof.
  intros ps m0 m1 [ws|] Rm; unfold accumulate, weighted.
  - assert (forall l acc, frob (fold_left (fun m pw => outer_add m (sub3 (fst (fst pw)) m0) (sub3 (snd (fst pw)) m1) (snd pw)) l acc) Rm
      = frob acc Rm + cross_sum l m0 m1 Rm) as G.
    { induction l as [|[[a b] w] l IH]; intro acc; cbn [fold_left cross_sum]; [ring|]. rewrite IH. unfold frob, outer_add, sub3. vunfold. cbn [fst snd vx vy vz]. ring. }
    rewrite G. unfold frob, zero33. cbn. ring.
  - assert (forall l acc, frob (fold_left (fun m p => outer_add1 m (sub3 (fst p) m0) (sub3 (snd p) m1)) l acc) Rm
      = frob acc Rm + cross_sum (map (fun p => (p, 1)) l) m0 m1 Rm) as G.
    { induction l as [|[a b] l IH]; intro acc; cbn [fold_left cross_sum map]; [ring|]. rewrite IH. unfold frob, outer_add1, sub3. vunfold. cbn [fst snd vx vy vz]. ring. }
    rewrite G. unfold frob, zero33. cbn. ring.
Qed.
Fixpoint self_sum (l : list (v3 * v3 * R)) (m0 m1 : v3) : R :=
  match l with [] => 0 | (a, b, w) :: r => w * (norm2 (vsub a m0) + norm2 (vsub b m1)) + self_sum r m0 m1 end.
(** for a rotation the error is a constant minus twice the cross terms *)
Lemma wsse_split : forall l m0 m1 Rm, is_rot Rm ->
  wsse l (fun b => vadd m0 (mv Rm (vsub b m1))) = self_sum l m0 m1 - 2 * cross_sum l m0 m1 Rm.
Proof.
  intros l m0 m1 Rm H. induction l as [|[[a b] w] l IH]; cbn [wsse self_sum cross_sum]; [ring|]. rewrite IH.
  replace (norm2 (vsub a (vadd m0 (mv Rm (vsub b m1))))) with
    (norm2 (vsub a m0) + norm2 (mv Rm (vsub b m1)) - 2 * dot (vsub a m0) (mv Rm (vsub b m1))) by vring.
  unfold norm2 at 2. rewrite rot_dot by easy. fold (norm2 (vsub b m1)). ring.
Qed.
Lemma wsse_ext : forall l f g, (forall b, f b = g b) -> wsse l f = wsse l g.
Proof. intros l f g H. induction l as [|[[a b] w] l IH]; cbn; [easy|]. now rewrite H, IH. Qed.

(** Vectors: for every data and any weights (or none) a returned rotation is
    proper, and no other rotation has a smaller weighted sum of squared errors. *)
Theorem C29_vectors : forall svd ps ws Rm,
  (forall A U d V, svd A = Some (U, d, V) -> is_svd A U d V) ->
  align_vectors svd ps ws = Solved Rm ->
  is_rot Rm /\ forall R', is_rot R' -> wsse (weighted ps ws) (mv Rm) <= wsse (weighted ps ws) (mv R').
Proof.
  intros svd ps ws Rm Hs H. destruct (core_opt _ _ _ _ _ _ Hs H) as (HR & O). split; [exact HR|]. intros R' HR'.
  assert (forall Rx, is_rot Rx -> wsse (weighted ps ws) (mv Rx) = self_sum (weighted ps ws) v0 v0 - 2 * cross_sum (weighted ps ws) v0 v0 Rx) as E.
  { intros Rx Hx. rewrite <- wsse_split by easy. apply wsse_ext. intro b. vring. }
  rewrite !E by easy. specialize (O R' HR'). rewrite !acc_frob in O. fold v0 in O. lra.
Qed.
Print Assumptions C29_vectors.

(** Points, no weights: no other rigid transform has a smaller sum of squared errors. *)
Fixpoint vsum (f : v3 * v3 -> v3) (l : list (v3 * v3)) : v3 := match l with [] => v0 | p :: r => vadd (f p) (vsum f r) end.
Lemma mean_sum : forall f l, l <> [] -> vscale (INR (length l)) (mean_of f l) = vsum f l.
Proof.
  intros f l Hl. assert (0 < INR (length l)) as P. { apply lt_0_INR. destruct l; [easy|cbn; lia]. }
  assert (forall l acc, fold_left (fun a p => V3 (vx a + vx (f p)) (vy a + vy (f p)) (vz a + vz (f p))) l acc = vadd acc (vsum f l)) as G.
  { clear. induction l as [|p l IH]; intro acc; cbn [fold_left vsum]; [vring|]. rewrite IH. vring. }
  unfold mean_of. rewrite G. apply v3_eq; vunfold; field; lra.
Qed.
Lemma sse_expand : forall l Rm t,
  wsse (map (fun p => (p, 1)) l) (fun b => vadd (mv Rm b) t) =
  wsse (map (fun p => (p, 1)) l) (mv Rm) - 2 * dot t (vsub (vsum fst l) (mv Rm (vsum snd l))) + INR (length l) * norm2 t.
Proof.
  intros l Rm t. induction l as [|[a b] l IH].
  - cbn. vunfold. ring.
  - cbn [wsse map length vsum fst snd]. rewrite IH, S_INR. vunfold. ring.
Qed.
Lemma t_opt : forall l Rm t, l <> [] ->
  wsse (map (fun p => (p, 1)) l) (fun b => vadd (mv Rm b) (vsub (mean_of fst l) (mv Rm (mean_of snd l)))) <=
  wsse (map (fun p => (p, 1)) l) (fun b => vadd (mv Rm b) t).
Proof.
  intros l Rm t Hl. rewrite !sse_expand. rewrite <- !mean_sum by easy. set (n := INR (length l)).
  assert (0 < n) by (apply lt_0_INR; destruct l; [easy|cbn; lia]).
  set (a := mean_of fst l). set (b := mean_of snd l).
  replace (vsub (vscale n a) (mv Rm (vscale n b))) with (vscale n (vsub a (mv Rm b))) by vring. set (c := vsub a (mv Rm b)).
  assert (0 <= n * norm2 (vsub t c)) as P by (apply Rmult_le_pos; [lra|apply norm2_nonneg]).
  replace (n * norm2 (vsub t c)) with ((- 2 * dot t (vscale n c) + n * norm2 t) - (- 2 * dot c (vscale n c) + n * norm2 c)) in P by vring. lra.
Qed.
Theorem C29_points_unweighted : forall svd ps p,
  (forall A U d V, svd A = Some (U, d, V) -> is_svd A U d V) ->
  align_points svd ps None = Solved p ->
  is_rot (Rt_R p) /\
  forall R' t', is_rot R' ->
    wsse (weighted ps None) (fun b => vadd (mv (Rt_R p) b) (Rt_t p)) <= wsse (weighted ps None) (fun b => vadd (mv R' b) t').
Proof.
  intros svd ps p Hs H. unfold align_points in H. cbv zeta in H.
  destruct (procrustes_core svd ps (mean_of fst ps) (mean_of snd ps) None) as [Rm| |] eqn:E; try discriminate. injection H as <-. cbn [Rt_R Rt_t].
  destruct (core_opt _ _ _ _ _ _ Hs E) as (HR & O). split; [exact HR|]. intros R' t' HR'. cbn [weighted].
  destruct ps as [|p0 ps0] eqn:Eps; [cbn; lra|]. rewrite <- Eps in *. assert (ps <> []) as Hn by (subst; discriminate). clear Eps p0 ps0.
  set (m0 := mean_of fst ps) in *. set (m1 := mean_of snd ps) in *.
  apply Rle_trans with (wsse (map (fun p => (p, 1)) ps) (fun b => vadd (mv R' b) (vsub m0 (mv R' m1)))); [|now apply t_opt].
  assert (forall Rx, is_rot Rx -> wsse (map (fun p => (p, 1)) ps) (fun b => vadd (mv Rx b) (vsub m0 (mv Rx m1))) =
    self_sum (weighted ps None) m0 m1 - 2 * cross_sum (weighted ps None) m0 m1 Rx) as K.
  { intros Rx Hx. rewrite <- wsse_split by easy. apply wsse_ext. intro b. vring. }
  change (V3 _ _ _) with (vsub m0 (mul_Rv Rm m1)). change (mul_Rv Rm m1) with (mv Rm m1).
  rewrite !K by easy. specialize (O R' HR'). rewrite !acc_frob in O. lra.
Qed.
Print Assumptions C29_points_unweighted.

(** Degenerate data is never "solved": if all the first vectors, or all the second
    vectors, are multiples of one vector. *)
Lemma rank1_S1 : forall a b U d V, is_svd (M33 (vx a * vx b) (vx a * vy b) (vx a * vz b) (vy a * vx b) (vy a * vy b) (vy a * vz b) (vz a * vx b) (vz a * vy b) (vz a * vz b)) U d V -> vy d = 0.
Proof.
  intros a b U d V (OU & OV & E & D1 & D2 & D3).
  set (A := M33 _ _ _ _ _ _ _ _ _) in E.
  assert (mm (mm (mT U) A) V = diag3 d) as F.
  { rewrite E, !mm_assoc, (proj1 OV), mm_I_r, <- mm_assoc, (proj1 OU), mm_I_l. reflexivity. }
  set (p := mv (mT U) a). set (q := mv (mT V) b).
  assert (vx p * vx q = vx d /\ vx p * vy q = 0 /\ vy p * vy q = vy d) as (F0 & F1 & F2).
  { repeat split; [apply (f_equal m00) in F|apply (f_equal m01) in F|apply (f_equal m11) in F]; unfold p, q, A, diag3 in *; vunfold; rewrite <- F; ring. }
  destruct (Req_dec (vy d) 0) as [|N]; [easy|]. exfalso. assert (0 < vy d) by lra.
  assert (vx p <> 0) by (intro Z; rewrite Z in F0; lra). assert (vy q <> 0) by (intro Z; rewrite Z in F2; lra).
  apply Rmult_integral in F1. tauto.
Qed.
Theorem C29_degenerate : forall svd ps ws d,
  (forall A U d V, svd A = Some (U, d, V) -> is_svd A U d V) ->
  (forall p, In p ps -> exists k, fst p = vscale k d) \/ (forall p, In p ps -> exists k, snd p = vscale k d) ->
  forall Rm, align_vectors svd ps ws <> Solved Rm.
Proof.
  intros svd ps ws d Hs HD Rm H. unfold align_vectors, procrustes_core in H.
  destruct (svd (accumulate ps (V3 0 0 0) (V3 0 0 0) ws)) as [[[U s] V]|] eqn:E; [|discriminate]. apply Hs in E.
  assert (exists a b, accumulate ps (V3 0 0 0) (V3 0 0 0) ws = M33 (vx a * vx b) (vx a * vy b) (vx a * vz b) (vy a * vx b) (vy a * vy b) (vy a * vz b) (vz a * vx b) (vz a * vy b) (vz a * vz b)) as (a & b & EM).
  2:{ rewrite EM in E. apply rank1_S1 in E. destruct (Rlt_dec (vy s) _); [discriminate|lra]. }
  clear H E U s V.
  assert (forall l : list (v3 * v3 * R), (forall p, In p l -> In (fst p) ps) ->
     exists a b, fold_left (fun m pw => outer_add m (sub3 (fst (fst pw)) (V3 0 0 0)) (sub3 (snd (fst pw)) (V3 0 0 0)) (snd pw)) l zero33 =
       M33 (vx a * vx b) (vx a * vy b) (vx a * vz b) (vy a * vx b) (vy a * vy b) (vy a * vz b) (vz a * vx b) (vz a * vy b) (vz a * vz b)) as G.
  { intros l Hl. destruct HD as [HD|HD].
    - exists d. assert (forall acc b0, acc = M33 (vx d * vx b0) (vx d * vy b0) (vx d * vz b0) (vy d * vx b0) (vy d * vy b0) (vy d * vz b0) (vz d * vx b0) (vz d * vy b0) (vz d * vz b0) ->
        exists b, fold_left (fun m pw => outer_add m (sub3 (fst (fst pw)) (V3 0 0 0)) (sub3 (snd (fst pw)) (V3 0 0 0)) (snd pw)) l acc =
        M33 (vx d * vx b) (vx d * vy b) (vx d * vz b) (vy d * vx b) (vy d * vy b) (vy d * vz b) (vz d * vx b) (vz d * vy b) (vz d * vz b)) as K.
      { induction l as [|[[x y] w] l IH]; intros acc b0 ->; cbn [fold_left fst snd]; [now exists b0|].
        destruct (HD (x, y)) as (k & Ek); [apply (Hl (x, y, w)); now left|]. cbn in Ek. subst x.
        apply IH with (b0 := vadd b0 (vscale (k * w) y)).
        - intros p Hp. apply Hl. now right.
        - unfold outer_add, sub3. apply m33_eq; vunfold; ring. }
      apply (K zero33 v0). unfold zero33. apply m33_eq; vunfold; ring.
    - assert (forall acc a0, acc = M33 (vx a0 * vx d) (vx a0 * vy d) (vx a0 * vz d) (vy a0 * vx d) (vy a0 * vy d) (vy a0 * vz d) (vz a0 * vx d) (vz a0 * vy d) (vz a0 * vz d) ->
        exists a, fold_left (fun m pw => outer_add m (sub3 (fst (fst pw)) (V3 0 0 0)) (sub3 (snd (fst pw)) (V3 0 0 0)) (snd pw)) l acc =
        M33 (vx a * vx d) (vx a * vy d) (vx a * vz d) (vy a * vx d) (vy a * vy d) (vy a * vz d) (vz a * vx d) (vz a * vy d) (vz a * vz d)) as K.
      { induction l as [|[[x y] w] l IH]; intros acc b0 ->; cbn [fold_left fst snd]; [now exists b0|].
        destruct (HD (x, y)) as (k & Ek); [apply (Hl (x, y, w)); now left|]. cbn in Ek. subst y.
        apply IH with (a0 := vadd b0 (vscale (k * w) x)).
        - intros p Hp. apply Hl. now right.
        - unfold outer_add, sub3. apply m33_eq; vunfold; ring. }
      destruct (K zero33 v0) as (a & Ha); [unfold zero33; apply m33_eq; vunfold; ring|]. now exists a, d. }
  destruct ws as [w|]; unfold accumulate.
  - apply G. intros [p k] Hp. now apply in_combine_l in Hp.
  - assert (forall l acc, fold_left (fun m p => outer_add1 m (sub3 (fst p) (V3 0 0 0)) (sub3 (snd p) (V3 0 0 0))) l acc =
      fold_left (fun m pw => outer_add m (sub3 (fst (fst pw)) (V3 0 0 0)) (sub3 (snd (fst pw)) (V3 0 0 0)) (snd pw)) (map (fun p : v3 * v3 => (p, 1)) l) acc) as T.
    { induction l as [|[x y] l IH]; intro acc; cbn [fold_left map fst snd]; [easy|]. rewrite IH. f_equal. unfold outer_add, outer_add1. apply m33_eq; cbn; ring. }
    rewrite T. apply G. intros p Hp. apply in_map_iff in Hp as (q & <- & Hq). exact Hq.
Qed.
Print Assumptions C29_degenerate.

(** With weights the point alignment is not optimal: the means it subtracts are
    not weighted.  One point off by 1 with weight 5, three exact ones with weight 1. *)
Lemma m33_dec : forall a b : m33, {a = b} + {a <> b}.
Proof.
  intros [a0 a1 a2 a3 a4 a5 a6 a7 a8] [b0 b1 b2 b3 b4 b5 b6 b7 b8].
  destruct (Req_EM_T a0 b0), (Req_EM_T a1 b1), (Req_EM_T a2 b2); try (right; congruence).
  destruct (Req_EM_T a3 b3), (Req_EM_T a4 b4), (Req_EM_T a5 b5); try (right; congruence).
  destruct (Req_EM_T a6 b6), (Req_EM_T a7 b7), (Req_EM_T a8 b8); try (right; congruence). left; congruence.
Qed.
Definition svd_diag (dd : v3) (A : m33) : option (m33 * v3 * m33) := if m33_dec A (diag3 dd) then Some (I3, dd, I3) else None.
Lemma svd_diag_ok : forall dd, vz dd >= 0 -> vy dd >= vz dd -> vx dd >= vy dd ->
  forall A U d V, svd_diag dd A = Some (U, d, V) -> is_svd A U d V.
Proof.
  intros dd H1 H2 H3 A U d V H. unfold svd_diag in H. destruct (m33_dec A (diag3 dd)) as [->|]; [|discriminate]. injection H as <- <- <-.
  assert (orthogonal I3) as O by (split; vring). split; [exact O|]. split; [exact O|]. split; [unfold diag3; vring|]. auto.
Qed.
Definition ex_ps : list (v3 * v3) :=
  [(V3 2 0 0, V3 1 0 0); (V3 (-1) 0 0, V3 (-1) 0 0); (V3 0 1 0, V3 0 1 0); (V3 0 (-1) 0, V3 0 (-1) 0)].
Theorem C29_points_weighted_refuted : exists svd ps ws p,
  (forall A U d V, svd A = Some (U, d, V) -> is_svd A U d V) /\ (forall w, In w ws -> w > 0) /\
  align_points svd ps (Some ws) = Solved p /\
  exists R' t', is_rot R' /\
    wsse (weighted ps (Some ws)) (fun b => vadd (mv R' b) t') < wsse (weighted ps (Some ws)) (fun b => vadd (mv (Rt_R p) b) (Rt_t p)).
Proof.
  exists (svd_diag (V3 10 2 0)), ex_ps, [5; 1; 1; 1], (mkRt I3 (V3 (1 / 4) 0 0)).
  split; [apply svd_diag_ok; cbn; lra|]. split; [intros w Hw; cbn in Hw; decompose [or] Hw; subst; lra || tauto|].
  split.
  - unfold align_points. cbv zeta.
    replace (mean_of fst ex_ps) with (V3 (1 / 4) 0 0) by (unfold mean_of, ex_ps; cbn; apply v3_eq; cbn; field).
    replace (mean_of snd ex_ps) with (V3 0 0 0) by (unfold mean_of, ex_ps; cbn; apply v3_eq; cbn; field).
    unfold procrustes_core.
    replace (accumulate _ _ _ _) with (diag3 (V3 10 2 0)) by (unfold accumulate, ex_ps, diag3; cbn; apply m33_eq; cbn; field).
    unfold svd_diag. destruct (m33_dec _ _) as [_|N]; [|easy]. cbn [vy]. destruct (Rlt_dec 2 _); [lra|]. cbv zeta.
    rewrite det_R_det. replace (U_Vt I3 I3 1) with I3 by (unfold U_Vt; vring).
    destruct (Rlt_dec (det I3) 0) as [L|_]; [exfalso; vunfold; lra|]. f_equal. f_equal. apply v3_eq; cbn; ring.
  - exists I3, (V3 (5 / 8) 0 0). split; [apply is_rot_I|]. cbn [Rt_R Rt_t weighted ex_ps combine wsse]. vunfold. lra.
Qed.
Print Assumptions C29_points_weighted_refuted.

(** the hypotheses of the other theorems are met by this data: a solution is returned *)
Example ex_vectors : exists svd Rm,
  (forall A U d V, svd A = Some (U, d, V) -> is_svd A U d V) /\
  align_vectors svd [(V3 1 0 0, V3 1 0 0); (V3 0 2 0, V3 0 1 0)] (Some [3; 1]) = Solved Rm.
Proof.
  exists (svd_diag (V3 3 2 0)), I3. split; [apply svd_diag_ok; cbn; lra|]. unfold align_vectors, procrustes_core.
  replace (accumulate _ _ _ _) with (diag3 (V3 3 2 0)) by (unfold accumulate, diag3; cbn; apply m33_eq; cbn; ring).
  unfold svd_diag. destruct (m33_dec _ _) as [_|N]; [|easy]. cbn [vy]. destruct (Rlt_dec 2 _); [lra|]. cbv zeta.
  rewrite det_R_det. replace (U_Vt I3 I3 1) with I3 by (unfold U_Vt; vring).
  destruct (Rlt_dec (det I3) 0) as [L|_]; [exfalso; vunfold; lra|]. reflexivity.
Qed.
Example ex_points : exists svd p,
  (forall A U d V, svd A = Some (U, d, V) -> is_svd A U d V) /\
  align_points svd [(V3 1 0 0, V3 1 0 0); (V3 (-1) 0 0, V3 (-1) 0 0); (V3 0 1 0, V3 0 1 0); (V3 0 (-1) 0, V3 0 (-1) 0)] None = Solved p.
Proof.
  exists (svd_diag (V3 2 2 0)), (mkRt I3 (V3 0 0 0)). split; [apply svd_diag_ok; cbn; lra|]. unfold align_points. cbv zeta.
  match goal with |- context[mean_of fst ?l] => replace (mean_of fst l) with (V3 0 0 0) by (unfold mean_of; cbn; apply v3_eq; cbn; field);
    replace (mean_of snd l) with (V3 0 0 0) by (unfold mean_of; cbn; apply v3_eq; cbn; field) end.
  unfold procrustes_core.
  replace (accumulate _ _ _ _) with (diag3 (V3 2 2 0)) by (unfold accumulate, diag3; cbn; apply m33_eq; cbn; ring).
  unfold svd_diag. destruct (m33_dec _ _) as [_|N]; [|easy]. cbn [vy]. destruct (Rlt_dec 2 _); [lra|]. cbv zeta.
  rewrite det_R_det. replace (U_Vt I3 I3 1) with I3 by (unfold U_Vt; vring).
  destruct (Rlt_dec (det I3) 0) as [L|_]; [exfalso; vunfold; lra|]. f_equal. f_equal. apply v3_eq; cbn; ring.
Qed.
