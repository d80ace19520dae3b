(** C36: the residual of triangulated points; its blending function. *)
From Coq Require Import Reals Lra Psatz Bool.
From Coquelicot Require Import Coquelicot.
From Verif Require Import S_Vec P_Trig M_Dual P_Dual M_Triangulate P_Triangulate P_TriGrad C_Triangulate.
Open Scope R_scope.

Notation sg x knee := (sigmoid realops x knee).
Definition sg' (x knee : R) : R := 4 / (knee * knee) * (pos x - 2 * pos (x - knee / 2) + pos (x - knee)).
Ltac eqR := match goal with |- ?a = ?b => change (@eq R a b) end.
Ltac posd := unfold pos, Rmax; repeat match goal with |- context [Rle_dec ?a ?b] => destruct (Rle_dec a b) end.
Lemma sigmoid_pos : forall x knee, 0 < knee -> sg x knee = 2 / (knee * knee) * (pos x * pos x - 2 * (pos (x - knee / 2) * pos (x - knee / 2)) + pos (x - knee) * pos (x - knee)).
Proof.
  intros x k K. unfold sigmoid, Rleb, Rltb. cbn [nval nconst naddc nsubc nmul nmulc realops]. eqR.
  destruct (Rle_dec x 0); [posd; try lra; try (assert (x = 0) by lra; subst); field; lra|]. destruct (Rle_dec k x); [posd; try lra; try (assert (x = k) by lra; subst); field; lra|].
  destruct (Rlt_dec x (k / 2)); posd; try lra; try (replace x with (k / 2) by lra); field; lra.
Qed.
Lemma sigmoid_derive : forall x knee, 0 < knee -> is_derive (fun x => sg x knee) x (sg' x knee).
Proof.
  intros x k K. apply (is_derive_ext (fun x => 2 / (k * k) * (pos x * pos x - 2 * (pos (x - k / 2) * pos (x - k / 2)) + pos (x - k) * pos (x - k)))); [intro y; symmetry; now apply sigmoid_pos|].
  pose proof (pos_sq_derive x) as A.
  assert (forall c, is_derive (fun x => pos (x - c) * pos (x - c)) x (2 * pos (x - c))) as B.
  { intro c. evar_last; [apply (is_derive_comp (fun x => pos x * pos x) (fun x => x - c)); [apply pos_sq_derive|auto_derive; [auto|reflexivity]]|]. unfold scal; simpl; unfold mult; simpl. ring. }
  pose proof (B (k / 2)) as B1. pose proof (B k) as B2. clear B. set (f := fun x => pos x * pos x) in *. set (g := fun x => pos (x - k / 2) * pos (x - k / 2)) in *. set (h := fun x => pos (x - k) * pos (x - k)) in *.
  change (is_derive f x (2 * pos x)) in A. change (is_derive g x (2 * pos (x - k / 2))) in B1. change (is_derive h x (2 * pos (x - k))) in B2.
  change (is_derive (fun x => 2 / (k * k) * (f x - 2 * g x + h x)) x (sg' x k)).
  assert (forall f d, is_derive f x d -> ex_derive f x /\ Derive (fun x : R => f x) x = d) as dv by (intros; split; [eexists; eassumption|now apply is_derive_unique]).
  clearbody f g h. destruct (dv _ _ A) as [EA DA], (dv _ _ B1) as [EB DB], (dv _ _ B2) as [EC DC]. auto_derive; [auto|]. rewrite DA, DB, DC. unfold sg'. field. lra.
Qed.
Lemma sg'_continuous : forall knee x, continuous (fun x => sg' x knee) x.
Proof.
  intros k x. unfold sg'. assert (forall c, continuous (fun x => pos (x - c)) x) as P.
  { intro c. apply (continuous_comp (fun x => x - c) pos); [|apply pos_continuous]. apply (continuous_minus (fun x => x) (fun _ => c)); [apply continuous_id|apply continuous_const]. }
  apply (continuous_mult (fun _ => 4 / (k * k)) (fun x => pos x - 2 * pos (x - k / 2) + pos (x - k))); [apply continuous_const|].
  apply (continuous_plus (fun x => pos x - 2 * pos (x - k / 2)) (fun x => pos (x - k))); [|apply P].
  apply (continuous_minus pos (fun x => 2 * pos (x - k / 2))); [apply pos_continuous|]. apply (continuous_mult (fun _ => 2) (fun x => pos (x - k / 2))); [apply continuous_const|apply P].
Qed.
Lemma sg'_nonneg : forall x knee, 0 < knee -> 0 <= sg' x knee.
Proof. intros x k K. unfold sg'. apply Rmult_le_pos; [apply Rmult_le_pos; [lra|left; apply Rinv_0_lt_compat; nra]|]. posd; lra. Qed.

(** C36. The blending function is 0 below, 1 above the knee, nondecreasing, and
    continuously differentiable everywhere. *)
Theorem C36_sigmoid : forall knee, 0 < knee ->
  (forall x, x <= 0 -> sg x knee = 0) /\ (forall x, knee <= x -> sg x knee = 1) /\ sg (knee / 2) knee = 1 / 2 /\
  (forall x y, x <= y -> sg x knee <= sg y knee) /\ (forall x, 0 <= sg x knee <= 1) /\
  exists d : R -> R, (forall x, is_derive (fun x => sg x knee) x (d x)) /\ forall x, continuous d x.
Proof.
  intros k K. assert (forall x, x <= 0 -> sg x k = 0) as Z. { intros x X. unfold sigmoid, Rleb. cbn [nval nconst realops]. destruct (Rle_dec x 0); [reflexivity|lra]. }
  assert (forall x, k <= x -> sg x k = 1) as O. { intros x X. unfold sigmoid, Rleb. cbn [nval nconst realops]. destruct (Rle_dec x 0); [lra|]. destruct (Rle_dec k x); [reflexivity|lra]. }
  assert (forall x y, x <= y -> sg x k <= sg y k) as M.
  { intros x y [L|<-]; [|lra]. destruct (MVT_gen (fun x => sg x k) x y (fun x => sg' x k)) as (c & _ & E).
    - intros z _. now apply sigmoid_derive.
    - intros z _. apply continuity_pt_filterlim. apply (ex_derive_continuous (K := R_AbsRing) (V := R_NormedModule) (fun x => sg x k)). exists (sg' z k). exact (sigmoid_derive z k K).
    - pose proof (sg'_nonneg c k K). assert (0 <= sg' c k * (y - x)) by (apply Rmult_le_pos; lra). lra. }
  split; [exact Z|]. split; [exact O|]. split; [rewrite sigmoid_pos by exact K; eqR; posd; try lra; field; lra|]. split; [exact M|]. split.
  - intro x. split.
    + destruct (Rle_lt_dec x 0) as [L|L]; [rewrite Z; lra|]. rewrite <- (Z 0) by lra. apply M. lra.
    + destruct (Rle_lt_dec k x) as [L|L]; [rewrite O; lra|]. rewrite <- (O k) by lra. apply M. lra.
  - exists (fun x => sg' x k). split; [intro; now apply sigmoid_derive|apply sg'_continuous].
Qed.
Print Assumptions C36_sigmoid.
(** with a knee of 0 it is the step function documented *)
Theorem C36_sigmoid_step : forall x knee, knee <= 0 -> sg x knee = if Rle_dec x 0 then 0 else 1.
Proof. intros x k K. unfold sigmoid, Rleb. cbn [nval nconst realops]. destruct (Rle_dec x 0); [reflexivity|]. destruct (Rle_dec k x); [reflexivity|lra]. Qed.
Print Assumptions C36_sigmoid_step.
(** its gradient, as computed, is that derivative, also at the knees *)
Lemma sigmoid_rel : forall I p F a knee, 0 < knee -> rel I p F a -> rel I p (fun q => sigmoid realops (F q) knee) (sigmoid dualops a knee).
Proof.
  intros I p F a k K H. pose proof (rel_val _ _ _ _ H) as V. cbn [nval dualops] in V.
  pose proof (carries_comp1 I p F a (fun x => sg x k) (sg' (F p) k) H (sigmoid_derive (F p) k K)) as C. rewrite V in C.
  assert (forall d, dx d = sg (F p) k -> (forall i, dj d i = sg' (F p) k * dj a i) -> rel I p (fun q => sg (F q) k) d) as Fin.
  { intros [x j] Hx Hj. cbn in Hx, Hj. eapply carries_dual_eq; [exact C|exact Hx|]. intros i _. apply Hj. }
  apply Fin.
  - unfold sigmoid. cbn [nval dualops nconst naddc nsubc nmul nmulc realops]. rewrite V. destruct (Rleb _ _); [reflexivity|]. destruct (Rleb _ _); [reflexivity|].
    destruct (Rltb _ _); cbn; rewrite V; reflexivity.
  - intro i. unfold sigmoid. cbn [nval dualops nconst naddc nsubc nmul nmulc]. rewrite V. unfold Rleb, Rltb. destruct (ex_intro (fun x : R => F p = x) (F p) eq_refl) as [x Ex]. rewrite Ex in V |- *. unfold sg'. clear Fin C H. eqR. assert (M_Dual.dx a = x) as V' by exact V.
    destruct (Rle_dec x 0); [cbn; posd; try lra; try (replace x with 0 by lra); field; lra|]. destruct (Rle_dec k x); [cbn; posd; try lra; try (replace x with k by lra); field; lra|].
    destruct (Rlt_dec x (k / 2)); cbn; rewrite V'; posd; try lra; try (replace x with (k / 2) by lra); field; lra.
Qed.
Theorem C36_relu : forall knee, 0 < knee -> (forall x, x <= 0 -> relu x knee = 0) /\ (forall x, knee <= x -> relu x knee = x - knee / 2) /\
  exists d : R -> R, (forall x, is_derive (fun x => relu x knee) x (d x)) /\ (forall x, continuous d x) /\ forall x, 0 <= d x <= 1.
Proof.
  intros k K. split; [intros x X; unfold relu; destruct (Rle_dec x 0); [reflexivity|lra]|]. split; [intros x X; unfold relu; destruct (Rle_dec x 0); [lra|]; destruct (Rle_dec k x); [reflexivity|lra]|].
  exists (fun x => / k * (pos x - pos (x - k))). split; [|split].
  - intro x. apply (is_derive_ext (fun x => / (2 * k) * (pos x * pos x - pos (x - k) * pos (x - k)))).
    { intro y. unfold relu. match goal with |- ?a = ?b => change (@eq R a b) end. destruct (Rle_dec y 0); [posd; try lra; try (assert (y = 0) by lra; subst); field; lra|]. destruct (Rle_dec k y); posd; try lra; field; lra. }
    pose proof (pos_sq_derive x) as A. assert (is_derive (fun x => pos (x - k) * pos (x - k)) x (2 * pos (x - k))) as B.
    { evar_last; [apply (is_derive_comp (fun x => pos x * pos x) (fun x => x - k)); [apply pos_sq_derive|auto_derive; [auto|reflexivity]]|]. unfold scal; simpl; unfold mult; simpl. ring. }
    set (f := fun x => pos x * pos x) in *. set (g := fun x => pos (x - k) * pos (x - k)) in *. change (is_derive f x (2 * pos x)) in A. change (is_derive g x (2 * pos (x - k))) in B. change (is_derive (fun x => / (2 * k) * (f x - g x)) x (/ k * (pos x - pos (x - k)))).
    assert (forall f d, is_derive f x d -> ex_derive f x /\ Derive (fun x : R => f x) x = d) as dv by (intros; split; [eexists; eassumption|now apply is_derive_unique]).
    clearbody f g. destruct (dv _ _ A) as [EA DA], (dv _ _ B) as [EB DB]. auto_derive; [auto|]. rewrite DA, DB. field. lra.
  - intro x. apply (continuous_mult (fun _ => / k) (fun x => pos x - pos (x - k))); [apply continuous_const|]. apply (continuous_minus pos (fun x => pos (x - k))); [apply pos_continuous|].
    apply (continuous_comp (fun x => x - k) pos); [|apply pos_continuous]. apply (continuous_minus (fun x => x) (fun _ => k)); [apply continuous_id|apply continuous_const].
  - intro x. assert (0 <= pos x - pos (x - k) <= k) as [L U] by (posd; lra). split; [apply Rmult_le_pos; [left; now apply Rinv_0_lt_compat|exact L]|].
    apply (Rmult_le_reg_l k); [exact K|]. rewrite <- Rmult_assoc, Rinv_r, Rmult_1_l by lra. lra.
Qed.
Print Assumptions C36_relu.

(** ** The residual *)
Definition tri_err (a b t : v3) : R := triangulated_error realops (rv a) (rv b) (rv t).
Definition penalty (a b t : v3) : R :=
  let l0 := mid2_l0 realops (rv a) (rv b) (rv t) in let l1 := mid2_l1 realops (rv a) (rv b) (rv t) in
  let nominal := norm2 (vsub (vadd t (vscale l1 b)) (vscale l0 a)) in
  sg (nominal - norm2 (vadd (vadd t (vscale l1 b)) (vscale l0 a))) 3 + sg (nominal - norm2 (vsub (vsub t (vscale l1 b)) (vscale l0 a))) 3 +
  sg (nominal - norm2 (vadd (vsub t (vscale l1 b)) (vscale l0 a))) 3.
(** The residual is one formula for convergent and divergent rays: the test
    whether the rays converge decides nothing. *)
Theorem C36_no_switch : forall a b t,
  tri_err a b t = angle_error realops (rv a) (mid2_point realops (rv a) (rv b) (rv t)) * 2 + angle_error realops (rv a) (rv b) * penalty a b t.
Proof.
  intros a b t. unfold tri_err, triangulated_error, penalty. cbn [nadd nmul nmulc realops]. set (l0 := mid2_l0 _ _ _ _). set (l1 := mid2_l1 _ _ _ _).
  unfold nneg. cbn [nmulc realops]. destruct (worsening_real l0 a l1 b t) as (W0 & W1 & W01).
  assert (forall x y, (x - y) * -1 = y - x) as S by (intros; ring).
  destruct (chirality _ _ _ _ _ _) eqn:C.
  - unfold chirality in C. cbn [nval realops] in C. rewrite W0, W1, W01 in C. rewrite !andb_true_iff, !Rltb_iff in C. destruct C as ((C0 & C1) & C2).
    destruct (C36_sigmoid 3 ltac:(lra)) as (Z & _). rewrite !Z by lra. ring.
  - rewrite W0, W1, W01, !S. ring.
Qed.
Print Assumptions C36_no_switch.
(** With exact observations (rays meeting in front of both cameras) it is 0. *)
Lemma angle_error_val : forall a b, a <> v0 -> b <> v0 -> angle_error realops (rv a) (rv b) =
  if Rlt_dec (2 - 2 * (Rabs (dot a b) / (norm a * norm b))) (1 / 1000000000000000000000) then 0 else sqrt (2 - 2 * (Rabs (dot a b) / (norm a * norm b))).
Proof.
  intros a b A B. pose proof (norm_pos _ A) as PA. pose proof (norm_pos _ B) as PB. unfold angle_error. rvs. cbn [nsqrt nmul ndiv nval naddc nmulc nconst realops].
  rewrite sqrt_mult by apply norm2_nonneg. fold (norm a) (norm b). assert (0 < / (norm a * norm b)) as PI by (apply Rinv_0_lt_compat; now apply Rmult_lt_0_compat).
  change (num realops) with R.
  assert ((if Rltb (dot a b / (norm a * norm b)) 0 then dot a b / (norm a * norm b) * -1 else dot a b / (norm a * norm b)) = Rabs (dot a b) / (norm a * norm b)) as ->.
  { unfold Rltb. destruct (Rlt_dec _ 0) as [L|L].
    - rewrite Rabs_left; [unfold Rdiv; ring|]. unfold Rdiv in L. nra.
    - rewrite Rabs_right; [reflexivity|]. unfold Rdiv in L. nra. }
  replace (Rabs (dot a b) / (norm a * norm b) * -2 + 2) with (2 - 2 * (Rabs (dot a b) / (norm a * norm b))) by ring. unfold Rltb. destruct (Rlt_dec _ _); reflexivity.
Qed.
Theorem C36_zero_on_exact : forall a b t P k0 k1, meet_at a b t P k0 k1 -> cross a b <> v0 -> tri_err a b t = 0.
Proof.
  intros a b t P k0 k1 M N. unfold tri_err, triangulated_error. destruct (meet_t _ _ _ _ _ _ M) as [T E]. pose proof (C33_mid2 _ _ _ _ _ _ M N) as Mid. pose proof (norm2_pos _ N) as Pos.
  destruct M as (K0 & K1 & HP & _). destruct (cross_nz _ _ N) as [NA NB].
  assert (mid2_l0 realops (rv a) (rv b) (rv t) = k0) as L0.
  { unfold mid2_l0, cross_norm2. rvs. cbn [nsqrt nmul ndiv nconst realops]. replace (norm2 (cross b t)) with (k0 * k0 * norm2 (cross a b)) by (rewrite T; vunfold; ring).
    replace (k0 * k0 * norm2 (cross a b) * (1 / norm2 (cross a b))) with (k0 * k0) by (field; lra). apply sqrt_square; lra. }
  assert (mid2_l1 realops (rv a) (rv b) (rv t) = k1) as L1.
  { unfold mid2_l1, cross_norm2. rvs. cbn [nsqrt nmul ndiv nconst realops]. replace (norm2 (cross a t)) with (k1 * k1 * norm2 (cross a b)) by (rewrite T; vunfold; ring).
    replace (k1 * k1 * norm2 (cross a b) * (1 / norm2 (cross a b))) with (k1 * k1) by (field; lra). apply sqrt_square; lra. }
  rewrite L0, L1, chirality_exact by assumption. unfold mid2, tri_mid2 in Mid. rewrite L0, L1, chirality_exact in Mid by assumption. cbn [point_of] in Mid.
  assert (mid2_point realops (rv a) (rv b) (rv t) = rv P) as ->. { rewrite <- Mid. unfold rv, nvval. cbn [vx vy vz nval realops]. destruct (mid2_point _ _ _ _); reflexivity. }
  cbn [nmulc realops]. assert (P <> v0) as NP. { subst P. intro Z. apply NA. replace a with (vscale (/ k0) (vscale k0 a)) by (vsplit; vunfold; field; lra). rewrite Z. vring. }
  rewrite angle_error_val by assumption. pose proof (norm_pos _ NA) as PA.
  assert (Rabs (dot a P) / (norm a * norm P) = 1) as ->.
  { subst P. rewrite norm_vscale. replace (dot a (vscale k0 a)) with (k0 * (norm a * norm a)) by (rewrite norm_sq; vunfold; ring).
    rewrite (Rabs_right k0) by lra. rewrite Rabs_right by nra. field. lra. }
  destruct (Rlt_dec _ _); [ring|lra].
Qed.
Print Assumptions C36_zero_on_exact.
(** it is never negative *)
Theorem C36_nonneg : forall a b t, 0 <= tri_err a b t.
Proof.
  intros a b t. rewrite C36_no_switch.
  assert (forall x y, 0 <= angle_error realops x y) as A.
  { intros x y. unfold angle_error. match goal with |- context [if Rltb ?u ?v then nconst _ _ else _] => destruct (Rltb u v) end; cbn [nconst nsqrt realops]; [lra|apply sqrt_pos]. }
  destruct (C36_sigmoid 3 ltac:(lra)) as (_ & _ & _ & _ & B & _). apply Rplus_le_le_0_compat.
  - pose proof (A (rv a) (mid2_point realops (rv a) (rv b) (rv t))). lra.
  - apply Rmult_le_pos; [apply A|]. unfold penalty. repeat apply Rplus_le_le_0_compat; apply B.
Qed.
Print Assumptions C36_nonneg.
Example ex_tri_error : sg (3 / 4) 3 = 1 / 8 /\ sg (9 / 4) 3 = 7 / 8 /\ relu 1 2 = 1 / 4 /\ tri_err (V3 1 0 2) (V3 (-1) 0 2) (V3 2 0 0) = 0.
Proof.
  split; [rewrite sigmoid_pos by lra; posd; lra|]. split; [rewrite sigmoid_pos by lra; posd; lra|]. split; [unfold relu; destruct (Rle_dec _ _); [lra|]; destruct (Rle_dec _ _); lra|].
  destruct ex_meet as (M & N & _). exact (C36_zero_on_exact _ _ _ _ _ _ M N).
Qed.
