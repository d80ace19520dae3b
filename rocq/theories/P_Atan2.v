(** Facts about the four-quadrant arctangent of [M_Project]. *)
From Coq Require Import Reals Lra Psatz.
From Coquelicot Require Import Coquelicot.
From Verif Require Import S_Vec M_Project.
Open Scope R_scope.

Lemma angle_unique : forall a b, - PI < a <= PI -> - PI < b <= PI -> cos a = cos b -> sin a = sin b -> a = b.
Proof.
  intros a b A B C S. assert (cos (a - b) = 1) as E.
  { rewrite cos_minus, C, S. pose proof (sin2_cos2 b). unfold Rsqr in *. lra. }
  set (d := (a - b) / 2) in *. replace (a - b) with (2 * d) in E by (unfold d; field).
  rewrite cos_2a_sin in E. assert (sin d = 0) as Z by nra.
  destruct (Rtotal_order d 0) as [L|[L|L]].
  - assert (0 < sin (- d)) by (apply sin_gt_0; unfold d in *; lra). rewrite sin_neg in *. lra.
  - unfold d in L. lra.
  - assert (0 < sin d) by (apply sin_gt_0; unfold d in *; lra). lra.
Qed.

Lemma sqrt_1p : forall t, 0 < sqrt (1 + t²).
Proof. intro t. apply sqrt_lt_R0. pose proof (Rle_0_sqr t). lra. Qed.
Lemma sqrt_scale : forall x y, x <> 0 -> sqrt (x * x + y * y) = Rabs x * sqrt (1 + (y / x)²).
Proof.
  intros x y X. rewrite <- (sqrt_Rsqr_abs x), <- sqrt_mult; [|apply Rle_0_sqr|pose proof (Rle_0_sqr (y / x)); lra].
  f_equal. unfold Rsqr. now field.
Qed.

(** atan2 is the angle of the vector (x,y) *)
Lemma atan2_spec : forall x y, x * x + y * y <> 0 ->
  let r := sqrt (x * x + y * y) in
  r * cos (atan2 y x) = x /\ r * sin (atan2 y x) = y /\ - PI < atan2 y x <= PI.
Proof.
  intros x y H r. pose proof PI_RGT_0 as P. unfold atan2.
  pose proof (atan_bound (y / x)) as [B1 B2]. pose proof (sqrt_1p (y / x)) as Q.
  destruct (Rlt_dec 0 x) as [X|X].
  - unfold r. rewrite sqrt_scale, Rabs_pos_eq by lra. rewrite sin_atan, cos_atan. split; [|split]; [field; lra|field; lra|lra].
  - destruct (Rlt_dec x 0) as [X'|X'].
    + unfold r. rewrite sqrt_scale, Rabs_left by lra. destruct (Rle_dec 0 y) as [Y|Y].
      * rewrite neg_cos, neg_sin, sin_atan, cos_atan. split; [field; lra|]. split; [field; lra|].
        assert (y / x <= 0) as L.
        { unfold Rdiv. pose proof (Rinv_lt_0_compat _ X'). nra. }
        assert (atan (y / x) <= 0). { destruct L as [L|L]; [|rewrite L, atan_0; lra]. pose proof (atan_increasing _ _ L). rewrite atan_0 in *. lra. }
        lra.
      * replace (atan (y / x) - PI) with (- (PI - atan (y / x))) by ring. rewrite cos_neg, sin_neg, Rtrigo_facts.cos_pi_minus, sin_PI_x, sin_atan, cos_atan.
        split; [field; lra|]. split; [field; lra|].
        assert (0 < y / x) as L. { unfold Rdiv. pose proof (Rinv_lt_0_compat _ X'). nra. }
        pose proof (atan_increasing _ _ L). rewrite atan_0 in *. lra.
    + assert (x = 0) by lra. subst x. unfold r. replace (0 * 0 + y * y) with (y²) by (unfold Rsqr; ring). rewrite sqrt_Rsqr_abs.
      destruct (Rlt_dec 0 y) as [Y|Y].
      * rewrite Rabs_pos_eq, cos_PI2, sin_PI2 by lra. lra.
      * destruct (Rlt_dec y 0) as [Y'|Y'].
        -- rewrite Rabs_left, cos_neg, sin_neg, cos_PI2, sin_PI2 by lra. lra.
        -- exfalso. apply H. nra.
Qed.
Lemma atan2_0 : atan2 0 0 = 0.
Proof. unfold atan2. repeat (destruct (Rlt_dec _ _); [exfalso; lra|]). reflexivity. Qed.
Lemma atan2_range : forall y x, - PI < atan2 y x <= PI.
Proof.
  intros y x. destruct (Req_dec (x * x + y * y) 0) as [E|E]; [|now apply atan2_spec].
  assert (x = 0 /\ y = 0) as [-> ->] by (split; nra). rewrite atan2_0. pose proof PI_RGT_0. lra.
Qed.
Lemma atan2_unique : forall x y r a, 0 < r -> - PI < a <= PI -> x = r * cos a -> y = r * sin a -> atan2 y x = a.
Proof.
  intros x y r a Hr A X Y. assert (x * x + y * y = r * r) as E.
  { rewrite X, Y. pose proof (sin2_cos2 a). unfold Rsqr in *. nra. }
  destruct (atan2_spec x y) as (C & S & B); [rewrite E; nra|]. rewrite E, sqrt_square in C, S by lra.
  apply angle_unique; auto; nra.
Qed.

(** away from the branch cut, atan2 is one of three smooth expressions *)
Lemma atan2_right : forall x y, 0 < x -> atan2 y x = atan (y / x).
Proof. intros. unfold atan2. destruct (Rlt_dec 0 x); [reflexivity|lra]. Qed.
Lemma atan2_upper : forall x y, 0 < y -> atan2 y x = PI / 2 - atan (x / y).
Proof.
  intros x y Y. pose proof (sqrt_1p (x / y)) as Q. pose proof (atan_bound (x / y)) as B.
  apply atan2_unique with (y * sqrt (1 + (x / y)²)); [nra|lra| |].
  - rewrite cos_shift, sin_atan. field; lra.
  - rewrite sin_shift, cos_atan. field; lra.
Qed.
Lemma atan2_lower : forall x y, y < 0 -> atan2 y x = - (PI / 2) - atan (x / y).
Proof.
  intros x y Y. pose proof (sqrt_1p (x / y)) as Q. pose proof (atan_bound (x / y)) as B.
  replace (- (PI / 2) - atan (x / y)) with (- (PI / 2 - - atan (x / y))) by ring. rewrite <- atan_opp.
  apply atan2_unique with (- y * sqrt (1 + (x / y)²)); [nra|rewrite atan_opp; lra| |].
  - rewrite cos_neg, cos_shift, atan_opp, sin_neg, sin_atan. field; lra.
  - rewrite sin_neg, sin_shift, atan_opp, cos_neg, cos_atan. field; lra.
Qed.

Lemma is_derive_atan' : forall x, is_derive atan x (/ (1 + x * x)).
Proof. intro x. apply is_derive_Reals. replace (x * x) with (x ^ 2) by ring. apply derivable_pt_lim_atan. Qed.
Lemma derive_atan_ratio : forall (f g : R -> R) t f' g', is_derive f t f' -> is_derive g t g' -> g t <> 0 ->
  is_derive (fun s => atan (f s / g s)) t ((g t * f' - f t * g') / (f t * f t + g t * g t)).
Proof.
  intros f g t f' g' F G Z.
  evar_last.
  - apply (is_derive_comp atan (fun s => f s / g s)); [apply is_derive_atan'|apply is_derive_div; eassumption].
  - unfold scal; simpl; unfold mult; simpl. field. repeat split; auto; intro; apply Z; nra.
Qed.
Lemma derive_locally_pos : forall (f : R -> R) t f', is_derive f t f' -> 0 < f t -> locally t (fun s => 0 < f s).
Proof.
  intros f t f' D P. assert (continuous f t) as C by (apply (ex_derive_continuous (V := R_NormedModule)); now exists f').
  apply (C (fun y => 0 < y)). exists (mkposreal _ P). intros y B. unfold ball in B; simpl in B; unfold AbsRing_ball, abs, minus, plus, opp in B; simpl in B.
  apply Rabs_def2 in B. lra.
Qed.
Lemma derive_locally_neg : forall (f : R -> R) t f', is_derive f t f' -> f t < 0 -> locally t (fun s => f s < 0).
Proof.
  intros f t f' D P. assert (locally t (fun s => 0 < - f s)) as L.
  { eapply (derive_locally_pos (fun s => - f s)); [apply (is_derive_opp f); eassumption|lra]. }
  eapply filter_imp; [|exact L]. cbv beta. intros. lra.
Qed.
Lemma derive_atan2 : forall (f g : R -> R) t f' g', is_derive f t f' -> is_derive g t g' -> 0 < g t \/ f t <> 0 ->
  is_derive (fun s => atan2 (f s) (g s)) t ((g t * f' - f t * g') / (f t * f t + g t * g t)).
Proof.
  intros f g t f' g' F G C. destruct (Rlt_dec 0 (g t)) as [X|X].
  - apply is_derive_ext_loc with (fun s => atan (f s / g s)).
    + eapply filter_imp; [|exact (derive_locally_pos g t g' G X)]. intros s Hs. symmetry. now apply atan2_right.
    + apply derive_atan_ratio; auto. lra.
  - assert (f t <> 0) as Y by (destruct C; [lra|auto]).
    assert (is_derive (fun s => atan (g s / f s)) t ((f t * g' - g t * f') / (g t * g t + f t * f t))) as D by now apply derive_atan_ratio.
    destruct (Rtotal_order (f t) 0) as [L|[L|L]]; [|lra|].
    + apply is_derive_ext_loc with (fun s => - (PI / 2) - atan (g s / f s)).
      * eapply filter_imp; [|exact (derive_locally_neg f t f' F L)]. intros s Hs. symmetry. now apply atan2_lower.
      * evar_last; [apply (is_derive_minus (fun _ => - (PI / 2))); [apply is_derive_const|exact D]|]. unfold minus, plus, opp, zero; simpl. field. nra.
    + apply is_derive_ext_loc with (fun s => PI / 2 - atan (g s / f s)).
      * eapply filter_imp; [|exact (derive_locally_pos f t f' F L)]. intros s Hs. symmetry. now apply atan2_upper.
      * evar_last; [apply (is_derive_minus (fun _ => PI / 2)); [apply is_derive_const|exact D]|]. unfold minus, plus, opp, zero; simpl. field. nra.
Qed.
Lemma is_derive_asin : forall x, -1 < x < 1 -> is_derive asin x (/ sqrt (1 - x * x)).
Proof.
  intros x H. apply is_derive_Reals. replace (/ sqrt (1 - x * x)) with (derive_pt asin x (derivable_pt_asin x H)).
  - apply derive_pt_eq_1 with (derivable_pt_asin x H). reflexivity.
  - rewrite derive_pt_asin. unfold Rsqr. field. apply Rgt_not_eq, sqrt_lt_R0. nra.
Qed.
