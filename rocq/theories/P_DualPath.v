(** Dual numbers along a path: a value computed with dual numbers carries the rate of change of the plainly computed
    value along every differentiable motion of all the variables at once. *)
From Coq Require Import Reals Lra Psatz Arith Lia.
From Coquelicot Require Import Coquelicot.
From Verif Require Import S_Vec S_LensGrad M_Dual P_Dual.
Open Scope R_scope.

Section Path.
Variable N : nat.        (* number of gradient variables *)
Variable t : R.          (* the path parameter *)
Variable dI : nat -> R.  (* the velocity of each variable *)

Definition rate (d : dual) : R := tot N (fun i => dj d i * dI i).
Lemma tot_lin : forall n (f g h : nat -> R) a b, (forall i, (i < n)%nat -> f i = a * g i + b * h i) -> tot n f = a * tot n g + b * tot n h.
Proof.
  intros n f g h a b. induction n as [|n IH]; intro H; cbn [tot]; [ring|]. rewrite IH by (intros; apply H; lia). rewrite (H n) by lia. ring.
Qed.
Lemma rate_lin : forall d a b u v, (forall i, dj d i = u * dj a i + v * dj b i) -> rate d = u * rate a + v * rate b.
Proof. intros d a b u v H. unfold rate. apply tot_lin. intros i _. rewrite H. ring. Qed.
Lemma rate_lin1 : forall d a u, (forall i, dj d i = u * dj a i) -> rate d = u * rate a.
Proof. intros d a u H. rewrite (rate_lin d a a u 0); [ring|]. intro i. rewrite H. ring. Qed.

Definition prel (F : R -> R) (d : dual) : Prop := dx d = F t /\ is_derive F t (rate d).

Lemma prel_const : forall c, prel (fun _ => c) (d_const c).
Proof.
  intro c. split; [reflexivity|]. replace (rate (d_const c)) with 0; [apply @is_derive_const|].
  unfold rate. cbn [d_const dj]. induction N; cbn [tot]; [reflexivity|]. rewrite <- IHn. ring.
Qed.
Lemma tot_delta : forall n k (f : nat -> R), (k < n)%nat -> tot n (fun i => (if Nat.eqb i k then 1 else 0) * f i) = f k.
Proof.
  assert (forall n k (f : nat -> R), (n <= k)%nat -> tot n (fun i => (if Nat.eqb i k then 1 else 0) * f i) = 0) as Z.
  { induction n as [|n IH]; intros k f H; cbn [tot]; [reflexivity|]. rewrite IH by lia. destruct (Nat.eqb_spec n k); [lia|ring]. }
  induction n as [|n IH]; intros k f H; [lia|]. cbn [tot]. destruct (Nat.eqb_spec n k) as [->|Ne].
  - rewrite Z by lia. ring.
  - rewrite IH by lia. ring.
Qed.
Lemma prel_var : forall F k x, (k < N)%nat -> x = F t -> is_derive F t (dI k) -> prel F (d_var x k).
Proof. intros F k x H E D. split; [exact E|]. unfold rate. cbn [d_var dj]. now rewrite tot_delta. Qed.

Lemma is_derive_rw : forall (F : R -> R) x a b, is_derive F x a -> a = b -> is_derive F x b.
Proof. now intros F x a b H <-. Qed.

Lemma prel_ext : forall F G d, (forall s, F s = G s) -> prel F d -> prel G d.
Proof. intros F G d E [V D]. split; [now rewrite <- E|]. now apply is_derive_ext with F. Qed.
Lemma prel_loc : forall F G d, locally t (fun s => F s = G s) -> prel F d -> prel G d.
Proof. intros F G d L [V D]. split; [rewrite V; exact (locally_singleton _ _ L)|]. now apply is_derive_ext_loc with F. Qed.

Lemma prel_add : forall F G a b, prel F a -> prel G b -> prel (fun s => F s + G s) (d_add a b).
Proof.
  intros F G a b [V D] [W E]. split; [cbn; now rewrite V, W|]. eapply is_derive_rw; [apply (is_derive_plus F G); eauto|].
  rewrite (rate_lin (d_add a b) a b 1 1) by (intro; cbn; ring). unfold plus. cbn. ring.
Qed.
Lemma prel_sub : forall F G a b, prel F a -> prel G b -> prel (fun s => F s - G s) (d_sub a b).
Proof.
  intros F G a b [V D] [W E]. split; [cbn; now rewrite V, W|]. eapply is_derive_rw; [apply (is_derive_minus F G); eauto|].
  rewrite (rate_lin (d_sub a b) a b 1 (-1)) by (intro; cbn; ring). unfold minus, plus, opp. cbn. ring.
Qed.
Lemma prel_mul : forall F G a b, prel F a -> prel G b -> prel (fun s => F s * G s) (d_mul a b).
Proof.
  intros F G a b [V D] [W E]. split; [cbn; now rewrite V, W|]. eapply is_derive_rw; [apply (is_derive_mult F G); eauto; intros; apply Rmult_comm|].
  rewrite (rate_lin (d_mul a b) a b (G t) (F t)) by (intro; cbn; rewrite V, W; ring). unfold plus, mult. cbn. ring.
Qed.
Lemma prel_div : forall F G a b, prel F a -> prel G b -> G t <> 0 -> prel (fun s => F s / G s) (d_div a b).
Proof.
  intros F G a b [V D] [W E] H. split; [cbn; now rewrite V, W|]. eapply is_derive_rw; [apply (is_derive_div F G); eauto|].
  rewrite (rate_lin (d_div a b) a b (/ G t) (- F t / (G t * G t))) by (intro; cbn; rewrite V, W; field; auto).
  change ((rate a * G t - F t * rate b) / G t ^ 2 = / G t * rate a + - F t / (G t * G t) * rate b). field. auto.
Qed.
Lemma prel_addc : forall F a c, prel F a -> prel (fun s => F s + c) (d_addc a c).
Proof.
  intros F a c [V D]. split; [cbn; now rewrite V|]. eapply is_derive_rw; [apply (is_derive_plus F (fun _ => c)); [eauto|apply @is_derive_const]|].
  rewrite (rate_lin1 (d_addc a c) a 1) by (intro; cbn; ring). unfold plus, zero. cbn. ring.
Qed.
Lemma prel_subc : forall F a c, prel F a -> prel (fun s => F s - c) (d_subc a c).
Proof.
  intros F a c [V D]. split; [cbn; now rewrite V|]. eapply is_derive_rw; [apply (is_derive_minus F (fun _ => c)); [eauto|apply @is_derive_const]|].
  rewrite (rate_lin1 (d_subc a c) a 1) by (intro; cbn; ring). unfold minus, plus, opp, zero. cbn. ring.
Qed.
Lemma prel_comp1 : forall F a (f : R -> R) df d, prel F a -> is_derive f (F t) df -> dx d = f (F t) -> (forall i, dj d i = df * dj a i) ->
  prel (fun s => f (F s)) d.
Proof.
  intros F a f df d [V D] H E J. split; [exact E|]. rewrite (rate_lin1 d a df J).
  replace (df * rate a) with (scal (rate a) df) by (unfold scal; cbn; unfold mult; cbn; ring). now apply (is_derive_comp f F).
Qed.
Lemma prel_mulc : forall F a c, prel F a -> prel (fun s => F s * c) (d_mulc a c).
Proof.
  intros F a c [V D]. split; [cbn; now rewrite V|].
  eapply is_derive_rw; [apply (is_derive_mult F (fun _ => c)); [eauto|apply @is_derive_const|intros; apply Rmult_comm]|].
  rewrite (rate_lin1 (d_mulc a c) a c) by (intro; cbn; ring). unfold plus, mult, zero. cbn. ring.
Qed.
Lemma prel_sqrt : forall F a, prel F a -> 0 < F t -> prel (fun s => sqrt (F s)) (d_sqrt a).
Proof.
  intros F a H P. pose proof H as [V D]. pose proof (sqrt_lt_R0 _ P) as Q.
  apply (prel_comp1 F a sqrt (/ (2 * sqrt (F t)))); auto.
  - apply is_derive_Reals. now apply derivable_pt_lim_sqrt.
  - cbn. now rewrite V.
  - intro i. cbn. rewrite V. field. lra.
Qed.
Lemma prel_sin : forall F a, prel F a -> prel (fun s => sin (F s)) (d_sin a).
Proof. intros F a H. pose proof H as [V D]. apply (prel_comp1 F a sin (cos (F t))); auto; [apply is_derive_sin|cbn; now rewrite V|intro; cbn; now rewrite V]. Qed.
Lemma prel_cos : forall F a, prel F a -> prel (fun s => cos (F s)) (d_cos a).
Proof. intros F a H. pose proof H as [V D]. apply (prel_comp1 F a cos (- sin (F t))); auto; [apply is_derive_cos|cbn; now rewrite V|intro; cbn; now rewrite V]. Qed.
Lemma prel_tan : forall F a, prel F a -> cos (F t) <> 0 -> prel (fun s => sin (F s) / cos (F s)) (d_tan a).
Proof.
  intros F a H C. pose proof (prel_div _ _ _ _ (prel_sin F a H) (prel_cos F a H) C) as [V D]. destruct H as [W _]. split; [exact V|].
  eapply is_derive_rw; [exact D|].
  rewrite (rate_lin1 (d_div (d_sin a) (d_cos a)) (d_tan a) 1); [apply Rmult_1_l|]. intro i. cbn. rewrite W.
  pose proof (sin2_cos2 (F t)) as S. unfold Rsqr in S.
  replace (cos (F t) * dj a i * cos (F t) - sin (F t) * (- sin (F t) * dj a i)) with (dj a i * (sin (F t) * sin (F t) + cos (F t) * cos (F t))) by ring.
  rewrite S. field. exact C.
Qed.

Lemma prel_continuous : forall F d, prel F d -> continuous F t.
Proof. intros F d [_ D]. apply (ex_derive_continuous F). eexists. exact D. Qed.
Lemma prel_lt : forall F d c, prel F d -> F t < c -> locally t (fun s => F s < c).
Proof. intros F d c H L. apply (prel_continuous F d H (fun y => y < c)). now apply (open_lt c). Qed.
Lemma prel_gt : forall F d c, prel F d -> c < F t -> locally t (fun s => c < F s).
Proof. intros F d c H L. apply (prel_continuous F d H (fun y => c < y)). now apply (open_gt c). Qed.
Lemma prel_ne : forall F d c, prel F d -> F t <> c -> locally t (fun s => F s <> c).
Proof.
  intros F d c H L. destruct (Rlt_or_le (F t) c) as [A|A].
  - generalize (prel_lt F d c H A). apply filter_imp. intros. lra.
  - assert (c < F t) as B by lra. generalize (prel_gt F d c H B). apply filter_imp. intros. lra.
Qed.

(** atan2(y,x), y > 0 *)
Lemma prel_atan2 : forall F G a b, prel F a -> prel G b -> 0 < F t -> prel (fun s => Ratan2 (F s) (G s)) (d_atan2 a b).
Proof.
  intros F G a b HF HG P. pose proof (prel_gt F a 0 HF P) as L.
  assert (prel (fun s => PI / 2 - atan (G s / F s)) (d_atan2 a b)) as K.
  { pose proof (prel_div G F b a HG HF ltac:(lra)) as Q. pose proof HF as [V D]. pose proof HG as [W E].
    pose proof (prel_comp1 _ _ atan _ (Dual (atan (G t / F t)) (fun i => / (1 + G t / F t * (G t / F t)) * dj (d_div b a) i)) Q (is_derive_atan' _) eq_refl (fun _ => eq_refl)) as A.
    pose proof (prel_sub (fun _ => PI / 2) _ _ _ (prel_const _) A) as [X Y]. split.
    - unfold d_atan2. cbn. rewrite V, W. now apply Ratan2_ypos.
    - eapply is_derive_rw; [exact Y|]. match goal with |- rate ?x = rate ?y => rewrite (rate_lin1 x y 1); [apply Rmult_1_l|] end.
      intro i. cbn. rewrite V, W. field. split; intro; nra. }
  eapply prel_loc; [|exact K]. generalize L. apply filter_imp. intros s Hs. symmetry. now apply Ratan2_ypos.
Qed.

(** ** vectors *)
Definition pvrel (F : R -> nv3 realops) (d : nv3 dualops) : Prop :=
  prel (fun s => n_x (F s)) (n_x d) /\ prel (fun s => n_y (F s)) (n_y d) /\ prel (fun s => n_z (F s)) (n_z d).
Lemma pvrel_add : forall F G a b, pvrel F a -> pvrel G b -> pvrel (fun s => nvadd realops (F s) (G s)) (nvadd dualops a b).
Proof. intros F G a b (A & B & C) (D & E & H). split; [|split]; cbn [nvadd nvmap2 n_x n_y n_z]; now apply prel_add. Qed.
Lemma pvrel_sub : forall F G a b, pvrel F a -> pvrel G b -> pvrel (fun s => nvsub realops (F s) (G s)) (nvsub dualops a b).
Proof. intros F G a b (A & B & C) (D & E & H). split; [|split]; cbn [nvsub nvmap2 n_x n_y n_z]; now apply prel_sub. Qed.
Lemma pvrel_mul : forall F G a b, pvrel F a -> prel G b -> pvrel (fun s => nvmul realops (F s) (G s)) (nvmul dualops a b).
Proof. intros F G a b (A & B & C) D. split; [|split]; cbn [nvmul nvmap n_x n_y n_z]; now apply prel_mul. Qed.
Lemma prel_dot : forall F G a b, pvrel F a -> pvrel G b -> prel (fun s => nvdot realops (F s) (G s)) (nvdot dualops a b).
Proof.
  intros F G a b (A & B & C) (D & E & H). unfold nvdot. cbn [nadd nmul nconst realops dualops].
  repeat apply prel_add; try (apply prel_mul; assumption). apply prel_const.
Qed.
Lemma prel_mag : forall F a, pvrel F a -> 0 < nvnorm2 realops (F t) -> prel (fun s => nvmag realops (F s)) (nvmag dualops a).
Proof. intros F a H P. unfold nvmag. apply (prel_sqrt (fun s => nvnorm2 realops (F s))); [|exact P]. now apply prel_dot. Qed.
End Path.
