(** Code written once over [numops]: run with dual numbers it carries the
    derivatives of what it computes when run with plain numbers. *)
From Coq Require Import Reals Lra Psatz Bool.
From Coquelicot Require Import Coquelicot.
From Verif Require Import S_Vec M_Dual P_Dual M_Triangulate P_Triangulate.
Open Scope R_scope.

Section Rel.
Variable I : nat -> Prop.
Variable p : nat -> R.
Definition rel (F : (nat -> R) -> num realops) (d : num dualops) : Prop := carriesI I p F d.
Definition vrel (F : (nat -> R) -> nv3 realops) (d : nv3 dualops) : Prop :=
  rel (fun q => n_x (F q)) (n_x d) /\ rel (fun q => n_y (F q)) (n_y d) /\ rel (fun q => n_z (F q)) (n_z d).

Lemma rel_val : forall F d, rel F d -> nval dualops d = F p. Proof. intros F d (_ & V & _). exact V. Qed.
Lemma rel_const : forall c, rel (fun _ => nconst realops c) (nconst dualops c). Proof. intro c. apply carries_const. Qed.
Lemma rel_add : forall F G a b, rel F a -> rel G b -> rel (fun q => nadd realops (F q) (G q)) (nadd dualops a b). Proof. intros. now apply carries_add. Qed.
Lemma rel_sub : forall F G a b, rel F a -> rel G b -> rel (fun q => nsub realops (F q) (G q)) (nsub dualops a b). Proof. intros. now apply carries_sub. Qed.
Lemma rel_mul : forall F G a b, rel F a -> rel G b -> rel (fun q => nmul realops (F q) (G q)) (nmul dualops a b). Proof. intros. now apply carries_mul. Qed.
Lemma rel_div : forall F G a b, rel F a -> rel G b -> G p <> 0 -> rel (fun q => ndiv realops (F q) (G q)) (ndiv dualops a b). Proof. intros. now apply carries_div. Qed.
Lemma rel_addc : forall F a c, rel F a -> rel (fun q => naddc realops (F q) c) (naddc dualops a c). Proof. intros. now apply carries_addc. Qed.
Lemma rel_subc : forall F a c, rel F a -> rel (fun q => nsubc realops (F q) c) (nsubc dualops a c). Proof. intros. now apply carries_subc. Qed.
Lemma rel_mulc : forall F a c, rel F a -> rel (fun q => nmulc realops (F q) c) (nmulc dualops a c). Proof. intros. now apply carries_mulc. Qed.
Lemma rel_neg : forall F a, rel F a -> rel (fun q => nneg realops (F q)) (nneg dualops a). Proof. intros. now apply rel_mulc. Qed.
Lemma rel_sqrt : forall F a, rel F a -> 0 < F p -> rel (fun q => nsqrt realops (F q)) (nsqrt dualops a). Proof. intros. now apply carries_sqrt. Qed.
Lemma vrel_add : forall F G a b, vrel F a -> vrel G b -> vrel (fun q => nvadd realops (F q) (G q)) (nvadd dualops a b).
Proof. intros F G a b (? & ? & ?) (? & ? & ?). split; [|split]; cbn [nvadd nvmap2 n_x n_y n_z]; now apply rel_add. Qed.
Lemma vrel_sub : forall F G a b, vrel F a -> vrel G b -> vrel (fun q => nvsub realops (F q) (G q)) (nvsub dualops a b).
Proof. intros F G a b (? & ? & ?) (? & ? & ?). split; [|split]; cbn [nvsub nvmap2 n_x n_y n_z]; now apply rel_sub. Qed.
Lemma vrel_mul : forall F G a b, vrel F a -> rel G b -> vrel (fun q => nvmul realops (F q) (G q)) (nvmul dualops a b).
Proof. intros F G a b (? & ? & ?) ?. split; [|split]; cbn [nvmul nvmap n_x n_y n_z]; now apply rel_mul. Qed.
Lemma vrel_mulc : forall F a c, vrel F a -> vrel (fun q => nvmulc realops (F q) c) (nvmulc dualops a c).
Proof. intros F a c (? & ? & ?). split; [|split]; cbn [nvmulc nvmap n_x n_y n_z]; now apply rel_mulc. Qed.
Lemma vrel_div : forall F G a b, vrel F a -> rel G b -> G p <> 0 -> vrel (fun q => nvdiv realops (F q) (G q)) (nvdiv dualops a b).
Proof. intros F G a b (? & ? & ?) ? ?. split; [|split]; cbn [nvdiv nvmap n_x n_y n_z]; now apply rel_div. Qed.
Lemma vrel_cross : forall F G a b, vrel F a -> vrel G b -> vrel (fun q => nvcross realops (F q) (G q)) (nvcross dualops a b).
Proof. intros F G a b (? & ? & ?) (? & ? & ?). split; [|split]; cbn [nvcross n_x n_y n_z]; apply rel_sub; now apply rel_mul. Qed.
Lemma rel_dot : forall F G a b, vrel F a -> vrel G b -> rel (fun q => nvdot realops (F q) (G q)) (nvdot dualops a b).
Proof. intros F G a b (? & ? & ?) (? & ? & ?). unfold nvdot. repeat apply rel_add; try apply rel_const; now apply rel_mul. Qed.
Lemma rel_norm2 : forall F a, vrel F a -> rel (fun q => nvnorm2 realops (F q)) (nvnorm2 dualops a). Proof. intros. now apply rel_dot. Qed.
Lemma rel_mag : forall F a, vrel F a -> 0 < nvnorm2 realops (F p) -> rel (fun q => nvmag realops (F q)) (nvmag dualops a).
Proof. intros F a H P. unfold nvmag. apply rel_sqrt; [now apply rel_norm2|exact P]. Qed.
Lemma vrel_const : forall v, vrel (fun _ => rv v) (nvconst dualops v). Proof. intro v. split; [|split]; apply rel_const. Qed.
Lemma vrel_vars : forall k, vrel (fun q => rv (vec_at q k)) (d_vars (vec_at p k) k).
Proof. intro k. split; [|split]; apply (carries_var I p). Qed.
Lemma rel_ext : forall F d q q', rel F d -> (forall k, q k = q' k) -> F q = F q'. Proof. intros F d q q' (E & _) H. now apply E. Qed.
Lemma vrel_ext : forall F d q q', vrel F d -> (forall k, q k = q' k) -> F q = F q'.
Proof.
  intros F d q q' (A & B & C) H. pose proof (rel_ext _ _ _ _ A H) as EA. pose proof (rel_ext _ _ _ _ B H) as EB. pose proof (rel_ext _ _ _ _ C H) as EC. cbn in EA, EB, EC.
  destruct (F q), (F q'). cbn in *. now subst.
Qed.
Lemma vrel_val : forall F d, vrel F d -> nvval dualops d = nvval realops (F p).
Proof. intros F d (A & B & C). unfold nvval. now rewrite (rel_val _ _ A), (rel_val _ _ B), (rel_val _ _ C). Qed.

(** holds at p and stays true when any one variable moves a little *)
Definition near (P : (nat -> R) -> Prop) : Prop := P p /\ forall i, I i -> locally (p i) (fun t => P (setv p i t)).
Lemma near_lt : forall F d c, rel F d -> F p < c -> near (fun q => F q < c).
Proof. intros F d c H L. split; [exact L|]. intros i Hi. now apply (carries_lt I p F d c i Hi H). Qed.
Lemma near_gt : forall F d c, rel F d -> c < F p -> near (fun q => c < F q).
Proof. intros F d c H L. split; [exact L|]. intros i Hi. now apply (carries_gt I p F d c i Hi H). Qed.
Lemma near_and : forall P Q, near P -> near Q -> near (fun q => P q /\ Q q).
Proof. intros P Q [A A'] [B B']. split; [now split|]. intros i Hi. now apply filter_and; [apply A'|apply B']. Qed.
Lemma near_imp : forall P Q : (nat -> R) -> Prop, (forall q, P q -> Q q) -> near P -> near Q.
Proof. intros P Q H [A B]. split; [now apply H|]. intros i Hi. generalize (B i Hi). apply filter_imp. intros t. apply H. Qed.
Lemma near_all : forall P : (nat -> R) -> Prop, (forall q, P q) -> near P.
Proof. intros P H. split; [apply H|]. intros i Hi. apply filter_forall. intro; apply H. Qed.
Lemma near_lt2 : forall F G d e, rel F d -> rel G e -> F p < G p -> near (fun q => F q < G q).
Proof.
  intros F G d e HF HG L. pose proof (rel_sub _ _ _ _ HG HF) as S. apply (near_imp (fun q => 0 < nsub realops (G q) (F q))); [intros q; cbn; lra|]. eapply near_gt; [exact S|]. cbn. lra.
Qed.
Lemma rel_loc : forall F G d, (forall q q', (forall k, q k = q' k) -> G q = G q') -> near (fun q => F q = G q) -> rel F d -> rel G d.
Proof. intros F G d E [A B] H. apply (carries_loc I p F G d); auto. Qed.
Lemma vrel_loc : forall F G d, (forall q q', (forall k, q k = q' k) -> G q = G q') -> near (fun q => F q = G q) -> vrel F d -> vrel G d.
Proof.
  intros F G d E N (A & B & C). split; [|split]; (eapply rel_loc; [|eapply near_imp; [|exact N]|eassumption]); cbn.
  1, 3, 5: intros q q' Q; now rewrite (E q q' Q). all: intros q ->; reflexivity.
Qed.
Lemma rel_if : forall (c : (nat -> R) -> bool) b F1 F2 d1 d2, near (fun q => c q = b) ->
  (forall q q', (forall k, q k = q' k) -> (if c q then F1 q else F2 q) = (if c q' then F1 q' else F2 q')) ->
  (b = true -> rel F1 d1) -> (b = false -> rel F2 d2) -> rel (fun q => if c q then F1 q else F2 q) (if b then d1 else d2).
Proof.
  intros c b F1 F2 d1 d2 N E H1 H2. destruct b.
  - apply (rel_loc F1); [exact E|apply (near_imp (fun q => c q = true)); [intros q ->; reflexivity|exact N]|auto].
  - apply (rel_loc F2); [exact E|apply (near_imp (fun q => c q = false)); [intros q ->; reflexivity|exact N]|auto].
Qed.
End Rel.

(** the positive part, squared: once continuously differentiable *)
Definition pos (x : R) := Rmax 0 x.
Lemma pos_sq_derive : forall x, is_derive (fun x => pos x * pos x) x (2 * pos x).
Proof.
  intro x. destruct (Rtotal_order x 0) as [L|[->|L]].
  - apply (is_derive_ext_loc (fun _ => 0)).
    + exists (mkposreal (- x) ltac:(lra)). intros y Hy. unfold ball in Hy; cbn in Hy; unfold AbsRing_ball, abs, minus, plus, opp in Hy; cbn in Hy. apply Rabs_def2 in Hy.
      unfold pos. rewrite Rmax_left by lra. symmetry. apply Rmult_0_l.
    + replace (2 * pos x) with 0 by (unfold pos; rewrite Rmax_left by lra; ring). apply (is_derive_const (K := R_AbsRing) (V := R_NormedModule)).
  - unfold pos at 3. rewrite Rmax_left by lra. rewrite Rmult_0_r. apply is_derive_Reals. intros eps He. exists (mkposreal eps He). intros h Hh Hb. cbn in Hb. rewrite Rplus_0_l.
    unfold pos. rewrite (Rmax_left 0 0) by lra. replace ((Rmax 0 h * Rmax 0 h - 0 * 0) / h - 0) with (Rmax 0 h * Rmax 0 h / h) by (field; exact Hh).
    destruct (Rle_lt_dec h 0) as [N|N].
    + rewrite Rmax_left by lra. unfold Rdiv. rewrite !Rmult_0_l, Rabs_R0. exact He.
    + rewrite Rmax_right by lra. replace (h * h / h) with h by (field; exact Hh). exact Hb.
  - apply (is_derive_ext_loc (fun x => x * x)).
    + exists (mkposreal x L). intros y Hy. unfold ball in Hy; cbn in Hy; unfold AbsRing_ball, abs, minus, plus, opp in Hy; cbn in Hy. apply Rabs_def2 in Hy.
      unfold pos. rewrite Rmax_right by lra. reflexivity.
    + replace (2 * pos x) with (2 * x) by (unfold pos; rewrite Rmax_right by lra; ring). auto_derive; [auto|ring].
Qed.
Lemma pos_continuous : forall x, continuous pos x.
Proof.
  intro x. apply (continuous_ext (fun x => (x + Rabs x) / 2)).
  - intro y. unfold pos, Rmax. destruct (Rle_dec 0 y); [rewrite Rabs_right by lra|rewrite Rabs_left by lra]; match goal with |- ?a = ?b => change (@eq R a b) end; field.
  - unfold Rdiv. apply (continuous_mult (fun x => x + Rabs x) (fun _ => / 2)); [|apply continuous_const]. apply (continuous_plus (fun x => x) Rabs); [apply continuous_id|apply continuous_Rabs].
Qed.
