(** Dual numbers carry exact derivatives: the lemma for every operation. *)
From Coq Require Import Reals Lra Psatz Arith.
From Coquelicot Require Import Coquelicot.
From Verif Require Import S_Vec M_Dual.
Open Scope R_scope.

Lemma derivable_pt_lim_asin : forall x, -1 < x < 1 -> derivable_pt_lim asin x (1 / sqrt (1 - x * x)).
Proof. intros x H. apply derive_pt_eq_1 with (pr := derivable_pt_asin x H). rewrite derive_pt_asin. reflexivity. Qed.
Lemma derivable_pt_lim_acos : forall x, -1 < x < 1 -> derivable_pt_lim acos x (-1 / sqrt (1 - x * x)).
Proof. intros x H. apply derive_pt_eq_1 with (pr := derivable_pt_acos x H). rewrite derive_pt_acos. reflexivity. Qed.

(** set variable i *)
Definition setv (p : nat -> R) (i : nat) (t : R) : nat -> R := fun k => if Nat.eqb k i then t else p k.
Lemma setv_same : forall p i, forall k, setv p i (p i) k = p k.
Proof. intros p i k. unfold setv. destruct (Nat.eqb_spec k i); congruence. Qed.

(** [d] carries the value of F at p and its partial derivatives with respect to
    every variable in I. *)
Definition extensional (F : (nat -> R) -> R) : Prop := forall p q, (forall k, p k = q k) -> F p = F q.
Definition carriesI (I : nat -> Prop) (p : nat -> R) (F : (nat -> R) -> R) (d : dual) : Prop :=
  extensional F /\ dx d = F p /\ forall i, I i -> is_derive (fun t => F (setv p i t)) (p i) (dj d i).

Section Ops.
Variable I : nat -> Prop.
Notation carries := (carriesI I).
Variable p : nat -> R.
Lemma at_p : forall F i, extensional F -> F (setv p i (p i)) = F p.
Proof. intros F i H. apply H. apply setv_same. Qed.

Lemma carries_ext : forall F G d, (forall q, F q = G q) -> carries p F d -> carries p G d.
Proof.
  intros F G d E (H1 & H2 & H3). split; [|split].
  - intros a b H. rewrite <- !E. now apply H1.
  - now rewrite <- E.
  - intros i Hi. eapply is_derive_ext; [|now apply H3]. intro; apply E.
Qed.
Lemma carries_loc : forall F G d, extensional G -> F p = G p ->
  (forall i, I i -> locally (p i) (fun t => F (setv p i t) = G (setv p i t))) -> carries p F d -> carries p G d.
Proof.
  intros F G d E Ep L (H1 & H2 & H3). split; [easy|split].
  - now rewrite <- Ep.
  - intros i Hi. eapply is_derive_ext_loc; [now apply L|now apply H3].
Qed.
Lemma carries_const : forall c, carries p (fun _ => c) (d_const c).
Proof. intro c. split; [|split]; [now intros ? ?|reflexivity|]. intros i Hi. apply @is_derive_const. Qed.
Lemma carries_var : forall k, carries p (fun q => q k) (d_var (p k) k).
Proof.
  intro k. split; [|split]; [intros a b H; apply H|reflexivity|]. intros i Hi. unfold setv, d_var. cbn.
  rewrite Nat.eqb_sym. destruct (Nat.eqb i k); [apply @is_derive_id|apply @is_derive_const].
Qed.

Ltac start := intros until 1; match goal with H : carries _ ?F _ |- _ => destruct H as (?E & ?V & ?D) end.

Lemma carries_comp1 : forall F a (f : R -> R) df, carries p F a -> is_derive f (F p) df ->
  carries p (fun q => f (F q)) (Dual (f (dx a)) (fun i => df * dj a i)).
Proof.
  intros F a f df (E & V & D) H. split; [|split].
  - intros q q' Hq. f_equal. now apply E.
  - cbn. now rewrite V.
  - intros i Hi. cbn. replace (df * dj a i) with (scal (dj a i) df) by (cbn; unfold scal; cbn; unfold mult; cbn; ring).
    apply (is_derive_comp f (fun t => F (setv p i t)) (p i) df (dj a i)); [|now apply D].
    now rewrite at_p.
Qed.
Lemma carries_dual_eq : forall F d x j, carries p F d -> x = dx d -> (forall i, I i -> j i = dj d i) -> carries p F (Dual x j).
Proof. intros F d x j (E & V & D) Hx Hj. split; [easy|split]; cbn; [congruence|]. intros i Hi. rewrite Hj by easy. now apply D. Qed.

Lemma carries_add : forall F G a b, carries p F a -> carries p G b -> carries p (fun q => F q + G q) (d_add a b).
Proof.
  intros F G a b (E1 & V1 & D1) (E2 & V2 & D2). split; [|split].
  - intros q q' H. now rewrite (E1 q q'), (E2 q q').
  - cbn. now rewrite V1, V2.
  - intros i Hi. cbn. apply (is_derive_plus (fun t => F (setv p i t)) (fun t => G (setv p i t))); auto.
Qed.
Lemma carries_sub : forall F G a b, carries p F a -> carries p G b -> carries p (fun q => F q - G q) (d_sub a b).
Proof.
  intros F G a b (E1 & V1 & D1) (E2 & V2 & D2). split; [|split].
  - intros q q' H. now rewrite (E1 q q'), (E2 q q').
  - cbn. now rewrite V1, V2.
  - intros i Hi. cbn. apply (is_derive_minus (fun t => F (setv p i t)) (fun t => G (setv p i t))); auto.
Qed.
Lemma carries_mul : forall F G a b, carries p F a -> carries p G b -> carries p (fun q => F q * G q) (d_mul a b).
Proof.
  intros F G a b (E1 & V1 & D1) (E2 & V2 & D2). split; [|split].
  - intros q q' H. now rewrite (E1 q q'), (E2 q q').
  - cbn. now rewrite V1, V2.
  - intros i Hi. cbn. rewrite V1, V2, <- (at_p F i E1), <- (at_p G i E2).
    apply (is_derive_mult (fun t => F (setv p i t)) (fun t => G (setv p i t))); auto. intros; apply Rmult_comm.
Qed.
Lemma carries_div : forall F G a b, carries p F a -> carries p G b -> G p <> 0 -> carries p (fun q => F q / G q) (d_div a b).
Proof.
  intros F G a b (E1 & V1 & D1) (E2 & V2 & D2) Hn. split; [|split].
  - intros q q' H. now rewrite (E1 q q'), (E2 q q').
  - cbn. now rewrite V1, V2.
  - intros i Hi. cbn. rewrite V1, V2. rewrite <- (at_p F i E1), <- (at_p G i E2).
    rewrite <- (at_p G i E2) in Hn.
    pose proof (is_derive_div (fun t => F (setv p i t)) (fun t => G (setv p i t)) (p i) (dj a i) (dj b i) (D1 i Hi) (D2 i Hi) Hn) as H.
    replace ((dj a i * G (setv p i (p i)) - F (setv p i (p i)) * dj b i) / (G (setv p i (p i)) * G (setv p i (p i))))
      with ((dj a i * G (setv p i (p i)) - F (setv p i (p i)) * dj b i) / G (setv p i (p i)) ^ 2); [exact H|].
    field. exact Hn.
Qed.
Lemma carries_addc : forall F a c, carries p F a -> carries p (fun q => F q + c) (d_addc a c).
Proof.
  intros F a c H. eapply carries_dual_eq; [apply (carries_add F (fun _ => c) a (d_const c) H (carries_const c))|reflexivity|].
  intros i Hi. cbn. ring.
Qed.
Lemma carries_subc : forall F a c, carries p F a -> carries p (fun q => F q - c) (d_subc a c).
Proof.
  intros F a c H. eapply carries_dual_eq; [apply (carries_sub F (fun _ => c) a (d_const c) H (carries_const c))|reflexivity|].
  intros i Hi. cbn. ring.
Qed.
Lemma carries_mulc : forall F a c, carries p F a -> carries p (fun q => F q * c) (d_mulc a c).
Proof.
  intros F a c H. eapply carries_dual_eq; [apply (carries_mul F (fun _ => c) a (d_const c) H (carries_const c))|reflexivity|].
  intros i Hi. cbn. ring.
Qed.
Lemma carries_sqrt : forall F a, carries p F a -> 0 < F p -> carries p (fun q => sqrt (F q)) (d_sqrt a).
Proof.
  intros F a H Hp. pose proof H as (E & V & D).
  eapply carries_dual_eq; [apply (carries_comp1 F a sqrt (1 / (2 * sqrt (F p))) H)| |].
  - apply is_derive_Reals. pose proof (derivable_pt_lim_sqrt _ Hp) as L.
    replace (1 / (2 * sqrt (F p))) with (/ (2 * sqrt (F p))) by (field; pose proof (sqrt_lt_R0 _ Hp); lra). exact L.
  - reflexivity.
  - intros i Hi. cbn. rewrite V. field. pose proof (sqrt_lt_R0 _ Hp); lra.
Qed.
Lemma carries_square : forall F a, carries p F a -> carries p (fun q => F q * F q) (d_square a).
Proof.
  intros F a H. eapply carries_dual_eq; [apply (carries_mul F F a a H H)|reflexivity|]. intros i Hi. cbn. ring.
Qed.
Lemma carries_sin : forall F a, carries p F a -> carries p (fun q => sin (F q)) (d_sin a).
Proof.
  intros F a H. pose proof H as (E & V & D).
  eapply carries_dual_eq; [apply (carries_comp1 F a sin (cos (F p)) H)| |].
  - apply is_derive_sin.
  - reflexivity.
  - intros i Hi. cbn. now rewrite V.
Qed.
Lemma carries_cos : forall F a, carries p F a -> carries p (fun q => cos (F q)) (d_cos a).
Proof.
  intros F a H. pose proof H as (E & V & D).
  eapply carries_dual_eq; [apply (carries_comp1 F a cos (- sin (F p)) H)| |].
  - apply is_derive_cos.
  - reflexivity.
  - intros i Hi. cbn. now rewrite V.
Qed.
Lemma carries_tan' : forall F a, carries p F a -> cos (F p) <> 0 -> carries p (fun q => sin (F q) / cos (F q)) (d_tan a).
Proof.
  intros F a H Hc. pose proof H as (E & V & D).
  eapply carries_dual_eq; [apply (carries_div (fun q => sin (F q)) (fun q => cos (F q)) _ _ (carries_sin F a H) (carries_cos F a H) Hc)|reflexivity|].
  intros i Hi. cbn. rewrite V. pose proof (sin2_cos2 (F p)) as S. unfold Rsqr in S.
  replace (cos (F p) * dj a i * cos (F p) - sin (F p) * (- sin (F p) * dj a i))
    with (dj a i * (sin (F p) * sin (F p) + cos (F p) * cos (F p))) by ring.
  rewrite S. field. exact Hc.
Qed.
Lemma carries_tan : forall F a, carries p F a -> cos (F p) <> 0 -> carries p (fun q => tan (F q)) (d_tan a).
Proof. intros F a H Hc. apply (carries_ext (fun q => sin (F q) / cos (F q))); [reflexivity|]. now apply carries_tan'. Qed.
Lemma carries_asin : forall F a, carries p F a -> -1 < F p < 1 -> carries p (fun q => asin (F q)) (d_asin a).
Proof.
  intros F a H Hp. pose proof H as (E & V & D).
  eapply carries_dual_eq; [apply (carries_comp1 F a asin (1 / sqrt (1 - F p * F p)) H)| |].
  - apply is_derive_Reals. exact (derivable_pt_lim_asin _ Hp).
  - reflexivity.
  - intros i Hi. cbn. now rewrite V.
Qed.
Lemma carries_acos : forall F a, carries p F a -> -1 < F p < 1 -> carries p (fun q => acos (F q)) (d_acos a).
Proof.
  intros F a H Hp. pose proof H as (E & V & D).
  eapply carries_dual_eq; [apply (carries_comp1 F a acos (-1 / sqrt (1 - F p * F p)) H)| |].
  - apply is_derive_Reals. exact (derivable_pt_lim_acos _ Hp).
  - reflexivity.
  - intros i Hi. cbn. now rewrite V.
Qed.

(** continuity of what is carried *)
Lemma carries_lt : forall F a c i, I i -> carries p F a -> F p < c -> locally (p i) (fun t => F (setv p i t) < c).
Proof.
  intros F a c i Hi (E & V & D) H.
  assert (continuous (fun t => F (setv p i t)) (p i)) as C.
  { apply (ex_derive_continuous (fun t => F (setv p i t))). eexists. apply D. exact Hi. }
  apply (C (fun y => y < c)). rewrite at_p by easy. apply (open_lt c). exact H.
Qed.
Lemma carries_gt : forall F a c i, I i -> carries p F a -> c < F p -> locally (p i) (fun t => c < F (setv p i t)).
Proof.
  intros F a c i Hi (E & V & D) H.
  assert (continuous (fun t => F (setv p i t)) (p i)) as C.
  { apply (ex_derive_continuous (fun t => F (setv p i t))). eexists. apply D. exact Hi. }
  apply (C (fun y => c < y)). rewrite at_p by easy. apply (open_gt c). exact H.
Qed.

(** branches away from the threshold *)
Lemma carries_if_lt : forall G g c F1 F2 d1 d2, carries p G g -> G p <> c ->
  extensional F1 -> extensional F2 ->
  (G p < c -> carries p F1 d1) -> (c < G p -> carries p F2 d2) ->
  carries p (fun q => if Rlt_dec (G q) c then F1 q else F2 q) (if Rlt_dec (dx g) c then d1 else d2).
Proof.
  intros G g c F1 F2 d1 d2 H Hn E1 E2 H1 H2. pose proof H as (E & V & D). rewrite V.
  assert (extensional (fun q => if Rlt_dec (G q) c then F1 q else F2 q)) as EE.
  { intros q q' Q. rewrite (E q q' Q), (E1 q q' Q), (E2 q q' Q). reflexivity. }
  destruct (Rlt_dec (G p) c) as [L|L].
  - eapply carries_loc; [exact EE| | |apply (H1 L)].
    + destruct (Rlt_dec (G p) c); [reflexivity|contradiction].
    + intros i Hi. pose proof (carries_lt G g c i Hi H L) as Loc. revert Loc. apply filter_imp. intros t Ht.
      destruct (Rlt_dec _ _); [reflexivity|contradiction].
  - assert (c < G p) as L' by lra. eapply carries_loc; [exact EE| | |apply (H2 L')].
    + destruct (Rlt_dec (G p) c); [contradiction|reflexivity].
    + intros i Hi. pose proof (carries_gt G g c i Hi H L') as Loc. revert Loc. apply filter_imp. intros t Ht.
      destruct (Rlt_dec _ _); [lra|reflexivity].
Qed.
End Ops.

(** ** atan2 *)
Lemma atan_inv : forall x, 0 < x -> atan (/ x) = PI / 2 - atan x.
Proof. intros. now apply atan_inv. Qed.
Lemma Ratan2_xpos : forall y x, 0 < x -> Ratan2 y x = atan (y / x).
Proof. intros. unfold Ratan2. destruct (Rlt_dec 0 x); [easy|contradiction]. Qed.
Lemma Ratan2_ypos : forall y x, 0 < y -> Ratan2 y x = PI / 2 - atan (x / y).
Proof.
  intros y x Hy. unfold Ratan2. destruct (Rlt_dec 0 x) as [Hx|Hx].
  - replace (y / x) with (/ (x / y)) by (field; lra). apply atan_inv. apply Rdiv_lt_0_compat; lra.
  - destruct (Rlt_dec x 0) as [Hx'|Hx'].
    + destruct (Rle_dec 0 y); [|lra].
      replace (y / x) with (- / (- x / y)) by (field; lra). rewrite atan_opp, atan_inv by (apply Rdiv_lt_0_compat; lra).
      replace (- x / y) with (- (x / y)) by (field; lra). rewrite atan_opp. lra.
    + assert (x = 0) as -> by lra. destruct (Rlt_dec 0 y); [|contradiction].
      replace (0 / y) with 0 by (field; lra). rewrite atan_0. lra.
Qed.
Lemma Ratan2_yneg : forall y x, y < 0 -> Ratan2 y x = - (PI / 2) - atan (x / y).
Proof.
  intros y x Hy. unfold Ratan2. destruct (Rlt_dec 0 x) as [Hx|Hx].
  - replace (y / x) with (- / (x / - y)) by (field; lra). rewrite atan_opp, atan_inv by (apply Rdiv_lt_0_compat; lra).
    replace (x / - y) with (- (x / y)) by (field; lra). rewrite atan_opp. lra.
  - destruct (Rlt_dec x 0) as [Hx'|Hx'].
    + destruct (Rle_dec 0 y); [lra|].
      replace (y / x) with (/ (x / y)) by (field; lra). rewrite atan_inv; [lra|].
      replace (x / y) with (- x / - y) by (field; lra). apply Rdiv_lt_0_compat; lra.
    + assert (x = 0) as -> by lra. destruct (Rlt_dec 0 y); [lra|]. destruct (Rlt_dec y 0); [|lra].
      replace (0 / y) with 0 by (field; lra). rewrite atan_0. lra.
Qed.

Lemma is_derive_atan' : forall x, is_derive atan x (/ (1 + x * x)).
Proof.
  intro x. apply is_derive_Reals. pose proof (derivable_pt_lim_atan x) as L.
  replace (/ (1 + x * x)) with (/ (1 + Rsqr x)) by reflexivity. 
  replace (/ (1 + x²)) with (/ (1 + x ^ 2)) by (unfold Rsqr; f_equal; ring). exact L.
Qed.
Lemma carries_atan : forall I p F a, carriesI I p F a -> carriesI I p (fun q => atan (F q)) (Dual (atan (dx a)) (fun i => / (1 + F p * F p) * dj a i)).
Proof. intros I p F a H. apply carries_comp1; [easy|]. apply is_derive_atan'. Qed.

(** away from the branch cut (x <= 0, y = 0) *)
Lemma carries_atan2 : forall I p F G a b, carriesI I p F a -> carriesI I p G b -> (0 < G p \/ F p <> 0) ->
  carriesI I p (fun q => Ratan2 (F q) (G q)) (d_atan2 a b).
Proof.
  intros I p F G a b HF HG Hd. pose proof HF as (E1 & V1 & D1). pose proof HG as (E2 & V2 & D2).
  assert (extensional (fun q => Ratan2 (F q) (G q))) as EE.
  { intros q q' H. now rewrite (E1 q q'), (E2 q q'). }
  destruct (Rlt_dec 0 (G p)) as [Hg|Hg].
  - eapply carries_loc; [exact EE| | |].
    3:{ eapply carries_dual_eq; [apply (carries_atan I p _ _ (carries_div I p F G a b HF HG ltac:(lra)))| |].
        - unfold d_atan2. cbn. apply Ratan2_xpos. now rewrite V2.
        - intros i Hi. cbn. rewrite V1, V2. field. split; intro; nra. }
    + symmetry. now apply Ratan2_xpos.
    + intros i Hi. pose proof (carries_gt I p G b 0 i Hi HG Hg) as L. revert L. apply filter_imp. intros t Ht. symmetry. now apply Ratan2_xpos.
  - destruct Hd as [?|Hd]; [lra|]. destruct (Rlt_dec 0 (F p)) as [Hf|Hf].
    + eapply carries_loc; [exact EE| | |].
      3:{ eapply carries_dual_eq; [apply (carries_sub I p (fun _ => PI / 2) _ (d_const (PI / 2)) _ (carries_const I p _) (carries_atan I p _ _ (carries_div I p G F b a HG HF ltac:(lra))))| |].
          - unfold d_atan2. cbn. apply Ratan2_ypos. now rewrite V1.
          - intros i Hi. cbn. rewrite V1, V2. field. split; intro; nra. }
      * symmetry. now apply Ratan2_ypos.
      * intros i Hi. pose proof (carries_gt I p F a 0 i Hi HF Hf) as L. revert L. apply filter_imp. intros t Ht. symmetry. now apply Ratan2_ypos.
    + assert (F p < 0) as Hf' by lra. eapply carries_loc; [exact EE| | |].
      3:{ eapply carries_dual_eq; [apply (carries_sub I p (fun _ => - (PI / 2)) _ (d_const (- (PI / 2))) _ (carries_const I p _) (carries_atan I p _ _ (carries_div I p G F b a HG HF ltac:(lra))))| |].
          - unfold d_atan2. cbn. apply Ratan2_yneg. now rewrite V1.
          - intros i Hi. cbn. rewrite V1, V2. field. split; intro; nra. }
      * symmetry. now apply Ratan2_yneg.
      * intros i Hi. pose proof (carries_lt I p F a 0 i Hi HF Hf') as L. revert L. apply filter_imp. intros t Ht. symmetry. now apply Ratan2_yneg.
Qed.

Lemma carries_sinxx : forall I p F G a b, carriesI I p F a -> carriesI I p G b -> Rabs (F p) <> 1 / 100000 ->
  carriesI I p (fun q => if Rlt_dec (Rabs (F q)) (1 / 100000) then 1 else G q / F q) (nsinx_over_x dualops a b).
Proof.
  intros I p F G a b HF HG Hn. pose proof HF as (E1 & V1 & D1). pose proof HG as (E2 & V2 & D2).
  assert (extensional (fun q => if Rlt_dec (Rabs (F q)) (1 / 100000) then 1 else G q / F q)) as EE.
  { intros q q' H. now rewrite (E1 q q'), (E2 q q'). }
  unfold nsinx_over_x. cbn [nval dualops]. rewrite V1.
  destruct (Rlt_dec (Rabs (F p)) (1 / 100000)) as [L|L].
  - eapply carries_loc; [exact EE| | |apply (carries_const _ p 1)].
    + cbn. destruct (Rlt_dec (Rabs (F p)) (1 / 100000)); [reflexivity|contradiction].
    + intros i Hi. apply Rabs_def2 in L. destruct L as [La Lb].
      pose proof (carries_lt _ p F a _ i Hi HF La) as A. pose proof (carries_gt _ p F a _ i Hi HF Lb) as B.
      generalize (filter_and _ _ A B). apply filter_imp. intros t [Ha Hb].
      destruct (Rlt_dec _ _) as [|N]; [reflexivity|]. exfalso. apply N. now apply Rabs_def1.
  - assert (1 / 100000 < Rabs (F p)) as L' by lra.
    assert (F p <> 0) as Hz. { intro Z. rewrite Z, Rabs_R0 in L'. lra. }
    eapply carries_loc; [exact EE| | |apply (carries_div _ p G F b a HG HF Hz)].
    + destruct (Rlt_dec (Rabs (F p)) (1 / 100000)); [contradiction|reflexivity].
    + intros i Hi. unfold Rabs in L'. destruct (Rcase_abs (F p)) as [s|s].
      * pose proof (carries_lt _ p F a (- (1 / 100000)) i Hi HF ltac:(lra)) as A. revert A. apply filter_imp. intros t Ht.
        destruct (Rlt_dec _ _) as [N|]; [|reflexivity]. exfalso. apply Rabs_def2 in N. lra.
      * pose proof (carries_gt _ p F a (1 / 100000) i Hi HF ltac:(lra)) as A. revert A. apply filter_imp. intros t Ht.
        destruct (Rlt_dec _ _) as [N|]; [|reflexivity]. exfalso. apply Rabs_def2 in N. lra.
Qed.


(** ** Vectors and branches *)
Section Vec.
Variable I : nat -> Prop.
Variable p : nat -> R.
Definition vext (F : (nat -> R) -> v3) : Prop := forall q q', (forall k, q k = q' k) -> F q = F q'.
Definition vcarries (F : (nat -> R) -> v3) (d : nv3 dualops) : Prop :=
  vext F /\ carriesI I p (fun q => vx (F q)) (n_x d) /\ carriesI I p (fun q => vy (F q)) (n_y d) /\ carriesI I p (fun q => vz (F q)) (n_z d).
(** the truth of P does not change near p *)
Definition stable (P : (nat -> R) -> Prop) : Prop := forall i, I i -> locally (p i) (fun t => P (setv p i t) <-> P p).

Lemma stable_lt : forall G g c, carriesI I p G g -> G p <> c -> stable (fun q => G q < c).
Proof.
  intros G g c H Hn i Hi. destruct (Rlt_dec (G p) c) as [L|L].
  - generalize (carries_lt I p G g c i Hi H L). apply filter_imp. tauto.
  - assert (c < G p) as L' by lra. generalize (carries_gt I p G g c i Hi H L'). apply filter_imp. intros t Ht. split; lra.
Qed.
Lemma stable_eq : forall (G : (nat -> R) -> R) (P : R -> Prop),
  (forall i, I i -> forall t, G (setv p i t) = G p) -> stable (fun q => P (G q)).
Proof. intros G P H i Hi. exists (mkposreal 1 Rlt_0_1). intros t _. rewrite H by easy. tauto. Qed.

(** a vector function that is F1 where P holds and F2 elsewhere *)
Lemma vcarries_case : forall F F1 F2 (P : (nat -> R) -> Prop) d, vext F -> stable P ->
  (forall q, P q -> F q = F1 q) -> (forall q, ~ P q -> F q = F2 q) ->
  (P p -> vcarries F1 d) -> (~ P p -> vcarries F2 d) -> {P p} + {~ P p} -> vcarries F d.
Proof.
  intros F F1 F2 P d Fe St E1 E2 H1 H2 [Hp|Hp].
  - destruct (H1 Hp) as (X & A & B & C). split; [exact Fe|].
    assert (forall f : v3 -> R, forall dd, carriesI I p (fun q => f (F1 q)) dd -> carriesI I p (fun q => f (F q)) dd) as K.
    { intros f dd K. eapply carries_loc; [| | |exact K].
      - intros q q' Q. now rewrite (Fe q q' Q).
      - now rewrite E1.
      - intros i Hi. generalize (St i Hi). apply filter_imp. intros t Ht. rewrite E1; [reflexivity|tauto]. }
    split; [|split]; [now apply (K vx)|now apply (K vy)|now apply (K vz)].
  - destruct (H2 Hp) as (X & A & B & C). split; [exact Fe|].
    assert (forall f : v3 -> R, forall dd, carriesI I p (fun q => f (F2 q)) dd -> carriesI I p (fun q => f (F q)) dd) as K.
    { intros f dd K. eapply carries_loc; [| | |exact K].
      - intros q q' Q. now rewrite (Fe q q' Q).
      - now rewrite E2.
      - intros i Hi. generalize (St i Hi). apply filter_imp. intros t Ht. rewrite E2; [reflexivity|tauto]. }
    split; [|split]; [now apply (K vx)|now apply (K vy)|now apply (K vz)].
Qed.
Lemma vcarries_value : forall F d, vcarries F d -> nvval dualops d = F p.
Proof. intros F d (_ & (_ & A & _) & (_ & B & _) & (_ & C & _)). unfold nvval. cbn [nval dualops]. apply v3_eq; cbn; assumption. Qed.
Lemma vcarries_ext : forall F G d, (forall q, F q = G q) -> vcarries F d -> vcarries G d.
Proof.
  intros F G d E (X & A & B & C). split; [|split; [|split]].
  - intros q q' Q. rewrite <- !E. now apply X.
  - eapply carries_ext; [|exact A]. intro q. cbn. now rewrite E.
  - eapply carries_ext; [|exact B]. intro q. cbn. now rewrite E.
  - eapply carries_ext; [|exact C]. intro q. cbn. now rewrite E.
Qed.
Lemma vcarries_const : forall v, vcarries (fun _ => v) (nvconst dualops v).
Proof. intro v. split; [easy|]. split; [|split]; apply carries_const. Qed.
Definition vec_at (q : nat -> R) (k : nat) : v3 := V3 (q k) (q (S k)) (q (S (S k))).
Lemma vcarries_vars : forall k, vcarries (fun q => vec_at q k) (d_vars (vec_at p k) k).
Proof.
  intro k. split; [intros q q' Q; unfold vec_at; now rewrite !Q|]. split; [|split]; cbn; apply carries_var.
Qed.
Lemma vcarries_add : forall F G a b, vcarries F a -> vcarries G b -> vcarries (fun q => vadd (F q) (G q)) (nvadd dualops a b).
Proof.
  intros F G a b (X & A & B & C) (X' & A' & B' & C'). split; [intros q q' Q; now rewrite (X q q' Q), (X' q q' Q)|].
  split; [|split]; cbn; apply carries_add; assumption.
Qed.
Lemma vcarries_sub : forall F G a b, vcarries F a -> vcarries G b -> vcarries (fun q => vsub (F q) (G q)) (nvsub dualops a b).
Proof.
  intros F G a b (X & A & B & C) (X' & A' & B' & C'). split; [intros q q' Q; now rewrite (X q q' Q), (X' q q' Q)|].
  split; [|split]; cbn; apply carries_sub; assumption.
Qed.
Lemma vcarries_mulc : forall F a k, vcarries F a -> vcarries (fun q => vscale k (F q)) (nvmulc dualops a k).
Proof.
  intros F a k (X & A & B & C). split; [intros q q' Q; now rewrite (X q q' Q)|].
  split; [|split]; cbn; (eapply carries_ext; [|apply carries_mulc; eassumption]); intro; cbn; ring.
Qed.
Lemma carries_dot : forall F G a b, vcarries F a -> vcarries G b -> carriesI I p (fun q => dot (F q) (G q)) (nvdot dualops a b).
Proof.
  intros F G a b (X & A & B & C) (X' & A' & B' & C'). unfold nvdot, dot. cbn [nadd nmul nconst dualops].
  apply (carries_ext I p (fun q => 0 + vx (G q) * vx (F q) + vy (G q) * vy (F q) + vz (G q) * vz (F q))); [intro; ring|].
  repeat first [apply carries_add | apply carries_mul | assumption | apply carries_const].
Qed.
Lemma vcarries_cross : forall F G a b, vcarries F a -> vcarries G b -> vcarries (fun q => cross (F q) (G q)) (nvcross dualops a b).
Proof.
  intros F G a b (X & A & B & C) (X' & A' & B' & C'). split; [intros q q' Q; now rewrite (X q q' Q), (X' q q' Q)|].
  unfold nvcross, cross. cbn [n_x n_y n_z nsub nmul dualops vx vy vz].
  split; [|split]; repeat first [apply carries_sub | apply carries_mul | assumption].
Qed.
Lemma carries_mag : forall F a, vcarries F a -> F p <> v0 -> carriesI I p (fun q => norm (F q)) (nvmag dualops a).
Proof.
  intros F a H Hn. unfold nvmag, norm. cbn [nsqrt dualops]. apply carries_sqrt; [apply carries_dot; assumption|].
  destruct (norm2_nonneg (F p)) as [?|E]; [easy|]. exfalso. apply Hn. now apply norm2_zero.
Qed.
End Vec.
