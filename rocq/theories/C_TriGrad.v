(** C63: the gradients the triangulation functions report. *)
From Coq Require Import Reals Lra Psatz Bool.
From Coquelicot Require Import Coquelicot.
From Verif Require Import S_Vec P_Trig M_Dual P_Dual M_Triangulate P_Triangulate P_TriGrad C_Triangulate C_TriError.
Open Scope R_scope.

Ltac rel1 := first [eassumption | match goal with
  | |- P_TriGrad.rel _ _ _ ?d => match d with
      | nadd _ _ _ => apply rel_add | nsub _ _ _ => apply rel_sub | nmul _ _ _ => apply rel_mul | nmulc _ _ _ => apply rel_mulc | naddc _ _ _ => apply rel_addc | nsubc _ _ _ => apply rel_subc
      | nneg _ _ => apply rel_neg | nconst _ _ => apply rel_const | nvdot _ _ _ => apply rel_dot | nvnorm2 _ _ => apply rel_norm2 end
  | |- P_TriGrad.vrel _ _ _ ?d => match d with
      | nvadd _ _ _ => apply vrel_add | nvsub _ _ _ => apply vrel_sub | nvmulc _ _ _ => apply vrel_mulc | nvmul _ _ _ => apply vrel_mul | nvcross _ _ _ => apply vrel_cross end end].
Ltac relt := repeat rel1.

(** values only *)
Definition vv (d : nv3 dualops) (v : nv3 realops) : Prop := dx (n_x d) = n_x v /\ dx (n_y d) = n_y v /\ dx (n_z d) = n_z v.
Ltac valt := repeat match goal with H : vv _ _ |- _ => destruct H as (? & ? & ?) end; cbn in *; repeat match goal with E : dx _ = _ |- _ => rewrite E; clear E end; reflexivity.
Lemma mid2_l_val : forall d0 d1 dt a b t, vv d0 a -> vv d1 b -> vv dt t ->
  nval dualops (mid2_l0 dualops d0 d1 dt) = nval realops (mid2_l0 realops a b t) /\ nval dualops (mid2_l1 dualops d0 d1 dt) = nval realops (mid2_l1 realops a b t).
Proof. intros. split; valt. Qed.
Lemma chirality_val : forall d0 d1 dt a b t l0 l1 L0 L1, vv d0 a -> vv d1 b -> vv dt t -> nval dualops l0 = nval realops L0 -> nval dualops l1 = nval realops L1 ->
  chirality dualops l0 d0 l1 d1 dt = chirality realops L0 a L1 b t.
Proof. intros. unfold chirality. f_equal; [f_equal|]; f_equal; unfold worsening0, worsening1, worsening01, worsening, nneg; valt. Qed.
Lemma normalized_val : forall d v, vv d v -> vv (nvdiv dualops d (nvmag dualops d)) (nvdiv realops v (nvmag realops v)).
Proof. intros d v (A & B & C). unfold vv. cbn. rewrite A, B, C. repeat split. Qed.
Lemma cross_mag_val : forall d e v w, vv d v -> vv e w -> nval dualops (cross_mag dualops d e) = nval realops (cross_mag realops v w).
Proof. intros. unfold cross_mag. valt. Qed.

Section Grad.
Variable I : nat -> Prop.
Variable p : nat -> R.
Notation rel := (rel I p). Notation vrel := (vrel I p). Notation near := (near I p).
(** d, a possibly early return, is the computation F run with gradients *)
Definition orel (F : (nat -> R) -> option (nv3 realops)) (d : option (nv3 dualops)) : Prop :=
  match d with None => F p = None | Some m => exists G, near (fun q => F q = Some (G q)) /\ vrel G m end.

Lemma rel_nval : forall F d, rel F d -> nval dualops d = nval realops (F p). Proof. intros F d H. exact (rel_val _ _ _ _ H). Qed.
Lemma near_Rltb_l : forall F d c, rel F d -> Rltb c (nval dualops d) = true -> near (fun q => Rltb c (nval realops (F q)) = true).
Proof. intros F d c H T. rewrite (rel_val _ _ _ _ H), Rltb_iff in T. apply (near_imp I p (fun q => c < F q)); [intros q L; now apply Rltb_iff|]. eapply near_gt; eassumption. Qed.
Lemma near_Rltb_r : forall F d c, rel F d -> Rltb (nval dualops d) c = true -> near (fun q => Rltb (nval realops (F q)) c = true).
Proof. intros F d c H T. rewrite (rel_val _ _ _ _ H), Rltb_iff in T. apply (near_imp I p (fun q => F q < c)); [intros q L; now apply Rltb_iff|]. eapply near_lt; eassumption. Qed.
Lemma Rleb_Rltb : forall x y, Rleb x y = negb (Rltb y x). Proof. intros x y. unfold Rleb, Rltb. destruct (Rle_dec x y), (Rlt_dec y x); cbn; try reflexivity; lra. Qed.
Lemma Rleb_false_iff : forall x y, Rleb x y = false <-> y < x. Proof. intros x y. rewrite Rleb_Rltb, negb_false_iff. apply Rltb_iff. Qed.
Lemma near_Rleb_r : forall F d c, rel F d -> Rleb (nval dualops d) c = false -> near (fun q => Rleb (nval realops (F q)) c = false).
Proof. intros F d c H T. rewrite Rleb_Rltb, negb_false_iff in T. apply (near_imp I p (fun q => Rltb c (nval realops (F q)) = true)); [intros q L; now rewrite Rleb_Rltb, L|]. eapply near_Rltb_l; eassumption. Qed.
Lemma near_Rleb_l : forall F d c, rel F d -> Rleb c (nval dualops d) = false -> near (fun q => Rleb c (nval realops (F q)) = false).
Proof. intros F d c H T. rewrite Rleb_Rltb, negb_false_iff in T. apply (near_imp I p (fun q => Rltb (nval realops (F q)) c = true)); [intros q L; now rewrite Rleb_Rltb, L|]. eapply near_Rltb_r; eassumption. Qed.
Lemma near_andb_true : forall f g : (nat -> R) -> bool, near (fun q => f q = true) -> near (fun q => g q = true) -> near (fun q => f q && g q = true).
Proof. intros f g A B. apply (near_imp I p (fun q => f q = true /\ g q = true)); [intros q [-> ->]; reflexivity|now apply near_and]. Qed.

Variables F0 F1 FT : (nat -> R) -> nv3 realops.
Variables d0 d1 dt : nv3 dualops.
Hypothesis H0 : vrel F0 d0. Hypothesis H1 : vrel F1 d1. Hypothesis HT : vrel FT dt.

Theorem geometric_orel : orel (fun q => tri_geometric realops (F0 q) (F1 q) (FT q)) (tri_geometric dualops d0 d1 dt).
Proof.
  unfold tri_geometric. cbv zeta. set (dD := nsub dualops _ _). set (FD := fun q => nsub realops (nmul realops (nvnorm2 realops (F0 q)) (nvnorm2 realops (F1 q))) (nmul realops (nvdot realops (F0 q) (F1 q)) (nvdot realops (F0 q) (F1 q)))).
  assert (rel FD dD) as RD by (unfold FD, dD; relt). pose proof (rel_nval _ _ RD) as VD.
  destruct (Rleb (- tiny) (nval dualops dD) && Rleb (nval dualops dD) tiny) eqn:T.
  - cbn [orel]. fold (FD p). rewrite VD in T. now rewrite T.
  - assert (near (fun q => Rleb (- tiny) (nval realops (FD q)) && Rleb (nval realops (FD q)) tiny = false)) as ND.
    { rewrite andb_false_iff in T. destruct T as [T|T].
      - apply (near_imp I p (fun q => Rleb (- tiny) (nval realops (FD q)) = false)); [intros q ->; reflexivity|]. eapply near_Rleb_l; eassumption.
      - apply (near_imp I p (fun q => Rleb (nval realops (FD q)) tiny = false)); [intros q ->; apply andb_false_r|]. eapply near_Rleb_r; eassumption. }
    assert (FD p <> 0) as NZ. { intro Z. destruct ND as [ND _]. rewrite Z in ND. cbn in ND. rewrite andb_false_iff in ND. unfold tiny, Rleb in ND. destruct ND as [ND|ND]; revert ND; destruct (Rle_dec _ _); try discriminate; intros _; lra. }
    set (k0 := nmul dualops _ (nsub dualops (nmul dualops (nvnorm2 dualops d1) _) _)). set (k1 := nmul dualops _ (nsub dualops (nmul dualops _ _) (nmul dualops (nvnorm2 dualops d0) _))).
    set (G0 := fun q => nmul realops (ndiv realops (nconst realops 1) (FD q)) (nsub realops (nmul realops (nvnorm2 realops (F1 q)) (nvdot realops (F0 q) (FT q))) (nmul realops (nvdot realops (F0 q) (F1 q)) (nvdot realops (F1 q) (FT q))))).
    set (G1 := fun q => nmul realops (ndiv realops (nconst realops 1) (FD q)) (nsub realops (nmul realops (nvdot realops (F0 q) (F1 q)) (nvdot realops (F0 q) (FT q))) (nmul realops (nvnorm2 realops (F0 q)) (nvdot realops (F1 q) (FT q))))).
    assert (rel (fun q => ndiv realops (nconst realops 1) (FD q)) (ndiv dualops (nconst dualops 1) dD)) as RR by (apply rel_div; [apply rel_const|exact RD|exact NZ]).
    assert (rel G0 k0) as R0 by (unfold G0, k0; apply rel_mul; [exact RR|relt]). assert (rel G1 k1) as R1 by (unfold G1, k1; apply rel_mul; [exact RR|relt]).
    pose proof (rel_nval _ _ R0) as V0. pose proof (rel_nval _ _ R1) as V1.
    pose proof (proj1 ND) as NP. cbv beta in NP.
    destruct (Rleb (nval dualops k0) 0) eqn:K0.
    { cbn [orel]. fold (FD p). rewrite NP. fold (G0 p). rewrite V0 in K0. now rewrite K0. }
    destruct (Rleb (nval dualops k1) 0) eqn:K1.
    { cbn [orel]. fold (FD p). rewrite NP. fold (G0 p) (G1 p). rewrite V0 in K0. rewrite V1 in K1. now rewrite K0, K1. }
    cbn [orel]. exists (fun q => nvmulc realops (nvadd realops (nvadd realops (nvmul realops (F0 q) (G0 q)) (nvmul realops (F1 q) (G1 q))) (FT q)) (1 / 2)). split; [|relt].
    pose proof (near_Rleb_r _ _ _ R0 K0) as N0. pose proof (near_Rleb_r _ _ _ R1 K1) as N1.
    eapply near_imp; [|exact (near_and I p _ _ ND (near_and I p _ _ N0 N1))]. intros q (A & B & C). cbv beta in A, B, C. fold (FD q). rewrite A. fold (G0 q) (G1 q). rewrite B, C. reflexivity.
Qed.

(** chirality *)
Lemma worsening_rels : forall L0 L1 l0 l1, rel L0 l0 -> rel L1 l1 ->
  rel (fun q => worsening0 realops (L0 q) (F0 q) (L1 q) (F1 q) (FT q)) (worsening0 dualops l0 d0 l1 d1 dt) /\
  rel (fun q => worsening1 realops (L0 q) (F0 q) (L1 q) (F1 q) (FT q)) (worsening1 dualops l0 d0 l1 d1 dt) /\
  rel (fun q => worsening01 realops (L0 q) (F0 q) (L1 q) (F1 q) (FT q)) (worsening01 dualops l0 d0 l1 d1 dt).
Proof.
  intros L0 L1 l0 l1 A B. destruct H0 as (? & ? & ?), H1 as (? & ? & ?), HT as (? & ? & ?).
  split; [|split]; unfold worsening0, worsening1, worsening01, worsening; cbv beta zeta; relt.
Qed.
Lemma vals : vv d0 (F0 p) /\ vv d1 (F1 p) /\ vv dt (FT p).
Proof. destruct H0 as ((_ & a & _) & (_ & b & _) & (_ & c & _)), H1 as ((_ & d & _) & (_ & e & _) & (_ & f & _)), HT as ((_ & g & _) & (_ & h & _) & (_ & i & _)). repeat split; assumption. Qed.
End Grad.
Lemma chirality_nz : forall l0 l1 a b t, chirality realops l0 a l1 b t = true -> l0 <> 0 /\ l1 <> 0.
Proof.
  intros l0 l1 a b t C. unfold chirality in C. rewrite !andb_true_iff, !Rltb_iff in C. destruct C as ((C0 & C1) & _). split; intro Z; subst.
  - unfold worsening0, worsening in C0. cbn in C0. ring_simplify in C0. lra.
  - unfold worsening1, worsening, nneg in C1. cbn in C1. ring_simplify in C1. lra.
Qed.

Section Grad2.
Variable I : nat -> Prop.
Variable p : nat -> R.
Notation rel := (rel I p). Notation vrel := (vrel I p). Notation near := (near I p). Notation orel := (orel I p).
Variables F0 F1 FT : (nat -> R) -> nv3 realops.
Variables d0 d1 dt : nv3 dualops.
Hypothesis H0 : vrel F0 d0. Hypothesis H1 : vrel F1 d1. Hypothesis HT : vrel FT dt.
Lemma near_chirality : forall L0 L1 l0 l1, rel L0 l0 -> rel L1 l1 -> chirality dualops l0 d0 l1 d1 dt = true ->
  near (fun q => chirality realops (L0 q) (F0 q) (L1 q) (F1 q) (FT q) = true).
Proof.
  intros L0 L1 l0 l1 A B C. destruct (worsening_rels I p F0 F1 FT d0 d1 dt H0 H1 HT L0 L1 l0 l1 A B) as (W0 & W1 & W01). unfold chirality in C. rewrite !andb_true_iff in C. destruct C as ((C0 & C1) & C2).
  unfold chirality. apply near_andb_true; [apply near_andb_true|]; [exact (near_Rltb_l I p _ _ _ W0 C0)|exact (near_Rltb_l I p _ _ _ W1 C1)|exact (near_Rltb_l I p _ _ _ W01 C2)].
Qed.
Lemma cross_norm2_rel : forall A B a b, vrel A a -> vrel B b -> rel (fun q => cross_norm2 realops (A q) (B q)) (cross_norm2 dualops a b).
Proof. intros. unfold cross_norm2. relt. Qed.
Lemma nvnorm2_nonneg : forall v : nv3 realops, 0 <= nvnorm2 realops v. Proof. intro v. destruct v as [x y z]. unfold nvnorm2, nvdot. cbn in *. nra. Qed.
Lemma sqrt_ratio_nz : forall x y, sqrt (x * (1 / y)) <> 0 -> 0 < x * (1 / y) /\ y <> 0.
Proof.
  intros x y N. destruct (Rle_lt_dec (x * (1 / y)) 0) as [L|L]; [exfalso; apply N; now apply sqrt_neg_0|]. split; [exact L|]. intros ->. unfold Rdiv in L. rewrite Rinv_0 in L. lra.
Qed.
Lemma mid2_rels : mid2_l0 realops (F0 p) (F1 p) (FT p) <> 0 -> mid2_l1 realops (F0 p) (F1 p) (FT p) <> 0 ->
  rel (fun q => mid2_l0 realops (F0 q) (F1 q) (FT q)) (mid2_l0 dualops d0 d1 dt) /\ rel (fun q => mid2_l1 realops (F0 q) (F1 q) (FT q)) (mid2_l1 dualops d0 d1 dt) /\
  vrel (fun q => mid2_point realops (F0 q) (F1 q) (FT q)) (mid2_point dualops d0 d1 dt).
Proof.
  intros N0 N1. destruct (sqrt_ratio_nz _ _ N0) as [P0 Z], (sqrt_ratio_nz _ _ N1) as [P1 _].
  pose proof (cross_norm2_rel _ _ _ _ H0 H1) as C. pose proof (cross_norm2_rel _ _ _ _ H1 HT) as C0. pose proof (cross_norm2_rel _ _ _ _ H0 HT) as C1.
  assert (rel (fun q => ndiv realops (nconst realops 1) (cross_norm2 realops (F0 q) (F1 q))) (ndiv dualops (nconst dualops 1) (cross_norm2 dualops d0 d1))) as Q by (apply rel_div; [apply rel_const|exact C|exact Z]).
  assert (rel (fun q => mid2_l0 realops (F0 q) (F1 q) (FT q)) (mid2_l0 dualops d0 d1 dt)) as R0 by (unfold mid2_l0; apply rel_sqrt; [relt|exact P0]).
  assert (rel (fun q => mid2_l1 realops (F0 q) (F1 q) (FT q)) (mid2_l1 dualops d0 d1 dt)) as R1 by (unfold mid2_l1; apply rel_sqrt; [relt|exact P1]).
  split; [exact R0|split; [exact R1|]]. unfold mid2_point. relt.
Qed.
Theorem mid2_orel : orel (fun q => tri_mid2 realops (F0 q) (F1 q) (FT q)) (tri_mid2 dualops d0 d1 dt).
Proof.
  unfold tri_mid2. destruct (vals I p F0 F1 FT d0 d1 dt H0 H1 HT) as (W0 & W1 & WT). destruct (mid2_l_val _ _ _ _ _ _ W0 W1 WT) as [V0 V1]. pose proof (chirality_val _ _ _ _ _ _ _ _ _ _ W0 W1 WT V0 V1) as C.
  destruct (chirality dualops _ _ _ _ _) eqn:E; [|cbn [C_TriGrad.orel]; now rewrite <- C].
  symmetry in C. destruct (chirality_nz _ _ _ _ _ C) as [N0 N1]. destruct (mid2_rels N0 N1) as (R0 & R1 & RM).
  cbn [C_TriGrad.orel]. exists (fun q => mid2_point realops (F0 q) (F1 q) (FT q)). split; [|exact RM]. eapply near_imp; [|exact (near_chirality _ _ _ _ R0 R1 E)]. intros q ->. reflexivity.
Qed.
End Grad2.

Definition unit_n (v : nv3 realops) : nv3 realops := nvdiv realops v (nvmag realops v).
Lemma normalized_rel : forall I p F d, vrel I p F d -> 0 < nvnorm2 realops (F p) -> vrel I p (fun q => unit_n (F q)) (nvdiv dualops d (nvmag dualops d)).
Proof. intros I p F d H P. unfold unit_n. apply vrel_div; [exact H|now apply rel_mag|]. unfold nvmag. cbn. intro Z. apply sqrt_eq_0 in Z; unfold nvnorm2 in P; cbn in P, Z; lra. Qed.
Lemma unit_n_zero : forall v : nv3 realops, ~ 0 < nvnorm2 realops v -> unit_n v = @NV3 realops 0 0 0.
Proof.
  intros [x y z] N. unfold nvnorm2, nvdot in N. cbn in *. assert (x = 0 /\ y = 0 /\ z = 0) as (-> & -> & ->) by (repeat split; nra). unfold unit_n, nvdiv, nvmap. cbn. f_equal; unfold Rdiv; apply Rmult_0_l.
Qed.
Lemma cross_mag_zero : forall v : nv3 realops, cross_mag realops (@NV3 realops 0 0 0) v = 0 /\ cross_mag realops v (@NV3 realops 0 0 0) = 0.
Proof. intros [x y z]. unfold cross_mag, nvmag, nvnorm2, nvdot, nvcross. cbn. split; (transitivity (sqrt 0); [f_equal; ring|apply sqrt_0]). Qed.
Theorem wmid2_orel : forall I p F0 F1 FT d0 d1 dt, vrel I p F0 d0 -> vrel I p F1 d1 -> vrel I p FT dt ->
  orel I p (fun q => tri_wmid2 realops (F0 q) (F1 q) (FT q)) (tri_wmid2 dualops d0 d1 dt).
Proof.
  intros I p F0 F1 FT d0 d1 dt H0 H1 HT. destruct (vals I p F0 F1 FT d0 d1 dt H0 H1 HT) as (W0 & W1 & WT). unfold tri_wmid2. cbv zeta.
  set (u0 := nvdiv dualops d0 _). set (u1 := nvdiv dualops d1 _). pose proof (normalized_val _ _ W0) as U0. pose proof (normalized_val _ _ W1) as U1. fold u0 (unit_n (F0 p)) in U0. fold u1 (unit_n (F1 p)) in U1.
  set (l0 := nmul dualops (cross_mag dualops u1 dt) _). set (l1 := nmul dualops (cross_mag dualops u0 dt) _).
  set (L0 := fun q => nmul realops (cross_mag realops (unit_n (F1 q)) (FT q)) (ndiv realops (nconst realops 1) (cross_mag realops (unit_n (F0 q)) (unit_n (F1 q))))).
  set (L1 := fun q => nmul realops (cross_mag realops (unit_n (F0 q)) (FT q)) (ndiv realops (nconst realops 1) (cross_mag realops (unit_n (F0 q)) (unit_n (F1 q))))).
  assert (nval dualops l0 = nval realops (L0 p)) as V0.
  { unfold l0, L0. pose proof (cross_mag_val _ _ _ _ U1 WT) as A. pose proof (cross_mag_val _ _ _ _ U0 U1) as B. cbn in A, B |- *. rewrite A, B. reflexivity. }
  assert (nval dualops l1 = nval realops (L1 p)) as V1.
  { unfold l1, L1. pose proof (cross_mag_val _ _ _ _ U0 WT) as A. pose proof (cross_mag_val _ _ _ _ U0 U1) as B. cbn in A, B |- *. rewrite A, B. reflexivity. }
  pose proof (chirality_val _ _ _ _ _ _ _ _ _ _ U0 U1 WT V0 V1) as C.
  destruct (chirality dualops _ _ _ _ _) eqn:E; [|cbn [orel]; fold (unit_n (F0 p)) (unit_n (F1 p)); fold (L0 p) (L1 p); now rewrite <- C].
  symmetry in C. destruct (chirality_nz _ _ _ _ _ C) as [N0 N1].
  assert (cross_mag realops (unit_n (F0 p)) (unit_n (F1 p)) <> 0) as NC. { intro Z. apply N0. unfold L0. rewrite Z. cbn. unfold Rdiv. rewrite Rinv_0. ring. }
  assert (0 < nvnorm2 realops (F0 p)) as P0. { destruct (Rlt_dec 0 (nvnorm2 realops (F0 p))) as [?|N]; [assumption|]. exfalso. apply NC. rewrite (unit_n_zero _ N). exact (proj1 (cross_mag_zero _)). }
  assert (0 < nvnorm2 realops (F1 p)) as P1. { destruct (Rlt_dec 0 (nvnorm2 realops (F1 p))) as [?|N]; [assumption|]. exfalso. apply NC. rewrite (unit_n_zero _ N). exact (proj2 (cross_mag_zero _)). }
  pose proof (normalized_rel _ _ _ _ H0 P0) as R0. pose proof (normalized_rel _ _ _ _ H1 P1) as R1. fold u0 in R0. fold u1 in R1.
  assert (forall A B a b, vrel I p A a -> vrel I p B b -> cross_mag realops (A p) (B p) <> 0 -> rel I p (fun q => cross_mag realops (A q) (B q)) (cross_mag dualops a b)) as CM.
  { intros A B a b HA HB N. unfold cross_mag. apply rel_mag; [relt|]. destruct (Rle_lt_dec (nvnorm2 realops (nvcross realops (A p) (B p))) 0) as [L|L]; [|exact L]. exfalso. apply N. unfold cross_mag, nvmag. apply sqrt_neg_0. exact L. }
  pose proof (CM _ _ _ _ R0 R1 NC) as RC. assert (rel I p (fun q => ndiv realops (nconst realops 1) (cross_mag realops (unit_n (F0 q)) (unit_n (F1 q)))) (ndiv dualops (nconst dualops 1) (cross_mag dualops u0 u1))) as RQ by (apply rel_div; [apply rel_const|exact RC|exact NC]).
  assert (rel I p L0 l0) as RL0. { unfold L0, l0. apply rel_mul; [|exact RQ]. apply CM; [exact R1|exact HT|]. intro Z. apply N0. unfold L0. cbn in Z |- *. rewrite Z. ring. }
  assert (rel I p L1 l1) as RL1. { unfold L1, l1. apply rel_mul; [|exact RQ]. apply CM; [exact R0|exact HT|]. intro Z. apply N1. unfold L1. cbn in Z |- *. rewrite Z. ring. }
  assert (L0 p + L1 p <> 0) as NS.
  { assert (0 <= / cross_mag realops (unit_n (F0 p)) (unit_n (F1 p))) as IP by (apply Rlt_le, Rinv_0_lt_compat; destruct (sqrt_pos (nvnorm2 realops (nvcross realops (unit_n (F0 p)) (unit_n (F1 p))))) as [?|Q]; [assumption|]; exfalso; apply NC; symmetry; exact Q).
    assert (0 <= L0 p /\ 0 <= L1 p) as [A B]. { unfold L0, L1, Rdiv. cbn. unfold Rdiv. rewrite !Rmult_1_l. split; apply Rmult_le_pos; try exact IP; apply sqrt_pos. }
    assert (forall x y : R, 0 <= x -> 0 <= y -> x + y = 0 -> x = 0) as Q by (intros; lra). intro Z. apply N0. exact (Q _ _ A B Z). }
  cbn [orel]. exists (fun q => nvdiv realops (nvadd realops (nvadd realops (nvmul realops (nvmul realops (unit_n (F0 q)) (L0 q)) (L1 q)) (nvmul realops (FT q) (L0 q))) (nvmul realops (nvmul realops (unit_n (F1 q)) (L0 q)) (L1 q))) (nadd realops (L0 q) (L1 q))).
  split; [|apply vrel_div; [apply vrel_add; [apply vrel_add|]; [apply vrel_mul; [apply vrel_mul|]|apply vrel_mul|apply vrel_mul; [apply vrel_mul|]]; assumption|apply rel_add; assumption|exact NS]].
  eapply near_imp; [|exact (near_chirality I p _ _ _ _ _ _ R0 R1 HT _ _ _ _ RL0 RL1 E)]. intros q Hq. cbv beta in Hq. fold (unit_n (F0 q)) (unit_n (F1 q)). fold (L0 q) (L1 q). now rewrite Hq.
Qed.

(** away from the ties of triangulate_assume_intersect *)
Definition det_xz (a b : v3) := - vx a * vz b + vz a * vx b.
Definition det_yz (a b : v3) := - vy a * vz b + vz a * vy b.
Definition ai_regular (a b t : v3) : Prop :=
  Rabs (det_xz a b) <> Rabs (det_yz a b) /\ (Rabs (det_yz a b) < Rabs (det_xz a b) -> vx t * vz a <> vz t * vx a) /\ (Rabs (det_xz a b) < Rabs (det_yz a b) -> vy t * vz a <> vz t * vy a).

Section AI.
Variable I : nat -> Prop.
Variable p : nat -> R.
Notation rel := (rel I p). Notation vrel := (vrel I p). Notation near := (near I p).
Definition srel (F : (nat -> R) -> option (num realops)) (d : option (num dualops)) : Prop :=
  match d with None => F p = None | Some m => exists G, near (fun q => F q = Some (G q)) /\ rel G m end.
Lemma near_Rltb2 : forall A B a b, rel A a -> rel B b -> nval realops (A p) <> nval realops (B p) -> near (fun q => Rltb (nval realops (A q)) (nval realops (B q)) = Rltb (nval dualops a) (nval dualops b)).
Proof.
  intros A B a b HA HB N. rewrite (rel_val _ _ _ _ HA), (rel_val _ _ _ _ HB). cbn in *. destruct (Rtotal_order (A p) (B p)) as [L|[E|L]]; [|now destruct N|].
  - rewrite (Rltb_true _ _ L). apply (near_imp I p (fun q => A q < B q)); [intros q; apply Rltb_true|]. eapply near_lt2; eassumption.
  - rewrite (Rltb_false (A p)) by lra. apply (near_imp I p (fun q => B q < A q)); [intros q Q; apply Rltb_false; lra|]. eapply near_lt2; eassumption.
Qed.
Lemma intersect_k0_srel : forall A0 Z0 A1 Z1 AT ZT a0 z0 a1 z1 at' zt, rel A0 a0 -> rel Z0 z0 -> rel A1 a1 -> rel Z1 z1 -> rel AT at' -> rel ZT zt ->
  A1 p * Z0 p - A0 p * Z1 p <> 0 -> AT p * Z0 p <> ZT p * A0 p ->
  srel (fun q => intersect_k0 realops (A0 q) (Z0 q) (A1 q) (Z1 q) (AT q) (ZT q)) (intersect_k0 dualops a0 z0 a1 z1 at' zt).
Proof.
  intros A0 Z0 A1 Z1 AT ZT a0 z0 a1 z1 at' zt RA0 RZ0 RA1 RZ1 RAT RZT ND NT. unfold intersect_k0. cbv zeta.
  set (det := nsub dualops (nmul dualops a1 z0) (nmul dualops a0 z1)). set (D := fun q => nsub realops (nmul realops (A1 q) (Z0 q)) (nmul realops (A0 q) (Z1 q))).
  assert (rel D det) as RD by (unfold D, det; relt). set (k0 := ndiv dualops _ det).
  set (K := fun q => ndiv realops (nsub realops (nmul realops (ZT q) (A1 q)) (nmul realops (AT q) (Z1 q))) (D q)).
  assert (rel K k0) as RK by (unfold K, k0; apply rel_div; [relt|exact RD|exact ND]).
  destruct (Rleb (nval dualops k0) 0) eqn:E0.
  { cbn [srel]. fold (D p). fold (K p). rewrite <- (rel_nval _ _ _ _ RK), E0. reflexivity. }
  pose proof (near_Rleb_r I p _ _ _ RK E0) as N0.
  assert (near (fun q => Rltb (Rmult (nval realops (AT q)) (nval realops (Z0 q))) (Rmult (nval realops (ZT q)) (nval realops (A0 q))) = Rltb (Rmult (nval dualops at') (nval dualops z0)) (Rmult (nval dualops zt) (nval dualops a0)))) as N1.
  { pose proof (near_Rltb2 _ _ _ _ (rel_mul _ _ _ _ _ _ RAT RZ0) (rel_mul _ _ _ _ _ _ RZT RA0) NT) as Q. exact Q. }
  assert (near (fun q => Rltb 0 (nval realops (D q)) = Rltb 0 (nval dualops det))) as N2.
  { pose proof (near_Rltb2 _ _ _ _ (rel_const I p 0) RD (fun Z => ND (eq_sym Z))) as Q. exact Q. }
  destruct (xorb _ _) eqn:X.
  { cbn [srel]. fold (D p). fold (K p). rewrite <- (rel_nval _ _ _ _ RK), E0. destruct N1 as [N1 _]. destruct N2 as [N2 _]. cbv beta in N1, N2. rewrite N1, N2, X. reflexivity. }
  cbn [srel]. exists K. split; [|exact RK]. eapply near_imp; [|exact (near_and I p _ _ N0 (near_and I p _ _ N1 N2))]. intros q (Q0 & Q1 & Q2). cbv beta in Q0, Q1, Q2. fold (D q). fold (K q). rewrite Q0, Q1, Q2, X. reflexivity.
Qed.
Variables F0 F1 FT : (nat -> R) -> nv3 realops.
Variables d0 d1 dt : nv3 dualops.
Hypothesis H0 : vrel F0 d0. Hypothesis H1 : vrel F1 d1. Hypothesis HT : vrel FT dt.
Lemma abs_sign : forall x : R, exists s, (s = 1 \/ s = -1) /\ Rabs x = s * x.
Proof. intro x. destruct (Rle_lt_dec 0 x); [exists 1; rewrite Rabs_right by lra; split; [auto|ring]|exists (-1); rewrite Rabs_left by lra; split; [auto|ring]]. Qed.
Lemma abs_lt : forall x y s : R, (s = 1 \/ s = -1) -> x < y * s -> x * -1 < y * s -> Rabs x < Rabs y.
Proof. intros x y s [-> | ->] A B; unfold Rabs; destruct (Rcase_abs x), (Rcase_abs y); lra. Qed.
Lemma rel_abs_near : forall A B a b, rel A a -> rel B b -> Rabs (A p) < Rabs (B p) -> near (fun q => Rabs (A q) < Rabs (B q)).
Proof.
  intros A B a b HA HB L. assert (0 < Rabs (B p)) as PB by (pose proof (Rabs_pos (A p)); lra).
  assert (exists s, (s = 1 \/ s = -1) /\ Rabs (B p) = s * B p) as (s & Hs & Es).
  { exact (abs_sign (B p)). }
  pose proof (rel_mulc _ _ _ _ s HB) as HB'. pose proof (rel_neg _ _ _ _ HB') as _.
  assert (near (fun q => A q < nmulc realops (B q) s)) as N1. { eapply near_lt2; [exact HA|exact HB'|]. cbn. rewrite (Rmult_comm (B p)), <- Es. pose proof (Rle_abs (A p)). lra. }
  assert (near (fun q => nneg realops (A q) < nmulc realops (B q) s)) as N2. { eapply near_lt2; [exact (rel_neg _ _ _ _ HA)|exact HB'|]. cbn. rewrite (Rmult_comm (B p)), <- Es. pose proof (Rle_abs (- A p)) as Q. rewrite Rabs_Ropp in Q. lra. }
  eapply near_imp; [|exact (near_and I p _ _ N1 N2)]. intros q [L1 L2]. exact (abs_lt _ _ s Hs L1 L2).
Qed.
Lemma near_Rltb_abs : forall A B a b, rel A a -> rel B b -> Rabs (A p) <> Rabs (B p) -> near (fun q => Rltb (Rabs (A q)) (Rabs (B q)) = Rltb (Rabs (A p)) (Rabs (B p))).
Proof.
  intros A B a b HA HB N. destruct (Rtotal_order (Rabs (A p)) (Rabs (B p))) as [L|[E|L]]; [|now destruct N|].
  - rewrite (Rltb_true _ _ L). apply (near_imp I p (fun q => Rabs (A q) < Rabs (B q))); [intros q; apply Rltb_true|]. eapply rel_abs_near; eassumption.
  - rewrite (Rltb_false (Rabs (A p))) by lra. apply (near_imp I p (fun q => Rabs (B q) < Rabs (A q))); [intros q Q; apply Rltb_false; lra|]. eapply rel_abs_near; eassumption.
Qed.
Lemma near_Rleb_abs : forall A a c, 0 <= c -> rel A a -> Rleb (Rabs (A p)) c = false -> near (fun q => Rleb (Rabs (A q)) c = false).
Proof.
  intros A a c C HA L. rewrite Rleb_Rltb, negb_false_iff, Rltb_iff in L. pose proof (rel_const I p c) as HC.
  apply (near_imp I p (fun q => Rabs c < Rabs (A q))); [intros q Q; rewrite Rleb_Rltb, negb_false_iff, Rltb_iff; rewrite Rabs_right in Q by lra; exact Q|]. eapply (rel_abs_near (fun _ => nconst realops c)); [exact HC|exact HA|]. cbn. rewrite Rabs_right by lra. exact L.
Qed.
Theorem assume_intersect_orel : ai_regular (nvval realops (F0 p)) (nvval realops (F1 p)) (nvval realops (FT p)) ->
  orel I p (fun q => assume_intersect realops (F0 q) (F1 q) (FT q)) (assume_intersect dualops d0 d1 dt).
Proof.
  intros (NE & RX & RY). unfold ai_regular, det_xz, det_yz in *. cbn [vx vy vz nvval] in NE, RX, RY. destruct H0 as (X0 & Y0 & Z0), H1 as (X1 & Y1 & Z1), HT as (XT & YT & ZT).
  unfold assume_intersect. cbv zeta. rewrite !(rel_nval _ _ _ _ X0), !(rel_nval _ _ _ _ Y0), !(rel_nval _ _ _ _ Z0), !(rel_nval _ _ _ _ X1), !(rel_nval _ _ _ _ Y1), !(rel_nval _ _ _ _ Z1).
  set (DX := fun q : nat -> R => (- nval realops (n_x (F0 q)) * nval realops (n_z (F1 q)) + nval realops (n_z (F0 q)) * nval realops (n_x (F1 q)))%R). set (DY := fun q : nat -> R => (- nval realops (n_y (F0 q)) * nval realops (n_z (F1 q)) + nval realops (n_z (F0 q)) * nval realops (n_y (F1 q)))%R).
  assert (rel DX (nadd dualops (nmul dualops (nneg dualops (n_x d0)) (n_z d1)) (nmul dualops (n_z d0) (n_x d1)))) as RDX.
  { apply (rel_loc I p (fun q => nadd realops (nmul realops (nneg realops (n_x (F0 q))) (n_z (F1 q))) (nmul realops (n_z (F0 q)) (n_x (F1 q))))); [|apply near_all; intro q; unfold DX, nneg; cbn; ring|relt].
    intros q q' Q. unfold DX. now rewrite (vrel_ext _ _ _ _ q q' H0 Q), (vrel_ext _ _ _ _ q q' H1 Q). }
  assert (rel DY (nadd dualops (nmul dualops (nneg dualops (n_y d0)) (n_z d1)) (nmul dualops (n_z d0) (n_y d1)))) as RDY.
  { apply (rel_loc I p (fun q => nadd realops (nmul realops (nneg realops (n_y (F0 q))) (n_z (F1 q))) (nmul realops (n_z (F0 q)) (n_y (F1 q))))); [|apply near_all; intro q; unfold DY, nneg; cbn; ring|relt].
    intros q q' Q. unfold DY. now rewrite (vrel_ext _ _ _ _ q q' H0 Q), (vrel_ext _ _ _ _ q q' H1 Q). }
  pose proof (near_Rltb_abs _ _ _ _ RDY RDX (fun Z => NE (eq_sym Z))) as NS. 
  assert (forall sx (K : (nat -> R) -> option (num realops)) k0, near (fun q => Rltb (Rabs (DY q)) (Rabs (DX q)) = sx) -> srel K k0 ->
    orel I p (fun q => match K q with None => None | Some k => Some (nvmul realops (F0 q) k) end) (match k0 with None => None | Some k => Some (nvmul dualops d0 k) end)) as Fin.
  { intros sx K k0 _ SR. destruct k0 as [k0|]; cbn [orel srel] in *; [|now rewrite SR]. destruct SR as (G & NG & RG). exists (fun q => nvmul realops (F0 q) (G q)). split; [|now apply vrel_mul].
    eapply near_imp; [|exact NG]. intros q ->. reflexivity. }
  eapply Fin; [exact NS|]. clear Fin.
  assert (forall (Ka Kb : (nat -> R) -> option (num realops)) ka kb, (Rltb (Rabs (DY p)) (Rabs (DX p)) = true -> srel Ka ka) -> (Rltb (Rabs (DY p)) (Rabs (DX p)) = false -> srel Kb kb) ->
     srel (fun q => if Rltb (Rabs (DY q)) (Rabs (DX q)) then Ka q else Kb q) (if Rltb (Rabs (DY p)) (Rabs (DX p)) then ka else kb)) as Sel.
  { intros Ka Kb ka kb A B. destruct (Rltb (Rabs (DY p)) (Rabs (DX p))) eqn:E; [specialize (A eq_refl); destruct ka|specialize (B eq_refl); destruct kb]; cbn [srel] in *; try (now rewrite E).
    - destruct A as (G & NG & RG). exists G. split; [|exact RG]. eapply near_imp; [|exact (near_and I p _ _ NS NG)]. intros q [-> ->]. reflexivity.
    - destruct B as (G & NG & RG). exists G. split; [|exact RG]. eapply near_imp; [|exact (near_and I p _ _ NS NG)]. intros q [-> ->]. reflexivity. }
  apply Sel; intro E.
  - fold (DX p). destruct (Rleb (Rabs (DX p)) tiny) eqn:T; [cbn [srel]; fold (DX p); now rewrite T|].
    pose proof (near_Rleb_abs _ _ tiny ltac:(unfold tiny; lra) RDX T) as NT. apply Rltb_iff in E.
    assert (srel (fun q => intersect_k0 realops (n_x (F0 q)) (n_z (F0 q)) (n_x (F1 q)) (n_z (F1 q)) (n_x (FT q)) (n_z (FT q))) (intersect_k0 dualops (n_x d0) (n_z d0) (n_x d1) (n_z d1) (n_x dt) (n_z dt))) as SR.
    { apply intersect_k0_srel; try assumption; [|now apply RX]. intro Z. apply Rleb_false_iff in T. unfold DX in T. match type of T with _ < Rabs ?e => replace e with 0 in T by (cbn in Z |- *; lra) end. rewrite Rabs_R0 in T. unfold tiny in T. lra. }
    destruct (intersect_k0 dualops _ _ _ _ _ _); cbn [srel] in *; [|fold (DX p); now rewrite T]. destruct SR as (G & NG & RG). exists G. split; [|exact RG].
    eapply near_imp; [|exact (near_and I p _ _ NT NG)]. intros q [Q ->]. cbv beta in Q. fold (DX q). now rewrite Q.
  - fold (DY p). destruct (Rleb (Rabs (DY p)) tiny) eqn:T; [cbn [srel]; fold (DY p); now rewrite T|].
    pose proof (near_Rleb_abs _ _ tiny ltac:(unfold tiny; lra) RDY T) as NT.
    assert (srel (fun q => intersect_k0 realops (n_y (F0 q)) (n_z (F0 q)) (n_y (F1 q)) (n_z (F1 q)) (n_y (FT q)) (n_z (FT q))) (intersect_k0 dualops (n_y d0) (n_z d0) (n_y d1) (n_z d1) (n_y dt) (n_z dt))) as SR.
    { apply intersect_k0_srel; try assumption; [|apply RY]. 
      - intro Z. apply Rleb_false_iff in T. unfold DY in T. match type of T with _ < Rabs ?e => replace e with 0 in T by (cbn in Z |- *; lra) end. rewrite Rabs_R0 in T. unfold tiny in T. lra.
      - destruct (Rtotal_order (Rabs (DX p)) (Rabs (DY p))) as [L|[L|L]]; [exact L|now destruct NE|]. rewrite (Rltb_true _ _ L) in E. discriminate. }
    destruct (intersect_k0 dualops _ _ _ _ _ _); cbn [srel] in *; [|fold (DY p); now rewrite T]. destruct SR as (G & NG & RG). exists G. split; [|exact RG].
    eapply near_imp; [|exact (near_and I p _ _ NT NG)]. intros q [Q ->]. cbv beta in Q. fold (DY q). now rewrite Q.
Qed.
End AI.

Lemma l1_n_nz : forall b t a, norm2 (cross b t) = 0 -> ~ dot b t * dot b t * norm2 a < dot a t * dot a t * norm2 b.
Proof.
  intros b t a Z L. pose proof (lagrange b t) as L1. pose proof (lagrange a t) as L2. rewrite Z, Rplus_0_l in L1. rewrite L1 in L. pose proof (norm2_nonneg (cross a t)) as P. pose proof (norm2_nonneg b) as Q.
  assert (dot a t * dot a t * norm2 b <= norm2 a * norm2 t * norm2 b) by (apply Rmult_le_compat_r; lra). lra.
Qed.
Section Lee.
Variable I : nat -> Prop.
Variable p : nat -> R.
Notation rel := (rel I p). Notation vrel := (vrel I p). Notation near := (near I p).
Variables F0 F1 FT : (nat -> R) -> nv3 realops.
Variables d0 d1 dt : nv3 dualops.
Hypothesis H0 : vrel F0 d0. Hypothesis H1 : vrel F1 d1. Hypothesis HT : vrel FT dt.
Lemma deflect_rel : forall A N a n, vrel A a -> vrel N n -> nvnorm2 realops (N p) <> 0 -> vrel (fun q => deflect realops (A q) (N q)) (deflect dualops a n).
Proof. intros A N a n HA HN NZ. unfold deflect. apply vrel_sub; [exact HA|]. apply vrel_div; [relt|relt|exact NZ]. Qed.
Lemma orel_near : forall F G d, (forall q, F q = G q) -> orel I p G d -> orel I p F d.
Proof.
  intros F G d E H. destruct d as [m|]; cbn [orel] in *; [|now rewrite E]. destruct H as (K & N & R). exists K. split; [|exact R]. eapply near_imp; [|exact N]. intros q Q. now rewrite E.
Qed.
Lemma orel_loc : forall F G d, near (fun q => F q = G q) -> orel I p G d -> orel I p F d.
Proof.
  intros F G d E H. destruct d as [m|]; cbn [orel] in *; [|rewrite (proj1 E); exact H]. destruct H as (K & N & R). exists K. split; [|exact R]. eapply near_imp; [|exact (near_and I p _ _ E N)]. intros q [Q1 Q2]. cbv beta in Q1, Q2. now rewrite Q1.
Qed.
Theorem l1_orel : let a := nvval realops (F0 p) in let b := nvval realops (F1 p) in let t := nvval realops (FT p) in
  dot b t * dot b t * norm2 a <> dot a t * dot a t * norm2 b ->
  (let '(w0, w1) := l1_rays realops (F0 p) (F1 p) (FT p) in ai_regular (nvval realops w0) (nvval realops w1) t) ->
  orel I p (fun q => tri_l1 realops (F0 q) (F1 q) (FT q)) (tri_l1 dualops d0 d1 dt).
Proof.
  intros a b t NE AI. unfold tri_l1, l1_rays in *. cbv zeta in *.
  set (LHS := fun q => nmul realops (nmul realops (nvdot realops (F1 q) (FT q)) (nvdot realops (F1 q) (FT q))) (nvnorm2 realops (F0 q))).
  set (RHS := fun q => nmul realops (nmul realops (nvdot realops (F0 q) (FT q)) (nvdot realops (F0 q) (FT q))) (nvnorm2 realops (F1 q))).
  pose (lhs := nmul dualops (nmul dualops (nvdot dualops d1 dt) (nvdot dualops d1 dt)) (nvnorm2 dualops d0)). pose (rhs := nmul dualops (nmul dualops (nvdot dualops d0 dt) (nvdot dualops d0 dt)) (nvnorm2 dualops d1)).
  assert (rel LHS lhs) as RL by (unfold LHS, lhs; relt). assert (rel RHS rhs) as RR by (unfold RHS, rhs; relt).
  assert (LHS p = dot b t * dot b t * norm2 a) as EL by (unfold LHS, a, b, t, nvnorm2, nvdot, norm2, dot; cbn; eqR; ring).
  assert (RHS p = dot a t * dot a t * norm2 b) as ER by (unfold RHS, a, b, t, nvnorm2, nvdot, norm2, dot; cbn; eqR; ring).
  assert (LHS p <> RHS p) as NE' by (rewrite EL, ER; exact NE).
  pose proof (near_Rltb2 I p _ _ _ _ RL RR NE') as NS. cbv beta in NS. change (Rltb (nval dualops lhs) (nval dualops rhs)) with (Rltb (nval dualops lhs) (nval dualops rhs)) in NS.
  change (Rltb (nval dualops (nvdot dualops d1 dt) * nval dualops (nvdot dualops d1 dt) * nval dualops (nvnorm2 dualops d0)) (nval dualops (nvdot dualops d0 dt) * nval dualops (nvdot dualops d0 dt) * nval dualops (nvnorm2 dualops d1))) with (Rltb (nval dualops lhs) (nval dualops rhs)).
  pose proof (proj1 NS) as NP. cbv beta in NP. change (Rltb (nval realops (nvdot realops (F1 p) (FT p)) * nval realops (nvdot realops (F1 p) (FT p)) * nval realops (nvnorm2 realops (F0 p))) (nval realops (nvdot realops (F0 p) (FT p)) * nval realops (nvdot realops (F0 p) (FT p)) * nval realops (nvnorm2 realops (F1 p)))) with (Rltb (nval realops (LHS p)) (nval realops (RHS p))) in AI.
  rewrite NP in AI. destruct (Rltb (nval dualops lhs) (nval dualops rhs)) eqn:S.
  - apply (orel_loc _ (fun q => assume_intersect realops (deflect realops (F0 q) (nvcross realops (F1 q) (FT q))) (F1 q) (FT q))).
    { eapply near_imp; [|exact NS]. intros q Q. cbv beta in Q. match goal with |- context [if ?c then _ else _] => change c with (Rltb (nval realops (LHS q)) (nval realops (RHS q))) end. rewrite Q. reflexivity. }
    apply (assume_intersect_orel I p (fun q => deflect realops (F0 q) (nvcross realops (F1 q) (FT q))) F1 FT); [|exact H1|exact HT|exact AI]. apply deflect_rel; [exact H0|relt|].
    intro Z. apply Rltb_iff in NP. cbn [nval realops] in NP. rewrite EL, ER in NP. assert (norm2 (cross b t) = 0) as Zc by (rewrite <- Z; unfold b, t, nvnorm2, nvdot, norm2, dot; cbn; eqR; ring). exact (l1_n_nz _ _ _ Zc NP).
  - apply (orel_loc _ (fun q => assume_intersect realops (F0 q) (deflect realops (F1 q) (nvcross realops (F0 q) (FT q))) (FT q))).
    { eapply near_imp; [|exact NS]. intros q Q. cbv beta in Q. match goal with |- context [if ?c then _ else _] => change c with (Rltb (nval realops (LHS q)) (nval realops (RHS q))) end. rewrite Q. reflexivity. }
    apply (assume_intersect_orel I p F0 (fun q => deflect realops (F1 q) (nvcross realops (F0 q) (FT q))) FT); [exact H0| |exact HT|exact AI]. apply deflect_rel; [exact H1|relt|].
    intro Z. assert (norm2 (cross a t) = 0) as Zc by (rewrite <- Z; unfold a, t, nvnorm2, nvdot, norm2, dot; cbn; eqR; ring).
    assert (~ LHS p < RHS p) as NL by (intro L; apply Rltb_true in L; cbn [nval realops] in NP; rewrite L in NP; discriminate). rewrite EL, ER in NL.
    apply (l1_n_nz _ _ b Zc). lra.
Qed.
Theorem linf_orel : let a := nvval realops (F0 p) in let b := nvval realops (F1 p) in let t := nvval realops (FT p) in
  a <> S_Vec.v0 -> b <> S_Vec.v0 ->
  norm2 (cross (vadd (vscale (/ norm a) a) (vscale (/ norm b) b)) t) <> norm2 (cross (vsub (vscale (/ norm a) a) (vscale (/ norm b) b)) t) ->
  (let '(w0, w1) := linf_rays realops (F0 p) (F1 p) (FT p) in ai_regular (nvval realops w0) (nvval realops w1) t) ->
  orel I p (fun q => tri_linf realops (F0 q) (F1 q) (FT q)) (tri_linf dualops d0 d1 dt).
Proof.
  intros a b t NA NB NE AI. unfold tri_linf, linf_rays in *. cbv zeta in *.
  assert (F0 p = rv a /\ F1 p = rv b /\ FT p = rv t) as (EA & EB & ET). { unfold a, b, t. destruct (F0 p), (F1 p), (FT p). repeat split. }
  assert (0 < nvnorm2 realops (F0 p)) as PA by (rewrite EA, rv_norm2; now apply norm2_pos). assert (0 < nvnorm2 realops (F1 p)) as PB by (rewrite EB, rv_norm2; now apply norm2_pos).
  pose proof (normalized_rel _ _ _ _ H0 PA) as R0. pose proof (normalized_rel _ _ _ _ H1 PB) as R1. set (u0 := nvdiv dualops d0 _) in *. set (u1 := nvdiv dualops d1 _) in *.
  set (NAf := fun q => nvcross realops (nvadd realops (unit_n (F0 q)) (unit_n (F1 q))) (FT q)). set (NBf := fun q => nvcross realops (nvsub realops (unit_n (F0 q)) (unit_n (F1 q))) (FT q)).
  set (na := nvcross dualops (nvadd dualops u0 u1) dt). set (nb := nvcross dualops (nvsub dualops u0 u1) dt).
  assert (vrel NAf na) as RA by (unfold NAf, na; relt). assert (vrel NBf nb) as RB by (unfold NBf, nb; relt).
  assert (nvnorm2 realops (NAf p) = norm2 (cross (vadd (vscale (/ norm a) a) (vscale (/ norm b) b)) t)) as VA by (unfold NAf, unit_n; rewrite EA, EB, ET; rvs; reflexivity).
  assert (nvnorm2 realops (NBf p) = norm2 (cross (vsub (vscale (/ norm a) a) (vscale (/ norm b) b)) t)) as VB by (unfold NBf, unit_n; rewrite EA, EB, ET; rvs; reflexivity).
  pose proof (near_Rltb2 I p _ _ _ _ (rel_norm2 _ _ _ _ RB) (rel_norm2 _ _ _ _ RA)) as NS. cbn [nval realops] in NS. rewrite VA, VB in NS. specialize (NS (fun Z => NE (eq_sym Z))).
  pose proof (proj1 NS) as NP. cbv beta in NP. fold (unit_n (F0 p)) (unit_n (F1 p)) in AI. fold (NAf p) (NBf p) in AI. cbn [nval realops] in AI. rewrite NP in AI. cbn [nval dualops] in NS, NP |- *.
  set (c := Rltb (dx (nvnorm2 dualops nb)) (dx (nvnorm2 dualops na))) in *.
  assert (vrel (fun q => if c then NAf q else NBf q) (if c then na else nb)) as RN by (destruct c; assumption).
  apply (orel_loc _ (fun q => assume_intersect realops (deflect realops (unit_n (F0 q)) (if c then NAf q else NBf q)) (deflect realops (unit_n (F1 q)) (if c then NAf q else NBf q)) (FT q))).
  { eapply near_imp; [|exact NS]. intros q Q. cbv beta in Q. fold (unit_n (F0 q)) (unit_n (F1 q)). fold (NAf q) (NBf q). cbn [nval realops]. rewrite Q. reflexivity. }
  assert (nvnorm2 realops (if c then NAf p else NBf p) <> 0) as NZ.
  { destruct c; [apply Rltb_iff in NP|]; rewrite ?VA, ?VB in *; pose proof (norm2_nonneg (cross (vsub (vscale (/ norm a) a) (vscale (/ norm b) b)) t)); pose proof (norm2_nonneg (cross (vadd (vscale (/ norm a) a) (vscale (/ norm b) b)) t)); intro Z.
    - rewrite Z in NP. lra.
    - assert (~ norm2 (cross (vsub (vscale (/ norm a) a) (vscale (/ norm b) b)) t) < norm2 (cross (vadd (vscale (/ norm a) a) (vscale (/ norm b) b)) t)) as NL by (intro L; apply Rltb_true in L; rewrite L in NP; discriminate). apply NE. lra. }
  apply (assume_intersect_orel I p (fun q => deflect realops (unit_n (F0 q)) (if c then NAf q else NBf q)) (fun q => deflect realops (unit_n (F1 q)) (if c then NAf q else NBf q)) FT); [| |exact HT|exact AI].
  - apply (deflect_rel (fun q => unit_n (F0 q)) (fun q => if c then NAf q else NBf q)); assumption.
  - apply (deflect_rel (fun q => unit_n (F1 q)) (fun q => if c then NAf q else NBf q)); assumption.
Qed.
End Lee.

(** ** The claims.  p: the 9 numbers v0, v1, t.  m: what is reported, a value
    and its derivatives by each of the 9. *)
Definition grad_ok (f : v3 -> v3 -> v3 -> v3) (p : nat -> R) (m : nv3 dualops) : Prop :=
  nvval dualops m = f (vec_at p 0) (vec_at p 3) (vec_at p 6) /\
  forall i, let g x := f (vec_at (setv p i x) 0) (vec_at (setv p i x) 3) (vec_at (setv p i x) 6) in
    is_derive (fun x => vx (g x)) (p i) (dj (n_x m) i) /\ is_derive (fun x => vy (g x)) (p i) (dj (n_y m) i) /\ is_derive (fun x => vz (g x)) (p i) (dj (n_z m) i).
Definition with_grad (T : nv3 dualops -> nv3 dualops -> nv3 dualops -> option (nv3 dualops)) (p : nat -> R) : option (nv3 dualops) :=
  T (d_vars (vec_at p 0) 0) (d_vars (vec_at p 3) 3) (d_vars (vec_at p 6) 6).
Definition all (i : nat) : Prop := True.
Lemma orel_grad : forall (T : nv3 realops -> nv3 realops -> nv3 realops -> option (nv3 realops)) p m,
  orel all p (fun q => T (rv (vec_at q 0)) (rv (vec_at q 3)) (rv (vec_at q 6))) (Some m) -> grad_ok (fun a b t => point_of (T (rv a) (rv b) (rv t))) p m.
Proof.
  intros T p m (G & N & R). split.
  - rewrite (vrel_val _ _ _ _ R). destruct N as [N _]. cbv beta in N. now rewrite N.
  - intros i. cbv zeta. destruct R as ((_ & _ & A) & (_ & _ & B) & (_ & _ & C)). destruct N as [_ N]. specialize (N i Logic.I). specialize (A i Logic.I). specialize (B i Logic.I). specialize (C i Logic.I).
    split; [|split].
    + apply (is_derive_ext_loc (fun x => n_x (G (setv p i x)))); [|exact A]. generalize N. apply filter_imp. intros x E. cbv beta in E. now rewrite E.
    + apply (is_derive_ext_loc (fun x => n_y (G (setv p i x)))); [|exact B]. generalize N. apply filter_imp. intros x E. cbv beta in E. now rewrite E.
    + apply (is_derive_ext_loc (fun x => n_z (G (setv p i x)))); [|exact C]. generalize N. apply filter_imp. intros x E. cbv beta in E. now rewrite E.
Qed.
Lemma vars9 : forall p, vrel all p (fun q => rv (vec_at q 0)) (d_vars (vec_at p 0) 0) /\ vrel all p (fun q => rv (vec_at q 3)) (d_vars (vec_at p 3) 3) /\ vrel all p (fun q => rv (vec_at q 6)) (d_vars (vec_at p 6) 6).
Proof. intro p. split; [|split]; apply vrel_vars. Qed.
(** Whenever the geometric / mid2 / weighted mid2 method succeeds, all its
    gradients are exact. *)
Theorem C63_geometric : forall p m, with_grad (tri_geometric dualops) p = Some m -> grad_ok geometric p m.
Proof. intros p m E. destruct (vars9 p) as (A & B & C). apply (orel_grad (tri_geometric realops)). rewrite <- E. exact (geometric_orel _ _ _ _ _ _ _ _ A B C). Qed.
Theorem C63_mid2 : forall p m, with_grad (tri_mid2 dualops) p = Some m -> grad_ok mid2 p m.
Proof. intros p m E. destruct (vars9 p) as (A & B & C). apply (orel_grad (tri_mid2 realops)). rewrite <- E. exact (mid2_orel _ _ _ _ _ _ _ _ A B C). Qed.
Theorem C63_wmid2 : forall p m, with_grad (tri_wmid2 dualops) p = Some m -> grad_ok wmid2 p m.
Proof. intros p m E. destruct (vars9 p) as (A & B & C). apply (orel_grad (tri_wmid2 realops)). rewrite <- E. exact (wmid2_orel _ _ _ _ _ _ _ _ A B C). Qed.
(** For L1 and Linf: where the choice of the plane, and the choice of the axis
    in triangulate_assume_intersect, is not tied, and the point is not at camera 1. *)
Theorem C63_l1 : forall p m, with_grad (tri_l1 dualops) p = Some m ->
  let a := vec_at p 0 in let b := vec_at p 3 in let t := vec_at p 6 in
  dot b t * dot b t * norm2 a <> dot a t * dot a t * norm2 b ->
  (let '(w0, w1) := l1_rays realops (rv a) (rv b) (rv t) in ai_regular (nvval realops w0) (nvval realops w1) t) ->
  grad_ok leecivera_l1 p m.
Proof. intros p m E a b t H1 H2. destruct (vars9 p) as (A & B & C). apply (orel_grad (tri_l1 realops)). rewrite <- E. exact (l1_orel _ _ _ _ _ _ _ _ A B C H1 H2). Qed.
Theorem C63_linf : forall p m, with_grad (tri_linf dualops) p = Some m ->
  let a := vec_at p 0 in let b := vec_at p 3 in let t := vec_at p 6 in a <> v0 -> b <> v0 ->
  norm2 (cross (vadd (vscale (/ norm a) a) (vscale (/ norm b) b)) t) <> norm2 (cross (vsub (vscale (/ norm a) a) (vscale (/ norm b) b)) t) ->
  (let '(w0, w1) := linf_rays realops (rv a) (rv b) (rv t) in ai_regular (nvval realops w0) (nvval realops w1) t) ->
  grad_ok leecivera_linf p m.
Proof. intros p m E a b t NA NB H1 H2. destruct (vars9 p) as (A & B & C). apply (orel_grad (tri_linf realops)). rewrite <- E. exact (linf_orel _ _ _ _ _ _ _ _ A B C NA NB H1 H2). Qed.
(** and asking for gradients never changes whether the method succeeds *)
Theorem C63_same_outcome : forall p, let a := rv (vec_at p 0) in let b := rv (vec_at p 3) in let t := rv (vec_at p 6) in
  (with_grad (tri_geometric dualops) p = None <-> tri_geometric realops a b t = None) /\
  (with_grad (tri_mid2 dualops) p = None <-> tri_mid2 realops a b t = None) /\ (with_grad (tri_wmid2 dualops) p = None <-> tri_wmid2 realops a b t = None).
Proof.
  intros p a b t. destruct (vars9 p) as (A & B & C).
  assert (forall F d, orel all p F d -> (d = None <-> F p = None)) as Q. { intros F d H. destruct d as [m|]; cbn [orel] in H; [|tauto]. destruct H as (G & [N _] & _). cbv beta in N. rewrite N. split; discriminate. }
  split; [exact (Q _ _ (geometric_orel _ _ _ _ _ _ _ _ A B C))|]. split; [exact (Q _ _ (mid2_orel _ _ _ _ _ _ _ _ A B C))|exact (Q _ _ (wmid2_orel _ _ _ _ _ _ _ _ A B C))].
Qed.

(** ** The residual's gradient, by v1 (0-2) and t (3-5); v0 is fixed *)
Definition angle_regular (a b : v3) : Prop := a <> v0 /\ b <> v0 /\ dot a b <> 0 /\ 2 - 2 * (Rabs (dot a b) / (norm a * norm b)) <> 1 / 1000000000000000000000.
Lemma angle_error_rel : forall I p A B a b, vrel I p A a -> vrel I p B b -> angle_regular (nvval realops (A p)) (nvval realops (B p)) ->
  rel I p (fun q => angle_error realops (A q) (B q)) (angle_error dualops a b).
Proof.
  intros I p A B a b HA HB (NA & NB & ND & NT). unfold angle_error. cbv zeta.
  set (x := nvval realops (A p)) in *. set (y := nvval realops (B p)) in *.
  assert (A p = rv x /\ B p = rv y) as (EX & EY). { unfold x, y. destruct (A p), (B p). split; reflexivity. }
  pose proof (norm2_pos _ NA) as PA. pose proof (norm2_pos _ NB) as PB.
  set (C := fun q => ndiv realops (nvdot realops (A q) (B q)) (nsqrt realops (nmul realops (nvnorm2 realops (A q)) (nvnorm2 realops (B q))))). set (c := ndiv dualops (nvdot dualops a b) _).
  assert (0 < nmul realops (nvnorm2 realops (A p)) (nvnorm2 realops (B p))) as PP by (rewrite EX, EY, !rv_norm2; cbn; now apply Rmult_lt_0_compat).
  assert (rel I p C c) as RC. { unfold C, c. apply rel_div; [relt|apply rel_sqrt; [relt|exact PP]|]. cbn. intro Z. apply sqrt_eq_0 in Z; cbn in PP; lra. }
  assert (C p = dot x y / (norm x * norm y)) as VC. { unfold C. rewrite EX, EY, rv_dot, !rv_norm2. cbn. unfold norm. rewrite sqrt_mult by lra. reflexivity. }
  pose proof (norm_pos _ NA) as QA. pose proof (norm_pos _ NB) as QB. assert (0 < / (norm x * norm y)) as QI by (apply Rinv_0_lt_compat; now apply Rmult_lt_0_compat).
  assert (C p <> 0) as NC. { rewrite VC. unfold Rdiv. intro Z. apply Rmult_integral in Z. destruct Z; [contradiction|lra]. }
  assert (near I p (fun q => Rltb (nval realops (C q)) 0 = Rltb (nval dualops c) 0)) as NS by (exact (near_Rltb2 I p _ _ _ _ RC (rel_const I p 0) NC)).
  set (s := Rltb (nval dualops c) 0) in *. pose (C2 := fun q => if s then nmul realops (C q) (nconst realops (-1)) else C q). set (c2 := if s then nmul dualops c (nconst dualops (-1)) else c).
  assert (rel I p C2 c2) as RC2 by (unfold C2, c2; destruct s; relt).
  assert (C2 p = Rabs (dot x y) / (norm x * norm y)) as VC2.
  { unfold C2. destruct NS as [NS _]. cbn [nval realops] in NS. rewrite <- NS. clear NS. cbn [nmul nconst realops]. rewrite VC. unfold Rltb, Rdiv. destruct (Rlt_dec _ 0) as [L|L].
    - rewrite Rabs_left by nra. eqR. ring.
    - rewrite Rabs_right by nra. reflexivity. }
  set (t := naddc dualops (nmulc dualops c2 (-2)) 2). pose (T := fun q => naddc realops (nmulc realops (C2 q) (-2)) 2). assert (rel I p T t) as RT by (unfold T, t; relt).
  assert (T p <> 1 / 1000000000000000000000) as NT'. { unfold T. cbn [naddc nmulc realops]. rewrite VC2. intro Z. apply NT. rewrite <- Z. eqR. ring. }
  assert (near I p (fun q => Rltb (nval realops (T q)) (1 / 1000000000000000000000) = Rltb (nval dualops t) (1 / 1000000000000000000000))) as NS2 by (exact (near_Rltb2 I p _ _ _ _ RT (rel_const I p (1 / 1000000000000000000000)) NT')).
  set (s2 := Rltb (nval dualops t) _) in *.
  apply (rel_loc I p (fun q => if s2 then nconst realops 0 else nsqrt realops (T q))).
  - intros q q' Q. rewrite (vrel_ext _ _ _ _ q q' HA Q), (vrel_ext _ _ _ _ q q' HB Q). reflexivity.
  - eapply near_imp; [|exact (near_and I p _ _ NS NS2)]. intros q [Q1 Q2]. cbv beta in Q1, Q2. fold (C q). rewrite Q1. fold (C2 q). fold (T q). rewrite Q2. reflexivity.
  - destruct s2 eqn:S; [apply rel_const|]. apply rel_sqrt; [exact RT|]. destruct NS2 as [NS2 _]. cbv beta in NS2. unfold Rltb in NS2. destruct (Rlt_dec _ _) as [L|L] in NS2; [discriminate|]. cbn [nval realops] in L. lra.
Qed.
Definition err_at (a : v3) (q : nat -> R) : R := tri_err a (vec_at q 0) (vec_at q 3).
Lemma residual_rel : forall I p a (B T : (nat -> R) -> v3) b t, vrel I p (fun q => rv (B q)) b -> vrel I p (fun q => rv (T q)) t ->
  cross a (B p) <> v0 -> cross a (T p) <> v0 -> cross (B p) (T p) <> v0 ->
  angle_regular a (nvval realops (mid2_point realops (rv a) (rv (B p)) (rv (T p)))) -> angle_regular a (B p) ->
  rel I p (fun q => tri_err a (B q) (T q)) (triangulated_error dualops (nvconst dualops a) b t).
Proof.
  intros I p a B T b t H1 HT NAB NAT NBT GM GB. pose proof (vrel_const I p a) as H0.
  unfold tri_err, triangulated_error. cbv zeta.
  assert (mid2_l0 realops (rv a) (rv (B p)) (rv (T p)) <> 0 /\ mid2_l1 realops (rv a) (rv (B p)) (rv (T p)) <> 0) as [N0 N1].
  { pose proof (norm2_pos _ NAB) as P1. pose proof (norm2_pos _ NAT) as P2. pose proof (norm2_pos _ NBT) as P3. unfold mid2_l0, mid2_l1, cross_norm2. rvs. cbn.
    split; intro Z; apply sqrt_eq_0 in Z; try (apply Rmult_integral in Z; destruct Z as [Z|Z]; [lra|]; unfold Rdiv in Z; rewrite Rmult_1_l in Z; pose proof (Rinv_0_lt_compat _ P1); lra);
      apply Rmult_le_pos; try lra; unfold Rdiv; rewrite Rmult_1_l; left; now apply Rinv_0_lt_compat. }
  destruct (mid2_rels I p (fun _ => rv a) (fun q => rv (B q)) (fun q => rv (T q)) _ _ _ H0 H1 HT N0 N1) as (R0 & R1 & RM).
  set (L0 := fun q => mid2_l0 realops (rv a) (rv (B q)) (rv (T q))) in *. set (L1 := fun q => mid2_l1 realops (rv a) (rv (B q)) (rv (T q))) in *.
  set (l0 := mid2_l0 dualops _ _ _) in *. set (l1 := mid2_l1 dualops _ _ _) in *.
  pose proof (angle_error_rel I p (fun _ => rv a) _ _ _ H0 RM) as RE. cbv beta in RE. rewrite rv_val in RE. specialize (RE GM).
  assert (forall q q', (forall k, q k = q' k) -> B q = B q' /\ T q = T q') as EXT.
  { intros q q' Q. pose proof (vrel_ext _ _ _ _ q q' H1 Q) as E1. pose proof (vrel_ext _ _ _ _ q q' HT Q) as E2. cbv beta in E1, E2.
    apply (f_equal (nvval realops)) in E1, E2. rewrite !rv_val in E1, E2. now split. }
  destruct (chirality dualops l0 _ l1 _ _) eqn:C.
  - apply (rel_loc I p (fun q => nmulc realops (angle_error realops (rv a) (mid2_point realops (rv a) (rv (B q)) (rv (T q)))) 2)); [| |relt].
    + intros q q' Q. destruct (EXT q q' Q) as [-> ->]. reflexivity.
    + eapply near_imp; [|exact (near_chirality I p _ _ _ _ _ _ H0 H1 HT _ _ _ _ R0 R1 C)]. intros q Q. cbv beta in Q. fold (L0 q) (L1 q). rewrite Q. reflexivity.
  - pose proof (angle_error_rel I p (fun _ => rv a) (fun q => rv (B q)) _ _ H0 H1) as RV. cbv beta in RV. rewrite !rv_val in RV. specialize (RV GB).
    destruct (worsening_rels I p _ _ _ _ _ _ H0 H1 HT L0 L1 l0 l1 R0 R1) as (W0 & W1 & W01).
    pose proof (sigmoid_rel _ _ _ _ 3 ltac:(lra) (rel_neg _ _ _ _ W0)) as S0. pose proof (sigmoid_rel _ _ _ _ 3 ltac:(lra) (rel_neg _ _ _ _ W1)) as S1. pose proof (sigmoid_rel _ _ _ _ 3 ltac:(lra) (rel_neg _ _ _ _ W01)) as S01.
    match type of S0 with P_TriGrad.rel _ _ ?f _ => set (f0 := f) in * end. match type of S1 with P_TriGrad.rel _ _ ?f _ => set (f1 := f) in * end. match type of S01 with P_TriGrad.rel _ _ ?f _ => set (f01 := f) in * end.
    apply (rel_loc I p (fun q => nadd realops (nmulc realops (angle_error realops (rv a) (mid2_point realops (rv a) (rv (B q)) (rv (T q)))) 2)
       (nmul realops (angle_error realops (rv a) (rv (B q))) (nadd realops (nadd realops (f0 q) (f1 q)) (f01 q))))); [| |relt].
    + intros q q' Q. destruct (EXT q q' Q) as [-> ->]. reflexivity.
    + apply near_all. intro q. symmetry. transitivity (tri_err a (B q) (T q)); [reflexivity|]. rewrite C36_no_switch. unfold penalty, f0, f1, f01. fold (L0 q) (L1 q).
      destruct (worsening_real (L0 q) a (L1 q) (B q) (T q)) as (-> & -> & ->). unfold nneg. cbn [nadd nmul nmulc realops].
      assert (forall x y, (x - y) * -1 = y - x) as S by (intros; ring). rewrite !S. reflexivity.
Qed.
Theorem C63_residual : forall a p, let b := vec_at p 0 in let t := vec_at p 3 in
  cross a b <> v0 -> cross a t <> v0 -> cross b t <> v0 ->
  angle_regular a (nvval realops (mid2_point realops (rv a) (rv b) (rv t))) -> angle_regular a b ->
  let e := triangulated_error dualops (nvconst dualops a) (d_vars b 0) (d_vars t 3) in
  dx e = tri_err a b t /\ forall i, is_derive (fun x => err_at a (setv p i x)) (p i) (dj e i).
Proof.
  intros a p b t NAB NAT NBT GM GB e.
  destruct (residual_rel all p a (fun q => vec_at q 0) (fun q => vec_at q 3) _ _ (vrel_vars all p 0) (vrel_vars all p 3) NAB NAT NBT GM GB) as (_ & V & D).
  split; [exact V|intro i; exact (D i Logic.I)].
Qed.
Print Assumptions C63_geometric. Print Assumptions C63_mid2. Print Assumptions C63_wmid2. Print Assumptions C63_l1. Print Assumptions C63_linf. Print Assumptions C63_same_outcome. Print Assumptions C63_residual.

(** ** The hypotheses above are met by ordinary cameras *)
Definition ex_p (k : nat) : R := match k with 0%nat => 1 | 2%nat => 2 | 3%nat => -1 | 5%nat => 4 | 6%nat => 2 | 8%nat => -2 | _ => 0 end.
Definition ex_q (k : nat) : R := ex_p (3 + k).
Lemma ex_meet2 : meet_at (V3 1 0 2) (V3 (-1) 0 4) (V3 2 0 (-2)) (V3 1 0 2) 1 1 /\ cross (V3 1 0 2) (V3 (-1) 0 4) <> v0 /\ tiny < norm2 (cross (V3 1 0 2) (V3 (-1) 0 4)) /\ tiny < dets (V3 1 0 2) (V3 (-1) 0 4).
Proof.
  split; [repeat split; try lra; vring|]. split; [intro Z; apply (f_equal vy) in Z; cbn in Z; lra|]. split; [unfold tiny; vunfold; lra|].
  unfold dets. eapply Rlt_le_trans; [|apply Rmax_r]. cbn. unfold Rabs. destruct (Rcase_abs _); unfold tiny; lra.
Qed.
Example ex_C63 : (exists m, with_grad (tri_geometric dualops) ex_p = Some m) /\ (exists m, with_grad (tri_mid2 dualops) ex_p = Some m) /\ (exists m, with_grad (tri_wmid2 dualops) ex_p = Some m).
Proof.
  destruct ex_meet2 as (M & N & T & D). destruct (C63_same_outcome ex_p) as (A & B & C). change (vec_at ex_p 0) with (V3 1 0 2) in *. change (vec_at ex_p 3) with (V3 (-1) 0 4) in *. change (vec_at ex_p 6) with (V3 2 0 (-2)) in *.
  pose proof (C33_geometric _ _ _ _ _ _ M T) as G. pose proof (C33_mid2 _ _ _ _ _ _ M N) as G2. pose proof (C33_wmid2 _ _ _ _ _ _ M N) as G3. unfold geometric, mid2, wmid2 in G, G2, G3.
  assert (forall o, point_of o = V3 1 0 2 -> o <> None) as Q by (intros o E ->; apply (f_equal vx) in E; cbn in E; lra).
  split; [|split].
  - destruct (with_grad (tri_geometric dualops) ex_p) as [m|]; [now exists m|]. destruct (Q _ G). now apply A.
  - destruct (with_grad (tri_mid2 dualops) ex_p) as [m|]; [now exists m|]. destruct (Q _ G2). now apply B.
  - destruct (with_grad (tri_wmid2 dualops) ex_p) as [m|]; [now exists m|]. destruct (Q _ G3). now apply C.
Qed.
Lemma deflect_in_plane : forall v n, dot v n = 0 -> deflect realops (rv v) (rv n) = rv v.
Proof. intros v n Z. unfold deflect. rvs. rewrite Z. unfold rv. apply rv_eq; vunfold; ring. Qed.
Example ex_C63_l1 : (exists m, with_grad (tri_l1 dualops) ex_p = Some m /\ grad_ok leecivera_l1 ex_p m).
Proof.
  destruct ex_meet2 as (M & N & T & D). destruct (vars9 ex_p) as (A & B & C).
  assert (dot (V3 (-1) 0 4) (V3 2 0 (-2)) * dot (V3 (-1) 0 4) (V3 2 0 (-2)) * norm2 (V3 1 0 2) <> dot (V3 1 0 2) (V3 2 0 (-2)) * dot (V3 1 0 2) (V3 2 0 (-2)) * norm2 (V3 (-1) 0 4)) as NE by (vunfold; lra).
  assert (let '(w0, w1) := l1_rays realops (rv (V3 1 0 2)) (rv (V3 (-1) 0 4)) (rv (V3 2 0 (-2))) in ai_regular (nvval realops w0) (nvval realops w1) (V3 2 0 (-2))) as AI.
  { unfold l1_rays. rvs. cbn [nval realops]. rewrite Rltb_false by (vunfold; lra). rewrite deflect_in_plane by (vunfold; ring). rewrite !rv_val. unfold ai_regular, det_xz, det_yz. cbn.
    replace (- (1) * 4 + 2 * -1) with (-6) by ring. replace (- 0 * 4 + 2 * 0) with 0 by ring. rewrite Rabs_R0, (Rabs_left (-6)) by lra. split; [lra|split; intros; lra]. }
  pose proof (l1_orel all ex_p _ _ _ _ _ _ A B C) as O. cbv zeta beta in O. rewrite !rv_val in O. specialize (O NE AI).
  destruct (with_grad (tri_l1 dualops) ex_p) as [m|] eqn:E.
  - exists m. split; [reflexivity|]. apply C63_l1; assumption.
  - exfalso. unfold with_grad in E. rewrite E in O. cbn [orel] in O. pose proof (C33_l1 _ _ _ _ _ _ M D) as G. unfold leecivera_l1 in G. change (vec_at ex_p 0) with (V3 1 0 2) in O. change (vec_at ex_p 3) with (V3 (-1) 0 4) in O. change (vec_at ex_p 6) with (V3 2 0 (-2)) in O.
    rewrite O in G. apply (f_equal vx) in G. cbn in G. lra.
Qed.
Example ex_C63_residual : let a := V3 1 0 2 in let b := vec_at ex_q 0 in let t := vec_at ex_q 3 in cross a b <> v0 /\ cross a t <> v0 /\ cross b t <> v0 /\ angle_regular a b /\
  angle_regular a (nvval realops (mid2_point realops (rv a) (rv b) (rv t))).
Proof.
  destruct ex_meet2 as (M & N & _). cbv zeta. change (vec_at ex_q 0) with (V3 (-1) 0 4). change (vec_at ex_q 3) with (V3 2 0 (-2)).
  split; [exact N|]. split; [intro Z; apply (f_equal vy) in Z; cbn in Z; lra|]. split; [intro Z; apply (f_equal vy) in Z; cbn in Z; lra|].
  assert (V3 1 0 2 <> v0) as N1 by (intro Z; apply (f_equal vx) in Z; cbn in Z; lra). assert (V3 (-1) 0 4 <> v0) as N2 by (intro Z; apply (f_equal vx) in Z; cbn in Z; lra).
  assert (norm (V3 1 0 2) * norm (V3 (-1) 0 4) = sqrt 85) as E by (unfold norm; rewrite <- sqrt_mult by (vunfold; lra); f_equal; vunfold; ring).
  assert (9 < sqrt 85) as S by (rewrite <- (sqrt_square 9) by lra; apply sqrt_lt_1; lra). split.
  - split; [exact N1|split; [exact N2|split; [vunfold; lra|]]]. rewrite E. replace (dot (V3 1 0 2) (V3 (-1) 0 4)) with 7 by (vunfold; ring). rewrite Rabs_right by lra. assert (7 / sqrt 85 < 7 / 9) by (apply Rmult_lt_compat_l; [lra|apply Rinv_lt_contravar; lra]). lra.
  - pose proof (C33_mid2 _ _ _ _ _ _ M N) as G. unfold mid2, tri_mid2 in G. destruct (chirality _ _ _ _ _ _); [|apply (f_equal vx) in G; cbn in G; lra]. cbn [point_of] in G. rewrite G.
    split; [exact N1|split; [exact N1|split; [vunfold; lra|]]]. pose proof (norm_pos _ N1) as P. replace (Rabs (dot (V3 1 0 2) (V3 1 0 2)) / (norm (V3 1 0 2) * norm (V3 1 0 2))) with 1; [lra|].
    rewrite norm_sq, Rabs_right by (vunfold; lra). vunfold. field.
Qed.
