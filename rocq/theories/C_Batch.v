(** C32: N points at once against one point at a time. *)
From Coq Require Import Reals Lra Lia Arith Bool.
From Verif Require Import S_Vec M_Project M_Unproject.
Open Scope R_scope.

Lemma for_loop_ind : forall {St} (P : nat -> St -> Prop) body s, P 0%nat s -> (forall i x, P i x -> P (S i) (body i x)) -> forall n, P n (for_loop n body s).
Proof. intros St P body s H0 H n. induction n; cbn; auto. Qed.

Lemma put_same : forall {A} (b : buf A) i x, put b i x i = x.
Proof. intros. unfold put. now rewrite Nat.eqb_refl. Qed.
Lemma put_other : forall {A} (b : buf A) i j x, j <> i -> put b i x j = b j.
Proof. intros. unfold put. destruct (Nat.eqb_spec j i); congruence. Qed.
Ltac puts := repeat first [rewrite put_same | rewrite put_other by lia].

(** ** stereographic, lonlat, latlon (any f, J) *)
(** after the loop, entry i of every requested output is what a call with the single point i writes to its entry 0;
    outputs that were not requested, and everything past the end, are untouched *)
Theorem C32_project_independent : forall f J want_J v N q dq,
  let '(q', dq') := batch_project f J want_J v N (q, dq) in
  (forall i, (i < N)%nat -> forall q1 dq1, let '(a, b) := batch_project f J want_J (fun _ => v i) 1 (q1, dq1) in
     q' i = a 0%nat /\ (want_J = true -> dq' (2 * i)%nat = b 0%nat /\ dq' (2 * i + 1)%nat = b 1%nat)) /\
  (forall i, (N <= i)%nat -> q' i = q i) /\ (forall i, (2 * N <= i)%nat \/ want_J = false -> dq' i = dq i).
Proof.
  intros f J w v N q dq.
  assert (let '(q', dq') := batch_project f J w v N (q, dq) in
    (forall i, (i < N)%nat -> q' i = f (v i)) /\ (forall i, (N <= i)%nat -> q' i = q i) /\
    (w = true -> forall i, (i < N)%nat -> dq' (2 * i)%nat = dqx (J (v i)) /\ dq' (2 * i + 1)%nat = dqy (J (v i))) /\
    (forall i, (2 * N <= i)%nat \/ w = false -> dq' i = dq i)) as H.
  { unfold batch_project. apply for_loop_ind with (P := fun N s => let '(q', dq') := s in
      (forall i, (i < N)%nat -> q' i = f (v i)) /\ (forall i, (N <= i)%nat -> q' i = q i) /\
      (w = true -> forall i, (i < N)%nat -> dq' (2 * i)%nat = dqx (J (v i)) /\ dq' (2 * i + 1)%nat = dqy (J (v i))) /\
      (forall i, (2 * N <= i)%nat \/ w = false -> dq' i = dq i)).
    - repeat split; intros; try lia; reflexivity.
    - intros k [q' dq'] (A & B & C & D). split; [|split; [|split]].
      + intros i Hi. destruct (Nat.eq_dec i k) as [-> |]; puts; auto. apply A. lia.
      + intros i Hi. puts. apply B. lia.
      + intros -> i Hi. destruct (Nat.eq_dec i k) as [-> |]; puts; auto. apply C; [reflexivity|lia].
      + intros i [Hi| ->]; [destruct w; puts; apply D; lia|]. now apply D; right. }
  destruct (batch_project f J w v N (q, dq)) as [q' dq']. destruct H as (A & B & C & D).
  split; [|split; auto]. intros i Hi q1 dq1. unfold batch_project. cbn [for_loop]. split; [now rewrite A|]. intros ->. destruct (C eq_refl i Hi) as [C1 C2]. rewrite C1, C2. split; reflexivity.
Qed.
Print Assumptions C32_project_independent.

Theorem C32_unproject_independent : forall f J want_J q N v dv,
  let '(v', dv') := batch_unproject f J want_J q N (v, dv) in
  (forall i, (i < N)%nat -> forall v1 dv1, let '(a, b) := batch_unproject f J want_J (fun _ => q i) 1 (v1, dv1) in
     v' i = a 0%nat /\ (want_J = true -> dv' (3 * i)%nat = b 0%nat /\ dv' (3 * i + 1)%nat = b 1%nat /\ dv' (3 * i + 2)%nat = b 2%nat)) /\
  (forall i, (N <= i)%nat -> v' i = v i) /\ (forall i, (3 * N <= i)%nat \/ want_J = false -> dv' i = dv i).
Proof.
  intros f J w q N v dv.
  assert (let '(v', dv') := batch_unproject f J w q N (v, dv) in
    (forall i, (i < N)%nat -> v' i = f (q i)) /\ (forall i, (N <= i)%nat -> v' i = v i) /\
    (w = true -> forall i, (i < N)%nat -> dv' (3 * i)%nat = dvx (J (q i)) /\ dv' (3 * i + 1)%nat = dvy (J (q i)) /\ dv' (3 * i + 2)%nat = dvz (J (q i))) /\
    (forall i, (3 * N <= i)%nat \/ w = false -> dv' i = dv i)) as H.
  { unfold batch_unproject. apply for_loop_ind with (P := fun N s => let '(v', dv') := s in
      (forall i, (i < N)%nat -> v' i = f (q i)) /\ (forall i, (N <= i)%nat -> v' i = v i) /\
      (w = true -> forall i, (i < N)%nat -> dv' (3 * i)%nat = dvx (J (q i)) /\ dv' (3 * i + 1)%nat = dvy (J (q i)) /\ dv' (3 * i + 2)%nat = dvz (J (q i))) /\
      (forall i, (3 * N <= i)%nat \/ w = false -> dv' i = dv i)).
    - repeat split; intros; try lia; reflexivity.
    - intros k [v' dv'] (A & B & C & D). split; [|split; [|split]].
      + intros i Hi. destruct (Nat.eq_dec i k) as [-> |]; puts; auto. apply A. lia.
      + intros i Hi. puts. apply B. lia.
      + intros -> i Hi. destruct (Nat.eq_dec i k) as [-> |]; puts; auto. apply C; [reflexivity|lia].
      + intros i [Hi| ->]; [destruct w; puts; apply D; lia|]. now apply D; right. }
  destruct (batch_unproject f J w q N (v, dv)) as [v' dv']. destruct H as (A & B & C & D).
  split; [|split; auto]. intros i Hi v1 dv1. unfold batch_unproject. cbn [for_loop]. split; [now rewrite A|]. intros ->. destruct (C eq_refl i Hi) as (C1 & C2 & C3). rewrite C1, C2, C3. repeat split.
Qed.
Print Assumptions C32_unproject_independent.

(** ** mrcal_project_pinhole does not *)
(** for every N >= 1 it leaves the last point's projection in q[0] and does not write the other pixels *)
Theorem C32_pinhole_overwrites : forall c want_J v N q dq,
  let '(q', _) := batch_project_pinhole c want_J v (S N) (q, dq) in
  q' 0%nat = project_pinhole c (v N) /\ forall i, (1 <= i)%nat -> q' i = q i.
Proof.
  intros c w v N q dq. unfold batch_project_pinhole.
  assert (forall M, forall i, (1 <= i)%nat -> fst (for_loop M (fun i '(q, dq) =>
    (put q 0 (project_pinhole c (v i)), if w then put (put dq (2 * i) (dqx (project_pinhole_J c (v i)))) (2 * i + 1) (dqy (project_pinhole_J c (v i))) else dq)) (q, dq)) i = q i) as H.
  { intros M i Hi. apply for_loop_ind with (P := fun _ s => fst s i = q i); auto. intros k [a b] E. cbn [fst] in *. now puts. }
  specialize (H (S N)). cbn [for_loop] in *. destruct (for_loop N _ _) as [a b]. cbn [fst] in H. split; [apply put_same|auto].
Qed.
Print Assumptions C32_pinhole_overwrites.
Theorem C32_pinhole_refuted : exists c v, forall want_J q dq,
  let '(q', _) := batch_project_pinhole c want_J v 2 (q, dq) in
  let '(a, _) := batch_project_pinhole c want_J (fun _ => v 0%nat) 1 (q, dq) in q' 0%nat <> a 0%nat.
Proof.
  exists (Core 1 1 0 0), (fun i => match i with O => V3 0 0 1 | _ => V3 1 0 1 end). intros w q dq.
  pose proof (C32_pinhole_overwrites (Core 1 1 0 0) w (fun i => match i with O => V3 0 0 1 | _ => V3 1 0 1 end) 1 q dq) as A.
  pose proof (C32_pinhole_overwrites (Core 1 1 0 0) w (fun _ => V3 0 0 1) 0 q dq) as B.
  destruct (batch_project_pinhole _ _ _ 2 _), (batch_project_pinhole _ _ _ 1 _). destruct A as [-> _], B as [-> _].
  unfold project_pinhole. cbn. intro E. injection E. lra.
Qed.
Print Assumptions C32_pinhole_refuted.

(** ** _mrcal_project_internal *)
Section Internal.
  Variable proj : v3 -> p2.
  Variable proj_J : v3 -> j23.
  Variable proj_Ji : v3 -> nat -> R.
  Variable Ni : nat.
  (** asking for the intrinsics gradient: every output of every point is in its own place *)
  Theorem C32_internal_with_intrinsics_gradient : forall want_dp p N s,
    let s' := project_internal proj proj_J proj_Ji Ni want_dp true p N s in
    (forall i, (i < N)%nat -> o_q s' i = proj (p i) /\
      (want_dp = true -> o_dq_dp s' (2 * i)%nat = dqx (proj_J (p i)) /\ o_dq_dp s' (2 * i + 1)%nat = dqy (proj_J (p i))) /\
      forall k, (k < 2 * Ni)%nat -> o_di s' (i * (2 * Ni) + k)%nat = proj_Ji (p i) k) /\
    (forall i, (N <= i)%nat -> o_q s' i = o_q s i) /\ (forall i, (2 * N <= i)%nat \/ want_dp = false -> o_dq_dp s' i = o_dq_dp s i) /\
    (forall i, (N * (2 * Ni) <= i)%nat -> o_di s' i = o_di s i).
  Proof.
    intros w p N s. unfold project_internal.
    set (Q := fun N (x : nat * nat * obuf) => let '((pi, pp), s') := x in pi = (N * (2 * Ni))%nat /\ (w = true -> pp = (2 * N)%nat) /\
      (forall i, (i < N)%nat -> o_q s' i = proj (p i) /\
        (w = true -> o_dq_dp s' (2 * i)%nat = dqx (proj_J (p i)) /\ o_dq_dp s' (2 * i + 1)%nat = dqy (proj_J (p i))) /\
        forall k, (k < 2 * Ni)%nat -> o_di s' (i * (2 * Ni) + k)%nat = proj_Ji (p i) k) /\
      (forall i, (N <= i)%nat -> o_q s' i = o_q s i) /\ (forall i, (2 * N <= i)%nat \/ w = false -> o_dq_dp s' i = o_dq_dp s i) /\
      (forall i, (N * (2 * Ni) <= i)%nat -> o_di s' i = o_di s i)).
    match goal with |- context [snd (for_loop N ?b ?z)] => assert (Q N (for_loop N b z)) as H end.
    { apply for_loop_ind with (P := Q).
      - unfold Q. repeat split; intros; try lia; reflexivity.
      - intros k [[pi pp] s'] (A & B & C & D & E & F). unfold Q. subst pi. split; [lia|]. split; [intros ->; rewrite B by reflexivity; lia|].
        cbn [o_q o_dq_dp o_di]. split; [|split; [|split]].
        + intros i Hi. destruct (Nat.eq_dec i k) as [-> |Ne].
          * split; [apply put_same|]. split.
            -- intros ->. unfold put_dq_dp. rewrite B by reflexivity. now puts.
            -- intros j Hj. unfold put_row. replace (Nat.leb _ _) with true by (symmetry; apply Nat.leb_le; lia).
               replace (Nat.ltb _ _) with true by (symmetry; apply Nat.ltb_lt; lia). cbn. f_equal. lia.
          * destruct (C i) as (C1 & C2 & C3); [lia|]. split; [now puts|]. split.
            -- intros ->. unfold put_dq_dp. rewrite B by reflexivity. puts. auto.
            -- intros j Hj. unfold put_row. replace (Nat.leb _ _) with false; [cbn; auto|]. symmetry. apply Nat.leb_gt.
               assert (i + 1 <= k)%nat as L by lia. apply (Nat.mul_le_mono_r _ _ (2 * Ni)) in L. lia.
        + intros i Hi. puts. apply D. lia.
        + intros i Hi. unfold put_dq_dp. destruct w; [|apply E; auto]. destruct Hi; [|congruence]. rewrite B by reflexivity. puts. apply E. lia.
        + intros i Hi. unfold put_row. replace (Nat.ltb _ _) with false by (symmetry; apply Nat.ltb_ge; lia). rewrite andb_false_r. apply F. lia. }
    destruct (for_loop N _ _) as [[pi pp] s']. cbn [snd]. destruct H as (_ & _ & H). exact H.
  Qed.
  (** not asking for it: the pixels are right ... *)
  Theorem C32_internal_pixels : forall want_dp p N s i,
    o_q (project_internal proj proj_J proj_Ji Ni want_dp false p N s) i = if Nat.ltb i N then proj (p i) else o_q s i.
  Proof.
    intros w p N s i. unfold project_internal. apply for_loop_ind with (P := fun N x => o_q x i = if Nat.ltb i N then proj (p i) else o_q s i).
    - now destruct i.
    - intros k x E. cbn [o_q]. destruct (Nat.eq_dec i k) as [-> |Ne].
      + rewrite put_same. replace (Nat.ltb k (S k)) with true; [auto|]. symmetry. apply Nat.ltb_lt. lia.
      + rewrite put_other, E by auto. replace (Nat.ltb i (S k)) with (Nat.ltb i k); [auto|]. destruct (Nat.ltb_spec i k), (Nat.ltb_spec i (S k)); lia || reflexivity.
  Qed.
  (** ... but the gradient with respect to the point is only ever written to the first block: it is the last point's there, and missing everywhere else *)
  Theorem C32_internal_gradient_overwritten : forall p N s,
    let s' := project_internal proj proj_J proj_Ji Ni true false p (S N) s in
    o_dq_dp s' 0%nat = dqx (proj_J (p N)) /\ o_dq_dp s' 1%nat = dqy (proj_J (p N)) /\ forall i, (2 <= i)%nat -> o_dq_dp s' i = o_dq_dp s i.
  Proof.
    intros p N s. unfold project_internal. split; [|split].
    - cbn [for_loop o_dq_dp put_dq_dp]. unfold put_dq_dp. now puts.
    - cbn [for_loop o_dq_dp put_dq_dp]. unfold put_dq_dp. now puts.
    - intros i Hi. apply for_loop_ind with (P := fun _ x => o_dq_dp x i = o_dq_dp s i); auto. intros k x E. cbn [o_dq_dp]. unfold put_dq_dp. now puts.
  Qed.
End Internal.
Print Assumptions C32_internal_with_intrinsics_gradient.
Print Assumptions C32_internal_pixels.
Print Assumptions C32_internal_gradient_overwritten.
(** e.g. for the stereographic model, asking for dq_dp only *)
Theorem C32_internal_refuted : exists c p, forall Ji s1 s,
  o_dq_dp (project_internal (project_stereographic c) (project_stereographic_J c) Ji 4 true false p 2 s) 0%nat <>
  o_dq_dp (project_internal (project_stereographic c) (project_stereographic_J c) Ji 4 true false (fun _ => p 0%nat) 1 s1) 0%nat.
Proof.
  exists (Core 1 1 0 0), (fun i => match i with O => V3 0 0 1 | _ => V3 0 0 2 end). intros Ji s1 s.
  pose proof (C32_internal_gradient_overwritten (project_stereographic (Core 1 1 0 0)) (project_stereographic_J (Core 1 1 0 0)) Ji 4 (fun i => match i with O => V3 0 0 1 | _ => V3 0 0 2 end) 1 s) as (A & _).
  pose proof (C32_internal_gradient_overwritten (project_stereographic (Core 1 1 0 0)) (project_stereographic_J (Core 1 1 0 0)) Ji 4 (fun _ => V3 0 0 1) 0 s1) as (B & _).
  cbv zeta in A, B. rewrite A, B. unfold project_stereographic_J. cbn [dqx vx vy vz fx]. intro E. apply (f_equal vx) in E. cbn [vx] in E.
  replace (0 * 0 + 0 * 0 + 2 * 2) with (2 * 2) in E by ring. replace (0 * 0 + 0 * 0 + 1 * 1) with (1 * 1) in E by ring.
  rewrite !sqrt_square in E by lra. field_simplify in E. lra.
Qed.
Print Assumptions C32_internal_refuted.

(** ** mrcal_unproject, iterative models *)
(** every point's result depends on that pixel only - except the z of a point that could not be unprojected, which keeps whatever was in the output array *)
Theorem C32_iterative_unproject : forall proj proj_J c behind opt q N out i,
  unproject_loop proj proj_J c behind opt q N out i =
  if Nat.ltb i N then unproject_step proj proj_J c behind opt (q i) (out i) else out i.
Proof.
  intros. unfold unproject_loop.
  set (st := unproject_step proj proj_J c behind opt).
  assert (forall N, let '(o, b) := for_loop N (fun i '(o, b) => (S o, put b o (st (q i) (b o)))) (0%nat, out) in
    o = N /\ forall j, b j = if Nat.ltb j N then st (q j) (out j) else out j) as H.
  { intro M. apply for_loop_ind with (P := fun M x => let '(o, b) := x in o = M /\ forall j, b j = if Nat.ltb j M then st (q j) (out j) else out j).
    - split; [reflexivity|]. intros []; reflexivity.
    - intros k [o b] [-> E]. split; [reflexivity|]. intro j. destruct (Nat.eq_dec j k) as [-> |Ne].
      + rewrite put_same, E. replace (Nat.ltb k k) with false by (symmetry; apply Nat.ltb_irrefl). replace (Nat.ltb k (S k)) with true by (symmetry; apply Nat.ltb_lt; lia). reflexivity.
      + rewrite put_other, E by auto. replace (Nat.ltb j (S k)) with (Nat.ltb j k); [auto|]. destruct (Nat.ltb_spec j k), (Nat.ltb_spec j (S k)); lia || reflexivity. }
  specialize (H N). destruct (for_loop N _ _) as [o b]. now apply H.
Qed.
Print Assumptions C32_iterative_unproject.
Theorem C32_iterative_step : forall proj proj_J c behind opt q old old',
  let a := unproject_step proj proj_J c behind opt q old in let b := unproject_step proj proj_J c behind opt q old' in
  sx a = sx b /\ sy a = sy b /\ (sx a = None /\ sz a = sz old \/ a = b).
Proof.
  intros. unfold a, b, unproject_step. destruct (opt _ _) as [u n]. destruct (too_high n); [cbn; auto|]. destruct (_ && _)%bool; auto.
Qed.
Print Assumptions C32_iterative_step.
(** so a failed point is not reported as NaN in all three coordinates unless the caller had put NaN there *)
Theorem C32_stale_z_refuted : exists proj proj_J c opt q, forall z,
  sz (unproject_step proj proj_J c false opt q (Slot None None (Some z))) = Some z.
Proof.
  exists (project_stereographic (Core 1 1 0 0)), (project_stereographic_J (Core 1 1 0 0)), (Core 1 1 0 0), (fun _ u => (u, Cost 1)), (P2 0 0).
  intro z. unfold unproject_step, too_high. destruct (Rlt_dec _ _); [reflexivity|lra].
Qed.
Print Assumptions C32_stale_z_refuted.
