(** C94: _noisy_observation_vectors_for_triangulation() reports, for each sample, the rays through the noisy observations of p,
    in the coordinates of camera 0; without noise the two rays meet at p. *)
From Coq Require Import Reals List Lra.
From Verif Require Import S_Vec M_Pose C_Rt M_NoisyVectors.
Import ListNotations.
Open Scope R_scope.

(** *** Specification.  Rt01 takes coordinates of camera 1 to coordinates of camera 0.  p1 is where camera 1 has the point p *)
Definition sample_ok (p p1 : v3) (Rt01 : Rt) (i0 i1 : lens) (sigma : R) (n : pixel * pixel) (q0 q1 : pixel) (v0l v1l v0 v1 : v3) : Prop :=
  q0 = (fst (l_project i0 p) + sigma * fst (fst n), snd (l_project i0 p) + sigma * snd (fst n)) /\
  q1 = (fst (l_project i1 p1) + sigma * fst (snd n), snd (l_project i1 p1) + sigma * snd (snd n)) /\
  v0l = l_unproject i0 q0 /\ v1l = l_unproject i1 q1 /\ v0 = v0l /\ v1 = mv (Rt_R Rt01) v1l.

Theorem C94_samples : forall p p1 Rt01 i0 i1 noise sigma, proper Rt01 -> act Rt01 p1 = p ->
  let r := noisy_vectors p Rt01 i0 i1 noise sigma in
  q0_ r = l_project i0 p /\ q1_ r = l_project i1 p1 /\
  forall k n, nth_error noise k = Some n -> exists q0 q1 v0l v1l v0 v1,
    nth_error (q0_noisy r) k = Some q0 /\ nth_error (q1_noisy r) k = Some q1 /\
    nth_error (v0local_noisy r) k = Some v0l /\ nth_error (v1local_noisy r) k = Some v1l /\
    nth_error (v0_noisy r) k = Some v0 /\ nth_error (v1_noisy r) k = Some v1 /\
    sample_ok p p1 Rt01 i0 i1 sigma n q0 q1 v0l v1l v0 v1.
Proof.
  intros p p1 Rt01 i0 i1 noise sigma Pr Ep r.
  assert (transform_point_Rt (invert_Rt Rt01) p false = p1) as E1.
  { rewrite <- Ep. exact (proj1 (invert_act Rt01 p1 Pr)). }
  unfold r, noisy_vectors. cbn [q0_ q1_ q0_noisy q1_noisy v0local_noisy v1local_noisy v0_noisy v1_noisy]. rewrite E1.
  split; [reflexivity|]. split; [reflexivity|]. intros k n N.
  exists (jitter (l_project i0 p) sigma (fst n)), (jitter (l_project i1 p1) sigma (snd n)). do 4 eexists.
  assert (nth_error (map (fun n => jitter (l_project i0 p) sigma (fst n)) noise) k = Some (jitter (l_project i0 p) sigma (fst n))) as A0
    by exact (map_nth_error (fun n => jitter (l_project i0 p) sigma (fst n)) _ _ N).
  assert (nth_error (map (fun n => jitter (l_project i1 p1) sigma (snd n)) noise) k = Some (jitter (l_project i1 p1) sigma (snd n))) as A1
    by exact (map_nth_error (fun n => jitter (l_project i1 p1) sigma (snd n)) _ _ N).
  split; [exact A0|]. split; [exact A1|]. split; [exact (map_nth_error _ _ _ A0)|]. split; [exact (map_nth_error _ _ _ A1)|].
  split; [exact (map_nth_error _ _ _ A0)|]. split; [exact (map_nth_error _ _ _ (map_nth_error _ _ _ A1))|].
  unfold sample_ok, jitter. repeat split; f_equal; ring.
Qed.
Print Assumptions C94_samples.

(** a lens that sees x: unprojecting its pixel gives its direction *)
Definition sees (i : lens) (x : v3) := exists k, 0 < k /\ l_unproject i (l_project i x) = vscale k x.
(** without noise both rays go through p: from camera 0, at the origin, and from camera 1, at the translation of Rt01 *)
Theorem C94_meet : forall p p1 Rt01 i0 i1 noise sigma, proper Rt01 -> act Rt01 p1 = p -> sees i0 p -> sees i1 p1 ->
  let r := noisy_vectors p Rt01 i0 i1 noise sigma in
  forall k n, nth_error noise k = Some n -> sigma = 0 \/ n = ((0, 0), (0, 0)) ->
  exists v0 v1 a b, nth_error (v0_noisy r) k = Some v0 /\ nth_error (v1_noisy r) k = Some v1 /\
    0 < a /\ 0 < b /\ vscale a v0 = p /\ vadd (Rt_t Rt01) (vscale b v1) = p.
Proof.
  intros p p1 Rt01 i0 i1 noise sigma Pr Ep (k0 & K0 & S0) (k1 & K1 & S1) r k n N Z.
  destruct (C94_samples p p1 Rt01 i0 i1 noise sigma Pr Ep) as (_ & _ & C). fold r in C.
  destruct (C k n N) as (q0 & q1 & v0l & v1l & v0 & v1 & _ & _ & _ & _ & H0 & H1 & E0 & E1 & El0 & El1 & Ev0 & Ev1).
  assert (q0 = l_project i0 p /\ q1 = l_project i1 p1) as [Q0 Q1].
  { rewrite E0, E1. destruct (l_project i0 p), (l_project i1 p1). cbn [fst snd].
    destruct Z as [-> | ->]; cbn [fst snd]; split; f_equal; ring. }
  exists v0, v1, (/ k0), (/ k1). split; [exact H0|]. split; [exact H1|].
  split; [now apply Rinv_0_lt_compat|]. split; [now apply Rinv_0_lt_compat|]. split.
  - rewrite Ev0, El0, Q0, S0. apply v3_eq; unfold vscale; cbn [vx vy vz]; field; lra.
  - rewrite Ev1, El1, Q1, S1, <- Ep. unfold act. apply v3_eq; unfold vscale, vadd, mv; cbn [vx vy vz]; field; lra.
Qed.
Print Assumptions C94_meet.

(** pinhole cameras, side by side *)
Definition ex_lens := Lens (fun v => (vx v / vz v, vy v / vz v)) (fun q => V3 (fst q) (snd q) 1).
Example C94_example : let Rt01 := mkRt identity_R (V3 1 0 0) in let p1 := V3 0 0 2 in let p := V3 1 0 2 in
  proper Rt01 /\ act Rt01 p1 = p /\ sees ex_lens p /\ sees ex_lens p1.
Proof.
  cbv zeta. split; [|split; [|split]].
  - unfold proper, is_rot. cbn [Rt_R]. repeat split; [apply m33_eq|apply m33_eq|]; unfold identity_R, mm, mT, I3, det; cbn; ring.
  - apply v3_eq; unfold act, vadd, mv, identity_R; cbn; ring.
  - exists (/ 2). split; [lra|]. apply v3_eq; cbn; field.
  - exists (/ 2). split; [lra|]. apply v3_eq; cbn; field.
Qed.
