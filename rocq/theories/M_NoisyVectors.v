(** Model of _noisy_observation_vectors_for_triangulation() (mrcal/synthetic_data.py:557-591), for one point p.
    The lenses are arguments: project() and unproject() of the two cameras.  [noise]: what np.random.randn() returns, Nsamples
    arrays of shape (2,2).  Numbers are real numbers. *)
From Coq Require Import Reals List.
From Verif Require Import S_Vec M_Pose.
Import ListNotations.
Open Scope R_scope.

Definition pixel := (R * R)%type.
Record lens := Lens { l_project : v3 -> pixel; l_unproject : pixel -> v3 }.
(** q0 + q0_noise, with q_noise = randn() * sigma (synthetic_data.py:575-581) *)
Definition jitter (q : pixel) (sigma : R) (n : pixel) : pixel := (fst q + fst n * sigma, snd q + snd n * sigma).

Record vectors := Vectors {
  v0local_noisy : list v3; v1local_noisy : list v3; v0_noisy : list v3; v1_noisy : list v3;
  q0_ : pixel; q1_ : pixel; q0_noisy : list pixel; q1_noisy : list pixel }.

Definition noisy_vectors (p : v3) (Rt01 : Rt) (intrinsics0 intrinsics1 : lens) (noise : list (pixel * pixel)) (sigma : R) : vectors :=
  let q0 := l_project intrinsics0 p in
  let q1 := l_project intrinsics1 (transform_point_Rt (invert_Rt Rt01) p false) in
  let q0n := map (fun n => jitter q0 sigma (fst n)) noise in
  let q1n := map (fun n => jitter q1 sigma (snd n)) noise in
  let v0l := map (l_unproject intrinsics0) q0n in
  let v1l := map (l_unproject intrinsics1) q1n in
  Vectors v0l v1l v0l (map (fun v => rotate_point_R (Rt_R Rt01) v false) v1l) q0 q1 q0n q1n.
