(** dR/dr *)
From Coq Require Import Reals Lra Psatz Nsatz.
From Coquelicot Require Import Coquelicot.
From Verif Require Import S_Vec M_Dual M_Pose P_Pose.
Open Scope R_scope.

(** the C expression of the non-degenerate branch *)
Definition Jrod (r : v3) (k : nat) : m33 :=
  let theta := norm r in
  let s := sin theta in let c := cos theta in let c1 := 1 - c in let itheta := 1 / theta in
  let u0 := vx r * itheta in let u1 := vy r * itheta in let u2 := vz r * itheta in
  let a2 := itheta * c1 in let a4 := itheta * s in
  let uk := vget (V3 u0 u1 u2) k in
  let a0 := - s * uk in let a1 := (s - 2 * a2) * uk in let a3 := (c - a4) * uk in
  match k with
  | O => 
      M33 (a0 + a1 * u0 * u0 + a2 * (u0 + u0))  (a1 * u0 * u1 + a2 * u1 - a3 * u2)   (a1 * u0 * u2 + a2 * u2 + a3 * u1)
          (a1 * u0 * u1 + a2 * u1 + a3 * u2)    (a0 + a1 * u1 * u1)                  (a1 * u1 * u2 - a3 * u0 - a4)
          (a1 * u0 * u2 + a2 * u2 - a3 * u1)    (a1 * u1 * u2 + a3 * u0 + a4)        (a0 + a1 * u2 * u2)
  | S O =>
      M33 (a0 + a1 * u0 * u0)                   (a1 * u0 * u1 + a2 * u0 - a3 * u2)   (a1 * u0 * u2 + a3 * u1 + a4)
          (a1 * u0 * u1 + a2 * u0 + a3 * u2)    (a0 + a1 * u1 * u1 + a2 * (u1 + u1)) (a1 * u1 * u2 + a2 * u2 - a3 * u0)
          (a1 * u0 * u2 - a3 * u1 - a4)         (a1 * u1 * u2 + a2 * u2 + a3 * u0)   (a0 + a1 * u2 * u2)
  | _ =>
      M33 (a0 + a1 * u0 * u0)                   (a1 * u0 * u1 - a3 * u2 - a4)        (a1 * u0 * u2 + a2 * u0 + a3 * u1)
          (a1 * u0 * u1 + a3 * u2 + a4)         (a0 + a1 * u1 * u1)                  (a1 * u1 * u2 + a2 * u1 - a3 * u0)
          (a1 * u0 * u2 + a2 * u0 - a3 * u1)    (a1 * u1 * u2 + a2 * u1 + a3 * u0)   (a0 + a1 * u2 * u2 + a2 * (u2 + u2))
  end.
Lemma R_from_r_J_big : forall r k, DBL_EPSILON <= norm r -> R_from_r_J r k = Jrod r k.
Proof.
  intros r k H. unfold R_from_r_J, Jrod. cbv zeta. destruct (Rlt_dec _ _) as [L|L].
  - exfalso. pose proof (norm_lt r DBL_EPSILON eps_pos) as N. unfold norm2, dot in N. apply N in L. lra.
  - rewrite sqrt_norm2. destruct k as [|[|k]]; reflexivity.
Qed.

Definition rodr (r : v3) : m33 := rod (unit r) (sin (norm r)) (cos (norm r)).
Lemma Jrod_ok : forall r, r <> v0 -> is_mjacobian rodr r (Jrod r).
Proof.
  intros [x y z] H k i j Hk Hi Hj.
  assert (0 < x * x + y * y + z * z) as P.
  { destruct (norm2_nonneg (V3 x y z)) as [N|N]; [exact N|]. symmetry in N. apply norm2_zero in N. contradiction. }
  pose proof (sqrt_lt_R0 _ P) as Q.
  apply is_derive_Reals.
  destruct k as [|[|[|k]]]; [| | |lia]; (destruct i as [|[|[|i]]]; [| | |lia]); (destruct j as [|[|[|j]]]; [| | |lia]);
    unfold rodr, Jrod, rod, unit, norm, norm2, dot, mget, mrow, vget, vset; cbn [vx vy vz m00 m01 m02 m10 m11 m12 m20 m21 m22].
  all: auto_derive; [repeat split; lra | ].
  all: set (th := sqrt (x * x + y * y + z * z)) in *.
  all: field; lra.
Qed.
