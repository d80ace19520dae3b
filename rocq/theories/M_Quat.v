(** Model: quaternions.  _poseutils_scipy.py quat_from_R() (8-138), poseutils-genpywrap.py R_from_quat() (1062-1093),
    poseutils.py qt_from_Rt() (1484-1545) and Rt_from_qt() (1548-1604).
    Doubles are real numbers.  Arrays are as quat_from_R() sees them after nps.clump(): N rotations.  The check
    that 'out' can be reshaped in place is not modelled. *)
From Coq Require Import Reals List Arith.
From Verif Require Import S_Vec M_Pose.
Import ListNotations.
Open Scope R_scope.

(** a row (u,i,j,k) *)
Definition quat := nat -> R.
(** an array of shape (N,4) *)
Definition quats := nat -> quat.
Definition quat_of (u i j k : R) : quat := fun c => match c with 0 => u | 1 => i | 2 => j | _ => k end%nat.

(** poseutils-genpywrap.py:1066-1092 *)
Definition R_from_quat (q : quat) : m33 :=
  let r := q 0%nat in let i := q 1%nat in let j := q 2%nat in let k := q 3%nat in
  let ii := i * i in let ij := i * j in let ik := i * k in let ir := i * r in
  let jj := j * j in let jk := j * k in let jr := j * r in
  let kk := k * k in let kr := k * r in
  M33 (1 - 2 * (jj + kk)) (2 * (ij - kr)) (2 * (ik + jr))
      (2 * (ij + kr)) (1 - 2 * (ii + kk)) (2 * (jk - ir))
      (2 * (ik - jr)) (2 * (jk + ir)) (1 - 2 * (ii + jj)).

(** numpy's argmax(): the index of the first maximum; [best] is at index [at_] *)
Fixpoint argmax_from (best : R) (at_ n : nat) (l : list R) : nat :=
  match l with
  | [] => at_
  | x :: l' => if Rlt_dec best x then argmax_from x n (S n) l' else argmax_from best at_ (S n) l'
  end.
Definition argmax (l : list R) : nat := match l with [] => O | x :: l' => argmax_from x 0 1 l' end.

(** decision_matrix[n,:]: _poseutils_scipy.py:105-107 *)
Definition decision (m : m33) : list R :=
  let d0 := mget m 0 0 in let d1 := mget m 1 1 in let d2 := mget m 2 2 in
  [d0; d1; d2; d0 + d1 + d2].
Definition decision_last (m : m33) : R := nth 3 (decision m) 0.
Definition choice (m : m33) : nat := argmax (decision m).

(** quat[n,c] = x *)
Definition put (a : quats) (n c : nat) (x : R) : quats :=
  fun n' c' => if (n' =? n)%nat then if (c' =? c)%nat then x else a n' c' else a n' c'.
(** quat[ind,cols] = vals *)
Definition put_all (a : quats) (ind : list nat) (col : nat -> nat) (val : nat -> R) : quats :=
  fold_left (fun a n => put a n (col n) (val n)) ind a.

(** quat_from_R(): _poseutils_scipy.py:104-138.  [Rs]: the N rotations; [a0]: what was in the output array *)
Definition quat_from_R (N : nat) (Rs : nat -> m33) (a0 : quats) : quats :=
  let choices := fun n => choice (Rs n) in
  let ind := filter (fun n => negb (choices n =? 3)%nat) (seq 0 N) in
  let i := choices in
  let j := fun n => Nat.modulo (i n + 1) 3 in
  let k := fun n => Nat.modulo (j n + 1) 3 in
  let a := put_all a0 ind (fun n => (i n + 1)%nat) (fun n => 1 - decision_last (Rs n) + 2 * mget (Rs n) (i n) (i n)) in
  let a := put_all a ind (fun n => (j n + 1)%nat) (fun n => mget (Rs n) (j n) (i n) + mget (Rs n) (i n) (j n)) in
  let a := put_all a ind (fun n => (k n + 1)%nat) (fun n => mget (Rs n) (k n) (i n) + mget (Rs n) (i n) (k n)) in
  let a := put_all a ind (fun n => 0%nat) (fun n => mget (Rs n) (k n) (j n) - mget (Rs n) (j n) (k n)) in
  let ind := filter (fun n => (choices n =? 3)%nat) (seq 0 N) in
  let a := put_all a ind (fun n => 1%nat) (fun n => mget (Rs n) 2 1 - mget (Rs n) 1 2) in
  let a := put_all a ind (fun n => 2%nat) (fun n => mget (Rs n) 0 2 - mget (Rs n) 2 0) in
  let a := put_all a ind (fun n => 3%nat) (fun n => mget (Rs n) 1 0 - mget (Rs n) 0 1) in
  let a := put_all a ind (fun n => 0%nat) (fun n => 1 + decision_last (Rs n)) in
  (* quat /= np.linalg.norm(quat, axis=1)[:, None] *)
  fun n c => if (n <? N)%nat then a n c / sqrt (a n 0%nat * a n 0%nat + a n 1%nat * a n 1%nat + a n 2%nat * a n 2%nat + a n 3%nat * a n 3%nat) else a n c.

(** an array of shape (N,7) *)
Definition qts := nat -> nat -> R.
(** qt_from_Rt(): poseutils.py:1538-1545.  out=qt[..., :4] is a view of the first four columns of qt *)
Definition qt_from_Rt (N : nat) (ps : nat -> Rt) (a0 : qts) : qts :=
  let q := quat_from_R N (fun n => Rt_R (ps n)) (fun n c => a0 n c) in
  let a := fun n c => if (c <? 4)%nat then q n c else a0 n c in
  fun n c => if (n <? N)%nat then if (4 <=? c)%nat then vget (Rt_t (ps n)) (c - 4) else a n c else a n c.
(** Rt_from_qt(): poseutils.py:1597-1604 *)
Definition Rt_from_qt (qt : nat -> R) : Rt := mkRt (R_from_quat qt) (V3 (qt 4%nat) (qt 5%nat) (qt 6%nat)).
