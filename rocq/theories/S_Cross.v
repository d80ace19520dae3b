(** Specification vocabulary for the cross-reprojection property (C53): what one
    measurement contributes, written measurement by measurement. *)
From Coq Require Import ZArith List Bool Reals.
From Verif Require Import M_Lens M_Layout M_Pack S_Layout S_Vec.
Import ListNotations.
Open Scope R_scope.

(** One measurement: its gradient with respect to the packed state.  The values
    are given per optimized thing; [q_i] are the (column, value) pairs for the
    intrinsics of camera [q_cam]. *)
Record meas := { q_cam : Z; q_i : list (Z * R);
                 q_e : option (Z * (nat -> R));   (* camera index, 6 numbers *)
                 q_f : option (Z * (nat -> R));   (* frame index, 6 numbers *)
                 q_p : option (Z * (nat -> R));   (* point index, 3 numbers *)
                 q_w : option (nat -> R) }.       (* 2 numbers *)

(** the row of the sparse Jacobian *)
Definition blk (col : Z) (n : nat) (x : nat -> R) : list (Z * R) := map (fun k => ((col + Z.of_nat k)%Z, x k)) (seq 0 n).
Definition oblk {T} (o : option T) (f : T -> list (Z * R)) : list (Z * R) := match o with Some x => f x | None => [] end.
Definition row_of (p : problem) (q : meas) : list (Z * R) :=
  q_i q
  ++ oblk (q_e q) (fun kx => blk (state_index p (SI_ext (fst kx))) 6 (snd kx))
  ++ oblk (q_f q) (fun kx => blk (state_index p (SI_frame (fst kx))) 6 (snd kx))
  ++ oblk (q_p q) (fun kx => blk (state_index p (SI_point (fst kx))) 3 (snd kx))
  ++ oblk (q_w q) (fun x => blk (state_index p SI_warp) 2 x).
(** dx/db_packed[c] *)
Definition entry (row : list (Z * R)) (c : Z) : R :=
  fold_right (fun cv a => (if Z.eq_dec (fst cv) c then snd cv else 0) + a) 0 row.

(** What the rows of a Jacobian look like: [n] intrinsics of one camera, then
    whole optimized things; a board or a point but not both; the board warp in
    every row if it is optimized. *)
Definition meas_ok (p : problem) (n : nat) (q : meas) : Prop :=
  (0 <= q_cam q < p_Nci p)%Z /\ length (q_i q) = n /\
  (forall cv, In cv (q_i q) -> state_index p (SI_intr (q_cam q)) <= fst cv < state_index p (SI_intr (q_cam q)) + item_size p (SI_intr 0))%Z /\
  (n <> O -> optimized p (SI_intr (q_cam q))) /\
  (forall k x, q_e q = Some (k, x) -> optimized p (SI_ext k)) /\
  (forall k x, q_f q = Some (k, x) -> optimized p (SI_frame k)) /\
  (forall k x, q_p q = Some (k, x) -> optimized p (SI_point k)) /\
  (q_f q = None \/ q_p q = None) /\
  (q_w q <> None <-> optimized p SI_warp) /\
  (q_w q <> None -> q_p q = None).

(** ** moving everything by a small rigid motion *)
Definition skew (t : v3) : m33 := M33 0 (- vz t) (vy t) (vz t) 0 (- vx t) (- vy t) (vx t) 0.
Definition delta (i j : nat) : R := if Nat.eq_dec i j then 1 else 0.
(** d compose(rt0, (r,t)) / d rt0 at rt0 = 0, where [dr] is d compose(r0, r) / d r0 at r0 = 0 *)
Definition G_pose (dr : m33) (t : v3) (l k : nat) : R :=
  if (l <? 3)%nat then if (k <? 3)%nat then mget dr l k else 0
  else if (k <? 3)%nat then - mget (skew t) (l - 3) k else delta l k.
(** d transform(rt0, x) / d rt0 at rt0 = 0 *)
Definition G_point (x : v3) (l k : nat) : R :=
  if (k <? 3)%nat then - mget (skew x) l k else delta l (k - 3).
Definition sum_n (n : nat) (f : nat -> R) : R := fold_right (fun l a => f l + a) 0 (seq 0 n).
Definition vec_at (b : Z -> R) (c : Z) (s : R) : v3 := V3 (b c * s) (b (c + 1)%Z * s) (b (c + 2)%Z * s).

Section Contribution.
  Context (drcompose : v3 -> m33) (p : problem) (b_packed : Z -> R) (ccp : bool).
  (** the gradient of the measurement with respect to the motion: chain rule
      through the unpacked pose at column [c] *)
  Definition cross_pose (c : Z) (sr st : R) (x : nat -> R) (k : nat) : R :=
    sum_n 6 (fun l => x l / (if (l <? 3)%nat then sr else st)
                      * G_pose (drcompose (vec_at b_packed c sr)) (vec_at b_packed (c + 3)%Z st) l k).
  Definition cross_point (c : Z) (x : nat -> R) (k : nat) : R :=
    sum_n 3 (fun l => x l / scale S_point * G_point (vec_at b_packed c (scale S_point)) l k).
  (** with ccp: the camera moves, if its pose is optimized; otherwise the board
      or the point moves *)
  Definition jcross (q : meas) : nat -> R :=
    match ccp, q_e q, q_f q, q_p q with
    | true, Some (k, x), _, _ => cross_pose (state_index p (SI_ext k)) (scale S_rot_cam) (scale S_trans_cam) x
    | _, _, Some (k, x), _ => cross_pose (state_index p (SI_frame k)) (scale S_rot_frame) (scale S_trans_frame) x
    | _, _, _, Some (k, x) => cross_point (state_index p (SI_point k)) x
    | _, _, _, _ => fun _ => 0
    end.
  (** the columns that count: not the intrinsics; the extrinsics with ccp only *)
  Definition dx (q : meas) (c : Z) : R :=
    if (c <? num_states_intrinsics p + (if ccp then 0 else num_states_extrinsics p))%Z then 0
    else entry (row_of p q) c.
End Contribution.

Definition rsum {T} (f : T -> R) (l : list T) : R := fold_right (fun x a => f x + a) 0 l.
