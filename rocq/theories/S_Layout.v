(** Specification vocabulary for the layout properties (C01, C02, C11). *)
From Coq Require Import ZArith List Bool.
From Verif Require Import M_Lens M_Layout.
Import ListNotations.
Open Scope Z_scope.

(** What a caller may pass: counts are counts, no more fixed points than points. *)
Definition problem_ok (p : problem) : Prop :=
  lens_ok (p_lens p) /\ 0 <= p_Nci p /\ 0 <= p_Nce p /\ 0 <= p_Nframes p /\
  0 <= p_Npoints_fixed p <= p_Npoints p /\ 0 <= p_w p /\ 0 <= p_h p.

(** A thing a user can ask a state index for. *)
Inductive sitem :=
| SI_intr (icam : Z) | SI_ext (icam : Z) | SI_frame (i : Z) | SI_point (i : Z) | SI_warp.

Definition state_index (p : problem) (it : sitem) : Z :=
  match it with
  | SI_intr i => state_index_intrinsics p i
  | SI_ext i => state_index_extrinsics p i
  | SI_frame i => state_index_frames p i
  | SI_point i => state_index_points p i
  | SI_warp => state_index_warp p
  end.

(** Number of scalars describing one such thing. *)
Definition item_size (p : problem) (it : sitem) : Z :=
  match it with
  | SI_intr _ => (if do_core (p_sel p) then 4 else 0)
                 + (if do_dist (p_sel p) then num_params (p_lens p) - 4 else 0)
  | SI_ext _ | SI_frame _ => 6
  | SI_point _ => 3
  | SI_warp => 2
  end.

(** Is this thing being optimized? *)
Definition optimized (p : problem) (it : sitem) : Prop :=
  match it with
  | SI_intr i => 0 <= i < p_Nci p /\
                 (do_core (p_sel p) = true \/ (do_dist (p_sel p) = true /\ 4 < num_params (p_lens p)))
  | SI_ext i => 0 <= i < p_Nce p /\ do_ext (p_sel p) = true
  | SI_frame i => 0 <= i < p_Nframes p /\ do_frames (p_sel p) = true
  | SI_point i => 0 <= i < p_Npoints p - p_Npoints_fixed p /\ do_frames (p_sel p) = true
  | SI_warp => do_warp (p_sel p) = true /\ p_boards p <> []
  end.

(** The observations of the triangulated features: one non-empty list per
    feature; the flat array marks the last observation of each. *)
Definition mark_feature (f : list tri_obs) : Prop :=
  exists init l, f = init ++ [l] /\ to_last l = true /\ Forall (fun o => to_last o = false) init.
Definition tri_features (obs : list tri_obs) (fs : list (list tri_obs)) : Prop :=
  obs = concat fs /\ Forall mark_feature fs.

(** All unordered pairs of positions i<j<n in lexicographic order, starting at
    offset [first]. *)
Definition pairs_from (first : nat) (n : nat) : list (nat * nat) :=
  flat_map (fun i => map (fun j => (first + i, first + j)%nat) (seq (S i) (n - S i))) (seq 0 n).

(** All measurement pairs of all the features in order. Each entry is
    (feature, first observation, number of observations, (o0,o1)). *)
Fixpoint all_pairs (ifeat first : nat) (fs : list (list tri_obs))
  : list (nat * nat * nat * (nat * nat)) :=
  match fs with
  | [] => []
  | f :: rest =>
    map (fun pr => (ifeat, first, length f, pr)) (pairs_from first (length f))
    ++ all_pairs (S ifeat) (first + length f) rest
  end.

(** Measurement blocks. *)
Inductive mitem := MI_board (i : Z) | MI_point (i : Z) | MI_tri (ifeature : Z) | MI_reg.

Definition measurement_index (p : problem) (it : mitem) : option Z :=
  match it with
  | MI_board i => Some (measurement_index_boards p i)
  | MI_point i => Some (measurement_index_points p i)
  | MI_tri i => measurement_index_tri p i
  | MI_reg => measurement_index_reg p
  end.

(** Number of residuals of each block. *)
Definition mitem_size (p : problem) (fs : list (list tri_obs)) (it : mitem) : Z :=
  match it with
  | MI_board _ => 2 * (p_w p * p_h p)
  | MI_point _ => 2
  | MI_tri i => let n := Z.of_nat (length (nth (Z.to_nat i) fs [])) in n * (n - 1) / 2
  | MI_reg =>
    (if do_reg (p_sel p) then
       p_Nci p * ((if do_dist (p_sel p) then num_params (p_lens p) - 4 else 0)
                  + (if do_core (p_sel p) then 2 else 0))
     else 0)
    + (if do_unity (p_sel p) && do_ext (p_sel p) && (0 <? p_Nce p) then 1 else 0)
  end.

(** Does the problem contain this item? *)
Definition mpresent (p : problem) (fs : list (list tri_obs)) (it : mitem) : Prop :=
  match it with
  | MI_board i => 0 <= i < Z.of_nat (length (p_boards p))
  | MI_point i => 0 <= i < Z.of_nat (length (p_points p))
  | MI_tri i => 0 <= i < Z.of_nat (length fs)
  | MI_reg => 0 < mitem_size p fs MI_reg
  end.
(** Does the problem contain anything of this kind? *)
Definition mkind_present (p : problem) (fs : list (list tri_obs)) (it : mitem) : Prop :=
  match it with
  | MI_board _ => p_boards p <> []
  | MI_point _ => p_points p <> []
  | MI_tri _ => p_tri p <> []
  | MI_reg => 0 < mitem_size p fs MI_reg
  end.
