(** Model of the selection of points in hypothesis_board_corner_positions() (mrcal/utils.py:559-584).
    The positions of the corners (utils.py:528-557) are in M_Perfect; here each corner comes with its position (any type A) and
    its weight, observations_board[...,2].  Arrays of booleans of shape (Nobservations,Nheight,Nwidth) are lists, one for each
    observation, of lists of length Nheight*Nwidth.  numpy arrays are mutable: what the caller's idx_inliers is afterwards is
    part of the result. *)
From Coq Require Import Reals ZArith List Bool.
Import ListNotations.
Open Scope R_scope.

Section Points.
Context {A : Type}.
(** indices_frame_camintrinsics_camextrinsics[i,1], and the corners *)
Record observation := Observation { o_cam : Z; o_points : list (A * R) }.

Definition positive (w : R) : bool := if Rlt_dec 0 w then true else false.
(** utils.py:561 *)
Definition default_inliers (l : list observation) : list (list bool) := map (fun o => map (fun p => positive (snd p)) (o_points o)) l.
(** utils.py:562 *)
Definition complement (idx : list (list bool)) : list (list bool) := map (map negb) idx.
(** utils.py:577-578: idx[~idx_observations] = False *)
Definition only_camera (icam : Z) (l : list observation) (idx : list (list bool)) : list (list bool) :=
  map (fun oi => if Z.eqb (o_cam (fst oi)) icam then snd oi else map (fun _ => false) (snd oi)) (combine l idx).
(** p_cam_calobjects[idx, ...] *)
Definition pick (l : list observation) (idx : list (list bool)) : list A :=
  flat_map (fun oi => map (fun pb => fst (fst pb)) (filter (fun pb => snd pb) (combine (o_points (fst oi)) (snd oi)))) (combine l idx).
Definition positions (l : list observation) : list (list A) := map (fun o => map fst (o_points o)) l.

(** all the points; those of the camera; the inliers; the outliers; the caller's idx_inliers after the call *)
Record selection := Selection { s_all : list (list A); s_camera : list (list A); s_inliers : list A; s_outliers : list A; s_idx : option (list (list bool)) }.
Definition select (icam : option Z) (idx : option (list (list bool))) (l : list observation) : selection :=
  let inl := match idx with None => default_inliers l | Some i => i end in
  let outl := complement inl in
  match icam with
  | None => Selection (positions l) (positions l) (pick l inl) (pick l outl) idx
  | Some c =>
      let inl := only_camera c l inl in
      let outl := only_camera c l outl in
      Selection (positions l) (positions (filter (fun o => Z.eqb (o_cam o) c) l)) (pick l inl) (pick l outl)
        (match idx with None => None | Some _ => Some inl end)
  end.
End Points.
Arguments observation : clear implicits.
Arguments selection : clear implicits.
