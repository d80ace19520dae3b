(** Specification vocabulary for the structure of the Jacobian (C03, C04, C05, C12). *)
From Coq Require Import ZArith List Bool Sorted.
From Verif Require Import M_Lens M_Layout S_Layout M_SplineIdx M_Callback.
Import ListNotations.
Open Scope Z_scope.

(** Every observation refers to cameras, frames and points that exist.  A
    negative extrinsics index means "at the reference". *)
Definition obs_ok (p : problem) : Prop :=
  Forall (fun o => 0 <= bo_icam_i o < p_Nci p /\ bo_icam_e o < p_Nce p /\ 0 <= bo_iframe o < p_Nframes p) (p_boards p) /\
  Forall (fun o => 0 <= po_icam_i o < p_Nci p /\ po_icam_e o < p_Nce p /\ 0 <= po_ipoint o < p_Npoints p) (p_points p) /\
  Forall (fun o => to_icam_e o < p_Nce p) (p_tri p).

(** Triangulated points are supported only when the intrinsics are locked and
    the extrinsics are being optimized (the code asserts this). *)
Definition tri_supported (p : problem) : Prop :=
  p_tri p = [] \/ (do_core (p_sel p) = false /\ do_dist (p_sel p) = false /\ do_ext (p_sel p) = true).

(** the splined configurations which the code accepts *)
Definition lens_legal (m : lensmodel) : Prop :=
  match m with
  | SPLINED c => (sp_order c = 2 \/ sp_order c = 3) /\ sp_order c < sp_Nx c /\ sp_order c < sp_Ny c
  | _ => True
  end.
(** few enough control points that 2*Nx fits into 16 bits *)
Definition lens_narrow (m : lensmodel) : Prop :=
  match m with SPLINED c => sp_Nx c < 32768 | _ => True end.

(** the cells 0, 1, ..., n-1, each once and in order *)
Definition fills (n : Z) (idx : list Z) : Prop :=
  0 <= n /\ length idx = Z.to_nat n /\ forall k, (k < length idx)%nat -> nth k idx (-1) = Z.of_nat k.

(** two sets of triangulated observations that differ in the outlier flags only *)
Definition same_tri (a b : tri_obs) : Prop :=
  to_icam_i a = to_icam_i b /\ to_icam_e a = to_icam_e b /\ to_last a = to_last b.
Definition with_tri (p : problem) (t : list tri_obs) : problem :=
  {| p_lens := p_lens p; p_sel := p_sel p; p_Nci := p_Nci p; p_Nce := p_Nce p;
     p_Nframes := p_Nframes p; p_Npoints := p_Npoints p; p_Npoints_fixed := p_Npoints_fixed p;
     p_boards := p_boards p; p_points := p_points p; p_tri := t; p_w := p_w p; p_h := p_h p |}.

Definition is_tri_row (r : rowid) : bool := match r with R_tri _ _ => true | _ => false end.
Definition splined (m : lensmodel) : bool := match m with SPLINED _ => true | _ => false end.
Definition is_point_row (r : rowid) : bool := match r with R_point _ _ => true | _ => false end.

(** Is the measurement with this id that of an outlier? *)
Definition row_is_outlier {V} (ge0 le0 : V -> bool) (p : problem) (bw pw : Z -> V) (id : rowid) : Prop :=
  match id with
  | R_board iobs ipt _ => ge0 (bw (iobs * (p_w p * p_h p) + ipt)) = false
  | R_point iobs _ => le0 (pw iobs) = true
  | R_tri i0 i1 => exists o, (nth_error (p_tri p) (Z.to_nat i0) = Some o \/ nth_error (p_tri p) (Z.to_nat i1) = Some o)
                             /\ to_outlier o = true
  | _ => False
  end.

Section S.
  Context {V : Type}.
  Definition cols (r : @row V) : list Z := map fst (r_j r).
  Definition vals (r : @row V) : list V := map snd (r_j r).
End S.
