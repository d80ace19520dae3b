(** Model: packing and unpacking of the solver state.
    Source: /repo/mrcal.c:3308-3735.
    All four routines are a sequence of assignments driven by one cursor
    [i_state++]; each is modelled by the list of its assignments in execution
    order ("program") and by an interpreter that performs them one after the
    other on memory, so that aliasing of the in-place variants is visible.
    Arrays are functions from index to value. *)
From Coq Require Import ZArith List Bool Reals.
From Verif Require Import M_Lens M_Layout M_Callback.
Import ListNotations.
Open Scope Z_scope.

(** A scalar in one of the structures passed by the caller.  mrcal_pose_t is 6
    consecutive doubles r,t (static_assert mrcal.c:3448), mrcal_point3_t 3. *)
Inductive loc := LIntr (i : Z) | LExt (i : Z) | LFrame (i : Z) | LPoint (i : Z) | LWarp (i : Z).

(** scales.h:40-48 *)
Inductive skind := S_focal | S_center | S_rot_cam | S_trans_cam | S_rot_frame | S_trans_frame | S_point | S_warp | S_dist.

Definition scale (k : skind) : R :=
  match k with
  | S_focal => 500
  | S_center => 20
  | S_rot_cam => (1 / 10) * PI / 180
  | S_trans_cam => 1
  | S_rot_frame => 15 * PI / 180
  | S_trans_frame => 1
  | S_point => 1
  | S_warp => 1 / 100
  | S_dist => 1
  end%R.

Section Programs.
  Context (p : problem).
  Let sel := p_sel p.
  Let N := num_params (p_lens p).
  Let Ncore := if has_core (p_lens p) then 4 else 0.
  Let Ndist := N - Ncore.
  Let Npoints_variable := p_Npoints p - p_Npoints_fixed p.

  (** mrcal.c:3308-3340 pack_solver_state_intrinsics(): k-th element: b[k] = loc / scale *)
  Definition pack_intr_prog : list (loc * skind) :=
    flat_map (fun icam =>
      (if do_core sel && has_core (p_lens p) then
         [(LIntr (icam * N + 0), S_focal); (LIntr (icam * N + 1), S_focal);
          (LIntr (icam * N + 2), S_center); (LIntr (icam * N + 3), S_center)] else []) ++
      (if do_dist sel then map (fun i => (LIntr (icam * N + (Ncore + i)), S_dist)) (zrange 0 Ndist) else []))
      (zrange 0 (p_Nci p)).
  (** mrcal.c:3379-3437 pack_solver_state() *)
  Definition pack_struct_prog : list (loc * skind) :=
    pack_intr_prog ++
    (if do_ext sel then
       flat_map (fun i => [(LExt (6*i+0), S_rot_cam); (LExt (6*i+1), S_rot_cam); (LExt (6*i+2), S_rot_cam);
                           (LExt (6*i+3), S_trans_cam); (LExt (6*i+4), S_trans_cam); (LExt (6*i+5), S_trans_cam)])
         (zrange 0 (p_Nce p)) else []) ++
    (if do_frames sel then
       flat_map (fun i => [(LFrame (6*i+0), S_rot_frame); (LFrame (6*i+1), S_rot_frame); (LFrame (6*i+2), S_rot_frame);
                           (LFrame (6*i+3), S_trans_frame); (LFrame (6*i+4), S_trans_frame); (LFrame (6*i+5), S_trans_frame)])
         (zrange 0 (p_Nframes p)) ++
       flat_map (fun i => [(LPoint (3*i+0), S_point); (LPoint (3*i+1), S_point); (LPoint (3*i+2), S_point)])
         (zrange 0 Npoints_variable) else []) ++
    (if has_warp p then [(LWarp 0, S_warp); (LWarp 1, S_warp)] else []).

  (** mrcal.c:3508-3547 unpack_solver_state_intrinsics(), called with
      intrinsics_stride = num_params: k-th element: loc = b[k] * scale *)
  Definition unpack_intr_prog : list (loc * skind) :=
    if negb (do_core sel) && negb (do_dist sel) then [] else
    flat_map (fun icam =>
      (if do_core sel && has_core (p_lens p) then
         [(LIntr (icam * N + 0), S_focal); (LIntr (icam * N + 1), S_focal);
          (LIntr (icam * N + 2), S_center); (LIntr (icam * N + 3), S_center)] else []) ++
      (if do_dist sel then map (fun i => (LIntr (icam * N + Ncore + i), S_dist)) (zrange 0 (N - Ncore)) else []))
      (zrange 0 (p_Nci p)).
  (** mrcal.c:3583-3640: the _one() functions *)
  Definition unpack_ext_one (i : Z) : list (loc * skind) :=
    [(LExt (6*i+0), S_rot_cam); (LExt (6*i+1), S_rot_cam); (LExt (6*i+2), S_rot_cam);
     (LExt (6*i+3), S_trans_cam); (LExt (6*i+4), S_trans_cam); (LExt (6*i+5), S_trans_cam)].
  Definition unpack_frame_one (i : Z) : list (loc * skind) :=
    [(LFrame (6*i+0), S_rot_frame); (LFrame (6*i+1), S_rot_frame); (LFrame (6*i+2), S_rot_frame);
     (LFrame (6*i+3), S_trans_frame); (LFrame (6*i+4), S_trans_frame); (LFrame (6*i+5), S_trans_frame)].
  Definition unpack_point_one (i : Z) : list (loc * skind) :=
    [(LPoint (3*i+0), S_point); (LPoint (3*i+1), S_point); (LPoint (3*i+2), S_point)].
  Definition unpack_warp : list (loc * skind) := [(LWarp 0, S_warp); (LWarp 1, S_warp)].
  (** mrcal.c:3643-3687 unpack_solver_state() *)
  Definition unpack_struct_prog : list (loc * skind) :=
    unpack_intr_prog ++
    (if do_ext sel then flat_map unpack_ext_one (zrange 0 (p_Nce p)) else []) ++
    (if do_frames sel then
       flat_map unpack_frame_one (zrange 0 (p_Nframes p)) ++ flat_map unpack_point_one (zrange 0 Npoints_variable)
     else []) ++
    (if has_warp p then unpack_warp else []).

  (** mrcal.c:3344-3377 / 3552-3581 *_intrinsics_subset_to_subset(): the k-th
      statement is b[k] /= scale (resp. *=): only the scales matter *)
  Definition subset_scales : list skind :=
    if negb (do_core sel) && negb (do_dist sel) then [] else
    flat_map (fun icam : Z =>
      (if do_core sel && has_core (p_lens p) then [S_focal; S_focal; S_center; S_center] else []) ++
      (if do_dist sel then map (fun _ => S_dist) (zrange 0 Ndist) else []))
      (zrange 0 (p_Nci p)).
  (** loop "while i_state advances": n structures, the i-th accessed through a
      pointer to b[i_state] taken at the start of iteration i; each field at
      offset 0,1,2,...  Element: (index through the pointer, scale). *)
  Fixpoint ptr_loop (n : nat) (i_state : Z) (fields : list skind) : list (Z * skind) :=
    match n with
    | O => []
    | S n' => map (fun k => (i_state + Z.of_nat (fst k), snd k)) (combine (seq 0 (length fields)) fields)
              ++ ptr_loop n' (i_state + Z.of_nat (length fields)) fields
    end.
  (** loop with the base pointer taken once, before the loop, and indexed by
      the loop variable: &base[i] (mrcal.c:3715-3728) *)
  Definition base_loop (n : Z) (base : Z) (fields : list skind) : list (Z * skind) :=
    flat_map (fun i => map (fun k => (base + i * Z.of_nat (length fields) + Z.of_nat (fst k), snd k))
                           (combine (seq 0 (length fields)) fields)) (zrange 0 n).
  Definition idx_scales (l : list skind) : list (Z * skind) :=
    map (fun k => (Z.of_nat (fst k), snd k)) (combine (seq 0 (length l)) l).

  Let pose_cam := [S_rot_cam; S_rot_cam; S_rot_cam; S_trans_cam; S_trans_cam; S_trans_cam].
  Let pose_frame := [S_rot_frame; S_rot_frame; S_rot_frame; S_trans_frame; S_trans_frame; S_trans_frame].

  (** mrcal.c:3440-3505 mrcal_pack_solver_state_vector(): k-th statement:
      b[k] = b[src] / scale *)
  Definition pack_vec_prog : list (Z * skind) :=
    let l0 := idx_scales subset_scales in
    let l1 := l0 ++ (if do_ext sel then ptr_loop (Z.to_nat (p_Nce p)) (Z.of_nat (length l0)) pose_cam else []) in
    let l2 := l1 ++ (if do_frames sel then ptr_loop (Z.to_nat (p_Nframes p)) (Z.of_nat (length l1)) pose_frame else []) in
    let l3 := l2 ++ (if do_frames sel then ptr_loop (Z.to_nat Npoints_variable) (Z.of_nat (length l2)) [S_point; S_point; S_point] else []) in
    l3 ++ (if has_warp p then ptr_loop 1 (Z.of_nat (length l3)) [S_warp; S_warp] else []).
  (** mrcal.c:3689-3735 mrcal_unpack_solver_state_vector(): k-th statement:
      b[dst] = b[k] * scale *)
  Definition unpack_vec_prog : list (Z * skind) :=
    let l0 := idx_scales subset_scales in
    let l1 := l0 ++ (if do_ext sel then base_loop (p_Nce p) (Z.of_nat (length l0)) pose_cam else []) in
    let l2 := l1 ++ (if do_frames sel then base_loop (p_Nframes p) (Z.of_nat (length l1)) pose_frame else []) in
    let l3 := l2 ++ (if do_frames sel then base_loop Npoints_variable (Z.of_nat (length l2)) [S_point; S_point; S_point] else []) in
    l3 ++ (if has_warp p then base_loop 1 (Z.of_nat (length l3)) [S_warp; S_warp] else []).
End Programs.

(** ** the interpreter *)
Definition loc_eq_dec (a b : loc) : {a = b} + {a <> b}.
Proof. decide equality; apply Z.eq_dec. Defined.
Definition updZ (f : Z -> R) (i : Z) (v : R) : Z -> R := fun j => if Z.eq_dec j i then v else f j.
Definition updL (f : loc -> R) (i : loc) (v : R) : loc -> R := fun j => if loc_eq_dec j i then v else f j.

Fixpoint exec_pack_struct (i_state : Z) (prog : list (loc * skind)) (s : loc -> R) (b : Z -> R) : Z -> R :=
  match prog with
  | [] => b
  | (l, k) :: rest => exec_pack_struct (i_state + 1) rest s (updZ b i_state (s l / scale k)%R)
  end.
Fixpoint exec_unpack_struct (i_state : Z) (prog : list (loc * skind)) (b : Z -> R) (s : loc -> R) : loc -> R :=
  match prog with
  | [] => s
  | (l, k) :: rest => exec_unpack_struct (i_state + 1) rest b (updL s l (b i_state * scale k)%R)
  end.
Fixpoint exec_pack_vec (i_state : Z) (prog : list (Z * skind)) (b : Z -> R) : Z -> R :=
  match prog with
  | [] => b
  | (src, k) :: rest => exec_pack_vec (i_state + 1) rest (updZ b i_state (b src / scale k)%R)
  end.
Fixpoint exec_unpack_vec (i_state : Z) (prog : list (Z * skind)) (b : Z -> R) : Z -> R :=
  match prog with
  | [] => b
  | (dst, k) :: rest => exec_unpack_vec (i_state + 1) rest (updZ b dst (b i_state * scale k)%R)
  end.

Definition pack_struct p s b := exec_pack_struct 0 (pack_struct_prog p) s b.
Definition unpack_struct p b s := exec_unpack_struct 0 (unpack_struct_prog p) b s.
Definition pack_vec p b := exec_pack_vec 0 (pack_vec_prog p) b.
Definition unpack_vec p b := exec_unpack_vec 0 (unpack_vec_prog p) b.
