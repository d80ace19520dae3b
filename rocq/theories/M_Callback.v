(** Model: the structure of one evaluation of the cost function.
    Source: /repo/mrcal.c:743-880 (_mrcal_num_j_nonzero) and 4445-5958
    (optimizer_callback).
    The residual and gradient values are abstract (an oracle per row); which
    rows are produced, in which order, and which columns each of them touches
    is modelled statement by statement. *)
From Coq Require Import ZArith List Bool.
From Verif Require Import M_Lens M_Layout M_SplineIdx.
Import ListNotations.
Open Scope Z_scope.

(** [col0, col0+1, ..., col0+n-1] (STORE_JACOBIAN3, STORE_JACOBIAN_N and the loops) *)
Definition zrange (col0 n : Z) : list Z := map (fun i => col0 + Z.of_nat i) (seq 0 (Z.to_nat n)).

(** Identifies a row (for the value oracles). *)
Inductive rowid :=
| R_board (iobs ipt ixy : Z)
| R_point (iobs ixy : Z)
| R_tri (i0 i1 : Z)
| R_reg_dist (icam j : Z)              (* not splined *)
| R_reg_splined (icam ivar k : Z)      (* k=0: radial, k=1: tangential *)
| R_reg_center (icam ixy : Z)
| R_unity.

Section Callback.
  Context {V : Type} (vzero : V).
  (** tests on weights: [weight >= 0.0], [weight <= 0.0] *)
  Context (ge0 le0 : V -> bool).
  (** values computed by the projection code: residual and k-th gradient entry of a row *)
  Context (ov_x : rowid -> V) (ov_j : rowid -> Z -> V).
  (** truncated spline segment of board point / point observation *)
  Context (osp_b : Z -> Z -> Z * Z) (osp_p : Z -> Z * Z).
  Context (p : problem).
  (** observations_board_pool[].z and observations_point_pool[].z *)
  Context (bweight : Z -> V) (pweight : Z -> V).

  Record row := { r_id : rowid; r_x : V; r_j : list (Z * V) }.

  (** a row whose k-th entry has value [ov_j id k] *)
  Definition with_values (id : rowid) (cols : list Z) : list (Z * V) :=
    map (fun kc => (snd kc, ov_j id (Z.of_nat (fst kc)))) (combine (seq 0 (length cols)) cols).
  Definition with_zeros (cols : list Z) : list (Z * V) := map (fun c => (c, vzero)) cols.
  Definition inlier_row (id : rowid) (cols : list Z) : row :=
    {| r_id := id; r_x := ov_x id; r_j := with_values id cols |}.
  Definition outlier_row (id : rowid) (cols : list Z) : row :=
    {| r_id := id; r_x := vzero; r_j := with_zeros cols |}.

  Let sel := p_sel p.
  Let m := p_lens p.
  Let Nintrinsics := num_params m.
  Let Ncore := if has_core m then 4 else 0.
  (** mrcal.c:4517-4518 *)
  Let Ncore_state := if has_core m && do_core sel then 4 else 0.

  (** mrcal.c:4700-4815: columns of one row of a board inlier *)
  Definition board_cols_inlier (o : board_obs) (sp : Z * Z) (ixy : Z) : list Z :=
    let ivi := state_index_intrinsics p (bo_icam_i o) in
    let ive := state_index_extrinsics p (bo_icam_e o) in
    let ivf := state_index_frames p (bo_iframe o) in
    (if do_core sel then [ivi + ixy; ivi + ixy + 2] else []) ++
    (if do_dist sel then
       match m with
       | SPLINED c => map (fun k => ivi + (k - (if do_core sel then 0 else 4)))
                          (grad_cols c (fst sp) (snd sp) ixy)
       | _ => zrange (ivi + Ncore_state) (Nintrinsics - Ncore)
       end
     else []) ++
    (if do_ext sel then if 0 <=? bo_icam_e o then zrange (ive + 0) 3 ++ zrange (ive + 3) 3 else [] else []) ++
    (if do_frames sel then zrange (ivf + 0) 3 ++ zrange (ivf + 3) 3 else []) ++
    (if has_warp p then zrange (state_index_warp p) 2 else []).

  (** mrcal.c:4819-4894: columns of one row of a board outlier *)
  Definition board_cols_outlier (o : board_obs) (sp : Z * Z) (ixy : Z) : list Z :=
    let ivi := state_index_intrinsics p (bo_icam_i o) in
    let ive := state_index_extrinsics p (bo_icam_e o) in
    let ivf := state_index_frames p (bo_iframe o) in
    (if do_core sel then [ivi + ixy; ivi + ixy + 2] else []) ++
    (if do_dist sel then
       match m with
       | SPLINED c => map (fun k => ivi + (k - (if do_core sel then 0 else 4)))
                          (grad_cols c (fst sp) (snd sp) ixy)
       | _ => zrange (ivi + Ncore_state) (Nintrinsics - Ncore)
       end
     else []) ++
    (if do_ext sel then if 0 <=? bo_icam_e o then zrange (ive + 0) 3 ++ zrange (ive + 3) 3 else [] else []) ++
    (if do_frames sel then zrange (ivf + 0) 3 ++ zrange (ivf + 3) 3 else []) ++
    (if has_warp p then zrange (state_index_warp p) 2 else []).

  (** mrcal.c:4691-4898: the rows of one board observation; [ifeat0] is
      i_feature at its start, iobs its index. *)
  Definition board_rows (iobs ifeat0 : Z) (o : board_obs) : list row :=
    flat_map (fun ipt =>
      map (fun ixy =>
        if ge0 (bweight (ifeat0 + ipt))
        then inlier_row (R_board iobs ipt ixy) (board_cols_inlier o (osp_b iobs ipt) ixy)
        else outlier_row (R_board iobs ipt ixy) (board_cols_outlier o (osp_b iobs ipt) ixy))
      [0; 1]) (zrange 0 (p_w p * p_h p)).
  (** mrcal.c:4600-4899 *)
  Fixpoint boards_rows (iobs ifeat : Z) (l : list board_obs) : list row :=
    match l with
    | [] => []
    | o :: rest => board_rows iobs ifeat o ++ boards_rows (iobs + 1) (ifeat + p_w p * p_h p) rest
    end.

  (** mrcal.c:4912-4914 *)
  Definition use_position_from_state (o : point_obs) : bool :=
    do_frames sel && (po_ipoint o <? p_Npoints p - p_Npoints_fixed p).
  (** mrcal.c:5075-5174 *)
  Definition point_cols_inlier (o : point_obs) (sp : Z * Z) (ixy : Z) : list Z :=
    let ivi := state_index_intrinsics p (po_icam_i o) in
    let ive := state_index_extrinsics p (po_icam_e o) in
    let ivp := state_index_points p (po_ipoint o) in
    (if do_core sel then [ivi + ixy; ivi + ixy + 2] else []) ++
    (if do_dist sel then
       match m with
       | SPLINED c => map (fun k => ivi + (k - (if do_core sel then 0 else 4)))
                          (grad_cols c (fst sp) (snd sp) ixy)
       | _ => zrange (ivi + Ncore_state) (Nintrinsics - Ncore)
       end
     else []) ++
    (if do_ext sel then if 0 <=? po_icam_e o then zrange (ive + 0) 3 ++ zrange (ive + 3) 3 else [] else []) ++
    (if use_position_from_state o then zrange ivp 3 else []).
  (** mrcal.c:4946-4993: an outlier; the splined columns are the first
      (order+1)^2 ones and not those of the projected location *)
  Definition point_cols_outlier (o : point_obs) (ixy : Z) : list Z :=
    let ivi := state_index_intrinsics p (po_icam_i o) in
    let ive := state_index_extrinsics p (po_icam_e o) in
    let ivp := state_index_points p (po_ipoint o) in
    (if do_core sel then [ivi + ixy; ivi + ixy + 2] else []) ++
    (if do_dist sel then
       match m with
       | SPLINED c => zrange (ivi + Ncore_state) ((sp_order c + 1) * (sp_order c + 1))
       | _ => zrange (ivi + Ncore_state) (Nintrinsics - Ncore)
       end
     else []) ++
    (if (0 <=? po_icam_e o) && do_ext sel then zrange (ive + 0) 3 ++ zrange (ive + 3) 3 else []) ++
    (if use_position_from_state o then zrange ivp 3 else []).
  (** mrcal.c:4903-5176 *)
  Fixpoint points_rows (iobs : Z) (l : list point_obs) : list row :=
    match l with
    | [] => []
    | o :: rest =>
      map (fun ixy =>
        if le0 (pweight iobs)
        then outlier_row (R_point iobs ixy) (point_cols_outlier o ixy)
        else inlier_row (R_point iobs ixy) (point_cols_inlier o (osp_p iobs) ixy)) [0; 1]
      ++ points_rows (iobs + 1) rest
    end.

  (** mrcal.c:5370-5505 (inlier pair), 5530-5600 (one is an outlier) *)
  Definition tri_cols (o0 o1 : tri_obs) : list Z :=
    (if 0 <=? to_icam_e o0 then
       let iv := state_index_extrinsics p (to_icam_e o0) in zrange (iv + 0) 3 ++ zrange (iv + 3) 3 else []) ++
    (if 0 <=? to_icam_e o1 then
       let iv := state_index_extrinsics p (to_icam_e o1) in zrange (iv + 0) 3 ++ zrange (iv + 3) 3 else []).
  (** mrcal.c:5262-5580, 5590-5645: the while(true) loop over the second
      observation; [None]: reads past the end of the array *)
  Fixpoint tri_inner_rows (i0 : Z) (o0 : tri_obs) (i1 : Z) (rest : list tri_obs) : option (list row) :=
    match rest with
    | [] => None
    | o1 :: rest' =>
      let r := if negb (to_outlier o0) then
                 if negb (to_outlier o1) then inlier_row (R_tri i0 i1) (tri_cols o0 o1)
                 else outlier_row (R_tri i0 i1) (tri_cols o0 o1)
               else outlier_row (R_tri i0 i1) (tri_cols o0 o1) in
      if to_last o1 then Some [r]
      else match tri_inner_rows i0 o0 (i1 + 1) rest' with
           | None => None | Some rs => Some (r :: rs) end
    end.
  (** mrcal.c:5197-5650 *)
  Fixpoint tri_rows (i0 : Z) (l : list tri_obs) : option (list row) :=
    match l with
    | [] => Some []
    | o0 :: rest =>
      if to_last o0 then tri_rows (i0 + 1) rest
      else match tri_inner_rows i0 o0 (i0 + 1) rest, tri_rows (i0 + 1) rest with
           | Some a, Some b => Some (a ++ b)
           | _, _ => None
           end
    end.
  (** mrcal.c:5179-5191: assert *)
  Definition tri_section : option (list row) :=
    match p_tri p with
    | [] => Some []
    | _ => if negb (do_core sel) && negb (do_dist sel) && do_ext sel
           then tri_rows 0 (p_tri p) else None
    end.

  (** mrcal.c:5706-5850 *)
  Definition reg_dist_rows : list row :=
    if do_reg sel && do_dist sel then
      match m with
      | SPLINED c =>
        flat_map (fun icam =>
          let ivi := state_index_intrinsics p icam in
          flat_map (fun iy => flat_map (fun ix =>
            let ivar := 2 * (iy * sp_Nx c + ix) in
            [inlier_row (R_reg_splined icam ivar 0) [ivi + Ncore_state + ivar + 0; ivi + Ncore_state + ivar + 1];
             inlier_row (R_reg_splined icam ivar 1) [ivi + Ncore_state + ivar + 0; ivi + Ncore_state + ivar + 1]])
            (zrange 0 (sp_Nx c))) (zrange 0 (sp_Ny c)))
          (zrange 0 (p_Nci p))
      | _ =>
        flat_map (fun icam =>
          let ivi := state_index_intrinsics p icam in
          map (fun j => inlier_row (R_reg_dist icam j) [ivi + Ncore_state + j])
              (zrange 0 (Nintrinsics - Ncore)))
          (zrange 0 (p_Nci p))
      end
    else [].
  (** mrcal.c:5853-5900 *)
  Definition reg_center_rows : list row :=
    if do_reg sel && has_core m && do_core sel then
      flat_map (fun icam =>
        let ivi := state_index_intrinsics p icam in
        [inlier_row (R_reg_center icam 0) [ivi + 2]; inlier_row (R_reg_center icam 1) [ivi + 3]])
        (zrange 0 (p_Nci p))
    else [].
  (** mrcal.c:5903-5950 *)
  Definition unity_rows : list row :=
    if do_unity sel && do_ext sel && (0 <? p_Nce p) then
      [inlier_row R_unity (zrange (state_index_extrinsics p 0 + 3) 3)]
    else [].

  (** mrcal.c:4445-5958 *)
  Definition callback_rows : option (list row) :=
    match tri_section with
    | None => None
    | Some t => Some (boards_rows 0 0 (p_boards p) ++ points_rows 0 (p_points p) ++ t
                      ++ reg_dist_rows ++ reg_center_rows ++ unity_rows)
    end.
End Callback.

(** ** writing the rows
    mrcal.c:4457-4515: iMeasurement/iJacobian counters and the STORE_JACOBIAN
    macros.  The arrays are modelled by the log of the writes (index, value),
    in order. *)
Section Writes.
  Context {V : Type}.
  Record wstate := { iM : Z; iJ : Z;
                     w_x : list (Z * V);
                     w_rowptr : list (Z * Z);
                     w_colidx : list (Z * Z);
                     w_val : list (Z * V) }.
  Definition wstart := {| iM := 0; iJ := 0; w_x := []; w_rowptr := []; w_colidx := []; w_val := [] |}.
  (** STORE_JACOBIAN: the counter advances whether or not Jt was given *)
  Definition store (jt : bool) (s : wstate) (cv : Z * V) : wstate :=
    {| iM := iM s; iJ := iJ s + 1; w_x := w_x s; w_rowptr := w_rowptr s;
       w_colidx := if jt then w_colidx s ++ [(iJ s, fst cv)] else w_colidx s;
       w_val := if jt then w_val s ++ [(iJ s, snd cv)] else w_val s |}.
  (** if(Jt) Jrowptr[iMeasurement] = iJacobian; x[iMeasurement] = err; STORE...; iMeasurement++ *)
  Definition write_row (jt : bool) (s : wstate) (r : @row V) : wstate :=
    let s1 := {| iM := iM s; iJ := iJ s; w_x := w_x s ++ [(iM s, r_x r)];
                 w_rowptr := if jt then w_rowptr s ++ [(iM s, iJ s)] else w_rowptr s;
                 w_colidx := w_colidx s; w_val := w_val s |} in
    let s2 := fold_left (store jt) (r_j r) s1 in
    {| iM := iM s2 + 1; iJ := iJ s2; w_x := w_x s2; w_rowptr := w_rowptr s2;
       w_colidx := w_colidx s2; w_val := w_val s2 |}.
  (** mrcal.c:5944-5957 *)
  Definition write_all (jt : bool) (rows : list (@row V)) : wstate :=
    let s := fold_left (write_row jt) rows wstart in
    {| iM := iM s; iJ := iJ s; w_x := w_x s;
       w_rowptr := if jt then w_rowptr s ++ [(iM s, iJ s)] else w_rowptr s;
       w_colidx := w_colidx s; w_val := w_val s |}.
End Writes.

(** ** mrcal.c:743-880 _mrcal_num_j_nonzero() *)
Definition nintr_per_meas (p : problem) : Z :=
  (match p_lens p with
   | SPLINED c => (if do_core (p_sel p) then 4 else 0)
                  + (if do_dist (p_sel p) then (sp_order c + 1) * (sp_order c + 1) else 0)
   | _ => num_intrinsics_opt (p_sel p) (p_lens p)
   end) - (if do_core (p_sel p) && has_core (p_lens p) then 2 else 0).

(** mrcal.c:822-838: the do-while over i1 *)
Fixpoint nnz_tri_inner (p : problem) (Nvars0 : Z) (rest : list tri_obs) (N : Z) : option Z :=
  match rest with
  | [] => None
  | o1 :: rest' =>
    let Nvars1 := nintr_per_meas p + (if do_ext (p_sel p) && (0 <=? to_icam_e o1) then 6 else 0) in
    let N' := N + (Nvars0 + Nvars1) in
    if negb (to_last o1) then nnz_tri_inner p Nvars0 rest' N' else Some N'
  end.
(** mrcal.c:808-840 *)
Fixpoint nnz_tri (p : problem) (l : list tri_obs) (N : Z) : option Z :=
  match l with
  | [] => Some N
  | o0 :: rest =>
    if to_last o0 then nnz_tri p rest N else
    let Nvars0 := nintr_per_meas p + (if do_ext (p_sel p) && (0 <=? to_icam_e o0) then 6 else 0) in
    match nnz_tri_inner p Nvars0 rest N with
    | None => None
    | Some N' => nnz_tri p rest N'
    end
  end.
(** mrcal.c:791-801 *)
Definition nnz_points (p : problem) (N : Z) : Z :=
  fold_left (fun N o =>
    N + 2 * nintr_per_meas p
    + (if do_frames (p_sel p) && (po_ipoint o <? p_Npoints p - p_Npoints_fixed p) then 2 * 3 else 0)
    + (if do_ext (p_sel p) && (0 <=? po_icam_e o) then 2 * 6 else 0)) (p_points p) N.
(** mrcal.c:776-789 *)
Definition nnz_boards (p : problem) : Z :=
  let N := Nobs_board p * ((if do_frames (p_sel p) then 6 else 0) + (if do_ext (p_sel p) then 6 else 0)
                           + (if has_warp p then 2 else 0) + nintr_per_meas p) in
  let N := if do_ext (p_sel p)
           then fold_left (fun N o => if bo_icam_e o <? 0 then N - 6 else N) (p_boards p) N
           else N in
  N * (2 * p_w p * p_h p).
(** mrcal.c:842-878 *)
Definition nnz_reg (p : problem) : Z :=
  (match p_lens p with
   | SPLINED _ =>
     if do_reg (p_sel p)
     then p_Nci p * 2 * num_reg_percam p - (if do_core (p_sel p) then p_Nci p * 2 else 0)
     else 0
   | _ => p_Nci p * num_reg_percam p
   end)
  + (if do_unity (p_sel p) && do_ext (p_sel p) && (0 <? p_Nce p) then 3 else 0).
Definition num_j_nonzero (p : problem) : option Z :=
  match nnz_tri p (p_tri p) (nnz_points p (nnz_boards p)) with
  | None => None
  | Some N => Some (N + nnz_reg p)
  end.
