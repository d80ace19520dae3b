(** Model: the gradient of a projected point by the optimization state that projection_uncertainty() propagates,
    model_analysis.py:873-1188, 1313-1517; with the dense gradients of mrcal_project(), mrcal.c:2898-2999.
    Doubles are real numbers.  One point; broadcasting is not modelled.  do_optimize_... are given explicitly.
    Matrix products and means are their mathematical meaning. *)
From Coq Require Import Reals ZArith List Bool.
From Verif Require Import S_Vec M_Pose M_Lens M_Layout M_Project M_Splined M_OpenCV M_Unproject M_Callback M_Pack M_Residuals.
Import ListNotations.
Open Scope R_scope.

(** ** mrcal_project(): one row of dq_dintrinsics, mrcal.c:2898-2999 *)
Definition store (row : nat -> R) (e : Z * R) : nat -> R := fun i => if (Z.of_nat i =? fst e)%Z then snd e else row i.
Definition dense_row (m : lensmodel) (intr : nat -> R) (v : v3) (ixy : Z) : nat -> R :=
  let row0 : nat -> R := fun _ => 0 in
  let fxy := p2get (lens_dfxy m intr v) ixy in
  let row1 := fold_left store
    (if (ixy =? 0)%Z then [(0, fxy); (1, 0%R); (2, 1%R); (3, 0%R)]%Z else [(0, 0%R); (1, fxy); (2, 0%R); (3, 1%R)]%Z) row0 in
  match m with
  | SPLINED cfg => fold_left store (splined_entries cfg (fun z => intr (Z.to_nat z)) v ixy) row1
  | _ => fold_left store (map (fun i => ((4 + Z.of_nat i)%Z, if (ixy =? 0)%Z then fst (lens_nocore m intr v i) else snd (lens_nocore m intr v i)))
                              (seq 0 (Z.to_nat (num_params m - 4)))) row1
  end.

(** ** projection_uncertainty() *)
Inductive umethod := Mean_pcam | Cross_rrp | Cross_ccp.
(** exceptions; the last three are not raised on purpose *)
Inductive ufailure := Points_with_mean_pcam | No_extrinsics | Not_consecutive | Moving_through_reference | Moving_with_rrp
  | Unbound_local | Type_error | Name_error.

(** a possibly absent state_index_...(): None in Python if the C function returns <0 *)
Definition maybe_index (i : Z) : option Z := if (i <? 0)%Z then None else Some i.
(** mrcal.skew_symmetric(), utils.py / poseutils.py *)
Definition skew_symmetric (v : v3) : m33 := M33 0 (- vz v) (vy v) (vz v) 0 (- vx v) (- vy v) (vx v) 0.
Definition vcol (v : v3) (j : nat) : R := match j with O => vx v | S O => vy v | _ => vz v end.

Section Gradient.
  Variable stale : j23.
  Variable p : problem.
  (** optimization_inputs: 'intrinsics'[icam], 'rt_cam_ref', 'rt_ref_frame' *)
  Variable icam : Z.
  Variable intr : nat -> R.
  Variable cam : Z -> rt.
  Variable frame : Z -> rt.
  Variable p_cam : v3.
  Variable atinfinity : bool.
  Let m := p_lens p.
  Let sel := p_sel p.
  (** mrcal.project(p_cam, lensmodel, intrinsics_data, get_gradients=True) *)
  Definition dq_dpcam (ixy : Z) : v3 := jget (lens_pixel_J stale m intr p_cam) ixy.
  Definition dq_dintrinsics (ixy : Z) : nat -> R := dense_row m intr p_cam ixy.

  (** model_analysis.py:1328-1343: slice_intrinsics_state, and where slice_intrinsics_arg starts.  None: the state slice is None
      and slice_intrinsics_arg is unbound *)
  Definition slice_intrinsics : option (Z * Z * Z) :=
    match maybe_index (state_index_intrinsics p icam) with
    | Some i0 => Some (i0, num_intrinsics_opt sel m, if negb (do_core sel) && has_core m then 4 else 0)%Z
    | None => None
    end.
  (** model_analysis.py:1395-1397, 1053-1055: dq_db[..., slice_state] = dq_dintrinsics[..., slice_arg] on an array of zeros *)
  Definition put_intrinsics (ixy : Z) (k : nat) : R :=
    match slice_intrinsics with
    | Some (i0, n, a0) => if (i0 <=? Z.of_nat k)%Z && (Z.of_nat k <? i0 + n)%Z then dq_dintrinsics ixy (Z.to_nat (a0 + (Z.of_nat k - i0))) else 0
    | None => 0
    end.

  (** mrcal.pack_state() on each row of K: model_analysis.py:1378-1382, 1441-1445 *)
  Definition Kunpacked (K : nat -> nat -> R) (j k : nat) : R := pack_vec p (fun z => K j (Z.to_nat z)) (Z.of_nat k).

  (** 'cross-reprojection-ccp': model_analysis.py:1347-1411 *)
  Definition dq_db_ccp (K : nat -> nat -> R) (ixy : Z) (k : nat) : R :=
    let dq_dr := vecmat (dq_dpcam ixy) (skew_symmetric p_cam) in
    let x := put_intrinsics ixy k in
    let x := x + (vx dq_dr * Kunpacked K 0 k + vy dq_dr * Kunpacked K 1 k + vz dq_dr * Kunpacked K 2 k) in
    if atinfinity then x
    else x - (vx (dq_dpcam ixy) * Kunpacked K 3 k + vy (dq_dpcam ixy) * Kunpacked K 4 k + vz (dq_dpcam ixy) * Kunpacked K 5 k).

  (** *** the older methods: _dq_db__projection_uncertainty(), model_analysis.py:939-1188.
      [cams]: rt_cam_ref, the poses of this camera; [ext0]: where their state starts *)
  Section Older.
    Variable cams : list rt.
    Variable ext0 : option Z.
    (** model_analysis.py:1035-1044 *)
    Definition p_ref_of (c : rt) : v3 := if atinfinity then rotate_point_r (vneg (rt_r c)) p_cam false else transform_point_rt c p_cam true.
    (** model_analysis.py:1057-1069; without translation gradients if atinfinity *)
    Definition transform_J (c : rt) (x : v3) : m33 * option m33 * m33 :=
      if atinfinity then match rotate_point_r_full (rt_r c) x false true true with (_, Some Jr, Some Jx) => (Jr, None, Jx) | _ => (I3, None, I3) end
      else match transform_point_rt_full c x false true true with (_, Some (Jr, Jt), Some Jx) => (Jr, Some Jt, Jx) | _ => (I3, None, I3) end.
    Let Nc := length cams.
    Definition ref_cam : rt := mkrt v0 v0.
    (** one row of matmult(g, J), or what was there (0) *)
    Definition row_of (g : v3) (J : m33 * option m33 * m33) (l : nat) : R :=
      if Nat.ltb l 3 then vcol (vecmat g (fst (fst J))) l
      else match snd (fst J) with Some Jt => vcol (vecmat g Jt) (l - 3) | None => 0 end.
    (** model_analysis.py:1071-1101 *)
    Definition put_extrinsics (ixy : Z) (k : nat) (x : R) : R :=
      match ext0 with
      | None => x
      | Some e0 =>
        if (e0 <=? Z.of_nat k)%Z && (Z.of_nat k <? e0 + 6 * Z.of_nat Nc)%Z then
          let n := Z.to_nat (Z.of_nat k - e0) in let c := nth (n / 6) cams ref_cam in
          row_of (dq_dpcam ixy) (transform_J c (p_ref_of c)) (n mod 6) / INR Nc
        else x
      end.
    (** model_analysis.py:1103-1165 *)
    Definition p_frame_of (f : rt) (x : v3) : v3 := if atinfinity then rotate_point_r (vneg (rt_r f)) x false else transform_point_rt f x true.
    Definition dq_dframe (ixy : Z) (f c : rt) (l : nat) : R :=
      let dq_dpref := vecmat (dq_dpcam ixy) (snd (transform_J c (p_ref_of c))) in
      row_of dq_dpref (transform_J f (p_frame_of f (p_ref_of c))) l.
    Definition put_frames (ixy : Z) (k : nat) (x : R) : R :=
      match maybe_index (state_index_frames p 0) with
      | None => x
      | Some f0 =>
        if (f0 <=? Z.of_nat k)%Z && (Z.of_nat k <? f0 + p_Nframes p * 6)%Z then
          let n := Z.to_nat (Z.of_nat k - f0) in
          fold_left (fun s c => s + dq_dframe ixy (frame (Z.of_nat (n / 6))) c (n mod 6)) cams 0 / INR Nc / IZR (p_Nframes p)
        else x
      end.
    Definition dq_db_mean_pcam (ixy : Z) (k : nat) : R := put_frames ixy k (put_extrinsics ixy k (put_intrinsics ixy k)).
    (** model_analysis.py:873-936 *)
    Definition dq_db_rrp (K : nat -> nat -> R) (ixy : Z) (k : nat) : R :=
      let c := nth 0 cams ref_cam in
      let p_ref := p_ref_of c in
      let dq_dpref := vecmat (dq_dpcam ixy) (snd (transform_J c p_ref)) in
      let dq_dr := vecmat dq_dpref (skew_symmetric p_ref) in
      let x := put_extrinsics ixy k (put_intrinsics ixy k) in
      let x := x + (vx dq_dr * Kunpacked K 0 k + vy dq_dr * Kunpacked K 1 k + vz dq_dr * Kunpacked K 2 k) in
      if atinfinity then x
      else x - (vx dq_dpref * Kunpacked K 3 k + vy dq_dpref * Kunpacked K 4 k + vz dq_dpref * Kunpacked K 5 k).
  End Older.

  (** np.unique(): sorted, no duplicates *)
  Fixpoint insert (x : Z) (l : list Z) : list Z :=
    match l with [] => [x] | y :: r => if (x <? y)%Z then x :: l else if (x =? y)%Z then l else y :: insert x r end.
  Definition unique (l : list Z) : list Z := fold_right insert [] l.
  (** model_analysis.py:1462-1472 *)
  Definition this_camera : list Z :=
    unique (map bo_icam_e (filter (fun o => (bo_icam_i o =? icam)%Z) (p_boards p)) ++ map po_icam_e (filter (fun o => (po_icam_i o =? icam)%Z) (p_points p)))%list.
  Fixpoint consecutive (l : list Z) : bool := match l with x :: ((y :: _) as r) => (y =? x + 1)%Z && consecutive r | _ => true end.
  (** model_analysis.py:1345-1511; [K icam]: drt_cross_reprojection__dbpacked(icam_intrinsics=icam) *)
  Definition dq_db (method : umethod) (K : Z -> nat -> nat -> R) : (Z -> nat -> R) + ufailure :=
    match method with
    | Cross_ccp => inl (dq_db_ccp (K icam))
    | _ =>
      let refused := match method with
        | Mean_pcam =>
          if do_frames sel then
            if (0 <? Nobs_point p)%Z || (0 <? Z.of_nat (length (p_tri p)))%Z then Some Points_with_mean_pcam
            else if (p_Nframes p <=? 0)%Z then Some Name_error else None
          else None
        | _ => None end in
      match refused with
      | Some f => inr f
      | None =>
        match this_camera with
        | [] => inr No_extrinsics
        | i0 :: r =>
          if negb (consecutive (i0 :: r)) then inr Not_consecutive
          else
            let go cams ext0 :=
              match slice_intrinsics with
              | None => inr Unbound_local
              | Some _ =>
                match method with
                | Mean_pcam => inl (dq_db_mean_pcam cams ext0)
                | _ => match cams with [_] => inl (dq_db_rrp cams ext0 (K (-1)%Z)) | _ => inr Moving_with_rrp end
                end
              end in
            if (i0 <? 0)%Z then match r with [] => go [ref_cam] None | _ => inr Moving_through_reference end
            else match maybe_index (state_index_extrinsics p i0) with
                 | None => inr Type_error
                 | Some e0 => go (map cam (i0 :: r)) (Some e0)
                 end
        end
      end
    end.
End Gradient.
