(** Model: triangulation.py _compute_Var_q_triangulation(), _triangulation_uncertainty_internal() and the covariances of triangulate(),
    lines 1091-2040.  Doubles are real numbers; matrix products and np.linalg.solve() are exact.  Broadcasting: a list of slices.
    do_optimize_... are given explicitly.  [icam_e]: what corresponding_icam_extrinsics() returned (M_Corr); the poses of the models are those
    of the solve (_extrinsics_moved_since_calibration() is false).  Argument checks on optimization_inputs are not modelled. *)
From Coq Require Import Reals ZArith List Bool.
From Verif Require Import S_Vec M_Dual M_Pose M_Lens M_Layout M_Project M_Unproject M_Callback M_Residuals M_ProjUncert M_UnprojGrad M_Triangulate.
Import ListNotations.
Open Scope R_scope.

(** triangulation.py:1090-1127 *)
Definition Var_q_triangulation (sigma stdev_cross_camera_correlation : R) (i j : nat) : R :=
  let var_q := if Nat.eqb i j then 1 * sigma * sigma else 0 * sigma * sigma in
  let sigma_cross := sigma * stdev_cross_camera_correlation in
  let var_cross := sigma_cross * sigma_cross in
  (* [icam,ixy, icam,ixy] is [2 icam + ixy, 2 icam + ixy] *)
  match i, j with
  | 0%nat, 2%nat | 1%nat, 3%nat => var_cross
  | 2%nat, 0%nat | 3%nat, 1%nat => var_cross
  | _, _ => var_q
  end.

(** exceptions; Bad_shape and Singular are raised by numpy *)
Inductive tfailure := Lindstrom_gradients | Singular | Bad_shape | No_unprojection.
Inductive tmethod := Geometric | Leecivera_l1 | Leecivera_linf | Leecivera_mid2 | Leecivera_wmid2.
Definition tri_of (O : numops) (m : tmethod) : nv3 O -> nv3 O -> nv3 O -> option (nv3 O) :=
  match m with
  | Geometric => tri_geometric O | Leecivera_l1 => tri_l1 O | Leecivera_linf => tri_linf O
  | Leecivera_mid2 => tri_mid2 O | Leecivera_wmid2 => tri_wmid2 O
  end.
(** method(v0, v1, t01, get_gradients=True) into arrays of zeros: triangulation.py:1217-1227; nothing is written if there's no solution *)
Record tgrads := TG { tg_p : v3; tg_dv0 : m33; tg_dv1 : m33; tg_dt01 : m33 }.
Definition method_grads (m : tmethod) (a b t : v3) : tgrads :=
  match tri_of dualops m (d_vars a 0) (d_vars b 3) (d_vars t 6) with
  | Some y => TG (value3 y) (grad3 y 0) (grad3 y 3) (grad3 y 6)
  | None => TG v0 zero33 zero33 zero33
  end.

(** np.linalg.solve(A,B), 3x3 *)
Definition solve33 (A B : m33) : option m33 :=
  let d := det A in
  if Req_EM_T d 0 then None
  else Some (mm (mscale (1 / d)
    (M33 (m11 A * m22 A - m12 A * m21 A) (m02 A * m21 A - m01 A * m22 A) (m01 A * m12 A - m02 A * m11 A)
         (m12 A * m20 A - m10 A * m22 A) (m00 A * m22 A - m02 A * m20 A) (m02 A * m10 A - m00 A * m12 A)
         (m10 A * m21 A - m11 A * m20 A) (m01 A * m20 A - m00 A * m21 A) (m00 A * m11 A - m01 A * m10 A))) B).
Definition mcol (M : m33) (j : nat) : v3 :=
  match j with O => V3 (m00 M) (m10 M) (m20 M) | S O => V3 (m01 M) (m11 M) (m21 M) | _ => V3 (m02 M) (m12 M) (m22 M) end.
(** column j of the 3x6 matrix [Mr Mt] *)
Definition col6 (Mr Mt : m33) (j : nat) : v3 := if Nat.ltb j 3 then mcol Mr j else mcol Mt (j - 3).

Section Internal.
  Variable stale : j23.
  Variable p : problem.
  Variable method : option tmethod.   (* None: triangulate_lindstrom *)
  (** the two models: intrinsics, rt_cam_ref(), and what the C unprojection of the pixel returned *)
  Variables intr0 intr1 : nat -> R.
  Variables rt0 rt1 : rt.
  Variables q0 q1 : p2.
  Variables vs0 vs1 : v3.
  Let m := p_lens p.

  (** _triangulate_grad(): triangulation.py:1203-1256.  _triangulate_grad_simple() (1128-1180) computes t_p and dp_dq in the same way *)
  Record tri_grad := TriGrad {
    t_p : v3; dp_dq : nat -> v3;   (* the 4 columns of dp_triangulated_dq *)
    t_inv : rt * m33 * m33;        (* rt_ref1, dt_ref1_dr_1ref, dt_ref1_dt_1ref *)
    t_cmp : compose_grads;         (* rt01 by rt_0ref, rt_ref1 *)
    t_di0 : nat -> v3; t_di1 : nat -> v3; t_v1r : m33; t_v1v : m33; t_dv0 : m33; t_dv1 : m33; t_dt01 : m33 }.
  Definition inverted (x : rt) : rt * m33 * m33 :=
    match invert_rt_full x true true with (y, Some Jr, Some Jt) => (y, Jr, Jt) | (y, _, _) => (y, zero33, zero33) end.
  Definition triangulate_grad : tri_grad + tfailure :=
    let '(rt_ref1, Jr, Jt) := inverted rt1 in
    let '(rt01, gg) := compose_rt2_grad rt0 rt_ref1 false false in
    match unproject_grads stale m intr0 q0 vs0 false, unproject_grads stale m intr1 q1 vs1 false with
    | Some g0, Some g1 =>
      let '(v1, dv1_dr01, dv1_dvlocal1) := rotJ (rt_r rt01) (g_v g1) false in
      match method with
      | None => inr Lindstrom_gradients
      | Some method =>
        let t := method_grads method (g_v g0) v1 (rt_t rt01) in
        inl (TriGrad (tg_p t)
          (fun i => match i with
             | 0%nat => mv (tg_dv0 t) (g_dq0 g0) | 1%nat => mv (tg_dv0 t) (g_dq1 g0)
             | 2%nat => mv (tg_dv1 t) (mv dv1_dvlocal1 (g_dq0 g1)) | _ => mv (tg_dv1 t) (mv dv1_dvlocal1 (g_dq1 g1)) end)
          (rt_ref1, Jr, Jt) gg (g_di g0) (g_di g1) dv1_dr01 dv1_dvlocal1 (tg_dv0 t) (tg_dv1 t) (tg_dt01 t))
      end
    | _, _ => inr No_unprojection
    end.

  (** triangulation.py:1279-1282 etc.: Var_p_observation[ipt] *)
  Definition propagate4 (J : nat -> v3) (V : nat -> nat -> R) (a b : nat) : R :=
    fold_left (fun s i => fold_left (fun s j => s + vcol (J i) a * V i j * vcol (J j) b) [0; 1; 2; 3]%nat s) [0; 1; 2; 3]%nat 0.

  (** stabilize(): triangulation.py:1259-1396 *)
  Definition back_J (T : rt) (x : v3) : v3 * m33 * m33 * m33 :=
    match transform_point_rt_full T x true true true with
    | (y, Some (Jr, Jt), Some Jx) => (y, Jr, Jt, Jx) | (y, _, _) => (y, zero33, zero33, zero33) end.
  Definition stabilize_camera (p_cam0 : v3) : option (m33 * m33) :=
    let '(_, Jr, Jt, Jx) := back_J rt0 p_cam0 in
    match solve33 Jx Jr, solve33 Jx Jt with Some a, Some b => Some (a, b) | _, _ => None end.
  Definition stabilize_frame (p_cam0 : v3) (Nframes : Z) (f : rt) : option (m33 * m33) :=
    let '(p_ref, _, _, Jx) := back_J rt0 p_cam0 in
    let '(_, Fr, Ft, Fx) := back_J f p_ref in
    let A := mm Fx Jx in
    match solve33 A Fr, solve33 A Ft with Some a, Some b => Some (mscale (1 / IZR Nframes) a, mscale (1 / IZR Nframes) b) | _, _ => None end.
  Fixpoint all_some {T} (l : list (option T)) : option (list T) :=
    match l with [] => Some [] | Some x :: r => match all_some r with Some r => Some (x :: r) | None => None end | None :: _ => None end.

  (** writing columns [i0,i0+n) of dp_triangulated_db *)
  Definition put_cols (db : nat -> v3) (i0 n : Z) (f : nat -> v3) : nat -> v3 :=
    fun k => if (i0 <=? Z.of_nat k)%Z && (Z.of_nat k <? i0 + n)%Z then f (Z.to_nat (Z.of_nat k - i0)) else db k.
  Definition add_cols (db : nat -> v3) (i0 n : Z) (f : nat -> v3) : nat -> v3 :=
    fun k => if (i0 <=? Z.of_nat k)%Z && (Z.of_nat k <? i0 + n)%Z then vadd (db k) (f (Z.to_nat (Z.of_nat k - i0))) else db k.

  (** slice_optimized_intrinsics: triangulation.py:1512-1524: (first, length) in an array of num_params elements *)
  Definition slice_optimized_intrinsics : Z * Z :=
    let N := num_params m in
    let Ncore := if has_core m then 4%Z else 0%Z in
    let Ndistortions := (N - Ncore)%Z in
    let start := if negb (do_core (p_sel p)) then Ncore else 0%Z in
    (* a negative index counts from the end; -0 is 0 *)
    let stop := if negb (do_dist (p_sel p)) then (if (Ndistortions =? 0)%Z then 0%Z else N - Ndistortions)%Z else N in
    (start, Z.max 0 (stop - start)).
  Variable frame : Z -> rt.
  Variables icam_i0 icam_i1 icam_e0 icam_e1 : Z.
  Variable stabilize_coords : bool.
  Definition extrinsics_index (icam_e : Z) : option Z := if (0 <=? icam_e)%Z then maybe_index (state_index_extrinsics p icam_e) else None.
  (** triangulation.py:1500-1605: a row of columns of dp_triangulated_db *)
  Definition put_intrinsics_cols (db : nat -> v3) (icam : Z) (f : nat -> v3) : (nat -> v3) + tfailure :=
    match maybe_index (state_index_intrinsics p icam) with
    | None => inl db
    | Some i =>
      let '(start, n) := slice_optimized_intrinsics in
      let Nintrinsics := num_intrinsics_opt (p_sel p) m in
      if (n =? Nintrinsics)%Z then inl (put_cols db i Nintrinsics (fun j => f (Z.to_nat start + j)%nat)) else inr Bad_shape
    end.
  Definition put_e1 (t : tri_grad) (db : nat -> v3) : nat -> v3 :=
    match extrinsics_index icam_e1 with
    | None => db
    | Some e1 =>
      let '(_, dt_ref1_dr_1ref, dt_ref1_dt_1ref) := t_inv t in
      let dr_ref1_dr_1ref := mscale (-1) I3 in
      let dr01_dr_1ref := mm (dr_r1 (t_cmp t)) dr_ref1_dr_1ref in
      let dt01_dr_1ref := madd (mm (dt_r1 (t_cmp t)) dr_ref1_dr_1ref) (mm (dt_t1 (t_cmp t)) dt_ref1_dr_1ref) in
      let dt01_dt_1ref := madd (mm (dt_r1 (t_cmp t)) zero33) (mm (dt_t1 (t_cmp t)) dt_ref1_dt_1ref) in
      let db := put_cols db e1 3 (mcol (mm (mm (t_dv1 t) (t_v1r t)) dr01_dr_1ref)) in
      let db := add_cols db e1 3 (mcol (mm (t_dt01 t) dt01_dr_1ref)) in
      put_cols db (e1 + 3) 3 (mcol (mm (t_dt01 t) dt01_dt_1ref))
    end.
  Definition put_e0 (t : tri_grad) (stab : option (m33 * m33)) (db : nat -> v3) : nat -> v3 :=
    match extrinsics_index icam_e0 with
    | None => db
    | Some e0 =>
      let db := put_cols db e0 3 (mcol (mm (mm (t_dv1 t) (t_v1r t)) (dr_r0 (t_cmp t)))) in
      let db := add_cols db e0 3 (mcol (mm (t_dt01 t) (dt_r0 (t_cmp t)))) in
      let db := put_cols db (e0 + 3) 3 (mcol (mm (t_dt01 t) (dt_t0 (t_cmp t)))) in
      match stab with Some (a, b) => add_cols db e0 6 (col6 a b) | None => db end
    end.
  Definition dp_db (t : tri_grad) : (nat -> v3) + tfailure :=
    (* triangulation.py:1419-1430, 1485-1493 *)
    let f0 := if stabilize_coords then maybe_index (state_index_frames p 0) else None in
    let cam := if stabilize_coords then match stabilize_camera (t_p t) with Some s => Some (Some s) | None => None end else Some None in
    let fr := match f0 with
      | Some i => match all_some (map (fun j => stabilize_frame (t_p t) (p_Nframes p) (frame (Z.of_nat j))) (seq 0 (Z.to_nat (p_Nframes p)))) with
                  | Some l => Some (Some (i, l)) | None => None end
      | None => Some None end in
    match cam, fr with
    | Some cam, Some fr =>
      match put_intrinsics_cols (fun _ => v0) icam_i0 (fun i => mv (t_dv0 t) (t_di0 t i)) with
      | inr e => inr e
      | inl db =>
        match put_intrinsics_cols db icam_i1 (fun i => mv (t_dv1 t) (mv (t_v1v t) (t_di1 t i))) with
        | inr e => inr e
        | inl db =>
          let db := put_e1 t db in
          let db := put_e0 t cam db in
          inl (match fr with
               | Some (i, l) => put_cols db i (num_states_frames p) (fun n => let '(a, b) := nth (n / 6) l (zero33, zero33) in col6 a b (n mod 6))
               | None => db end)
        end
      end
    | _, _ => inr Singular
    end.
End Internal.

(** triangulate(): the covariances, triangulation.py:1830-2040.  [Vcal sigma]: _propagate_calibration_uncertainty('covariance', dF_dbunpacked = dp_triangulated_db,
    observed_pixel_uncertainty=sigma) with an estimate if sigma is None.  [Vobs ipt]: Var_p_observation of one slice *)
Inductive vars := Nothing_asked | Calibration (V : nat -> nat -> R) | Observation (V : nat -> nat -> nat -> R)
  | Both (Vc : nat -> nat -> R) (Vo : nat -> nat -> nat -> R) (Vj : nat -> nat -> R).
Section Triangulate.
  Variable Npoints : nat.
  Variables q_calibration_stdev q_observation_stdev : option R.
  Variable Vcal : option R -> nat -> nat -> R.
  Variable Vobs : nat -> nat -> nat -> R.
  Definition none_or_0 (x : option R) : bool := match x with None => true | Some x => if Req_EM_T x 0 then true else false end.
  Definition add_block (V : nat -> nat -> R) (ipt : nat) (B : nat -> nat -> R) (i j : nat) : R :=
    if Nat.leb (ipt * 3) i && Nat.ltb i ((ipt + 1) * 3) && (Nat.leb (ipt * 3) j && Nat.ltb j ((ipt + 1) * 3)) then V i j + B (i - ipt * 3)%nat (j - ipt * 3)%nat else V i j.
  (** None: "q_observation_stdev MUST be None or >= 0" *)
  Definition covariances : option vars :=
    if match q_observation_stdev with Some s => if Rlt_dec s 0 then true else false | None => false end then None
    else
      let zero2 := fun _ _ : nat => 0 in let zero3 := fun _ _ _ : nat => 0 in
      Some (if none_or_0 q_calibration_stdev && none_or_0 q_observation_stdev then
        match q_calibration_stdev, q_observation_stdev with
        | None, None => Nothing_asked
        | Some _, Some _ => Both zero2 zero3 zero2
        | Some _, None => Calibration zero2
        | None, Some _ => Observation zero3
        end
      else
        let Vc := match q_calibration_stdev with
          | None => None
          | Some s => if Req_EM_T s 0 then Some zero2 else Some (Vcal (if Rlt_dec 0 s then Some s else None)) end in
        let Vo := match q_observation_stdev with None => None | Some _ => Some Vobs end in
        match Vc, Vo with
        | Some Vc, None => Calibration Vc
        | None, Some Vo => Observation Vo
        | Some Vc, Some Vo => Both Vc Vo (fold_left (fun V ipt => add_block V ipt (Vo ipt)) (seq 0 Npoints) Vc)
        | None, None => Nothing_asked   (* not reached *)
        end).
End Triangulate.
