(** Model: projection_diff(): model_analysis.py:1520-1929, implied_Rt10__from_unprojections(): :27-395,
    sample_imager(): utils.py:268-324.
    Numbers are real numbers; None is a value that isn't finite (a failed unprojection, a division by 0 in the weights).
    Arrays (M,Nh,Nw) are lists, of length M, of lists of length Nh*Nw in raster order.
    Library calls and other parts of mrcal as arguments:
    - scipy.optimize.least_squares(): [lsq_r], [lsq_rt], from the residuals and the Jacobian to the solution
    - mrcal.projection_uncertainty(): [uncertainty], None: it raised an exception
    - the lens: unproject() with normalize=True, and project(), in the record [model]
    Not modelled: the noncentral models (:1758-1772), the shape of the result for a scalar distance (:1916-1927). *)
From Coq Require Import Reals ZArith List Bool.
From Verif Require Import S_Vec M_Pose M_Match.
Import ListNotations.
Open Scope R_scope.

Definition pixel := (R * R)%type.
Record model := Model { m_size : Z * Z; m_cam_ref : Rt; m_unproject : pixel -> option v3; m_project : v3 -> pixel }.

(** utils.py:314-321.  The height of the grid, np.linspace(), the grid *)
Definition grid_height (gh : option Z) (gw W H : Z) : Z :=
  match gh with Some n => n | None => rint (IZR H / IZR W * IZR gw) end.
Definition linspace (b : R) (n : Z) : list R :=
  map (fun i => IZR (Z.of_nat i) * (b / IZR (n - 1))) (seq 0 (Z.to_nat n)).
Definition sample_imager (gw : Z) (gh : option Z) (W H : Z) : list pixel :=
  let w := linspace (IZR (W - 1)) gw in
  let h := linspace (IZR (H - 1)) (grid_height gh gw W H) in
  flat_map (fun y => map (fun x => (x, y)) w) h.

(** ** implied_Rt10__from_unprojections() *)
(** :191-211.  The data of one point: p0, v1, weight.  Points that aren't finite get the weight 0 (the code sets only those elements of
    the vector to 0 that aren't finite) *)
Definition datum := (v3 * v3 * R)%type.
Definition clean (p v : option v3) (w : option R) : datum :=
  match p, v, w with
  | Some p, Some v, Some w => (p, v, w)
  | _, _, _ => (match p with Some p => p | None => v0 end, match v with Some v => v | None => v0 end, 0)
  end.
(** :214-215 *)
Definition in_focus (c : pixel) (rad : R) (q : pixel) : bool :=
  if Rlt_dec ((fst q - fst c) * (fst q - fst c) + (snd q - snd c) * (snd q - snd c)) (rad * rad) then true else false.
(** :184-221.  One slice of p0 and of the weights *)
Definition slice_data (c : pixel) (rad : R) (q0 : list pixel) (v1 : list (option v3)) (ps : list (option v3)) (ws : list (option R)) : list datum :=
  map (fun e => clean (fst (snd e)) (snd (fst e)) (snd (snd e)))
    (filter (fun e => in_focus c rad (fst (fst e))) (combine (combine q0 v1) (combine ps ws))).
Definition fit_data (c : pixel) (rad : R) (q0 : list pixel) (v1 : list (option v3)) (p0 : list (list (option v3)))
  (weights : option (list (list (option R)))) : list datum :=
  let ws := match weights with Some w => w | None => map (map (fun _ => Some 1)) p0 end in
  flat_map (fun e => slice_data c rad q0 v1 (fst e) (snd e)) (combine p0 ws).

(** a row vector times a matrix *)
Definition vm (v : v3) (m : m33) : v3 := mv (mT m) v.
(** :223-257 residual_jacobian_rt(): x and the row (dx/dr, dx/dt) of J for one point *)
Definition residual_rt (q : rt) (d : datum) : R * (v3 * v3) :=
  let '(p0, v1, weight) := d in
  let '(rtp0, drtp0_drt, _) := transform_point_rt_full q p0 false true true in
  let '(dr, dt) := match drtp0_drt with Some g => g | None => (zero33, zero33) end in
  let mag_rtp0 := norm rtp0 in
  let inner := dot rtp0 v1 in
  let th2 := 2 * (1 - inner / mag_rtp0) in
  let J g :=
    let dmag := vscale (/ mag_rtp0) (vm rtp0 g) in
    let dinner := vm v1 g in
    vscale (2 / (mag_rtp0 * mag_rtp0) * weight) (vsub (vscale inner dmag) (vscale mag_rtp0 dinner)) in
  (th2 * weight, (J dr, J dt)).
(** :260-281 residual_jacobian_r() *)
Definition residual_r (r : v3) (d : datum) : R * v3 :=
  let '(p0, v1, weight) := d in
  let '(rp0, drp0_dr, _) := rotate_point_r_full r p0 false true true in
  let dr := match drp0_dr with Some g => g | None => zero33 end in
  let inner := dot rp0 v1 in
  let th2 := 2 * (1 - inner) in
  (th2 * weight, vscale (-2 * weight) (vm v1 dr)).

Section projection_diff.
Context (lsq_r : (v3 -> list (R * v3)) -> v3) (lsq_rt : (rt -> list (R * (v3 * v3))) -> rt).
Context (uncertainty : bool -> list (list (option v3)) -> model -> option (list (list (option R)))).

(** :213-217 and :333-395.  None: the exception *)
Definition implied_Rt10 (q0 : list pixel) (p0 : list (list (option v3))) (v1 : list (option v3)) (weights : option (list (list (option R))))
  (atinfinity : bool) (c : pixel) (rad : R) : option Rt :=
  if (length (filter (in_focus c rad) q0) <? 3)%nat then None
  else
    let data := fit_data c rad q0 v1 p0 weights in
    Some (if atinfinity then mkRt (R_from_r (lsq_r (fun r => map (residual_r r) data))) v0
          else Rt_from_rt (lsq_rt (fun q => map (residual_rt q) data))).

(** ** projection_diff() *)
Inductive dist := Infinity | Scalar (d : R) | Iterable (l : list R).
(** :1735-1748 *)
Definition at_infinity (d : dist) : bool := match d with Infinity => true | _ => false end.
Definition distances (d : dist) : list R := match d with Infinity => [1] | Scalar d => [d] | Iterable l => l end.
(** v*distance *)
Definition points (v : list (option v3)) (ds : list R) : list (list (option v3)) :=
  map (fun d => map (option_map (fun v => vscale d v)) v) ds.
(** :1835-1844 and :1874-1884.  1/(u0*u1), squared *)
Definition weight_of (u0 u1 : option R) : option R :=
  match u0, u1 with
  | Some u0, Some u1 => if Req_EM_T (u0 * u1) 0 then None else Some ((1 / (u0 * u1)) * (1 / (u0 * u1)))
  | _, _ => None
  end.
Definition weights_of (u0 u1 : list (list (option R))) : list (list (option R)) :=
  map (fun e => map (fun e => weight_of (fst e) (snd e)) (combine (fst e) (snd e))) (combine u0 u1).
Definition get_all {A B} (f : A -> option B) (l : list A) : option (list B) := all_some (map f l).

Record opts := Opts { o_gw : Z; o_gh : option Z; o_intrinsics_only : bool; o_distance : dist; o_use_uncertainties : bool;
  o_focus_center : option pixel; o_focus_radius : R }.

(** :1826-1861 and :1868-1900.  The transformation from camera 0 to camera i; v0, vi: their unprojections; unc: the uncertainties of both *)
Definition get_Rt10 (o : opts) (center : pixel) (radius : R) (q0 : list pixel) (m0 mi : model) (v0 vi : list (option v3))
  (unc : option (list (list (option R)) * list (list (option R)))) : option Rt :=
  if o_intrinsics_only o then Some identity_Rt
  else if Req_EM_T radius 0 then Some (compose_Rt2 (m_cam_ref mi) (invert_Rt (m_cam_ref m0)) false false)
  else implied_Rt10 q0 (points v0 (distances (o_distance o))) vi
         (option_map (fun u => weights_of (fst u) (snd u)) unc) (at_infinity (o_distance o)) center radius.

(** :1853-1859 and :1901-1908.  The reprojections of one point, minus q0 *)
Definition reproject (Rt10 : Rt) (mi : model) (q : pixel) (p : option v3) : option pixel :=
  option_map (fun p => let q1 := m_project mi (transform_point_Rt Rt10 p false) in (fst q1 - fst q, snd q1 - snd q)) p.
Definition diffs (Rt10 : Rt) (mi : model) (q0 : list pixel) (v0 : list (option v3)) (ds : list R) : list (list (option pixel)) :=
  map (fun ps => map (fun qp => reproject Rt10 mi (fst qp) (snd qp)) (combine q0 ps)) (points v0 ds).
Definition mag (d : pixel) : R := sqrt (fst d * fst d + snd d * snd d).
(** :1915 np.sqrt(np.mean(nps.norm2(grids-q0),axis=0)), at one point *)
Definition rms (l : list (option pixel)) : option R :=
  option_map (fun l => sqrt (sumR (map (fun d => fst d * fst d + snd d * snd d) l) / INR (length l))) (all_some l).
Fixpoint transpose_with {A B} (f : list A -> B) (n : nat) (ls : list (list A)) : list B :=
  match n with
  | O => []
  | S n => f (flat_map (fun l => firstn 1 l) ls) :: transpose_with f n (map (skipn 1) ls)
  end.

Record result := Res { r_difflen : list (list (option R)); r_diff : option (list (list (option pixel))); r_q0 : list pixel; r_Rt10 : list Rt }.

(** :1727-1929.  None: an exception *)
Definition projection_diff (models : list model) (implied : option Rt) (o : opts) : option result :=
  match models with
  | m0 :: ((_ :: _) as others) =>
    if negb (length models =? 2)%nat && match implied with Some _ => true | None => false end then None
    else if negb (forallb (fun m => (fst (m_size m) =? fst (m_size m0)) && (snd (m_size m) =? snd (m_size m0)))%Z models) then None
    else
      let '(W, H) := m_size m0 in
      let q0 := sample_imager (o_gw o) (o_gh o) W H in
      let v m := map (m_unproject m) q0 in
      let ds := distances (o_distance o) in
      let unc :=
        if o_use_uncertainties o && negb (o_intrinsics_only o) && negb (if Req_EM_T (o_focus_radius o) 0 then true else false) &&
           match implied with Some _ => false | None => true end
        then get_all (fun m => uncertainty (at_infinity (o_distance o)) (points (v m) ds) m) models
        else None in
      let center := match o_focus_center o with Some c => c | None => ((IZR W - 1) / 2, (IZR H - 1) / 2) end in
      let radius :=
        if Rlt_dec (o_focus_radius o) 0 then
          match unc with Some _ => IZR (Z.max W H) * 100 | None => IZR (Z.min W H) / 6 end
        else o_focus_radius o in
      let unc_of i := match unc with Some u => Some (nth 0 u [], nth i u []) | None => None end in
      match (match implied with
             | Some Rt => Some [Rt]
             | None => get_all (fun im => get_Rt10 o center radius q0 m0 (snd im) (v m0) (v (snd im)) (unc_of (fst im)))
                         (combine (seq 1 (length others)) others)
             end) with
      | None => None
      | Some Rts =>
          let ds3 := map (fun e => diffs (fst e) (snd e) q0 (v m0) ds) (combine Rts others) in
          Some (match ds3 with
                | [d] => Res (map (map (option_map mag)) d) (Some d) q0 Rts
                | _ => Res (transpose_with (fun l => transpose_with rms (length q0) l) (length ds) ds3) None q0 Rts
                end)
      end
  | _ => None
  end.
End projection_diff.
