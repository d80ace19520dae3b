(** Model: synthetic_data.py synthesize_board_observations() (236-553).
    Doubles are real numbers.  The rows of 6 numbers that np.random.uniform(size=(Nframes,6)) returns in consecutive calls are consecutive rows
    of one sequence.  mrcal.project() with the intrinsics of a camera is a function; its result is None for a pixel that isn't a pair of numbers (NaN: all
    comparisons are false).  ref_calibration_object() is that of M_Perfect.  The loop is run with fuel: None if more rounds are needed. *)
From Coq Require Import Reals ZArith List Bool String.
From Verif Require Import S_Vec M_Pose M_Perfect.
Import ListNotations.
Open Scope R_scope.

(** A model: intrinsics() as the projection, Rt_cam_ref(), imagersize() *)
Record camera := Camera { cam_project : v3 -> option (R * R); cam_Rt_cam_ref : Rt; cam_W : Z; cam_H : Z }.
Record args := Args {
  a_models : list camera; a_w : Z; a_h : Z; a_spacing : R; a_warp : option (R * R);
  a_rt : rt;                       (* rt_ref_boardcenter *)
  a_radius : rt;                   (* rt_ref_boardcenter__noiseradius *)
  a_Nframes : nat; a_max_oblique_deg : option R; a_pcamera : v3; a_which : string }.

(** One frame: q[iframe] as one list per camera, each with the corners row by row, and Rt_ref_boardref[iframe] *)
Definition frame : Type := list (list (option (R * R))) * Rt.

Definition Rltb (a b : R) : bool := if Rlt_dec a b then true else false.
Definition Rleb (a b : R) : bool := if Rle_dec a b then true else false.

(** 425-428 *)
Definition board_center (a : args) : v3 := V3 (IZR (a_w a - 1) * a_spacing a / 2) (IZR (a_h a - 1) * a_spacing a / 2) 0.
(** The indices (ix,iy), row by row *)
Definition grid (w h : Z) : list (Z * Z) :=
  flat_map (fun iy => map (fun ix => (Z.of_nat ix, Z.of_nat iy)) (seq 0 (Z.to_nat w))) (seq 0 (Z.to_nat h)).
(** 431-435 *)
Definition board_reference (a : args) : list v3 :=
  map (fun i => vsub (ref_calibration_object (a_w a) (a_h a) (a_spacing a) (a_warp a) (fst i) (snd i)) (board_center a)) (grid (a_w a) (a_h a)).
(** 440-441 *)
Definition Rt_boardref_origboardref (a : args) : Rt := mkRt (Rt_R identity_Rt) (vneg (board_center a)).

(** 449-483: the frame made from one row of the random block *)
Definition vmul (a b : v3) : v3 := V3 (vx a * vx b) (vy a * vy b) (vz a * vz b).
Definition make_frame (a : args) (noise : v3 * v3) : frame :=
  let Rt_ref_boardref := Rt_from_rt (mkrt (vadd (rt_r (a_rt a)) (vmul (fst noise) (rt_r (a_radius a))))
                                          (vadd (rt_t (a_rt a)) (vmul (snd noise) (rt_t (a_radius a))))) in
  let boards_ref := map (fun x => transform_point_Rt Rt_ref_boardref x false) (board_reference a) in
  (map (fun m => map (fun x => cam_project m (transform_point_Rt (cam_Rt_cam_ref m) x false)) boards_ref) (a_models a), Rt_ref_boardref).
Definition get_observation_chunk (a : args) (noise : nat -> v3 * v3) (k : nat) : list frame :=
  map (fun i => make_frame a (noise i)) (seq (k * a_Nframes a) (a_Nframes a)).

(** 491-500.  0/0 is NaN, and the comparison is false *)
Definition not_oblique (a : args) (f : frame) : bool :=
  match a_max_oblique_deg a with
  | None => true
  | Some deg =>
      let p := vsub (Rt_t (snd f)) (a_pcamera a) in
      if Req_EM_T (norm p) 0 then false
      else
        let p := vscale (/ norm p) p in
        let o := V3 (m02 (Rt_R (snd f))) (m12 (Rt_R (snd f))) (m22 (Rt_R (snd f))) in
        Rltb (cos (deg * PI / 180)) (Rabs (dot p o))
  end.
(** 506-511 *)
Definition mask_visible (m : camera) (q : option (R * R)) : bool :=
  match q with
  | None => false
  | Some (x, y) => Rleb 0 x && Rleb 0 y && (Rleb x (IZR (cam_W m - 1)) && Rleb y (IZR (cam_H m - 1)))
  end.
(** 514 *)
Definition Nvisible (a : args) (f : frame) : list Z :=
  map (fun mq => Z.of_nat (List.length (filter (mask_visible (fst mq)) (snd mq)))) (combine (a_models a) (fst f)).
(** 516-526 *)
Open Scope Z_scope.
Definition seen (a : args) (f : frame) : bool :=
  let N := a_h a * a_w a in
  if String.eqb (a_which a) "all-cameras-must-see-full-board" then forallb (fun n => n =? N) (Nvisible a f)
  else if String.eqb (a_which a) "some-cameras-must-see-full-board" then existsb (fun n => n =? N) (Nvisible a f)
  else if String.eqb (a_which a) "all-cameras-must-see-half-board" then forallb (fun n => n >? N / 2) (Nvisible a f)
  else existsb (fun n => n >? N / 2) (Nvisible a f).
Close Scope Z_scope.
(** 485-530 *)
Definition cull (a : args) (l : list frame) : list frame := filter (seen a) (filter (not_oblique a) l).

(** 542-551 *)
Fixpoint loop (a : args) (noise : nat -> v3 * v3) (fuel k : nat) (sofar : list frame) : option (list frame) :=
  match fuel with
  | O => None
  | S fuel =>
      let sofar := (sofar ++ cull a (get_observation_chunk a noise k))%list in
      if (a_Nframes a <=? List.length sofar)%nat then Some (firstn (a_Nframes a) sofar)
      else loop a noise fuel (k + 1) sofar
  end.

Inductive outcome := Raised | Running | Returned (l : list frame).
(** 408-415, 542-553 *)
Definition synthesize_board_observations (a : args) (noise : nat -> v3 * v3) (fuel : nat) : outcome :=
  if negb (existsb (String.eqb (a_which a)) ["all-cameras-must-see-full-board"; "some-cameras-must-see-full-board";
                                             "all-cameras-must-see-half-board"; "some-cameras-must-see-half-board"]%string) then Raised
  else match loop a noise fuel 0 [] with
       | None => Running
       | Some l => Returned (map (fun f => (fst f, compose_Rt2 (snd f) (Rt_boardref_origboardref a) false false)) l)
       end.
