(** cahvor.py: reading and writing the vectors of a .cahvor file
    (cahvor.py:42-134 _HVs_HVc_HVp, _construct_model; 182-260 the dispatch in
    _read; 285-323 _deconstruct_model; 326-372 what _write writes of it), over
    the exact reals.  The text (splitting the lines, printing with 10 decimals)
    is not modelled here; nor are the warning about skew and the valid-intrinsics
    region.  An exception, or NaN, is [None]. *)
From Coq Require Import Reals List.
From Verif Require Import S_Vec M_Pose M_Project.
Import ListNotations.
Open Scope R_scope.

Inductive cv_lens := CvPinhole | CvCahvor | CvCahvore (linearity : R) | CvOpencv (n : nat) | CvOther.
(** a camera model: lens, fx fy cx cy, the other parameters; Rt_ref_cam *)
Record cv_model := { cv_l : cv_lens; cv_core : core; cv_dist : list R; cv_R : m33; cv_t : v3 }.

(** the "Model" line: CAHV, CAHVOR, or CAHVORE with a linearity *)
Inductive cv_kind := KCahv | KCahvor | KCahvore (linearity : R).
Record cv_file := { f_model : cv_kind; f_C : v3; f_A : v3; f_H : v3; f_V : v3;
                    f_O : option v3; f_R : option v3; f_E : option v3; f_opencv : option (nat * list R) }.

Definition col0 (m : m33) := V3 (m00 m) (m10 m) (m20 m).
Definition col1 (m : m33) := V3 (m01 m) (m11 m) (m21 m).
Definition col2 (m : m33) := V3 (m02 m) (m12 m) (m22 m).
(** transpose(cat(a,b,c)) *)
Definition of_cols (a b c : v3) : m33 := M33 (vx a) (vx b) (vx c) (vy a) (vy b) (vy c) (vz a) (vz b) (vz c).

(** _HVs_HVc_HVp (cahvor.py:42-57).  A division by 0 makes NaN *)
Definition HVs_HVc_HVp (A H V : v3) : option (R * R * R * R * v3 * v3) :=
  let Hc := dot H A in
  let hshp := vsub H (vscale Hc A) in
  let Hs := sqrt (dot hshp hshp) in
  let Vc := dot V A in
  let vsvp := vsub V (vscale Vc A) in
  let Vs := sqrt (dot vsvp vsvp) in
  if Req_EM_T Hs 0 then None else if Req_EM_T Vs 0 then None else
  Some (Hs, Vs, Hc, Vc, vscale (/ Hs) hshp, vscale (/ Vs) vsvp).

(** _construct_model (cahvor.py:59-134), called by _read (182-260).  Both the
    OpenCV distortions and a missing R take priority over the Model line *)
Definition construct (f : cv_file) : option cv_model :=
  if Req_EM_T (norm (f_A f)) 0 then None else
  let A := vscale (/ norm (f_A f)) (f_A f) in
  match HVs_HVc_HVp A (f_H f) (f_V f) with
  | None => None
  | Some (fx, fy, cx, cy, Hp, _) =>
      let Vp := cross A Hp in
      let R_toref := of_cols Hp Vp A in
      let make l dist := Some {| cv_l := l; cv_core := Core fx fy cx cy; cv_dist := dist; cv_R := R_toref; cv_t := f_C f |} in
      match f_opencv f with
      | Some (n, dist) => make (CvOpencv n) dist
      | None =>
          match f_R f with
          | None => make CvPinhole []
          | Some r =>
              match
                (match f_O f with
                 | None => Some (0, 0)
                 | Some ov =>
                     let o := mv (mT R_toref) ov in (* O R_toref *)
                     if Rlt_dec 1 (Rabs (vy o)) then None (* arcsin *) else Some (atan2 (vx o) (vz o), asin (vy o))
                 end)
              with
              | None => None
              | Some (alpha, beta) =>
                  match f_model f with
                  | KCahvore linearity =>
                      match f_E f with
                      | None => None
                      | Some e => make (CvCahvore linearity) [alpha; beta; vx r; vy r; vz r; vx e; vy e; vz e]
                      end
                  | _ =>
                      match f_E f with
                      | Some _ => None
                      | None => if Rlt_dec (norm r) (/ 100000000) then make CvPinhole []
                                else make CvCahvor [alpha; beta; vx r; vy r; vz r]
                      end
                  end
              end
          end
      end
  end.

(** _deconstruct_model and _write (cahvor.py:285-372) *)
Definition deconstruct (m : cv_model) : option cv_file :=
  let A := col2 (cv_R m) in
  let Hp := col0 (cv_R m) in
  let Vp := col1 (cv_R m) in
  let c := cv_core m in
  let H := vadd (vscale (fx c) Hp) (vscale (cx c) A) in
  let V := vadd (vscale (fy c) Vp) (vscale (cy c) A) in
  let make k ov r e oc := Some {| f_model := k; f_C := cv_t m; f_A := A; f_H := H; f_V := V; f_O := ov; f_R := r; f_E := e; f_opencv := oc |} in
  let axis alpha beta := mv (cv_R m) (V3 (sin alpha * cos beta) (sin beta) (cos alpha * cos beta)) in
  match cv_l m, cv_dist m with
  | CvPinhole, [] => make KCahv None None None None
  | CvOpencv n, dist => make KCahv None None None (Some (n, dist))
  | CvCahvor, [alpha; beta; r0; r1; r2] => make KCahvor (Some (axis alpha beta)) (Some (V3 r0 r1 r2)) None None
  | CvCahvore l, [alpha; beta; r0; r1; r2; e0; e1; e2] =>
      make (KCahvore l) (Some (axis alpha beta)) (Some (V3 r0 r1 r2)) (Some (V3 e0 e1 e2)) None
  | _, _ => None
  end.
