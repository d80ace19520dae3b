(** Model: image_transforms.py scale_focal__best_pinhole_fit() (24-148) and pinhole_model_for_reprojection() (150-273).
    Doubles are real numbers with signed zeros, infinities and NaN; there is no rounding and no overflow.
    mrcal.unproject() of the query points is a parameter (modelled in M_Unproject.v); each lens model has a core (M_Lens.v). *)
From Coq Require Import Reals ZArith List Bool.
From Verif Require Import S_Vec M_Project.
Import ListNotations.
Open Scope R_scope.

(** the sign of a number [Num x neg] is that of x; [neg] is the sign of a zero *)
Inductive fl := Num (x : R) (neg : bool) | Inf (neg : bool) | NaN.
Definition num (x : R) : fl := Num x false.
Definition sgn (a : fl) : bool :=
  match a with Num x neg => if Rlt_dec x 0 then true else if Rlt_dec 0 x then false else neg | Inf neg => neg | NaN => false end.
Definition fdiv (a b : fl) : fl :=
  let s := xorb (sgn a) (sgn b) in
  match a, b with
  | NaN, _ | _, NaN | Inf _, Inf _ => NaN
  | Inf _, Num _ _ => Inf s
  | Num _ _, Inf _ => Num 0 s
  | Num x _, Num y _ => if Req_EM_T y 0 then (if Req_EM_T x 0 then NaN else Inf s) else Num (x / y) s
  end.
Definition fmul (a b : fl) : fl :=
  let s := xorb (sgn a) (sgn b) in
  match a, b with
  | NaN, _ | _, NaN => NaN
  | Inf _, Inf _ => Inf s
  | Inf _, Num x _ | Num x _, Inf _ => if Req_EM_T x 0 then NaN else Inf s
  | Num x _, Num y _ => Num (x * y) s
  end.
(** a > 0 *)
Definition fpos (a : fl) : bool := match a with Num x _ => if Rlt_dec 0 x then true else false | Inf neg => negb neg | NaN => false end.
(** np.min((a,b)) *)
Definition fmin (a b : fl) : fl :=
  match a, b with
  | NaN, _ | _, NaN => NaN
  | Inf true, _ | _, Inf true => Inf true
  | Inf false, x | x, Inf false => x
  | Num x _, Num y _ => if Rlt_dec y x then b else a
  end.

Inductive fitting := Points (q : list p2) | Corners | Centers_horizontal | Centers_vertical | Something_else.
Definition ray := (fl * fl * fl)%type.
Section Fit.
  Variables W H : R.
  Variable c : core.
  Variable unproject : p2 -> ray.
  (** 94-113 *)
  Definition q_edges (fit : fitting) : option (list p2) :=
    match fit with
    | Points q => Some q
    | Corners => Some [P2 0 0; P2 0 (H - 1); P2 (W - 1) (H - 1); P2 (W - 1) 0]
    | Centers_horizontal => Some [P2 0 ((H - 1) / 2); P2 (W - 1) ((H - 1) / 2)]
    | Centers_vertical => Some [P2 ((W - 1) / 2) 0; P2 ((W - 1) / 2) (H - 1)]
    | Something_else => None
    end.
  (** 130-146 *)
  Definition cut (normxy_min normxy_max : fl) (scale p : fl) : fl := fmin scale (if fpos p then fdiv normxy_max p else fdiv normxy_min p).
  Definition cut_point (scale : fl) (v : ray) : fl :=
    let '(x, y, z) := v in
    let scale := cut (fdiv (num (- cx c)) (num (fx c))) (fdiv (num (W - 1 - cx c)) (num (fx c))) scale (fdiv x z) in
    cut (fdiv (num (- cy c)) (num (fy c))) (fdiv (num (H - 1 - cy c)) (num (fy c))) scale (fdiv y z).
  Definition scale_edges (v_edges : list ray) : fl := fold_left cut_point v_edges (num 1000000).
  Definition scale_focal__best_pinhole_fit (fit : option fitting) : option fl :=
    match fit with
    | None => Some (num 1)
    | Some fit => match q_edges fit with Some q => Some (scale_edges (map unproject q)) | None => None end
    end.
End Fit.

(** round(): to nearest, halfway to even *)
Definition round_even (x : R) : Z :=
  let f := Int_part x in
  let r := x - IZR f in
  if Rlt_dec r (1 / 2) then f else if Rlt_dec (1 / 2) r then (f + 1)%Z else if Z.even f then f else (f + 1)%Z.
(** (fx, fy, cx, cy, imagersize) of the result; None: an exception *)
Record pinhole_model := Pinhole { p_fx : fl; p_fy : fl; p_cx : fl; p_cy : fl; p_W : Z; p_H : Z }.
Definition pinhole_model_for_reprojection (W H : Z) (c : core) (unproject : p2 -> ray) (fit : option fitting) (scale_focal : option R) (scale_image : option R) : option pinhole_model :=
  match (match scale_focal, fit with
         | None, _ => scale_focal__best_pinhole_fit (IZR W) (IZR H) c unproject fit
         | Some s, None => Some (num s)
         | Some _, Some _ => None
         end) with
  | None => None
  | Some scale_focal =>
    let f0 := fmul (num (fx c)) scale_focal in
    let f1 := fmul (num (fy c)) scale_focal in
    match scale_image with
    | None => Some (Pinhole f0 f1 (num (cx c)) (num (cy c)) W H)
    | Some k =>
      let kcx := fdiv (num (k + 2 * cx c * k - 1)) (num (2 * cx c)) in
      let kcy := fdiv (num (k + 2 * cy c * k - 1)) (num (2 * cy c)) in
      Some (Pinhole (fmul f0 (num k)) (fmul f1 (num k)) (fmul (num (cx c)) kcx) (fmul (num (cy c)) kcy) (round_even (IZR W * k)) (round_even (IZR H * k)))
    end
  end.
(** what mrcal.unproject() computes for LENSMODEL_PINHOLE, mrcal.c:1491-1505; a - a is +0 *)
Definition pinhole_ray (c : core) (q : p2) : ray := (fdiv (num (px q - cx c)) (num (fx c)), fdiv (num (py q - cy c)) (num (fy c)), num 1).
