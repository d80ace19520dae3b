(** Model: apply_color_map(): stereo.c:975-1238, mrcal-genpywrap.py:784-818 and 923-1009.
    An image is the list of its values in raster order (sizes and strides: see C60 and M_Image; here input and output have the same size).
    float and double are real numbers, so is the arithmetic in float. *)
From Coq Require Import Reals ZArith List Bool.
Import ListNotations.
Open Scope R_scope.

(** the element types of the input *)
Inductive ctype := U8 | U16 | U32 | U64 | I8 | I16 | I32 | I64 | F32 | F64.
Definition DBL_MAX : R := IZR (2 ^ 1024 - 2 ^ 971).
Definition DBL_MIN : R := / IZR (2 ^ 1022).
Definition FLT_MAX : R := IZR (2 ^ 128 - 2 ^ 104).
Definition FLT_MIN : R := / IZR (2 ^ 126).
(** stereo.c:1227-1238 (and mrcal-genpywrap.py:958-1009): T_MIN, T_MAX *)
Definition T_MIN (t : ctype) : R :=
  match t with
  | U8 | U16 | U32 | U64 => 0
  | I8 => IZR (- 2 ^ 7) | I16 => IZR (- 2 ^ 15) | I32 => IZR (- 2 ^ 31) | I64 => IZR (- 2 ^ 63)
  | F32 => FLT_MIN | F64 => DBL_MIN
  end.
Definition T_MAX (t : ctype) : R :=
  match t with
  | U8 => IZR (2 ^ 8 - 1) | U16 => IZR (2 ^ 16 - 1) | U32 => IZR (2 ^ 32 - 1) | U64 => IZR (2 ^ 64 - 1)
  | I8 => IZR (2 ^ 7 - 1) | I16 => IZR (2 ^ 15 - 1) | I32 => IZR (2 ^ 31 - 1) | I64 => IZR (2 ^ 63 - 1)
  | F32 => FLT_MAX | F64 => DBL_MAX
  end.
Definition is_float (t : ctype) : bool := match t with F32 | F64 => true | _ => false end.
(** (T)a *)
Definition trunc (a : R) : R := if Rlt_dec a 0 then - IZR (Int_part (- a)) else IZR (Int_part a).
Definition cast (t : ctype) (a : R) : R := if is_float t then a else trunc a.
(** the largest difference of two values, after the integer promotions, that is not a signed overflow.  A positive difference of unsigned values can't wrap *)
Definition no_overflow (t : ctype) (d : R) : bool :=
  match t with
  | U8 | U16 | I8 | I16 | I32 => if Rle_dec d (IZR (2 ^ 31 - 1)) then true else false
  | I64 => if Rle_dec d (IZR (2 ^ 63 - 1)) then true else false
  | U32 | U64 | F32 | F64 => true
  end.

(** stereo.c:975-1121 gnuplot_color_formula(); None: return false *)
Definition color_formula (formula : Z) (x : R) : option Z :=
  let '(formula, x) := if (formula <? 0)%Z then ((- formula)%Z, 1 - x) else (formula, x) in
  let y :=
    match formula with
    | 0%Z => Some 0
    | 1%Z => Some (5 / 10)
    | 2%Z => Some 1
    | 3%Z => Some x
    | 4%Z => Some (x * x)
    | 5%Z => Some (x * x * x)
    | 6%Z => Some (x * x * x * x)
    | 7%Z => Some (sqrt x)
    | 8%Z => Some (sqrt (sqrt x))
    | 9%Z => Some (sin (90 * x * PI / 180))
    | 10%Z => Some (cos (90 * x * PI / 180))
    | 11%Z => Some (Rabs (x - 5 / 10))
    | 12%Z => Some ((2 * x - 1) * (2 * x - 1))
    | 13%Z => Some (sin (180 * x * PI / 180))
    | 14%Z => Some (Rabs (cos (180 * x * PI / 180)))
    | 15%Z => Some (sin (360 * x * PI / 180))
    | 16%Z => Some (cos (360 * x * PI / 180))
    | 17%Z => Some (Rabs (sin (360 * x * PI / 180)))
    | 18%Z => Some (Rabs (cos (360 * x * PI / 180)))
    | 19%Z => Some (Rabs (sin (720 * x * PI / 180)))
    | 20%Z => Some (Rabs (cos (720 * x * PI / 180)))
    | 21%Z => Some (3 * x)
    | 22%Z => Some (3 * x - 1)
    | 23%Z => Some (3 * x - 2)
    | 24%Z => Some (Rabs (3 * x - 1))
    | 25%Z => Some (Rabs (3 * x - 2))
    | 26%Z => Some (15 / 10 * x - 5 / 10)
    | 27%Z => Some (15 / 10 * x - 1)
    | 28%Z => Some (Rabs (15 / 10 * x - 5 / 10))
    | 29%Z => Some (Rabs (15 / 10 * x - 1))
    | 30%Z => Some (if Rle_dec x (25 / 100) then 0 else if Rle_dec (57 / 100) x then 1 else x / (32 / 100) - 78125 / 100000)
    | 31%Z => Some (if Rle_dec x (42 / 100) then 0 else if Rle_dec (92 / 100) x then 1 else 2 * x - 84 / 100)
    | 32%Z => Some (if Rle_dec x (42 / 100) then x * 4 else if Rle_dec x (92 / 100) then - 2 * x + 184 / 100 else x / (8 / 100) - 115 / 10)
    | 33%Z => Some (Rabs (2 * x - 5 / 10))
    | 34%Z => Some (2 * x)
    | 35%Z => Some (2 * x - 5 / 10)
    | 36%Z => Some (2 * x - 1)
    | _ => None
    end in
  match y with
  | None => None
  | Some x =>
    let x := if Rle_dec x 0 then 0 else if Rle_dec 1 x then 1 else x in
    Some (Int_part (5 / 10 + 255 * x))
  end.

Inductive colored :=
| Colored (bgr : list (Z * Z * Z))
| Refused           (* return false *)
| Undefined.        (* signed integer overflow *)

(** stereo.c:1204-1222: one pixel *)
Definition pixel (t : ctype) (in_min in_max : R) (function_red function_green function_blue : Z) (v : R) : option (option (Z * Z * Z)) :=
  let x :=
    if Rle_dec v in_min then Some 0
    else if Rle_dec in_max v then Some 1
    else if no_overflow t (v - in_min) && no_overflow t (in_max - in_min) then Some ((v - in_min) / (in_max - in_min)) else None in
  match x with
  | None => None
  | Some x =>
    match color_formula function_red x, color_formula function_green x, color_formula function_blue x with
    | Some r, Some g, Some b => Some (Some (b, g, r))
    | _, _, _ => Some None
    end
  end.
Fixpoint pixels (t : ctype) (in_min in_max : R) (fr fg fb : Z) (image : list R) : colored :=
  match image with
  | [] => Colored []
  | v :: rest =>
    match pixel t in_min in_max fr fg fb v with
    | None => Undefined
    | Some None => Refused
    | Some (Some c) => match pixels t in_min in_max fr fg fb rest with Colored l => Colored (c :: l) | e => e end
    end
  end.
(** stereo.c:1146-1225 mrcal_apply_color_map_T(), auto_function=false *)
Definition c_apply_color_map (t : ctype) (image : list R) (auto_min auto_max : bool) (in_min in_max : R) (fr fg fb : Z) : colored :=
  let in_min := if auto_min then fold_left (fun m v => if Rlt_dec v m then v else m) image (T_MAX t) else in_min in
  let in_max := if auto_max then fold_left (fun m v => if Rlt_dec m v then v else m) image (T_MIN t) else in_max in
  pixels t in_min in_max fr fg fb image.
(** mrcal-genpywrap.py:784-818.  Omitted bounds are passed as DBL_MAX and DBL_MIN (923-924) *)
Definition limit (t : ctype) (a : R) : R :=
  if Rlt_dec a (T_MIN t) then T_MIN t else if Rlt_dec (T_MAX t) a then T_MAX t else cast t a.
Definition apply_color_map (t : ctype) (image : list R) (a_min a_max : R) (fr fg fb : Z) : colored :=
  c_apply_color_map t image (if Req_EM_T a_min DBL_MAX then true else false) (if Req_EM_T a_max DBL_MIN then true else false)
    (limit t a_min) (limit t a_max) fr fg fb.
