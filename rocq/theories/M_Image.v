(** image.c: the 16-bit to 8-bit stretch equalization (stretch_equalization_uint8_from_uint16,
    image.c:374-406), used by mrcal_image_uint8_load() on a 16-bit file (image.c:497-538).
    Pixels are integers; the image is its list of rows (the strides of
    mrcal_image_..._at() only say where a row starts).  Single-precision
    arithmetic is Flocq's binary32, rounding to nearest even. *)
From Coq Require Import ZArith List Bool.
From Flocq Require Import BinarySingleNaN.
Import ListNotations.
Open Scope Z_scope.

Definition sprec : Z := 24.
Definition semax : Z := 128.
#[global] Instance sprec_gt_0 : FLX.Prec_gt_0 sprec := eq_refl.
#[global] Instance sprec_lt_emax : Prec_lt_emax sprec semax := eq_refl.
Definition float32 := binary_float sprec semax.

(** (float)k *)
Definition f_ofZ (k : Z) : float32 := binary_normalize sprec semax _ _ mode_NE k 0 false.
(** 0.5f *)
Definition f_half : float32 := binary_normalize sprec semax _ _ mode_NE 1 (-1) false.
Definition f_add : float32 -> float32 -> float32 := Bplus mode_NE.
Definition f_mul : float32 -> float32 -> float32 := Bmult mode_NE.
Definition f_div : float32 -> float32 -> float32 := Bdiv mode_NE.

(** (uint8_t)x: truncation; undefined ([None]) for NaN, infinities and if the
    truncated value isn't representable (C11 6.3.1.4) *)
Definition f_to_u8 (x : float32) : option Z :=
  if is_finite x
  then let t := Btrunc x in if (0 <=? t) && (t <=? 255) then Some t else None
  else None.

(** image.c:377-390 *)
Definition UINT16_MAX : Z := 65535.
Definition minmax_step (mm : Z * Z) (x : Z) : Z * Z :=
  let '(mn, mx) := mm in
  if x <? mn then (x, mx)
  else if x >? mx then (mn, x)
  else (mn, mx).
Definition minmax (rows : list (list Z)) : Z * Z :=
  fold_left (fun mm row => fold_left minmax_step row mm) rows (UINT16_MAX, 0).

(** image.c:392: uint16_t max_min = max-min; *)
Definition u16 (x : Z) : Z := x mod 65536.
(** image.c:402: one pixel *)
Definition stretch_pixel (mn max_min x : Z) : option Z :=
  f_to_u8 (f_add f_half (f_div (f_mul (f_ofZ (x - mn)) (f_ofZ 255)) (f_ofZ max_min))).
(** the whole function *)
Definition stretch (rows : list (list Z)) : list (list (option Z)) :=
  let '(mn, mx) := minmax rows in
  let max_min := u16 (mx - mn) in
  map (map (stretch_pixel mn max_min)) rows.
