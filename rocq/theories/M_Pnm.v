(** Model: images in memory (image.h:68-109) and saving them (image.c:33-175, 246-355) as .pgm and .ppm.
    Memory: a byte per address.  Sizes and strides are natural numbers; the C code would convert a negative y*stride to size_t.
    Not modelled: .png and .jpg (libraries), failures of malloc() and of the file system.
    bgr_tofrom_rgb() (image.c:33-46) is modelled on the dense buffer that generic_save() gives it: it visits each pixel once. *)
From Coq Require Import String List Arith ZArith Bool Ascii.
From Verif Require Import M_Ply.
Import ListNotations.
Open Scope nat_scope.

Definition mem := nat -> Z.
(** image.h:68-80 *)
Record image := Image { im_w : nat; im_h : nat; im_stride : nat; im_data : nat }.
(** image.h:82-93 mrcal_image_TYPE_at(): the address of a pixel; T is sizeof(T) *)
Definition at_ (T : nat) (im : image) (x y : nat) : nat := im_data im + T * (x + y * im_stride im / T).
(** image.h:95-109 *)
Definition crop (T : nat) (im : image) (x0 y0 w h : nat) : image := Image w h (im_stride im) (at_ T im x0 y0).

Definition bytes_of (s : string) : list Z := map (fun c => Z.of_N (N_of_ascii c)) (list_ascii_of_string s).
Definition read (m : mem) (a n : nat) : list Z := map (fun k => m (a + k)) (seq 0 n).
(** image.c:109-129.  The rows as they are written *)
Definition rows (m : mem) (im : image) (bytes_per_pixel : nat) : list Z :=
  flat_map (fun i => read m (im_data im + im_stride im * i) (bytes_per_pixel * im_w im)) (seq 0 (im_h im)).
(** image.c:109-114 *)
Definition pnm_header (channels w h bits_per_pixel : nat) : string :=
  ("P" ++ (if channels =? 1 then "5" else "6")%nat ++ newline ++ dec w ++ " " ++ dec h ++ newline ++ (if bits_per_pixel =? 16 then "65535" else "255")%nat ++ newline)%string.

Inductive saved := Failed | Png | Jpg | Pnm (contents : list Z).

(** image.c:48-59 get_extension(), and strcasecmp() with a lower-case text *)
Definition get_extension (filename : string) : option string :=
  let n := String.length filename in
  if n <? 5 then None else Some (substring (n - 4) 4 filename).
Definition lower (a : ascii) : ascii :=
  let n := nat_of_ascii a in if (65 <=? n) && (n <=? 90) then ascii_of_nat (n + 32) else a.
Fixpoint strcasecmp_eq (a b : string) : bool :=
  match a, b with
  | EmptyString, EmptyString => true
  | String x a, String y b => Ascii.eqb (lower x) (lower y) && strcasecmp_eq a b
  | _, _ => false
  end.
(** image.c:33-46 *)
Fixpoint bgr_tofrom_rgb (l : list Z) : list Z :=
  match l with
  | b :: g :: r :: l => r :: g :: b :: bgr_tofrom_rgb l
  | l => l
  end.
(** image.c:246-355.  For bgr, the copy of the image in a dense buffer, with red and blue exchanged (:271-299) *)
Definition generic_save (filename : string) (m : mem) (im : image) (bits_per_pixel : nat) : saved :=
  if (im_w im =? 0) || (im_h im =? 0) then Failed
  else if negb ((bits_per_pixel =? 8) || (bits_per_pixel =? 16) || (bits_per_pixel =? 24)) then Failed
  else
    let channels := if bits_per_pixel =? 24 then 3 else 1 in
    let data := if bits_per_pixel =? 24 then bgr_tofrom_rgb (rows m im 3) else rows m im (bits_per_pixel / 8) in
    let pnm := Pnm (bytes_of (pnm_header channels (im_w im) (im_h im) bits_per_pixel) ++ data) in
    match get_extension filename with
    | None => Failed
    | Some e =>
        if strcasecmp_eq e ".png" then Png
        else if strcasecmp_eq e ".jpg" then (if bits_per_pixel =? 16 then Failed else Jpg)
        else if strcasecmp_eq e ".pgm" then (if negb (channels =? 1) then Failed else pnm)
        else if strcasecmp_eq e ".ppm" then (if negb (channels =? 3) then Failed else pnm)
        else Failed
    end.
