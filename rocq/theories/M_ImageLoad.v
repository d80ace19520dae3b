(** Model: image.c generic_load() (414-585), used by mrcal_image_{uint8,uint16,bgr}_load() and mrcal_image_anytype_load() (588-640).
    The stb_image library is external: what its functions say about one file is a record.  An image that was loaded is its size, its stride and the values in
    its dense buffer: bytes, or 16-bit values if bits_per_pixel is 16; None for a value that is undefined (see M_Image).
    Not modelled: failures of malloc(), sizes that don't fit into an int. *)
From Coq Require Import List Arith ZArith Bool.
From Verif Require Import M_Image M_Pnm.
Import ListNotations.
Open Scope nat_scope.

(** stbi_info_from_file(): channels, or failure; stbi_is_16_bit_from_file(); stbi_load_from_file(), stbi_load_from_file_16() with the number of channels asked for *)
Record stb := Stb {
  stb_info : option nat;
  stb_is_16 : bool;
  stb_load : nat -> option (nat * nat * list Z);
  stb_load_16 : nat -> option (nat * nat * list Z) }.
Record loaded := Loaded { ld_w : nat; ld_h : nat; ld_stride : nat; ld_data : list (option Z) }.

(** the rows of a dense buffer *)
Fixpoint in_rows (w h : nat) (l : list Z) : list (list Z) :=
  match h with O => [] | S h => firstn w l :: in_rows w h (skipn w l) end.

(** 439-470: None is a failure *)
Definition detect (f : stb) : option nat :=
  match stb_info f with
  | None => None
  | Some channels =>
      if negb (stb_is_16 f) then
        if (channels =? 3) || (channels =? 4) then Some 24
        else if channels =? 1 then Some 8
        else None
      else
        if channels =? 1 then Some 16 else None
  end.
(** 471-490: the bits per pixel to load *)
Definition choose (detected requested : nat) : option nat :=
  if requested =? 0 then Some detected
  else if (detected =? 8) && (requested =? 16) then None
  else if (detected =? 16) && (requested =? 24) then None
  else if (detected =? 24) && (requested =? 16) then None
  else Some requested.
(** 493-566 *)
Definition load_as (f : stb) (bits_per_pixel : nat) : option loaded :=
  let buffer :=
    if bits_per_pixel =? 8 then
      if stb_is_16 f then
        match stb_load_16 f 1 with
        | None => None
        | Some (w, h, l) => Some (w, h, concat (stretch (in_rows w h l)))
        end
      else match stb_load f 1 with None => None | Some (w, h, l) => Some (w, h, map Some l) end
    else if bits_per_pixel =? 16 then
      match stb_load_16 f 1 with None => None | Some (w, h, l) => Some (w, h, map Some l) end
    else if bits_per_pixel =? 24 then
      match stb_load f 3 with None => None | Some (w, h, l) => Some (w, h, map Some (bgr_tofrom_rgb l)) end
    else None in
  match buffer with
  | None => None
  | Some (w, h, data) => Some (Loaded w h (w * bits_per_pixel / 8) data)
  end.
(** The whole function: the value of *bits_per_pixel afterwards, with the image.  None: false is returned.  The file is None if fopen() fails *)
Definition generic_load (file : option stb) (requested : nat) : option (nat * loaded) :=
  match file with
  | None => None
  | Some f =>
      match detect f with
      | None => None
      | Some detected =>
          match choose detected requested with
          | None => None
          | Some bits_per_pixel =>
              match load_as f bits_per_pixel with None => None | Some im => Some (bits_per_pixel, im) end
          end
      end
  end.
