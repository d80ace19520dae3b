(** Model: write_point_cloud_as_ply(): utils.py:1578-1751.
    An array: its shape, and its elements by row and column (an array of shape (N,) has the column 0).
    As arguments, from numpy: the bytes of a number as np.float32 and as np.uint8, the texts "%.1f" and "%d" of a number.
    The contents of the file: the header, followed by the bytes of the records, or by lines of fields separated by spaces.
    Not modelled: a big-endian machine (np.float32 has the byte order of the machine), errors of the file system. *)
From Coq Require Import String List Arith Bool Decimal DecimalString.
Import ListNotations.
Open Scope string_scope.

Record array (num : Type) := Array { a_shape : list nat; a_get : nat -> nat -> num }.
Arguments Array {num}. Arguments a_shape {num}. Arguments a_get {num}.
Inductive body (byte : Type) := Bytes (l : list byte) | Lines (l : list (list string)).
Arguments Bytes {byte}. Arguments Lines {byte}.

Definition newline : string := String (Ascii.ascii_of_nat 10) "".
Definition dec (n : nat) : string := NilZero.string_of_uint (Nat.to_uint n).

Section ply.
Context {num byte : Type} (f32 u8 : num -> list byte) (fmt_f fmt_d : num -> string) (n255 : num).

(** :1655-1666.  The colors after the checks: None, grayscale, bgr; functions of the row *)
Inductive colors := No_color | Gray (i : nat -> num) | Bgr (b g r : nat -> num).
(** :1631-1666.  None: an exception.  Otherwise N and the colors *)
Definition check (points : array num) (color : option (array num)) : option (nat * colors) :=
  match a_shape points with
  | [N; Ntrailing] =>
    if negb ((Ntrailing =? 3) || (Ntrailing =? 4) || (Ntrailing =? 6))%nat then None
    else match color with
    | Some c =>
        if negb (Ntrailing =? 3)%nat then None
        else match a_shape c with
        | [n] => if (n =? N)%nat then Some (N, Gray (fun i => a_get c i 0)) else None
        | [n; k] => if (n =? N)%nat && (k =? 3)%nat then Some (N, Bgr (fun i => a_get c i 0) (fun i => a_get c i 1) (fun i => a_get c i 2)) else None
        | _ => None
        end
    | None =>
        if (Ntrailing =? 4)%nat then Some (N, Gray (fun i => a_get points i 3))
        else if (Ntrailing =? 6)%nat then Some (N, Bgr (fun i => a_get points i 3) (fun i => a_get points i 4) (fun i => a_get points i 5))
        else Some (N, No_color)
    end
  | _ => None
  end.
(** :1676-1703 *)
Definition header_color (c : colors) : string :=
  match c with
  | Gray _ => "property uchar intensity" ++ newline
  | Bgr _ _ _ => "property uchar red" ++ newline ++ "property uchar green" ++ newline ++ "property uchar blue" ++ newline
  | No_color => ""
  end.
Definition header (binary : bool) (N : nat) (c : colors) : string :=
  "ply" ++ newline ++ "format " ++ (if binary then "binary_little_endian" else "ascii") ++ " 1.0" ++ newline ++ "element vertex " ++ dec N ++ newline ++
  "property float x" ++ newline ++ "property float y" ++ newline ++ "property float z" ++ newline ++ header_color c ++ "end_header" ++ newline.
(** :1709-1722.  One record *)
Definition record (p : array num) (c : colors) (i : nat) : list byte :=
  (f32 (a_get p i 0) ++ f32 (a_get p i 1) ++ f32 (a_get p i 2) ++
   match c with No_color => [] | Gray g => u8 (g i) | Bgr b g r => u8 (r i) ++ u8 (g i) ++ u8 (b i) end)%list.
(** :1724-1751.  One line *)
Definition line (p : array num) (c : colors) (i : nat) : list string :=
  ([fmt_f (a_get p i 0); fmt_f (a_get p i 1); fmt_f (a_get p i 2)] ++
   match c with No_color => [] | Gray g => [fmt_d (g i)] | Bgr b g r => [fmt_d (r i); fmt_d (g i); fmt_d (b i); fmt_d n255] end)%list.
(** the whole function.  None: an exception *)
Definition write_ply (points : array num) (color : option (array num)) (binary : bool) : option (string * body byte) :=
  match check points color with
  | None => None
  | Some (N, c) =>
      Some (header binary N c,
            if binary then Bytes (flat_map (record points c) (seq 0 N)) else Lines (map (line points c) (seq 0 N)))
  end.
End ply.
