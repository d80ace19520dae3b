(** calibration.py, compute_chessboard_corners(): importing the corner
    detections (calibration.py:186-502 at the pinned commit) and writing the
    cache.  The line-level text work (the regexes, split() and float(),
    calibration.py:349-366,380-402) is a given function [parse]; os.path and
    fnmatch are given functions; a Python exception is [None].  Frame numbers
    come from [M_FrameNo.mapping]. *)
From Coq Require Import ZArith List Bool Ascii.
From Verif Require Import M_FrameNo.
Import ListNotations.
Open Scope Z_scope.

Inductive weight_column_kind := Level | Weight | NoColumn.

Section Corners.
Context {L V : Type}. (* raw lines; floating-point values *)
(** one field of a data row: '-', a number, or something that isn't a number *)
Inductive field := Dash | Num (v : V) | Junk.
(** a line: a comment, something unexpected, or a file name and some fields *)
Inductive line := Comment | Malformed | Row (f : name) (fields : list field).
Variable parse : L -> line.
Variables (is_neg is_nonpos : V -> bool) (one minus_one : V).
(** 1. / (1 << int(w)): raises for w = NaN, inf *)
Variable level_weight : V -> option V.

Variables (W H : Z).
Variable kind : weight_column_kind.
Variable Nmin : Z. (* Npoint_observations_per_board_min *)
Variable excluded : name -> bool. (* f in exclude_images *)
(** filename_canonical (329-338), and the first glob that matches (315-320) *)
Variable canonical : name -> name.
Variable glob_of : name -> option nat.
Variable Ncameras : nat.

Record pt := { px : V; py : V; pw : V }.
Definition invalid_pt : pt := {| px := minus_one; py := minus_one; pw := minus_one |}.

(** parse_point (369-418): the new value of out[:], and whether it's valid *)
Definition parse_point (fields : list field) : option (pt * bool) :=
  match fields with
  | f0 :: f1 :: rest =>
      match f0, f1 with
      | Dash, _ | _, Dash => Some (invalid_pt, false)
      | Num x, Num y =>
          let out := {| px := x; py := y; pw := minus_one |} in
          if is_neg x || is_neg y then Some (out, false) else
          let with_weight w := {| px := x; py := y; pw := w |} in
          match rest, kind with
          | [], _ => Some (with_weight one, true)
          | _, NoColumn => Some (with_weight one, true)
          | f2 :: _, _ =>
              match f2 with
              | Dash => Some (out, false)
              | Junk => None
              | Num w =>
                  match kind with
                  | Weight => if is_nonpos w then Some (out, false) else Some (with_weight w, true)
                  | _ => if is_neg w then Some (out, false)
                         else match level_weight w with Some w => Some (with_weight w, true) | None => None end
                  end
              end
          end
      | _, _ => None
      end
  | _ => None
  end.

(** the context (300-307); the grid holds the points seen so far, the rest being
    [invalid_pt] *)
Record ctx := { c_f : name; c_grid : list pt; c_valid : Z }.
Definition ctx0 : ctx := {| c_f := []; c_grid := []; c_valid := 0 |}.

(** the result being built: the dict 'mapping', and files_per_camera *)
Definition corners := list (name * list pt).
Fixpoint corners_set (d : corners) (f : name) (g : list pt) : corners :=
  match d with
  | [] => [(f, g)]
  | (k, v) :: d => if name_eqb k f then (k, g) :: d else (k, v) :: corners_set d f g
  end.
Fixpoint push (n : nat) (f : name) (fpc : list (list name)) : list (list name) :=
  match n, fpc with
  | O, l :: r => (l ++ [f]) :: r
  | S n, l :: r => l :: push n f r
  | _, [] => []
  end.
Record st := { s_map : corners; s_files : list (list name); s_ctx : ctx }.

(** finish_chessboard_observation (312-343) *)
Definition finish (s : st) : option st :=
  let c := s_ctx s in
  let igrid := Z.of_nat (length (c_grid c)) in
  if igrid >? 1 then
    if negb (W * H =? igrid) then None
    else if negb (excluded (c_f c)) && (c_valid c >? Nmin) then
      let f := canonical (c_f c) in
      match glob_of f with
      | Some icam => Some {| s_map := corners_set (s_map s) f (c_grid c); s_files := push icam f (s_files s); s_ctx := ctx0 |}
      | None => Some {| s_map := s_map s; s_files := s_files s; s_ctx := ctx0 |}
      end
    else Some {| s_map := s_map s; s_files := s_files s; s_ctx := ctx0 |}
  else Some {| s_map := s_map s; s_files := s_files s; s_ctx := ctx0 |}.

(** one line (349-424).  Indexing the (H*W,3) grid past its end raises *)
Definition one_line (s : st) (l : L) : option st :=
  match parse l with
  | Comment => Some s
  | Malformed => None
  | Row f fields =>
      match
        (if name_eqb (c_f (s_ctx s)) f then Some s
         else match finish s with
              | Some s => Some {| s_map := s_map s; s_files := s_files s;
                                  s_ctx := {| c_f := f; c_grid := c_grid (s_ctx s); c_valid := c_valid (s_ctx s) |} |}
              | None => None
              end)
      with
      | None => None
      | Some s =>
          match length fields with
          | 2%nat | 3%nat =>
              let c := s_ctx s in
              if Z.of_nat (length (c_grid c)) >=? H * W then None else
              match parse_point fields with
              | None => None
              | Some (p, v) =>
                  Some {| s_map := s_map s; s_files := s_files s;
                          s_ctx := {| c_f := c_f c; c_grid := c_grid c ++ [p];
                                      c_valid := if v then c_valid c + 1 else c_valid c |} |}
              end
          | _ => None
          end
      end
  end.
Definition st0 : st := {| s_map := []; s_files := repeat [] Ncameras; s_ctx := ctx0 |}.
Fixpoint all_lines (s : st) (ls : list L) : option st :=
  match ls with
  | [] => Some s
  | l :: ls => match one_line s l with Some s => all_lines s ls | None => None end
  end.

(** get_corner_observations (203-466), given the text *)
Definition get_corner_observations (ls : list L) : option (corners * list (list name)) :=
  match all_lines st0 ls with
  | None => None
  | Some s =>
      match finish s with
      | None => None
      | Some s =>
          let min_num_images := if (1 <? length (s_files s))%nat then 2%nat else 1%nat in
          if existsb (fun fs => (length fs <? min_num_images)%nat) (s_files s) then None
          else Some (s_map s, s_files s)
      end
  end.

(** sorted(l, key=...): stable *)
Fixpoint insert_by (key : name -> Z) (f : name) (l : list name) : list name :=
  match l with
  | [] => [f]
  | g :: r => if key f <=? key g then f :: l else g :: insert_by key f r
  end.
Definition sorted_by (key : name -> Z) (l : list name) : list name := fold_right (insert_by key) [] l.

Fixpoint corners_get (d : corners) (f : name) : option (list pt) :=
  match d with
  | [] => None
  | (k, v) :: d => if name_eqb k f then Some v else corners_get d f
  end.

(** the loop at 485-500.  A key missing from either dict raises *)
Fixpoint number (d : dict) (m : corners) (files : list name) (last : option Z) (index_frame : Z)
  : option (list (list pt) * list (Z * Z)) :=
  match files with
  | [] => Some ([], [])
  | f :: files =>
      match dict_get d f, corners_get m f with
      | Some (iframe, icam), Some grid =>
          let '(index_frame, last) :=
            match last with
            | None => (index_frame + 1, iframe)
            | Some l => if negb (l =? iframe) then (index_frame + 1, iframe) else (index_frame, l)
            end in
          match number d m files (Some last) index_frame with
          | Some (obs, idx) => Some (grid :: obs, (index_frame, icam) :: idx)
          | None => None
          end
      | _, _ => None
      end
  end.

(** compute_chessboard_corners (468-502) *)
Definition key_of (d : dict) (sel : Z * Z -> Z) (f : name) : Z := match dict_get d f with Some v => sel v | None => 0 end.
Definition compute_chessboard_corners (ls : list L) : option (list (list pt) * list (Z * Z) * list name) :=
  match get_corner_observations ls with
  | None => None
  | Some (m, fpc) =>
      match M_FrameNo.mapping fpc with
      | None => None
      | Some d =>
          if forallb (fun f => match dict_get d f with Some _ => true | None => false end) (map fst m) then
            let files := sorted_by (key_of d snd) (map fst m) in
            let files := sorted_by (key_of d fst) files in
            match number d m files None (-1) with
            | Some (obs, idx) => Some (obs, idx, files)
            | None => None
            end
          else None (* KeyError in the sort key *)
      end
  end.
End Corners.
Arguments field V : clear implicits.
Arguments line V : clear implicits.
