(** Model: mrcal.ingest_packed_state(), mrcal/utils.py:1103-1204, with the
    Python wrapper of the state vector functions, mrcal-pywrap.c:2200-2380 and
    3423-3590.
    The arrays in the optimization inputs are those of M_Pack.v ([loc -> R]).
    They are C-contiguous: the wrapper checks (python-wrapping-utilities.h:104).
    The selections and dimensions are those the wrapper makes of the inputs
    (mrcal-pywrap.c:1448-1457, 2324-2330); the intrinsics have num_params columns.
    Not modelled: keys that are missing or have their old names. *)
From Coq Require Import ZArith List Bool Reals.
From Verif Require Import M_Lens M_Layout M_Pack.
Import ListNotations.
Open Scope Z_scope.

(** [Raised m]: an exception, with the arrays as they are then.  [Killed]: the process is *)
Inductive outcome := Done (m : loc -> R) | Raised (m : loc -> R) | Killed.
Definition bind (x : outcome) (f : (loc -> R) -> outcome) : outcome :=
  match x with Done m => f m | Raised m => Raised m | Killed => Killed end.

(** Python: where the slice limit [i] is in an axis of length [n]; None at the start, at the end *)
Definition limit (n : Z) (none : Z) (i : option Z) : Z :=
  match i with None => none | Some i => if i <? 0 then Z.max 0 (i + n) else Z.min i n end.
Definition slice_start n i := limit n 0 i.
Definition slice_size n i j := Z.max 0 (limit n n j - limit n 0 i).
(** numpy: a[...] = v, for a 1-dimensional a and v: the sizes match or v has one element *)
Definition assignable (size_a size_v : Z) : bool := (size_a =? size_v) || (size_v =? 1).
Definition elt (size_v : Z) (i : Z) : Z := if size_v =? 1 then 0 else i.

(** mrcal-pywrap.c:3556-3586: the loop over PyArray_SIZE(b)/Nstate states.
    With Nstate = 0 that is an integer division by 0 *)
Definition unpack_state (p : problem) (b : Z -> R) : option (Z -> R) :=
  if num_states p =? 0 then None else Some (unpack_vec p b).

(** mrcal-pywrap.c:2412-2416 and others: a negative index is given as None *)
Definition index (i : Z) : option Z := if 0 <=? i then Some i else None.

Section Ingest.
Variable p : problem.
Variable b : Z -> R.   (* after unpack_state() *)

(** utils.py:1177-1195 *)
Definition ingest_intrinsics (m : loc -> R) : outcome :=
  match index (state_index_intrinsics p 0) with
  | None => Done m
  | Some ivar0 =>
    let Ncore := if has_core (p_lens p) then 4 else 0 in
    let N := num_params (p_lens p) in
    let Ndistortions := N - Ncore in
    let iunpacked0 := if do_core (p_sel p) then None else Some Ncore in
    let iunpacked1 := if do_dist (p_sel p) then None else Some (- Ndistortions) in
    let lo := slice_start N iunpacked0 in
    let cols := slice_size N iunpacked0 iunpacked1 in
    (* b[ivar0:Nvars_intrinsics] *)
    let size_v := slice_size (num_states p) (Some ivar0) (Some (num_states_intrinsics p)) in
    if negb (assignable (p_Nci p * cols) size_v) then Raised m else
    (* ravel() of an array that is not contiguous is a copy *)
    if (cols =? N) || (p_Nci p =? 1) || (cols =? 0) then
      Done (fun l => match l with
                     | LIntr k => if (0 <=? k) && (k <? p_Nci p * N) && (lo <=? k mod N) && (k mod N <? lo + cols)
                                  then b (ivar0 + elt size_v (k / N * cols + (k mod N - lo))) else m l
                     | _ => m l
                     end)
    else Done m
  end.
(** utils.py:1197-1199 *)
Definition ingest_extrinsics (m : loc -> R) : outcome :=
  match index (state_index_extrinsics p 0) with
  | None => Done m
  | Some ivar0 =>
    let size_v := slice_size (num_states p) (Some ivar0) (Some (ivar0 + num_states_extrinsics p)) in
    if negb (assignable (p_Nce p * 6) size_v) then Raised m else
    Done (fun l => match l with LExt k => if (0 <=? k) && (k <? p_Nce p * 6) then b (ivar0 + elt size_v k) else m l | _ => m l end)
  end.
(** utils.py:1201-1203 *)
Definition ingest_frames (m : loc -> R) : outcome :=
  match index (state_index_frames p 0) with
  | None => Done m
  | Some ivar0 =>
    let size_v := slice_size (num_states p) (Some ivar0) (Some (ivar0 + num_states_frames p)) in
    if negb (assignable (p_Nframes p * 6) size_v) then Raised m else
    Done (fun l => match l with LFrame k => if (0 <=? k) && (k <? p_Nframes p * 6) then b (ivar0 + elt size_v k) else m l | _ => m l end)
  end.
(** utils.py:1205-1207: points.ravel()[:-Npoints_fixed*3] *)
Definition ingest_points (m : loc -> R) : outcome :=
  match index (state_index_points p 0) with
  | None => Done m
  | Some ivar0 =>
    let size_v := slice_size (num_states p) (Some ivar0) (Some (ivar0 + num_states_points p)) in
    let size_a := slice_size (p_Npoints p * 3) None (Some (- p_Npoints_fixed p * 3)) in
    if negb (assignable size_a size_v) then Raised m else
    Done (fun l => match l with LPoint k => if (0 <=? k) && (k <? size_a) then b (ivar0 + elt size_v k) else m l | _ => m l end)
  end.
(** utils.py:1209-1211 *)
Definition ingest_warp (m : loc -> R) : outcome :=
  match index (state_index_warp p) with
  | None => Done m
  | Some ivar0 =>
    let size_v := slice_size (num_states p) (Some ivar0) (Some (ivar0 + num_states_warp p)) in
    if negb (assignable 2 size_v) then Raised m else
    Done (fun l => match l with LWarp k => if (0 <=? k) && (k <? 2) then b (ivar0 + elt size_v k) else m l | _ => m l end)
  end.
End Ingest.

(** utils.py:1103-1211; [size]: b_packed.size *)
Definition ingest_packed_state (p : problem) (b_packed : Z -> R) (size : Z) (m : loc -> R) : outcome :=
  let Nvars_expected := num_states_intrinsics p + num_states_extrinsics p + num_states_frames p + num_states_points p + num_states_warp p in
  if negb (size =? Nvars_expected) then Raised m else
  match unpack_state p b_packed with
  | None => Killed
  | Some b =>
    bind (ingest_intrinsics p b m) (fun m =>
    bind (ingest_extrinsics p b m) (fun m =>
    bind (ingest_frames p b m) (fun m =>
    bind (ingest_points p b m) (fun m =>
    ingest_warp p b m))))
  end.
