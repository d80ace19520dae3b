(** calibration.py:1034-1064, compute_connectivity_matrix() inside
    _estimate_camera_poses(): how many frames each pair of cameras shares; and
    the thresholding at calibration.py:1089.  A Python exception is [None]. *)
From Coq Require Import ZArith List Bool.
Import ListNotations.
Open Scope Z_scope.

(** Python's range(a,b) *)
Definition zrange (a b : Z) : list Z := map (fun k => a + Z.of_nat k) (seq 0 (Z.to_nat (b - a))).
(** Python indexing: negative indices count from the end; otherwise IndexError *)
Definition py_index (n i : Z) : option Z :=
  if (0 <=? i) && (i <? n) then Some i
  else if (- n <=? i) && (i <? 0) then Some (i + n)
  else None.
Definition py_get {A} (l : list A) (i : Z) : option A :=
  match py_index (Z.of_nat (length l)) i with Some k => nth_error l (Z.to_nat k) | None => None end.

(** the (Ncameras,Ncameras) array of uint16 (calibration.py:1043) *)
Definition mat := Z -> Z -> Z.
Definition mat0 : mat := fun _ _ => 0.
(** camera_connectivity[a,b] += 1, in 16 bits *)
Definition bump (N : Z) (m : mat) (a b : Z) : option mat :=
  match py_index N a, py_index N b with
  | Some a, Some b => Some (fun x y => if (x =? a) && (y =? b) then (m x y + 1) mod 65536 else m x y)
  | _, _ => None
  end.

Section Connect.
Variable Ncameras : Z.
(** rows (frame, camera) *)
Variable idx : list (Z * Z).

Fixpoint foldo {A B} (f : A -> B -> option A) (l : list B) (a : A) : option A :=
  match l with
  | [] => Some a
  | x :: l => match f a x with Some a => foldo f l a | None => None end
  end.

(** calibration.py:1047-1048 *)
Definition link (m : mat) (ic0 ic1 : Z) : option mat :=
  match py_get idx ic0, py_get idx ic1 with
  | Some p0, Some p1 =>
      match bump Ncameras m (snd p0) (snd p1) with
      | Some m => bump Ncameras m (snd p1) (snd p0)
      | None => None
      end
  | _, _ => None
  end.
(** calibration.py:1044-1048 *)
Definition finish_frame (m : mat) (i0 i1 : Z) : option mat :=
  foldo (fun m ic0 => foldo (fun m ic1 => link m ic0 ic1) (zrange (ic0 + 1) (i1 + 1)) m) (zrange i0 i1) m.

Record st := { s_f : Z; s_start : Z; s_m : mat }.
(** calibration.py:1054-1062: one iteration *)
Definition step (s : st) (i : Z) : option st :=
  match py_get idx i with
  | None => None
  | Some (f, c) =>
      if f <? s_f s then None (* raise Exception *)
      else if f >? s_f s then
        match (if s_start s >=? 0 then finish_frame (s_m s) (s_start s) (i - 1) else Some (s_m s)) with
        | Some m => Some {| s_f := f; s_start := i; s_m := m |}
        | None => None
        end
      else Some s
  end.
Definition compute_connectivity_matrix : option mat :=
  match foldo step (zrange 0 (Z.of_nat (length idx))) {| s_f := -1; s_start := -1; s_m := mat0 |} with
  | Some s => finish_frame (s_m s) (s_start s) (Z.of_nat (length idx) - 1)
  | None => None
  end.
End Connect.

(** calibration.py:1089: shared_frames[shared_frames<2] = 0 *)
Definition drop_sparse (m : mat) : mat := fun a b => if m a b <? 2 then 0 else m a b.
