(** Model: mrcal_corresponding_icam_extrinsics() (mrcal.c:3896-3971) and the
    range check of its Python wrapper (mrcal-pywrap.c:3271-3276). *)
From Coq Require Import ZArith List Bool.
Import ListNotations.
Open Scope Z_scope.

(** mrcal_camera_index_t *)
Record cam_index := { ci_i : Z; ci_e : Z }.

(** C arrays: None = access out of bounds (undefined behaviour) *)
Definition aget (a : list Z) (i : Z) : option Z := if i <? 0 then None else nth_error a (Z.to_nat i).
Fixpoint upd (a : list Z) (n : nat) (v : Z) : list Z :=
  match a, n with
  | [], _ => []
  | _ :: r, O => v :: r
  | x :: r, S n => x :: upd r n v
  end.
Definition aset (a : list Z) (i v : Z) : option (list Z) :=
  match aget a i with Some _ => Some (upd a (Z.to_nat i) v) | None => None end.

(** (icam_map_to_extrinsics, icam_map_to_intrinsics) *)
Definition maps := (list Z * list Z)%type.
(** undefined behaviour | return false | go on *)
Inductive res (X : Type) := UB | Fail | Ok (x : X).
Arguments UB {X}. Arguments Fail {X}. Arguments Ok {X}.

(** mrcal.c:3896-3928 *)
Definition check (c : cam_index) (s : maps) : res maps :=
  let '(to_e, to_i) := s in
  let i := ci_i c in
  let e := if ci_e c <? 0 then -1 else ci_e c in
  match aget to_i (e + 1) with
  | None => UB
  | Some v =>
    let next1 := if v =? -100 then match aset to_i (e + 1) i with Some a => Ok a | None => UB end
                 else if negb (v =? i) then Fail else Ok to_i in
    match next1 with
    | UB => UB | Fail => Fail
    | Ok to_i' =>
      match aget to_e i with
      | None => UB
      | Some w =>
        if w =? -100 then match aset to_e i e with Some a => Ok (a, to_i') | None => UB end
        else if negb (w =? e) then Fail else Ok (to_e, to_i')
      end
    end
  end.
Fixpoint check_all (l : list cam_index) (s : maps) : res maps :=
  match l with
  | [] => Ok s
  | c :: r => match check c s with Ok s' => check_all r s' | Fail => Fail | UB => UB end
  end.

(** mrcal.c:3929-3971.  Ok e: returned true with *icam_extrinsics = e *)
Definition corresponding (icam : Z) (Nint Next : Z) (boards points : list cam_index) : res Z :=
  if negb ((Nint =? Next) || (Nint =? Next + 1)) then Fail
  else
    let to_e := repeat (-100) (Z.to_nat Nint) in
    let to_i := repeat (-100) (Z.to_nat (Next + 1)) in
    match check_all boards (to_e, to_i) with
    | UB => UB | Fail => Fail
    | Ok s1 =>
      match check_all points s1 with
      | UB => UB | Fail => Fail
      | Ok (to_e', _) => match aget to_e' icam with Some e => Ok e | None => UB end
      end
    end.

(** mrcal-pywrap.c:3249-3327: None = Python exception.  The triangulated
    observations are an argument of the wrapper, and unused. *)
Definition py_corresponding (icam : Z) (Nint Next : Z) (boards points triangulated : list cam_index) : res (option Z) :=
  if (icam <? 0) || (Nint <=? icam) then Ok None
  else match corresponding icam Nint Next boards points with
       | UB => UB | Fail => Ok None | Ok e => Ok (Some e) end.
