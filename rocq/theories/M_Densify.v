(* _densify_polyline(), mrcal/utils.py:749-775.

   The array p of shape (N,2) is a list of pairs of real numbers; None and an
   array without elements are the lists and values of `arg`. The array operations
   are done in real arithmetic (simplified: no rounding). int() is truncation
   towards 0, range() of a negative number is empty. *)

From Coq Require Import Reals List ZArith.
From Flocq Require Import Core.Raux.
Import ListNotations.
Open Scope R_scope.

Definition pt : Type := R * R.

(* nps.mag(d), utils.py:764 *)
Definition mag (d : pt) : R := sqrt (fst d * fst d + snd d * snd d).

(* d = b-a, utils.py:763 *)
Definition minus (b a : pt) : pt := (fst b - fst a, snd b - snd a).

(* N = int(l/spacing - 1e-6 + 1.), utils.py:767 *)
Definition pieces (l spacing : R) : Z := Ztrunc (l / spacing - 1 / 1000000 + 1).

(* The points glued for one segment: float(j+1) / N * d + a for j in range(N),
   utils.py:761-772 *)
Definition segment (spacing : R) (a b : pt) : list pt :=
  let d := minus b a in
  let N := pieces (mag d) spacing in
  map (fun j => (INR (j + 1) / IZR N * fst d + fst a,
                 INR (j + 1) / IZR N * snd d + snd a))
      (seq 0 (Z.to_nat N)).

(* The loop over i in range(1,len(p)), utils.py:760-772 *)
Fixpoint segments (spacing : R) (a : pt) (rest : list pt) : list pt :=
  match rest with
  | [] => []
  | b :: rest' => segment spacing a b ++ segments spacing b rest'
  end.

(* What is returned: p itself; or p1 as made by np.array(p[0,:]), which has shape
   (2,); or p1 after at least one nps.glue(axis=-2), which has shape (N,2) *)
Inductive returned : Type :=
| Itself
| Flat (q : pt)
| Rows (l : list pt).

(* utils.py:749-773 *)
Definition densify (p : option (list pt)) (spacing : R) : returned :=
  match p with
  | None => Itself
  | Some [] => Itself
  | Some (a :: rest) =>
      match segments spacing a rest with
      | [] => Flat a
      | l => Rows (a :: l)
      end
  end.
