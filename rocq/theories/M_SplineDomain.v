(** Model: utils.py _splined_stereographic_domain() (587-646).
    mrcal.knots_for_splined_models() is [knot] of M_Splined; real arithmetic.  A lens model that isn't splined stereographic is None. *)
From Coq Require Import Reals ZArith List.
From Verif Require Import M_Lens M_SplineIdx M_Splined.
Import ListNotations.
Open Scope Z_scope.

(** The indices of the slices a:b and a:b:-1, a and b counted from the start *)
Definition upto (a b : Z) : list Z := map (fun k => a + Z.of_nat k) (seq 0 (Z.to_nat (b - a))).
Definition downto (a b : Z) : list Z := map (fun k => a - Z.of_nat k) (seq 0 (Z.to_nat (a - b))).

Section Domain.
  Variable cfg : spline_cfg.
  (** u[iy,ix]: 613-615 *)
  Definition uk (iy ix : Z) : R * R := (knot cfg (sp_Nx cfg) ix, knot cfg (sp_Ny cfg) iy).
  Definition mean2 (a b : R * R) : R * R := ((fst a + fst b) / 2, (snd a + snd b) / 2)%R.
  Definition mean4 (a b c d : R * R) : R * R := ((fst a + fst b + fst c + fst d) / 4, (snd a + snd b + snd c + snd d) / 4)%R.
  (** 618-646; None: the exception for other orders *)
  Definition splined_stereographic_domain : option (list (R * R)) :=
    let X := sp_Nx cfg in
    let Y := sp_Ny cfg in
    if sp_order cfg =? 2 then
      Some (map (fun ix => mean2 (uk 0 ix) (uk 1 ix)) (upto 1 (X - 2)) ++
            [mean4 (uk 0 (X - 2)) (uk 1 (X - 2)) (uk 0 (X - 1)) (uk 1 (X - 1))] ++
            map (fun iy => mean2 (uk iy (X - 2)) (uk iy (X - 1))) (upto 1 (Y - 2)) ++
            [mean4 (uk (Y - 2) (X - 2)) (uk (Y - 1) (X - 2)) (uk (Y - 2) (X - 1)) (uk (Y - 1) (X - 1))] ++
            map (fun ix => mean2 (uk (Y - 2) ix) (uk (Y - 1) ix)) (downto (X - 2) 1) ++
            [mean4 (uk (Y - 2) 1) (uk (Y - 1) 1) (uk (Y - 2) 0) (uk (Y - 1) 0)] ++
            map (fun iy => mean2 (uk iy 0) (uk iy 1)) (downto (Y - 2) 0) ++
            [mean4 (uk 0 0) (uk 0 1) (uk 1 0) (uk 1 1)] ++
            [mean2 (uk 0 1) (uk 1 1)])%list
    else if sp_order cfg =? 3 then
      Some (map (fun ix => uk 1 ix) (upto 1 (X - 2)) ++
            map (fun iy => uk iy (X - 2)) (upto 1 (Y - 2)) ++
            map (fun ix => uk (Y - 2) ix) (downto (X - 2) 1) ++
            map (fun iy => uk iy 1) (downto (Y - 2) 0))%list
    else None.
End Domain.
