(** Model: utils.py sorted_eig() (1213-1253), _plot_arg_covariance_ellipse() (1256-1273), _plot_args_points_and_covariance_ellipse() (1276-1284).
    np.linalg.eig() and np.argsort() are external functions.  A matrix is a list of rows; a single matrix, no broadcasting.  Real arithmetic. *)
From Coq Require Import Reals List.
From Verif Require Import M_Project.
Import ListNotations.
Open Scope R_scope.

Definition matrix := list (list R).
Section Ellipse.
  Variable eig : matrix -> list R * matrix.
  Variable argsort : list R -> list nat.

  (** 1244-1253: take_along_axis(l,i,-1), take_along_axis(v,dummy(i,-2),-1) *)
  Definition take (i : list nat) (row : list R) : list R := map (fun k => nth k row 0) i.
  Definition sorted_eig (M : matrix) : list R * matrix :=
    let lv := eig M in
    let i := argsort (fst lv) in
    (take i (fst lv), map (take i) (snd lv)).

  (** What is given to gnuplot: "with ellipses": x, y, major diameter, minor diameter, angle in degrees *)
  Record ellipse := Ellipse { e_x : R; e_y : R; e_major : R; e_minor : R; e_angle : R }.

  Definition all_zero (M : matrix) : bool := forallb (fun row => forallb (fun x => if Req_EM_T x 0 then true else false) row) M.
  (** 1256-1273 *)
  Definition covariance_ellipse (q_mean : R * R) (Var : matrix) : option ellipse :=
    if all_zero Var then None
    else
      let lv := sorted_eig Var in
      let l0 := nth 0 (fst lv) 0 in
      let l1 := nth 1 (fst lv) 0 in
      let v0 := map (fun row => nth 0 row 0) (snd lv) in
      let major := sqrt l0 in
      let minor := sqrt l1 in
      Some (Ellipse (fst q_mean) (snd q_mean) (2 * major) (2 * minor) (180 / PI * atan2 (nth 1 v0 0) (nth 0 v0 0))).

  (** 1276-1284 *)
  Definition total (l : list R) : R := fold_right Rplus 0 l.
  Definition mean (l : list R) : R := total l / INR (length l).
  Definition points_and_ellipse (q : list (R * R)) : option ellipse :=
    let q_mean := (mean (map fst q), mean (map snd q)) in
    let q_mean0 := map (fun p => (fst p - fst q_mean, snd p - snd q_mean)) q in
    let Var := [[mean (map (fun p => fst p * fst p) q_mean0); mean (map (fun p => fst p * snd p) q_mean0)];
                [mean (map (fun p => snd p * fst p) q_mean0); mean (map (fun p => snd p * snd p) q_mean0)]] in
    covariance_ellipse q_mean Var.
End Ellipse.
