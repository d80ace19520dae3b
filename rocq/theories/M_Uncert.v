(** Model: propagation of the calibration noise, model_analysis.py:491-869, with the sparse products of
    mrcal-genpywrap.py:477-650 and the CHOLMOD solves of mrcal-pywrap.c:426-576 (cholmod_solve2() is an oracle).
    Doubles are real numbers.  A matrix is a function of its row and column. *)
From Coq Require Import Reals ZArith List Bool Arith.
From Verif Require Import M_Project M_Lens M_Layout M_Callback M_Pack.
Import ListNotations.
Open Scope R_scope.

(** ** The sparse products *)
Section Sparse.
  (** the arrays of a scipy.sparse.csr_matrix *)
  Variable Jp : nat -> nat.    (* indptr *)
  Variable Ji : nat -> nat.    (* indices *)
  Variable Jx : nat -> R.      (* data *)
  Variable Nstate : nat.
  Variable A : nat -> R.       (* shape (Nx,Nstate), contiguous *)
  Variable Nleading : nat.
  (** mrcal-genpywrap.py:540-552: jta[j] for one row *)
  Definition jta (Nx irow : nat) : buf R :=
    for_loop (Jp (S irow) - Jp irow) (fun i b => let icol := Ji (Jp irow + i)%nat in let x := Jx (Jp irow + i)%nat in
        for_loop Nx (fun j b => put b j (b j + A (icol + j * Nstate)%nat * x)) b) (fun _ => 0).
  (** mrcal-genpywrap.py:553-562 *)
  Definition add_outer (Nx : nat) (v : buf R) (out : buf R) : buf R :=
    for_loop Nx (fun i out =>
      let out := put out (i * Nx + i)%nat (out (i * Nx + i)%nat + v i * v i) in
      for_loop (Nx - (i + 1)) (fun k out => let j := (i + 1 + k)%nat in
        let out := put out (i * Nx + j)%nat (out (i * Nx + j)%nat + v i * v j) in
        put out (j * Nx + i)%nat (out (j * Nx + i)%nat + v i * v j)) out) out.
  (** mrcal-genpywrap.py:523-565 *)
  Definition A_Jt_J_At (Nx : nat) (out : buf R) : buf R :=
    let out := for_loop (Nx * Nx) (fun i out => put out i 0) out in
    for_loop Nleading (fun irow out => add_outer Nx (jta Nx irow) out) out.
  (** mrcal-genpywrap.py:613-648 *)
  Definition jta2 (irow : nat) : R * R :=
    for_loop (Jp (S irow) - Jp irow) (fun i '(a, b) => let icol := Ji (Jp irow + i)%nat in let x := Jx (Jp irow + i)%nat in
        (a + A icol * x, b + A (icol + Nstate)%nat * x)) (0, 0).
  Definition A_Jt_J_At_2 (out : buf R) : buf R :=
    let out := for_loop (2 * 2) (fun i out => put out i 0) out in
    let out := for_loop Nleading (fun irow out => let '(a, b) := jta2 irow in
        let out := put out 0 (out 0%nat + a * a) in
        let out := put out 1 (out 1%nat + a * b) in
        put out 3 (out 3%nat + b * b)) out in
    put out 2 (out 1%nat).
End Sparse.

(** The csr_matrix that optimizer_callback() returns: row by row in the order of STORE_JACOBIAN (C03) *)
Definition csr_rows (rows : list (@row R)) : list (list (Z * R)) := map r_j rows.
Definition indptr (js : list (list (Z * R))) (m : nat) : nat := length (concat (firstn m js)).
Definition indices (js : list (list (Z * R))) (i : nat) : nat := Z.to_nat (fst (nth i (concat js) (0%Z, 0))).
Definition data (js : list (list (Z * R))) (i : nat) : R := snd (nth i (concat js) (0%Z, 0)).

(** ** The factorization: mrcal-pywrap.c:426-576.  cholmod_solve2() works on each row of the argument. *)
Inductive system := Sys_A | Sys_P | Sys_L | Sys_D.

(** ** _propagate_calibration_uncertainty(): model_analysis.py:560-869 *)
Inductive failure := Other_measurements | Regularization_not_last | No_observations | Index_error | No_noise_level.
(** model_analysis.py:721-744.  None of num_measurements(): the C code would read past the triangulated array (C02). *)
Definition observations_leading (p : problem) : nat + failure :=
  match num_measurements p, measurement_index_reg p with
  | Some all, Some ireg =>
      let boards := num_measurements_boards p (Nobs_board p) in
      let points := num_measurements_points (Nobs_point p) in
      let reg := num_measurements_reg p in
      if negb (boards + points + reg =? all)%Z then inr Other_measurements
      else if (0 <=? ireg)%Z && negb (ireg + reg =? all)%Z then inr Regularization_not_last
      else if (reg =? 0)%Z then inl 0%nat
      else if (all - reg =? 0)%Z then inr No_observations
      else inl (Z.to_nat (all - reg))
  | _, _ => inr Index_error
  end.

Section Propagate.
  Variable solve : system -> (nat -> R) -> (nat -> R).
  Variable Jp Ji : nat -> nat.
  Variable Jx : nat -> R.
  Variable Nstate : nat.
  (** model_analysis.py:750-843: Var_dF[i,j] *)
  Definition process_slice (leading Nx : nat) (dF_dbpacked : nat -> nat -> R) (i j : nat) : R :=
    if Nat.ltb 0 leading then
      let A (n : nat) := solve Sys_A (dF_dbpacked (n / Nstate)%nat) (n mod Nstate)%nat in
      let f := if Nat.eqb Nx 2 then A_Jt_J_At_2 Jp Ji Jx Nstate A leading else A_Jt_J_At Jp Ji Jx Nstate A leading Nx in
      f (fun _ => 0) (i * Nx + j)%nat
    else
      let A2 (n : nat) := solve Sys_L (solve Sys_P (dF_dbpacked n)) in
      let A3 (n : nat) := solve Sys_D (A2 n) in
      for_loop Nstate (fun k s => s + A2 i k * A3 j k) 0.
  (** model_analysis.py:701-704, 850-867: dF_dbunpacked is scaled by unpack_state() *)
  Definition packed_gradient (p : problem) (dF : nat -> nat -> R) (i k : nat) : R :=
    unpack_vec p (fun z => dF i (Z.to_nat z)) (Z.of_nat k).
  Definition covariance (leading Nx : nat) (dF_dbpacked : nat -> nat -> R) (sigma : R) (i j : nat) : R :=
    process_slice leading Nx dF_dbpacked i j * sigma * sigma.
  Definition rms_stdev (leading Nx : nat) (dF_dbpacked : nat -> nat -> R) (sigma : R) : R :=
    sqrt (for_loop Nx (fun i s => s + process_slice leading Nx dF_dbpacked i i) 0 / INR Nx) * sigma.
End Propagate.

(** ** _observed_pixel_uncertainty_from_inputs(): model_analysis.py:491-556, with measurements_board() and
    measurements_point(), utils.py:1286-1426, 1429-1543: the rows of features with a weight > 0 *)
Definition weight_pos (w : R) : bool := if Rlt_dec 0 w then true else false.
Fixpoint selected {T} (keep : list bool) (l : list T) : list T :=
  match keep, l with true :: k, x :: l => x :: selected k l | false :: k, _ :: l => selected k l | _, _ => [] end.
Definition sum_squares (l : list R) : R := fold_left (fun s x => s + x * x) l 0.
(** [wboard], [wpoint]: the weights of the features in order; [x]: the measurement vector *)
Definition observed_pixel_uncertainty (p : problem) (wboard wpoint : list R) (x : nat -> R) : R + failure :=
  let two (w : list R) := flat_map (fun w => [weight_pos w; weight_pos w]) w in
  let Nb := Z.to_nat (num_measurements_boards p (Nobs_board p)) in
  let Np := Z.to_nat (num_measurements_points (Nobs_point p)) in
  let xb := selected (two wboard) (map x (seq 0 Nb)) in
  let xp := selected (two wpoint) (map x (seq Nb Np)) in
  let N := (length xb + length xp)%nat in
  if Nat.eqb N 0 then inr No_noise_level
  else let f := sqrt (1 - IZR (num_states p) / INR N) in
       inl (sqrt ((sum_squares xb + sum_squares xp) / INR N) / f).
