(** Model: outlier rejection (mrcal.c:3984-4381 markOutliers()) and the
    solve/reject loop of mrcal_optimize() (mrcal.c:6391-6467).

    Numbers are abstract ([arith]): the exact reals and IEEE doubles are two
    instances (C_Mark.v). *)
From Coq Require Import ZArith List Bool Lia.
Import ListNotations.
Open Scope Z_scope.

Record arith := {
  T : Type;
  n0 : T;                    (* 0.0 *)
  add : T -> T -> T;
  mul : T -> T -> T;
  div : T -> T -> T;
  ofZ : Z -> T;              (* conversion of an int *)
  gtb : T -> T -> bool;      (* a > b *)
  le0 : T -> bool;           (* w <= 0.0 *)
  neg : T -> T               (* w *= -1.0 *)
}.

Section Mark.
Variable A : arith.
Notation num := (T A).

(** a board feature: its weight (observations_board_pool[].z) and its two
    residuals x_boards[2i], x_boards[2i+1].  The doubly-nested loop over
    observations and features (LOOP_BOARD_OBSERVATION, LOOP_BOARD_FEATURE) runs
    over the pool in order with a running index: one list. *)
Record feat := { f_w : num; f_dx : num; f_dy : num }.
Definition inlier (f : feat) : bool := negb (le0 A (f_w f)).
Definition set_w (f : feat) (w : num) : feat := {| f_w := w; f_dx := f_dx f; f_dy := f_dy f |}.

(** The pairs of triangulated observations, in the order of
    LOOP_TRIANGULATED_POINT0/POINT1 (mrcal.c:4075-4098), from the last_in_set
    flags.  The position in this list is imeasurement_point_triangulated.
    Reading past the end of the array (last flag missing) is not modelled: the
    loop stops there. *)
Fixpoint pairs_inner (i0 i1 : nat) (rest : list bool) : list (nat * nat) :=
  match rest with
  | [] => []
  | last :: r => (i0, i1) :: if last then [] else pairs_inner i0 (S i1) r
  end.
Fixpoint pairs_from (i0 : nat) (flags : list bool) : list (nat * nat) :=
  match flags with
  | [] => []
  | last :: r => (if last then [] else pairs_inner i0 (S i0) r) ++ pairs_from (S i0) r
  end.

(** outlier bits of the triangulated observations *)
Definition marks := nat -> bool.
Definition mark2 (m : marks) (i j : nat) : marks := fun k => m k || Nat.eqb k i || Nat.eqb k j.
Definition pair_out (m : marks) (p : nat * nat) : bool := m (fst p) || m (snd p).

Definition sq (x : num) : num := mul A x x.
(** dx*dx > k*k*var *)
Definition beyond (k : Z) (var dx : num) : bool := gtb A (sq dx) (mul A (mul A (ofZ A k) (ofZ A k)) var).
Definition feat_beyond (k : Z) (var : num) (f : feat) : bool := beyond k var (f_dx f) || beyond k var (f_dy f).

(** first board loop, mrcal.c:4107-4126: (Noutliers, Ninliers, sum) *)
Definition sum_boards (fs : list feat) : Z * Z * num :=
  fold_left (fun acc f =>
    let '(nout, nin, v) := acc in
    if inlier f then (nout, nin + 1, add A v (add A (sq (f_dx f)) (sq (f_dy f))))
    else (nout + 1, nin, v)) fs (0, 0, n0 A).

(** first triangulated loop, mrcal.c:4132-4247.  [div_ p]: this pair of rays
    does not converge (_mrcal_triangulate_leecivera_mid2_is_convergent() with
    the poses passed in). *)
Record tstate := { t_m : marks; t_found : bool; t_nout : Z; t_nin : Z; t_var : num }.
Definition tri_step (div_ : nat * nat -> bool) (s : tstate) (px : (nat * nat) * num) : tstate :=
  let '(p, x) := px in
  let newout := negb (pair_out (t_m s) p) && div_ p in
  let m := if newout then mark2 (t_m s) (fst p) (snd p) else t_m s in
  let found := t_found s || newout in
  if pair_out m p then {| t_m := m; t_found := found; t_nout := t_nout s + 1; t_nin := t_nin s; t_var := t_var s |}
  else {| t_m := m; t_found := found; t_nout := t_nout s; t_nin := t_nin s + 1; t_var := add A (t_var s) (sq x) |}.
Definition tri_pass (div_ : nat * nat -> bool) (ps : list ((nat * nat) * num)) (m : marks) (var : num) : tstate :=
  fold_left (tri_step div_) ps {| t_m := m; t_found := false; t_nout := 0; t_nin := 0; t_var := var |}.

(** last board loop, mrcal.c:4310-4335 *)
Definition reject_feat (var : num) (f : feat) : feat :=
  if inlier f && feat_beyond 4 var f then set_w f (neg A (f_w f)) else f.
Definition count (P : feat -> bool) (fs : list feat) : Z := Z.of_nat (length (filter P fs)).
(** last triangulated loop, mrcal.c:4347-4378 *)
Definition reject_pair (var : num) (s : marks * Z) (px : (nat * nat) * num) : marks * Z :=
  let '(p, x) := px in
  if negb (pair_out (fst s) p) && beyond 4 var x then (mark2 (fst s) (fst p) (snd p), snd s + 1) else s.

Record mark_result := {
  r_found : bool;            (* return value *)
  r_feats : list feat;       (* the pool afterwards *)
  r_marks : marks;           (* outlier bits afterwards *)
  r_nout_board : Z;          (* Noutliers_board *)
  r_nout_tri : Z;            (* Noutliers_triangulated_point *)
  r_var : num                (* the variance used (internal) *)
}.

(** mrcal.c:3984-4381 markOutliers(); [ps]: the pairs with their residuals *)
Definition mark_outliers (div_ : nat * nat -> bool) (fs : list feat) (ps : list ((nat * nat) * num)) (m : marks) : mark_result :=
  let '(nout, nin, v) := sum_boards fs in
  let t := tri_pass div_ ps m v in
  let var := div A (t_var t) (ofZ A (nin * 2 + t_nin t)) in
  let found := t_found t
               || existsb (fun f => inlier f && feat_beyond 5 var f) fs
               || existsb (fun px => negb (pair_out (t_m t) (fst px)) && beyond 5 var (snd px)) ps in
  if found then
    let '(m', nt) := fold_left (reject_pair var) ps (t_m t, t_nout t) in
    {| r_found := true; r_feats := map (reject_feat var) fs; r_marks := m';
       r_nout_board := nout + count (fun f => inlier f && feat_beyond 4 var f) fs;
       r_nout_tri := nt; r_var := var |}
  else
    {| r_found := false; r_feats := fs; r_marks := t_m t; r_nout_board := nout; r_nout_tri := t_nout t; r_var := var |}.

(** ** mrcal.c:6408-6467: the do { solve } while(markOutliers) loop.
    [solve k weights marks]: the k-th call of dogleg_optimize2() with the
    current weights and outlier bits: None if it fails, else the residuals of
    every board feature and pair.  Anything may come back.
    None = fuel ran out; Some k = the number of solves performed. *)
Variable solve : nat -> list num -> marks -> option (list (num * num) * list num).
Variable div_ : nat * nat -> bool.
Variable do_reject : bool.    (* do_apply_outlier_rejection *)

Definition with_residuals (ws : list num) (xs : list (num * num)) : list feat :=
  map (fun wx => {| f_w := fst wx; f_dx := fst (snd wx); f_dy := snd (snd wx) |}) (combine ws xs).

Fixpoint solve_loop (fuel : nat) (k : nat) (ws : list num) (pairs : list (nat * nat)) (m : marks) : option nat :=
  match fuel with
  | O => None
  | S f =>
    match solve k ws m with
    | None => Some (S k)                       (* norm2_error < 0: goto done *)
    | Some (xs, ts) =>
      if do_reject then
        let r := mark_outliers div_ (with_residuals ws xs) (combine pairs ts) m in
        if r_found r then solve_loop f (S k) (map f_w (r_feats r)) pairs (r_marks r)
        else Some (S k)
      else Some (S k)
    end
  end.
End Mark.
Arguments f_w {A}. Arguments f_dx {A}. Arguments f_dy {A}.
