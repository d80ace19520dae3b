(** Specification vocabulary for outlier rejection (C16-C18). *)
From Coq Require Import ZArith List Bool Reals.
From Verif Require Import M_Mark.
Import ListNotations.
Open Scope Z_scope.

(** what is needed of the arithmetic: a notion of "not negative" (or not a
    number) that sums of squares and averages have, for which being beyond 5
    sigmas implies being beyond 4. *)
Record sane (A : arith) (nn : T A -> Prop) : Prop := {
  s_0 : nn (n0 A);
  s_add : forall a b, nn a -> nn b -> nn (add A a b);
  s_sq : forall x, nn (mul A x x);
  s_div : forall a k, nn a -> 0 <= k -> nn (div A a (ofZ A k));
  s_beyond : forall v x, nn v -> beyond A 5 v x = true -> beyond A 4 v x = true
}.

(** weights whose outlier mark works: a positive number becomes negative (fails
    only for a NaN) *)
Definition weight_ok (A : arith) (w : T A) : Prop := le0 A w = false -> le0 A (neg A w) = true.

(** what may happen to one feature: nothing, or inlier -> outlier by negating
    the weight *)
Definition feat_step (A : arith) (f f' : feat A) : Prop :=
  f_dx f' = f_dx f /\ f_dy f' = f_dy f /\
  (f_w f' = f_w f \/ (inlier A f = true /\ f_w f' = neg A (f_w f))).

(** number of observations that are inliers: board features, and triangulated
    observations taking part in some pair *)
Definition n_inliers (A : arith) (ws : list (T A)) (pairs : list (nat * nat)) (m : marks) : nat :=
  length (filter (fun w => negb (le0 A w)) ws) +
  length (filter (fun k => negb (m k)) (nodup Nat.eq_dec (flat_map (fun p => [fst p; snd p]) pairs))).

(** ** the real-number instance, and the published rule *)
Definition realA : arith := {|
  T := R; n0 := 0%R; add := Rplus; mul := Rmult; div := Rdiv; ofZ := IZR;
  gtb := fun a b => if Rlt_dec b a then true else false;
  le0 := fun w => if Rle_dec w 0 then true else false;
  neg := fun w => (w * -1)%R |}.

Fixpoint sumR (l : list R) : R := match l with [] => 0%R | x :: r => (x + sumR r)%R end.
Definition is_inlier (f : feat realA) : Prop := (f_w f > 0)%R.
Definition inliers (fs : list (feat realA)) : list (feat realA) :=
  filter (fun f : feat realA => if Rle_dec (f_w f) 0 then false else true) fs.

(** mean square residual of the inlier board features (two residuals each) and
    of the given residuals of pairs *)
Definition mean_square (fs : list (feat realA)) (xs : list R) : R :=
  ((sumR (map (fun f : feat realA => f_dx f * f_dx f + f_dy f * f_dy f) (inliers fs)) + sumR (map (fun x => x * x) xs))
   / IZR (2 * Z.of_nat (length (inliers fs)) + Z.of_nat (length xs)))%R.

(** |x| > k sigma *)
Definition far (k : R) (var x : R) : Prop := (Rabs x > k * sqrt var)%R.
Definition feat_far (k var : R) (f : feat realA) : Prop := far k var (f_dx f) \/ far k var (f_dy f).

(** which pair residuals entered the variance *)
Fixpoint select {X} (sel : list bool) (l : list X) : list X :=
  match sel, l with
  | b :: s, x :: r => if b then x :: select s r else select s r
  | _, _ => []
  end.
