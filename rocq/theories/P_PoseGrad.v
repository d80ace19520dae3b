(** The dual-number runs of the pose functions carry the derivatives of the real runs. *)
From Coq Require Import Reals Lra Psatz Arith.
From Coquelicot Require Import Coquelicot.
From Verif Require Import S_Vec M_Dual M_Pose P_Dual P_Trig P_Pose.
Open Scope R_scope.

Ltac red_real := cbn [n_x n_y n_z realops nval nadd nsub nmul nmulc ndiv nsqrt nsin ncos nconst naddc nsubc ntan nacos vconst vx vy vz num].
Ltac red_dual := cbn [n_x n_y n_z dualops nval nadd nsub nmul nmulc ndiv nsqrt nsin ncos nconst naddc nsubc ntan nacos num].
Ltac carry := repeat first [assumption | apply carries_add | apply carries_sub | apply carries_mul | apply carries_mulc | apply carries_const
  | apply carries_sin | apply carries_cos].

(** the two branches, in the shape of the code *)
Definition rot_small (r x : v3) (inv : bool) : v3 :=
  let sign := if inv then -1 else 1 in
  let inner := vx r * vx x + vy r * vy x + vz r * vz x in
  let f xi ci ri := xi + ci * sign + ri * inner * (1 / 2) in
  V3 (f (vx x) (vy r * vz x - vz r * vy x) (vx r)) (f (vy x) (vz r * vx x - vx r * vz x) (vy r)) (f (vz x) (vx r * vy x - vy r * vx x) (vz r)).
Definition rot_big (r x : v3) (inv : bool) : v3 :=
  let sign := if inv then -1 else 1 in
  let th2 := vx r * vx r + vy r * vy r + vz r * vz r in
  let inner := vx r * vx x + vy r * vy x + vz r * vz x in
  let th := sqrt th2 in
  let f xi ci ri := xi * cos th + ci * sign * sin th / th + ri * inner * (1 - cos th) / th2 in
  V3 (f (vx x) (vy r * vz x - vz r * vy x) (vx r)) (f (vy x) (vz r * vx x - vx r * vz x) (vy r)) (f (vz x) (vx r * vy x - vy r * vx x) (vz r)).
Definition small (r : v3) : Prop := vx r * vx r + vy r * vy r + vz r * vz r < 1 / 10000000000.
Lemma rot_is_small : forall r x inv, small r -> rotate_point_r r x inv = rot_small r x inv.
Proof.
  intros r x inv H. unfold rotate_point_r, rotate_point_r_core, nvval, ndivc. red_real.
  destruct (Rlt_dec _ _) as [L|L]; [reflexivity|contradiction].
Qed.
Lemma rot_is_big : forall r x inv, ~ small r -> rotate_point_r r x inv = rot_big r x inv.
Proof.
  intros r x inv H. unfold rotate_point_r, rotate_point_r_core, nvval, ndivc. red_real.
  destruct (Rlt_dec _ _) as [L|L]; [contradiction|reflexivity].
Qed.

Lemma rotate_carries : forall I p Fr Fx dr dx0 inv, vcarries I p Fr dr -> vcarries I p Fx dx0 ->
  stable I p (fun q => small (Fr q)) ->
  vcarries I p (fun q => rotate_point_r (Fr q) (Fx q) inv) (rotate_point_r_core dualops dr dx0 inv).
Proof.
  intros I p Fr Fx dr dx0 inv Hr Hx St.
  pose proof Hr as (Xr & R1 & R2 & R3). pose proof Hx as (Xx & X1 & X2 & X3).
  apply (vcarries_case I p _ (fun q => rot_small (Fr q) (Fx q) inv) (fun q => rot_big (Fr q) (Fx q) inv) (fun q => small (Fr q))).
  - intros q q' Q. now rewrite (Xr q q' Q), (Xx q q' Q).
  - exact St.
  - intros q. apply rot_is_small.
  - intros q. apply rot_is_big.
  - intro S. split; [intros q q' Q; now rewrite (Xr q q' Q), (Xx q q' Q)|].
    unfold rotate_point_r_core. red_dual.
    destruct (Rlt_dec _ _) as [L|L].
    2:{ exfalso. apply L. destruct R1 as (_ & E1 & _). destruct R2 as (_ & E2 & _). destruct R3 as (_ & E3 & _).
        cbn. rewrite E1, E2, E3. exact S. }
    unfold rot_small, ndivc. red_dual. cbn [vx vy vz]. split; [|split]; carry.
  - intro S. split; [intros q q' Q; now rewrite (Xr q q' Q), (Xx q q' Q)|].
    unfold rotate_point_r_core. red_dual.
    destruct (Rlt_dec _ _) as [L|L].
    { exfalso. apply S. destruct R1 as (_ & E1 & _). destruct R2 as (_ & E2 & _). destruct R3 as (_ & E3 & _).
        cbn in L. rewrite E1, E2, E3 in L. exact L. }
    assert (0 < vx (Fr p) * vx (Fr p) + vy (Fr p) * vy (Fr p) + vz (Fr p) * vz (Fr p)) as P by (unfold small in S; lra).
    assert (carriesI I p (fun q => vx (Fr q) * vx (Fr q) + vy (Fr q) * vy (Fr q) + vz (Fr q) * vz (Fr q))
      (d_add (d_add (d_mul (n_x dr) (n_x dr)) (d_mul (n_y dr) (n_y dr))) (d_mul (n_z dr) (n_z dr)))) as T2 by carry.
    pose proof (carries_sqrt _ _ _ _ T2 P) as T. cbn in T. pose proof (sqrt_lt_R0 _ P) as P'.
    unfold rot_big. red_dual. cbn [vx vy vz].
    split; [|split]; repeat first [assumption | apply carries_add | apply carries_sub | apply carries_mul | apply carries_mulc | apply carries_const
       | apply carries_sin | apply carries_cos | apply carries_div; [| |lra]].
  - unfold small. destruct (Rlt_dec (vx (Fr p) * vx (Fr p) + vy (Fr p) * vy (Fr p) + vz (Fr p) * vz (Fr p)) (1 / 10000000000)); [left|right]; assumption.
Qed.
