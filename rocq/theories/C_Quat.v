(** C73: quaternions and rotation matrices. *)
From Coq Require Import Reals List Arith Lia Lra Psatz Nsatz.
From Verif Require Import S_Vec M_Dual M_Pose P_Trig P_Pose M_Project P_Euler P_Atan2 P_RfromR C_RfromR M_Quat.
Import ListNotations.
Open Scope R_scope.

(** *** Specification *)
Definition unit_quat (q : quat) : Prop := q 0%nat * q 0%nat + q 1%nat * q 1%nat + q 2%nat * q 2%nat + q 3%nat * q 3%nat = 1.
Definition same_quat (p q : quat) : Prop := forall c, (c < 4)%nat -> p c = q c.
Definition opp_quat (q : quat) : quat := fun c => - q c.
Definition axis_part (q : quat) : v3 := V3 (q 1%nat) (q 2%nat) (q 3%nat).
(** the product of quaternions *)
Definition qmul (p q : quat) : quat := quat_of
  (p 0%nat * q 0%nat - p 1%nat * q 1%nat - p 2%nat * q 2%nat - p 3%nat * q 3%nat)
  (p 0%nat * q 1%nat + p 1%nat * q 0%nat + p 2%nat * q 3%nat - p 3%nat * q 2%nat)
  (p 0%nat * q 2%nat - p 1%nat * q 3%nat + p 2%nat * q 0%nat + p 3%nat * q 1%nat)
  (p 0%nat * q 3%nat + p 1%nat * q 2%nat - p 2%nat * q 1%nat + p 3%nat * q 0%nat).
(** the conjugate *)
Definition qconj (q : quat) : quat := quat_of (q 0%nat) (- q 1%nat) (- q 2%nat) (- q 3%nat).

(** *** R_from_quat() *)
Ltac quat_nums q := unfold R_from_quat, unit_quat in *; set (q 0%nat) in *; set (q 1%nat) in *; set (q 2%nat) in *; set (q 3%nat) in *.
Theorem C73_R_from_quat : forall q, unit_quat q ->
  is_rot (R_from_quat q) /\ R_from_quat (opp_quat q) = R_from_quat q /\
  (* the documented meaning: x is turned as by q x q^-1 *)
  (forall x, same_quat (quat_of 0 (vx (mv (R_from_quat q) x)) (vy (mv (R_from_quat q) x)) (vz (mv (R_from_quat q) x)))
                       (qmul (qmul q (quat_of 0 (vx x) (vy x) (vz x))) (qconj q))) /\
  (forall p, unit_quat p -> R_from_quat (qmul p q) = mm (R_from_quat p) (R_from_quat q)) /\
  R_from_quat (qconj q) = mT (R_from_quat q).
Proof.
  intros q H. repeat match goal with |- _ /\ _ => split end.
  - unfold is_rot. quat_nums q. clearbody r r0 r1 r2. repeat match goal with |- _ /\ _ => split end; [apply m33_eq| apply m33_eq|]; vunfold; nsatz.
  - unfold R_from_quat, opp_quat. apply m33_eq; cbn [m00 m01 m02 m10 m11 m12 m20 m21 m22]; ring.
  - intros [x y z] c Hc. unfold unit_quat in H. destruct c as [|[|[|[|c]]]]; [| | | |lia]; cbv [qmul qconj quat_of R_from_quat mv vx vy vz m00 m01 m02 m10 m11 m12 m20 m21 m22];
    generalize dependent (q 0%nat); generalize dependent (q 1%nat); generalize dependent (q 2%nat); generalize dependent (q 3%nat); intros; nsatz.
  - intros p P. unfold unit_quat in *. unfold R_from_quat, qmul, quat_of.
    set (a := q 0%nat) in *. set (b := q 1%nat) in *. set (c := q 2%nat) in *. set (d := q 3%nat) in *.
    set (a' := p 0%nat) in *. set (b' := p 1%nat) in *. set (c' := p 2%nat) in *. set (d' := p 3%nat) in *.
    clearbody a b c d a' b' c' d'. apply m33_eq; vunfold; nsatz.
  - unfold R_from_quat, qconj, quat_of. apply m33_eq; vunfold; ring.
Qed.
Print Assumptions C73_R_from_quat.

(** quat = (cos(th/2), sin(th/2) axis) is the rotation by th about the axis: the documentation of R_from_quat() *)
Theorem C73_axis_angle : forall axis th, norm2 axis = 1 ->
  let q := quat_of (cos (th / 2)) (sin (th / 2) * vx axis) (sin (th / 2) * vy axis) (sin (th / 2) * vz axis) in
  unit_quat q /\ rotation_by (R_from_quat q) (vscale th axis).
Proof.
  intros [x y z] th H q. unfold norm2, dot in H. cbn [vx vy vz] in H.
  pose proof (sc1 (th / 2)) as SC. set (s := sin (th / 2)) in *. set (c := cos (th / 2)) in *.
  split.
  - unfold unit_quat, q, quat_of. cbn [vx vy vz]. clearbody s c. nsatz.
  - replace (R_from_quat q) with (rod (V3 x y z) (sin th) (cos th)).
    + now apply rod_by_scale.
    + replace (sin th) with (2 * s * c) by (unfold s, c; rewrite <- sin_2a; f_equal; field).
      replace (cos th) with (c * c - s * s) by (unfold s, c; rewrite <- cos_2a; f_equal; field).
      unfold q, rod, R_from_quat, quat_of. apply m33_eq; vunfold; clearbody s c; nsatz.
Qed.
Print Assumptions C73_axis_angle.

(** *** quat_from_R() *)
(** the row before it is normalised *)
Definition raw (m : m33) : quat :=
  let t := trace m in
  match choice m with
  | 0%nat => quat_of (m21 m - m12 m) (1 - t + 2 * m00 m) (m10 m + m01 m) (m20 m + m02 m)
  | 1%nat => quat_of (m02 m - m20 m) (m01 m + m10 m) (1 - t + 2 * m11 m) (m21 m + m12 m)
  | 2%nat => quat_of (m10 m - m01 m) (m02 m + m20 m) (m12 m + m21 m) (1 - t + 2 * m22 m)
  | _ => quat_of (1 + t) (m21 m - m12 m) (m02 m - m20 m) (m10 m - m01 m)
  end.
Definition pivot (m : m33) : R :=
  match choice m with 0%nat => 1 - trace m + 2 * m00 m | 1%nat => 1 - trace m + 2 * m11 m | 2%nat => 1 - trace m + 2 * m22 m | _ => 1 + trace m end.
Lemma put_all_at : forall ind col val a n c,
  put_all a ind col val n c = if existsb (Nat.eqb n) ind then if (c =? col n)%nat then val n else a n c else a n c.
Proof.
  induction ind as [|x ind IH]; intros; [reflexivity|]. unfold put_all in *. cbn [fold_left existsb]. rewrite IH. unfold put.
  destruct (Nat.eqb_spec n x) as [->|E]; cbn [orb]; [|reflexivity].
  destruct (existsb (Nat.eqb x) ind), (c =? col x)%nat; reflexivity.
Qed.
Lemma existsb_filter : forall p N n, existsb (Nat.eqb n) (filter p (seq 0 N)) = ((n <? N)%nat && p n)%bool.
Proof.
  intros p N n. apply Bool.eq_iff_eq_true. rewrite existsb_exists, Bool.andb_true_iff, Nat.ltb_lt. split.
  - intros (x & I & E). apply Nat.eqb_eq in E. subst x. apply filter_In in I as (I & P). apply in_seq in I. split; [lia|easy].
  - intros (L & P). exists n. split; [|apply Nat.eqb_refl]. apply filter_In. split; [apply in_seq; lia|easy].
Qed.
Lemma argmax4 : forall a b c d, let k := argmax [a; b; c; d] in (k < 4)%nat /\
  a <= List.nth k [a; b; c; d] 0%R /\ b <= List.nth k [a; b; c; d] 0%R /\ c <= List.nth k [a; b; c; d] 0%R /\ d <= List.nth k [a; b; c; d] 0%R.
Proof.
  intros. unfold k, argmax, argmax_from. repeat destruct (Rlt_dec _ _); cbn [List.nth]; repeat match goal with |- _ /\ _ => split end; try lia; lra.
Qed.
Lemma choice_lt : forall m, (choice m < 4)%nat.
Proof. intro m. apply argmax4. Qed.
Lemma quat_from_R_row : forall N Rs a0 n c, (n < N)%nat -> (c < 4)%nat ->
  quat_from_R N Rs a0 n c = raw (Rs n) c / sqrt (raw (Rs n) 0%nat * raw (Rs n) 0%nat + raw (Rs n) 1%nat * raw (Rs n) 1%nat + raw (Rs n) 2%nat * raw (Rs n) 2%nat + raw (Rs n) 3%nat * raw (Rs n) 3%nat).
Proof.
  intros N Rs a0 n c Hn Hc. unfold quat_from_R. apply Nat.ltb_lt in Hn as Hb. rewrite Hb.
  assert (forall a b, (forall c, (c < 4)%nat -> a c = b c) -> a c / sqrt (a 0%nat * a 0%nat + a 1%nat * a 1%nat + a 2%nat * a 2%nat + a 3%nat * a 3%nat) =
     b c / sqrt (b 0%nat * b 0%nat + b 1%nat * b 1%nat + b 2%nat * b 2%nat + b 3%nat * b 3%nat)) as W.
  { intros a b E. now rewrite (E c), (E 0%nat), (E 1%nat), (E 2%nat), (E 3%nat) by lia. }
  match goal with |- ?x n c / _ = _ => apply (W (x n) (raw (Rs n))) end. clear c Hc W. intros c Hc.
  rewrite !put_all_at, !existsb_filter, Hb. unfold raw. pose proof (choice_lt (Rs n)) as L. cbn [andb].
  change (decision_last (Rs n)) with (trace (Rs n)).
  destruct (choice (Rs n)) as [|[|[|[|k]]]]; [| | | |lia]; (destruct c as [|[|[|[|c]]]]; [reflexivity|reflexivity|reflexivity|reflexivity|lia]).
Qed.
Lemma pivot_large : forall m, 1 <= pivot m.
Proof.
  intro m. unfold pivot, choice. destruct (argmax4 (m00 m) (m11 m) (m22 m) (m00 m + m11 m + m22 m)) as (L & A & B & C & D).
  change (decision m) with [m00 m; m11 m; m22 m; m00 m + m11 m + m22 m] in *.
  destruct (argmax _) as [|[|[|[|k]]]]; [| | | |lia]; cbn [List.nth] in *; unfold trace; lra.
Qed.
(** what the rotation says about the products of the raw entries *)
Lemma raw_facts : forall m, is_rot m ->
  let u := raw m 0%nat in let i := raw m 1%nat in let j := raw m 2%nat in let k := raw m 3%nat in let p := pivot m in
  u * u + i * i + j * j + k * k = 4 * p /\
  j * j + k * k = 2 * p * (1 - m00 m) /\ i * i + k * k = 2 * p * (1 - m11 m) /\ i * i + j * j = 2 * p * (1 - m22 m) /\
  i * j - k * u = 2 * p * m01 m /\ i * k + j * u = 2 * p * m02 m /\ i * j + k * u = 2 * p * m10 m /\
  j * k - i * u = 2 * p * m12 m /\ i * k - j * u = 2 * p * m20 m /\ j * k + i * u = 2 * p * m21 m.
Proof.
  intros m H. pose proof (rot_eqs m H) as E. unfold raw, pivot. pose proof (choice_lt m) as L. destruct (choice m) as [|[|[|[|n]]]]; [| | | |lia]; clear L;
  destruct m as [a b c d e f g h i]; destruct E as ((?&?&?)&(?&?&?)&(?&?&?)&(?&?&?)&(?&?&?)&(?&?&?)&(?&?&?));
  unfold quat_of, trace; cbn [m00 m01 m02 m10 m11 m12 m20 m21 m22]; clear H; cbv zeta; repeat match goal with |- _ /\ _ => split end; nsatz.
Qed.

Definition raw_norm (m : m33) : R := sqrt (raw m 0%nat * raw m 0%nat + raw m 1%nat * raw m 1%nat + raw m 2%nat * raw m 2%nat + raw m 3%nat * raw m 3%nat).
Lemma raw_norm_sq : forall m, is_rot m -> raw_norm m * raw_norm m = 4 * pivot m /\ 2 <= raw_norm m.
Proof.
  intros m H. destruct (raw_facts m H) as (E & _). pose proof (pivot_large m) as P. unfold raw_norm. rewrite E.
  split; [apply sqrt_sqrt; lra|]. replace 2 with (sqrt (2 * 2)) by (apply sqrt_square; lra). apply sqrt_le_1; lra.
Qed.
Lemma unit_rows : forall m (q : quat), is_rot m -> (forall c, (c < 4)%nat -> q c = raw m c / raw_norm m) -> unit_quat q /\ R_from_quat q = m.
Proof.
  intros m q H E. destruct (raw_facts m H) as (A & B0 & B1 & B2 & B3 & B4 & B5 & B6 & B7 & B8). destruct (raw_norm_sq m H) as (N & N2).
  pose proof (pivot_large m) as P. unfold unit_quat, R_from_quat. rewrite !E by lia.
  set (u := raw m 0%nat) in *. set (i := raw m 1%nat) in *. set (j := raw m 2%nat) in *. set (k := raw m 3%nat) in *.
  set (p := pivot m) in *. set (n := raw_norm m) in *. clearbody u i j k p n.
  assert (forall x y, x / n * (y / n) = x * y / (4 * p)) as D by (intros; rewrite <- N; field; lra).
  split.
  - rewrite !D. replace (_ + _ + _ + _) with ((u * u + i * i + j * j + k * k) / (4 * p)) by (field; lra). rewrite A. field. lra.
  - destruct m as [m00 m01 m02 m10 m11 m12 m20 m21 m22]. cbn [S_Vec.m00 S_Vec.m01 S_Vec.m02 S_Vec.m10 S_Vec.m11 S_Vec.m12 S_Vec.m20 S_Vec.m21 S_Vec.m22] in *.
    apply m33_eq; cbn [S_Vec.m00 S_Vec.m01 S_Vec.m02 S_Vec.m10 S_Vec.m11 S_Vec.m12 S_Vec.m20 S_Vec.m21 S_Vec.m22]; rewrite !D.
    + replace (_ - _) with (1 - (j * j + k * k) / (2 * p)) by (field; lra). rewrite B0. field. lra.
    + replace (_ * _) with ((i * j - k * u) / (2 * p)) by (field; lra). rewrite B3. field. lra.
    + replace (_ * _) with ((i * k + j * u) / (2 * p)) by (field; lra). rewrite B4. field. lra.
    + replace (_ * _) with ((i * j + k * u) / (2 * p)) by (field; lra). rewrite B5. field. lra.
    + replace (_ - _) with (1 - (i * i + k * k) / (2 * p)) by (field; lra). rewrite B1. field. lra.
    + replace (_ * _) with ((j * k - i * u) / (2 * p)) by (field; lra). rewrite B6. field. lra.
    + replace (_ * _) with ((i * k - j * u) / (2 * p)) by (field; lra). rewrite B7. field. lra.
    + replace (_ * _) with ((j * k + i * u) / (2 * p)) by (field; lra). rewrite B8. field. lra.
    + replace (_ - _) with (1 - (i * i + j * j) / (2 * p)) by (field; lra). rewrite B2. field. lra.
Qed.

(** For every array of rotations, and whatever was in the output: each row is a unit quaternion, and R_from_quat() takes
    it back to the matrix it came from; other rows of the buffer stay *)
Theorem C73_quat_from_R : forall N Rs out, (forall n, (n < N)%nat -> is_rot (Rs n)) ->
  forall n, ((n < N)%nat -> unit_quat (quat_from_R N Rs out n) /\ R_from_quat (quat_from_R N Rs out n) = Rs n) /\
            ((N <= n)%nat -> forall c, quat_from_R N Rs out n c = out n c).
Proof.
  intros N Rs out H n. split; intro Hn.
  - apply unit_rows; [now apply H|]. intros c Hc. now apply quat_from_R_row.
  - intro c. unfold quat_from_R. apply Nat.ltb_ge in Hn. rewrite Hn, !put_all_at, !existsb_filter, Hn. reflexivity.
Qed.
Print Assumptions C73_quat_from_R.

Lemma rot_products : forall m, is_rot m -> let (a, b, c0, d, e, f, g, h, i) := m in
  (b + d) * (b + d) = (1 - (a + e + i) + 2 * a) * (1 - (a + e + i) + 2 * e) /\
  (c0 + g) * (c0 + g) = (1 - (a + e + i) + 2 * a) * (1 - (a + e + i) + 2 * i) /\
  (f + h) * (f + h) = (1 - (a + e + i) + 2 * e) * (1 - (a + e + i) + 2 * i) /\
  (h - f) * (h - f) = (1 - (a + e + i) + 2 * a) * (1 + (a + e + i)) /\
  (c0 - g) * (c0 - g) = (1 - (a + e + i) + 2 * e) * (1 + (a + e + i)) /\
  (d - b) * (d - b) = (1 - (a + e + i) + 2 * i) * (1 + (a + e + i)).
Proof.
  intros m H. pose proof (rot_eqs m H) as E. destruct m as [a b c d e f g h i].
  destruct E as ((?&?&?)&(?&?&?)&(?&?&?)&(?&?&?)&(?&?&?)&(?&?&?)&(?&?&?)). clear H. repeat match goal with |- _ /\ _ => split end; nsatz.
Qed.
(** The other way around: the quaternion or its opposite comes back.  It is chosen so that the component of the largest
    magnitude (the first of i, j, k, u to have it) is positive *)
Lemma unit_largest : forall m, is_rot m -> forall n c, (c < 4)%nat -> n = raw_norm m ->
  let q := fun c => raw m c / n in let k := choice m in let big := match k with 3%nat => 0%nat | _ => S k end in
  / 2 <= q big /\ Rabs (q c) <= q big.
Proof.
  intros m H n c Hc -> q k big. destruct (raw_norm_sq m H) as (N & N2). pose proof (pivot_large m) as P.
  assert (q big = pivot m / raw_norm m) as Q.
  { unfold q, big, k, raw, pivot. pose proof (choice_lt m). destruct (choice m) as [|[|[|[|x]]]]; [| | | |lia]; reflexivity. }
  assert (q big = raw_norm m / 4) as Q4. { rewrite Q. replace (pivot m) with (raw_norm m * raw_norm m / 4) by lra. field. lra. }
  split; [lra|]. rewrite Q.
  assert (raw m c * raw m c <= pivot m * pivot m) as L.
  { pose proof (rot_products m H) as E. unfold raw, pivot, choice.
    destruct (argmax4 (m00 m) (m11 m) (m22 m) (m00 m + m11 m + m22 m)) as (L & A & B & C & D).
    change (decision m) with [m00 m; m11 m; m22 m; m00 m + m11 m + m22 m] in *. unfold trace.
    assert (forall x p q, x * x = p * q -> 1 <= p -> q <= p -> x * x <= p * p) as W by (intros x p' q' -> ? ?; nra).
    destruct m as [a b c0 d e f g h i]. cbn [m00 m01 m02 m10 m11 m12 m20 m21 m22] in *.
    destruct E as (?&?&?&?&?&?). clear H N N2 P q k big Q Q4.
    destruct (argmax _) as [|[|[|[|x]]]]; [| | | |lia]; cbn [List.nth] in *;
      (destruct c as [|[|[|[|c]]]]; [| | | |lia]); unfold quat_of; first [lra|
        match goal with |- ?x * ?x <= ?p * ?p => match goal with
          | F : x * x = p * ?q |- _ => apply (W x p q)
          | F : x * x = ?q * p |- _ => apply (W x p q)
          | F : ?y * ?y = p * ?q |- _ => replace x with y by ring; apply (W y p q)
          | F : ?y * ?y = ?q * p |- _ => replace x with y by ring; apply (W y p q) end end; lra]. }
  unfold q, Rdiv. assert (0 < / raw_norm m) as I0 by (apply Rinv_0_lt_compat; lra).
  assert (- pivot m <= raw m c <= pivot m) as (L1 & L2) by (split; nra).
  apply Rabs_le. split; [rewrite Ropp_mult_distr_l|]; apply Rmult_le_compat_r; lra.
Qed.
Lemma same_rotation : forall p q, unit_quat p -> unit_quat q -> R_from_quat p = R_from_quat q -> same_quat p q \/ same_quat p (opp_quat q).
Proof.
  intros p q P Q E. unfold R_from_quat in E. injection E as E00 E01 E02 E10 E11 E12 E20 E21 E22. unfold unit_quat in *.
  assert (forall x y, x * x = y * y -> x = y \/ x = - y) as SQ.
  { intros x y F. assert ((x - y) * (x + y) = 0) as G by lra. apply Rmult_integral in G as [G|G]; [left|right]; lra. }
  assert (forall x y a b, y <> 0 -> x = y -> x * a = y * b -> a = b) as W1.
  { intros x y a b Y -> F. now apply Rmult_eq_reg_l in F. }
  assert (forall x y a b, y <> 0 -> x = - y -> x * a = y * b -> a = - b) as W2.
  { intros x y a b Y -> F. apply (Rmult_eq_reg_l y); [lra|easy]. }
  assert (forall c, p c * p c = q c * q c -> q c <> 0 -> (forall c', (c' < 4)%nat -> p c * p c' = q c * q c') -> same_quat p q \/ same_quat p (opp_quat q)) as W.
  { intros c F G H. destruct (SQ _ _ F) as [S0|S0]; [left|right]; intros c' Hc'; unfold opp_quat.
    - exact (W1 _ _ _ _ G S0 (H c' Hc')). - exact (W2 _ _ _ _ G S0 (H c' Hc')). }
  destruct (Req_dec (q 0%nat) 0) as [Z0|Z0];
   [destruct (Req_dec (q 1%nat) 0) as [Z1|Z1];
     [destruct (Req_dec (q 2%nat) 0) as [Z2|Z2];
       [destruct (Req_dec (q 3%nat) 0) as [Z3|Z3]; [exfalso; rewrite Z0, Z1, Z2, Z3 in Q; lra|]|]|]|].
  1: apply (W 3%nat); [lra|exact Z3|]. 2: apply (W 2%nat); [lra|exact Z2|]. 3: apply (W 1%nat); [lra|exact Z1|]. 4: apply (W 0%nat); [lra|exact Z0|].
  all: intros c' Hc'; destruct c' as [|[|[|[|c']]]]; [lra|lra|lra|lra|lia].
Qed.
Theorem C73_quat_back : forall N q out n, (n < N)%nat -> (forall n, (n < N)%nat -> unit_quat (q n)) ->
  let q' := quat_from_R N (fun n => R_from_quat (q n)) out n in
  (same_quat q' (q n) \/ same_quat q' (opp_quat (q n))) /\
  exists big, (big < 4)%nat /\ / 2 <= q' big /\ forall c, (c < 4)%nat -> Rabs (q' c) <= q' big.
Proof.
  intros N q out n Hn Hq q'. assert (forall n, (n < N)%nat -> is_rot (R_from_quat (q n))) as HR by (intros; now apply C73_R_from_quat, Hq).
  destruct (C73_quat_from_R N (fun n => R_from_quat (q n)) out HR n) as (A & _). destruct (A Hn) as (U & E). split.
  - apply same_rotation; [exact U|now apply Hq|exact E].
  - set (m := R_from_quat (q n)) in *. pose proof (choice_lt m) as L.
    exists (match choice m with 3%nat => 0%nat | _ => S (choice m) end).
    assert (forall c, (c < 4)%nat -> q' c = raw m c / raw_norm m) as RW by (intros c Hc; unfold q'; now rewrite quat_from_R_row).
    assert ((match choice m with 3%nat => 0%nat | _ => S (choice m) end < 4)%nat) as B by (destruct (choice m) as [|[|[|[|x]]]]; lia).
    split; [exact B|]. rewrite (RW _ B). split.
    + apply (unit_largest m (HR n Hn) _ 0%nat); [lia|reflexivity].
    + intros c Hc. rewrite (RW c Hc). apply (unit_largest m (HR n Hn) _ c); [exact Hc|reflexivity].
Qed.
Print Assumptions C73_quat_back.

(** The documented way to read the result: s = mag(quat[1:]); the rotation is by 2*arctan2(s,quat[0]) about quat[1:]/s *)
Theorem C73_documented_angle : forall N Rs out n, (n < N)%nat -> (forall n, (n < N)%nat -> is_rot (Rs n)) ->
  let q := quat_from_R N Rs out n in let s := norm (axis_part q) in let c := q 0%nat in
  (s <> 0 -> rotation_by (Rs n) (vscale (2 * atan2 s c) (vscale (/ s) (axis_part q))) /\ 0 < 2 * atan2 s c < 2 * PI) /\
  (s = 0 <-> Rs n = I3).
Proof.
  intros N Rs out n Hn HR q s c. destruct (C73_quat_from_R N Rs out HR n) as (A & _). destruct (A Hn) as (U & E). fold q in U, E.
  assert (s * s = q 1%nat * q 1%nat + q 2%nat * q 2%nat + q 3%nat * q 3%nat) as S2 by apply norm_sq.
  assert (c * c + s * s = 1) as CS by (unfold unit_quat in U; fold c in U; lra).
  assert (0 <= s) as S0 by apply norm_nonneg. split.
  - intro SN. assert (0 < s) as SP by lra.
    destruct (atan2_spec c s ltac:(rewrite CS; lra)) as (AC & AS & AB). rewrite CS, sqrt_1, !Rmult_1_l in *.
    split.
    + set (ax := vscale (/ s) (axis_part q)). assert (norm2 ax = 1) as N1.
      { unfold ax, axis_part. vunfold. replace (_ + _ + _) with ((q 1%nat * q 1%nat + q 2%nat * q 2%nat + q 3%nat * q 3%nat) * (/ s * / s)) by ring. rewrite <- S2. field. lra. }
      destruct (C73_axis_angle ax (2 * atan2 s c) N1) as (_ & B). replace (2 * atan2 s c / 2) with (atan2 s c) in B by field. rewrite AC, AS in B.
      rewrite <- E. replace (R_from_quat q) with (R_from_quat (quat_of c (s * vx ax) (s * vy ax) (s * vz ax))); [exact B|].
      unfold R_from_quat, quat_of, ax, axis_part, c. vunfold. apply m33_eq; cbn [m00 m01 m02 m10 m11 m12 m20 m21 m22]; field; lra.
    + assert (0 < atan2 s c) as P. { destruct (Rlt_dec 0 (atan2 s c)); [easy|]. exfalso. assert (sin (atan2 s c) <= 0); [|lra].
        assert (sin (- atan2 s c) >= 0) as G by (apply Rle_ge, sin_ge_0; lra). rewrite sin_neg in G. lra. }
      destruct (Req_dec (atan2 s c) PI) as [F|F]; [rewrite F, sin_PI in AS; lra|]. lra.
  - split.
    + intro SZ. rewrite SZ in *. assert (q 1%nat = 0 /\ q 2%nat = 0 /\ q 3%nat = 0) as (Q1 & Q2 & Q3) by (repeat split; nra).
      rewrite <- E. unfold R_from_quat. rewrite Q1, Q2, Q3. apply m33_eq; vunfold; ring.
    + intro F. rewrite F in E. unfold R_from_quat in E. injection E as E00 _ _ _ E11 _ _ _ E22. nra.
Qed.
Print Assumptions C73_documented_angle.

(** qt transformations: both conversions keep the transformation of every point *)
Theorem C73_qt : forall N ps out n, (n < N)%nat -> (forall n, (n < N)%nat -> is_rot (Rt_R (ps n))) ->
  unit_quat (qt_from_Rt N ps out n) /\ Rt_from_qt (qt_from_Rt N ps out n) = ps n.
Proof.
  intros N ps out n Hn HR. destruct (C73_quat_from_R N (fun n => Rt_R (ps n)) out HR n) as (A & _). destruct (A Hn) as (U & E).
  assert (forall c, (c < 4)%nat -> qt_from_Rt N ps out n c = quat_from_R N (fun n => Rt_R (ps n)) (fun n c => out n c) n c) as Q.
  { intros c Hc. unfold qt_from_Rt. apply Nat.ltb_lt in Hn. rewrite Hn. destruct (Nat.leb_spec 4 c); [lia|]. apply Nat.ltb_lt in Hc. now rewrite Hc. }
  assert (forall c, (c < 3)%nat -> qt_from_Rt N ps out n (4 + c)%nat = vget (Rt_t (ps n)) c) as T.
  { intros c Hc. unfold qt_from_Rt. apply Nat.ltb_lt in Hn. rewrite Hn. destruct (Nat.leb_spec 4 (4 + c)); [|lia]. f_equal. lia. }
  split.
  - unfold unit_quat in *. rewrite !Q by lia. exact U.
  - unfold Rt_from_qt. pose proof (T 0%nat ltac:(lia)) as T0. pose proof (T 1%nat ltac:(lia)) as T1. pose proof (T 2%nat ltac:(lia)) as T2. cbn [Nat.add vget] in T0, T1, T2. rewrite T0, T1, T2.
    replace (R_from_quat (qt_from_Rt N ps out n)) with (Rt_R (ps n)); [now destruct (ps n) as [? []]|].
    rewrite <- E at 1. unfold R_from_quat. rewrite !Q by lia. reflexivity.
Qed.
Print Assumptions C73_qt.
Theorem C73_qt_back : forall N qt out n, (n < N)%nat -> (forall n, (n < N)%nat -> unit_quat (qt n)) ->
  let qt' := qt_from_Rt N (fun n => Rt_from_qt (qt n)) out n in
  (same_quat qt' (qt n) \/ same_quat qt' (opp_quat (qt n))) /\ (forall c, (4 <= c < 7)%nat -> qt' c = qt n c) /\
  (forall n, (n < N)%nat -> Rt_from_qt (qt_from_Rt N (fun n => Rt_from_qt (qt n)) out n) = Rt_from_qt (qt n)).
Proof.
  intros N qt out n Hn Hq qt'.
  assert (forall n, (n < N)%nat -> is_rot (Rt_R (Rt_from_qt (qt n)))) as HR by (intros; now apply C73_R_from_quat, Hq).
  destruct (C73_qt N (fun n => Rt_from_qt (qt n)) out n Hn HR) as (U & E). split; [|split].
  - apply same_rotation; [exact U|now apply Hq|]. apply (f_equal Rt_R) in E. exact E.
  - intros c Hc. unfold qt', qt_from_Rt. apply Nat.ltb_lt in Hn. rewrite Hn. do 7 (destruct c as [|c]; [try lia; reflexivity|]). lia.
  - intros k Hk. now apply C73_qt.
Qed.
Print Assumptions C73_qt_back.

(** two rotations at once: a quarter turn about z, and the half turn about x, whose quaternion has u = 0 *)
Example C73_example : let Rs := fun n => match n with 0%nat => M33 0 (-1) 0 1 0 0 0 0 1 | _ => M33 1 0 0 0 (-1) 0 0 0 (-1) end in
  (forall n, (n < 2)%nat -> is_rot (Rs n)) /\
  quat_from_R 2 Rs (fun _ _ => 7) 1%nat 0%nat = 0 /\ quat_from_R 2 Rs (fun _ _ => 7) 1%nat 1%nat = 1 /\
  quat_from_R 2 Rs (fun _ _ => 7) 0%nat 3%nat = sqrt (1 / 2).
Proof.
  intro Rs. assert (forall n, (n < 2)%nat -> is_rot (Rs n)) as H.
  { intros [|[|n]] Hn; [| |lia]; unfold is_rot, Rs; repeat split; try apply m33_eq; vunfold; ring. }
  split; [exact H|]. rewrite !quat_from_R_row by lia.
  assert (choice (Rs 0%nat) = 2%nat) as C0 by (unfold choice, argmax, decision, argmax_from, mget, mrow, vget, Rs; cbn [m00 m01 m02 m10 m11 m12 m20 m21 m22 vx vy vz]; repeat destruct (Rlt_dec _ _); first [reflexivity|lra]).
  assert (choice (Rs 1%nat) = 0%nat) as C1 by (unfold choice, argmax, decision, argmax_from, mget, mrow, vget, Rs; cbn [m00 m01 m02 m10 m11 m12 m20 m21 m22 vx vy vz]; repeat destruct (Rlt_dec _ _); first [reflexivity|lra]).
  unfold raw. rewrite C0, C1. unfold Rs, quat_of. vunfold.
  match goal with |- _ / sqrt ?x = _ /\ _ => replace x with (4 * 4) by ring end. rewrite sqrt_square by lra.
  match goal with |- _ /\ _ /\ _ / sqrt ?x = _ => replace x with (8) by ring end.
  repeat split; try field. replace (1 / 2) with (4 / 8) by field. rewrite sqrt_div by lra.
  assert (sqrt 4 = 2) as -> by (replace 4 with (2 * 2) by ring; apply sqrt_square; lra). f_equal. ring.
Qed.
