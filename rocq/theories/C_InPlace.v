(** C24: in-place operation of the pose functions. *)
From Coq Require Import Reals ZArith Lia Lra Bool.
From Verif Require Import S_Vec M_Dual M_Pose M_PoseMem.
Open Scope Z_scope.

(** ** Specification *)
(** the elements of an (n,) or (n,3) array are different memory cells *)
Definition distinct1 (n : Z) (a : arr1) : Prop := forall i j, 0 <= i < n -> 0 <= j < n -> at1 a i = at1 a j -> i = j.
Definition distinct2 (n : Z) (a : arr2) : Prop :=
  forall i j i' j', 0 <= i < n -> 0 <= j < 3 -> 0 <= i' < n -> 0 <= j' < 3 -> at2 a i j = at2 a i' j' -> i = i' /\ j = j'.
(** the output is the very same array as the input, or shares no element with it *)
Definition alias1 (n : Z) (out a : arr1) : Prop :=
  a = out \/ forall i j, 0 <= i < n -> 0 <= j < n -> at1 out i <> at1 a j.
Definition alias2 (n : Z) (out a : arr2) : Prop :=
  a = out \/ forall i j i' j', 0 <= i < n -> 0 <= j < 3 -> 0 <= i' < n -> 0 <= j' < 3 -> at2 out i j <> at2 a i' j'.
(** only the output was written *)
Definition only1 (n : Z) (out : arr1) (m m' : mem) : Prop := forall k, (forall i, 0 <= i < n -> k <> at1 out i) -> m' k = m k.
Definition only2 (n : Z) (out : arr2) (m m' : mem) : Prop := forall k, (forall i j, 0 <= i < n -> 0 <= j < 3 -> k <> at2 out i j) -> m' k = m k.
(** contents of a (6,) rt and of a (4,3) Rt *)
Definition read_rt (m : mem) (a : arr1) : rt := mkrt (read3 m a) (read3 m (tail3 a)).
Definition read_Rt (m : mem) (a : arr2) : Rt := mkRt (read33 m a) (read3 m (row3 a)).

(** ** Proofs *)
Lemma upd_same : forall m a x, upd m a x a = x.
Proof. intros. unfold upd. now rewrite Z.eqb_refl. Qed.
Lemma upd_other : forall m a x k, k <> a -> upd m a x k = m k.
Proof. intros. unfold upd. destruct (Z.eqb_spec k a); congruence. Qed.

Lemma init1_idem : forall a, init_stride_1D (init_stride_1D a) = init_stride_1D a.
Proof. intros [b s]. unfold init_stride_1D. cbn. destruct (s <=? 0) eqn:E; cbn; [reflexivity|now rewrite E]. Qed.
Lemma init2_idem : forall a, init_stride_2D (init_stride_2D a 3) 3 = init_stride_2D a 3.
Proof.
  intros [b s t]. unfold init_stride_2D. cbn [s20 s21 b2]. destruct (t <=? 0) eqn:E.
  - destruct (s <=? 0) eqn:F; [reflexivity|]. replace (8 <=? 0) with false by reflexivity. now rewrite F.
  - rewrite E. destruct (s <=? 0) eqn:F; [|now rewrite F]. destruct (3 * t <=? 0) eqn:G; [reflexivity|reflexivity].
Qed.
Lemma init1_tail : forall a, init_stride_1D (tail3 (init_stride_1D a)) = tail3 (init_stride_1D a).
Proof. intros [b s]. unfold init_stride_1D, tail3, at1. cbn. destruct (s <=? 0) eqn:E; cbn; [reflexivity|now rewrite E]. Qed.

Lemma read3_write3_same : forall m a v, distinct1 3 a -> read3 (write3 m a v) a = v.
Proof.
  intros m a v D. unfold read3, write3.
  assert (at1 a 0 <> at1 a 1) by (intro E; apply D in E; lia). assert (at1 a 0 <> at1 a 2) by (intro E; apply D in E; lia).
  assert (at1 a 1 <> at1 a 2) by (intro E; apply D in E; lia).
  apply v3_eq; cbn [vx vy vz]; rewrite ?upd_same, ?upd_other, ?upd_same by congruence; rewrite ?upd_other, ?upd_same by congruence; reflexivity.
Qed.
Lemma write3_other : forall m a v k, (forall i, 0 <= i < 3 -> k <> at1 a i) -> write3 m a v k = m k.
Proof. intros m a v k H. unfold write3. rewrite !upd_other by (apply H; lia). reflexivity. Qed.
Lemma write33_other : forall m a M k, (forall i j, 0 <= i < 3 -> 0 <= j < 3 -> k <> at2 a i j) -> write33 m a M k = m k.
Proof. intros m a v k H. unfold write33. rewrite !upd_other by (apply H; lia). reflexivity. Qed.
Lemma read3_ext : forall m m' a, (forall i, 0 <= i < 3 -> m' (at1 a i) = m (at1 a i)) -> read3 m' a = read3 m a.
Proof. intros m m' a H. unfold read3. now rewrite !H by lia. Qed.
Lemma read33_ext : forall m m' a, (forall i j, 0 <= i < 3 -> 0 <= j < 3 -> m' (at2 a i j) = m (at2 a i j)) -> read33 m' a = read33 m a.
Proof. intros m m' a H. unfold read33. now rewrite !H by lia. Qed.
Lemma read33_write33_same : forall m a M, distinct2 3 a -> read33 (write33 m a M) a = M.
Proof.
  intros m a M D.
  assert (forall i j i' j', 0 <= i < 3 -> 0 <= j < 3 -> 0 <= i' < 3 -> 0 <= j' < 3 -> (i <> i' \/ j <> j') -> at2 a i j <> at2 a i' j') as N.
  { intros i j i' j' ? ? ? ? C E. apply D in E; lia. }
  unfold read33, write33. apply m33_eq; cbn [m00 m01 m02 m10 m11 m12 m20 m21 m22];
    repeat (rewrite upd_same || rewrite upd_other by (apply N; lia)); reflexivity.
Qed.
Lemma map3_write : forall m a f0 f1 f2, distinct1 3 a ->
  map3 m a f0 f1 f2 = write3 m a (V3 (f0 (m (at1 a 0))) (f1 (m (at1 a 1))) (f2 (m (at1 a 2)))).
Proof.
  intros m a f0 f1 f2 D. unfold map3, write3. cbn [vx vy vz].
  assert (at1 a 1 <> at1 a 0) by (intro E; apply D in E; lia). assert (at1 a 2 <> at1 a 0) by (intro E; apply D in E; lia).
  assert (at1 a 2 <> at1 a 1) by (intro E; apply D in E; lia).
  now rewrite (upd_other m _ _ (at1 a 1)), (upd_other _ _ _ (at1 a 2)), (upd_other m _ _ (at1 a 2)) by easy.
Qed.
Lemma read33_swap : forall m a, read33 m (swap a) = swap_strides (read33 m a).
Proof. intros m [b s t]. unfold read33, swap, swap_strides, at2. cbn [b2 s20 s21 m00 m01 m02 m10 m11 m12 m20 m21 m22]. apply m33_eq; cbn [m00 m01 m02 m10 m11 m12 m20 m21 m22]; f_equal; lia. Qed.
Lemma at_row3 : forall a i, at1 (row3 a) i = at2 a 3 i.
Proof. intros. unfold at1, row3, at2. cbn [b1 s1]. unfold at2. lia. Qed.
Lemma at_tail3 : forall a i, at1 (tail3 a) i = at1 a (3 + i).
Proof. intros. unfold at1, tail3. cbn [b1 s1]. unfold at1. lia. Qed.
Lemma scale3_1 : forall v, scale3 1 v = v.
Proof. intros [x y z]. unfold scale3. cbn. f_equal; ring. Qed.
Lemma read3_vals : forall m a, V3 (m (at1 a 0)) (m (at1 a 1)) (m (at1 a 2)) = read3 m a.
Proof. reflexivity. Qed.

(** rotate, transform a point: correct whatever the output overlaps *)
Theorem C24_rotate_point_R : forall m x_out R x_in inverted,
  let out := init_stride_1D x_out in
  distinct1 3 out ->
  let m' := rotate_point_R_mem m x_out R x_in inverted in
  read3 m' out = rotate_point_R (read33 m (init_stride_2D R 3)) (read3 m (init_stride_1D x_in)) inverted /\ only1 3 out m m'.
Proof.
  intros m x_out R x_in inv out D m'. unfold m', rotate_point_R_mem, rotate_point_R_v, mul_vec3_gen33t_vout. rewrite scale3_1. fold out. split.
  - rewrite read3_write3_same by easy. unfold rotate_point_R. destruct inv; [rewrite read33_swap|]; reflexivity.
  - intros k H. now apply write3_other.
Qed.
Print Assumptions C24_rotate_point_R.

Theorem C24_transform_point_Rt : forall m x_out Rt x_in inverted,
  let out := init_stride_1D x_out in
  distinct1 3 out ->
  let m' := transform_point_Rt_mem m x_out Rt x_in inverted in
  read3 m' out = transform_point_Rt (read_Rt m (init_stride_2D Rt 3)) (read3 m (init_stride_1D x_in)) inverted /\ only1 3 out m m'.
Proof.
  intros m x_out Rt x_in inv out D m'. unfold m', transform_point_Rt_mem. fold out. destruct inv; cbn [negb].
  - unfold rotate_point_R_v, mul_vec3_gen33t_vout. rewrite scale3_1, init2_idem. unfold out. rewrite init1_idem. fold out. split.
    + rewrite read3_write3_same by easy. rewrite read33_swap. reflexivity.
    + intros k H. now apply write3_other.
  - rewrite map3_write by easy. pose proof (C24_rotate_point_R m out (init_stride_2D Rt 3) (init_stride_1D x_in) false) as C. cbv zeta in C.
    unfold out in C at 1 2 3 4. rewrite !init1_idem, init2_idem in C. fold out in C. destruct (C D) as (C1 & C2). split.
    + rewrite read3_write3_same by easy.
      pose proof (f_equal vx C1) as X. pose proof (f_equal vy C1) as Y. pose proof (f_equal vz C1) as Z. cbn [read3 vx vy vz] in X, Y, Z. rewrite X, Y, Z. reflexivity.
    + intros k H. rewrite write3_other by easy. now apply C2.
Qed.
Print Assumptions C24_transform_point_Rt.

Theorem C24_rotate_point_r : forall m x_out r x_in inverted,
  let out := init_stride_1D x_out in
  distinct1 3 out ->
  let m' := rotate_point_r_mem m x_out r x_in inverted in
  read3 m' out = rotate_point_r (read3 m (init_stride_1D r)) (read3 m (init_stride_1D x_in)) inverted /\ only1 3 out m m'.
Proof.
  intros m x_out r x_in inv out D m'. unfold m', rotate_point_r_mem, rotate_point_r_v. fold out. split; [now apply read3_write3_same|].
  intros k H. now apply write3_other.
Qed.
Print Assumptions C24_rotate_point_r.

Theorem C24_transform_point_rt : forall m x_out rt x_in inverted,
  let out := init_stride_1D x_out in
  distinct1 3 out ->
  let m' := transform_point_rt_mem m x_out rt x_in inverted in
  read3 m' out = transform_point_rt (read_rt m (init_stride_1D rt)) (read3 m (init_stride_1D x_in)) inverted /\ only1 3 out m m'.
Proof.
  intros m x_out rt x_in inv out D m'. unfold m', transform_point_rt_mem. fold out. destruct inv; cbn [negb].
  - split; [|intros k H; now apply write3_other]. rewrite read3_write3_same by easy. reflexivity.
  - rewrite map3_write by easy. pose proof (C24_rotate_point_r m out (init_stride_1D rt) x_in false) as C. cbv zeta in C.
    unfold out in C at 1 2 3 4. rewrite !init1_idem in C. fold out in C. destruct (C D) as (C1 & C2). split.
    + rewrite read3_write3_same by easy.
      pose proof (f_equal vx C1) as X. pose proof (f_equal vy C1) as Y. pose proof (f_equal vz C1) as Z. cbn [read3 vx vy vz] in X, Y, Z. rewrite X, Y, Z. reflexivity.
    + intros k H. rewrite write3_other by easy. now apply C2.
Qed.
Print Assumptions C24_transform_point_rt.

(** compose_r: correct whatever the output overlaps *)
Theorem C24_compose_r : forall m r_out r_0 r_1 i0 i1,
  let out := init_stride_1D r_out in
  distinct1 3 out ->
  let m' := compose_r_mem m r_out r_0 r_1 i0 i1 in
  read3 m' out = compose_r2 (read3 m (init_stride_1D r_0)) (read3 m (init_stride_1D r_1)) i0 i1 /\ only1 3 out m m'.
Proof.
  intros m r_out r_0 r_1 i0 i1 out D m'. unfold m', compose_r_mem. fold out. split; [now apply read3_write3_same|].
  intros k H. now apply write3_other.
Qed.
Print Assumptions C24_compose_r.

(** ** Functions with a (4,3) or (6,) output *)
Lemma alias2_Rt : forall out a, distinct2 4 out -> alias2 4 out a ->
  (forall i j j', 0 <= i < 3 -> 0 <= j < 3 -> 0 <= j' < 3 -> at2 out 3 j' <> at2 a i j) /\
  (forall i j j', 0 <= i < 3 -> 0 <= j < 3 -> 0 <= j' < 3 -> at2 out i j <> at2 a 3 j').
Proof.
  intros out a D [-> | H]; split; intros; try (apply H; lia); intro E; apply D in E; lia.
Qed.
Lemma alias1_rt : forall out a, distinct1 6 out -> alias1 6 out a ->
  forall i j, 0 <= i < 3 -> 0 <= j < 3 -> at1 (tail3 out) i <> at1 a j /\ at1 out i <> at1 (tail3 a) j.
Proof.
  intros out a D [-> | H] i j ? ?; rewrite !at_tail3; split; try (apply H; lia); intro E; apply D in E; lia.
Qed.
Lemma distinct2_le : forall a, distinct2 4 a -> distinct2 3 a.
Proof. intros a D i j i' j' ? ? ? ? E. apply D in E; lia. Qed.
Lemma distinct2_row : forall a, distinct2 4 a -> distinct1 3 (row3 a).
Proof. intros a D i j ? ? E. rewrite !at_row3 in E. apply D in E; lia. Qed.
Lemma distinct1_le : forall a, distinct1 6 a -> distinct1 3 a.
Proof. intros a D i j ? ? E. apply D in E; lia. Qed.
Lemma distinct1_tail : forall a, distinct1 6 a -> distinct1 3 (tail3 a).
Proof. intros a D i j ? ? E. rewrite !at_tail3 in E. apply D in E; lia. Qed.

(** the transposition loop; in place and out of place *)
Lemma transpose_write : forall m out a, distinct2 3 out -> alias2 3 out a ->
  read33 (transpose_into m out a) out = invert_R (read33 m a) /\ only2 3 out m (transpose_into m out a).
Proof.
  intros m out a D A.
  assert (forall i j i' j', 0 <= i < 3 -> 0 <= j < 3 -> 0 <= i' < 3 -> 0 <= j' < 3 -> (i <> i' \/ j <> j') -> at2 out i j <> at2 out i' j') as N.
  { intros i j i' j' ? ? ? ? C E. apply D in E; lia. }
  split.
  - destruct A as [-> | A].
    + unfold read33, transpose_into, invert_R. apply m33_eq; cbn [m00 m01 m02 m10 m11 m12 m20 m21 m22];
        repeat (rewrite upd_same || rewrite upd_other by (apply N; lia)); reflexivity.
    + assert (forall i j i' j', 0 <= i < 3 -> 0 <= j < 3 -> 0 <= i' < 3 -> 0 <= j' < 3 -> at2 a i' j' <> at2 out i j) as NA.
      { intros. apply not_eq_sym. now apply A. }
      unfold read33, transpose_into, invert_R. apply m33_eq; cbn [m00 m01 m02 m10 m11 m12 m20 m21 m22];
        repeat (rewrite upd_same || rewrite upd_other by (first [apply NA; lia | apply N; lia])); reflexivity.
  - intros k H. unfold transpose_into. rewrite !upd_other by (apply H; lia). reflexivity.
Qed.

Theorem C24_invert_R : forall m R_out R_in,
  let out := init_stride_2D R_out 3 in let inp := init_stride_2D R_in 3 in
  distinct2 3 out -> alias2 3 out inp ->
  let m' := invert_R_mem m R_out R_in in
  read33 m' out = invert_R (read33 m inp) /\ only2 3 out m m'.
Proof. intros. now apply transpose_write. Qed.
Print Assumptions C24_invert_R.

Lemma alias2_le : forall out a, alias2 4 out a -> alias2 3 out a.
Proof. intros out a [-> | H]; [now left|right]. intros. apply H; lia. Qed.

Theorem C24_invert_Rt : forall m Rt_out Rt_in,
  let out := init_stride_2D Rt_out 3 in let inp := init_stride_2D Rt_in 3 in
  distinct2 4 out -> alias2 4 out inp ->
  let m' := invert_Rt_mem m Rt_out Rt_in in
  read_Rt m' out = invert_Rt (read_Rt m inp) /\ only2 4 out m m'.
Proof.
  intros m Rt_out Rt_in out inp D A m'. unfold m', invert_Rt_mem. fold out inp.
  destruct (transpose_write m out inp (distinct2_le _ D) (alias2_le _ _ A)) as (T1 & T2). set (m1 := transpose_into m out inp) in *.
  destruct (alias2_Rt out inp D A) as (A1 & A2). destruct (alias2_Rt out out D (or_introl eq_refl)) as (O1 & O2).
  assert (read3 m1 (row3 inp) = read3 m (row3 inp)) as E1.
  { apply read3_ext. intros i ?. apply T2. intros i' j' ? ?. rewrite at_row3. apply not_eq_sym. now apply A2. }
  unfold mul_vec3_gen33t_vout. rewrite T1, E1. split.
  - unfold read_Rt, invert_Rt. cbn [Rt_R Rt_t]. f_equal.
    + transitivity (read33 m1 out); [|exact T1]. apply read33_ext. intros i j ? ?. apply write3_other. intros k ?. rewrite at_row3. apply O2; lia.
    + rewrite read3_write3_same by now apply distinct2_row. unfold scale3. apply v3_eq; cbn [vx vy vz]; ring.
  - intros k H. rewrite write3_other. 2: { intros i ?. rewrite at_row3. apply H; lia. } apply T2. intros; apply H; lia.
Qed.
Print Assumptions C24_invert_Rt.

(** writing R and then t, or t and then R, into the same (4,3) array *)
Lemma read33_row : forall m out v, distinct2 4 out -> read33 (write3 m (row3 out) v) out = read33 m out.
Proof.
  intros m out v D. destruct (alias2_Rt out out D (or_introl eq_refl)) as (O1 & O2).
  apply read33_ext. intros i j ? ?. apply write3_other. intros k ?. rewrite at_row3. apply O2; lia.
Qed.
Lemma row_read33 : forall m out M, distinct2 4 out -> read3 (write33 m out M) (row3 out) = read3 m (row3 out).
Proof.
  intros m out v D. destruct (alias2_Rt out out D (or_introl eq_refl)) as (O1 & O2).
  apply read3_ext. intros k ?. apply write33_other. intros i j ? ?. rewrite at_row3. apply O1; lia.
Qed.
Lemma in33_row : forall m out a v, distinct2 4 out -> alias2 4 out a -> read33 (write3 m (row3 out) v) a = read33 m a.
Proof.
  intros m out a v D A. destruct (alias2_Rt out a D A) as (A1 & A2).
  apply read33_ext. intros i j ? ?. apply write3_other. intros k ?. rewrite at_row3. apply not_eq_sym. apply A1; lia.
Qed.
Lemma in_row33 : forall m out a M, distinct2 4 out -> alias2 4 out a -> read3 (write33 m out M) (row3 a) = read3 m (row3 a).
Proof.
  intros m out a v D A. destruct (alias2_Rt out a D A) as (A1 & A2).
  apply read3_ext. intros k ?. apply write33_other. intros i j ? ?. rewrite at_row3. apply not_eq_sym. apply A2; lia.
Qed.
Lemma only_row : forall m m' out v, only2 4 out m m' -> only2 4 out m (write3 m' (row3 out) v).
Proof. intros m m' out v H k N. rewrite write3_other; [now apply H|]. intros i ?. rewrite at_row3. apply N; lia. Qed.
Lemma only_33 : forall m m' out M, only2 4 out m m' -> only2 4 out m (write33 m' out M).
Proof. intros m m' out v H k N. rewrite write33_other; [now apply H|]. intros; apply N; lia. Qed.
Lemma only2_refl : forall out m, only2 4 out m m.
Proof. now intros out m k H. Qed.

Theorem C24_compose_Rt : forall m Rt_out Rt_0 Rt_1 i0 i1,
  let out := init_stride_2D Rt_out 3 in let a := init_stride_2D Rt_0 3 in let b := init_stride_2D Rt_1 3 in
  distinct2 4 out -> alias2 4 out a -> alias2 4 out b ->
  let m' := compose_Rt_mem m Rt_out Rt_0 Rt_1 i0 i1 in
  read_Rt m' out = compose_Rt2 (read_Rt m a) (read_Rt m b) i0 i1 /\ only2 4 out m m'.
Proof.
  intros m Rt_out Rt_0 Rt_1 i0 i1 out a b D A B m'.
  pose proof (distinct2_le _ D) as D3. pose proof (distinct2_row _ D) as Dr.
  unfold m', compose_Rt_mem, mul_vec3_gen33t_vout, mul_vec3_gen33_vout, mul_gen33_gen33_vout. fold out a b.
  destruct i0, i1; cbv zeta; rewrite ?map3_write by assumption;
    (split; [|repeat (apply only_row || apply only_33); apply only2_refl]);
    unfold read_Rt at 1; unfold compose_Rt2, read_Rt; cbn [Rt_R Rt_t];
    rewrite ?scale3_1, ?read33_row, ?read33_write33_same, ?read3_write3_same, ?read33_swap, ?in33_row, ?in_row33, ?row_read33 by assumption;
    rewrite ?scale3_1, ?read33_row, ?read33_write33_same, ?read3_write3_same, ?read33_swap, ?in33_row, ?in_row33, ?row_read33 by assumption; f_equal.
  all: rewrite ?read3_write3_same by assumption; try reflexivity.
  all: match goal with |- context [?mm (at1 (row3 ?o) 0)] =>
         change (mm (at1 (row3 o) 0)) with (vx (read3 mm (row3 o)));
         change (mm (at1 (row3 o) 1)) with (vy (read3 mm (row3 o)));
         change (mm (at1 (row3 o) 2)) with (vz (read3 mm (row3 o))) end.
  all: rewrite ?row_read33, ?read3_write3_same by assumption; rewrite ?in_row33, ?scale3_1 by assumption; reflexivity.
Qed.
Print Assumptions C24_compose_Rt.

(** (6,) outputs *)
Lemma in3_tail : forall m out a v, distinct1 6 out -> alias1 6 out a -> read3 (write3 m (tail3 out) v) a = read3 m a.
Proof.
  intros m out a v D A. apply read3_ext. intros i ?. apply write3_other. intros k ?. apply not_eq_sym. now apply (alias1_rt out a D A).
Qed.
Lemma in_tail3 : forall m out a v, distinct1 6 out -> alias1 6 out a -> read3 (write3 m out v) (tail3 a) = read3 m (tail3 a).
Proof.
  intros m out a v D A. apply read3_ext. intros i ?. apply write3_other. intros k ?. apply not_eq_sym. now apply (alias1_rt out a D A).
Qed.
Lemma only_head : forall m m' out v, only1 6 out m m' -> only1 6 out m (write3 m' out v).
Proof. intros m m' out v H k N. rewrite write3_other; [now apply H|]. intros; apply N; lia. Qed.
Lemma only_tail : forall m m' out v, only1 6 out m m' -> only1 6 out m (write3 m' (tail3 out) v).
Proof. intros m m' out v H k N. rewrite write3_other; [now apply H|]. intros i ?. rewrite at_tail3. apply N; lia. Qed.
Lemma only1_refl : forall out m, only1 6 out m m.
Proof. now intros out m k H. Qed.

Theorem C24_invert_rt : forall m rt_out rt_in,
  let out := init_stride_1D rt_out in let inp := init_stride_1D rt_in in
  distinct1 6 out -> alias1 6 out inp ->
  let m' := invert_rt_mem m rt_out rt_in in
  read_rt m' out = invert_rt (read_rt m inp) /\ only1 6 out m m'.
Proof.
  intros m rt_out rt_in out inp D A m'.
  pose proof (distinct1_le _ D) as D3. pose proof (distinct1_tail _ D) as Dt.
  assert (init_stride_1D out = out) as Io by apply init1_idem.
  assert (init_stride_1D (tail3 out) = tail3 out) as It by apply init1_tail.
  assert (init_stride_1D (tail3 inp) = tail3 inp) as Jt by apply init1_tail.
  unfold m', invert_rt_mem. fold out inp. cbv zeta. clearbody out inp. clear m'.
  set (rn := V3 (- vx (read3 m inp)) (- vy (read3 m inp)) (- vz (read3 m inp))).
  assert (invert_rt (read_rt m inp) = mkrt rn (scale3 (-1) (rotate_point_r rn (read3 m (tail3 inp)) false))) as Ei by reflexivity.
  assert (upd (upd (upd m (at1 out 0) (- m (at1 inp 0))%R) (at1 out 1) (- (upd m (at1 out 0) (- m (at1 inp 0))%R) (at1 inp 1))%R)
            (at1 out 2) (- (upd (upd m (at1 out 0) (- m (at1 inp 0))%R) (at1 out 1) (- (upd m (at1 out 0) (- m (at1 inp 0))%R) (at1 inp 1))%R) (at1 inp 2))%R
          = write3 m out rn) as E.
  { unfold write3, rn, read3. cbn [vx vy vz].
    assert (forall i j, 0 <= i < 3 -> 0 <= j < 3 -> i <> j -> at1 inp i <> at1 out j) as N.
    { intros i j ? ? C. destruct A as [-> | A]; [intro X; apply D3 in X; lia | apply not_eq_sym, A; lia]. }
    rewrite !(upd_other _ _ _ (at1 inp 1)), !(upd_other _ _ _ (at1 inp 2)) by (apply N; lia). reflexivity. }
  rewrite E, Ei. clearbody rn. clear E Ei. rewrite map3_write by assumption. unfold rotate_point_r_mem, rotate_point_r_v. rewrite Io, It, Jt.
  split; [|repeat (apply only_head || apply only_tail); apply only1_refl].
  unfold read_rt. f_equal.
  - rewrite !in3_tail by (assumption || now left). now apply read3_write3_same.
  - rewrite read3_write3_same by assumption.
    match goal with |- context [?mm (at1 (tail3 ?o) 0)] =>
         change (mm (at1 (tail3 o) 0)) with (vx (read3 mm (tail3 o)));
         change (mm (at1 (tail3 o) 1)) with (vy (read3 mm (tail3 o)));
         change (mm (at1 (tail3 o) 2)) with (vz (read3 mm (tail3 o))) end.
    rewrite !read3_write3_same by assumption. rewrite in_tail3 by assumption. reflexivity.
Qed.
Print Assumptions C24_invert_rt.

Theorem C24_compose_rt : forall m rt_out rt_0 rt_1 i0 i1,
  let out := init_stride_1D rt_out in let a := init_stride_1D rt_0 in let b := init_stride_1D rt_1 in
  distinct1 6 out -> alias1 6 out a -> alias1 6 out b ->
  let m' := compose_rt_mem m rt_out rt_0 rt_1 i0 i1 in
  read_rt m' out = compose_rt2 (read_rt m a) (read_rt m b) i0 i1 /\ only1 6 out m m'.
Proof.
  intros m rt_out rt_0 rt_1 i0 i1 out a b D A B m'.
  pose proof (distinct1_le _ D) as D3. pose proof (distinct1_tail _ D) as Dt.
  assert (init_stride_1D out = out) as Io by apply init1_idem. assert (init_stride_1D a = a) as Ia by apply init1_idem.
  assert (init_stride_1D b = b) as Ib by apply init1_idem.
  assert (init_stride_1D (tail3 out) = tail3 out) as It by apply init1_tail.
  assert (init_stride_1D (tail3 b) = tail3 b) as Jt by apply init1_tail.
  unfold m', compose_rt_mem. fold out a b. cbv zeta. unfold compose_r_mem, rotate_point_r_v. rewrite Io, Ia, Ib, It, Jt.
  clearbody out a b. clear m' Io Ia Ib It Jt.
  destruct i0, i1; rewrite ?map3_write by assumption;
    (split; [|repeat (apply only_head || apply only_tail); apply only1_refl]);
    unfold read_rt at 1; unfold compose_rt2; cbv zeta;
    rewrite ?in3_tail by (assumption || now left); rewrite ?read3_write3_same by assumption; rewrite ?in3_tail by (assumption || now left);
    rewrite ?read3_write3_same by assumption; rewrite ?in_tail3 by assumption; unfold read_rt; cbn [rt_r rt_t]; f_equal.
  all: match goal with
       | |- context [?mm (at1 (tail3 ?o) 0)] =>
         change (mm (at1 (tail3 o) 0)) with (vx (read3 mm (tail3 o)));
         change (mm (at1 (tail3 o) 1)) with (vy (read3 mm (tail3 o)));
         change (mm (at1 (tail3 o) 2)) with (vz (read3 mm (tail3 o)))
       | _ => idtac end.
  all: rewrite ?read3_write3_same by assumption; reflexivity.
Qed.
Print Assumptions C24_compose_rt.

(** The claim itself: a call whose output is one of its inputs leaves in that array what a call into a separate
    array [sep] would have left in [sep] *)
Theorem C24_in_place_as_separate : forall m,
  (forall a sep, distinct2 3 (init_stride_2D a 3) -> distinct2 3 (init_stride_2D sep 3) -> alias2 3 (init_stride_2D sep 3) (init_stride_2D a 3) ->
     read33 (invert_R_mem m a a) (init_stride_2D a 3) = read33 (invert_R_mem m sep a) (init_stride_2D sep 3)) /\
  (forall a sep, distinct2 4 (init_stride_2D a 3) -> distinct2 4 (init_stride_2D sep 3) -> alias2 4 (init_stride_2D sep 3) (init_stride_2D a 3) ->
     read_Rt (invert_Rt_mem m a a) (init_stride_2D a 3) = read_Rt (invert_Rt_mem m sep a) (init_stride_2D sep 3)) /\
  (forall a sep, distinct1 6 (init_stride_1D a) -> distinct1 6 (init_stride_1D sep) -> alias1 6 (init_stride_1D sep) (init_stride_1D a) ->
     read_rt (invert_rt_mem m a a) (init_stride_1D a) = read_rt (invert_rt_mem m sep a) (init_stride_1D sep)) /\
  (forall a b out sep i0 i1, out = a \/ out = b ->
     distinct2 4 (init_stride_2D out 3) -> distinct2 4 (init_stride_2D sep 3) ->
     alias2 4 (init_stride_2D out 3) (init_stride_2D a 3) -> alias2 4 (init_stride_2D out 3) (init_stride_2D b 3) ->
     alias2 4 (init_stride_2D sep 3) (init_stride_2D a 3) -> alias2 4 (init_stride_2D sep 3) (init_stride_2D b 3) ->
     read_Rt (compose_Rt_mem m out a b i0 i1) (init_stride_2D out 3) = read_Rt (compose_Rt_mem m sep a b i0 i1) (init_stride_2D sep 3)) /\
  (forall a b out sep i0 i1, out = a \/ out = b ->
     distinct1 6 (init_stride_1D out) -> distinct1 6 (init_stride_1D sep) ->
     alias1 6 (init_stride_1D out) (init_stride_1D a) -> alias1 6 (init_stride_1D out) (init_stride_1D b) ->
     alias1 6 (init_stride_1D sep) (init_stride_1D a) -> alias1 6 (init_stride_1D sep) (init_stride_1D b) ->
     read_rt (compose_rt_mem m out a b i0 i1) (init_stride_1D out) = read_rt (compose_rt_mem m sep a b i0 i1) (init_stride_1D sep)).
Proof.
  intro m. split; [|split; [|split; [|split]]].
  - intros a sep D1 D2 A. rewrite (proj1 (C24_invert_R m a a D1 (or_introl eq_refl))). now rewrite (proj1 (C24_invert_R m sep a D2 A)).
  - intros a sep D1 D2 A. rewrite (proj1 (C24_invert_Rt m a a D1 (or_introl eq_refl))). now rewrite (proj1 (C24_invert_Rt m sep a D2 A)).
  - intros a sep D1 D2 A. rewrite (proj1 (C24_invert_rt m a a D1 (or_introl eq_refl))). now rewrite (proj1 (C24_invert_rt m sep a D2 A)).
  - intros a b out sep i0 i1 _ D1 D2 A B A' B'. rewrite (proj1 (C24_compose_Rt m out a b i0 i1 D1 A B)). now rewrite (proj1 (C24_compose_Rt m sep a b i0 i1 D2 A' B')).
  - intros a b out sep i0 i1 _ D1 D2 A B A' B'. rewrite (proj1 (C24_compose_rt m out a b i0 i1 D1 A B)). now rewrite (proj1 (C24_compose_rt m sep a b i0 i1 D2 A' B')).
Qed.
Print Assumptions C24_in_place_as_separate.

(** Strides that are not given mean contiguous storage: 8-byte elements, rows of [d1] elements one after the other; given
    strides are used *)
Theorem C24_default_strides : forall a d1, let f := init_stride_2D a d1 in
  b2 f = b2 a /\ (0 < s21 a -> s21 f = s21 a) /\ (s21 a <= 0 -> s21 f = 8) /\ (0 < s20 a -> s20 f = s20 a) /\
  (s20 a <= 0 -> forall i j, at2 f i j = b2 a + (i * d1 + j) * s21 f).
Proof.
  intros [b s t] d1. unfold init_stride_2D, at2. cbn [b2 s20 s21].
  split; [reflexivity|]. destruct (Z.leb_spec t 0), (Z.leb_spec s 0); repeat split; lia || (intros; ring) || reflexivity.
Qed.
Print Assumptions C24_default_strides.

(** The hypotheses are met: a (4,3) array with row stride 40 and element stride 8, in place; default strides too *)
Example ex_strided : distinct2 4 (init_stride_2D (A2 1000 40 8) 3) /\ alias2 4 (init_stride_2D (A2 1000 40 8) 3) (init_stride_2D (A2 1000 40 8) 3) /\
  distinct2 4 (init_stride_2D (A2 1000 0 0) 3) /\ distinct1 6 (init_stride_1D (A1 64 24)) /\
  alias2 4 (init_stride_2D (A2 1000 40 8) 3) (init_stride_2D (A2 5000 0 0) 3).
Proof.
  change (init_stride_2D (A2 1000 40 8) 3) with (A2 1000 40 8). change (init_stride_2D (A2 1000 0 0) 3) with (A2 1000 24 8).
  change (init_stride_1D (A1 64 24)) with (A1 64 24). change (init_stride_2D (A2 5000 0 0) 3) with (A2 5000 24 8).
  split; [|split; [now left|split; [|split]]].
  - intros i j i' j'. unfold at2. cbn [b2 s20 s21]. lia.
  - intros i j i' j'. unfold at2. cbn [b2 s20 s21]. lia.
  - intros i j. unfold at1. cbn [b1 s1]. lia.
  - right. intros i j i' j'. unfold at2. cbn [b2 s20 s21]. lia.
Qed.

(** "any strides" is false: an input with a negative stride (a reversed numpy view; the Python wrapper passes the
    strides unchecked, poseutils-genpywrap.py) is read as if it were contiguous.  The result is not that of the
    elements of the view. *)
Theorem C24_negative_stride_refuted : exists m x_out R x_in,
  distinct1 3 x_out /\ distinct1 3 x_in /\
  read3 (rotate_point_R_mem m x_out R x_in false) x_out <> rotate_point_R (read33 m R) (read3 m x_in) false.
Proof.
  exists (fun k => if Z.eqb k 0 then 1%R else if Z.eqb k 8 then 1%R else if Z.eqb k 16 then 1%R else if Z.eqb k 1000 then 5%R else if Z.eqb k 992 then 7%R else 0%R),
    (A1 2000 8), (A2 0 32 8), (A1 1000 (-8)). split; [|split].
  - intros i j. unfold at1. cbn [b1 s1]. lia.
  - intros i j. unfold at1. cbn [b1 s1]. lia.
  - intro E. apply (f_equal vx) in E. pose proof (C24_rotate_point_R
      (fun k => if Z.eqb k 0 then 1%R else if Z.eqb k 8 then 1%R else if Z.eqb k 16 then 1%R else if Z.eqb k 1000 then 5%R else if Z.eqb k 992 then 7%R else 0%R)
      (A1 2000 8) (A2 0 32 8) (A1 1000 (-8)) false) as C.
    cbv zeta in C. change (init_stride_1D (A1 2000 8)) with (A1 2000 8) in C. rewrite (proj1 (C ltac:(intros i j; unfold at1; cbn [b1 s1]; lia))) in E.
    unfold rotate_point_R, mul_Rv, read33, read3, at2, at1, init_stride_1D, init_stride_2D in E. cbn in E. lra.
Qed.
Print Assumptions C24_negative_stride_refuted.
