(** C92: the valid-intrinsics region goes around cells of the imager that pass the thresholds; the statistics of each cell are
    those of the residuals in that cell.  Large negative biases and cells with few residuals pass. *)
From Coq Require Import Reals ZArith List Bool Lia Lra Psatz.
From Coq Require QArith.
From Verif Require M_CamObj.
From Verif Require Import S_Vec M_Pose M_Match C_Match M_Diff C_Diff M_ValidRegion.
Import ListNotations.
Open Scope R_scope.

(** *** Specification *)
(** the grid point (i,j), and the cell around it: half the distance to the next point, in each direction *)
Definition grid_x (W gw i : Z) : R := IZR i * (IZR (W - 1) / IZR (gw - 1)).
Definition in_cell (W H gw gh i j icam : Z) (c : corner) : Prop :=
  c_cam c = icam /\ 0 < c_weight c /\
  2 * Rabs (fst (c_q c) - grid_x W gw i) < IZR (W - 1) / IZR (gw - 1) /\
  2 * Rabs (snd (c_q c) - grid_x H gh j) < IZR (H - 1) / IZR (gh - 1).
(** es: the residuals, x and y, of the corners that satisfy P *)
Inductive gathered (P : corner -> Prop) : list corner -> list R -> Prop :=
| g_nil : gathered P [] []
| g_in : forall c l es, P c -> gathered P l es -> gathered P (c :: l) (fst (c_err c) :: snd (c_err c) :: es)
| g_out : forall c l es, ~ P c -> gathered P l es -> gathered P (c :: l) es.
Fixpoint total (l : list R) : R := match l with [] => 0 | x :: l => x + total l end.
(** the mean and the standard deviation of the population es; 0 if it has 5 or fewer members *)
Definition mean_stdev (es : list R) (m s : R) : Prop :=
  if Nat.leb (length es) 5 then m = 0 /\ s = 0
  else INR (length es) * m = total es /\ 0 <= s /\ INR (length es) * (s * s) = total (map (fun e => (e - m) * (e - m)) es).

Lemma rltb_iff : forall a b, rltb a b = true <-> a < b.
Proof. intros. unfold rltb. destruct (Rlt_dec a b); split; intro; try reflexivity; try assumption; try discriminate; contradiction. Qed.
Lemma sum_total : forall l, sum l = total l.
Proof. induction l as [|x l IH]; [reflexivity|]. unfold sum in *. cbn [fold_right total]. now rewrite IH. Qed.
Lemma total_nonneg : forall l, Forall (fun x => 0 <= x) l -> 0 <= total l.
Proof. induction 1; cbn [total]; lra. Qed.

Lemma stats_spec : forall W H gw gh i j icam l es m s n,
  stats (IZR (W - 1) / IZR (gw - 1) / 2, IZR (H - 1) / IZR (gh - 1) / 2) (select icam l) (grid_x W gw i, grid_x H gh j) = (m, s, n) ->
  gathered (in_cell W H gw gh i j icam) l es -> n = length es /\ mean_stdev es m s.
Proof.
  intros W H gw gh i j icam l es m s n E G. unfold stats in E. cbn [fst snd] in E.
  match type of E with context [flat_map ?f ?x] => assert (flat_map f x = es) as Ee end.
  { clear E. unfold select. induction G as [|c l es P G IH|c l es P G IH]; [reflexivity| |]; cbn [filter].
    - destruct P as (A & B & C & D).
      assert ((c_cam c =? icam)%Z && rltb 0 (c_weight c) = true) as -> by (apply andb_true_iff; split; [now apply Z.eqb_eq|now apply rltb_iff]).
      cbn [filter].
      match goal with |- context [if ?b then _ else _] => assert (b = true) as -> by (apply andb_true_iff; split; apply rltb_iff; lra) end.
      cbn [flat_map app]. now rewrite IH.
    - destruct ((c_cam c =? icam)%Z && rltb 0 (c_weight c)) eqn:Q; [|exact IH]. cbn [filter].
      match goal with |- context [if ?b then _ else _] => destruct b eqn:Q2 end; [exfalso; apply P|exact IH].
      apply andb_true_iff in Q. destruct Q as [Qa Qb]. apply andb_true_iff in Q2. destruct Q2 as [Qc Qd].
      apply Z.eqb_eq in Qa. apply rltb_iff in Qb, Qc, Qd. unfold in_cell. repeat split; try assumption; lra. }
  rewrite Ee in E. unfold mean_stdev. destruct (Nat.leb (length es) 5) eqn:L.
  - assert (m = 0 /\ s = 0 /\ n = length es) as (-> & -> & ->) by (repeat split; congruence). auto.
  - apply PeanoNat.Nat.leb_gt in L.
    assert (m = npmean es /\ s = npstd es /\ n = length es) as (-> & -> & ->) by (repeat split; congruence). split; [reflexivity|].
    assert (0 < INR (length es)) as Np by (apply lt_0_INR; lia).
    split; [unfold npmean; rewrite sum_total; field; lra|]. split; [apply sqrt_pos|].
    unfold npstd. set (v := map _ es).
    assert (0 <= npmean v) as Nv.
    { unfold npmean. rewrite sum_total. apply Rmult_le_pos; [apply total_nonneg|left; apply Rinv_0_lt_compat; unfold v; now rewrite map_length].
      unfold v. apply Forall_map, Forall_forall. intros x _. apply Rle_0_sqr. }
    rewrite sqrt_sqrt by exact Nv. unfold npmean at 1. rewrite sum_total. unfold v at 2. rewrite map_length. fold v. field. lra.
Qed.
Lemma gathered_total : forall P, (forall c, {P c} + {~ P c}) -> forall l, exists es, gathered P l es.
Proof.
  intros P D. induction l as [|c l (es & G)]; [exists []; constructor|]. destruct (D c); eexists; [apply g_in|apply g_out]; eassumption.
Qed.
Lemma in_cell_dec : forall W H gw gh i j icam c, {in_cell W H gw gh i j icam c} + {~ in_cell W H gw gh i j icam c}.
Proof.
  intros. unfold in_cell. destruct (Z.eq_dec (c_cam c) icam); [|right; tauto]. destruct (Rlt_dec 0 (c_weight c)); [|right; tauto].
  destruct (Rlt_dec (2 * Rabs (fst (c_q c) - grid_x W gw i)) (IZR (W - 1) / IZR (gw - 1))); [|right; tauto].
  destruct (Rlt_dec (2 * Rabs (snd (c_q c) - grid_x H gh j)) (IZR (H - 1) / IZR (gh - 1))); [left|right]; tauto.
Qed.
Lemma grid_point : forall gw gh W H i j, (0 <= i < gw)%Z -> (0 <= j < gh)%Z ->
  nth_error (sample_imager gw (Some gh) W H) (Z.to_nat (j * gw + i)) = Some (grid_x W gw i, grid_x H gh j).
Proof. intros gw gh W H i j Hi Hj. exact (proj1 (C81_grid gw (Some gh) W H) i j Hi Hj). Qed.

(** *** The statistics *)
Theorem C92_statistics : forall W H gw gh icam l i j, (0 <= i < gw)%Z -> (0 <= j < gh)%Z ->
  exists es m s, gathered (in_cell W H gw gh i j icam) l es /\ mean_stdev es m s /\
    nth_error (regional_statistics W H gw gh icam l) (Z.to_nat (j * gw + i)) = Some (m, s, length es).
Proof.
  intros W H gw gh icam l i j Hi Hj.
  destruct (gathered_total _ (in_cell_dec W H gw gh i j icam) l) as (es & G).
  destruct (stats (IZR (W - 1) / IZR (gw - 1) / 2, IZR (H - 1) / IZR (gh - 1) / 2) (select icam l) (grid_x W gw i, grid_x H gh j)) as [[m s] n] eqn:E.
  destruct (stats_spec _ _ _ _ _ _ _ _ _ _ _ _ E G) as [-> M]. exists es, m, s. split; [exact G|]. split; [exact M|].
  unfold regional_statistics. rewrite <- E. apply map_nth_error. now apply grid_point.
Qed.
Print Assumptions C92_statistics.

Section Region.
Variable unproject : pixel -> v3.
Variable uncertainty : bool -> v3 -> option R.
Variable find_contours : Z -> list bool -> list (list (Z * Z)).
Variable contour_area : list (Z * Z) -> R.

(** the thresholds, at one point of the grid *)
Definition uncertainty_below (W H gw gh i j : Z) (distance bound : R) : Prop :=
  let v := unproject (grid_x W gw i, grid_x H gh j) in
  exists u, u < bound /\
    ((distance <= 0 /\ uncertainty true v = Some u) \/ (0 < distance /\ uncertainty false (V3 (distance * vx v) (distance * vy v) (distance * vz v)) = Some u)).

Lemma nth_error_combine : forall A B (a : list A) (b : list B) n x y, nth_error a n = Some x -> nth_error b n = Some y -> nth_error (combine a b) n = Some (x, y).
Proof using Type.
  induction a as [|a0 a IH]; intros [|b0 b] [|n] x y Ha Hb; try discriminate; cbn in *; [congruence|now apply IH].
Qed.

Definition passes (W H gw gh icam : Z) (l : list corner) (splined : bool) (t : thresholds) (distance : R) (i j : Z) : Prop :=
  uncertainty_below W H gw gh i j distance (t_uncertainty t) /\
  (splined = true \/ exists es m s, gathered (in_cell W H gw gh i j icam) l es /\ mean_stdev es m s /\
                                     m < t_mean t /\ s < t_stdev t /\ t_count t < INR (length es)).

Lemma gathered_fun : forall P l es, gathered P l es -> forall es', gathered P l es' -> es = es'.
Proof using Type.
  intros P l es G. induction G as [|c l es Pc G IH|c l es Pc G IH]; intros es' G'; inversion G'; subst; try contradiction; try reflexivity;
    [f_equal; f_equal|]; now apply IH.
Qed.

(** the mask: a cell that passes is 1.  Uncertainties that aren't finite don't pass *)
Theorem C92_mask : forall W H gw gh icam l splined t distance i j, t_uncertainty t <= 1000000000 ->
  (0 <= i < gw)%Z -> (0 <= j < gh)%Z ->
  exists b, nth_error (mask unproject uncertainty W H gw gh icam l splined t distance) (Z.to_nat (j * gw + i)) = Some b /\
    (b = true <-> passes W H gw gh icam l splined t distance i j).
Proof using unproject uncertainty.
  clear find_contours contour_area.
  intros W H gw gh icam l splined t distance i j T Hi Hj.
  pose proof (grid_point gw gh W H i j Hi Hj) as Gp.
  destruct (gathered_total _ (in_cell_dec W H gw gh i j icam) l) as (es & G).
  destruct (stats (IZR (W - 1) / IZR (gw - 1) / 2, IZR (H - 1) / IZR (gh - 1) / 2) (select icam l) (grid_x W gw i, grid_x H gh j)) as [[m s] n] eqn:E.
  destruct (stats_spec _ _ _ _ _ _ _ _ _ _ _ _ E G) as [-> M].
  set (u0 := if Rle_dec distance 0 then uncertainty true (unproject (grid_x W gw i, grid_x H gh j))
             else uncertainty false (vscale distance (unproject (grid_x W gw i, grid_x H gh j)))).
  exists (cell_valid splined t u0 (m, s, length es)). split.
  { assert (nth_error (combine (uncertainties unproject uncertainty distance (sample_imager gw (Some gh) W H)) (regional_statistics W H gw gh icam l)) (Z.to_nat (j * gw + i))
      = Some (u0, (m, s, length es))) as N.
    { apply nth_error_combine.
      - exact (map_nth_error _ _ _ Gp).
      - unfold regional_statistics. rewrite <- E. apply map_nth_error. exact Gp. }
    exact (map_nth_error (fun us => cell_valid splined t (fst us) (snd us)) _ _ N). }
  unfold cell_valid, u0. clear u0.
  cbn [fst snd]. rewrite andb_true_iff, orb_true_iff, !andb_true_iff, !rltb_iff. unfold passes.
  assert ((match (if Rle_dec distance 0 then uncertainty true (unproject (grid_x W gw i, grid_x H gh j))
                  else uncertainty false (vscale distance (unproject (grid_x W gw i, grid_x H gh j)))) with
           | Some u => u | None => 1000000000 end < t_uncertainty t) <-> uncertainty_below W H gw gh i j distance (t_uncertainty t)) as ->.
  { unfold uncertainty_below. cbv zeta. destruct (Rle_dec distance 0) as [D|D].
    - destruct (uncertainty true (unproject (grid_x W gw i, grid_x H gh j))) as [u|] eqn:U.
      + split; [intro L; exists u; split; [exact L|left; now split]|]. intros (u' & L & [[_ Eu]|[D' _]]); [|lra]. congruence.
      + split; [intro; lra|]. intros (u' & L & [[_ Eu]|[D' _]]); [discriminate|lra].
    - unfold vscale. match goal with |- context [uncertainty false ?p] => destruct (uncertainty false p) as [u|] eqn:U end.
      + split; [intro L; exists u; split; [exact L|right; split; [lra|reflexivity]]|]. intros (u' & L & [[D' _]|[_ Eu]]); [lra|]. congruence.
      + split; [intro; lra|]. intros (u' & L & [[D' _]|[_ Eu]]); [lra|discriminate]. }
  split; intros [A B]; (split; [exact A|]); destruct B as [B|B]; try (left; exact B); right.
  - exists es, m, s. tauto.
  - destruct B as (es' & m' & s' & G' & M' & B). assert (es' = es) by (now apply (gathered_fun _ _ _ G')). subst es'.
    assert (m' = m /\ s' = s) as [-> ->]; [|tauto].
    unfold mean_stdev in M, M'. destruct (Nat.leb (length es) 5) eqn:L; [split; destruct M, M'; congruence|].
    apply PeanoNat.Nat.leb_gt in L. assert (0 < INR (length es)) as Np by (apply lt_0_INR; lia).
    destruct M as (M1 & M2 & M3), M' as (M1' & M2' & M3'). assert (m' = m) as -> by (apply Rmult_eq_reg_l with (INR (length es)); lra).
    split; [reflexivity|]. assert (s' * s' = s * s) as Q by (apply Rmult_eq_reg_l with (INR (length es)); lra). nra.
Qed.

(** *** The region.  Of findContours() it's used that it reports points of the image that are set *)
Definition contours_ok (gw gh : Z) := forall m c p, In c (find_contours gw m) -> In p c ->
  (0 <= fst p < gw)%Z /\ (0 <= snd p < gh)%Z /\ nth_error m (Z.to_nat (snd p * gw + fst p)) = Some true.

Lemma last_any : forall A (l : list A) a d d', last (a :: l) d = last (a :: l) d'.
Proof. induction l as [|b l IH]; intros a d d'; [reflexivity|]. exact (IH b d d'). Qed.
Lemma close_contour_spec : forall c p d, In p (close_contour c) -> In p c /\ hd d (close_contour c) = last (close_contour c) d.
Proof.
  intros [|a c] p d Ip; [destruct Ip|]. cbn [close_contour] in *. set (c0 := a :: c) in *.
  destruct (Z.eqb (fst a) (fst (last c0 a)) && Z.eqb (snd a) (snd (last c0 a))) eqn:E.
  - split; [exact Ip|]. apply andb_true_iff in E. destruct E as [E1 E2]. apply Z.eqb_eq in E1, E2.
    rewrite (last_any _ c a d a : last c0 d = last c0 a).
    cbn [hd c0]. destruct a as [a1 a2], (last c0 (a1, a2)) as [l1 l2]. cbn [fst snd] in *. congruence.
  - split; [apply in_app_or in Ip; destruct Ip as [Ip|[<- |[]]]; [exact Ip|now left]|]. now rewrite last_last.
Qed.
Lemma scaled : forall W gw i, (1 <= W)%Z -> (2 <= gw)%Z -> (0 <= i < gw)%Z -> 0 <= grid_x W gw i <= IZR (W - 1).
Proof.
  intros W gw i Hw Hg Hi. unfold grid_x. assert (0 <= IZR (W - 1)) by (apply IZR_le; lia). assert (0 < IZR (gw - 1)) by (apply IZR_lt; lia).
  assert (0 <= IZR i) by (apply IZR_le; lia). assert (IZR i <= IZR (gw - 1)) by (apply IZR_le; lia).
  assert (0 <= IZR (W - 1) / IZR (gw - 1)) by (apply Rmult_le_pos; [lra|left; now apply Rinv_0_lt_compat]).
  split; [now apply Rmult_le_pos|].
  apply Rle_trans with (IZR (gw - 1) * (IZR (W - 1) / IZR (gw - 1))); [now apply Rmult_le_compat_r|right; field; lra].
Qed.
Lemma rint_range : forall x n, 0 <= x <= IZR n -> (0 <= rint x <= n)%Z.
Proof.
  intros x n Hx. pose proof (rint_err x) as E. unfold Rabs in E; destruct (Rcase_abs _) in E.
  all: assert (-1 < IZR (rint x)) as A by lra; assert (IZR (rint x) < IZR (n + 1)) as B by (rewrite plus_IZR; lra).
  all: apply lt_IZR in A, B; lia.
Qed.

(** the region is empty, or it is a closed contour with at least 4 points, of pixels of the imager; each within half a pixel of
    a point of the grid whose cell passes; it is a contour with the largest area,
    point by point *)
Theorem C92_region : forall W H gw gh icam l splined t distance, let n := grid_height gh gw W H in
  t_uncertainty t <= 1000000000 -> (1 <= W)%Z -> (1 <= H)%Z -> (2 <= gw)%Z -> (2 <= n)%Z -> contours_ok gw n ->
  let r := valid_region unproject uncertainty find_contours contour_area W H gw gh icam l splined t distance in
  r = [] \/
  ((4 <= length r)%nat /\ hd (0, 0)%Z r = last r (0, 0)%Z /\
   (forall p, In p r -> (0 <= fst p <= W - 1)%Z /\ (0 <= snd p <= H - 1)%Z /\
      exists i j, (0 <= i < gw)%Z /\ (0 <= j < n)%Z /\ passes W H gw n icam l splined t distance i j /\
        Rabs (IZR (fst p) - grid_x W gw i) <= 1 / 2 /\ Rabs (IZR (snd p) - grid_x H n j) <= 1 / 2) /\
   exists cs c, cs = find_contours gw (mask unproject uncertainty W H gw n icam l splined t distance) /\ In c cs /\
     (forall c', In c' cs -> contour_area c' <= contour_area c) /\ (length c <= length r <= length c + 1)%nat /\
     forall k, (k < length c)%nat ->
       Rabs (IZR (fst (nth k r (0, 0)%Z)) - grid_x W gw (fst (nth k c (0, 0)%Z))) <= 1 / 2 /\
       Rabs (IZR (snd (nth k r (0, 0)%Z)) - grid_x H n (snd (nth k c (0, 0)%Z))) <= 1 / 2).
Proof.
  intros W H gw gh icam l splined t distance n T Hw Hh Hg Hn Ok r. unfold r, valid_region. fold n. set (mk := mask _ _ _ _ _ _ _ _ _ _ _).
  unfold region_of_mask. destruct (find_contours gw mk) as [|c0 rest] eqn:F; [now left|]. set (cs := c0 :: rest) in *.
  set (k := arg_opt _ _). set (c := nth k cs []). destruct (Nat.ltb (length (close_contour c)) 4) eqn:L; [now left|right].
  apply PeanoNat.Nat.ltb_ge in L.
  assert ((k < length cs)%nat /\ forall x, (x < length cs)%nat -> contour_area (nth x cs []) <= contour_area c) as [Lk Mk].
  { destruct (arg_opt_spec CCOEFF (map contour_area cs)) as [A B]; [discriminate|]. rewrite map_length in A, B. change (arg_opt (better CCOEFF) (map contour_area cs)) with k in A, B.
    split; [exact A|]. intros x Lx. specialize (B x Lx). unfold no_better, smaller_is_better in B.
    rewrite (nth_indep _ 0 (contour_area [])), map_nth in B by (rewrite map_length; exact Lx).
    rewrite (nth_indep _ 0 (contour_area []) (n := k)), map_nth in B by (rewrite map_length; exact A). exact B. }
  assert (In c cs) as Ic by (apply nth_In; exact Lk).
  split; [now rewrite map_length|]. split.
  { destruct (close_contour c) as [|a m] eqn:Ec; [cbn in L; lia|].
    destruct (close_contour_spec c a (0, 0)%Z) as [_ E]; [rewrite Ec; now left|]. rewrite Ec in E. set (f := fun p : Z * Z => _).
    assert (forall (q : list (Z * Z)) x, last (map f (x :: q)) (0, 0)%Z = f (last (x :: q) (0, 0)%Z)) as Lm.
    { induction q as [|y q IH]; intros x; [reflexivity|]. exact (IH y). }
    rewrite Lm, <- E. reflexivity. }
  split.
  - intros p Ip. apply in_map_iff in Ip. destruct Ip as ([i j] & <- & Iq). cbn [fst snd].
    destruct (close_contour_spec c (i, j) (0, 0)%Z Iq) as [Iq' _].
    destruct (Ok mk c (i, j)) as (Hi & Hj & Mt); [rewrite F; exact Ic|exact Iq'|]. cbn [fst snd] in Hi, Hj, Mt.
    split; [apply rint_range, (scaled W gw i); assumption|]. split; [apply rint_range, (scaled H n j); assumption|].
    exists i, j. split; [exact Hi|]. split; [exact Hj|]. split; [|split; apply rint_err].
    destruct (C92_mask W H gw n icam l splined t distance i j T Hi Hj) as (b & Eb & Pb). apply Pb. fold mk in Eb. congruence.
  - exists cs, c. split; [reflexivity|]. split; [exact Ic|]. split.
    + intros c' Ic'. destruct (In_nth cs c' [] Ic') as (x & Lx & <-). now apply Mk.
    + assert ((length c <= length (close_contour c) <= length c + 1)%nat /\ forall k, (k < length c)%nat -> nth k (close_contour c) (0, 0)%Z = nth k c (0, 0)%Z) as [Lc Nc].
      { destruct c as [|a m]; [split; [cbn; lia|reflexivity]|]. cbn [close_contour]. destruct (_ && _); [split; [lia|reflexivity]|].
        split; [rewrite app_length; cbn [length]; lia|]. intros x Lx. now apply app_nth1. }
      rewrite map_length. split; [exact Lc|]. intros x Lx.
      match goal with |- context [nth x (map ?f ?q) ?d] => replace (nth x (map f q) d) with (f (nth x q (0, 0)%Z)) by (symmetry; rewrite (nth_indep _ d (f (0, 0)%Z)) by (rewrite map_length; lia); apply (map_nth f)) end.
      rewrite Nc by exact Lx. cbn [fst snd]. split; apply rint_err.
Qed.
End Region.
Print Assumptions C92_mask.
Print Assumptions C92_region.

(** *** The region is one that a camera model object accepts, as it is: M_CamObj has cameramodel.valid_intrinsics_region().
    (false: no exception) *)
Definition as_num (p : Z * Z) : M_CamObj.num * M_CamObj.num := (M_CamObj.Fin (QArith_base.inject_Z (fst p)), M_CamObj.Fin (QArith_base.inject_Z (snd p))).
Lemma same_dist : forall p, exists q, M_CamObj.dist2 (as_num p) (as_num p) = Some q /\ QArith_base.Qeq q (QArith_base.inject_Z 0).
Proof.
  intros [x y]. eexists. split; [reflexivity|]. cbn [fst snd]. unfold QArith_base.Qeq. cbn. ring.
Qed.
Theorem C92_accepted : forall unproject uncertainty find_contours contour_area W H gw gh icam l splined t distance, let n := grid_height gh gw W H in
  t_uncertainty t <= 1000000000 -> (1 <= W)%Z -> (1 <= H)%Z -> (2 <= gw)%Z -> (2 <= n)%Z -> contours_ok find_contours gw n ->
  let r := map as_num (valid_region unproject uncertainty find_contours contour_area W H gw gh icam l splined t distance) in
  forall o, M_CamObj.set_region o r = (M_CamObj.Obj (M_CamObj.o_lens o) (M_CamObj.o_intr o) (M_CamObj.o_size o) (M_CamObj.o_rt o) (Some r)
                                        (M_CamObj.o_opt o) (M_CamObj.o_icam_i o) (M_CamObj.o_icam_e o), false).
Proof.
  intros u un fc ca W H gw gh icam l splined t distance n T Hw Hh Hg Hn Ok r o.
  pose proof (C92_region u un fc ca W H gw gh icam l splined t distance T Hw Hh Hg Hn Ok) as P. cbv zeta in P.
  unfold r. set (z := valid_region u un fc ca W H gw gh icam l splined t distance) in *. clearbody z.
  assert (M_CamObj.close_contour (map as_num z) = map as_num z /\ M_CamObj.valid_region (map as_num z) = true) as [A B].
  { destruct P as [-> |(L & E & _)]; [split; reflexivity|]. destruct z as [|a m]; [cbn in L; lia|].
    assert (last (map as_num (a :: m)) (as_num a) = as_num a) as La.
    { cbn [hd] in E. rewrite (last_any _ m a (0, 0)%Z a) in E.
      assert (forall (q : list (Z * Z)) x d, last (map as_num (x :: q)) (as_num d) = as_num (last (x :: q) d)) as Lm.
      { induction q as [|y q IH]; intros x d; [reflexivity|]. exact (IH y d). }
      rewrite Lm, <- E. reflexivity. }
    destruct (same_dist a) as (q & Dq & Eq). split.
    - unfold M_CamObj.close_contour. cbn [map] in *. rewrite La. unfold M_CamObj.near. rewrite Dq.
      destruct (QArith_base.Qle_bool _ q) eqn:Q; [|reflexivity]. apply QArith_base.Qle_bool_iff in Q. rewrite Eq in Q. unfold QArith_base.Qle in Q. cbn in Q. lia.
    - unfold M_CamObj.valid_region. cbn [map] in *. rewrite La. unfold M_CamObj.far. rewrite Dq.
      apply andb_true_iff. split; [apply Z.leb_le; cbn [length] in *; rewrite map_length; lia|]. rewrite negb_involutive.
      apply QArith_base.Qle_bool_iff. rewrite Eq. unfold QArith_base.Qle. cbn. lia. }
  unfold M_CamObj.set_region. rewrite A, B. reflexivity.
Qed.
Print Assumptions C92_accepted.

(** *** What the thresholds don't see.  The example: an imager of 3x3 pixels, one cell per pixel; the default thresholds on the
    mean and on the count *)
Definition ex_unproject (q : pixel) : v3 := V3 0 0 1.
Definition ex_uncertainty (atinfinity : bool) (p : v3) : option R := Some 0.
Definition ex_thresholds := Thresholds 1 (1/2) (3/2) 3.
Definition ex_biased : list corner := repeat (Corner 0 (1, 1) 1 (-100, -100)) 3.
Definition ex_few : list corner := repeat (Corner 0 (1, 1) 1 (1000, -1000)) 2.

Lemma ex_in_cell : forall e, in_cell 3 3 3 3 1 1 0 (Corner 0 (1, 1) 1 e).
Proof.
  intro e. unfold in_cell, grid_x. cbn [c_cam c_weight c_q fst snd]. change (IZR (3 - 1)) with 2.
  replace (1 - 1 * (2 / 2)) with 0 by field. rewrite Rabs_R0. repeat split; lra.
Qed.
Lemma ex_below : uncertainty_below ex_unproject ex_uncertainty 3 3 3 3 1 1 0 1.
Proof. exists 0. split; [lra|]. left. split; [lra|reflexivity]. Qed.
Lemma biased_es : gathered (in_cell 3 3 3 3 1 1 0) ex_biased [-100; -100; -100; -100; -100; -100].
Proof. unfold ex_biased. cbn [repeat]. repeat (apply (g_in _ (Corner 0 (1, 1) 1 (-100, -100))); [apply ex_in_cell|]). constructor. Qed.
Lemma biased_stats : mean_stdev [-100; -100; -100; -100; -100; -100] (-100) 0.
Proof.
  unfold mean_stdev. cbn [length Nat.leb]. replace (INR 6) with 6 by (cbn; lra). cbn [map total]. repeat split; lra.
Qed.

(** a cell where all residuals are -100 pixels passes: only the upper bound of the mean is checked *)
Theorem C92_bias_refuted : exists unproject uncertainty W H gw gh icam l t distance i j es m s,
  t_uncertainty t <= 1000000000 /\ 0 < t_mean t /\ (0 <= i < gw)%Z /\ (0 <= j < gh)%Z /\
  gathered (in_cell W H gw gh i j icam) l es /\ mean_stdev es m s /\ (5 < length es)%nat /\ 100 * t_mean t < Rabs m /\
  nth_error (mask unproject uncertainty W H gw gh icam l false t distance) (Z.to_nat (j * gw + i)) = Some true.
Proof.
  exists ex_unproject, ex_uncertainty, 3%Z, 3%Z, 3%Z, 3%Z, 0%Z, ex_biased, ex_thresholds, 0, 1%Z, 1%Z, [-100; -100; -100; -100; -100; -100], (-100), 0.
  split; [cbn [ex_thresholds t_uncertainty]; lra|]. split; [cbn [ex_thresholds t_mean]; lra|]. split; [lia|]. split; [lia|].
  split; [exact biased_es|]. split; [exact biased_stats|]. split; [cbn; lia|].
  split; [cbn [ex_thresholds t_mean]; rewrite Rabs_left by lra; lra|].
  destruct (C92_mask ex_unproject ex_uncertainty 3 3 3 3 0 ex_biased false ex_thresholds 0 1 1) as (b & Eb & Pb);
    [cbn [ex_thresholds t_uncertainty]; lra|lia|lia|].
  rewrite Eb. f_equal. apply Pb. split; [exact ex_below|right].
  exists [-100; -100; -100; -100; -100; -100], (-100), 0. split; [exact biased_es|]. split; [exact biased_stats|].
  cbn [ex_thresholds t_mean t_stdev t_count length]. replace (INR 6) with 6 by (cbn; lra). lra.
Qed.
Print Assumptions C92_bias_refuted.

(** a cell with 2 observations, of 1000 pixels, passes, with the threshold of 3 observations: the count is of residuals, two for
    each observation; and with 5 or fewer of those the mean and the standard deviation are taken as 0 *)
Theorem C92_few_refuted : exists unproject uncertainty W H gw gh icam l t distance i j es,
  t_uncertainty t <= 1000000000 /\ (0 <= i < gw)%Z /\ (0 <= j < gh)%Z /\
  gathered (in_cell W H gw gh i j icam) l es /\ INR (length l) < t_count t /\ (forall e, In e es -> 100 * t_stdev t < Rabs e) /\
  nth_error (mask unproject uncertainty W H gw gh icam l false t distance) (Z.to_nat (j * gw + i)) = Some true.
Proof.
  assert (gathered (in_cell 3 3 3 3 1 1 0) ex_few [1000; -1000; 1000; -1000]) as G.
  { unfold ex_few. cbn [repeat]. repeat (apply (g_in _ (Corner 0 (1, 1) 1 (1000, -1000))); [apply ex_in_cell|]). constructor. }
  exists ex_unproject, ex_uncertainty, 3%Z, 3%Z, 3%Z, 3%Z, 0%Z, ex_few, ex_thresholds, 0, 1%Z, 1%Z, [1000; -1000; 1000; -1000].
  split; [cbn [ex_thresholds t_uncertainty]; lra|]. split; [lia|]. split; [lia|]. split; [exact G|].
  split; [cbn; lra|]. split.
  { cbn [ex_thresholds t_stdev]. intros e Ie. repeat destruct Ie as [<- |Ie]; try contradiction; unfold Rabs; destruct (Rcase_abs _); lra. }
  destruct (C92_mask ex_unproject ex_uncertainty 3 3 3 3 0 ex_few false ex_thresholds 0 1 1) as (b & Eb & Pb);
    [cbn [ex_thresholds t_uncertainty]; lra|lia|lia|].
  rewrite Eb. f_equal. apply Pb. split; [exact ex_below|right].
  exists [1000; -1000; 1000; -1000], 0, 0. split; [exact G|]. split; [split; reflexivity|].
  cbn [ex_thresholds t_mean t_stdev t_count length]. replace (INR 4) with 4 by (cbn; lra). lra.
Qed.
Print Assumptions C92_few_refuted.

(** *** Example for C92_region: with a splined model every cell passes; the contour is the outer one *)
Definition all_set (gw : Z) (m : list bool) : bool := Z.eqb gw 3 && Nat.eqb (length m) 9 && forallb (fun b => b) m.
Definition ex_contours (gw : Z) (m : list bool) : list (list (Z * Z)) :=
  if all_set gw m then [[(0, 0); (0, 2); (2, 2); (2, 0)]%Z] else [].
Example C92_example : contours_ok ex_contours 3 3 /\
  valid_region ex_unproject ex_uncertainty ex_contours (fun _ => 4) 3 3 3 (Some 3%Z) 0 [] true ex_thresholds 0 = [(0, 0); (0, 2); (2, 2); (2, 0); (0, 0)]%Z.
Proof.
  split.
  - intros m c p Ic Ip. unfold ex_contours in Ic. destruct (all_set 3 m) eqn:E; [|destruct Ic]. destruct Ic as [<- |[]].
    unfold all_set in E. apply andb_true_iff in E. destruct E as [E F]. apply andb_true_iff in E. destruct E as [_ E].
    apply PeanoNat.Nat.eqb_eq in E.
    assert (forall k, (k < 9)%nat -> nth_error m k = Some true) as N.
    { intros k Lk. rewrite (nth_error_nth' m true) by lia. f_equal. rewrite forallb_forall in F. apply F, nth_In. lia. }
    repeat destruct Ip as [<- |Ip]; try contradiction; cbn [fst snd]; (split; [lia|]); (split; [lia|]); apply N; cbn; lia.
  - unfold valid_region, grid_height. unfold region_of_mask. set (mk := mask _ _ _ _ _ _ _ _ _ _ _).
    assert (mk = repeat true 9) as ->.
    { apply nth_ext with (d := true) (d' := true); [reflexivity|]. intros k Lk. change (length mk) with 9%nat in Lk.
      assert (exists i j, (0 <= i < 3)%Z /\ (0 <= j < 3)%Z /\ k = Z.to_nat (j * 3 + i)) as (i & j & Hi & Hj & ->).
      { exists (Z.of_nat k mod 3)%Z, (Z.of_nat k / 3)%Z. pose proof (Z.mod_pos_bound (Z.of_nat k) 3).
        pose proof (Z.div_mod (Z.of_nat k) 3). split; [lia|]. split; lia. }
      destruct (C92_mask ex_unproject ex_uncertainty 3 3 3 3 0 [] true ex_thresholds 0 i j) as (b & Eb & Pb); [cbn [ex_thresholds t_uncertainty]; lra|exact Hi|exact Hj|].
      fold mk in Eb. rewrite (nth_error_nth _ _ true Eb). rewrite (proj2 Pb).
      - symmetry. apply (repeat_spec 9 true). apply nth_In. cbn [repeat length]. lia.
      - split; [|now left]. exists 0. split; [cbn [ex_thresholds t_uncertainty]; lra|]. left. split; [lra|reflexivity]. }
    change (ex_contours 3 (repeat true 9)) with [[(0, 0); (0, 2); (2, 2); (2, 0)]%Z].
    cbn [map arg_opt arg_from nth]. unfold close_contour. cbn [last fst snd]. change ((0 =? 2)%Z && (0 =? 0)%Z)%bool with false. cbn iota.
    cbn [app length Nat.ltb Nat.leb map fst snd]. change (IZR (3 - 1)) with 2.
    replace (0 * (2 / 2)) with (IZR 0) by field. replace (2 * (2 / 2)) with (IZR 2) by field. now rewrite !rint_IZR.
Qed.
