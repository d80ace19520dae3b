(** C55: the 16-bit to 8-bit stretch. *)
From Coq Require Import ZArith List Bool Lia ZifyBool Reals Lra.
From Flocq Require Import Core BinarySingleNaN.
From Verif Require Import M_Image.
Import ListNotations.
Open Scope Z_scope.

(** ** specification: plain facts about the list of all the pixels *)
Definition pixels (rows : list (list Z)) : list Z := concat rows.
Definition is_u16 (x : Z) : Prop := 0 <= x <= 65535.
Definition is_min (m : Z) (l : list Z) : Prop := In m l /\ forall x, In x l -> m <= x.
Definition is_max (m : Z) (l : list Z) : Prop := In m l /\ forall x, In x l -> x <= m.

(** ** the scan *)
Lemma minmax_flat : forall rows, minmax rows = fold_left minmax_step (pixels rows) (UINT16_MAX, 0).
Proof.
  intro rows. unfold minmax, pixels. generalize (UINT16_MAX, 0). induction rows as [|r rs IH]; intro s; cbn; [easy|].
  rewrite fold_left_app. apply IH.
Qed.

Lemma step_min : forall mn mx y, fst (minmax_step (mn, mx) y) = Z.min mn y.
Proof.
  intros. unfold minmax_step. destruct (Z.ltb_spec y mn); cbn; [lia|].
  destruct (y >? mx); cbn; lia.
Qed.
Lemma scan_min : forall l s,
  let mn' := fst (fold_left minmax_step l s) in
  mn' <= fst s /\ (forall x, In x l -> mn' <= x) /\ (mn' = fst s \/ In mn' l).
Proof.
  induction l as [|y l IH]; intros s; cbn -[minmax_step].
  { split; [lia|split; [easy|now left]]. }
  specialize (IH (minmax_step s y)). cbn -[minmax_step] in IH.
  destruct s as [mn mx]. rewrite step_min in IH. cbn [fst].
  destruct IH as (A & B & C). split; [lia|]. split.
  - intros x [->|H]; [lia|auto].
  - destruct C as [C|C]; [|now right; right]. rewrite C. destruct (Z.min_spec mn y) as [(_ & ->)|(_ & ->)]; auto.
Qed.

(** once the running minimum is at most some seen pixel, the maximum is tracked properly *)
Lemma scan_max_le : forall l s M, (forall x, In x l -> x <= M) -> snd s <= M -> snd (fold_left minmax_step l s) <= M.
Proof.
  induction l as [|y l IH]; intros [mn mx] M H HM; cbn -[minmax_step]; [easy|].
  apply IH; [intros; apply H; now right|].
  unfold minmax_step. destruct (y <? mn); cbn; [easy|]. destruct (y >? mx); cbn; [apply H; now left|easy].
Qed.
Lemma scan_max_mono : forall l s, snd s <= snd (fold_left minmax_step l s).
Proof.
  induction l as [|y l IH]; intros [mn mx]; cbn -[minmax_step]; [lia|].
  etransitivity; [|apply IH]. unfold minmax_step. destruct (y <? mn); cbn; [lia|]. destruct (y >? mx) eqn:E; cbn; lia.
Qed.
Lemma scan_max_hit : forall l s M, In M l -> fst s <= M -> M <= snd (fold_left minmax_step l s).
Proof.
  induction l as [|y l IH]; intros [mn mx] M H HM; cbn -[minmax_step]; [easy|].
  destruct (Z.eq_dec y M) as [->|N].
  - etransitivity; [|apply scan_max_mono]. unfold minmax_step. cbn in HM. replace (M <? mn) with false by lia.
    destruct (M >? mx) eqn:E; cbn; lia.
  - destruct H as [H|H]; [easy|]. apply IH; [easy|]. rewrite step_min. cbn in HM. lia.
Qed.

(** the scan finds the minimum, and it finds the maximum if that appears
    anywhere other than as the very first pixel only *)
Lemma minmax_min : forall rows m, Forall is_u16 (pixels rows) -> is_min m (pixels rows) -> fst (minmax rows) = m.
Proof.
  intros rows m U (I & L). rewrite minmax_flat. destruct (scan_min (pixels rows) (UINT16_MAX, 0)) as (A & B & C).
  cbn [fst] in *. rewrite Forall_forall in U. specialize (U m I). unfold is_u16, UINT16_MAX in *.
  specialize (B m I). destruct C as [C|C]; [lia|]. specialize (L _ C). lia.
Qed.
Lemma minmax_max : forall rows M p rest, pixels rows = p :: rest -> Forall is_u16 (pixels rows) ->
  is_max M (pixels rows) -> In M rest \/ p = 65535 -> snd (minmax rows) = M.
Proof.
  intros rows M p rest E U (I & L) H. rewrite minmax_flat. rewrite Forall_forall in U. pose proof (U M I) as UM. unfold is_u16 in UM.
  assert (snd (fold_left minmax_step (pixels rows) (UINT16_MAX, 0)) <= M) by (apply scan_max_le; cbn; [auto|lia]).
  enough (M <= snd (fold_left minmax_step (pixels rows) (UINT16_MAX, 0))) by lia.
  rewrite E in *. destruct H as [H| ->].
  - cbn -[minmax_step]. apply scan_max_hit; [easy|]. rewrite step_min. specialize (L p (or_introl eq_refl)). lia.
  - apply scan_max_hit; [easy|]. cbn. specialize (L 65535 (or_introl eq_refl)). unfold UINT16_MAX. lia.
Qed.

(** ** the arithmetic *)
Local Notation fexp := (SpecFloat.fexp sprec semax).
Local Notation rnd := (round radix2 fexp (round_mode mode_NE)).
#[local] Instance vexp : Valid_exp fexp := BinarySingleNaN.fexp_correct sprec semax _.

Open Scope R_scope.
Lemma int_exact : forall k, (Z.abs k <= 16777216)%Z -> rnd (IZR k) = IZR k.
Proof.
  intros k H. apply round_generic; [apply valid_rnd_N|].
  replace fexp with (FLT_exp (3 - semax - sprec) sprec) by reflexivity.
  apply generic_format_FLT. 
  destruct (Z.eq_dec (Z.abs k) 16777216) as [E|N].
  - exists (Float radix2 (Z.sgn k) 24); cbn; try lia.
    + unfold F2R. cbn [Fnum Fexp]. rewrite <- (IZR_Zpower radix2 24) by lia. rewrite <- mult_IZR. f_equal.
      change (Zpower radix2 24) with 16777216%Z. lia.
  - exists (Float radix2 k 0); cbn; try lia. unfold F2R. cbn. lra.
Qed.
Lemma rnd_bounds : forall x a b, (Z.abs a <= 16777216)%Z -> (Z.abs b <= 16777216)%Z -> IZR a <= x <= IZR b -> IZR a <= rnd x <= IZR b.
Proof.
  intros x a b Ha Hb H. split.
  - rewrite <- (int_exact a Ha). apply round_le; [apply vexp|apply valid_rnd_N|apply H].
  - rewrite <- (int_exact b Hb). apply round_le; [apply vexp|apply valid_rnd_N|apply H].
Qed.
Lemma small_ok : forall x, Rabs x <= 16777216 -> Rlt_bool (Rabs x) (bpow radix2 semax) = true.
Proof.
  intros x H. apply Rlt_bool_true. apply Rle_lt_trans with (1 := H).
  rewrite <- (IZR_Zpower radix2 semax) by (unfold semax; lia). apply IZR_lt. reflexivity.
Qed.
Lemma f_ofZ_spec : forall k, (Z.abs k <= 16777216)%Z -> B2R (f_ofZ k) = IZR k /\ is_finite (f_ofZ k) = true.
Proof.
  intros k H. unfold f_ofZ.
  pose proof (binary_normalize_correct sprec semax _ _ mode_NE k 0 false) as C. cbv zeta in C.
  assert (E : F2R (Float radix2 k 0) = IZR k) by (unfold F2R; cbn; lra).
  rewrite E, int_exact in C by easy. rewrite small_ok in C.
  - tauto.
  - rewrite <- abs_IZR. now apply IZR_le.
Qed.
Lemma half_exact : rnd (/2) = /2.
Proof.
  apply round_generic; [apply valid_rnd_N|].
  replace fexp with (FLT_exp (3 - semax - sprec) sprec) by reflexivity.
  apply generic_format_FLT. exists (Float radix2 1 (-1)); cbn; try lia; try (unfold semax, sprec; lia). unfold F2R. cbn. lra.
Qed.
Lemma f_half_spec : B2R f_half = /2 /\ is_finite f_half = true.
Proof.
  unfold f_half.
  pose proof (binary_normalize_correct sprec semax _ _ mode_NE 1 (-1) false) as C. cbv zeta in C.
  assert (E : F2R (Float radix2 1 (-1)) = /2) by (unfold F2R; cbn; lra).
  rewrite E, half_exact, small_ok in C; [tauto|]. rewrite Rabs_pos_eq; lra.
Qed.

(** what one pixel becomes *)
Definition stretched (a b : Z) : R := rnd (/2 + rnd (IZR (a * 255) / IZR b)).
Lemma stretch_value : forall a b, (0 <= a <= 65535)%Z -> (0 < b <= 65535)%Z ->
  let f := f_add f_half (f_div (f_mul (f_ofZ a) (f_ofZ 255)) (f_ofZ b)) in
  is_finite f = true /\ B2R f = stretched a b.
Proof.
  intros a b Ha Hb.
  destruct (f_ofZ_spec a ltac:(lia)) as (A & FA). destruct (f_ofZ_spec 255 ltac:(lia)) as (K & FK).
  destruct (f_ofZ_spec b ltac:(lia)) as (B & FB). destruct f_half_spec as (HH & FH).
  assert (P : 0 <= IZR (a * 255) <= 16711425) by (split; apply IZR_le; lia).
  assert (Pb : 1 <= IZR b) by (apply IZR_le; lia).
  assert (Q : 0 <= IZR (a * 255) / IZR b <= 16711425).
  { split; [apply Rmult_le_pos; [lra|apply Rlt_le, Rinv_0_lt_compat; lra]|].
    apply Rmult_le_reg_r with (IZR b); [lra|]. unfold Rdiv. rewrite Rmult_assoc, Rinv_l, Rmult_1_r by lra. nra. }
  (* product *)
  assert (M : B2R (f_mul (f_ofZ a) (f_ofZ 255)) = IZR (a * 255) /\ is_finite (f_mul (f_ofZ a) (f_ofZ 255)) = true).
  { unfold f_mul. pose proof (Bmult_correct sprec semax _ _ mode_NE (f_ofZ a) (f_ofZ 255)) as C.
    rewrite A, K, FA, FK, <- mult_IZR, int_exact in C by lia. rewrite small_ok in C; [tauto|]. rewrite Rabs_pos_eq; lra. }
  destruct M as (M & FM).
  (* quotient *)
  pose proof (rnd_bounds (IZR (a * 255) / IZR b) 0 16711425 ltac:(lia) ltac:(lia) Q) as QR.
  assert (D : B2R (f_div (f_mul (f_ofZ a) (f_ofZ 255)) (f_ofZ b)) = rnd (IZR (a * 255) / IZR b)
           /\ is_finite (f_div (f_mul (f_ofZ a) (f_ofZ 255)) (f_ofZ b)) = true).
  { unfold f_div. pose proof (Bdiv_correct sprec semax _ _ mode_NE (f_mul (f_ofZ a) (f_ofZ 255)) (f_ofZ b)) as C.
    rewrite B in C. specialize (C ltac:(lra)). rewrite M, FM, small_ok in C; [tauto|]. rewrite Rabs_pos_eq; lra. }
  destruct D as (D & FD).
  cbv zeta. unfold f_add. pose proof (Bplus_correct sprec semax _ _ mode_NE f_half _ FH FD) as C.
  rewrite HH, D in C. unfold stretched.
  pose proof (rnd_bounds (/2 + rnd (IZR (a * 255) / IZR b)) 0 16711426 ltac:(lia) ltac:(lia) ltac:(lra)) as SR.
  rewrite small_ok in C; [tauto|]. rewrite Rabs_pos_eq; lra.
Qed.

Lemma trunc_val : forall (x : float32), 0 <= B2R x -> Btrunc x = Zfloor (B2R x).
Proof.
  intros x H. apply eq_IZR. rewrite (Btrunc_correct sprec semax). rewrite round_FIX_IZR. f_equal. now apply Ztrunc_floor.
  reflexivity.
Qed.

#[local] Instance mexp : Monotone_exp fexp.
Proof. replace fexp with (FLT_exp (3 - semax - sprec) sprec) by reflexivity. apply FLT_exp_monotone. Qed.

Lemma rnd_err : forall x, 0 <= x <= 256 -> Rabs (rnd x - x) <= bpow radix2 (-16).
Proof.
  intros x H.
  pose proof (error_le_half_ulp radix2 fexp (fun k => negb (Z.even k)) x) as E.
  assert (U : ulp radix2 fexp x <= ulp radix2 fexp (bpow radix2 8)).
  { apply ulp_le; [apply vexp|apply mexp|]. rewrite !Rabs_pos_eq; [|apply bpow_ge_0|lra]. cbn. lra. }
  rewrite ulp_bpow in U. change (fexp (8 + 1)) with (-15)%Z in U.
  change (bpow radix2 (-16)) with (/ 65536). change (bpow radix2 (-15)) with (/ 32768) in U. 
  change (round_mode mode_NE) with ZnearestE. unfold ZnearestE in *. lra.
Qed.

Lemma stretched_mono : forall a a' b, (0 < b)%Z -> (a <= a')%Z -> stretched a b <= stretched a' b.
Proof.
  intros a a' b Hb H. unfold stretched. apply round_le; [apply vexp|apply valid_rnd_N|]. apply Rplus_le_compat_l.
  apply round_le; [apply vexp|apply valid_rnd_N|]. unfold Rdiv. apply Rmult_le_compat_r.
  - apply Rlt_le, Rinv_0_lt_compat. now apply IZR_lt.
  - apply IZR_le. lia.
Qed.
Lemma stretched_0 : forall b, stretched 0 b = /2.
Proof.
  intro b. unfold stretched. change (0 * 255)%Z with 0%Z. unfold Rdiv. rewrite Rmult_0_l, (int_exact 0) by lia.
  rewrite Rplus_0_r. apply half_exact.
Qed.
Lemma stretched_full : forall b, (0 < b)%Z -> stretched b b = 255 + /2.
Proof.
  intros b Hb. unfold stretched. rewrite mult_IZR. assert (0 < IZR b) by now apply IZR_lt.
  replace (IZR b * 255 / IZR b) with 255 by (field; lra). rewrite (int_exact 255) by lia.
  replace (/2 + 255) with (255 + /2) by lra. apply round_generic; [apply valid_rnd_N|].
  replace fexp with (FLT_exp (3 - semax - sprec) sprec) by reflexivity.
  apply generic_format_FLT. exists (Float radix2 511 (-1)); cbn; try lia; try (unfold semax, sprec; lia).
  unfold F2R. cbn. lra.
Qed.

Lemma pixel_spec : forall mn b x, (0 < b <= 65535)%Z -> (0 <= x - mn <= b)%Z ->
  exists y, stretch_pixel mn b x = Some y /\ y = Zfloor (stretched (x - mn) b) /\ (0 <= y <= 255)%Z.
Proof.
  intros mn b x Hb Hx. destruct (stretch_value (x - mn) b ltac:(lia) Hb) as (F & V). cbv zeta in F, V.
  pose proof (stretched_mono 0 (x - mn) b ltac:(lia) ltac:(lia)) as L. rewrite stretched_0 in L.
  pose proof (stretched_mono (x - mn) b b ltac:(lia) ltac:(lia)) as U. rewrite stretched_full in U by lia.
  exists (Zfloor (stretched (x - mn) b)). unfold stretch_pixel, f_to_u8. rewrite F, trunc_val, V by (rewrite V; lra).
  assert (0 <= Zfloor (stretched (x - mn) b))%Z by (apply Zfloor_lub; lra).
  assert (Zfloor (stretched (x - mn) b) <= 255)%Z.
  { assert (Zfloor (stretched (x - mn) b) < 256)%Z; [|lia]. apply lt_IZR. pose proof (Zfloor_lb (stretched (x - mn) b)). lra. }
  replace ((0 <=? Zfloor (stretched (x - mn) b))%Z && (Zfloor (stretched (x - mn) b) <=? 255)%Z)%bool with true by lia.
  split; [easy|]. split; [easy|lia].
Qed.

(** *** C55.  For an image whose brightest pixel appears anywhere but at the
    very beginning only (or saturates), and which isn't constant: every output
    pixel is defined, the darkest value becomes 0, the brightest 255, larger
    values never become smaller ones, and each output is the linear map rounded
    to the nearest (up to the single-precision rounding). *)
Theorem C55_stretch_partial : forall rows p rest m M,
  pixels rows = p :: rest -> Forall is_u16 (pixels rows) ->
  is_min m (pixels rows) -> is_max M (pixels rows) -> (m < M)%Z ->
  In M rest \/ p = 65535%Z ->
  exists g : Z -> Z,
    stretch rows = map (map (fun x => Some (g x))) rows /\
    g m = 0%Z /\ g M = 255%Z /\
    (forall x y, In x (pixels rows) -> In y (pixels rows) -> (x <= y)%Z -> (g x <= g y)%Z) /\
    (forall x, In x (pixels rows) ->
       Rabs (IZR (g x) - 255 * IZR (x - m) / IZR (M - m)) <= /2 + / 32768).
Proof.
  intros rows p rest m M E U Hm HM Lt Hp.
  exists (fun x => Zfloor (stretched (x - m) (M - m))).
  assert (Rm : is_u16 m) by (rewrite Forall_forall in U; apply U, Hm).
  assert (RM : is_u16 M) by (rewrite Forall_forall in U; apply U, HM). unfold is_u16 in *.
  pose proof (minmax_min rows m U Hm) as E1. pose proof (minmax_max rows M p rest E U HM Hp) as E2.
  split; [|split; [|split; [|split]]].
  - unfold stretch. destruct (minmax rows) as [mn mx]. cbn in E1, E2. subst mn mx.
    replace (u16 (M - m)) with (M - m)%Z by (unfold u16; rewrite Z.mod_small; lia).
    apply map_ext_in. intros row Hr. apply map_ext_in. intros x Hx.
    assert (I : In x (pixels rows)) by (apply in_concat; eauto).
    destruct (pixel_spec m (M - m) x ltac:(lia)) as (y & -> & -> & _); [|easy].
    destruct Hm as (_ & Hm), HM as (_ & HM). specialize (Hm _ I). specialize (HM _ I). lia.
  - rewrite Z.sub_diag, stretched_0. apply Zfloor_imp. cbn. lra.
  - rewrite stretched_full by lia. apply Zfloor_imp. cbn. lra.
  - intros x y Hx Hy L. apply Zfloor_le. apply stretched_mono; lia.
  - intros x Hx. set (b := (M - m)%Z). set (a := (x - m)%Z).
    assert (A : (0 <= a <= b)%Z).
    { destruct Hm as (_ & Hm), HM as (_ & HM). specialize (Hm _ Hx). specialize (HM _ Hx). unfold a, b. lia. }
    assert (B : 0 < IZR b) by (apply IZR_lt; unfold b; lia).
    assert (Qe : 255 * IZR a / IZR b = IZR (a * 255) / IZR b) by (rewrite mult_IZR; field; lra).
    rewrite Qe. set (q := IZR (a * 255) / IZR b).
    assert (Q : 0 <= q <= 255).
    { unfold q. rewrite mult_IZR. assert (0 <= IZR a <= IZR b) by (split; apply IZR_le; lia).
      assert (IZR a * 255 / IZR b = 255 * (IZR a / IZR b)) as -> by (field; lra).
      assert (0 <= IZR a / IZR b <= 1); [|lra]. split.
      - apply Rmult_le_pos; [lra|]. apply Rlt_le, Rinv_0_lt_compat; lra.
      - apply Rmult_le_reg_r with (IZR b); [lra|]. unfold Rdiv. rewrite Rmult_assoc, Rinv_l by lra. lra. }
    pose proof (rnd_err q ltac:(lra)) as E3.
    pose proof (rnd_bounds q 0 255 ltac:(lia) ltac:(lia) Q) as E4.
    pose proof (rnd_err (/2 + rnd q) ltac:(lra)) as E5. fold (stretched a b) in E5.
    assert (Sv : stretched a b = rnd (/2 + rnd q)) by reflexivity. rewrite <- Sv in E5.
    pose proof (Zfloor_lb (stretched a b)) as F1. pose proof (Zfloor_ub (stretched a b)) as F2.
    change (bpow radix2 (-16)) with (/ 65536) in *.
    apply Rabs_le. unfold Rabs in E3, E5. destruct (Rcase_abs _) in E3; destruct (Rcase_abs _) in E5; lra.
Qed.

(** the hypotheses are met by an ordinary image *)
Example ex_C55 :
  let rows := [[7; 1000; 3]; [65535; 8; 3]]%Z in
  pixels rows = (7 :: [1000; 3; 65535; 8; 3])%Z /\ Forall is_u16 (pixels rows) /\
  is_min 3 (pixels rows) /\ is_max 65535 (pixels rows) /\ (In 65535 [1000; 3; 65535; 8; 3])%Z.
Proof.
  cbv zeta. cbn [pixels concat app]. split; [easy|]. split; [repeat constructor; unfold is_u16; lia|].
  unfold is_min, is_max. cbn [In].
  split; [|split; [|auto 6]]; (split; [auto 8|]); intros x Hx;
    repeat (destruct Hx as [<-|Hx]; [lia|]); destruct Hx.
Qed.

(** *** What goes wrong otherwise.  The scan tests for the maximum only when the
    pixel isn't a new minimum, so a brightest pixel that comes first is missed:
    the conversion of that pixel is then undefined, or the whole image goes black *)
Lemma pixel_undefined : forall mn b x, (0 < b <= 65535)%Z -> (0 <= x - mn <= 65535)%Z -> (2 * b <= x - mn)%Z ->
  stretch_pixel mn b x = None.
Proof.
  intros mn b x Hb Hx H2. destruct (stretch_value (x - mn) b Hx Hb) as (F & V). cbv zeta in F, V.
  unfold stretch_pixel, f_to_u8. rewrite F.
  assert (L : 256 <= stretched (x - mn) b).
  { unfold stretched. assert (0 < IZR b) by (apply IZR_lt; lia).
    assert (510 <= rnd (IZR ((x - mn) * 255) / IZR b)).
    { rewrite <- (int_exact 510) by lia. apply round_le; [apply vexp|apply valid_rnd_N|].
      apply Rmult_le_reg_r with (IZR b); [lra|]. unfold Rdiv. rewrite Rmult_assoc, Rinv_l, Rmult_1_r, <- mult_IZR by lra.
      apply IZR_le. lia. }
    rewrite <- (int_exact 256) by lia. apply round_le; [apply vexp|apply valid_rnd_N|]. lra. }
  rewrite trunc_val, V by (rewrite V; lra).
  assert (256 <= Zfloor (stretched (x - mn) b))%Z by now apply Zfloor_lub.
  now replace ((0 <=? _)%Z && _)%bool with false by lia.
Qed.
Theorem C55_first_pixel_refuted : exists rows,
  Forall is_u16 (pixels rows) /\ stretch rows = [[None; Some 0%Z; Some 255%Z]].
Proof.
  exists [[100; 0; 50]]%Z. split; [repeat constructor; unfold is_u16; lia|].
  unfold stretch. change (minmax [[100; 0; 50]%Z]) with (0, 50)%Z. cbn [map]. change (u16 (50 - 0)) with 50%Z.
  rewrite (pixel_undefined 0 50 100) by lia.
  destruct (pixel_spec 0 50 0 ltac:(lia) ltac:(lia)) as (y & -> & -> & _).
  destruct (pixel_spec 0 50 50 ltac:(lia) ltac:(lia)) as (y & -> & -> & _).
  change (0 - 0)%Z with 0%Z. change (50 - 0)%Z with 50%Z. rewrite stretched_0, stretched_full by lia.
  repeat f_equal; apply Zfloor_imp; cbn; lra.
Qed.
Theorem C55_goes_black_refuted : exists rows,
  Forall is_u16 (pixels rows) /\ is_max 2000 (pixels rows) /\ is_min 1000 (pixels rows) /\
  exists y1 y2, stretch rows = [[Some y1]; [Some y2]] /\ (y1 <= 4)%Z.
Proof.
  exists [[2000]; [1000]]%Z. split; [repeat constructor; unfold is_u16; lia|].
  split; [unfold is_max; cbn; split; [auto|intros; lia]|]. split; [unfold is_min; cbn; split; [auto|intros; lia]|].
  unfold stretch. change (minmax [[2000]; [1000]]%Z) with (1000, 0)%Z.
  cbn [map]. change (u16 (0 - 1000)) with 64536%Z.
  destruct (pixel_spec 1000 64536 2000 ltac:(lia) ltac:(lia)) as (y & -> & Ey & _).
  destruct (pixel_spec 1000 64536 1000 ltac:(lia) ltac:(lia)) as (y' & -> & _ & _).
  exists y, y'. split; [easy|]. subst y. change (2000 - 1000)%Z with 1000%Z.
  assert (stretched 1000 64536 <= 4 + /2).
  { assert (4 + /2 = stretched 4 255) as ->.
    { unfold stretched. change (4 * 255)%Z with 1020%Z. replace (1020 / 255) with 4 by lra. rewrite (int_exact 4) by lia.
      replace (/2 + 4) with (4 + /2) by lra. symmetry. apply round_generic; [apply valid_rnd_N|].
      replace fexp with (FLT_exp (3 - semax - sprec) sprec) by reflexivity.
      apply generic_format_FLT. exists (Float radix2 9 (-1)); cbn; try lia; try (unfold semax, sprec; lia).
      unfold F2R. cbn. lra. }
    unfold stretched. apply round_le; [apply vexp|apply valid_rnd_N|]. apply Rplus_le_compat_l.
    apply round_le; [apply vexp|apply valid_rnd_N|].
    change (1000 * 255)%Z with 255000%Z. change (4 * 255)%Z with 1020%Z. lra. }
  assert (Zfloor (stretched 1000 64536) < 5)%Z; [|lia]. apply lt_IZR.
  pose proof (Zfloor_lb (stretched 1000 64536)). lra.
Qed.
(** a constant image (other than a saturated or single-pixel one) divides 0 by 0 *)
Theorem C55_constant_refuted : forall v n, (0 <= v < 65535)%Z ->
  stretch [repeat v (S (S n))] = [repeat None (S (S n))].
Proof.
  intros v n Hv.
  assert (MM : minmax [repeat v (S (S n))] = (v, v)).
  { unfold minmax. cbn [fold_left repeat]. 
    assert (A : minmax_step (minmax_step (UINT16_MAX, 0)%Z v) v = (v, v)).
    { unfold minmax_step, UINT16_MAX. replace (v <? 65535)%Z with true by lia. rewrite Z.ltb_irrefl.
      destruct (v >? 0)%Z eqn:G; [easy|]. replace v with 0%Z by lia. easy. }
    rewrite A. clear A. induction n as [|n IH]; cbn [repeat fold_left]; [easy|].
    replace (minmax_step (v, v) v) with (v, v); [easy|].
    unfold minmax_step. rewrite Z.ltb_irrefl. now replace (v >? v)%Z with false by lia. }
  unfold stretch. rewrite MM. replace (u16 (v - v)) with 0%Z by (unfold u16; rewrite Z.sub_diag; reflexivity).
  cbn [map]. f_equal. 
  assert (P : stretch_pixel v 0 v = None).
  { unfold stretch_pixel. rewrite Z.sub_diag. reflexivity. }
  generalize (S (S n)) as k. induction k as [|k IHk]; cbn [repeat map]; [easy|]. now rewrite P, IHk.
Qed.

Print Assumptions C55_stretch_partial.
Print Assumptions C55_first_pixel_refuted.
Print Assumptions C55_goes_black_refuted.
Print Assumptions C55_constant_refuted.
