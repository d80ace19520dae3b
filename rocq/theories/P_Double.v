(** The binary64 instance satisfies what outlier rejection needs. *)
From Coq Require Import ZArith Bool Reals Lra Lia.
From Flocq Require Import Core BinarySingleNaN.
From Verif Require Import M_Mark S_Mark M_Double.
Open Scope R_scope.

Local Notation fexp := (SpecFloat.fexp dprec demax).
Local Notation rnd := (round radix2 fexp (round_mode mode_NE)).
#[local] Instance vexp : Valid_exp fexp := BinarySingleNaN.fexp_correct dprec demax _.

Lemma over_sign : forall (z : double) s, B2SF z = binary_overflow dprec demax mode_NE s -> z = B754_infinity s.
Proof. intros [|[]| |[] ? ? ?] []; cbn; congruence. Qed.

Definition nn (x : double) : Prop := Bsign x = false.

Lemma nn_val : forall x, nn x -> 0 <= B2R x.
Proof.
  intros [[]|[]| |[] m e H]; unfold nn; cbn; try discriminate; try lra. intros _.
  apply F2R_ge_0. cbn. lia.
Qed.

Lemma nn_mul : forall x y : double, Bsign x = Bsign y -> nn (d_mul x y).
Proof.
  intros x y E. unfold nn, d_mul.
  destruct (is_nan (Bmult mode_NE x y)) eqn:N.
  { destruct (Bmult mode_NE x y); try discriminate. reflexivity. }
  pose proof (Bmult_correct dprec demax _ _ mode_NE x y) as H.
  destruct (Rlt_bool _ _).
  - destruct H as (_ & _ & H). rewrite (H N), E. now destruct (Bsign y).
  - apply over_sign in H. rewrite H, E. cbn. now destruct (Bsign y).
Qed.

Lemma nn_add : forall x y, nn x -> nn y -> nn (d_add x y).
Proof.
  intros x y Hx Hy. unfold nn, d_add.
  destruct (is_finite x) eqn:Fx; [destruct (is_finite y) eqn:Fy|].
  - pose proof (Bplus_correct dprec demax _ _ mode_NE x y Fx Fy) as H.
    pose proof (nn_val x Hx). pose proof (nn_val y Hy).
    destruct (Rlt_bool _ _).
    + destruct H as (_ & _ & ->). rewrite Hx. destruct (Rcompare_spec (B2R x + B2R y) 0); [lra|reflexivity..].
    + destruct H as (H & _). apply over_sign in H. now rewrite H.
  - unfold nn in *. destruct x as [[]|[]| |[] ? ? ?]; cbn in Hx, Fx; try discriminate;
      destruct y as [[]|[]| |[] ? ? ?]; cbn in Hy, Fy; try discriminate; reflexivity.
  - unfold nn in *. destruct x as [[]|[]| |[] ? ? ?]; cbn in Hx, Fx; try discriminate;
      destruct y as [[]|[]| |[] ? ? ?]; cbn in Hy; try discriminate; reflexivity.
Qed.

Lemma nn_div : forall x y, nn x -> nn y -> nn (d_div x y).
Proof.
  intros x y Hx Hy. unfold nn, d_div.
  destruct (is_nan (Bdiv mode_NE x y)) eqn:N.
  { destruct (Bdiv mode_NE x y); try discriminate. reflexivity. }
  destruct (Req_dec (B2R y) 0) as [Z|Z].
  - unfold nn in *. destruct y as [[]|[]| |[] m e H]; cbn in Hy; try discriminate.
    1-3: clear N; destruct x as [[]|[]| |[] ? ? ?]; cbn in Hx; try discriminate; reflexivity.
    exfalso. cbn in Z. pose proof (F2R_gt_0 radix2 (Float radix2 (Zpos m) e) ltac:(cbn; lia)). lra.
  - pose proof (Bdiv_correct dprec demax _ _ mode_NE x y Z) as H.
    destruct (Rlt_bool _ _).
    + destruct H as (_ & _ & H). now rewrite (H N), Hx, Hy.
    + apply over_sign in H. rewrite H. cbn. now rewrite Hx, Hy.
Qed.

Lemma nn_ofZ : forall k, (0 <= k)%Z -> nn (d_ofZ k).
Proof.
  intros k Hk. unfold nn, d_ofZ.
  pose proof (binary_normalize_correct dprec demax _ _ mode_NE k 0 false) as H. cbn zeta in H.
  assert (F2R (Float radix2 k 0) = IZR k) as E by (unfold F2R; cbn; lra). rewrite E in H.
  assert (0 <= IZR k) by now apply IZR_le.
  destruct (Rlt_bool (Rabs _) _).
  - destruct H as (_ & _ & ->). destruct (Rcompare_spec (IZR k) 0); [lra|reflexivity..].
  - rewrite Rlt_bool_false in H by lra. apply over_sign in H. now rewrite H.
Qed.

Lemma from_SF : forall (x : double) s m e, B2SF x = SpecFloat.S754_finite s m e ->
  is_finite x = true /\ B2R x = F2R (Float radix2 (cond_Zopp s (Zpos m)) e) /\ Bsign x = s.
Proof. intros [b|b| |sx mx ex H] s m e; cbn [B2SF]; try discriminate. intros [= -> -> ->]. now cbn. Qed.

Lemma d25 : exists x, d_mul (d_ofZ 5) (d_ofZ 5) = x /\ is_finite x = true /\ B2R x = 25 /\ Bsign x = false.
Proof.
  eexists. split; [reflexivity|].
  destruct (from_SF (d_mul (d_ofZ 5) (d_ofZ 5)) false 7036874417766400 (-48)) as (-> & -> & ->); [vm_compute; reflexivity|].
  repeat split. unfold F2R. cbn. lra.
Qed.
Lemma d16 : exists x, d_mul (d_ofZ 4) (d_ofZ 4) = x /\ is_finite x = true /\ B2R x = 16 /\ Bsign x = false.
Proof.
  eexists. split; [reflexivity|].
  destruct (from_SF (d_mul (d_ofZ 4) (d_ofZ 4)) false 4503599627370496 (-48)) as (-> & -> & ->); [vm_compute; reflexivity|].
  repeat split. unfold F2R. cbn. lra.
Qed.

Lemma gt_inf : forall x, d_gt x (B754_infinity false) = false.
Proof. intros [[]|[]| |[] ? ? ?]; reflexivity. Qed.
Lemma gt_nan : forall x, d_gt x B754_nan = false.
Proof. intros [[]|[]| |[] ? ? ?]; reflexivity. Qed.

Lemma inf_mul : forall c : double, is_finite c = true -> 0 < B2R c -> Bsign c = false ->
  d_mul c (B754_infinity false) = B754_infinity false.
Proof. intros [[]|[]| |[] ? ? ?]; cbn; try discriminate; try reflexivity; intros; lra. Qed.

Lemma d_beyond : forall v x, nn v -> beyond doubleA 5 v x = true -> beyond doubleA 4 v x = true.
Proof.
  intros v x Hv. unfold beyond, sq. cbn [gtb mul ofZ doubleA].
  destruct d25 as (c25 & -> & F25 & R25 & S25). destruct d16 as (c16 & -> & F16 & R16 & S16).
  generalize (d_mul x x) as y. intros y H.
  destruct (is_finite v) eqn:Fv.
  2:{ destruct v as [?|[]| |? ? ? ?]; cbn in Fv; try discriminate.
      - rewrite inf_mul in H by (auto; lra). now rewrite gt_inf in H.
      - destruct c25; cbn in H; rewrite gt_nan in H; discriminate. }
  pose proof (nn_val v Hv) as Vv.
  pose proof (Bmult_correct dprec demax _ _ mode_NE c25 v) as M25.
  pose proof (Bmult_correct dprec demax _ _ mode_NE c16 v) as M16.
  rewrite R25 in M25. rewrite R16 in M16.
  assert (rnd (16 * B2R v) <= rnd (25 * B2R v)) as Mono by (apply round_le; [exact _..|lra]).
  assert (0 <= rnd (16 * B2R v)) as P16.
  { rewrite <- (round_0 radix2 fexp (round_mode mode_NE)). apply round_le; [exact _..|lra]. }
  rewrite Rabs_pos_eq in M25, M16 by lra.
  destruct (Rlt_bool_spec (rnd (25 * B2R v)) (bpow radix2 demax)) as [L|L].
  2:{ apply over_sign in M25. unfold d_mul in H. rewrite M25, S25, Hv in H. cbn in H. now rewrite gt_inf in H. }
  rewrite Rlt_bool_true in M16 by lra.
  destruct M25 as (B25 & G25 & _), M16 as (B16 & G16 & _).
  rewrite F25, Fv in G25. rewrite F16, Fv in G16. cbn in G25, G16.
  unfold d_mul in *.
  set (a := Bmult mode_NE c25 v) in *. set (b := Bmult mode_NE c16 v) in *. clearbody a b.
  unfold d_gt in *.
  destruct (is_finite y) eqn:Fy.
  - rewrite Bcompare_correct in * by assumption. rewrite B25 in H. rewrite B16.
    destruct (Rcompare_spec (B2R y) (rnd (25 * B2R v))); try discriminate.
    rewrite Rcompare_Gt by lra. reflexivity.
  - clear -H Fy G25 G16. destruct y as [?|[]| |? ? ? ?]; try discriminate Fy;
      destruct a as [?|?| |[] ? ? ?]; try discriminate G25; try discriminate H;
      destruct b as [?|?| |[] ? ? ?]; try discriminate G16; reflexivity.
Qed.

Lemma double_sane : sane doubleA nn.
Proof.
  split.
  - reflexivity.
  - exact nn_add.
  - intro x. now apply nn_mul.
  - intros a k Ha Hk. apply nn_div; [easy|now apply nn_ofZ].
  - exact d_beyond.
Qed.

Lemma dm1 : exists x, d_ofZ (-1) = x /\ is_finite x = true /\ B2R x = -1 /\ Bsign x = true.
Proof.
  eexists. split; [reflexivity|].
  destruct (from_SF (d_ofZ (-1)) true 4503599627370496 (-52)) as (-> & -> & ->); [vm_compute; reflexivity|].
  repeat split. unfold F2R. cbn. lra.
Qed.

(** w *= -1.0 flips the sign exactly *)
Lemma d_neg : forall w, neg doubleA w = Bopp w.
Proof.
  intro w. cbn [neg doubleA]. destruct dm1 as (c & -> & Fc & Rc & Sc). unfold d_mul.
  destruct (is_finite w) eqn:Fw.
  - pose proof (Bmult_correct dprec demax _ _ mode_NE w c) as H. rewrite Rc in H.
    replace (B2R w * -1) with (- B2R w) in H by lra.
    rewrite round_generic in H; [|exact _|apply generic_format_opp, generic_format_B2R].
    rewrite Rlt_bool_true in H by (rewrite Rabs_Ropp; apply abs_B2R_lt_emax).
    destruct H as (H1 & H2 & H3). rewrite Fw, Fc in H2. cbn in H2.
    assert (is_nan (Bmult mode_NE w c) = false) as N by now destruct (Bmult mode_NE w c).
    specialize (H3 N). apply B2R_Bsign_inj; auto.
    + now rewrite is_finite_Bopp.
    + now rewrite B2R_Bopp.
    + rewrite H3, Sc. rewrite Bsign_Bopp by now destruct w. now destruct (Bsign w).
  - destruct w as [?|[]| |? ? ? ?]; cbn in Fw; try discriminate;
      destruct c as [[]|[]| |[] ? ? ?]; cbn in *; try discriminate; try reflexivity; lra.
Qed.

Lemma double_weight_ok : forall w : double, is_nan w = false -> weight_ok doubleA w.
Proof.
  intros w H. unfold weight_ok. rewrite d_neg. cbn [le0 doubleA].
  destruct w as [[]|[]| |[] ? ? ?]; cbn in *; try discriminate; reflexivity.
Qed.
Lemma neg_not_nan : forall w, is_nan w = false -> is_nan (neg doubleA w) = false.
Proof. intros w H. rewrite d_neg. now rewrite is_nan_Bopp. Qed.
