(** Outlier rejection over the reals. *)
From Coq Require Import ZArith List Bool Lia Reals Lra.
From Verif Require Import M_Mark S_Mark P_Mark.
Import ListNotations.
Open Scope Z_scope.

Lemma real_sane : sane realA (fun x => 0 <= x)%R.
Proof.
  split; cbn.
  - lra.
  - intros. lra.
  - intros. nra.
  - intros a k H K. destruct (Z.eq_dec k 0) as [->|N].
    + unfold Rdiv. rewrite Rinv_0. lra.
    + apply Rmult_le_pos; [easy|]. apply Rlt_le, Rinv_0_lt_compat. apply IZR_lt. lia.
  - intros v x Hv. unfold beyond, sq. cbn. destruct (Rlt_dec _ _); [|discriminate]. destruct (Rlt_dec _ _); [easy|]. nra.
Qed.
Lemma real_weight_ok : forall w : R, weight_ok realA w.
Proof. intro w. unfold weight_ok. cbn. destruct (Rle_dec w 0); [discriminate|]. destruct (Rle_dec _ 0); [easy|]. lra. Qed.
Lemma real_neg_abs : forall w : R, Rabs (neg realA w) = Rabs w.
Proof. intro w. cbn. rewrite Rabs_mult, (Rabs_left (-1)) by lra. lra. Qed.
Lemma inlier_iff : forall f : feat realA, inlier realA f = true <-> is_inlier f.
Proof.
  intro f. unfold inlier, is_inlier. cbn. destruct (Rle_dec (f_w f) 0); cbn; [split; [discriminate|lra]|]. split; [lra|easy].
Qed.
Lemma inlier_not : forall f : feat realA, inlier realA f = false <-> (f_w f <= 0)%R.
Proof.
  intro f. unfold inlier. cbn. destruct (Rle_dec (f_w f) 0); cbn; [easy|]. split; [discriminate|lra].
Qed.
Lemma beyond_far : forall k v x, 0 <= k -> (0 <= v)%R -> (beyond realA k v x = true <-> far (IZR k) v x).
Proof.
  intros k v x Hk Hv. unfold beyond, far, sq. cbn. apply IZR_le in Hk.
  pose proof (sqrt_pos v). pose proof (sqrt_sqrt v Hv) as S.
  assert (IZR k * IZR k * v = (IZR k * sqrt v) * (IZR k * sqrt v))%R as -> by (rewrite <- S at 1; ring).
  assert (0 <= IZR k * sqrt v)%R by now apply Rmult_le_pos.
  assert (x * x = Rabs x * Rabs x)%R as -> by (rewrite <- Rabs_mult, Rabs_right; [easy|nra]).
  pose proof (Rabs_pos x). destruct (Rlt_dec _ _) as [L|L]; split; intro E; try easy; [nra|]. exfalso. apply L. nra.
Qed.
Lemma feat_beyond_far : forall k v f, 0 <= k -> (0 <= v)%R -> (feat_beyond realA k v f = true <-> feat_far (IZR k) v f).
Proof.
  intros k v f Hk Hv. unfold feat_beyond, feat_far. rewrite orb_true_iff, !beyond_far by easy. easy.
Qed.

(** sums *)
Lemma sum_boards_real : forall fs : list (feat realA),
  sum_boards realA fs = (Z.of_nat (length fs) - Z.of_nat (length (inliers fs)), Z.of_nat (length (inliers fs)),
     sumR (map (fun f : feat realA => f_dx f * f_dx f + f_dy f * f_dy f)%R (inliers fs))).
Proof.
  intro fs. unfold sum_boards.
  assert (forall no ni v, fold_left (fun acc f => let '(nout, nin, v) := acc in
    if inlier realA f then (nout, nin + 1, add realA v (add realA (sq realA (f_dx f)) (sq realA (f_dy f)))) else (nout + 1, nin, v)) fs (no, ni, v) =
    (no + Z.of_nat (length fs) - Z.of_nat (length (inliers fs)), ni + Z.of_nat (length (inliers fs)), 
     (v + sumR (map (fun f : feat realA => f_dx f * f_dx f + f_dy f * f_dy f) (inliers fs)))%R)) as W.
  { induction fs as [|f fs IH]; intros no ni v; cbn [fold_left].
    - cbn. rewrite Rplus_0_r. do 2 f_equal; lia.
    - destruct (inlier realA f) eqn:E; rewrite IH; clear IH.
      + assert (inliers (f :: fs) = f :: inliers fs) as ->.
        { unfold inliers. cbn. apply inlier_iff in E. unfold is_inlier in E. destruct (Rle_dec (f_w f) 0); [lra|easy]. }
        cbn [length map sumR]. f_equal; [f_equal; lia|]. cbn. unfold sq. cbn. ring.
      + assert (inliers (f :: fs) = inliers fs) as ->.
        { unfold inliers. cbn. apply inlier_not in E. destruct (Rle_dec (f_w f) 0); [easy|lra]. }
        cbn [length]. f_equal. f_equal; lia. }
  rewrite W. cbn [n0 realA]. rewrite Rplus_0_l. do 2 f_equal; lia.
Qed.

Section T.
Variable div_ : nat * nat -> bool.
Lemma tri_real : forall (ps : list ((nat * nat) * R)) (s : tstate realA), exists sel, length sel = length ps /\
  let t := fold_left (tri_step realA div_) ps s in
  t_nin realA t = t_nin realA s + Z.of_nat (length (select sel (map snd ps))) /\
  t_var realA t = (t_var realA s + sumR (map (fun x => x * x) (select sel (map snd ps))))%R /\
  (forall px b, In (px, b) (combine ps sel) ->
     (b = true -> pair_out (t_m realA s) (fst px) = false) /\ (b = false -> pair_out (t_m realA t) (fst px) = true)) /\
  ((forall px, In px ps -> pair_out (t_m realA s) (fst px) = false -> div_ (fst px) = false) ->
     t_found realA t = t_found realA s /\ t_m realA t = t_m realA s) /\
  (t_found realA t = false -> forall px, In px ps -> pair_out (t_m realA s) (fst px) = false -> div_ (fst px) = false).
Proof.
  induction ps as [|(p, x) ps IH]; intro s; cbn [fold_left].
  - exists []. cbn. repeat split; try lia; try lra; try easy.
  - destruct (IH (tri_step realA div_ s (p, x))) as (sel & L & I1 & I2 & I3 & I4 & I5). cbn zeta in *.
    set (t := fold_left (tri_step realA div_) ps (tri_step realA div_ s (p, x))) in *.
    pose proof (tri_step_mono realA div_ s (p, x)) as Mono.
    assert (forall q, pair_out (t_m realA (tri_step realA div_ s (p, x))) q = false -> pair_out (t_m realA s) q = false) as PO.
    { intros q H. unfold pair_out in *. apply orb_false_iff in H as (H1 & H2). apply orb_false_iff. split.
      - destruct (t_m realA s (fst q)) eqn:E; [|easy]. apply Mono in E. congruence.
      - destruct (t_m realA s (snd q)) eqn:E; [|easy]. apply Mono in E. congruence. }
    assert (forall q, pair_out (t_m realA (tri_step realA div_ s (p, x))) q = true -> pair_out (t_m realA t) q = true) as POt.
    { assert (forall ps s k, t_m realA s k = true -> t_m realA (fold_left (tri_step realA div_) ps s) k = true) as G.
      { clear. induction ps; cbn; intros; [easy|]. apply IHps. now apply tri_step_mono. }
      intros q H. unfold pair_out in *. apply orb_prop in H. apply orb_true_iff. destruct H; [left|right]; now apply G. }
    set (nw := negb (pair_out (t_m realA s) p) && div_ p) in *.
    set (s1 := tri_step realA div_ s (p, x)) in *.
    assert (t_m realA s1 = if nw then mark2 (t_m realA s) (fst p) (snd p) else t_m realA s) as Em.
    { unfold s1, nw, tri_step. generalize (negb (pair_out (t_m realA s) p) && div_ p); intro bb. now destruct (pair_out (if bb then mark2 (t_m realA s) (fst p) (snd p) else t_m realA s) p). }
    assert (t_found realA s1 = t_found realA s || nw) as Ef.
    { unfold s1, nw, tri_step. generalize (negb (pair_out (t_m realA s) p) && div_ p); intro bb. now destruct (pair_out (if bb then mark2 (t_m realA s) (fst p) (snd p) else t_m realA s) p). }
    assert (t_nin realA s1 = t_nin realA s + (if pair_out (t_m realA s1) p then 0 else 1)) as En.
    { rewrite Em. unfold s1, nw, tri_step. generalize (negb (pair_out (t_m realA s) p) && div_ p); intro bb. destruct (pair_out (if bb then mark2 (t_m realA s) (fst p) (snd p) else t_m realA s) p); cbn [t_nin]; lia. }
    assert (t_var realA s1 = if pair_out (t_m realA s1) p then t_var realA s else (t_var realA s + x * x)%R) as Ev.
    { rewrite Em. unfold s1, nw, tri_step. generalize (negb (pair_out (t_m realA s) p) && div_ p); intro bb. now destruct (pair_out (if bb then mark2 (t_m realA s) (fst p) (snd p) else t_m realA s) p). }
    exists (negb (pair_out (t_m realA s1) p) :: sel). cbn [length map snd select]. split; [lia|].
    split; [|split; [|split; [|split]]].
    + rewrite I1, En. destruct (pair_out (t_m realA s1) p); cbn [negb length]; lia.
    + rewrite I2, Ev. destruct (pair_out (t_m realA s1) p); cbn [negb map sumR]; lra.
    + intros px b [E|H].
      * injection E as <- <-. cbn [fst]. split; intro H.
        -- apply PO. now apply negb_true_iff in H.
        -- apply POt. now apply negb_false_iff in H.
      * destruct (I3 px b H) as (J1 & J2). split; auto.
    + intro Hd. assert (nw = false) as N0.
      { unfold nw. destruct (pair_out (t_m realA s) p) eqn:E; [easy|]. assert (div_ p = false) as -> by (apply (Hd (p, x)); [now left|easy]). easy. }
      rewrite N0 in *. rewrite orb_false_r in Ef. rewrite <- Ef, <- Em. apply I4. rewrite Em. intros px H. apply Hd. now right.
    + intro Ht. assert (t_found realA s1 = false) as F1.
      { destruct (t_found realA s1) eqn:E; [|easy].
        assert (forall ps s, t_found realA s = true -> t_found realA (fold_left (tri_step realA div_) ps s) = true) as G.
        { clear. induction ps as [|(q, y) ps IH]; cbn; intros s H; [easy|]. apply IH. unfold tri_step. 
          destruct (pair_out _ q); cbn; now rewrite H. }
        unfold t in Ht. rewrite G in Ht; [discriminate|easy]. }
      rewrite Ef in F1. apply orb_false_iff in F1 as (_ & N0). rewrite N0 in Em.
      intros px [<-|H] Hp; cbn [fst] in *.
      * unfold nw in N0. rewrite Hp in N0. exact N0.
      * apply (I5 Ht px H). now rewrite Em.
Qed.

Theorem rule : forall (fs : list (feat realA)) (ps : list ((nat * nat) * R)) (m : marks),
  let r := mark_outliers realA div_ fs ps m in
  exists sel, length sel = length ps /\
  let var := mean_square fs (select sel (map snd ps)) in
  r_var realA r = var /\ (0 <= var)%R /\
  (forall px b, In (px, b) (combine ps sel) ->
     (b = true -> pair_out m (fst px) = false) /\
     (b = false -> pair_out (r_marks realA r) (fst px) = true) /\
     ((forall qx, In qx ps -> pair_out m (fst qx) = false -> div_ (fst qx) = false) -> b = negb (pair_out m (fst px)))) /\
  (r_found realA r = false <->
     (forall px, In px ps -> pair_out m (fst px) = false -> div_ (fst px) = false) /\
     (forall f, In f fs -> is_inlier f -> ~ feat_far 5 var f) /\
     (forall px, In px ps -> pair_out m (fst px) = false -> ~ far 5 var (snd px))) /\
  (r_found realA r = true ->
     Forall2 (fun f f' : feat realA => (f_w f' <= 0)%R <-> ((f_w f <= 0)%R \/ feat_far 4 var f)) fs (r_feats realA r) /\
     (forall px, In px ps -> far 4 var (snd px) -> pair_out (r_marks realA r) (fst px) = true)) /\
  r_nout_board realA r = Z.of_nat (length fs) - Z.of_nat (length (inliers (r_feats realA r))).
Proof.
  intros fs ps m r.
  destruct (mark_cases realA _ real_sane div_ fs ps m) as (Nv & M1 & _ & M3 & M4 & _). fold r in Nv, M1, M3, M4.
  destruct (tri_real ps {| t_m := m; t_found := false; t_nout := 0; t_nin := 0;
     t_var := sumR (map (fun f : feat realA => f_dx f * f_dx f + f_dy f * f_dy f)%R (inliers fs)) : T realA |}) as (sel & L & I1 & I2 & I3 & I4 & I5).
  cbn zeta in *. cbn [t_m t_found t_nin t_var] in I1, I2, I3, I4, I5.
  fold (tri_pass realA div_ ps m (sumR (map (fun f : feat realA => f_dx f * f_dx f + f_dy f * f_dy f)%R (inliers fs)) : T realA)) in I1, I2, I3, I4, I5.
  exists sel. split; [easy|].
  assert (r_var realA r = mean_square fs (select sel (map snd ps))) as EV.
  { unfold r, mark_outliers. rewrite sum_boards_real. set (t := tri_pass _ _ _ _ _) in *.
    assert (div realA (t_var realA t) (ofZ realA (Z.of_nat (length (inliers fs)) * 2 + t_nin realA t)) = mean_square fs (select sel (map snd ps))) as E.
    { unfold mean_square. cbn [div ofZ realA]. rewrite I2, I1. f_equal. f_equal. lia. }
    rewrite E. destruct (_ || _ || _); [|reflexivity]. destruct (fold_left _ ps _). reflexivity. }
  rewrite EV in Nv. split; [easy|]. split; [easy|].
  set (var := mean_square fs (select sel (map snd ps))) in *.
  set (t := tri_pass realA div_ ps m _) in *.
  assert (r = if t_found realA t
               || existsb (fun f => inlier realA f && feat_beyond realA 5 var f) fs
               || existsb (fun px => negb (pair_out (t_m realA t) (fst px)) && beyond realA 5 var (snd px)) ps
    then let '(m', nt) := fold_left (reject_pair realA var) ps (t_m realA t, t_nout realA t) in
    {| r_found := true; r_feats := map (reject_feat realA var) fs; r_marks := m';
       r_nout_board := (Z.of_nat (length fs) - Z.of_nat (length (inliers fs))) + count realA (fun f => inlier realA f && feat_beyond realA 4 var f) fs;
       r_nout_tri := nt; r_var := var |}
  else
    {| r_found := false; r_feats := fs; r_marks := t_m realA t; r_nout_board := Z.of_nat (length fs) - Z.of_nat (length (inliers fs)); r_nout_tri := t_nout realA t; r_var := var |}) as ER.
  { unfold r, mark_outliers. rewrite sum_boards_real. fold t.
    assert (div realA (t_var realA t) (ofZ realA (Z.of_nat (length (inliers fs)) * 2 + t_nin realA t)) = var) as E.
    { unfold var, mean_square. cbn [div ofZ realA]. rewrite I2, I1. f_equal. f_equal. lia. }
    now rewrite E. }
  clearbody r.
  assert (forall k, t_m realA t k = true -> r_marks realA r k = true) as TM.
  { intros k Hk. rewrite ER. match goal with |- context[if ?b then _ else _] => destruct b end; [|exact Hk].
    pose proof (reject_fold realA div_ var ps (t_m realA t, t_nout realA t)) as (RF & _).
    destruct (fold_left (reject_pair realA var) ps _) as (m', nt). cbn in *. auto. }
  assert (forall q, pair_out (t_m realA t) q = true -> pair_out (r_marks realA r) q = true) as TP.
  { intros q H. unfold pair_out in *. apply orb_prop in H. apply orb_true_iff. destruct H; [left|right]; auto. }
  split; [|split; [|split]].
  - intros px b H. destruct (I3 px b H) as (J1 & J2). split; [easy|]. split; [auto|].
    intro Hd. destruct (I4 Hd) as (_ & E). rewrite E in J2. destruct b; [now rewrite J1|now rewrite J2].
  - rewrite ER.
    assert (forall b, (let '(m', nt) := fold_left (reject_pair realA var) ps (t_m realA t, t_nout realA t) in
      {| r_found := true; r_feats := map (reject_feat realA var) fs; r_marks := m'; r_nout_board := b; r_nout_tri := nt; r_var := var |}).(r_found realA) = true) as RT.
    { intro b. now destruct (fold_left _ ps _). }
    assert (forall b : bool, forall x y, r_found realA x = true -> r_found realA y = false -> (r_found realA (if b then x else y) = false <-> b = false)) as IFF.
    { intros [] x y E1 E2; [rewrite E1; easy|rewrite E2; easy]. }
    rewrite IFF; [|apply RT|reflexivity].
    rewrite !orb_false_iff. split.
    + intros ((F1 & F2) & F3). specialize (I5 F1).
      destruct (I4 I5) as (_ & E). rewrite E in F3.
      split; [exact I5|]. split.
      * intros f Hf Hi Hfar. apply feat_beyond_far in Hfar; [|lia|easy].
        assert (existsb (fun f => inlier realA f && feat_beyond realA 5 var f) fs = true) as X.
        { apply existsb_exists. exists f. split; [easy|]. apply inlier_iff in Hi. now rewrite Hi, Hfar. }
        congruence.
      * intros px Hp Ho Hfar. apply (beyond_far 5) in Hfar; [|lia|easy].
        assert (existsb (fun px => negb (pair_out m (fst px)) && beyond realA 5 var (snd px)) ps = true) as X.
        { apply existsb_exists. exists px. split; [easy|]. apply andb_true_intro; split; [apply negb_true_iff; exact Ho|exact Hfar]. }
        congruence.
    + intros (G1 & G2 & G3). destruct (I4 G1) as (E1 & E2). rewrite E2. split; [split; [exact E1|]|].
      * apply not_true_iff_false. rewrite existsb_exists. intros (f & F1 & F2). apply andb_prop in F2 as (F2 & F3).
        apply inlier_iff in F2. apply feat_beyond_far in F3; [|lia|easy]. now apply (G2 f).
      * apply not_true_iff_false. rewrite existsb_exists. intros (px & F1 & F2). apply andb_prop in F2 as (F2 & F3).
        apply negb_true_iff in F2. apply (beyond_far 5) in F3; [|lia|easy]. now apply (G3 px).
  - intro Hf. specialize (M3 Hf). rewrite EV in M3. split.
    + rewrite M3. clearbody var. clear -Nv. induction fs as [|f fs IH]; cbn [map]; constructor; [|easy].
      rewrite <- !inlier_not, inlier_reject by apply real_weight_ok.
      rewrite andb_false_iff, negb_false_iff, (feat_beyond_far 4) by (lia || easy). easy.
    + intros px Hp Hfar. apply (beyond_far 4) in Hfar; [|lia|easy].
      rewrite ER in Hf |- *. match goal with |- context[if ?b then _ else _] => destruct b end; [|discriminate Hf].
      pose proof (reject_fold realA div_ var ps (t_m realA t, t_nout realA t)) as (_ & _ & RF).
      destruct (fold_left (reject_pair realA var) ps _) as (m', nt). cbn [r_marks fst] in *. auto.
  - assert (forall l, length (inliers l) = length (filter (inlier realA) l)) as IL.
    { intro l. unfold inliers. f_equal. apply filter_ext. intro f. unfold inlier. cbn. now destruct (Rle_dec _ _). }
    rewrite ER. match goal with |- context[if ?b then _ else _] => destruct b end; [|reflexivity].
    destruct (fold_left (reject_pair realA var) ps _) as (m', nt). cbn [r_nout_board r_feats].
    rewrite !IL. unfold count. rewrite map_filter_len.
    clearbody var. clear -Nv. induction fs as [|f fs IH]; cbn [filter length]; [easy|].
    rewrite inlier_reject by apply real_weight_ok.
    destruct (inlier realA f), (feat_beyond realA 4 var f); cbn [andb negb length]; lia.
Qed.
End T.
