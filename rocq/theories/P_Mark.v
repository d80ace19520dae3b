(** Proofs about outlier rejection. *)
From Coq Require Import ZArith List Bool Lia ZifyBool ZifyNat.
From Verif Require Import M_Mark S_Mark.
Import ListNotations.
Open Scope Z_scope.

Section P.
Variable A : arith.
Variable nn : T A -> Prop.
Hypothesis Hs : sane A nn.
Variable div_ : nat * nat -> bool.

Lemma sum_boards_nn : forall fs, nn (snd (sum_boards A fs)) /\ 0 <= snd (fst (sum_boards A fs)).
Proof.
  intro fs. unfold sum_boards.
  assert (forall acc, nn (snd acc) -> 0 <= snd (fst acc) ->
    let r := fold_left (fun acc f => let '(nout, nin, v) := acc in
    if inlier A f then (nout, nin + 1, add A v (add A (sq A (f_dx f)) (sq A (f_dy f)))) else (nout + 1, nin, v)) fs acc in
    nn (snd r) /\ 0 <= snd (fst r)) as W.
  { induction fs as [|f fs IH]; intros [[no ni] v] H1 H2; cbn [fold_left]; [easy|].
    destruct (inlier A f); apply IH; cbn in *; auto; [|lia].
    apply (s_add _ _ Hs); [easy|]. apply (s_add _ _ Hs); apply (s_sq _ _ Hs). }
  apply W; cbn; [apply Hs|lia].
Qed.

Lemma tri_step_mono : forall s px, (forall k, t_m A s k = true -> t_m A (tri_step A div_ s px) k = true).
Proof.
  intros s (p, x) k H. unfold tri_step. generalize (negb (pair_out (t_m A s) p) && div_ p). intro b.
  destruct (pair_out _ p); cbn [t_m]; destruct b; auto; unfold mark2; rewrite H; easy.
Qed.
Lemma tri_step_nn : forall s px, nn (t_var A s) -> 0 <= t_nin A s -> nn (t_var A (tri_step A div_ s px)) /\ 0 <= t_nin A (tri_step A div_ s px).
Proof.
  intros s (p, x) H1 H2. unfold tri_step. destruct (pair_out _ p); cbn [t_var t_nin]; [easy|].
  split; [|lia]. apply (s_add _ _ Hs); [easy|apply Hs].
Qed.
(** found => some new mark on a point of some pair; not found => no change *)
Lemma tri_fold : forall ps s, nn (t_var A s) -> 0 <= t_nin A s ->
  let t := fold_left (tri_step A div_) ps s in
  nn (t_var A t) /\ 0 <= t_nin A t /\ (forall k, t_m A s k = true -> t_m A t k = true) /\
  (t_found A s = true -> t_found A t = true) /\
  (t_found A s = false -> t_found A t = false -> forall k, t_m A t k = t_m A s k) /\
  (t_found A s = false -> t_found A t = true -> exists px, In px ps /\
     t_m A s (fst (fst px)) = false /\ t_m A t (fst (fst px)) = true) /\
  (forall k, t_m A t k = true -> t_m A s k = true \/ exists px, In px ps /\ div_ (fst px) = true /\ (k = fst (fst px) \/ k = snd (fst px))).
Proof.
  induction ps as [|px ps IH]; intros s H1 H2; cbn [fold_left].
  - repeat split; auto. intros. congruence.
  - destruct (tri_step_nn s px H1 H2) as (H1' & H2').
    specialize (IH (tri_step A div_ s px) H1' H2'). cbn zeta in IH.
    destruct IH as (I1 & I2 & I3 & I4 & I5 & I6 & I7).
    set (t := fold_left _ ps _) in *.
    assert (t_found A (tri_step A div_ s px) = t_found A s || (negb (pair_out (t_m A s) (fst px)) && div_ (fst px))) as Ef.
    { destruct px as (p, x). unfold tri_step. cbn [fst]. generalize (negb (pair_out (t_m A s) p) && div_ p). intro b. now destruct (pair_out _ p). }
    assert (t_m A (tri_step A div_ s px) = if negb (pair_out (t_m A s) (fst px)) && div_ (fst px) then mark2 (t_m A s) (fst (fst px)) (snd (fst px)) else t_m A s) as Em.
    { destruct px as (p, x). unfold tri_step. cbn [fst]. generalize (negb (pair_out (t_m A s) p) && div_ p). intro b. now destruct (pair_out _ p). }
    set (nw := negb _ && _) in *.
    repeat split; auto.
    + intros k H. apply I3. now apply tri_step_mono.
    + intro H. apply I4. now rewrite Ef, H.
    + intros Hf Ht k. rewrite Hf in Ef. destruct nw.
      * rewrite I4 in Ht; [discriminate|now rewrite Ef].
      * rewrite I5; [now rewrite Em|now rewrite Ef|easy].
    + intros Hf Ht. rewrite Hf in Ef. destruct nw eqn:Enw.
      * unfold nw in Enw. apply andb_prop in Enw as (E1 & _). unfold pair_out in E1. apply negb_true_iff, orb_false_iff in E1.
        exists px. split; [now left|]. split; [easy|]. apply I3. rewrite Em. unfold mark2. rewrite Nat.eqb_refl. now destruct (t_m A s _).
      * destruct I6 as (q & Q1 & Q2 & Q3); [now rewrite Ef|easy|]. rewrite Em in Q2. exists q. split; [now right|easy].
    + intros k Hk. destruct (I7 k Hk) as [H|(q & Q & Q')].
      * rewrite Em in H. destruct nw eqn:Enw; [|now left]. unfold mark2 in H. unfold nw in Enw. apply andb_prop in Enw as (_ & E2).
        destruct (t_m A s k) eqn:E; [now left|]. right. exists px. split; [now left|]. split; [easy|]. lia.
      * right. exists q. split; [now right|easy].
Qed.

Lemma reject_fold : forall var ps s,
  let r := fold_left (reject_pair A var) ps s in
  (forall k, fst s k = true -> fst r k = true) /\
  (forall k, fst r k = true -> fst s k = true \/ exists px, In px ps /\ beyond A 4 var (snd px) = true /\ (k = fst (fst px) \/ k = snd (fst px))) /\
  (forall px, In px ps -> beyond A 4 var (snd px) = true -> pair_out (fst r) (fst px) = true).
Proof.
  intros var. induction ps as [|(p, x) ps IH]; intros s; cbn [fold_left].
  - repeat split; auto.
  - specialize (IH (reject_pair A var s (p, x))). cbn zeta in IH. destruct IH as (I1 & I2 & I3).
    unfold reject_pair in *. set (r := fold_left _ ps _) in *.
    destruct (negb (pair_out (fst s) p) && beyond A 4 var x) eqn:E; cbn [fst snd] in *.
    + apply andb_prop in E as (E1 & E2). repeat split.
      * intros k H. apply I1. unfold mark2. now rewrite H.
      * intros k H. destruct (I2 k H) as [H'|(q & Q & Q')]; [|right; exists q; split; [now right|easy]].
        unfold mark2 in H'. destruct (fst s k) eqn:Ek; [now left|]. right. exists (p, x). cbn [fst snd]. split; [now left|]. split; [easy|lia].
      * intros q [<-|Hq] Hb; [|auto]. cbn [fst snd] in *. unfold pair_out. rewrite I1; [easy|].
        unfold mark2. rewrite Nat.eqb_refl. now destruct (fst s (fst p)).
    + repeat split; auto.
      * intros k H. destruct (I2 k H) as [H'|(q & Q & Q')]; [now left|right; exists q; split; [now right|easy]].
      * intros q [<-|Hq] Hb; [|auto]. cbn [fst snd] in *. rewrite Hb, andb_true_r in E. apply negb_false_iff in E.
        unfold pair_out in *. apply orb_prop in E. destruct E as [E|E]; rewrite (I1 _ E); [easy|]. apply orb_true_r.
Qed.

Lemma feat_beyond_5_4 : forall v f, nn v -> feat_beyond A 5 v f = true -> feat_beyond A 4 v f = true.
Proof.
  intros v f H E. unfold feat_beyond in *. apply orb_prop in E. apply orb_true_iff.
  destruct E; [left|right]; now apply (s_beyond _ _ Hs).
Qed.

(** the shape of a result *)
Lemma mark_cases : forall fs ps m, let r := mark_outliers A div_ fs ps m in
  nn (r_var A r) /\
  (r_found A r = false -> r_feats A r = fs /\ forall k, r_marks A r k = m k) /\
  (r_found A r = true -> r_feats A r = map (reject_feat A (r_var A r)) fs /\
     (exists f, In f fs /\ inlier A f = true /\ feat_beyond A 4 (r_var A r) f = true) \/
     (exists px, In px ps /\ exists k, (k = fst (fst px) \/ k = snd (fst px)) /\ m k = false /\ r_marks A r k = true)) /\
  (r_found A r = true -> r_feats A r = map (reject_feat A (r_var A r)) fs) /\
  (forall k, m k = true -> r_marks A r k = true) /\
  (forall k, r_marks A r k = true -> m k = true \/ exists px, In px ps /\
     (div_ (fst px) = true \/ beyond A 4 (r_var A r) (snd px) = true) /\ (k = fst (fst px) \/ k = snd (fst px))).
Proof.
  intros fs ps m. unfold mark_outliers.
  destruct (sum_boards A fs) as ((nout, nin), v) eqn:Es.
  pose proof (sum_boards_nn fs) as (Hv & Hn). rewrite Es in Hv, Hn. cbn [fst snd] in Hv, Hn.
  pose proof (tri_fold ps {| t_m := m; t_found := false; t_nout := 0; t_nin := 0; t_var := v |}) as W.
  cbn [t_m t_found t_nout t_nin t_var] in W. specialize (W Hv ltac:(lia)). cbn zeta in W.
  fold (tri_pass A div_ ps m v) in W. set (t := tri_pass A div_ ps m v) in *.
  destruct W as (W1 & W2 & W3 & _ & W5 & W6 & W7). specialize (W5 eq_refl). specialize (W6 eq_refl).
  set (var := div A (t_var A t) (ofZ A (nin * 2 + t_nin A t))).
  assert (nn var) as Nv by (apply (s_div _ _ Hs); [easy|lia]).
  destruct (t_found A t || existsb (fun f => inlier A f && feat_beyond A 5 var f) fs
             || existsb (fun px => negb (pair_out (t_m A t) (fst px)) && beyond A 5 var (snd px)) ps) eqn:F.
  - destruct (fold_left (reject_pair A var) ps (t_m A t, t_nout A t)) as (m', nt) eqn:Er.
    pose proof (reject_fold var ps (t_m A t, t_nout A t)) as R. rewrite Er in R. cbn [fst] in R. destruct R as (R1 & R2 & R3).
    cbn [r_var r_found r_feats r_marks]. repeat split; auto; try discriminate.
    + intros _. apply orb_prop in F. destruct F as [F|F]; [apply orb_prop in F; destruct F as [F|F]|].
      * destruct (W6 F) as (px & P1 & P2 & P3). right. exists px. split; [easy|]. exists (fst (fst px)). auto.
      * left. split; [easy|]. apply existsb_exists in F. destruct F as (f & F1 & F2). apply andb_prop in F2 as (F2 & F3).
        exists f. repeat split; auto. now apply feat_beyond_5_4.
      * right. apply existsb_exists in F. destruct F as (px & F1 & F2). apply andb_prop in F2 as (F2 & F3).
        exists px. split; [easy|]. apply (s_beyond _ _ Hs) in F3; [|easy].
        specialize (R3 px F1 F3). unfold pair_out in *. apply negb_true_iff, orb_false_iff in F2. destruct F2 as (G1 & G2).
        apply orb_prop in R3. destruct R3 as [R3|R3]; [exists (fst (fst px))|exists (snd (fst px))];
          (split; [auto|]; split; [|easy]).
        -- destruct (m (fst (fst px))) eqn:E; [|easy]. apply W3 in E. congruence.
        -- destruct (m (snd (fst px))) eqn:E; [|easy]. apply W3 in E. congruence.
    + intros k Hk. destruct (R2 k Hk) as [Hk'|(px & P1 & P3 & P2)]; [|right; eauto 6].
      destruct (W7 k Hk') as [?|(px & P1 & P3 & P2)]; [now left|right; eauto 6].
  - cbn [r_var r_found r_feats r_marks]. repeat split; auto; try discriminate.
    + intros k. apply W5. apply orb_false_iff in F as (F & _). apply orb_false_iff in F. easy.
    + intros k Hk. destruct (W7 k Hk) as [?|(px & P1 & P3 & P2)]; [now left|right; eauto 6].
Qed.

Lemma inlier_reject : forall v f, weight_ok A (f_w f) ->
  inlier A (reject_feat A v f) = inlier A f && negb (feat_beyond A 4 v f).
Proof.
  intros v f H. unfold reject_feat. destruct (inlier A f) eqn:E; cbn [andb]; [|exact E].
  destruct (feat_beyond A 4 v f); cbn [negb]; [|exact E].
  unfold inlier, set_w. cbn [f_w]. unfold inlier in E. apply negb_true_iff in E. now rewrite (H E).
Qed.

Lemma filter_le : forall (X : Type) (P Q : X -> bool) l, (forall x, In x l -> P x = true -> Q x = true) ->
  (length (filter P l) <= length (filter Q l))%nat.
Proof.
  induction l as [|x l IH]; intro H; cbn; [lia|].
  assert (length (filter P l) <= length (filter Q l))%nat by (apply IH; intros; apply H; [now right|easy]).
  destruct (P x) eqn:E; [rewrite (H x) by (auto; now left); cbn; lia|]. destruct (Q x); cbn; lia.
Qed.
Lemma filter_lt : forall (X : Type) (P Q : X -> bool) l, (forall x, In x l -> P x = true -> Q x = true) ->
  (exists x, In x l /\ P x = false /\ Q x = true) -> (length (filter P l) < length (filter Q l))%nat.
Proof.
  induction l as [|x l IH]; intros H (y & Hy & E1 & E2); [easy|].
  cbn. destruct Hy as [<-|Hy].
  - rewrite E1, E2. cbn. apply Nat.lt_succ_r. apply filter_le. intros; apply H; [now right|easy].
  - assert (length (filter P l) < length (filter Q l))%nat.
    { apply IH; [|eauto]. intros; apply H; [now right|easy]. }
    destruct (P x) eqn:E; [rewrite (H x) by (auto; now left); cbn; lia|]. destruct (Q x); cbn; lia.
Qed.
Lemma map_filter_len : forall (X Y : Type) (g : X -> Y) (P : Y -> bool) l,
  length (filter P (map g l)) = length (filter (fun x => P (g x)) l).
Proof. induction l; cbn; [easy|]. destruct (P (g a)); cbn; now rewrite IHl. Qed.

(** ** the loop *)
Lemma weights_of : forall ws xs, length ws = length xs -> map f_w (with_residuals A ws xs) = ws.
Proof.
  unfold with_residuals. induction ws as [|w ws IH]; intros [|x xs] H; try easy. cbn in *. f_equal. apply IH. lia.
Qed.
Definition pts (pairs : list (nat * nat)) : list nat := nodup Nat.eq_dec (flat_map (fun p => [fst p; snd p]) pairs).

Lemma pair_points : forall pairs (ts : list (T A)) px k, In px (combine pairs ts) -> k = fst (fst px) \/ k = snd (fst px) -> In k (pts pairs).
Proof.
  intros pairs ts ((i, j), x) k H E. apply in_combine_l in H. unfold pts. apply nodup_In, in_flat_map.
  exists (i, j). split; [easy|]. cbn in *. intuition.
Qed.

Lemma pass_decreases : forall ws xs pairs ts m, length ws = length xs -> Forall (weight_ok A) ws ->
  let r := mark_outliers A div_ (with_residuals A ws xs) (combine pairs ts) m in
  r_found A r = true ->
  (n_inliers A (map f_w (r_feats A r)) pairs (r_marks A r) < n_inliers A ws pairs m)%nat.
Proof.
  intros ws xs pairs ts m Hl Hw r Hf.
  set (fs := with_residuals A ws xs) in *.
  assert (ws = map f_w fs) as Ew by (symmetry; now apply weights_of).
  destruct (mark_cases fs (combine pairs ts) m) as (_ & _ & C2 & C3 & C4 & _).
  fold r in C2, C3, C4. specialize (C2 Hf). specialize (C3 Hf).
  assert (forall f, In f fs -> weight_ok A (f_w f)) as Wk.
  { intros f H. rewrite Ew in Hw. rewrite Forall_forall in Hw. apply Hw. now apply in_map. }
  unfold n_inliers. rewrite C3, Ew, map_map, !map_filter_len.
  assert (forall x, In x fs -> negb (le0 A (f_w (reject_feat A (r_var A r) x))) = true -> negb (le0 A (f_w x)) = true) as S1.
  { intros x Hx E. fold (inlier A (reject_feat A (r_var A r) x)) in E. fold (inlier A x).
    rewrite inlier_reject in E by auto. now apply andb_prop in E. }
  assert (forall x, In x (pts pairs) -> negb (r_marks A r x) = true -> negb (m x) = true) as S2.
  { intros x _ E. apply negb_true_iff in E. apply negb_true_iff. destruct (m x) eqn:X; [|easy]. apply C4 in X. congruence. }
  fold (pts pairs).
  destruct C2 as [(_ & f & F1 & F2 & F3) | (px & P1 & k & K1 & K2 & K3)].
  - apply Nat.add_lt_le_mono; [apply filter_lt|now apply filter_le]; auto.
    exists f. split; [easy|]. fold (inlier A (reject_feat A (r_var A r) f)). fold (inlier A f).
    rewrite inlier_reject by auto. rewrite F2, F3. easy.
  - apply Nat.add_le_lt_mono; [now apply filter_le|]. apply filter_lt; auto.
    exists k. split; [eapply pair_points; eauto|]. now rewrite K2, K3.
Qed.
End P.
