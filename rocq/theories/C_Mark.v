(** Outlier rejection: C16, C17, C18. *)
From Coq Require Import ZArith List Bool Reals Lra Lia.
From Flocq Require Import BinarySingleNaN.
From Verif Require Import M_Mark S_Mark P_Mark P_MarkR M_Double P_Double.
Import ListNotations.
Open Scope Z_scope.

(** ** C16: monotone, magnitudes preserved.
    In any sane arithmetic; instances for the reals and for IEEE doubles
    (including NaN and infinite residuals) follow. *)
Theorem C16_reject_monotone : forall (A : arith) nn, sane A nn ->
  forall div_ (fs : list (feat A)) ps m,
  let r := mark_outliers A div_ fs ps m in
  (* nothing new: everything unchanged *)
  (r_found A r = false -> r_feats A r = fs /\ forall k, r_marks A r k = m k) /\
  (* found: some inlier became an outlier *)
  (r_found A r = true -> Forall (fun f => weight_ok A (f_w f)) fs ->
     (exists i f f', nth_error fs i = Some f /\ nth_error (r_feats A r) i = Some f' /\ inlier A f = true /\ inlier A f' = false)
     \/ (exists px k, In px ps /\ (k = fst (fst px) \/ k = snd (fst px)) /\ m k = false /\ r_marks A r k = true)) /\
  (* each feature: unchanged or an inlier with negated weight *)
  Forall2 (feat_step A) fs (r_feats A r) /\
  (* no triangulated outlier is ever cleared *)
  (forall k, m k = true -> r_marks A r k = true).
Proof.
  intros A nn Hs div_ fs ps m r.
  destruct (mark_cases A nn Hs div_ fs ps m) as (_ & M1 & M2 & M3 & M4 & _). fold r in M1, M2, M3, M4.
  split; [exact M1|]. split; [|split; [|exact M4]].
  - intros F W. destruct (M2 F) as [(_ & f & H1 & H2 & H3)|(px & H1 & k & H2)]; [left|right; eauto].
    apply In_nth_error in H1 as H1'. destruct H1' as (i & Hi). exists i, f, (reject_feat A (r_var A r) f).
    split; [easy|]. split; [rewrite (M3 F); now apply map_nth_error|]. split; [easy|].
    rewrite inlier_reject, H2, H3; [easy|]. rewrite Forall_forall in W. now apply W.
  - destruct (r_found A r).
    + rewrite M3 by easy. generalize (r_var A r). intro v. clear. induction fs as [|f fs IH]; cbn; constructor; [|easy].
      unfold feat_step, reject_feat. destruct (inlier A f && feat_beyond A 4 v f) eqn:E; cbn; [|auto].
      apply andb_prop in E as (E & _). auto.
    + destruct (M1 eq_refl) as (-> & _). clear. induction fs as [|f fs IH]; constructor; [|easy]. unfold feat_step. auto.
Qed.
Print Assumptions C16_reject_monotone.

(** doubles: the weight is bit-for-bit the same or has its sign flipped, a
    negative or zero weight never changes *)
Theorem C16_double : forall div_ (fs : list (feat doubleA)) ps m,
  let r := mark_outliers doubleA div_ fs ps m in
  (r_found doubleA r = false -> r_feats doubleA r = fs /\ forall k, r_marks doubleA r k = m k) /\
  (r_found doubleA r = true -> Forall (fun f : feat doubleA => is_nan (f_w f) = false) fs ->
     (exists i f f', nth_error fs i = Some f /\ nth_error (r_feats doubleA r) i = Some f' /\
                     d_le (f_w f) (B754_zero false) = false /\ d_le (f_w f') (B754_zero false) = true)
     \/ (exists px k, In px ps /\ (k = fst (fst px) \/ k = snd (fst px)) /\ m k = false /\ r_marks doubleA r k = true)) /\
  Forall2 (fun f f' : feat doubleA =>
     f_dx f' = f_dx f /\ f_dy f' = f_dy f /\ Babs (f_w f') = Babs (f_w f : double) /\
     (d_le (f_w f) (B754_zero false) = true -> f_w f' = f_w f)) fs (r_feats doubleA r) /\
  (forall k, m k = true -> r_marks doubleA r k = true).
Proof.
  intros div_ fs ps m r.
  destruct (C16_reject_monotone doubleA nn double_sane div_ fs ps m) as (M1 & M2 & M3 & M4). fold r in M1, M2, M3, M4.
  split; [exact M1|]. split; [|split; [|exact M4]].
  - intros F W. destruct (M2 F) as [(i & f & f' & H1 & H2 & H3 & H4)|H].
    + clear -W. induction W; constructor; auto. now apply double_weight_ok.
    + left. exists i, f, f'. unfold inlier in *. apply negb_true_iff in H3. apply negb_false_iff in H4. auto.
    + now right.
  - clear -M3. induction M3 as [|f f' l l' H _ IH]; constructor; [|easy].
    destruct H as (H1 & H2 & H3). split; [easy|]. split; [easy|].
    destruct H3 as [E|(H3 & E)].
    + rewrite E. split; [reflexivity|easy].
    + rewrite E, d_neg. split; [apply Babs_Bopp|]. intro H. unfold inlier in H3. apply negb_true_iff in H3. cbn in H3. congruence.
Qed.
Print Assumptions C16_double.

(** reals *)
Theorem C16_real : forall div_ (fs : list (feat realA)) ps m,
  let r := mark_outliers realA div_ fs ps m in
  (r_found realA r = false -> r_feats realA r = fs /\ forall k, r_marks realA r k = m k) /\
  (r_found realA r = true ->
     (exists i f f', nth_error fs i = Some f /\ nth_error (r_feats realA r) i = Some f' /\ (f_w f > 0)%R /\ (f_w f' <= 0)%R)
     \/ (exists px k, In px ps /\ (k = fst (fst px) \/ k = snd (fst px)) /\ m k = false /\ r_marks realA r k = true)) /\
  Forall2 (fun f f' : feat realA =>
     f_dx f' = f_dx f /\ f_dy f' = f_dy f /\ Rabs (f_w f') = Rabs (f_w f) /\
     ((f_w f <= 0)%R -> f_w f' = f_w f)) fs (r_feats realA r) /\
  (forall k, m k = true -> r_marks realA r k = true).
Proof.
  intros div_ fs ps m r.
  destruct (C16_reject_monotone realA _ real_sane div_ fs ps m) as (M1 & M2 & M3 & M4). fold r in M1, M2, M3, M4.
  split; [exact M1|]. split; [|split; [|exact M4]].
  - intros F. destruct (M2 F) as [(i & f & f' & H1 & H2 & H3 & H4)|H].
    + apply Forall_forall. intros. apply real_weight_ok.
    + left. exists i, f, f'. apply inlier_iff in H3. apply inlier_not in H4. auto.
    + now right.
  - clear -M3. induction M3 as [|f f' l l' H _ IH]; constructor; [|easy].
    destruct H as (H1 & H2 & H3). split; [easy|]. split; [easy|].
    destruct H3 as [E|(H3 & E)].
    + rewrite E. split; [reflexivity|easy].
    + rewrite E. apply inlier_iff in H3. unfold is_inlier in H3. split; [|lra].
      cbn. rewrite Rabs_mult, (Rabs_left (-1)) by lra. lra.
Qed.
Print Assumptions C16_real.

(** ** C17: the loop terminates, whatever the solver does *)
Section Loop.
Variables (A : arith) (nn : T A -> Prop).
Hypothesis Hs : sane A nn.
Variable div_ : nat * nat -> bool.
Variable solve : nat -> list (T A) -> marks -> option (list (T A * T A) * list (T A)).
Variable do_reject : bool.
(** the solver returns one residual pair per board feature *)
Hypothesis Hlen : forall k ws m xs ts, solve k ws m = Some (xs, ts) -> length xs = length ws.

Lemma weights_kept : forall ws xs pairs ts m, length ws = length xs -> Forall (weight_ok A) ws ->
  let r := mark_outliers A div_ (with_residuals A ws xs) (combine pairs ts) m in
  Forall (weight_ok A) (map f_w (r_feats A r)).
Proof.
  intros ws xs pairs ts m E W r.
  assert (Forall (fun f => weight_ok A (f_w f)) (with_residuals A ws xs)) as WF.
  { apply (Forall_map f_w (weight_ok A)). now rewrite (weights_of A ws xs E). }
  destruct (C16_reject_monotone A nn Hs div_ (with_residuals A ws xs) (combine pairs ts) m) as (_ & _ & S & _). fold r in S.
  apply Forall_map. revert WF. clear -S. induction S as [|f f' l l' H _ IH]; intro W; constructor.
  - inversion_clear W as [|? ? W1 W2]. destruct H as (_ & _ & [E|(E1 & E2)]); [now rewrite E|].
    rewrite E2. unfold inlier in E1. apply negb_true_iff in E1. unfold weight_ok in *. intro F. rewrite W1 in F; easy.
  - apply IH. now inversion W.
Qed.

Theorem C17_loop_terminates : forall ws pairs m fuel k, Forall (weight_ok A) ws ->
  (n_inliers A ws pairs m < fuel)%nat ->
  exists n, solve_loop A solve div_ do_reject fuel k ws pairs m = Some n /\ (k < n <= k + n_inliers A ws pairs m + 1)%nat.
Proof.
  intros ws pairs m fuel. revert ws m. induction fuel as [|fuel IH]; intros ws m k W Hf; [lia|].
  cbn [solve_loop]. destruct (solve k ws m) as [(xs, ts)|] eqn:Es; [|exists (S k); split; [easy|lia]].
  destruct do_reject; [|exists (S k); split; [easy|lia]].
  set (r := mark_outliers A div_ (with_residuals A ws xs) (combine pairs ts) m).
  destruct (r_found A r) eqn:F; [|exists (S k); split; [easy|lia]].
  pose proof (Hlen _ _ _ _ _ Es) as El. symmetry in El.
  pose proof (pass_decreases A nn Hs div_ ws xs pairs ts m El W F) as D. fold r in D.
  destruct (IH (map f_w (r_feats A r)) (r_marks A r) (S k)) as (n & E & Hn).
  - now apply weights_kept.
  - lia.
  - exists n. split; [exact E|lia].
Qed.
End Loop.
Print Assumptions C17_loop_terminates.

(** doubles: any solver, even one returning NaNs; weights must not be NaN *)
Theorem C17_double : forall div_ solve do_reject,
  (forall k ws m xs ts, solve k ws m = Some (xs, ts) -> length xs = length ws) ->
  forall ws pairs m, Forall (fun w : double => is_nan w = false) ws ->
  exists n, solve_loop doubleA solve div_ do_reject (S (n_inliers doubleA ws pairs m)) 0 ws pairs m = Some n /\
            (1 <= n <= n_inliers doubleA ws pairs m + 1)%nat.
Proof.
  intros div_ solve do_reject Hl ws pairs m W.
  destruct (C17_loop_terminates doubleA nn double_sane div_ solve do_reject Hl ws pairs m (S (n_inliers doubleA ws pairs m)) 0) as (n & E & H).
  - eapply Forall_impl; [|exact W]. apply double_weight_ok.
  - lia.
  - exists n. split; [exact E|lia].
Qed.
Print Assumptions C17_double.

(** a NaN weight cannot be marked: with an adversarial solver the loop never
    ends.  (The weight keeps counting as an inlier.) *)
Theorem C17_nan_weight_refuted : exists div_ solve ws pairs m,
  (forall k ws m xs ts, solve k ws m = Some (xs, ts) -> length xs = length ws) /\
  forall fuel k, solve_loop doubleA solve div_ true fuel k ws pairs m = None.
Proof.
  exists (fun _ => false).
  exists (fun _ ws _ => Some (map (fun w : double => if is_nan w then (d_ofZ 1000, d_ofZ 1000) else (d_ofZ 0, d_ofZ 0)) ws, @nil double)).
  exists ((B754_nan : double) :: repeat (B754_infinity false) 60), [], (fun _ => false).
  split; [intros ? ? ? ? ? [= <- _]; apply map_length|].
  induction fuel as [|fuel IH]; intro k; [reflexivity|].
  cbn [solve_loop].
  match goal with |- context[mark_outliers ?a ?b ?c ?d ?e] => set (r := mark_outliers a b c d e) end.
  assert (r_found doubleA r = true) as -> by (vm_compute; reflexivity).
  assert (map f_w (r_feats doubleA r) = (B754_nan : double) :: repeat (B754_infinity false) 60) as -> by (vm_compute; reflexivity).
  assert (forall (m1 m2 : marks) fuel k ws,
     solve_loop doubleA (fun _ ws _ => Some (map (fun w : double => if is_nan w then (d_ofZ 1000, d_ofZ 1000) else (d_ofZ 0, d_ofZ 0)) ws, @nil double)) (fun _ => false) true fuel k ws [] m1 =
     solve_loop doubleA (fun _ ws _ => Some (map (fun w : double => if is_nan w then (d_ofZ 1000, d_ofZ 1000) else (d_ofZ 0, d_ofZ 0)) ws, @nil double)) (fun _ => false) true fuel k ws [] m2) as Ext.
  { clear. intros m1 m2. assert (forall fuel k ws, forall m1 m2 : marks,
      solve_loop doubleA (fun _ ws _ => Some (map (fun w : double => if is_nan w then (d_ofZ 1000, d_ofZ 1000) else (d_ofZ 0, d_ofZ 0)) ws, @nil double)) (fun _ => false) true fuel k ws [] m1 =
      solve_loop doubleA (fun _ ws _ => Some (map (fun w : double => if is_nan w then (d_ofZ 1000, d_ofZ 1000) else (d_ofZ 0, d_ofZ 0)) ws, @nil double)) (fun _ => false) true fuel k ws [] m2) as G; [|intros; apply G].
    induction fuel as [|fuel IH]; intros k ws n1 n2; [reflexivity|]. cbn [solve_loop].
    unfold mark_outliers. cbn [combine tri_pass fold_left t_m t_var t_nin t_found t_nout existsb].
    destruct (sum_boards _ _) as ((? & ?) & ?). rewrite !orb_false_r, !orb_false_l.
    destruct (existsb _ _); cbn [r_found r_feats r_marks]; [apply IH|reflexivity]. }
  rewrite (Ext _ (fun _ => false)). apply IH.
Qed.
Print Assumptions C17_nan_weight_refuted.

(** ** C18: the rule, over the reals.  [sel] tells which pair residuals entered
    the variance.  Board features: exactly the published rule.  Triangulated
    pairs: the variance also contains pairs examined before one of their points
    was found divergent, hence [sel]; without divergent pairs it is exactly the
    entry inliers. *)
Theorem C18_exact_threshold : forall div_ (fs : list (feat realA)) (ps : list ((nat * nat) * R)) (m : marks),
  let r := mark_outliers realA div_ fs ps m in
  exists sel, length sel = length ps /\
  let var := mean_square fs (select sel (map snd ps)) in
  (0 <= var)%R /\
  (forall px b, In (px, b) (combine ps sel) ->
     (b = true -> pair_out m (fst px) = false) /\
     (b = false -> pair_out (r_marks realA r) (fst px) = true) /\
     ((forall qx, In qx ps -> pair_out m (fst qx) = false -> div_ (fst qx) = false) -> b = negb (pair_out m (fst px)))) /\
  (r_found realA r = false <->
     (forall px, In px ps -> pair_out m (fst px) = false -> div_ (fst px) = false) /\
     (forall f, In f fs -> is_inlier f -> ~ feat_far 5 var f) /\
     (forall px, In px ps -> pair_out m (fst px) = false -> ~ far 5 var (snd px))) /\
  (r_found realA r = true ->
     Forall2 (fun f f' : feat realA => (f_w f' <= 0)%R <-> ((f_w f <= 0)%R \/ feat_far 4 var f)) fs (r_feats realA r) /\
     (forall px, In px ps -> far 4 var (snd px) -> pair_out (r_marks realA r) (fst px) = true)) /\
  r_nout_board realA r = Z.of_nat (length fs) - Z.of_nat (length (inliers (r_feats realA r))).
Proof.
  intros div_ fs ps m r. destruct (rule div_ fs ps m) as (sel & L & _ & H). exists sel. split; [exact L|exact H].
Qed.
Print Assumptions C18_exact_threshold.

(** boards only (the documented use): no side conditions left *)
Theorem C18_boards_only : forall div_ (fs : list (feat realA)) (m : marks),
  let r := mark_outliers realA div_ fs [] m in
  let var := mean_square fs [] in
  (r_found realA r = false <-> forall f, In f fs -> is_inlier f -> ~ feat_far 5 var f) /\
  (r_found realA r = true ->
     Forall2 (fun f f' : feat realA => (f_w f' <= 0)%R <-> ((f_w f <= 0)%R \/ feat_far 4 var f)) fs (r_feats realA r)).
Proof.
  intros div_ fs m r var. destruct (C18_exact_threshold div_ fs [] m) as (sel & L & H).
  destruct sel; [|discriminate L]. cbn [map select] in H. cbn zeta in H. fold r var in H.
  destruct H as (_ & _ & H1 & H2 & _). split.
  - unfold r. rewrite H1. cbn. intuition.
  - intro F. now destruct (H2 F).
Qed.
Print Assumptions C18_boards_only.

(** Which triangulated points are newly marked: only the two points of a pair
    that diverges or whose own residual is beyond 4 sigma. *)
Theorem C18_tri_marks : forall div_ (fs : list (feat realA)) (ps : list ((nat * nat) * R)) m k,
  let r := mark_outliers realA div_ fs ps m in
  r_marks realA r k = true -> m k = true \/ exists px, In px ps /\
     (div_ (fst px) = true \/ far 4 (r_var realA r) (snd px)) /\ (k = fst (fst px) \/ k = snd (fst px)).
Proof.
  intros div_ fs ps m k r H. destruct (mark_cases realA _ real_sane div_ fs ps m) as (V & _ & _ & _ & _ & G).
  destruct (G k H) as [?|(px & P1 & [P2|P2] & P3)]; [now left|right; eauto 6|].
  right. exists px. split; [easy|]. split; [right|easy]. apply (beyond_far 4) in P2; [easy|lia|exact V].
Qed.
Print Assumptions C18_tri_marks.

(** ** Examples *)
(** 30 doubles: 28 small residuals, an old outlier (weight -1, enormous
    residual, ignored) and one fresh outlier; one fresh rejection *)
Definition ex_feats : list (feat doubleA) :=
  {| f_w := d_ofZ (-1) : T doubleA; f_dx := d_ofZ 100000; f_dy := d_ofZ 0 |} ::
  {| f_w := d_ofZ 2 : T doubleA; f_dx := d_ofZ 0; f_dy := d_ofZ (-50) |} ::
  repeat {| f_w := d_ofZ 1 : T doubleA; f_dx := d_ofZ 1; f_dy := d_ofZ (-1) |} 28.
Example ex_reject : let r := mark_outliers doubleA (fun _ => false) ex_feats [] (fun _ => false) in
  r_found doubleA r = true /\ r_nout_board doubleA r = 2 /\
  map (fun f : feat doubleA => d_le (f_w f) (B754_zero false)) (r_feats doubleA r) = true :: true :: repeat false 28.
Proof. vm_compute. repeat split; reflexivity. Qed.
Example ex_hyp : Forall (fun f : feat doubleA => is_nan (f_w f) = false) ex_feats.
Proof. unfold ex_feats. repeat constructor; vm_compute; reflexivity. Qed.
(** a solver that keeps producing a fresh outlier: three solves *)
Example ex_loop : exists n, solve_loop doubleA
  (fun k ws _ => Some (map (fun i => if Nat.eqb i k && Nat.leb k 1 then (d_ofZ 1000, d_ofZ 0) else (d_ofZ 1, d_ofZ 1)) (seq 0 (length ws)), @nil double))
  (fun _ => false) true 61 0 (repeat (d_ofZ 1) 60) [] (fun _ => false) = Some n /\ n = 3%nat.
Proof. eexists. vm_compute. split; reflexivity. Qed.
