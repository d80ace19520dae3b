(* C86: _densify_polyline() goes through all points of the polyline and has no
   step longer than asked for (up to 1e-6 of it), unless there are very short
   segments. *)

From Coq Require Import Reals List ZArith Lia Lra.
From Flocq Require Import Core.Raux.
From Verif Require Import M_Densify S_Densify.
Import ListNotations.
Open Scope R_scope.

(* The points of what is returned *)
Definition points_of (r : returned) : list (R * R) :=
  match r with Itself => [] | Flat q => [q] | Rows l => l end.

Lemma mag_distance a b : mag (minus b a) = distance a b.
Proof. unfold mag, minus, distance. cbn [fst snd]. f_equal. ring. Qed.

Lemma distance_nonneg a b : 0 <= distance a b.
Proof. apply sqrt_pos. Qed.

Lemma distance_zero a b : distance a b = 0 -> a = b.
Proof.
  unfold distance. intro H. apply sqrt_eq_0 in H.
  2:{ pose proof (pow2_ge_0 (fst b - fst a)). pose proof (pow2_ge_0 (snd b - snd a)). lra. }
  pose proof (pow2_ge_0 (fst b - fst a)). pose proof (pow2_ge_0 (snd b - snd a)).
  assert (Ha : (fst b - fst a) ^ 2 = 0) by lra.
  assert (Hb : (snd b - snd a) ^ 2 = 0) by lra.
  rewrite <- Rsqr_pow2 in Ha, Hb. apply Rsqr_0_uniq in Ha, Hb.
  destruct a, b; cbn [fst snd] in *. f_equal; lra.
Qed.

Lemma pieces_floor l s : 0 <= l -> 0 < s ->
  IZR (pieces l s) <= l / s - 1 / 1000000 + 1 < IZR (pieces l s) + 1 /\ (0 <= pieces l s)%Z.
Proof.
  intros Hl Hs. unfold pieces.
  assert (0 <= l / s) by (apply Rmult_le_pos; [exact Hl | left; apply Rinv_0_lt_compat; exact Hs]).
  rewrite Ztrunc_floor by lra. split.
  - split; [apply Zfloor_lb | apply Zfloor_ub].
  - apply Zfloor_lub. simpl. lra.
Qed.

Lemma pieces_short l s : 0 <= l -> 0 < s -> l < s / 1000000 -> pieces l s = 0%Z.
Proof.
  intros Hl Hs H. destruct (pieces_floor l s Hl Hs) as [[H1 _] H2].
  assert (l / s < 1 / 1000000).
  { apply Rmult_lt_reg_r with s; [exact Hs|]. unfold Rdiv at 1. rewrite Rmult_assoc, Rinv_l by lra. lra. }
  assert (IZR (pieces l s) < 1) by lra. apply lt_IZR in H3. lia.
Qed.

Lemma pieces_long l s : 0 < s -> s / 1000000 <= l -> (1 <= pieces l s)%Z.
Proof.
  intros Hs H. assert (Hl : 0 <= l) by lra.
  destruct (pieces_floor l s Hl Hs) as [[_ H1] _].
  assert (1 / 1000000 <= l / s).
  { apply Rmult_le_reg_r with s; [exact Hs|]. unfold Rdiv at 2. rewrite Rmult_assoc, Rinv_l by lra. lra. }
  assert (0 < IZR (pieces l s)) by lra. apply lt_IZR in H2. lia.
Qed.

(* The step: l/N <= (1 + 1e-6) s; and not more pieces than needed *)
Lemma pieces_step l s : 0 < s -> s / 1000000 <= l ->
  l / IZR (pieces l s) <= s * (1 + 1 / 1000000) /\ IZR (pieces l s - 1) * s < l.
Proof.
  intros Hs H. pose proof (pieces_long l s Hs H) as HN. assert (Hl : 0 <= l) by lra.
  destruct (pieces_floor l s Hl Hs) as [[H2 H1] _].
  set (N := IZR (pieces l s)) in *.
  assert (1 <= N) by (apply (IZR_le 1); exact HN).
  assert (Hx : l = l / s * s) by (field; lra).
  set (x := l / s) in *.
  split.
  - apply Rmult_le_reg_r with N; [lra|]. unfold Rdiv at 1. rewrite Rmult_assoc, Rinv_l by lra.
    rewrite Hx, Rmult_1_r.
    assert (x <= N + 1 / 1000000) by lra.
    assert (x * s <= (N + 1 / 1000000) * s) by (apply Rmult_le_compat_r; lra).
    assert (1 * s <= N * s) by (apply Rmult_le_compat_r; lra). lra.
  - rewrite minus_IZR. fold N. rewrite Hx. apply Rmult_lt_compat_r; lra.
Qed.

(* Fractions (j+1)/N for j = k, ..., n-2 *)
Lemma climbs_fractions (n : nat) (step : R) : forall m k, (k + m + 1 = n)%nat ->
  / INR n <= step ->
  climbs step (INR k / INR n) (map (fun j => INR (j + 1) / INR n) (seq k m)).
Proof.
  induction m as [|m IH]; intros k Hk Hs; cbn [seq map climbs].
  - assert (0 < INR n) by (apply lt_0_INR; lia).
    assert (HI : INR n = INR k + 1) by (replace n with (S k) by lia; apply S_INR).
    split.
    + apply Rmult_lt_reg_r with (INR n); [assumption|]. unfold Rdiv.
      rewrite Rmult_assoc, Rinv_l by lra. lra.
    + replace (1 - INR k / INR n) with (/ INR n); [exact Hs|].
      rewrite HI. field. pose proof (pos_INR k). lra.
  - assert (0 < INR n) by (apply lt_0_INR; lia).
    assert (HI : INR (k + 1) = INR k + 1) by (rewrite plus_INR; reflexivity).
    split; [|split].
    + rewrite HI. unfold Rdiv. apply Rmult_lt_compat_r; [apply Rinv_0_lt_compat; assumption | lra].
    + rewrite HI. replace ((INR k + 1) / INR n - INR k / INR n) with (/ INR n); [exact Hs|]. field. lra.
    + replace (k + 1)%nat with (S k) by lia. apply IH; [lia | exact Hs].
Qed.

Lemma segment_shape s a b : 0 < s -> s / 1000000 <= distance a b ->
  exists ts, segment s a b = map (between a b) ts ++ [b] /\
    climbs (s * (1 + 1 / 1000000) / distance a b) 0 ts /\
    INR (length ts) * s < distance a b.
Proof.
  intros Hs H.
  pose proof (pieces_long _ _ Hs H) as HN. destruct (pieces_step _ _ Hs H) as [Hst Hc].
  assert (Hd : 0 < distance a b) by lra.
  unfold segment. rewrite mag_distance. set (z := pieces (distance a b) s) in *.
  set (n := Z.to_nat z).
  assert (Hz : IZR z = INR n) by (unfold n; rewrite INR_IZR_INZ, Z2Nat.id by lia; reflexivity).
  assert (Hn : (1 <= n)%nat) by (unfold n; lia).
  assert (Hn0 : 0 < INR n) by (apply lt_0_INR; lia).
  exists (map (fun j => INR (j + 1) / INR n) (seq 0 (n - 1))). split; [|split].
  - replace n with ((n - 1) + 1)%nat at 1 by lia. rewrite seq_app, map_app, map_map. f_equal.
    + apply map_ext. intro j. rewrite Hz. unfold between, minus. cbn [fst snd]. f_equal; ring.
    + cbn [seq map]. replace (0 + (n - 1) + 1)%nat with n by lia. rewrite Hz.
      unfold minus. cbn [fst snd]. destruct b as [bx by']. cbn [fst snd].
      f_equal. f_equal; field; lra.
  - replace 0 with (INR 0 / INR n) by (cbn [INR]; field; lra).
    apply climbs_fractions; [lia|].
    rewrite Hz in Hst.
    apply Rmult_le_reg_r with (distance a b); [exact Hd|].
    unfold Rdiv at 1. rewrite Rmult_assoc, Rinv_l by lra. unfold Rdiv in Hst. lra.
  - rewrite map_length, seq_length. rewrite minus_INR by lia. cbn [INR].
    rewrite minus_IZR, Hz in Hc. exact Hc.
Qed.

Lemma segment_short s a b : 0 < s -> distance a b < s / 1000000 -> segment s a b = [].
Proof.
  intros Hs H. unfold segment. rewrite mag_distance.
  rewrite pieces_short by (try apply distance_nonneg; assumption). reflexivity.
Qed.

(* No segment is very short without being of length 0 *)
Definition no_tiny (s : R) (p : list (R * R)) : Prop :=
  forall a b, next_to a b p -> a = b \/ s / 1000000 <= distance a b.

Lemma no_tiny_tail s a p : no_tiny s (a :: p) -> no_tiny s p.
Proof. intros H x y [l1 [l2 E]]. apply H. exists (a :: l1), l2. rewrite E. reflexivity. Qed.

Lemma distance_same a : distance a a = 0.
Proof. unfold distance. rewrite <- sqrt_0. f_equal. ring. Qed.

Lemma segments_walk s : 0 < s -> forall rest a, no_tiny s (a :: rest) ->
  walk (s * (1 + 1 / 1000000)) (a :: rest) (a :: segments s a rest).
Proof.
  intros Hs. induction rest as [|b rest IH]; intros a H; cbn [segments].
  - apply walk_end.
  - pose proof (IH b (no_tiny_tail _ _ _ H)) as W.
    destruct (H a b) as [E | L]; [exists [], rest; reflexivity | subst b | ].
    + rewrite segment_short; [|exact Hs | rewrite distance_same; lra].
      cbn [app]. apply walk_same. exact W.
    + destruct (segment_shape s a b Hs L) as [ts [E [C _]]]. rewrite E, <- app_assoc. cbn [app].
      apply walk_segment; [lra | exact C | exact W].
Qed.

Lemma densify_points a rest s : points_of (densify (Some (a :: rest)) s) = a :: segments s a rest.
Proof. cbn [densify]. destruct (segments s a rest); reflexivity. Qed.

(* Resampling: for a polyline without very short segments the result goes along
   it, through all of its points, with steps of at most (1 + 1e-6) spacing *)
Theorem C86_walk_partial : forall p s, 0 < s -> p <> [] -> no_tiny s p ->
  walk (s * (1 + 1 / 1000000)) p (points_of (densify (Some p) s)).
Proof.
  intros p s Hs Hp H. destruct p as [|a rest]; [congruence|].
  rewrite densify_points. apply segments_walk; assumption.
Qed.
Print Assumptions C86_walk_partial.

Lemma walk_head g p out : walk g p out -> exists a p' out', p = a :: p' /\ out = a :: out'.
Proof.
  induction 1.
  - eauto 6.
  - destruct IHwalk as [x [p' [o' [E1 E2]]]]. inversion E1; subst. eauto 6.
  - eauto 6.
Qed.

Lemma walk_hits g p out : walk g p out -> forall q, In q p -> In q out.
Proof.
  induction 1; intros q Hq.
  - exact Hq.
  - apply IHwalk. cbn [In] in *. tauto.
  - cbn [In] in Hq. destruct Hq as [-> | Hq]; [left; reflexivity|].
    right. apply in_or_app. right. apply IHwalk. exact Hq.
Qed.

(* Every point of the polyline is in the result *)
Theorem C86_hits_partial : forall p s, 0 < s -> no_tiny s p ->
  forall q, In q p -> In q (points_of (densify (Some p) s)).
Proof.
  intros p s Hs H q Hq. eapply walk_hits; [|exact Hq]. apply C86_walk_partial; try assumption.
  destruct p; [destruct Hq | discriminate].
Qed.
Print Assumptions C86_hits_partial.

Lemma between_distance a b t u : t <= u -> distance (between a b t) (between a b u) = (u - t) * distance a b.
Proof.
  intro H. unfold distance, between. cbn [fst snd].
  rewrite <- (sqrt_pow2 (u - t)) at 1 by lra.
  rewrite <- sqrt_mult.
  - f_equal. ring.
  - apply pow2_ge_0.
  - pose proof (pow2_ge_0 (fst b - fst a)). pose proof (pow2_ge_0 (snd b - snd a)). lra.
Qed.

Lemma between_0 a b : between a b 0 = a.
Proof. unfold between. destruct a. cbn [fst snd]. f_equal; ring. Qed.
Lemma between_1 a b : between a b 1 = b.
Proof. unfold between. destruct b. cbn [fst snd]. f_equal; ring. Qed.

Lemma next_to_cons {A} (x y a b : A) l : next_to x y (a :: b :: l) ->
  (x = a /\ y = b) \/ next_to x y (b :: l).
Proof.
  intros [l1 [l2 E]]. destruct l1 as [|z l1]; cbn [app] in E; inversion E; subst; [left; auto|].
  right. exists l1, l2. assumption.
Qed.

Lemma climbs_steps g a b out : 0 < distance a b -> forall ts x0,
  climbs (g / distance a b) x0 ts ->
  (forall x y, next_to x y (b :: out) -> distance x y <= g) ->
  forall x y, next_to x y (between a b x0 :: map (between a b) ts ++ b :: out) -> distance x y <= g.
Proof.
  intros Hd. induction ts as [|t ts IH]; intros x0 C Hout x y N; cbn [map app climbs] in *.
  - apply next_to_cons in N. destruct N as [[-> ->] | N]; [|apply Hout; exact N].
    rewrite <- (between_1 a b) at 2. rewrite between_distance by lra.
    apply Rmult_le_reg_r with (/ distance a b); [apply Rinv_0_lt_compat; exact Hd|].
    rewrite Rmult_assoc, Rinv_r by lra. unfold Rdiv in C. lra.
  - destruct C as [C1 [C2 C3]].
    apply next_to_cons in N. destruct N as [[-> ->] | N]; [|eapply IH; eassumption].
    rewrite between_distance by lra.
    apply Rmult_le_reg_r with (/ distance a b); [apply Rinv_0_lt_compat; exact Hd|].
    rewrite Rmult_assoc, Rinv_r by lra. unfold Rdiv in C2. lra.
Qed.

Lemma walk_gap g p out : walk g p out -> forall x y, next_to x y out -> distance x y <= g.
Proof.
  induction 1; intros x y N.
  - destruct N as [[|? [|? ?]] [l2 E]]; discriminate.
  - apply IHwalk. exact N.
  - eapply climbs_steps with (x0 := 0) (ts := ts); try eassumption.
    rewrite between_0. exact N.
Qed.

(* No two consecutive points of the result are further apart than (1 + 1e-6) spacing *)
Theorem C86_gap_partial : forall p s, 0 < s -> no_tiny s p ->
  forall x y, next_to x y (points_of (densify (Some p) s)) -> distance x y <= s * (1 + 1 / 1000000).
Proof.
  intros p s Hs H x y N. eapply walk_gap; [|exact N]. apply C86_walk_partial; try assumption.
  intros ->. destruct N as [[|? ?] [l2 E]]; discriminate.
Qed.
Print Assumptions C86_gap_partial.

(* Every point of the result is on the polyline (no condition on the segments) *)
Theorem C86_on : forall p s, 0 < s -> forall q, In q (points_of (densify (Some p) s)) ->
  In q p \/ exists a b t, next_to a b p /\ 0 < t < 1 /\ q = between a b t.
Proof.
  intros p s Hs. destruct p as [|a rest]; [intros q []|]. rewrite densify_points. intros q [-> | Hq].
  { left; left; reflexivity. }
  revert a Hq. induction rest as [|b rest IH]; intros a Hq; [destruct Hq|]. cbn [segments] in Hq.
  apply in_app_or in Hq. destruct Hq as [Hq | Hq].
  - destruct (Rlt_or_le (distance a b) (s / 1000000)) as [L | L].
    + rewrite segment_short in Hq by assumption. destruct Hq.
    + destruct (segment_shape s a b Hs L) as [ts [E [C _]]]. rewrite E in Hq.
      apply in_app_or in Hq. destruct Hq as [Hq | [<- | []]]; [|left; right; left; reflexivity].
      right. apply in_map_iff in Hq. destruct Hq as [t [<- Ht]]. exists a, b, t.
      split; [exists [], rest; reflexivity|]. split; [|reflexivity].
      clear - C Ht. assert (G : forall x0, climbs (s * (1 + 1 / 1000000) / distance a b) x0 ts -> x0 < t < 1).
      { clear C. induction ts as [|u ts IH]; intros x0 C; [destruct Ht|]. cbn [climbs] in C.
        destruct C as [C1 [_ C3]]. destruct Ht as [-> | Ht].
        - split; [exact C1|]. clear IH C1. revert t C3. induction ts as [|v ts IH]; intros t C3; cbn [climbs] in C3.
          + lra.
          + destruct C3 as [C1 [_ C3]]. apply IH in C3. lra.
        - destruct (IH Ht u C3). split; lra. }
      apply G. exact C.
  - destruct (IH b Hq) as [I1 | [x [y [t [[l1 [l2 E]] H]]]]].
    + left. right. exact I1.
    + right. exists x, y, t. split; [|exact H]. exists (a :: l1), l2. rewrite E. reflexivity.
Qed.
Print Assumptions C86_on.

(* Not more points than needed: with one point less in the segment a step would be
   at least `spacing` *)
Theorem C86_economic : forall a b s, 0 < s -> s / 1000000 <= distance a b ->
  exists n, length (points_of (densify (Some [a; b]) s)) = S (S n) /\ INR n * s < distance a b.
Proof.
  intros a b s Hs H. rewrite densify_points. cbn [segments].
  destruct (segment_shape s a b Hs H) as [ts [E [_ L]]]. exists (length ts).
  rewrite E, app_nil_r. cbn [length]. rewrite app_length, map_length. cbn [length].
  split; [lia | exact L].
Qed.
Print Assumptions C86_economic.

(* "each input point is hit": not for a segment shorter than 1e-6 spacing. And such
   segments can add up to any length, so the steps of the result have no bound:
   here all points but the first one are lost. *)
Theorem C86_refuted : forall s len, 0 < s -> exists p a b,
  hd_error p = Some a /\ In b p /\ len < distance a b /\ a <> b /\
  points_of (densify (Some p) s) = [a].
Proof.
  intros s len Hs. set (e := s / 2000000). assert (He : 0 < e) by (unfold e; lra).
  destruct (archimed (Rabs len / e)) as [Ha _]. set (K := S (Z.to_nat (up (Rabs len / e)))).
  set (f := fun i : nat => (INR i * e, 0)).
  assert (Hdist : forall i, distance (f i) (f (S i)) = e).
  { intro i. unfold distance, f. cbn [fst snd]. rewrite S_INR.
    replace ((_ - _) ^ 2 + (0 - 0) ^ 2) with (e ^ 2) by ring. apply sqrt_pow2. lra. }
  assert (Hall : forall n i, segments s (f i) (map f (seq (S i) n)) = []).
  { induction n as [|n IH]; intro i; [reflexivity|]. cbn [seq map segments].
    rewrite segment_short; [cbn [app]; apply IH | exact Hs |]. rewrite Hdist. unfold e. lra. }
  exists (map f (seq 0 (S K))), (f 0%nat), (f K).
  assert (HK : Rabs len < INR K * e).
  { assert (Rabs len / e < INR K).
    { unfold K. rewrite S_INR, INR_IZR_INZ, Z2Nat.id; [lra|].
      assert (0 <= Rabs len / e) by (apply Rmult_le_pos; [apply Rabs_pos | left; apply Rinv_0_lt_compat; exact He]).
      assert (0 < IZR (up (Rabs len / e))) by lra. apply lt_IZR in H0. lia. }
    apply Rmult_lt_compat_r with (r := e) in H; [|exact He]. unfold Rdiv in H.
    rewrite Rmult_assoc, Rinv_l in H by lra. lra. }
  split; [reflexivity|]. split; [apply in_map, in_seq; lia|]. split; [|split].
  - unfold distance, f. cbn [fst snd INR]. replace ((_ - _) ^ 2 + (0 - 0) ^ 2) with ((INR K * e) ^ 2) by ring.
    rewrite sqrt_pow2 by (pose proof (pos_INR K); apply Rmult_le_pos; lra).
    pose proof (Rle_abs len). lra.
  - unfold f. cbn [INR]. intro E. apply (f_equal fst) in E. cbn [fst] in E.
    pose proof (Rabs_pos len). lra.
  - cbn [seq map]. rewrite densify_points. rewrite Hall. reflexivity.
Qed.
Print Assumptions C86_refuted.

(* "The input and output polylines are a numpy array of shape (N,2)": a polyline of
   one point gives an array of shape (2,) *)
Theorem C86_one_point_refuted : forall a s, densify (Some [a]) s = Flat a.
Proof. reflexivity. Qed.
Print Assumptions C86_one_point_refuted.

(* Without input: returned as it is *)
Theorem C86_none : forall s, densify None s = Itself /\ densify (Some []) s = Itself.
Proof. intro s. split; reflexivity. Qed.
Print Assumptions C86_none.

(* A polyline that meets the hypotheses: a right angle with a repeated point *)
Example C86_example : no_tiny 1 [(0,0); (3,4); (3,4); (3,10)].
Proof.
  assert (D1 : distance (0,0) (3,4) = 5).
  { unfold distance. cbn [fst snd]. replace ((3 - 0) ^ 2 + (4 - 0) ^ 2) with (5 ^ 2) by ring. apply sqrt_pow2. lra. }
  assert (D2 : distance (3,4) (3,10) = 6).
  { unfold distance. cbn [fst snd]. replace ((3 - 3) ^ 2 + (10 - 4) ^ 2) with (6 ^ 2) by ring. apply sqrt_pow2. lra. }
  intros a b N. apply next_to_cons in N. destruct N as [[-> ->] | N]; [right; lra|].
  apply next_to_cons in N. destruct N as [[-> ->] | N]; [left; reflexivity|].
  apply next_to_cons in N. destruct N as [[-> ->] | N]; [right; lra|].
  destruct N as [[|? [|? ?]] [l2 E]]; discriminate.
Qed.

Example C86_example_hits : In (3,10) (points_of (densify (Some [(0,0); (3,4); (3,4); (3,10)]) 1)).
Proof. apply C86_hits_partial; [lra | exact C86_example | cbn [In]; tauto]. Qed.
