From Coq Require Import ZArith List Bool Lia ZifyBool.
From Verif Require Import M_Lens M_Layout S_Layout.
Import ListNotations.
Open Scope Z_scope.

Lemma num_params_ge4 m : lens_ok m -> 4 <= num_params m.
Proof. destruct m; simpl; try lia. unfold u16. nia. Qed.

Lemma num_intr_eq p i :
  num_intrinsics_opt (p_sel p) (p_lens p) = item_size p (SI_intr i).
Proof. unfold num_intrinsics_opt, num_distortions_opt, item_size, has_core.
  destruct (do_dist _), (do_core _); cbn [andb]; lia. Qed.

Lemma boards_nil p : p_boards p <> [] <-> 0 < Nobs_board p.
Proof. unfold Nobs_board. destruct (p_boards p); simpl; split; intros; try congruence; try lia. Qed.

Lemma has_warp_iff p : has_warp p = true <-> (do_warp (p_sel p) = true /\ p_boards p <> []).
Proof. rewrite boards_nil. unfold has_warp. lia. Qed.

Lemma item_size_intr_pos p i : lens_ok (p_lens p) ->
  (0 < item_size p (SI_intr i) <->
   (do_core (p_sel p) = true \/ (do_dist (p_sel p) = true /\ 4 < num_params (p_lens p)))).
Proof. intro H. pose proof (num_params_ge4 _ H). unfold item_size.
  destruct (do_core _), (do_dist _); split; intuition (try congruence; try lia). Qed.

Lemma intr_size_nonneg p i : problem_ok p -> 0 <= item_size p (SI_intr i).
Proof. intros (Hl & _). pose proof (num_params_ge4 _ Hl). unfold item_size.
  destruct (do_core _), (do_dist _); lia. Qed.

Lemma nsi_eq p : num_states_intrinsics p = p_Nci p * item_size p (SI_intr 0).
Proof. unfold num_states_intrinsics. now rewrite (num_intr_eq p 0). Qed.

Lemma regions_ordered p : problem_ok p ->
  0 <= num_states_intrinsics p /\ 0 <= num_states_extrinsics p /\ 0 <= num_states_frames p
  /\ 0 <= num_states_points p /\ 0 <= num_states_warp p.
Proof.
  intros Hok. pose proof (intr_size_nonneg p 0 Hok). destruct Hok as (Hl & H1 & H2 & H3 & H4 & H5 & H6).
  rewrite nsi_eq. unfold num_states_extrinsics, num_states_frames, num_states_points, num_states_warp.
  destruct (do_ext _), (do_frames _), (has_warp p); nia.
Qed.

Lemma state_absent p it : problem_ok p -> (state_index p it = -1 <-> ~ optimized p it).
Proof.
  intros Hok. pose proof (regions_ordered p Hok) as Hr.
  destruct Hok as (Hl & H1 & H2 & H3 & H4 & H5 & H6).
  destruct it as [i|i|i|i|]; unfold state_index, optimized.
  - unfold state_index_intrinsics. rewrite (num_intr_eq p i).
    pose proof (item_size_intr_pos p i Hl) as Hp.
    rewrite <- Hp. set (n := item_size p (SI_intr i)) in *.
    destruct (p_Nci p <=? 0) eqn:?; [lia|].
    destruct (n <=? 0) eqn:?; [lia|].
    destruct ((0 <=? i) && (i <? p_Nci p)) eqn:?; simpl; [|lia].
    assert (0 <= i * n) by nia. lia.
  - unfold state_index_extrinsics.
    destruct (p_Nce p <=? 0) eqn:?; [lia|].
    destruct (do_ext (p_sel p)) eqn:?; simpl; [|split; [intros _ [_ ?]; congruence|auto]].
    destruct ((0 <=? i) && (i <? p_Nce p)) eqn:?; simpl; lia.
  - unfold state_index_frames.
    destruct (p_Nframes p <=? 0) eqn:?; [lia|].
    destruct (do_frames (p_sel p)) eqn:?; simpl; [|split; [intros _ [_ ?]; congruence|auto]].
    destruct ((0 <=? i) && (i <? p_Nframes p)) eqn:?; simpl; lia.
  - unfold state_index_points.
    destruct (_ <=? 0) eqn:?; [lia|].
    destruct (do_frames (p_sel p)) eqn:?; simpl; [|split; [intros _ [_ ?]; congruence|auto]].
    destruct ((0 <=? i) && _) eqn:?; simpl; lia.
  - unfold state_index_warp.
    rewrite <- has_warp_iff. destruct (has_warp p) eqn:?; simpl; [|split; [intros _ ?; congruence|auto]].
    split; [lia|]. intro HH; exfalso; auto.
Qed.

(** Closed form of the index of an optimized item. *)
Lemma state_index_closed p it : problem_ok p -> optimized p it ->
  state_index p it =
  match it with
  | SI_intr i => i * item_size p (SI_intr 0)
  | SI_ext i => num_states_intrinsics p + i * 6
  | SI_frame i => num_states_intrinsics p + num_states_extrinsics p + i * 6
  | SI_point i => num_states_intrinsics p + num_states_extrinsics p + num_states_frames p + i * 3
  | SI_warp => num_states_intrinsics p + num_states_extrinsics p + num_states_frames p + num_states_points p
  end.
Proof.
  intros Hok Ho. pose proof (state_absent p it Hok) as Ha.
  assert (state_index p it <> -1) as Hne by (intro E; apply Ha in E; auto). clear Ha Ho Hok.
  destruct it as [i|i|i|i|]; unfold state_index in *.
  - unfold state_index_intrinsics in *. rewrite (num_intr_eq p 0) in *.
    destruct (_ <=? 0); [lia|]. destruct (item_size _ _ <=? 0); [lia|]. destruct (negb _); [lia|]. reflexivity.
  - unfold state_index_extrinsics in *.
    destruct (_ <=? 0); [lia|]. destruct (negb _); [lia|]. destruct (negb _); [lia|]. reflexivity.
  - unfold state_index_frames in *.
    destruct (_ <=? 0); [lia|]. destruct (negb _); [lia|]. destruct (negb _); [lia|]. reflexivity.
  - unfold state_index_points in *.
    destruct (_ <=? 0); [lia|]. destruct (negb _); [lia|]. destruct (negb _); [lia|]. reflexivity.
  - unfold state_index_warp in *. destruct (negb _); [lia|]. reflexivity.
Qed.

Lemma item_size_pos p it : problem_ok p -> optimized p it -> 0 < item_size p it.
Proof. intros (Hl & _) Ho. destruct it; try (simpl; lia).
  apply item_size_intr_pos; auto. apply Ho. Qed.



Lemma div_range i n k N : 0 < n -> 0 <= i < N -> i * n <= k < i * n + n -> 0 <= k < N * n.
Proof. intros. nia. Qed.
Lemma div_exists n k N : 0 < n -> 0 <= k < N * n -> exists i, 0 <= i < N /\ i * n <= k < i * n + n.
Proof. intros Hn Hk. exists (k / n).
  pose proof (Z.div_mod k n ltac:(lia)). pose proof (Z.mod_pos_bound k n Hn). nia. Qed.
Lemma div_unique i j n k : 0 < n -> i * n <= k < i * n + n -> j * n <= k < j * n + n -> i = j.
Proof. intros. assert (i < j + 1) by nia. assert (j < i + 1) by nia. lia. Qed.

Lemma state_in_range p it : problem_ok p -> optimized p it ->
  0 <= state_index p it /\ state_index p it + item_size p it <= num_states p.
Proof.
  intros Hok Ho. rewrite (state_index_closed _ _ Hok Ho).
  pose proof (regions_ordered p Hok) as Hr.
  pose proof (item_size_pos _ _ Hok Ho) as Hp.
  unfold num_states.
  destruct it as [i|i|i|i|]; cbn [optimized] in Ho.
  - change (item_size p (SI_intr i)) with (item_size p (SI_intr 0)) in *.
    pose proof (nsi_eq p) as E. set (n := item_size p (SI_intr 0)) in *.
    assert (0 <= i * n) by nia. assert (i * n + n <= p_Nci p * n) by nia. lia.
  - destruct Ho as [Ho Hd]. assert (num_states_extrinsics p = 6 * p_Nce p) by (unfold num_states_extrinsics; now rewrite Hd).
    cbn [item_size]. lia.
  - destruct Ho as [Ho Hd]. assert (num_states_frames p = 6 * p_Nframes p) by (unfold num_states_frames; now rewrite Hd).
    cbn [item_size]. lia.
  - destruct Ho as [Ho Hd]. assert (num_states_points p = (p_Npoints p - p_Npoints_fixed p) * 3) by (unfold num_states_points; now rewrite Hd).
    cbn [item_size]. lia.
  - apply has_warp_iff in Ho. assert (num_states_warp p = 2) by (unfold num_states_warp; now rewrite Ho).
    cbn [item_size]. lia.
Qed.

(** which region an index belongs to *)
Lemma region p it k : problem_ok p -> optimized p it ->
  state_index p it <= k < state_index p it + item_size p it ->
  let a := num_states_intrinsics p in
  let b := a + num_states_extrinsics p in
  let c := b + num_states_frames p in
  let d := c + num_states_points p in
  match it with
  | SI_intr i => 0 <= k < a /\ i * item_size p (SI_intr 0) <= k < i * item_size p (SI_intr 0) + item_size p (SI_intr 0)
  | SI_ext i => a <= k < b /\ i * 6 <= k - a < i * 6 + 6
  | SI_frame i => b <= k < c /\ i * 6 <= k - b < i * 6 + 6
  | SI_point i => c <= k < d /\ i * 3 <= k - c < i * 3 + 3
  | SI_warp => d <= k
  end.
Proof.
  intros Hok Ho. rewrite (state_index_closed _ _ Hok Ho).
  pose proof (regions_ordered p Hok) as Hr.
  pose proof (item_size_pos _ _ Hok Ho) as Hp.
  destruct it as [i|i|i|i|]; cbn [optimized] in Ho; cbv zeta; intro Hk.
  - change (item_size p (SI_intr i)) with (item_size p (SI_intr 0)) in *.
    pose proof (nsi_eq p) as E. set (n := item_size p (SI_intr 0)) in *.
    assert (0 <= i * n) by nia. assert (i * n + n <= p_Nci p * n) by nia. lia.
  - destruct Ho as [Ho Hd]. assert (num_states_extrinsics p = 6 * p_Nce p) by (unfold num_states_extrinsics; now rewrite Hd).
    cbn [item_size] in Hk. lia.
  - destruct Ho as [Ho Hd]. assert (num_states_frames p = 6 * p_Nframes p) by (unfold num_states_frames; now rewrite Hd).
    cbn [item_size] in Hk. lia.
  - destruct Ho as [Ho Hd]. assert (num_states_points p = (p_Npoints p - p_Npoints_fixed p) * 3) by (unfold num_states_points; now rewrite Hd).
    cbn [item_size] in Hk. lia.
  - lia.
Qed.


Lemma state_cover p k : problem_ok p -> 0 <= k < num_states p ->
  exists it, optimized p it /\ state_index p it <= k < state_index p it + item_size p it.
Proof.
  intros Hok Hk. pose proof (regions_ordered p Hok) as Hr.
  assert (forall it, optimized p it ->
     (match it with
  | SI_intr i => i * item_size p (SI_intr 0)
  | SI_ext i => num_states_intrinsics p + i * 6
  | SI_frame i => num_states_intrinsics p + num_states_extrinsics p + i * 6
  | SI_point i => num_states_intrinsics p + num_states_extrinsics p + num_states_frames p + i * 3
  | SI_warp => num_states_intrinsics p + num_states_extrinsics p + num_states_frames p + num_states_points p
  end) <= k < (match it with
  | SI_intr i => i * item_size p (SI_intr 0)
  | SI_ext i => num_states_intrinsics p + i * 6
  | SI_frame i => num_states_intrinsics p + num_states_extrinsics p + i * 6
  | SI_point i => num_states_intrinsics p + num_states_extrinsics p + num_states_frames p + i * 3
  | SI_warp => num_states_intrinsics p + num_states_extrinsics p + num_states_frames p + num_states_points p
  end) + item_size p it -> exists it, optimized p it /\ state_index p it <= k < state_index p it + item_size p it) as Hfin.
  { intros it Ho Hi. exists it. rewrite (state_index_closed _ _ Hok Ho). auto. }
  unfold num_states in Hk.
  destruct (Z_lt_ge_dec k (num_states_intrinsics p)) as [C|C].
  { assert (0 < item_size p (SI_intr 0)) as Hpos.
    { pose proof (intr_size_nonneg p 0 Hok). pose proof (nsi_eq p) as E. set (n := item_size p (SI_intr 0)) in *.
      destruct Hok as (_ & HNci & _). clear Hfin. nia. }
    rewrite nsi_eq in C. destruct (div_exists _ k (p_Nci p) Hpos ltac:(lia)) as (i & Hi & Hik).
    apply (Hfin (SI_intr i)); [split; auto|apply Hik].
    now apply (item_size_intr_pos p 0 (proj1 Hok)). }
  destruct (Z_lt_ge_dec k (num_states_intrinsics p + num_states_extrinsics p)) as [C1|C1].
  { destruct (do_ext (p_sel p)) eqn:Hd; [|unfold num_states_extrinsics in *; rewrite Hd in *; lia].
    destruct (div_exists 6 (k - num_states_intrinsics p) (p_Nce p)) as (i & Hi & Hik); [lia|unfold num_states_extrinsics in *; rewrite Hd in *; lia|].
    apply (Hfin (SI_ext i)); [split; auto|]. simpl item_size. lia. }
  destruct (Z_lt_ge_dec k (num_states_intrinsics p + num_states_extrinsics p + num_states_frames p)) as [C2|C2].
  { destruct (do_frames (p_sel p)) eqn:Hd; [|unfold num_states_frames in *; rewrite Hd in *; lia].
    destruct (div_exists 6 (k - num_states_intrinsics p - num_states_extrinsics p) (p_Nframes p)) as (i & Hi & Hik); [lia|unfold num_states_frames in *; rewrite Hd in *; lia|].
    apply (Hfin (SI_frame i)); [split; auto|]. simpl item_size. lia. }
  destruct (Z_lt_ge_dec k (num_states_intrinsics p + num_states_extrinsics p + num_states_frames p + num_states_points p)) as [C3|C3].
  { destruct (do_frames (p_sel p)) eqn:Hd; [|unfold num_states_points in *; rewrite Hd in *; lia].
    destruct (div_exists 3 (k - num_states_intrinsics p - num_states_extrinsics p - num_states_frames p) (p_Npoints p - p_Npoints_fixed p)) as (i & Hi & Hik); [lia|unfold num_states_points in *; rewrite Hd in *; lia|].
    apply (Hfin (SI_point i)); [split; auto|]. simpl item_size. lia. }
  destruct (has_warp p) eqn:Hw; [|unfold num_states_warp in *; rewrite Hw in *; lia].
  unfold num_states_warp in *; rewrite Hw in *.
  apply (Hfin SI_warp); [now apply has_warp_iff|]. simpl item_size. lia.
Qed.

Lemma state_unique p k it it' : problem_ok p -> optimized p it -> optimized p it' ->
  state_index p it <= k < state_index p it + item_size p it ->
  state_index p it' <= k < state_index p it' + item_size p it' -> it = it'.
Proof.
  intros Hok Ho Ho' Hk Hk'.
  pose proof (regions_ordered p Hok) as Hr.
  pose proof (region p it k Hok Ho Hk) as R. pose proof (region p it' k Hok Ho' Hk') as R'.
  cbv zeta in R, R'.
  pose proof (item_size_pos _ _ Hok Ho) as Hp.
  destruct it as [i|i|i|i|], it' as [j|j|j|j|]; try (exfalso; lia); try reflexivity; f_equal; try lia.
  change (item_size p (SI_intr i)) with (item_size p (SI_intr 0)) in Hp.
  eapply div_unique; [exact Hp|apply R|apply R'].
Qed.

Lemma state_partition p : problem_ok p ->
  (forall it, state_index p it = -1 <-> ~ optimized p it) /\
  (forall it, optimized p it -> 0 < item_size p it /\
      0 <= state_index p it /\ state_index p it + item_size p it <= num_states p) /\
  (forall k, 0 <= k < num_states p ->
      exists! it, optimized p it /\ state_index p it <= k < state_index p it + item_size p it).
Proof.
  intro Hok. split; [intro; now apply state_absent|]. split.
  - intros it Ho. split; [now apply item_size_pos|now apply state_in_range].
  - intros k Hk. destruct (state_cover p k Hok Hk) as (it & Ho & Hi).
    exists it. split; [auto|]. intros it' [Ho' Hi']. eapply state_unique; eauto.
Qed.

Lemma Some_inj {A} (a b : A) : Some a = Some b -> a = b.
Proof. congruence. Qed.

(** ** Triangulated features *)
Definition sumZ (l : list Z) : Z := fold_right Z.add 0 l.
Definition npairs (n : nat) : Z := Z.of_nat n * (Z.of_nat n - 1) / 2.

Lemma npairs_S n : npairs (S n) = npairs n + Z.of_nat n.
Proof.
  unfold npairs. replace (Z.of_nat (S n)) with (Z.of_nat n + 1) by lia.
  replace ((Z.of_nat n + 1) * (Z.of_nat n + 1 - 1)) with (Z.of_nat n * (Z.of_nat n - 1) + Z.of_nat n * 2) by ring.
  now rewrite Z.div_add by lia.
Qed.
Lemma npairs_nonneg n : 0 <= npairs n.
Proof. induction n; [reflexivity|]. rewrite npairs_S. lia. Qed.

Lemma tri_inner_feature : forall init l rest Nset Nmeas,
  to_last l = true -> Forall (fun o => to_last o = false) init -> 0 <= Nset ->
  tri_inner ((init ++ [l]) ++ rest) Nset Nmeas =
  Some (Nmeas + (npairs (length init + 1 + Z.to_nat Nset - 1) - npairs (Z.to_nat Nset)), rest).
Proof.
  induction init as [|o init IH]; intros l rest Nset Nmeas Hl Hf HN; simpl.
  - rewrite Hl. f_equal. f_equal. replace (Z.to_nat Nset - 0)%nat with (Z.to_nat Nset) by lia. lia.
  - inversion Hf; subst. rewrite H1. rewrite IH by (auto; lia).
    f_equal. f_equal.
    replace (length init + 1 + Z.to_nat (Nset + 1) - 1)%nat with (length init + 1 + Z.to_nat Nset)%nat by lia.
    replace (length init + 1 + Z.to_nat Nset - 0)%nat with (length init + 1 + Z.to_nat Nset)%nat by lia.
    replace (Z.to_nat (Nset + 1)) with (S (Z.to_nat Nset)) by lia.
    rewrite npairs_S. lia.
Qed.

Lemma tri_inner_mark f rest Nmeas : mark_feature f ->
  tri_inner (f ++ rest) 1 Nmeas = Some (Nmeas + npairs (length f), rest).
Proof.
  intros (init & l & -> & Hl & Hf). rewrite tri_inner_feature by (auto; lia).
  f_equal. f_equal. rewrite app_length. cbn [length].
  change (Z.to_nat 1) with 1%nat. change (npairs 1) with 0.
  replace (length init + 1 + 1 - 1)%nat with (length init + 1)%nat by lia. lia.
Qed.

Lemma mark_nonempty f : mark_feature f -> (0 < length f)%nat.
Proof. intros (init & l & -> & _). rewrite app_length. simpl. lia. Qed.

(** number of leading features considered *)
Definition ntake (Npoints ipoint : Z) (n : nat) : nat :=
  if Npoints <? 0 then n else Nat.min n (Z.to_nat (Npoints - ipoint)).

Lemma tri_outer_features : forall fs fuel Npoints ipoint Nmeas,
  Forall mark_feature fs -> (length (concat fs) <= fuel)%nat ->
  tri_outer fuel (concat fs) Npoints ipoint Nmeas =
  Some (Nmeas + sumZ (map (fun f => npairs (length f)) (firstn (ntake Npoints ipoint (length fs)) fs))).
Proof.
  induction fs as [|f fs IH]; intros fuel Npoints ipoint Nmeas Hf Hfuel.
  - simpl. destruct fuel; simpl; rewrite ?firstn_nil; simpl; f_equal; lia.
  - inversion Hf as [|? ? Hm Hfs]; subst.
    pose proof (mark_nonempty f Hm) as Hne.
    simpl concat.
    destruct (f ++ concat fs) as [|o rest] eqn:Eo.
    { destruct f; simpl in *; [lia|congruence]. }
    rewrite <- Eo in *. simpl concat in Hfuel. rewrite ?app_length in Hfuel.
    destruct fuel as [|fuel]; [lia|].
    unfold tri_outer; fold tri_outer. rewrite Eo at 1.
    rewrite tri_inner_mark by auto.
    unfold ntake. destruct (Npoints <? 0) eqn:EN; simpl orb.
    + rewrite IH by (auto; lia). unfold ntake. rewrite EN. simpl. f_equal. lia.
    + destruct (ipoint <? Npoints) eqn:Ei.
      * rewrite IH by (auto; lia). unfold ntake. rewrite EN. simpl length.
        replace (Z.to_nat (Npoints - ipoint)) with (S (Z.to_nat (Npoints - (ipoint + 1)))) by lia.
        simpl. f_equal. lia.
      * replace (Z.to_nat (Npoints - ipoint)) with O by lia. rewrite Nat.min_0_r. simpl. f_equal. lia.
Qed.

Lemma tri_initial_features obs fs n : tri_features obs fs -> 0 <= n ->
  num_measurements_tri_initial obs n =
  Some (sumZ (map (fun f => npairs (length f)) (firstn (Z.to_nat n) fs))).
Proof.
  intros (-> & Hf) Hn. unfold num_measurements_tri_initial.
  rewrite tri_outer_features by auto. f_equal. unfold ntake.
  destruct (n <? 0) eqn:E; [lia|]. rewrite Z.sub_0_r.
  destruct (Nat.le_gt_cases (length fs) (Z.to_nat n)).
  - rewrite Nat.min_l by auto. rewrite firstn_all, firstn_all2 by auto. lia.
  - rewrite Nat.min_r by lia. lia.
Qed.
Lemma tri_total_features obs fs : tri_features obs fs ->
  num_measurements_tri obs = Some (sumZ (map (fun f => npairs (length f)) fs)).
Proof.
  intros (-> & Hf). unfold num_measurements_tri, num_measurements_tri_initial.
  rewrite tri_outer_features by auto. f_equal. unfold ntake.
  replace (-1 <? 0) with true by reflexivity. rewrite firstn_all. lia.
Qed.

Lemma sumZ_app a b : sumZ (a ++ b) = sumZ a + sumZ b.
Proof. induction a; simpl; unfold sumZ in *; simpl in *; lia. Qed.

Lemma mul_fits i n N : 0 <= n -> 0 <= i < N -> 0 <= i * n /\ i * n + n <= N * n.
Proof. intros. split; nia. Qed.

(** ** measurement partition *)
Lemma nreg_eq p fs : num_measurements_reg p = mitem_size p fs MI_reg.
Proof. unfold num_measurements_reg, num_reg_percam, mitem_size, num_distortions_opt, has_core.
  destruct (do_reg _), (do_dist _), (do_core _); cbn [negb]; ring. Qed.

Lemma nboards_eq p : 0 <= p_w p -> 0 <= p_h p -> num_measurements_boards p (Nobs_board p) = Nobs_board p * (2 * (p_w p * p_h p)).
Proof. unfold num_measurements_boards, Nobs_board. intros. destruct (_ <=? 0) eqn:E; [|ring].
  assert (Z.of_nat (length (p_boards p)) = 0) as -> by lia. ring. Qed.
Lemma nboards_i_eq p i : 0 <= i -> num_measurements_boards p i = i * (2 * (p_w p * p_h p)).
Proof. unfold num_measurements_boards. intros. destruct (_ <=? 0) eqn:E; [|ring].
  assert (i = 0) as -> by lia. ring. Qed.

Definition tri_sum (fs : list (list tri_obs)) := sumZ (map (fun f => npairs (length f)) fs).
Lemma tri_sum_nonneg fs : 0 <= tri_sum fs.
Proof. unfold tri_sum. induction fs as [|f fs IH]; simpl; [lia|].
  pose proof (npairs_nonneg (length f)). unfold sumZ in *. simpl. lia. Qed.

Lemma mindex_closed p fs it : problem_ok p -> tri_features (p_tri p) fs -> mpresent p fs it ->
  measurement_index p it = Some
  match it with
  | MI_board i => i * (2 * (p_w p * p_h p))
  | MI_point i => Nobs_board p * (2 * (p_w p * p_h p)) + i * 2
  | MI_tri i => Nobs_board p * (2 * (p_w p * p_h p)) + Nobs_point p * 2 + tri_sum (firstn (Z.to_nat i) fs)
  | MI_reg => Nobs_board p * (2 * (p_w p * p_h p)) + Nobs_point p * 2 + tri_sum fs
  end.
Proof.
  intros Hok Hfs Hp. destruct Hok as (Hl & H1 & H2 & H3 & H4 & H5 & H6).
  pose proof (nboards_eq p H5 H6) as HB.
  destruct it as [i|i|i|]; simpl in Hp |- *.
  - unfold measurement_index_boards. destruct (Nobs_board p <=? 0) eqn:E; [unfold Nobs_board in E; lia|].
    rewrite nboards_i_eq by lia. f_equal.
  - unfold measurement_index_points. destruct (Nobs_point p <=? 0) eqn:E; [unfold Nobs_point in E; lia|].
    now rewrite HB.
  - unfold measurement_index_tri. destruct (Nobs_tri p <=? 0) eqn:E.
    { exfalso. destruct Hfs as (E1 & E2). unfold Nobs_tri in E. rewrite E1 in E.
      destruct fs as [|f fs]; simpl in *; [lia|]. inversion E2 as [|? ? Hmf Hrest]; subst.
      pose proof (mark_nonempty f Hmf). rewrite app_length in E. lia. }
    rewrite (tri_initial_features _ fs) by (auto; lia). rewrite HB. unfold num_measurements_points, tri_sum. f_equal.
  - unfold measurement_index_reg. rewrite (nreg_eq p fs).
    destruct (_ <=? 0) eqn:E; [exfalso; simpl in *; lia|].
    rewrite (tri_total_features _ fs) by auto. rewrite HB. reflexivity.
Qed.

Lemma num_measurements_closed p fs : problem_ok p -> tri_features (p_tri p) fs ->
  num_measurements p = Some (Nobs_board p * (2 * (p_w p * p_h p)) + Nobs_point p * 2 + tri_sum fs + mitem_size p fs MI_reg).
Proof.
  intros Hok Hfs. destruct Hok as (Hl & H1 & H2 & H3 & H4 & H5 & H6).
  unfold num_measurements. rewrite (tri_total_features _ fs) by auto.
  rewrite (nboards_eq p H5 H6). rewrite (nreg_eq p fs). reflexivity.
Qed.

Lemma mabsent p fs it : problem_ok p -> tri_features (p_tri p) fs -> ~ mkind_present p fs it ->
  measurement_index p it = Some (-1).
Proof.
  intros Hok Hfs Hn. destruct it as [i|i|i|]; simpl in Hn |- *.
  - unfold measurement_index_boards, Nobs_board. destruct (p_boards p); [reflexivity|]. exfalso; apply Hn; congruence.
  - unfold measurement_index_points, Nobs_point. destruct (p_points p); [reflexivity|]. exfalso; apply Hn; congruence.
  - unfold measurement_index_tri, Nobs_tri. destruct (p_tri p); [reflexivity|]. exfalso; apply Hn; congruence.
  - unfold measurement_index_reg. rewrite (nreg_eq p fs). destruct (_ <=? 0) eqn:E; [reflexivity|]. exfalso. simpl in E. lia.
Qed.

Lemma mreg_nonneg p fs : problem_ok p -> 0 <= mitem_size p fs MI_reg.
Proof. intros (Hl & H1 & _). pose proof (num_params_ge4 _ Hl). unfold mitem_size.
  destruct (do_reg (p_sel p)), (do_dist (p_sel p)), (do_core (p_sel p)),
    (do_unity (p_sel p) && do_ext (p_sel p) && (0 <? p_Nce p)); nia. Qed.

Lemma tri_sum_cons f fs : tri_sum (f :: fs) = npairs (length f) + tri_sum fs.
Proof. reflexivity. Qed.
Lemma tri_sum_firstn_S fs i : (i < length fs)%nat ->
  tri_sum (firstn (S i) fs) = tri_sum (firstn i fs) + npairs (length (nth i fs [])).
Proof.
  revert i. induction fs as [|f fs IH]; intros i Hi; simpl in Hi; [lia|].
  destruct i as [|i].
  - cbn [firstn nth]. rewrite tri_sum_cons. change (tri_sum []) with 0. lia.
  - change (firstn (S (S i)) (f :: fs)) with (f :: firstn (S i) fs).
    change (firstn (S i) (f :: fs)) with (f :: firstn i fs).
    change (nth (S i) (f :: fs) []) with (nth i fs []).
    rewrite !tri_sum_cons. specialize (IH i ltac:(lia)). lia.
Qed.

Lemma tri_sum_firstn_mono fs i j : (i <= j)%nat -> tri_sum (firstn i fs) <= tri_sum (firstn j fs).
Proof.
  intro H. induction H as [|j H IH]; [lia|].
  destruct (Nat.lt_ge_cases j (length fs)).
  - rewrite tri_sum_firstn_S by auto. pose proof (npairs_nonneg (length (nth j fs []))). lia.
  - rewrite (firstn_all2 (n:=S j)), (firstn_all2 (n:=j)) in * by lia. lia.
Qed.

Lemma tri_locate : forall fs k, 0 <= k < tri_sum fs ->
  exists i, (i < length fs)%nat /\ tri_sum (firstn i fs) <= k < tri_sum (firstn i fs) + npairs (length (nth i fs [])).
Proof.
  induction fs as [|f fs IH]; intros k Hk; [unfold tri_sum, sumZ in Hk; simpl in Hk; lia|].
  assert (tri_sum (f :: fs) = npairs (length f) + tri_sum fs) as E by reflexivity.
  destruct (Z_lt_ge_dec k (npairs (length f))).
  - exists O. cbn [firstn nth length]. split; [lia|]. change (tri_sum []) with 0. lia.
  - destruct (IH (k - npairs (length f)) ltac:(lia)) as (i & Hi & Hr).
    exists (S i). simpl. split; [lia|].
    change (tri_sum (f :: firstn i fs)) with (npairs (length f) + tri_sum (firstn i fs)). lia.
Qed.

Lemma mcover p fs k n : problem_ok p -> tri_features (p_tri p) fs -> num_measurements p = Some n ->
  0 <= k < n ->
  exists it s, mpresent p fs it /\ measurement_index p it = Some s /\ s <= k < s + mitem_size p fs it.
Proof.
  intros Hok Hfs Hn Hk. rewrite (num_measurements_closed p fs Hok Hfs) in Hn. apply Some_inj in Hn; subst n.
  pose proof (tri_sum_nonneg fs) as Ht. pose proof (mreg_nonneg p fs Hok) as Hrg.
  set (wh := 2 * (p_w p * p_h p)) in *.
  assert (0 <= wh) by (unfold wh; destruct Hok as (_&_&_&_&_&?&?); nia).
  assert (0 <= Nobs_board p) by (unfold Nobs_board; lia).
  assert (0 <= Nobs_point p) by (unfold Nobs_point; lia).
  destruct (Z_lt_ge_dec k (Nobs_board p * wh)).
  { assert (0 < wh) by nia.
    destruct (div_exists wh k (Nobs_board p)) as (i & Hi & Hik); [lia|lia|].
    exists (MI_board i). eexists. assert (mpresent p fs (MI_board i)) as Hp by exact Hi.
    split; [exact Hp|]. split; [now apply (mindex_closed p fs)|]. exact Hik. }
  destruct (Z_lt_ge_dec k (Nobs_board p * wh + Nobs_point p * 2)).
  { destruct (div_exists 2 (k - Nobs_board p * wh) (Nobs_point p)) as (i & Hi & Hik); [lia|lia|].
    exists (MI_point i). eexists. assert (mpresent p fs (MI_point i)) as Hp by exact Hi.
    split; [exact Hp|]. split; [now apply (mindex_closed p fs)|]. cbn [mitem_size]; fold wh. lia. }
  destruct (Z_lt_ge_dec k (Nobs_board p * wh + Nobs_point p * 2 + tri_sum fs)).
  { destruct (tri_locate fs (k - Nobs_board p * wh - Nobs_point p * 2)) as (i & Hi & Hik); [lia|].
    exists (MI_tri (Z.of_nat i)). eexists. assert (mpresent p fs (MI_tri (Z.of_nat i))) as Hp by (simpl; lia).
    split; [exact Hp|]. split; [now apply (mindex_closed p fs)|]. cbn [mitem_size]; fold wh. rewrite Nat2Z.id.
    unfold npairs in Hik. lia. }
  exists MI_reg. eexists. assert (mpresent p fs MI_reg) as Hp by (unfold mpresent; lia).
  split; [exact Hp|]. split; [now apply (mindex_closed p fs)|]. fold wh. lia.
Qed.

Lemma mregion p fs it s k : problem_ok p -> tri_features (p_tri p) fs -> mpresent p fs it ->
  measurement_index p it = Some s -> s <= k < s + mitem_size p fs it ->
  let a := Nobs_board p * (2 * (p_w p * p_h p)) in
  let b := a + Nobs_point p * 2 in
  let c := b + tri_sum fs in
  match it with
  | MI_board i => 0 <= k < a /\ i * (2 * (p_w p * p_h p)) <= k < i * (2 * (p_w p * p_h p)) + 2 * (p_w p * p_h p)
  | MI_point i => a <= k < b /\ i * 2 <= k - a < i * 2 + 2
  | MI_tri i => b <= k < c /\ tri_sum (firstn (Z.to_nat i) fs) <= k - b < tri_sum (firstn (S (Z.to_nat i)) fs)
  | MI_reg => c <= k < c + mitem_size p fs MI_reg
  end.
Proof.
  intros Hok Hfs Hp Hs Hk. rewrite (mindex_closed p fs it Hok Hfs Hp) in Hs. apply Some_inj in Hs; subst s.
  cbv zeta. set (wh := 2 * (p_w p * p_h p)) in *.
  assert (0 <= wh) by (unfold wh; destruct Hok as (_&_&_&_&_&?&?); nia).
  destruct it as [i|i|i|]; cbn [mpresent mitem_size] in *.
  - fold wh in Hk. split; [|lia]. pose proof (mul_fits i wh (Nobs_board p) ltac:(lia) Hp). lia.
  - unfold Nobs_point. lia.
  - rewrite tri_sum_firstn_S by lia. unfold npairs. split; [|lia].
    pose proof (tri_sum_firstn_S fs (Z.to_nat i) ltac:(lia)) as E1.
    pose proof (tri_sum_nonneg (firstn (Z.to_nat i) fs)).
    pose proof (tri_sum_firstn_mono fs (S (Z.to_nat i)) (length fs) ltac:(lia)) as E2. rewrite firstn_all in E2.
    unfold npairs in E1. lia.
  - lia.
Qed.

Lemma mrange p fs it s n : problem_ok p -> tri_features (p_tri p) fs -> mpresent p fs it ->
  measurement_index p it = Some s -> num_measurements p = Some n ->
  0 <= s /\ s + mitem_size p fs it <= n.
Proof.
  intros Hok Hfs Hp Hs Hn. rewrite (mindex_closed p fs it Hok Hfs Hp) in Hs. apply Some_inj in Hs; subst s.
  rewrite (num_measurements_closed p fs Hok Hfs) in Hn. apply Some_inj in Hn; subst n.
  pose proof (tri_sum_nonneg fs) as Ht. pose proof (mreg_nonneg p fs Hok) as Hrg.
  set (wh := 2 * (p_w p * p_h p)) in *.
  assert (0 <= wh) by (unfold wh; destruct Hok as (_&_&_&_&_&?&?); nia).
  assert (0 <= Nobs_board p * wh) by (unfold Nobs_board; nia).
  assert (0 <= Nobs_point p) by (unfold Nobs_point; lia).
  set (rg := mitem_size p fs MI_reg) in *.
  destruct it as [i|i|i|]; cbn [mpresent] in *.
  - cbn [mitem_size]; fold wh. pose proof (mul_fits i wh (Nobs_board p) ltac:(lia) Hp). lia.
  - cbn [mitem_size]. unfold Nobs_point in *. lia.
  - cbn [mitem_size].
    pose proof (tri_sum_firstn_S fs (Z.to_nat i) ltac:(lia)) as E1.
    pose proof (tri_sum_nonneg (firstn (Z.to_nat i) fs)).
    pose proof (tri_sum_firstn_mono fs (S (Z.to_nat i)) (length fs) ltac:(lia)) as E2. rewrite firstn_all in E2.
    unfold npairs in E1. cbv zeta. lia.
  - fold rg; lia.
Qed.

Lemma munique p fs k it it' s s' : problem_ok p -> tri_features (p_tri p) fs ->
  mpresent p fs it -> mpresent p fs it' ->
  measurement_index p it = Some s -> s <= k < s + mitem_size p fs it ->
  measurement_index p it' = Some s' -> s' <= k < s' + mitem_size p fs it' -> it = it'.
Proof.
  intros Hok Hfs Hp Hp' Hs Hk Hs' Hk'.
  pose proof (mregion p fs it s k Hok Hfs Hp Hs Hk) as R.
  pose proof (mregion p fs it' s' k Hok Hfs Hp' Hs' Hk') as R'. cbv zeta in R, R'.
  pose proof (tri_sum_nonneg fs).
  assert (0 <= Nobs_point p) by (unfold Nobs_point; lia).
  set (wh := 2 * (p_w p * p_h p)) in *.
  destruct it as [i|i|i|], it' as [j|j|j|]; try (exfalso; lia); try reflexivity; f_equal; try lia.
  - apply (div_unique i j wh k); [|apply R|apply R']. lia.
  - cbn [mpresent] in *.
    destruct (Z.lt_trichotomy i j) as [L|[L|L]]; [|auto|]; exfalso.
    + pose proof (tri_sum_firstn_mono fs (S (Z.to_nat i)) (Z.to_nat j) ltac:(lia)). lia.
    + pose proof (tri_sum_firstn_mono fs (S (Z.to_nat j)) (Z.to_nat i) ltac:(lia)). lia.
Qed.

Lemma measurement_partition p fs : problem_ok p -> tri_features (p_tri p) fs ->
  exists n, num_measurements p = Some n /\
  (forall it, ~ mkind_present p fs it -> measurement_index p it = Some (-1)) /\
  (forall it, mpresent p fs it -> exists s, measurement_index p it = Some s /\
      0 <= s /\ s + mitem_size p fs it <= n) /\
  (forall k, 0 <= k < n ->
     exists! it, mpresent p fs it /\ exists s, measurement_index p it = Some s /\ s <= k < s + mitem_size p fs it).
Proof.
  intros Hok Hfs. eexists. split; [apply (num_measurements_closed p fs Hok Hfs)|].
  pose proof (num_measurements_closed p fs Hok Hfs) as Hn.
  split; [intros; now apply (mabsent p fs)|]. split.
  - intros it Hp. eexists. split; [now apply (mindex_closed p fs)|].
    eapply mrange; eauto. now apply (mindex_closed p fs).
  - intros k Hk. destruct (mcover p fs k _ Hok Hfs Hn Hk) as (it & s & Hp & Hs & Hr).
    exists it. split; [split; [exact Hp|exists s; auto]|].
    intros it' (Hp' & s' & Hs' & Hr'). eapply munique; eauto.
Qed.

(** ordering of the blocks *)
Lemma measurement_order p fs a b sa sb : problem_ok p -> tri_features (p_tri p) fs ->
  mpresent p fs a -> mpresent p fs b ->
  measurement_index p a = Some sa -> measurement_index p b = Some sb ->
  (match a, b with
   | MI_board i, MI_board j => i < j
   | MI_board _, _ => True
   | MI_point i, MI_point j => i < j
   | MI_point _, MI_tri _ | MI_point _, MI_reg => True
   | MI_tri i, MI_tri j => i < j
   | MI_tri _, MI_reg => True
   | _, _ => False end) ->
  sa + mitem_size p fs a <= sb.
Proof.
  intros Hok Hfs Ha Hb Hsa Hsb Hlt.
  rewrite (mindex_closed p fs a Hok Hfs Ha) in Hsa. apply Some_inj in Hsa; subst sa.
  rewrite (mindex_closed p fs b Hok Hfs Hb) in Hsb. apply Some_inj in Hsb; subst sb.
  pose proof (tri_sum_nonneg fs) as Ht.
  set (wh := 2 * (p_w p * p_h p)) in *.
  assert (0 <= wh) by (unfold wh; destruct Hok as (_&_&_&_&_&?&?); nia).
  assert (0 <= Nobs_board p * wh) by (unfold Nobs_board; nia).
  assert (0 <= Nobs_point p) by (unfold Nobs_point; lia).
  assert (forall i, mpresent p fs (MI_board i) -> i * wh + mitem_size p fs (MI_board i) <= Nobs_board p * wh) as HB.
  { intros i Hi. cbn [mitem_size mpresent] in *. fold wh. pose proof (mul_fits i wh (Nobs_board p) ltac:(lia) Hi). lia. }
  assert (forall i, mpresent p fs (MI_tri i) -> tri_sum (firstn (Z.to_nat i) fs) + mitem_size p fs (MI_tri i) = tri_sum (firstn (S (Z.to_nat i)) fs)) as HT.
  { intros i Hi. cbn [mitem_size mpresent] in *. rewrite tri_sum_firstn_S by lia. reflexivity. }
  destruct a as [i|i|i|], b as [j|j|j|]; try contradiction.
  - cbn [mitem_size]. fold wh. nia.
  - specialize (HB i Ha). cbn [mpresent] in Hb. lia.
  - specialize (HB i Ha). pose proof (tri_sum_nonneg (firstn (Z.to_nat j) fs)). lia.
  - specialize (HB i Ha). lia.
  - cbn [mitem_size]. lia.
  - cbn [mitem_size mpresent] in *. unfold Nobs_point in *. pose proof (tri_sum_nonneg (firstn (Z.to_nat j) fs)). lia.
  - cbn [mitem_size mpresent] in *. unfold Nobs_point in *. lia.
  - specialize (HT i Ha). cbn [mpresent] in *.
    pose proof (tri_sum_firstn_mono fs (S (Z.to_nat i)) (Z.to_nat j) ltac:(lia)). lia.
  - specialize (HT i Ha). cbn [mpresent] in Ha.
    pose proof (tri_sum_firstn_mono fs (S (Z.to_nat i)) (length fs) ltac:(lia)) as E. rewrite firstn_all in E. lia.
Qed.
