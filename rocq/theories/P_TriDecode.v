From Coq Require Import ZArith List Bool Lia ZifyBool FinFun.
From Verif Require Import M_Lens M_Layout S_Layout P_Layout.
Import ListNotations.
Open Scope Z_scope.

(** ** arithmetic of one feature *)
Definition mmin2 (n o : Z) : Z := o * (2 * n - 1 - o).    (* twice the first measurement of row o *)

Lemma decode_pair_ok n m : 0 <= m -> 2 * m < n * (n - 1) -> 0 <= n ->
  let (o0, o1) := decode_pair n m in
  0 <= o0 /\ o0 < o1 /\ o1 < n /\ 2 * m = mmin2 n o0 + 2 * (o1 - o0 - 1).
Proof.
  intros Hm Hmn Hn. unfold decode_pair, mmin2.
  set (x := 2 * n - 1). set (y := x * x - 8 * m). set (s := Z.sqrt_up y).
  assert (2 <= n) by nia.
  assert (5 <= y) by (unfold y, x; nia).
  pose proof (Z.sqrt_up_spec y ltac:(lia)) as [Hs1 Hs2]. fold s in Hs1, Hs2.
  assert (0 <= s) by apply Z.sqrt_up_nonneg.
  assert (3 <= s) by nia.
  assert (s <= x).
  { destruct (Z_le_gt_dec s x); [auto|]. exfalso. assert (x <= Z.pred s) by lia. assert (y <= x * x) by (unfold y; lia). nia. }
  rewrite Z.quot_div_nonneg by lia.
  set (o := (x - s) / 2).
  pose proof (Z.div_mod (x - s) 2 ltac:(lia)) as Hdm. fold o in Hdm.
  pose proof (Z.mod_pos_bound (x - s) 2 ltac:(lia)) as Hb.
  set (r := (x - s) mod 2) in *.
  assert (0 <= o) by lia.
  assert (y <= (x - 2 * o) * (x - 2 * o)) as L1 by nia.
  assert ((x - 2 * (o + 1)) * (x - 2 * (o + 1)) < y) as L2.
  { assert (0 <= x - 2 * (o + 1) <= Z.pred s) by lia. nia. }
  assert (mmin2 n o <= 2 * m) as M1 by (unfold mmin2, y in *; fold x; lia).
  assert (2 * m < mmin2 n (o + 1)) as M2 by (unfold mmin2, y in *; fold x; lia).
  unfold mmin2 in M1, M2. fold x in M1, M2.
  assert (o * (o + 3 - 2 * n) = 2 * (o + 1) - 2 - o * (x - o)) as Eo by (unfold x; ring).
  assert (exists e, o * (x - o) = 2 * e) as [e He].
  { unfold x. destruct (Z.Even_or_Odd o) as [[k Hk]|[k Hk]].
    - exists (k * (2 * n - 1 - o)). rewrite Hk at 1. ring.
    - exists (o * (n - 1 - k)). assert (2 * n - 1 - o = 2 * (n - 1 - k)) as -> by lia. ring. }
  rewrite Eo, He. replace (2 * (o + 1) - 2 - 2 * e) with ((o - e) * 2) by ring.
  rewrite Z.quot_mul by lia.
  assert (e <= m) by lia.
  assert ((o + 1) * (x - (o + 1)) = 2 * e + 2 * (n - 1 - o)) as E1.
  { unfold x in *. rewrite <- He. ring. }
  rewrite E1 in M2. fold x.
  repeat split; try lia.
Qed.

(** ** the list of pairs *)
Definition prow (first n i : nat) : list (nat * nat) :=
  map (fun j => (first + i, first + j)%nat) (seq (S i) (n - S i)).

Lemma rows_length first n i : (i <= n)%nat ->
  2 * Z.of_nat (length (flat_map (prow first n) (seq 0 i))) = mmin2 (Z.of_nat n) (Z.of_nat i).
Proof.
  induction i as [|i IH]; intro Hi; [reflexivity|].
  rewrite seq_S, flat_map_app, app_length. cbn [flat_map plus]. rewrite app_nil_r.
  rewrite Nat2Z.inj_add, Z.mul_add_distr_l, IH by lia.
  unfold prow. rewrite map_length, seq_length.
  unfold mmin2. rewrite Nat2Z.inj_sub by lia. rewrite !Nat2Z.inj_succ. ring.
Qed.

Lemma pairs_length first n : Z.of_nat (length (pairs_from first n)) = npairs n.
Proof.
  unfold pairs_from. change (fun i : nat => map _ _) with (prow first n).
  pose proof (rows_length first n n ltac:(lia)) as H.
  unfold npairs. apply Z.div_unique_exact; [lia|].
  rewrite H. unfold mmin2. ring.
Qed.

Lemma pairs_nth first n o0 o1 m :
  (o0 < o1 < n)%nat -> 2 * Z.of_nat m = mmin2 (Z.of_nat n) (Z.of_nat o0) + 2 * (Z.of_nat o1 - Z.of_nat o0 - 1) ->
  nth_error (pairs_from first n) m = Some (first + o0, first + o1)%nat.
Proof.
  intros Ho Hm. unfold pairs_from. change (fun i : nat => map _ _) with (prow first n).
  assert (seq 0 n = seq 0 o0 ++ o0 :: seq (S o0) (n - S o0)) as ->.
  { replace n with (o0 + S (n - S o0))%nat at 1 by lia. rewrite seq_app. reflexivity. }
  rewrite flat_map_app. cbn [flat_map].
  pose proof (rows_length first n o0 ltac:(lia)) as HL.
  rewrite nth_error_app2 by lia.
  set (len := length (flat_map (prow first n) (seq 0 o0))) in *.
  assert (m - len = o1 - o0 - 1)%nat as -> by lia.
  rewrite nth_error_app1.
  - unfold prow. rewrite nth_error_map.
    rewrite (nth_error_nth' _ O) by (rewrite seq_length; lia).
    rewrite seq_nth by lia. cbn [option_map]. do 2 f_equal. lia.
  - unfold prow. rewrite map_length, seq_length. lia.
Qed.

Lemma pairs_in first n a b : In (a, b) (pairs_from first n) <-> (first <= a < b /\ b < first + n)%nat.
Proof.
  unfold pairs_from. rewrite in_flat_map. split.
  - intros (i & Hi & Hp). apply in_map_iff in Hp. destruct Hp as (j & Hj & Hin).
    apply in_seq in Hi. apply in_seq in Hin. inversion Hj; subst. lia.
  - intros H. exists (a - first)%nat. split; [apply in_seq; lia|].
    apply in_map_iff. exists (b - first)%nat. split; [f_equal; lia|]. apply in_seq; lia.
Qed.

Lemma pairs_nodup first n : NoDup (pairs_from first n).
Proof.
  unfold pairs_from. generalize (seq_NoDup n 0). generalize (seq 0 n) as l.
  induction l as [|i l IH]; intro H; cbn [flat_map]; [constructor|].
  inversion H as [|? ? Hni Hl]; subst.
  assert (forall (A : Type) (x y : list A), NoDup x -> NoDup y -> (forall e, In e x -> ~ In e y) -> NoDup (x ++ y)) as napp.
  { intros A x y. induction x as [|e x IHx]; intros Hx Hy Hd; cbn; [auto|].
    inversion Hx; subst. constructor.
    - rewrite in_app_iff. intros [?|?]; [auto|]. eapply Hd; [left; reflexivity|auto].
    - apply IHx; auto. intros; apply Hd; right; auto. }
  apply napp.
  - apply FinFun.Injective_map_NoDup; [|apply seq_NoDup].
    intros u v E. inversion E. lia.
  - now apply IH.
  - intros (u, v) Hin Hin2. apply in_map_iff in Hin. destruct Hin as (j & Ej & _). inversion Ej; subst.
    apply in_flat_map in Hin2. destruct Hin2 as (i2 & Hi2 & Hm). apply in_map_iff in Hm.
    destruct Hm as (j2 & Ej2 & _). inversion Ej2. assert (i2 = i) by lia. subst. auto.
Qed.

Lemma two_npairs n : 2 * npairs n = Z.of_nat n * (Z.of_nat n - 1).
Proof.
  rewrite <- (pairs_length O). unfold pairs_from. change (fun i : nat => map _ _) with (prow 0 n).
  rewrite (rows_length O n n) by lia. unfold mmin2. ring.
Qed.

(** ** the loop *)
Lemma tri_scan_mark : forall init l rest Nset,
  to_last l = true -> Forall (fun o => to_last o = false) init ->
  tri_scan ((init ++ [l]) ++ rest) Nset = Some (Nset + Z.of_nat (length init), rest).
Proof.
  induction init as [|o init IH]; intros l rest Nset Hl Hf; cbn.
  - rewrite Hl. do 2 f_equal. lia.
  - inversion Hf as [|? ? Ho Hf']; subst. rewrite Ho. rewrite IH by auto. do 2 f_equal. lia.
Qed.
Lemma tri_scan_feature f rest : mark_feature f ->
  tri_scan (f ++ rest) 1 = Some (Z.of_nat (length f), rest).
Proof.
  intros (init & l & -> & Hl & Hf). rewrite tri_scan_mark by auto.
  do 2 f_equal. rewrite app_length. cbn [length]. lia.
Qed.

Definition to_decoded (e : nat * nat * nat * (nat * nat)) : decoded :=
  let '(ifeat, first, n, (o0, o1)) := e in
  {| d_o0 := Z.of_nat o0; d_o1 := Z.of_nat o1; d_first := Z.of_nat first;
     d_No := Z.of_nat n; d_Nm := npairs n; d_ipoint := Z.of_nat ifeat |}.

Lemma all_pairs_length : forall fs i f, Z.of_nat (length (all_pairs i f fs)) = tri_sum fs.
Proof.
  induction fs as [|f fs IH]; intros i first; cbn [all_pairs]; [reflexivity|].
  rewrite app_length, map_length, Nat2Z.inj_add, pairs_length, IH. reflexivity.
Qed.

Lemma quot_npairs n : Z.quot (Z.of_nat n * (Z.of_nat n - 1)) 2 = npairs n.
Proof. unfold npairs. apply Z.quot_div_nonneg; nia. Qed.

Lemma decode_loop_ok : forall fs fuel ifeat first m Nmeas,
  Forall mark_feature fs -> (length (concat fs) <= fuel)%nat -> Nmeas <= m ->
  decode_loop fuel (concat fs) m (Z.of_nat first) Nmeas (Z.of_nat ifeat) =
  Some (option_map to_decoded (nth_error (all_pairs ifeat first fs) (Z.to_nat (m - Nmeas)))).
Proof.
  induction fs as [|f fs IH]; intros fuel ifeat first m Nmeas Hf Hfuel Hm.
  - cbn. destruct fuel; cbn; destruct (Z.to_nat _); reflexivity.
  - inversion Hf as [|? ? Hm' Hfs]; subst.
    pose proof (mark_nonempty f Hm') as Hne.
    cbn [concat] in *. rewrite app_length in Hfuel.
    destruct (f ++ concat fs) as [|o rest] eqn:Eo.
    { destruct f; cbn in *; [lia|congruence]. }
    destruct fuel as [|fuel]; [lia|].
    unfold decode_loop; fold decode_loop. rewrite <- Eo.
    rewrite tri_scan_feature by auto. rewrite quot_npairs. cbn [all_pairs].
    destruct (m <? Nmeas + npairs (length f)) eqn:Elt.
    + pose proof (decode_pair_ok (Z.of_nat (length f)) (m - Nmeas)) as D.
      destruct (decode_pair (Z.of_nat (length f)) (m - Nmeas)) as (o0, o1).
      pose proof (two_npairs (length f)) as E2.
      destruct D as (D1 & D2 & D3 & D4); [lia|lia|lia|].
      assert (exists a, o0 = Z.of_nat a) as [a ->] by (exists (Z.to_nat o0); lia).
      assert (exists b, o1 = Z.of_nat b) as [b ->] by (exists (Z.to_nat o1); lia).
      rewrite nth_error_app1 by (rewrite map_length; pose proof (pairs_length first (length f)); lia).
      rewrite nth_error_map.
      rewrite (pairs_nth first (length f) a b) by lia. cbn [option_map to_decoded].
      do 3 f_equal; lia.
    + rewrite nth_error_app2 by (rewrite map_length; pose proof (pairs_length first (length f)); lia).
      rewrite map_length.
      replace (Z.of_nat first + Z.of_nat (length f) - 1 + 1) with (Z.of_nat (first + length f)) by lia.
      replace (Z.of_nat ifeat + 1) with (Z.of_nat (S ifeat)) by lia.
      rewrite IH by (auto; lia).
      do 3 f_equal. pose proof (pairs_length first (length f)). lia.
Qed.

Lemma decode_ok obs fs m : tri_features obs fs -> 0 <= m ->
  decode_tri obs m = Some (option_map to_decoded (nth_error (all_pairs 0 0 fs) (Z.to_nat m))).
Proof.
  intros (-> & Hf) Hm. unfold decode_tri.
  destruct (_ <=? 0) eqn:E.
  - destruct fs as [|f fs]; [cbn; destruct (Z.to_nat m); reflexivity|].
    inversion Hf as [|? ? Hmf Hr]; subst. pose proof (mark_nonempty f Hmf). cbn [concat] in E. rewrite app_length in E. lia.
  - change 0 with (Z.of_nat 0) at 1 3. rewrite decode_loop_ok by (auto; lia). do 4 f_equal. lia.
Qed.

(** Everything about the numbering in one statement. *)
Lemma all_pairs_entry : forall fs ifeat first e o0 o1 n i f0,
  nth_error (all_pairs ifeat first fs) e = Some (i, f0, n, (o0, o1)) ->
  exists k f, i = (ifeat + k)%nat /\ nth_error fs k = Some f /\ n = length f /\
     f0 = (first + length (concat (firstn k fs)))%nat /\ (f0 <= o0 < o1 /\ o1 < f0 + n)%nat.
Proof.
  induction fs as [|f fs IH]; intros ifeat first e o0 o1 n i f0 H; cbn [all_pairs] in H.
  - destruct e; discriminate.
  - destruct (Nat.lt_ge_cases e (length (pairs_from first (length f)))) as [L|L].
    + rewrite nth_error_app1 in H by (now rewrite map_length).
      rewrite nth_error_map in H. destruct (nth_error _ e) as [(u, v)|] eqn:E; [|discriminate].
      cbn in H. inversion H; subst. apply nth_error_In in E. apply pairs_in in E.
      exists O, f. cbn. repeat split; lia || auto.
    + rewrite nth_error_app2 in H by (now rewrite map_length).
      apply IH in H. destruct H as (k & g & -> & Hk & -> & -> & Ho).
      exists (S k), g. cbn [firstn concat nth_error]. rewrite app_length. repeat split; auto; lia.
Qed.

Lemma all_pairs_complete : forall fs ifeat first k f o0 o1,
  nth_error fs k = Some f ->
  let f0 := (first + length (concat (firstn k fs)))%nat in
  (f0 <= o0 < o1 /\ o1 < f0 + length f)%nat ->
  In ((ifeat + k)%nat, f0, length f, (o0, o1)) (all_pairs ifeat first fs).
Proof.
  induction fs as [|g fs IH]; intros ifeat first k f o0 o1 Hk f0 Ho; destruct k as [|k]; cbn in Hk; try discriminate.
  - inversion Hk; subst. cbn [all_pairs]. apply in_or_app; left. apply in_map_iff.
    exists (o0, o1). subst f0. cbn in *. rewrite !Nat.add_0_r in *. split; [reflexivity|]. now apply pairs_in.
  - cbn [all_pairs]. apply in_or_app; right.
    specialize (IH (S ifeat) (first + length g)%nat k f o0 o1 Hk).
    cbn zeta in IH. subst f0. cbn [firstn concat] in *. rewrite app_length in *.
    replace (ifeat + S k)%nat with (S ifeat + k)%nat by lia.
    rewrite Nat.add_assoc. apply IH. lia.
Qed.

Lemma all_pairs_nodup : forall fs ifeat first, NoDup (map snd (all_pairs ifeat first fs)).
Proof.
  assert (forall fs ifeat first e, In e (map snd (all_pairs ifeat first fs)) -> (first <= fst e)%nat) as Hlow.
  { intros fs ifeat first (a, b) Hin. apply in_map_iff in Hin. destruct Hin as ((((i, f0), n), (u, v)) & E & Hin).
    cbn in E. inversion E; subst. apply In_nth_error in Hin. destruct Hin as (m & Hm).
    apply all_pairs_entry in Hm. destruct Hm as (k & f & -> & _ & _ & -> & H). cbn. lia. }
  assert (forall (A : Type) (x y : list A), NoDup x -> NoDup y -> (forall e, In e x -> ~ In e y) -> NoDup (x ++ y)) as napp.
  { intros A x y. induction x as [|e x IHx]; intros Hx Hy Hd; cbn; [auto|].
    inversion Hx; subst. constructor.
    - rewrite in_app_iff. intros [?|?]; [auto|]. eapply Hd; [left; reflexivity|auto].
    - apply IHx; auto. intros; apply Hd; right; auto. }
  induction fs as [|f fs IH]; intros ifeat first; cbn [all_pairs]; [constructor|].
  rewrite map_app, map_map. cbn [snd]. apply napp.
  - rewrite map_id. apply pairs_nodup.
  - apply IH.
  - intros (a, b) H1 H2. rewrite map_id in H1. apply pairs_in in H1. apply Hlow in H2. cbn in H2. lia.
Qed.

Lemma tri_numbering obs fs : tri_features obs fs ->
  exists n, num_measurements_tri obs = Some n /\ n = Z.of_nat (length (all_pairs 0 0 fs)) /\
  (* each pair of distinct observations of each feature appears exactly once *)
  NoDup (map snd (all_pairs 0 0 fs)) /\
  (forall k f o0 o1, nth_error fs k = Some f ->
     let f0 := length (concat (firstn k fs)) in
     (f0 <= o0 < o1 /\ o1 < f0 + length f)%nat -> In (k, f0, length f, (o0, o1)) (all_pairs 0 0 fs)) /\
  (* the decoder inverts the numbering *)
  (forall m, 0 <= m < n -> exists ifeat first f o0 o1,
     nth_error (all_pairs 0 0 fs) (Z.to_nat m) = Some (ifeat, first, length f, (o0, o1)) /\
     nth_error fs ifeat = Some f /\ first = length (concat (firstn ifeat fs)) /\
     (first <= o0 < o1 /\ o1 < first + length f)%nat /\
     decode_tri obs m = Some (Some {| d_o0 := Z.of_nat o0; d_o1 := Z.of_nat o1; d_first := Z.of_nat first;
        d_No := Z.of_nat (length f); d_Nm := Z.of_nat (length f) * (Z.of_nat (length f) - 1) / 2;
        d_ipoint := Z.of_nat ifeat |})) /\
  (* out of range: reported *)
  (forall m, n <= m -> decode_tri obs m = Some None).
Proof.
  intros Hfs. eexists. split; [apply (tri_total_features _ fs Hfs)|].
  split; [symmetry; apply all_pairs_length|]. split; [apply all_pairs_nodup|].
  fold (tri_sum fs).
  pose proof (all_pairs_length fs 0 0) as HL.
  split; [|split].
  - intros k f o0 o1 Hk f0 Ho. apply (all_pairs_complete fs 0 0 k f o0 o1 Hk). exact Ho.
  - intros m Hm.
    destruct (nth_error (all_pairs 0 0 fs) (Z.to_nat m)) as [(((i, f0), n), (o0, o1))|] eqn:E.
    + pose proof (all_pairs_entry _ _ _ _ _ _ _ _ _ E) as (k & f & -> & Hk & -> & -> & Ho).
      exists k, (length (concat (firstn k fs))), f, o0, o1.
      repeat split; auto; try lia.
      rewrite (decode_ok obs fs m Hfs) by lia. rewrite E. reflexivity.
    + apply nth_error_None in E. lia.
  - intros m Hm. pose proof (tri_sum_nonneg fs). rewrite (decode_ok obs fs m Hfs) by lia.
    assert (nth_error (all_pairs 0 0 fs) (Z.to_nat m) = None) as -> by (apply nth_error_None; lia). reflexivity.
Qed.
