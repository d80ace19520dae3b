(** C53: the cross-reprojection uncertainty accumulates every measurement exactly
    once, whatever the order and the grouping of the measurements. *)
From Coq Require Import ZArith List Bool Reals Lra Lia Arith Permutation.
From Verif Require Import M_Lens M_Layout M_Pack M_Callback S_Layout P_Layout S_Vec M_Pose S_Cross M_Cross P_Cross P_CrossRow.
Import ListNotations.
Open Scope R_scope.

Notation DR := compose_r_tinyr0_gradientr0.

Lemma entry_app : forall a d c, entry (a ++ d) c = entry a c + entry d c.
Proof. induction a as [|cv a IH]; intros d c; cbn [app]; unfold entry; cbn [fold_right]; [ring|]. fold (entry (a ++ d) c) (entry a c). rewrite IH. unfold entry. ring. Qed.
Lemma entry_out : forall l c, (forall cv, In cv l -> fst cv <> c) -> entry l c = 0.
Proof.
  induction l as [|cv l IH]; intros c H; [reflexivity|]. unfold entry. cbn [fold_right]. fold (entry l c). rewrite IH by (intros; apply H; now right).
  destruct (Z.eq_dec (fst cv) c) as [E|]; [exfalso; apply (H cv); [now left|easy]|ring].
Qed.
Lemma entry_seq : forall col x n s c, entry (map (fun k => ((col + Z.of_nat k)%Z, x k)) (seq s n)) c =
  if ((col + Z.of_nat s <=? c) && (c <? col + Z.of_nat s + Z.of_nat n))%Z then x (Z.to_nat (c - col)) else 0.
Proof.
  intros col x. induction n as [|n IH]; intros s c.
  - cbn. destruct (_ && _)%bool eqn:E; [lia|reflexivity].
  - cbn [seq map]. unfold entry. cbn [fold_right fst snd].
    change (fold_right _ 0 (map (fun k : nat => ((col + Z.of_nat k)%Z, x k)) (seq (S s) n))) with (entry (map (fun k => ((col + Z.of_nat k)%Z, x k)) (seq (S s) n)) c).
    rewrite IH. destruct (Z.eq_dec (col + Z.of_nat s) c) as [E|E].
    + subst c. replace (_ && _)%bool with false by lia. replace (_ && _)%bool with true by lia. replace (Z.to_nat (col + Z.of_nat s - col)) with s by lia. ring.
    + destruct ((col + Z.of_nat (S s) <=? c) && _)%Z%bool eqn:E1; destruct ((col + Z.of_nat s <=? c) && _)%Z%bool eqn:E2; try lia; ring.
Qed.
Lemma entry_blk : forall col n x c, entry (blk col n x) c = bterm col (Z.of_nat n) x c.
Proof. intros. unfold blk. rewrite entry_seq. unfold bterm, in_block. now rewrite Z.add_0_r. Qed.
Lemma bterm_ext : forall col n x y c, (forall k, (Z.of_nat k < n)%Z -> x k = y k) -> bterm col n x c = bterm col n y c.
Proof. intros col n x y c H. unfold bterm. destruct (in_block col n c) eqn:E; [|reflexivity]. apply H. unfold in_block in E. lia. Qed.
Lemma sum_ext : forall n f g, (forall l, (l < n)%nat -> f l = g l) -> sum_n n f = sum_n n g.
Proof.
  intros n f g H. unfold sum_n. assert (forall l, In l (seq 0 n) -> f l = g l) as H' by (intros l L; apply H; apply in_seq in L; lia). clear H.
  induction (seq 0 n) as [|a l IH]; [reflexivity|]. cbn [fold_right]. rewrite H' by now left. f_equal. apply IH. intros; apply H'. now right.
Qed.
Lemma cross_pose_ext : forall b c sr st x y k, (forall l, (l < 6)%nat -> x l = y l) -> cross_pose DR b c sr st x k = cross_pose DR b c sr st y k.
Proof. intros. unfold cross_pose. apply sum_ext. intros l L. now rewrite H. Qed.
Lemma cross_point_ext : forall b c x y k, (forall l, (l < 3)%nat -> x l = y l) -> cross_point b c x k = cross_point b c y k.
Proof. intros. unfold cross_point. apply sum_ext. intros l L. now rewrite H. Qed.

Section Contrib.
  Context (p : problem) (Hok : problem_ok p) (b : Z -> R) (icam : Z) (n : nat) (q : meas) (Hq : meas_ok p n q) (m : mapped) (Hm : maps p n q m).
  Let cc := ccp icam.
  Lemma jm_eq : forall i, jm b icam m i = jcross DR p b cc q i.
  Proof.
    intro i. destruct Hm as (_ & E & F & P & _). unfold jm, jcross. fold cc.
    destruct (q_e q) as [[ke xe]|].
    - destruct E as (E1 & E2 & _ & E3). rewrite E1. destruct cc; cbn [andb].
      + rewrite E2. now apply cross_pose_ext.
      + destruct (q_f q) as [[kf xf]|]; [destruct F as (F1 & F2 & _ & F3); rewrite F1, F2; now apply cross_pose_ext|]. rewrite F. cbn [is_some].
        destruct (q_p q) as [[kp xp]|]; [destruct P as (P1 & P2 & _ & P3); rewrite P1, P2; now apply cross_point_ext|]. now rewrite P.
    - rewrite E. cbn [is_some]. rewrite andb_false_r.
      assert ((match cc with true => match q_f q, q_p q with Some (k, x), _ => cross_pose DR b (state_index p (SI_frame k)) (scale S_rot_frame) (scale S_trans_frame) x
        | None, Some (k, x) => cross_point b (state_index p (SI_point k)) x | None, None => fun _ => 0 end
        | false => match q_f q, q_p q with Some (k, x), _ => cross_pose DR b (state_index p (SI_frame k)) (scale S_rot_frame) (scale S_trans_frame) x
        | None, Some (k, x) => cross_point b (state_index p (SI_point k)) x | None, None => fun _ => 0 end end) = 
        match q_f q, q_p q with Some (k, x), _ => cross_pose DR b (state_index p (SI_frame k)) (scale S_rot_frame) (scale S_trans_frame) x
        | None, Some (k, x) => cross_point b (state_index p (SI_point k)) x | None, None => fun _ => 0 end) as X by (now destruct cc).
      match goal with |- _ = ?rhs => transitivity ((match q_f q, q_p q with Some (k, x), _ => cross_pose DR b (state_index p (SI_frame k)) (scale S_rot_frame) (scale S_trans_frame) x
        | None, Some (k, x) => cross_point b (state_index p (SI_point k)) x | None, None => fun _ => 0 end) i) end.
      + destruct (q_f q) as [[kf xf]|]; [destruct F as (F1 & F2 & _ & F3); rewrite F1, F2; now apply cross_pose_ext|]. rewrite F. cbn [is_some].
        destruct (q_p q) as [[kp xp]|]; [destruct P as (P1 & P2 & _ & P3); rewrite P1, P2; now apply cross_point_ext|]. now rewrite P.
      + now destruct cc.
  Qed.

  Lemma dm_eq : forall c, dm p icam m c = dx p cc q c.
  Proof.
    intro c. pose proof (ordered p Hok) as (O1 & O2 & O3 & O4).
    pose proof (cols_i p Hok n q Hq) as Ki. pose proof (cols_e p Hok n q Hq) as Ke. pose proof (cols_f p Hok n q Hq) as Kf.
    pose proof (cols_p p Hok n q Hq) as Kp. pose proof (cols_w p Hok n q Hq) as Kw.
    assert (obt (m_e m) 6 c = entry (seg_e p q) c) as Ee.
    { destruct Hm as (_ & E & _). unfold obt, seg_e, oblk. destruct (q_e q) as [[k x]|]; [|now rewrite E].
      destruct E as (E1 & E2 & _ & E3). rewrite E1, E2, entry_blk. apply bterm_ext. intros; apply E3; lia. }
    assert (obt (m_f m) 6 c = entry (seg_f p q) c) as Ef.
    { destruct Hm as (_ & _ & E & _). unfold obt, seg_f, oblk. destruct (q_f q) as [[k x]|]; [|now rewrite E].
      destruct E as (E1 & E2 & _ & E3). rewrite E1, E2, entry_blk. apply bterm_ext. intros; apply E3; lia. }
    assert (obt (m_p m) 3 c = entry (seg_p p q) c) as Ep.
    { destruct Hm as (_ & _ & _ & E & _). unfold obt, seg_p, oblk. destruct (q_p q) as [[k x]|]; [|now rewrite E].
      destruct E as (E1 & E2 & _ & E3). rewrite E1, E2, entry_blk. apply bterm_ext. intros; apply E3; lia. }
    assert (wterm p m c = entry (seg_w p q) c) as Ew.
    { destruct Hm as (_ & _ & _ & _ & E). unfold wterm, cw_col, seg_w, oblk. destruct Hq as (_ & _ & _ & _ & _ & _ & _ & _ & HW & _).
      destruct (q_w q) as [x|].
      - destruct E as (E1 & E2 & E4 & E3). cbn [state_index] in *. replace (0 <=? state_index_warp p)%Z with true by lia. rewrite entry_blk. apply bterm_ext. intros; apply E3; lia.
      - assert (state_index p SI_warp = -1)%Z as W by (apply state_absent; [easy|]; intro O; apply HW in O; easy). cbn [state_index] in W. rewrite W. reflexivity. }
    unfold dm. fold cc. rewrite Ee, Ef, Ep, Ew. unfold dx. rewrite row_segs, !entry_app.
    assert (forall lo hi seg, (forall cv, In cv seg -> lo <= fst cv < hi)%Z -> (c < lo \/ hi <= c)%Z -> entry seg c = 0) as Out.
    { intros lo hi seg H1 H2. apply entry_out. intros cv I. specialize (H1 cv I). lia. }
    destruct cc.
    - rewrite Z.add_0_r. destruct (Z.ltb_spec c (num_states_intrinsics p)).
      + rewrite (Out _ _ _ Ke), (Out _ _ _ Kf), (Out _ _ _ Kp), (Out _ _ _ Kw) by lia. ring.
      + rewrite (Out _ _ _ Ki) by lia. ring.
    - destruct (Z.ltb_spec c (num_states_intrinsics p + num_states_extrinsics p)).
      + rewrite (Out _ _ _ Kf), (Out _ _ _ Kp), (Out _ _ _ Kw) by lia. ring.
      + rewrite (Out _ _ _ Ki), (Out _ _ _ Ke) by lia. ring.
  Qed.
End Contrib.

(** the measurements that are used *)
Definition used (icam : Z) (qs : list meas) : list meas := if (0 <=? icam)%Z then filter (fun q => (icam =? q_cam q)%Z) qs else qs.

Section Main.
  Context (p : problem) (Hok : problem_ok p) (b : Z -> R) (icam : Z) (n : nat).
  Let cc := ccp icam.
  Lemma rsum_cons : forall {T} f (x : T) l, rsum f (x :: l) = f x + rsum f l.
  Proof. reflexivity. Qed.
  Lemma rows_ok : forall qs s, Forall (fun q => meas_ok p n q /\ row_of p q <> []) qs -> (cc = true -> n <> 0%nat) -> inv icam s ->
    exists s', all_rows p b icam n (map (row_of p) qs) s = Some s' /\
      (forall i c, (i < 6)%nat -> tot p b s' i c = tot p b s i c + rsum (fun q => jcross DR p b cc q i * dx p cc q c) (used icam qs)) /\
      (forall i j, (i <= j < 6)%nat -> totJ b s' i j = totJ b s i j + rsum (fun q => jcross DR p b cc q i * jcross DR p b cc q j) (used icam qs)).
  Proof.
    induction qs as [|q qs IH]; intros s HF Hn I.
    - exists s. split; [reflexivity|]. unfold used. destruct (0 <=? icam)%Z; cbn; split; intros; ring.
    - inversion HF as [|? ? [Hq Hne] HF']; subst. cbn [map all_rows]. unfold one_row.
      destruct (map_row_ok p Hok n q Hq Hne) as (m & Em & Hm). rewrite Em.
      pose proof Hm as (M0 & M1 & M2 & M3 & M4). pose proof Hq as (_ & _ & _ & _ & _ & _ & _ & HFP & HW & HWP).
      assert (is_some (m_w m) = is_some (cw_col p)) as Ew.
      { unfold cw_col. destruct (q_w q) as [x|].
        - destruct M4 as (W1 & _ & W2 & _). cbn [state_index] in W2. rewrite W1. replace (0 <=? state_index_warp p)%Z with true by lia. reflexivity.
        - assert (state_index p SI_warp = -1)%Z as W by (apply state_absent; [easy|]; intro O; apply HW in O; easy). cbn [state_index] in W. rewrite W, M4. reflexivity. }
      rewrite Ew, xorb_nilpotent.
      assert (inv icam (step p b icam m s) /\
        (forall i c, (i < 6)%nat -> tot p b (step p b icam m s) i c = tot p b s i c + jcross DR p b cc q i * dx p cc q c) /\
        (forall i j, (i <= j < 6)%nat -> totJ b (step p b icam m s) i j = totJ b s i j + jcross DR p b cc q i * jcross DR p b cc q j)) as (I' & T' & J').
      { assert (is_some (m_e m) = (0 <=? col_of (m_e m))%Z) as He.
        { destruct (q_e q) as [[k x]|]; [|now rewrite M1]. destruct M1 as (X1 & X2 & X3 & _). rewrite X1, X2. lia. }
        assert (is_some (m_f m) = (0 <=? col_of (m_f m))%Z) as Hf.
        { destruct (q_f q) as [[k x]|]; [|now rewrite M2]. destruct M2 as (X1 & X2 & X3 & _). rewrite X1, X2. lia. }
        assert (is_some (m_p m) = (0 <=? col_of (m_p m))%Z) as Hp.
        { destruct (q_p q) as [[k x]|]; [|now rewrite M3]. destruct M3 as (X1 & X2 & X3 & _). rewrite X1, X2. lia. }
        assert (is_some (m_f m) && is_some (m_p m) = false) as Hfp.
        { destruct HFP as [E|E]; rewrite E in *; [now rewrite M2|rewrite M3; apply andb_false_r]. }
        assert (is_some (m_w m) && is_some (m_p m) = false) as Hwp.
        { destruct (q_w q) as [x|] eqn:Eq; [|now rewrite M4]. rewrite HWP in M3 by discriminate. rewrite M3. apply andb_false_r. }
        destruct (step_ok p b icam m He Hf Hp Hfp Ew Hwp s I) as (I' & T' & J'). split; [exact I'|]. split; intros.
        - rewrite T' by easy. rewrite (jm_eq p b icam n q m Hm), (dm_eq p Hok icam n q Hq m Hm). reflexivity.
        - rewrite J' by easy. now rewrite !(jm_eq p b icam n q m Hm). }
      unfold used. unfold cc, ccp in *. destruct (0 <=? icam)%Z eqn:Ec.
      + assert (m_icam m = q_cam q) as Ei. { rewrite M0. destruct (Nat.eqb_spec n 0); [exfalso; now apply Hn|reflexivity]. }
        destruct Hq as (Hcam & _). rewrite Ei. replace (q_cam q <? 0)%Z with false by lia. cbn [filter].
        destruct (icam =? q_cam q)%Z.
        * destruct (IH _ HF' Hn I') as (s' & E' & T & J). exists s'. split; [exact E'|]. unfold used in T, J. rewrite Ec in T, J.
          split; intros; rewrite rsum_cons; [rewrite T, T' by easy|rewrite J, J' by easy]; ring.
        * destruct (IH _ HF' Hn I) as (s' & E' & T & J). exists s'. split; [exact E'|]. unfold used in T, J. rewrite Ec in T, J.
          split; intros; [now apply T|now apply J].
      + destruct (IH _ HF' Hn I') as (s' & E' & T & J). exists s'. split; [exact E'|]. unfold used in T, J. rewrite Ec in T, J.
        split; intros; rewrite rsum_cons; [rewrite T, T' by easy|rewrite J, J' by easy]; ring.
  Qed.

  Lemma leading_ok : forall q, meas_ok p n q -> leading_intrinsics p (row_of p q) = n.
  Proof.
    intros q Hq. pose proof (ordered p Hok) as (O1 & O2 & O3 & O4).
    pose proof (cols_i p Hok n q Hq) as Ki. pose proof (cols_e p Hok n q Hq) as Ke. pose proof (cols_f p Hok n q Hq) as Kf.
    pose proof (cols_p p Hok n q Hq) as Kp. pose proof (cols_w p Hok n q Hq) as Kw. destruct Hq as (_ & L & _).
    rewrite row_segs. set (tl := seg_e p q ++ seg_f p q ++ seg_p p q ++ seg_w p q).
    assert (forall cv, In cv tl -> num_states_intrinsics p <= fst cv)%Z as Kt.
    { intros cv X. unfold tl in X. rewrite !in_app_iff in X. destruct X as [X|[X|[X|X]]]; [apply Ke in X|apply Kf in X|apply Kp in X|apply Kw in X]; lia. }
    rewrite <- L. clear L Ke Kf Kp Kw. clearbody tl. induction (q_i q) as [|[c v] l IH].
    - cbn [app length]. destruct tl as [|[c v] t]; [reflexivity|]. cbn [leading_intrinsics]. rewrite (reg_i p Hok). specialize (Kt (c, v) (or_introl eq_refl)). cbn [fst] in Kt.
      replace (_ && _)%bool with false by lia. reflexivity.
    - cbn [app leading_intrinsics length]. rewrite (reg_i p Hok). pose proof (Ki (c, v) (or_introl eq_refl)) as X. cbn [fst] in X.
      replace (_ && _)%bool with true by lia. f_equal. apply IH. intros; apply Ki. now right.
  Qed.

  Theorem C53_accumulation : forall qs,
    Forall (fun q => meas_ok p n q /\ row_of p q <> []) qs -> (0 <= icam -> n <> O)%Z -> refused p = false ->
    exists K JtJ, accumulated p b icam (map (row_of p) qs) = Some (K, JtJ) /\
      (forall i c, (i < 6)%nat -> K i c = rsum (fun q => jcross DR p b (0 <=? icam)%Z q i * dx p (0 <=? icam)%Z q c) (used icam qs)) /\
      (forall i j, (i <= j < 6)%nat -> JtJ (index_sym66 i j) = rsum (fun q => jcross DR p b (0 <=? icam)%Z q i * jcross DR p b (0 <=? icam)%Z q j) (used icam qs)).
  Proof.
    intros qs HF Hn Hr. unfold accumulated. rewrite Hr.
    assert (inv icam start) as I by (unfold inv, cam_clear, frame_clear, point_clear; cbn; intuition lia).
    assert (all_rows p b icam (leading_intrinsics p (hd [] (map (row_of p) qs))) (map (row_of p) qs) start = all_rows p b icam n (map (row_of p) qs) start) as ->.
    { destruct qs as [|q qs]; [reflexivity|]. inversion HF as [|? ? [Hq _] _]; subst. cbn [map hd]. now rewrite (leading_ok q Hq). }
    destruct (rows_ok qs start HF) as (s' & E & T & J); [unfold cc, ccp; intro; apply Hn; lia|exact I|]. rewrite E.
    exists (fst (finish p b s')), (snd (finish p b s')). split; [now rewrite <- surjective_pairing|]. split.
    - intros i c Hi. rewrite finish_K, T by easy. unfold tot at 1. cbn. unfold when. cbn. fold cc. unfold cc, ccp. ring.
    - intros i j Hij. unfold index_sym66. replace (i <=? j)%nat with true by (symmetry; apply Nat.leb_le; lia).
      rewrite finish_J, J by easy. unfold totJ at 1. cbn -[index_sym66_assume_upper]. unfold when, z1. cbn -[index_sym66_assume_upper]. unfold cc, ccp. ring.
  Qed.
End Main.

(** ** the order of the measurements does not matter *)
Lemma rsum_perm : forall {T} (f : T -> R) l l', Permutation l l' -> rsum f l = rsum f l'.
Proof. intros T f l l' H. induction H; unfold rsum in *; cbn [fold_right]; [reflexivity|rewrite IHPermutation; ring|ring|congruence]. Qed.
Lemma filter_perm : forall {T} (f : T -> bool) l l', Permutation l l' -> Permutation (filter f l) (filter f l').
Proof.
  intros T f l l' H. induction H; cbn [filter]; [constructor|destruct (f x); [now constructor|easy]| |now transitivity (filter f l')].
  destruct (f x), (f y); try reflexivity. apply perm_swap.
Qed.
Theorem C53_order : forall p b icam n qs qs', problem_ok p -> Permutation qs qs' ->
  Forall (fun q => meas_ok p n q /\ row_of p q <> []) qs -> (0 <= icam -> n <> O)%Z -> refused p = false ->
  exists K JtJ K' JtJ',
    accumulated p b icam (map (row_of p) qs) = Some (K, JtJ) /\ accumulated p b icam (map (row_of p) qs') = Some (K', JtJ') /\
    (forall i c, (i < 6)%nat -> K i c = K' i c) /\ (forall i j, (i <= j < 6)%nat -> JtJ (index_sym66 i j) = JtJ' (index_sym66 i j)).
Proof.
  intros p b icam n qs qs' Hok HP HF Hn Hr.
  destruct (C53_accumulation p Hok b icam n qs HF Hn Hr) as (K & JtJ & E & HK & HJ).
  assert (Forall (fun q => meas_ok p n q /\ row_of p q <> []) qs') as HF' by now apply (Permutation_Forall HP).
  destruct (C53_accumulation p Hok b icam n qs' HF' Hn Hr) as (K' & JtJ' & E' & HK' & HJ').
  assert (Permutation (used icam qs) (used icam qs')) as HU by (unfold used; destruct (0 <=? icam)%Z; [now apply filter_perm|easy]).
  exists K, JtJ, K', JtJ'. split; [easy|]. split; [easy|]. split; intros.
  - rewrite HK, HK' by easy. now apply rsum_perm.
  - rewrite HJ, HJ' by easy. now apply rsum_perm.
Qed.

(** ** the linear solve *)
Section Solve.
  Context (pp_solve : (nat -> R) -> (nat -> R) -> option (nat -> R)) (pp_factor_ok : (nat -> R) -> bool).
  (** what LAPACK promises: dpptrs solves the packed symmetric system *)
  Definition solves : Prop := forall A v x, pp_factor_ok A = true -> pp_solve A v = Some x ->
    forall i, (i < 6)%nat -> sum_n 6 (fun j => A (index_sym66 i j) * x j) = v i.

  Lemma finalize_ok : forall JtJ cols K K', NoDup cols -> finalize pp_solve JtJ cols K = Some K' ->
    (forall c, ~ In c cols -> forall i, K' i c = K i c) /\
    (forall c, In c cols -> exists v x, (forall i, v i = K i c) /\ pp_solve JtJ v = Some x /\ forall i, K' i c = - x i).
  Proof.
    intros JtJ. induction cols as [|c0 cols IH]; intros K K' ND E.
    - cbn in E. injection E as <-. split; [easy|]. intros c [].
    - cbn [finalize] in E. unfold finalize_col in E. destruct (pp_solve JtJ (fun i => K i c0)) as [x|] eqn:ES; [|discriminate].
      inversion ND as [|? ? NI ND']; subst. destruct (IH _ _ ND' E) as (I1 & I2). split.
      + intros c NC i. rewrite I1 by (intro; apply NC; now right). destruct (Z.eqb_spec c c0) as [->|]; [exfalso; apply NC; now left|reflexivity].
      + intros c [<-|HC].
        * exists (fun i => K i c0), x. split; [easy|]. split; [easy|]. intro i. rewrite I1 by easy. now rewrite Z.eqb_refl.
        * destruct (I2 c HC) as (v & y & V1 & V2 & V3). exists v, y. split; [|easy]. intro i. rewrite V1.
          destruct (Z.eqb_spec c c0) as [->|]; [easy|reflexivity].
  Qed.

  Lemma in_zrange : forall x0 n c, In c (M_Callback.zrange x0 n) <-> (x0 <= c < x0 + n)%Z.
  Proof.
    intros x0 n c. unfold M_Callback.zrange. rewrite in_map_iff. split.
    - intros (k & <- & H). apply in_seq in H. lia.
    - intro H. exists (Z.to_nat (c - x0)). split; [lia|]. apply in_seq. lia.
  Qed.
  Lemma in_cols : forall x0 n c, (x0 < 0 -> n = 0)%Z -> In c (cols_of x0 n) <-> in_block x0 n c = true.
  Proof.
    intros x0 n c H. unfold cols_of, in_block. destruct (Z.leb_spec 0 x0).
    - rewrite in_zrange. lia.
    - rewrite H by lia. split; [intros []|lia].
  Qed.
  Lemma nodup_cols : forall x0 n, NoDup (cols_of x0 n).
  Proof.
    intros. unfold cols_of. destruct (0 <=? x0)%Z; [|constructor]. unfold M_Callback.zrange.
    apply FinFun.Injective_map_NoDup; [intros a b; lia|apply seq_NoDup].
  Qed.
  Lemma nodup_app : forall (a d : list Z), NoDup a -> NoDup d -> (forall x, In x a -> ~ In x d) -> NoDup (a ++ d).
  Proof.
    induction a as [|x a IH]; intros d Ha Hd H; [easy|]. inversion Ha; subst. cbn [app]. constructor.
    - rewrite in_app_iff. intros [X|X]; [easy|]. apply (H x); [now left|easy].
    - apply IH; [easy|easy|]. intros y Y. apply H. now right.
  Qed.

  (** The returned K: for every optimized variable that is not an intrinsic, column c
      of K solves the normal equations of minimizing |J_cross rt + J b|; the columns
      of the intrinsics are 0. *)
  Theorem C53_solve : forall p b icam n qs K', solves -> problem_ok p ->
    Forall (fun q => meas_ok p n q /\ row_of p q <> []) qs -> (0 <= icam -> n <> O)%Z ->
    drt_cross_reprojection__dbpacked p b icam pp_solve pp_factor_ok (map (row_of p) qs) = Some K' ->
    let jc := jcross DR p b (0 <=? icam)%Z in
    let normal i j := rsum (fun q => jc q i * jc q j) (used icam qs) in
    (forall i c, (i < 6)%nat -> (num_states_intrinsics p <= c < num_states p)%Z ->
       sum_n 6 (fun j => normal i j * K' j c) = - rsum (fun q => jc q i * dx p (0 <=? icam)%Z q c) (used icam qs)) /\
    (forall i c, (i < 6)%nat -> (0 <= c < num_states_intrinsics p)%Z -> K' i c = 0).
  Proof.
    intros p b icam n qs K' HS Hok HF Hn E jc normal. unfold drt_cross_reprojection__dbpacked in E.
    destruct (refused p) eqn:Hr. { unfold accumulated in E. rewrite Hr in E. discriminate. }
    destruct (C53_accumulation p Hok b icam n qs HF Hn Hr) as (K & JtJ & EA & HK & HJ). rewrite EA in E.
    destruct (pp_factor_ok JtJ) eqn:EF; [|discriminate]. cbn [negb] in E.
    pose proof (regions_ordered p Hok) as Ro.
    set (cols := (cols_of _ _ ++ _)%list) in E.
    assert (forall c, In c cols <-> (num_states_intrinsics p <= c < num_states p)%Z) as HC0.
    { intro c. unfold cols. rewrite !in_app_iff.
      rewrite (in_cols (state_index_extrinsics p 0)), (in_cols (state_index_frames p 0)), (in_cols (state_index_points p 0)), (in_cols (state_index_warp p)).
      - rewrite (reg_e p Hok), (reg_f p Hok), (reg_p p Hok), (reg_w p). unfold num_states. lia.
      - unfold state_index_warp, num_states_warp. destruct (has_warp p); cbn [negb]; lia.
      - destruct Hok as (_ & _ & _ & _ & H & _). unfold state_index_points, num_states_points. destruct (do_frames _); [|lia].
        destruct (Z.leb_spec (p_Npoints p - p_Npoints_fixed p) 0); [lia|]. cbn [negb]. destruct (negb _) eqn:X; lia.
      - destruct Hok as (_ & _ & _ & H & _). unfold state_index_frames, num_states_frames. destruct (do_frames _); [|lia].
        destruct (Z.leb_spec (p_Nframes p) 0); [lia|]. cbn [negb]. destruct (negb _) eqn:X; lia.
      - destruct Hok as (_ & _ & H & _). unfold state_index_extrinsics, num_states_extrinsics. destruct (do_ext _); [|lia].
        destruct (Z.leb_spec (p_Nce p) 0); [lia|]. cbn [negb]. destruct (negb _) eqn:X; lia. }
    assert (NoDup cols) as ND.
    { assert (forall x0 n c, In c (cols_of x0 n) -> in_block x0 n c = true) as IB.
      { intros x0 k c. unfold cols_of, in_block. destruct (Z.leb_spec 0 x0); [rewrite in_zrange; lia|intros []]. }
      unfold cols. apply nodup_app; [apply nodup_cols| |]; [apply nodup_app; [apply nodup_cols| |]; [apply nodup_app; [apply nodup_cols|apply nodup_cols|]|]|].
      - intros x X Y. apply IB in X. apply IB in Y. rewrite (reg_p p Hok) in X. rewrite (reg_w p) in Y. lia.
      - intros x X Y. rewrite in_app_iff in Y. apply IB in X. rewrite (reg_f p Hok) in X. destruct Y as [Y|Y]; apply IB in Y; [rewrite (reg_p p Hok) in Y|rewrite (reg_w p) in Y]; lia.
      - intros x X Y. rewrite !in_app_iff in Y. apply IB in X. rewrite (reg_e p Hok) in X. destruct Y as [Y|[Y|Y]]; apply IB in Y; [rewrite (reg_f p Hok) in Y|rewrite (reg_p p Hok) in Y|rewrite (reg_w p) in Y]; lia. }
    destruct (finalize_ok _ _ _ _ ND E) as (F1 & F2). split.
    - intros i c Hi Hc. destruct (F2 c) as (v & x & V1 & V2 & V3); [now apply HC0|].
      pose proof (HS JtJ v x EF V2 i Hi) as Hs. rewrite V1, HK in Hs by easy. unfold jc. rewrite <- Hs.
      transitivity (sum_n 6 (fun j => - (JtJ (index_sym66 i j) * x j))); [|unfold sum_n; cbn [seq fold_right]; ring].
      apply sum_ext. intros j Hj. rewrite V3. unfold normal, jc.
      assert (JtJ (index_sym66 i j) = rsum (fun q => jcross DR p b (0 <=? icam)%Z q i * jcross DR p b (0 <=? icam)%Z q j) (used icam qs)) as ->; [|ring].
      destruct (Nat.le_gt_cases i j) as [L|L]; [apply HJ; lia|].
      replace (index_sym66 i j) with (index_sym66 j i).
      + rewrite HJ by lia. unfold rsum. clear. induction (used icam qs) as [|q l IH]; [reflexivity|]. cbn [fold_right]. rewrite IH. ring.
      + unfold index_sym66. replace (j <=? i)%nat with true by (symmetry; apply Nat.leb_le; lia). replace (i <=? j)%nat with false by (symmetry; apply Nat.leb_gt; lia). reflexivity.
    - intros i c Hi Hc. rewrite F1 by (rewrite HC0; lia). rewrite HK by easy.
      assert (forall q, dx p (0 <=? icam)%Z q c = 0) as Z0.
      { intro q. unfold dx. replace (c <? _)%Z with true; [reflexivity|]. symmetry. apply Z.ltb_lt. destruct (0 <=? icam)%Z; lia. }
      clear - Z0. unfold rsum. induction (used icam qs) as [|q l IH]; [reflexivity|]. cbn [fold_right]. rewrite IH, Z0. ring.
  Qed.
End Solve.

(** ** what is refused *)
(** A problem with optimized boards, points and board warp is always refused. *)
Theorem C53_refuses_points_with_warp : forall p b icam rows, problem_ok p ->
  optimized p (SI_frame 0) -> optimized p (SI_point 0) -> optimized p SI_warp -> accumulated p b icam rows = None.
Proof.
  intros p b icam rows Hok F P W. unfold accumulated. replace (refused p) with true; [reflexivity|]. symmetry. unfold refused.
  pose proof (state_index_closed p _ Hok F) as EF. pose proof (state_index_closed p _ Hok W) as EW. cbn [state_index] in EF, EW.
  pose proof (regions_ordered p Hok). cbn [optimized] in P. unfold num_states_points in *. destruct P as (P1 & P2). rewrite P2 in *. lia.
Qed.
(** So is one where only points are optimized: the message says that points would do. *)
Theorem C53_refuses_points_only : forall p b icam rows, problem_ok p ->
  (p_Nframes p = 0)%Z -> do_ext (p_sel p) = false -> accumulated p b icam rows = None.
Proof.
  intros p b icam rows Hok F E. unfold accumulated. replace (refused p) with true; [reflexivity|]. symmetry. unfold refused.
  unfold state_index_frames, state_index_extrinsics. rewrite F, E. destruct (p_Nce p <=? 0)%Z; reflexivity.
Qed.
(** Asking for one camera only ("ccp") needs optimized intrinsics. *)
Theorem C53_refuses_camera_without_intrinsics : forall p b icam q qs, problem_ok p -> (0 <= icam)%Z ->
  meas_ok p 0 q -> row_of p q <> [] -> accumulated p b icam (map (row_of p) (q :: qs)) = None.
Proof.
  intros p b icam q qs Hok Hi Hq Hne. unfold accumulated. destruct (refused p); [reflexivity|].
  cbn [map hd]. rewrite (leading_ok p Hok icam 0%nat q Hq). cbn [all_rows]. unfold one_row.
  destruct (map_row_ok p Hok 0%nat q Hq Hne) as (m & -> & M0 & _). destruct (xorb _ _); [reflexivity|].
  unfold ccp. replace (0 <=? icam)%Z with true by lia. rewrite M0. reflexivity.
Qed.
