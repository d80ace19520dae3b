(** Proofs for the cross-reprojection accumulation: mapping out the rows. *)
From Coq Require Import ZArith List Bool Reals Lra Lia Arith.
From Verif Require Import M_Lens M_Layout M_Pack M_Callback S_Layout P_Layout S_Vec M_Pose S_Cross M_Cross P_Cross.
Import ListNotations.
Open Scope Z_scope.

Section Regions.
  Context (p : problem) (Hok : problem_ok p).
  Let A := num_states_intrinsics p.
  Let B := A + num_states_extrinsics p.
  Let C := B + num_states_frames p.
  Let D := C + num_states_points p.
  Lemma reg_i : forall c, in_block (state_index_intrinsics p 0) A c = ((0 <=? c) && (c <? A)).
  Proof.
    intro c. pose proof (state_absent p (SI_intr 0) Hok) as Ab. cbn [state_index] in Ab. unfold state_index_intrinsics. unfold A, num_states_intrinsics.
    pose proof (intr_size_nonneg p 0 Hok) as N. rewrite (num_intr_eq p 0). destruct Hok as (_ & H1 & _).
    set (n := item_size p (SI_intr 0)) in *. unfold in_block.
    destruct (Z.leb_spec (p_Nci p) 0). { replace (p_Nci p) with 0 by lia. lia. }
    destruct (Z.leb_spec n 0). { replace n with 0 by lia. lia. }
    destruct (negb _) eqn:E; [lia|]. lia.
  Qed.
  Lemma reg_e : forall c, in_block (state_index_extrinsics p 0) (num_states_extrinsics p) c = ((A <=? c) && (c <? B)).
  Proof.
    intro c. unfold state_index_extrinsics, in_block, B, A, num_states_extrinsics. pose proof Hok as (_ & _ & H2 & _).
    destruct (Z.leb_spec (p_Nce p) 0), (do_ext (p_sel p)); cbn [negb]; try (replace (p_Nce p) with 0 by lia); try lia.
    destruct ((0 <=? 0) && (0 <? p_Nce p)) eqn:E; cbn [negb]; lia.
  Qed.
  Lemma reg_f : forall c, in_block (state_index_frames p 0) (num_states_frames p) c = ((B <=? c) && (c <? C)).
  Proof.
    intro c. unfold state_index_frames, in_block, C, B, A, num_states_frames. pose proof Hok as (_ & _ & _ & H2 & _).
    destruct (Z.leb_spec (p_Nframes p) 0), (do_frames (p_sel p)); cbn [negb]; try (replace (p_Nframes p) with 0 by lia); try lia.
    destruct ((0 <=? 0) && (0 <? p_Nframes p)) eqn:E; cbn [negb]; lia.
  Qed.
  Lemma reg_p : forall c, in_block (state_index_points p 0) (num_states_points p) c = ((C <=? c) && (c <? D)).
  Proof.
    intro c. unfold state_index_points, in_block, D, C, B, A, num_states_points. pose proof Hok as (_ & _ & _ & _ & H2 & _). cbv zeta.
    set (k := p_Npoints p - p_Npoints_fixed p). assert (0 <= k) as Hk by (unfold k; lia).
    destruct (Z.leb_spec k 0), (do_frames (p_sel p)); cbn [negb]; try (replace k with 0 by lia); try lia.
    destruct ((0 <=? 0) && (0 <? k)) eqn:E; cbn [negb]; lia.
  Qed.
  Lemma reg_w : forall c, in_block (state_index_warp p) (num_states_warp p) c = ((D <=? c) && (c <? D + num_states_warp p)).
  Proof.
    intro c. unfold state_index_warp, in_block, D, C, B, A, num_states_warp. destruct (has_warp p); cbn [negb]; lia.
  Qed.
End Regions.

Definition st (m : mapped) (rest : jrow) : scan := match rest with [] => Break true m | _ => Next m rest end.
Lemma visit_seg : forall x0 N adv put m seg tail,
  (seg = [] \/ (length seg = adv /\ forall c v t, seg = (c, v) :: t -> in_block x0 N c = true)) ->
  (forall c v t, tail = (c, v) :: t -> in_block x0 N c = false) ->
  visit x0 N adv put (st m (seg ++ tail)) = st (match seg with [] => m | _ => put m (seg ++ tail) end) tail.
Proof.
  intros x0 N adv put m seg tail H1 H2. destruct seg as [|[c v] seg].
  - cbn [app]. destruct tail as [|[c v] t]; [reflexivity|]. cbn [st visit]. now rewrite (H2 c v t eq_refl).
  - destruct H1 as [|[L H1]]; [discriminate|]. cbn [app st visit]. rewrite (H1 c v seg eq_refl). cbn [length]. rewrite app_length. cbn [length] in L.
    destruct tail as [|x t].
    + cbn [length]. replace (adv <? S (length seg + 0))%nat with false by (symmetry; apply Nat.ltb_ge; lia).
      replace (adv =? S (length seg + 0))%nat with true by (symmetry; apply Nat.eqb_eq; lia). reflexivity.
    + cbn [length]. replace (adv <? S (length seg + S (length t)))%nat with true by (symmetry; apply Nat.ltb_lt; lia).
      cbn [st]. f_equal. rewrite <- L. cbn [skipn]. rewrite skipn_app, Nat.sub_diag, skipn_all. reflexivity.
Qed.

Lemma blk_length : forall col n x, length (blk col n x) = n.
Proof. intros. unfold blk. now rewrite map_length, seq_length. Qed.
Lemma blk_cols : forall col n x cv, In cv (blk col n x) -> col <= fst cv < col + Z.of_nat n.
Proof. intros col n x cv H. unfold blk in H. apply in_map_iff in H. destruct H as (k & <- & K). apply in_seq in K. cbn. lia. Qed.
Lemma blk_hd : forall col n x tl, (0 < n)%nat -> col_of (Some (blk col n x ++ tl)) = col.
Proof. intros col n x tl H. destruct n; [lia|]. cbn. lia. Qed.
Lemma blk_nth : forall col n x tl k, (k < n)%nat -> val_of (Some (blk col n x ++ tl)) k = x k.
Proof.
  intros col n x tl k H. cbn [val_of]. rewrite map_app, app_nth1 by (rewrite map_length, blk_length; lia).
  unfold blk. rewrite map_map. cbn [snd]. rewrite (nth_indep _ 0%R (x 0%nat)) by (rewrite map_length, seq_length; lia).
  rewrite (map_nth x). now rewrite seq_nth by lia.
Qed.

Definition seg_e p q := oblk (q_e q) (fun kx : Z * (nat -> R) => blk (state_index p (SI_ext (fst kx))) 6 (snd kx)).
Definition seg_f p q := oblk (q_f q) (fun kx : Z * (nat -> R) => blk (state_index p (SI_frame (fst kx))) 6 (snd kx)).
Definition seg_p p q := oblk (q_p q) (fun kx : Z * (nat -> R) => blk (state_index p (SI_point (fst kx))) 3 (snd kx)).
Definition seg_w p q := oblk (q_w q) (fun x : nat -> R => blk (state_index p SI_warp) 2 x).

Definition given (o : option jrow) (col : Z) (n : nat) (x : nat -> R) : Prop :=
  is_some o = true /\ col_of o = col /\ 0 <= col /\ forall k, (k < n)%nat -> val_of o k = x k.
Definition maps (p : problem) (n : nat) (q : meas) (m : mapped) : Prop :=
  (m_icam m = if (n =? 0)%nat then -1 else q_cam q) /\
  (match q_e q with Some (k, x) => given (m_e m) (state_index p (SI_ext k)) 6 x | None => m_e m = None end) /\
  (match q_f q with Some (k, x) => given (m_f m) (state_index p (SI_frame k)) 6 x | None => m_f m = None end) /\
  (match q_p q with Some (k, x) => given (m_p m) (state_index p (SI_point k)) 3 x | None => m_p m = None end) /\
  (match q_w q with Some x => given (m_w m) (state_index p SI_warp) 2 x | None => m_w m = None end).

Section Rows.
  Context (p : problem) (Hok : problem_ok p) (n : nat) (q : meas) (Hq : meas_ok p n q).
  Let A := num_states_intrinsics p.
  Let B := A + num_states_extrinsics p.
  Let C := B + num_states_frames p.
  Let D := C + num_states_points p.
  Lemma cols_i : forall cv, In cv (q_i q) -> 0 <= fst cv < A.
  Proof.
    intros cv H. destruct Hq as (_ & L & I & O & _). specialize (I cv H). assert (n <> 0%nat) as Hn by (rewrite <- L; destruct (q_i q); [easy|discriminate]).
    specialize (O Hn). pose proof (region p _ (fst cv) Hok O I) as Rg. exact (proj1 Rg).
  Qed.
  Lemma cols_e : forall cv, In cv (seg_e p q) -> A <= fst cv < B.
  Proof.
    intros cv H. destruct Hq as (_ & _ & _ & _ & E & _). unfold seg_e, oblk in H. destruct (q_e q) as [[k x]|]; [|easy]. specialize (E k x eq_refl).
    apply blk_cols in H. cbn [fst] in H. pose proof (region p _ (fst cv) Hok E H) as Rg. exact (proj1 Rg).
  Qed.
  Lemma cols_f : forall cv, In cv (seg_f p q) -> B <= fst cv < C.
  Proof.
    intros cv H. destruct Hq as (_ & _ & _ & _ & _ & E & _). unfold seg_f, oblk in H. destruct (q_f q) as [[k x]|]; [|easy]. specialize (E k x eq_refl).
    apply blk_cols in H. cbn [fst] in H. pose proof (region p _ (fst cv) Hok E H) as Rg. exact (proj1 Rg).
  Qed.
  Lemma cols_p : forall cv, In cv (seg_p p q) -> C <= fst cv < D.
  Proof.
    intros cv H. destruct Hq as (_ & _ & _ & _ & _ & _ & E & _). unfold seg_p, oblk in H. destruct (q_p q) as [[k x]|]; [|easy]. specialize (E k x eq_refl).
    apply blk_cols in H. cbn [fst] in H. pose proof (region p _ (fst cv) Hok E H) as Rg. exact (proj1 Rg).
  Qed.
  Lemma cols_w : forall cv, In cv (seg_w p q) -> D <= fst cv < D + num_states_warp p.
  Proof.
    intros cv H. destruct Hq as (_ & _ & _ & _ & _ & _ & _ & _ & E & _). unfold seg_w, oblk in H. destruct (q_w q) as [x|]; [|easy].
    assert (optimized p SI_warp) as O by (apply E; discriminate). apply blk_cols in H.
    rewrite (state_index_closed _ _ Hok O) in H. apply has_warp_iff in O. unfold num_states_warp. rewrite O. unfold D, C, B, A. lia.
  Qed.
  Lemma ordered : 0 <= A /\ A <= B /\ B <= C /\ C <= D.
  Proof. pose proof (regions_ordered p Hok). unfold D, C, B, A. lia. Qed.

  Lemma row_segs : row_of p q = q_i q ++ seg_e p q ++ seg_f p q ++ seg_p p q ++ seg_w p q.
  Proof. reflexivity. Qed.
  Lemma percam : n <> 0%nat -> forall c, state_index p (SI_intr (q_cam q)) <= c < state_index p (SI_intr (q_cam q)) + item_size p (SI_intr 0) ->
    (c - state_index_intrinsics p 0) / (num_states_intrinsics p / p_Nci p) = q_cam q.
  Proof.
    intros Hn c Hc. destruct Hq as (Hcam & L & I & O & _). specialize (O Hn).
    assert (optimized p (SI_intr 0)) as O0. { cbn [optimized] in *. split; [lia|tauto]. }
    pose proof (item_size_pos _ _ Hok O0) as Hs. rewrite (state_index_closed _ _ Hok O) in Hc.
    pose proof (state_index_closed _ _ Hok O0) as E. cbn [state_index] in E. rewrite E, nsi_eq. set (s := item_size p (SI_intr 0)) in *.
    rewrite (Z.mul_comm (p_Nci p) s), Z.div_mul by lia. symmetry. apply Z.div_unique with (c - q_cam q * s); lia.
  Qed.

  Lemma map_row_ok : row_of p q <> [] -> exists m, map_row p n (row_of p q) = Some m /\ maps p n q m.
  Proof.
    intro Hne. pose proof ordered as (O1 & O2 & O3 & O4).
    pose proof cols_i as Ki. pose proof cols_e as Ke. pose proof cols_f as Kf. pose proof cols_p as Kp. pose proof cols_w as Kw.
    unfold map_row. set (m0 := {| m_icam := -1; m_e := None; m_f := None; m_p := None; m_w := None |}).
    replace (Next m0 (row_of p q)) with (st m0 (row_of p q)) by (destruct (row_of p q); [easy|reflexivity]).
    rewrite row_segs.
    rewrite visit_seg; cycle 1.
    { destruct Hq as (_ & L & _). right. split; [exact L|]. intros c v t Et. fold A. rewrite (reg_i p Hok). specialize (Ki (c, v)). rewrite Et in Ki. specialize (Ki (or_introl eq_refl)). cbn in Ki. fold A. lia. }
    { intros c v t Et. fold A. rewrite (reg_i p Hok). fold A.
      assert (In (c, v) (seg_e p q ++ seg_f p q ++ seg_p p q ++ seg_w p q)) as X by (rewrite Et; now left). rewrite !in_app_iff in X.
      destruct X as [X|[X|[X|X]]]; [apply Ke in X|apply Kf in X|apply Kp in X|apply Kw in X]; cbn in X; lia. }
    rewrite visit_seg; cycle 1.
    { unfold seg_e, oblk. destruct (q_e q) as [[k x]|] eqn:Eq; [|now left]. right. rewrite blk_length. split; [reflexivity|]. intros c v t Et. rewrite (reg_e p Hok). fold A B.
      specialize (Ke (c, v)). unfold seg_e, oblk in Ke. rewrite Eq, Et in Ke. specialize (Ke (or_introl eq_refl)). cbn in Ke. lia. }
    { intros c v t Et. rewrite (reg_e p Hok). fold A B.
      assert (In (c, v) (seg_f p q ++ seg_p p q ++ seg_w p q)) as X by (rewrite Et; now left). rewrite !in_app_iff in X.
      destruct X as [X|[X|X]]; [apply Kf in X|apply Kp in X|apply Kw in X]; cbn in X; lia. }
    rewrite visit_seg; cycle 1.
    { unfold seg_f, oblk. destruct (q_f q) as [[k x]|] eqn:Eq; [|now left]. right. rewrite blk_length. split; [reflexivity|]. intros c v t Et. rewrite (reg_f p Hok). fold A B C.
      specialize (Kf (c, v)). unfold seg_f, oblk in Kf. rewrite Eq, Et in Kf. specialize (Kf (or_introl eq_refl)). cbn in Kf. lia. }
    { intros c v t Et. rewrite (reg_f p Hok). fold A B C.
      assert (In (c, v) (seg_p p q ++ seg_w p q)) as X by (rewrite Et; now left). rewrite !in_app_iff in X.
      destruct X as [X|X]; [apply Kp in X|apply Kw in X]; cbn in X; lia. }
    rewrite visit_seg; cycle 1.
    { unfold seg_p, oblk. destruct (q_p q) as [[k x]|] eqn:Eq; [|now left]. right. rewrite blk_length. split; [reflexivity|]. intros c v t Et. rewrite (reg_p p Hok). fold A B C D.
      specialize (Kp (c, v)). unfold seg_p, oblk in Kp. rewrite Eq, Et in Kp. specialize (Kp (or_introl eq_refl)). cbn in Kp. lia. }
    { intros c v t Et. rewrite (reg_p p Hok). fold A B C D.
      assert (In (c, v) (seg_w p q)) as X by (rewrite Et; now left). apply Kw in X; cbn in X; lia. }
    match goal with |- context [st ?m (seg_w p q)] => replace (st m (seg_w p q)) with (st m (seg_w p q ++ [])) by (now rewrite app_nil_r) end. rewrite visit_seg; cycle 1.
    { unfold seg_w, oblk. destruct (q_w q) as [x|] eqn:Eq; [|now left]. right. rewrite blk_length. split.
      - destruct Hq as (_ & _ & _ & _ & _ & _ & _ & _ & E & _). rewrite Eq in E. assert (optimized p SI_warp) as O by (apply E; discriminate). apply has_warp_iff in O. unfold num_states_warp. now rewrite O.
      - intros c v t Et. rewrite (reg_w p). fold A B C D. specialize (Kw (c, v)). unfold seg_w, oblk in Kw. rewrite Eq, Et in Kw. specialize (Kw (or_introl eq_refl)). cbn in Kw. lia. }
    { discriminate. }
    cbn [st]. clear Ki Ke Kf Kp Kw.
    pose proof Hq as (Hcam & L & I & O & HE & HF & HP & HFP & HW & _).
    assert (m_icam (match q_i q with [] => m0 | _ :: _ => put_i p m0 (q_i q ++ seg_e p q ++ seg_f p q ++ seg_p p q ++ seg_w p q) end) = if (n =? 0)%nat then -1 else q_cam q) as Eic.
    { rewrite <- L. destruct (q_i q) as [|[c v] t] eqn:Eq; [reflexivity|]. cbn [length Nat.eqb put_i m_icam app].
      apply percam; [cbn in L; lia|]. apply (I (c, v)). now left. }
    assert (forall k x, optimized p (SI_ext k) -> forall tl, given (Some (blk (state_index p (SI_ext k)) 6 x ++ tl)) (state_index p (SI_ext k)) 6 x) as Ge.
    { intros k x Ok tl. pose proof (state_in_range _ _ Hok Ok) as [Rg _]. split; [reflexivity|]. split; [now apply blk_hd; lia|]. split; [exact Rg|]. intros. now apply blk_nth. }
    assert (forall k x, optimized p (SI_frame k) -> forall tl, given (Some (blk (state_index p (SI_frame k)) 6 x ++ tl)) (state_index p (SI_frame k)) 6 x) as Gf.
    { intros k x Ok tl. pose proof (state_in_range _ _ Hok Ok) as [Rg _]. split; [reflexivity|]. split; [now apply blk_hd; lia|]. split; [exact Rg|]. intros. now apply blk_nth. }
    assert (forall k x, optimized p (SI_point k) -> forall tl, given (Some (blk (state_index p (SI_point k)) 3 x ++ tl)) (state_index p (SI_point k)) 3 x) as Gp.
    { intros k x Ok tl. pose proof (state_in_range _ _ Hok Ok) as [Rg _]. split; [reflexivity|]. split; [now apply blk_hd; lia|]. split; [exact Rg|]. intros. now apply blk_nth. }
    assert (forall x, optimized p SI_warp -> forall tl, given (Some (blk (state_index p SI_warp) 2 x ++ tl)) (state_index p SI_warp) 2 x) as Gw.
    { intros x Ok tl. pose proof (state_in_range _ _ Hok Ok) as [Rg _]. split; [reflexivity|]. split; [now apply blk_hd; lia|]. split; [exact Rg|]. intros. now apply blk_nth. }
    set (mi := match q_i q with [] => m0 | _ => _ end) in *.
    assert (m_e mi = None /\ m_f mi = None /\ m_p mi = None /\ m_w mi = None) as (N1 & N2 & N3 & N4) by (unfold mi; destruct (q_i q); repeat split).
    clearbody mi. unfold maps.
    unfold seg_e, seg_f, seg_p, seg_w, oblk.
    destruct (q_e q) as [[ke xe]|] eqn:Ee; destruct (q_f q) as [[kf xf]|] eqn:Ef; destruct (q_p q) as [[kp xp]|] eqn:Ep; destruct (q_w q) as [xw|] eqn:Ew;
      try (exfalso; destruct HFP; discriminate); cbn [fst snd];
      (eexists; split; [cbn [blk map seq put_e put_f put_p put_w m_f m_p]; rewrite ?N2, ?N3; reflexivity|]);
      cbn [put_e put_f put_p put_w m_icam m_e m_f m_p m_w]; (split; [exact Eic|]);
      (split; [first [eapply Ge, HE; reflexivity | exact N1]|]); (split; [first [eapply Gf, HF; reflexivity | exact N2]|]);
      (split; [first [eapply Gp, HP; reflexivity | exact N3]|]);
      first [apply Gw, HW; discriminate | exact N4].
  Qed.
End Rows.
