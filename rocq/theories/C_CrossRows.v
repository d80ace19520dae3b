(** C53: the rows the optimizer callback produces for boards and points (mrcal.c:4600-5176,
    [M_Callback]) have the form that the accumulation expects. *)
From Coq Require Import ZArith List Bool Reals Lra Lia Arith ZifyBool.
From Verif Require Import M_Lens M_Layout M_Pack M_SplineIdx M_Callback S_Layout P_Layout S_Callback P_Callback P_CallbackRows P_Outliers S_Vec M_Pose S_Cross M_Cross P_Cross P_CrossRow C_Cross C_TinyGrad.
Import ListNotations.
Open Scope Z_scope.

Definition tovals (s : list (Z * R)) (k : nat) : R := nth k (map snd s) 0%R.
Lemma seg_blk : forall n v s, map fst s = map (fun i => v + Z.of_nat i) (seq 0 n) -> s = blk v n (tovals s).
Proof.
  assert (forall n v s off, map fst s = map (fun i => v + Z.of_nat i) (seq off n) ->
    s = map (fun k => (v + Z.of_nat k, nth (k - off) (map snd s) 0%R)) (seq off n)) as G.
  { induction n as [|n IH]; intros v s off H; [now destruct s|]. destruct s as [|[c x] s]; [discriminate|]. cbn [seq map fst] in H. injection H as H1 H2.
    cbn [seq map snd]. rewrite Nat.sub_diag. f_equal; [cbn; now rewrite H1|]. rewrite (IH v s (S off) H2) at 1. apply map_ext_in. intros k Hk. apply in_seq in Hk.
    replace (k - off)%nat with (S (k - S off)) by lia. reflexivity. }
  intros n v s H. rewrite (G n v s 0%nat H) at 1. unfold blk, tovals. apply map_ext. intro k. now rewrite Nat.sub_0_r.
Qed.
Lemma six_range : forall v, (zrange (v + 0) 3 ++ zrange (v + 3) 3)%list = map (fun i => v + Z.of_nat i) (seq 0 6).
Proof. intro v. unfold zrange. change (Z.to_nat 3) with 3%nat. cbn [seq map app]. f_equal; [lia|]. f_equal; [lia|]. f_equal; [lia|]. f_equal; [lia|]. f_equal; [lia|]. f_equal. lia. Qed.
Lemma map_fst_app : forall (l : list (Z * R)) a b, map fst l = (a ++ b)%list -> exists l1 l2, l = (l1 ++ l2)%list /\ map fst l1 = a /\ map fst l2 = b.
Proof.
  intros l a b H. exists (firstn (length a) l), (skipn (length a) l). split; [now rewrite firstn_skipn|].
  rewrite <- firstn_map, <- skipn_map, H, firstn_app, Nat.sub_diag, firstn_all, skipn_app, Nat.sub_diag, skipn_all. split; [apply app_nil_r|reflexivity].
Qed.

Section Rows.
  Context (p : problem) (Hok : problem_ok p) (HL : lens_legal (p_lens p)).
  Let n := Z.to_nat (nintr_per_meas p).

  Lemma icols_percam icam d ixy : 0 <= icam < p_Nci p -> 0 <= ixy <= 1 -> (forall v, dist_in p v (d v)) ->
    Forall (fun k => state_index p (SI_intr icam) <= k < state_index p (SI_intr icam) + item_size p (SI_intr 0)) (icols p (state_index_intrinsics p icam) d ixy).
  Proof.
    intros Hi Hxy Hd. pose proof (num_params_ge4 _ (proj1 Hok)) as Hn. cbn [state_index]. unfold icols, item_size.
    apply Forall_app. split.
    - destruct (do_core (p_sel p)); [|constructor]. repeat constructor; destruct (do_dist (p_sel p)); lia.
    - destruct (do_dist (p_sel p)); [|constructor]. eapply Forall_impl; [|apply Hd]. cbv beta. destruct (do_core (p_sel p)); intros; lia.
  Qed.
  Lemma nintr_optimized icam : 0 <= icam < p_Nci p -> n <> O -> optimized p (SI_intr icam).
  Proof.
    intros Hi Hn. unfold n in Hn. rewrite (nintr_eq p) in Hn. cbn [optimized]. split; [easy|].
    destruct (do_core (p_sel p)); [now left|]. destruct (do_dist (p_sel p)); [|cbn in Hn; lia]. right. split; [easy|].
    destruct (p_lens p) as [| | | | | | | | | |c] eqn:E; unfold dlen in Hn; rewrite E in Hn; try (vm_compute in Hn; exfalso; lia); try (vm_compute; reflexivity); try lia.
    cbn in HL. unfold num_params. nia.
  Qed.

  Lemma build : forall l icam d ixy e (f w : bool) (fk : Z) (pk : option Z),
    map fst l = (icols p (state_index_intrinsics p icam) d ixy ++ ecols p e ++
                 (if f then map (fun i => state_index_frames p fk + Z.of_nat i) (seq 0 6) else []) ++
                 (match pk with Some k => map (fun i => state_index_points p k + Z.of_nat i) (seq 0 3) | None => [] end) ++
                 (if w then map (fun i => state_index_warp p + Z.of_nat i) (seq 0 2) else []))%list ->
    0 <= icam < p_Nci p -> 0 <= ixy <= 1 -> (forall v, dist_in p v (d v)) -> (do_dist (p_sel p) = true -> lenZ (d (state_index_intrinsics p icam)) = dlen p) ->
    e < p_Nce p -> (f = true -> optimized p (SI_frame fk)) -> (forall k, pk = Some k -> optimized p (SI_point k)) ->
    (w = true <-> optimized p SI_warp) -> (f = true -> pk = None) -> (w = true -> pk = None) ->
    exists q, l = row_of p q /\ meas_ok p n q /\ q_cam q = icam.
  Proof.
    intros l icam d ixy e f w fk pk H Hi Hxy Hd Hlen He Hf Hp Hw Hfp Hwp.
    apply map_fst_app in H. destruct H as (li & l1 & -> & Ei & H).
    apply map_fst_app in H. destruct H as (le & l2 & -> & Ee & H).
    apply map_fst_app in H. destruct H as (lf & l3 & -> & Ef & H).
    apply map_fst_app in H. destruct H as (lp & lw & -> & Ep & Ew).
    exists {| q_cam := icam; q_i := li;
      q_e := if do_ext (p_sel p) && (0 <=? e) then Some (e, tovals le) else None;
      q_f := if f then Some (fk, tovals lf) else None;
      q_p := match pk with Some k => Some (k, tovals lp) | None => None end;
      q_w := if w then Some (tovals lw) else None |}.
    split; [|split; [|reflexivity]].
    - unfold row_of. cbn [q_cam q_i q_e q_f q_p q_w]. f_equal. f_equal; [|f_equal; [|f_equal]].
      + unfold ecols in Ee. destruct (do_ext (p_sel p)), (0 <=? e); cbn [andb oblk fst snd]; try (now destruct le). apply seg_blk. now rewrite Ee, six_range.
      + destruct f; cbn [oblk fst snd]; [|now destruct lf]. now apply seg_blk.
      + destruct pk; cbn [oblk fst snd]; [|now destruct lp]. now apply seg_blk.
      + destruct w; cbn [oblk fst snd]; [|now destruct lw]. now apply seg_blk.
    - unfold meas_ok. cbn [q_cam q_i q_e q_f q_p q_w].
      split; [easy|]. split; [|split; [|split; [|split; [|split; [|split; [|split; [|split]]]]]]].
      + pose proof (icols_len p (state_index_intrinsics p icam) d ixy (dlen p) (dlen_nonneg p Hok) Hlen) as L.
        rewrite <- nintr_eq in L. rewrite <- Ei in L. unfold lenZ in L. rewrite map_length in L. unfold n. lia.
      + intros cv I. pose proof (icols_percam icam d ixy Hi Hxy Hd) as F. rewrite <- Ei in F. rewrite Forall_forall in F. apply F. now apply in_map.
      + now apply nintr_optimized.
      + intros k x E. destruct (do_ext (p_sel p)) eqn:D; [|discriminate]. destruct (Z.leb_spec 0 e); [|discriminate]. injection E as <- _. cbn [optimized]. easy.
      + intros k x E. destruct f; [|discriminate]. injection E as <- _. now apply Hf.
      + intros k x E. destruct pk as [k'|]; [|discriminate]. injection E as <- _. now apply Hp.
      + destruct f; [right; now rewrite Hfp|now left].
      + rewrite <- Hw. destruct w; split; intro X; congruence.
      + destruct w; intro X; [now rewrite Hwp|easy].
  Qed.

  Context (ge0 le0 : R -> bool) (ovx : rowid -> R) (ovj : rowid -> Z -> R) (ob : Z -> Z -> Z * Z) (op : Z -> Z * Z) (bw pw : Z -> R).
  Notation rowR := (@row R).
  Lemma board_form : forall iobs ifeat o (r : rowR), In r (board_rows 0%R ge0 ovx ovj ob p bw iobs ifeat o) ->
    In o (p_boards p) -> 0 <= bo_icam_i o < p_Nci p /\ bo_icam_e o < p_Nce p /\ 0 <= bo_iframe o < p_Nframes p ->
    exists q, r_j r = row_of p q /\ meas_ok p n q /\ q_cam q = bo_icam_i o.
  Proof.
    intros iobs ifeat o r Hr Ho (B1 & B2 & B3). unfold board_rows in Hr. apply in_flat_map in Hr. destruct Hr as (ipt & _ & Hr).
    apply in_map_iff in Hr. destruct Hr as (ixy & <- & Hxy). assert (0 <= ixy <= 1) as X by (cbn in Hxy; lia).
    apply (build _ (bo_icam_i o) (fun v => dist_inlier p v (ob iobs ipt) ixy) ixy (bo_icam_e o) (do_frames (p_sel p)) (has_warp p) (bo_iframe o) None); try easy.
    - match goal with |- map fst (r_j (if ?g then _ else _)) = _ => assert (forall a b : rowR, cols (if g then a else b) = if g then cols a else cols b) as C by (now destruct g) end.
      change (map fst (r_j ?r)) with (cols r) in *. rewrite C, inlier_cols, outlier_cols, board_cols_inlier_eq, board_cols_outlier_eq.
      match goal with |- (if ?g then ?a else ?a) = _ => transitivity a; [now destruct g|] end.
      f_equal. f_equal. unfold fcols, wcols. rewrite six_range. reflexivity.
    - intro v. now apply dist_inlier_in.
    - intros _. now apply dist_inlier_len.
    - rewrite has_warp_iff. reflexivity.
  Qed.
  Lemma point_form : forall iobs l (r : rowR), In r (points_rows 0%R le0 ovx ovj op p pw iobs l) -> has_warp p = false ->
    Forall (fun o => 0 <= po_icam_i o < p_Nci p /\ po_icam_e o < p_Nce p /\ 0 <= po_ipoint o < p_Npoints p) l ->
    exists q, r_j r = row_of p q /\ meas_ok p n q /\ exists o, In o l /\ q_cam q = po_icam_i o.
  Proof.
    intros iobs l. revert iobs. induction l as [|o l IH]; intros iobs r Hr W F; [easy|]. inversion F as [|? ? (B1 & B2 & B3) F']; subst.
    cbn [points_rows] in Hr. apply in_app_iff in Hr. destruct Hr as [Hr|Hr].
    2:{ destruct (IH _ _ Hr W F') as (q & Q1 & Q2 & o' & Q3 & Q4). exists q. split; [easy|]. split; [easy|]. exists o'. split; [now right|easy]. }
    assert (exists q, r_j r = row_of p q /\ meas_ok p n q /\ q_cam q = po_icam_i o) as (q & Q1 & Q2 & Q3).
    2:{ exists q. split; [easy|]. split; [easy|]. exists o. split; [now left|easy]. }
    apply in_map_iff in Hr. destruct Hr as (ixy & <- & Hxy). assert (0 <= ixy <= 1) as X by (cbn in Hxy; lia).
    assert (forall tl : list Z, pcols p (po_ipoint o) = match (if do_frames (p_sel p) && (po_ipoint o <? p_Npoints p - p_Npoints_fixed p) then Some (po_ipoint o) else None) with
       Some k => map (fun i => state_index_points p k + Z.of_nat i) (seq 0 3) | None => [] end) as EP by (intro; unfold pcols; now destruct (_ && _)).
    assert (forall k, (if do_frames (p_sel p) && (po_ipoint o <? p_Npoints p - p_Npoints_fixed p) then Some (po_ipoint o) else None) = Some k -> optimized p (SI_point k)) as OP.
    { intros k E. destruct (do_frames (p_sel p)) eqn:D; [|discriminate]. destruct (Z.ltb_spec (po_ipoint o) (p_Npoints p - p_Npoints_fixed p)); [|discriminate].
      injection E as <-. cbn [optimized]. split; [lia|easy]. }
    assert (false = true <-> optimized p SI_warp) as OW by (rewrite <- W, has_warp_iff; reflexivity).
    destruct (le0 (pw iobs)).
    - apply (build _ (po_icam_i o) (fun v => dist_outlier p v) ixy (po_icam_e o) false false 0 (if do_frames (p_sel p) && (po_ipoint o <? p_Npoints p - p_Npoints_fixed p) then Some (po_ipoint o) else None)); try easy.
      + change (map fst (r_j ?r)) with (cols r). rewrite outlier_cols, point_cols_outlier_eq. f_equal. f_equal. rewrite EP by exact []. cbn [app]. now rewrite app_nil_r.
      + intro v. now apply dist_outlier_in.
      + intros _. now apply dist_outlier_len.
    - apply (build _ (po_icam_i o) (fun v => dist_inlier p v (op iobs) ixy) ixy (po_icam_e o) false false 0 (if do_frames (p_sel p) && (po_ipoint o <? p_Npoints p - p_Npoints_fixed p) then Some (po_ipoint o) else None)); try easy.
      + change (map fst (r_j ?r)) with (cols r). rewrite inlier_cols, point_cols_inlier_eq. f_equal. f_equal. rewrite EP by exact []. cbn [app]. now rewrite app_nil_r.
      + intro v. now apply dist_inlier_in.
      + intros _. now apply dist_inlier_len.
  Qed.
End Rows.

(** Everything together: the rows of a whole optimization problem.  [refused] and the two
    conditions about the warp and the points say which problems are supported (see the
    refusals in C_Cross.v and below). *)
Section All.
  Context (p : problem) (Hok : problem_ok p) (HL : lens_legal (p_lens p)) (Hobs : obs_ok p).
  Context (ge0 le0 : R -> bool) (ovx : rowid -> R) (ovj : rowid -> Z -> R) (ob : Z -> Z -> Z * Z) (op : Z -> Z * Z) (bw pw : Z -> R).
  (** the first Nmeas_obs rows *)
  Definition obs_rows : list jrow :=
    map (@r_j R) (boards_rows 0%R ge0 ovx ovj ob p bw 0 0 (p_boards p) ++ points_rows 0%R le0 ovx ovj op p pw 0 (p_points p)).
  Definition good_row (r : jrow) : Prop := exists q, r = row_of p q /\ meas_ok p (Z.to_nat (nintr_per_meas p)) q /\ row_of p q <> [].
  Lemma collect : forall l, Forall good_row l -> exists qs, l = map (row_of p) qs /\ Forall (fun q => meas_ok p (Z.to_nat (nintr_per_meas p)) q /\ row_of p q <> []) qs.
  Proof.
    induction l as [|r l IH]; intro F; [exists []; now split|]. inversion F as [|? ? (q & Q1 & Q2 & Q3) F']; subst. destruct (IH F') as (qs & -> & G).
    exists (q :: qs). split; [reflexivity|]. now constructor.
  Qed.
  Lemma nonempty : forall q, (0 < nintr_per_meas p) -> meas_ok p (Z.to_nat (nintr_per_meas p)) q -> row_of p q <> [].
  Proof. intros q Hn (_ & L & _) E. unfold row_of in E. destruct (q_i q); [cbn in L; lia|discriminate]. Qed.
  Lemma board_nonempty : forall iobs ifeat o (r : @row R), In r (board_rows 0%R ge0 ovx ovj ob p bw iobs ifeat o) -> do_frames (p_sel p) = true -> r_j r <> [].
  Proof.
    intros iobs ifeat o r Hr D E. unfold board_rows in Hr. apply in_flat_map in Hr. destruct Hr as (ipt & _ & Hr).
    apply in_map_iff in Hr. destruct Hr as (ixy & <- & _).
    assert (length (board_cols_inlier p o (ob iobs ipt) ixy) <> O /\ length (board_cols_outlier p o (ob iobs ipt) ixy) <> O) as (L1 & L2).
    { rewrite board_cols_inlier_eq, board_cols_outlier_eq, !app_length. unfold fcols. rewrite D, six_range, map_length, seq_length. lia. }
    destruct (ge0 _).
    - apply L1. rewrite <- (inlier_cols (V := R) ovx ovj (R_board iobs ipt ixy) (board_cols_inlier p o (ob iobs ipt) ixy)). unfold cols. now rewrite E.
    - apply L2. rewrite <- (outlier_cols (V := R) 0%R (R_board iobs ipt ixy) (board_cols_outlier p o (ob iobs ipt) ixy)). unfold cols. now rewrite E.
  Qed.
  Lemma boards_good : (0 < nintr_per_meas p \/ do_frames (p_sel p) = true) ->
    forall l iobs ifeat, (forall o, In o l -> In o (p_boards p)) -> Forall good_row (map (@r_j R) (boards_rows 0%R ge0 ovx ovj ob p bw iobs ifeat l)).
  Proof.
    intro Hn. induction l as [|o l IH]; intros iobs ifeat Hin; [constructor|]. cbn [boards_rows]. rewrite map_app. apply Forall_app. split.
    - apply Forall_map, Forall_forall. intros r Hr. destruct Hobs as (O1 & _). rewrite Forall_forall in O1.
      destruct (board_form p Hok HL ge0 ovx ovj ob bw iobs ifeat o r Hr (Hin o (or_introl eq_refl)) (O1 o (Hin o (or_introl eq_refl)))) as (q & Q1 & Q2 & _).
      exists q. split; [easy|]. split; [easy|]. destruct Hn as [Hn|Hn]; [now apply nonempty|]. rewrite <- Q1. now apply (board_nonempty _ _ _ _ Hr).
    - apply IH. intros; apply Hin. now right.
  Qed.

  Theorem C53_from_callback : forall b icam,
    refused p = false -> (has_warp p = true -> p_points p = []) ->
    (0 < nintr_per_meas p \/ (do_frames (p_sel p) = true /\ p_points p = [] /\ icam < 0)) ->
    exists qs K JtJ, obs_rows = map (row_of p) qs /\ accumulated p b icam obs_rows = Some (K, JtJ) /\
      (forall i c, (i < 6)%nat -> K i c = rsum (fun q => jcross DR p b (0 <=? icam) q i * dx p (0 <=? icam) q c)%R (used icam qs)) /\
      (forall i j, (i <= j < 6)%nat -> JtJ (index_sym66 i j) = rsum (fun q => jcross DR p b (0 <=? icam) q i * jcross DR p b (0 <=? icam) q j)%R (used icam qs)).
  Proof.
    intros b icam Hr Hw Hn.
    assert (Forall good_row obs_rows) as G.
    { unfold obs_rows. rewrite map_app. apply Forall_app. split; [apply boards_good; [tauto|easy]|].
      destruct (p_points p) as [|o0 l0] eqn:EP; [constructor|]. rewrite <- EP. destruct Hn as [Hn|(_ & X & _)]; [|discriminate].
      apply Forall_map, Forall_forall. intros r Hin. destruct Hobs as (_ & O2 & _).
      assert (has_warp p = false) as W by (destruct (has_warp p); [now discriminate Hw|easy]).
      destruct (point_form p Hok HL le0 ovx ovj op pw 0 (p_points p) r Hin W O2) as (q & Q1 & Q2 & _).
      exists q. split; [easy|]. split; [easy|]. now apply nonempty. }
    destruct (collect _ G) as (qs & E & F).
    destruct (C53_accumulation p Hok b icam (Z.to_nat (nintr_per_meas p)) qs F) as (K & JtJ & A & HK & HJ).
    - intro. destruct Hn as [Hn|(_ & _ & Hn)]; lia.
    - easy.
    - exists qs, K, JtJ. rewrite E. split; [reflexivity|]. split; [exact A|]. now split.
  Qed.
End All.

(** A point observation in a problem where the board warp is optimized: always refused,
    also when the point is fixed. *)
Definition no_w (s : scan) : Prop := match s with Next m _ | Break _ m => m_w m = None end.
Definition no_w_cols (p : problem) (s : scan) : Prop :=
  match s with Next _ rest => Forall (fun cv => in_block (state_index_warp p) (num_states_warp p) (fst cv) = false) rest | Break _ _ => True end.
Lemma visit_keeps : forall p x0 N adv put s, no_w s /\ no_w_cols p s -> (forall m l, m_w (put m l) = m_w m) ->
  no_w (visit x0 N adv put s) /\ no_w_cols p (visit x0 N adv put s).
Proof.
  intros p x0 N adv put [m [|[c v] rest]|e m] (H1 & H2) HP; try (now split). unfold visit.
  destruct (in_block x0 N c); [|now split].
  destruct (_ <? _)%nat; cbn [no_w no_w_cols]; rewrite HP; (split; [exact H1|]); [|exact I].
  rewrite <- (firstn_skipn adv ((c, v) :: rest)) in H2. cbn [no_w_cols] in H2. apply Forall_app in H2. apply H2.
Qed.
Theorem C53_refuses_warpless_rows : forall p b icam pre row post, optimized p SI_warp -> problem_ok p ->
  Forall (fun cv => fst cv < state_index p SI_warp) row -> accumulated p b icam (pre ++ row :: post) = None.
Proof.
  intros p b icam pre row post Ow Hok Hc. unfold accumulated. destruct (refused p); [reflexivity|].
  set (nn := leading_intrinsics p _). clearbody nn.
  assert (forall s, all_rows p b icam nn (pre ++ row :: post) s = None) as ->; [|reflexivity].
  assert (forall s, one_row p b icam nn row s = None) as ON.
  { intro s. unfold one_row. destruct (map_row p nn row) as [m|] eqn:E; [|reflexivity].
    assert (m_w m = None) as W.
    { unfold map_row in E. cbv zeta in E.
      match type of E with match visit ?x ?N ?adv put_w ?s4 with _ => _ end = _ => assert (no_w s4 /\ no_w_cols p s4) as (N1 & N2) end.
      { do 4 (apply visit_keeps; [|reflexivity]). split; [reflexivity|]. cbn [no_w_cols].
        eapply Forall_impl; [|exact Hc]; cbv beta; intros cv X; unfold in_block; cbn [state_index] in X; lia. }
      match type of E with match visit _ _ _ put_w ?s4 with _ => _ end = _ => set (sc := s4) in *; clearbody sc end.
      destruct sc as [m4 [|[c v] rest]|e m4]; cbn [visit] in E.
      - discriminate.
      - cbn [no_w_cols] in N2. inversion N2; subst. cbn [fst] in *. rewrite H1 in E. discriminate.
      - cbn [no_w] in N1. destruct e; [|discriminate]. destruct (m_f m4), (m_p m4); congruence. }
    rewrite W. cbn [is_some]. pose proof (state_absent p SI_warp Hok) as Ab. pose proof (state_in_range p SI_warp Hok Ow) as Rg. unfold cw_col. cbn [state_index] in Rg.
    replace (0 <=? state_index_warp p) with true by lia. reflexivity. }
  induction pre as [|r pre IH]; intro s; cbn [app all_rows]; [now rewrite ON|]. destruct (one_row p b icam nn r s); [apply IH|reflexivity].
Qed.

(** ** the hypotheses can be met *)
Open Scope R_scope.
Definition xsel (ci di e f w : bool) : selections :=
  {| do_core := ci; do_dist := di; do_ext := e; do_frames := f; do_warp := w; do_reg := false; do_unity := false |}.
Definition ex_cross : problem :=
  {| p_lens := PINHOLE; p_sel := xsel false false false true false; p_Nci := 1; p_Nce := 0; p_Nframes := 1; p_Npoints := 0; p_Npoints_fixed := 0;
     p_boards := [{| bo_icam_i := 0; bo_icam_e := -1; bo_iframe := 0 |}]; p_points := []; p_tri := []; p_w := 1; p_h := 1 |}%Z.
Definition ex_q (k : nat) : meas :=
  {| q_cam := 0; q_i := []; q_e := None;
     q_f := Some (0%Z, fun l => if Nat.eq_dec l k then (if (l <? 3)%nat then scale S_rot_frame else scale S_trans_frame) else 0); q_p := None; q_w := None |}.
Definition ex_qs : list meas := map ex_q (seq 0 6).
Lemma DR_0 : forall r, r = V3 (0 * scale S_rot_frame) (0 * scale S_rot_frame) (0 * scale S_rot_frame) -> DR r = I3.
Proof.
  intros r ->. rewrite !Rmult_0_l. apply C_TinyGrad.grad_id. unfold norm, norm2, dot. cbn [vx vy vz]. replace (0 * 0 + 0 * 0 + 0 * 0) with 0 by ring. rewrite sqrt_0.
  unfold eps8. lra.
Qed.
Lemma scale_rot_nz : scale S_rot_frame <> 0. Proof. unfold scale. pose proof PI_RGT_0. intro; lra. Qed.
Lemma scale_trans_nz : scale S_trans_frame <> 0. Proof. unfold scale. intro; lra. Qed.
Lemma ex_jcross : forall k i, (k < 6)%nat -> (i < 6)%nat -> jcross DR ex_cross (fun _ => 0) false (ex_q k) i = delta k i.
Proof.
  intros k i Hk Hi. cbn [jcross ex_q q_e q_f q_p]. unfold cross_pose. rewrite DR_0 by reflexivity.
  pose proof scale_rot_nz as N1. pose proof scale_trans_nz as N2. set (a := scale S_rot_frame) in *. set (t := scale S_trans_frame) in *. clearbody a t.
  unfold vec_at, sum_n. rewrite Rmult_0_l.
  do 6 (destruct k as [|k]; [do 6 (destruct i as [|i]; [cbn; field; split; assumption|]); lia|]). lia.
Qed.
Example C53_hypotheses_met :
  problem_ok ex_cross /\ refused ex_cross = false /\
  Forall (fun q => meas_ok ex_cross 0 q /\ row_of ex_cross q <> []) ex_qs /\
  (forall K JtJ, accumulated ex_cross (fun _ => 0) (-1) (map (row_of ex_cross) ex_qs) = Some (K, JtJ) ->
     forall i j, (i <= j < 6)%nat -> JtJ (index_sym66 i j) = delta i j).
Proof.
  assert (problem_ok ex_cross) as Hok by (unfold problem_ok, ex_cross; cbn; lia).
  assert (Forall (fun q => meas_ok ex_cross 0 q /\ row_of ex_cross q <> []) ex_qs) as HF.
  { unfold ex_qs. apply Forall_map, Forall_forall. intros k _. split; [|discriminate]. unfold meas_ok, ex_q, ex_cross. cbn.
    split; [lia|]. split; [easy|]. split; [easy|]. split; [easy|]. split; [easy|]. split; [intros k0 x E; injection E as <- _; split; [lia|easy]|].
    split; [easy|]. split; [now right|]. split; [|easy]. split; [easy|intros (X & _); discriminate]. }
  split; [easy|]. split; [reflexivity|]. split; [easy|]. intros K JtJ E i j Hij.
  destruct (C53_accumulation ex_cross Hok (fun _ => 0) (-1) 0 ex_qs HF) as (K' & J' & E' & _ & HJ); [lia|reflexivity|].
  rewrite E in E'. injection E' as <- <-. rewrite HJ by easy. cbn [used Z.leb Z.compare]. unfold used. cbn [Z.leb Z.compare].
  unfold ex_qs, rsum. cbn [seq map fold_right]. rewrite !ex_jcross by lia.
  assert (i < 6)%nat as Hi by lia. assert (j < 6)%nat as Hj by lia. clear - Hi Hj.
  do 6 (destruct i as [|i]; [do 6 (destruct j as [|j]; [cbn; ring|]); lia|]). lia.
Qed.
(** a solver for the identity matrix, and no other: enough for this problem *)
Definition ex_ok (A : nat -> R) : bool :=
  forallb (fun i => forallb (fun j => if Req_EM_T (A (index_sym66 i j)) (delta i j) then true else false) (seq 0 6)) (seq 0 6).
Example C53_solve_hypotheses_met :
  solves (fun _ v => Some v) ex_ok /\
  exists K, drt_cross_reprojection__dbpacked ex_cross (fun _ => 0) (-1) (fun _ v => Some v) ex_ok (map (row_of ex_cross) ex_qs) = Some K.
Proof.
  split.
  - intros A v x HA E i Hi. injection E as <-. unfold ex_ok in HA. rewrite forallb_forall in HA.
    assert (forall j, (j < 6)%nat -> A (index_sym66 i j) = delta i j) as Hd.
    { intros j Hj. specialize (HA i). rewrite forallb_forall in HA. specialize (HA ltac:(apply in_seq; lia) j ltac:(apply in_seq; lia)).
      destruct (Req_EM_T _ _); [easy|discriminate]. }
    unfold sum_n. cbn [seq fold_right]. rewrite !Hd by lia. clear - Hi. do 6 (destruct i as [|i]; [cbn; ring|]). lia.
  - destruct C53_hypotheses_met as (Hok & Hr & HF & HJ).
    destruct (C53_accumulation ex_cross Hok (fun _ => 0) (-1) 0 ex_qs HF) as (K & JtJ & E & _); [lia|exact Hr|].
    specialize (HJ K JtJ E). unfold drt_cross_reprojection__dbpacked. rewrite E.
    assert (ex_ok JtJ = true) as ->.
    { unfold ex_ok. apply forallb_forall. intros i Hi. apply forallb_forall. intros j Hj. apply in_seq in Hi, Hj.
      destruct (Req_EM_T _ _) as [|N]; [easy|]. exfalso. apply N. destruct (Nat.le_gt_cases i j) as [L|L]; [apply HJ; lia|].
      replace (index_sym66 i j) with (index_sym66 j i).
      - rewrite HJ by lia. unfold delta. destruct (Nat.eq_dec j i), (Nat.eq_dec i j); lia || reflexivity.
      - unfold index_sym66. replace (j <=? i)%nat with true by (symmetry; apply Nat.leb_le; lia). replace (i <=? j)%nat with false by (symmetry; apply Nat.leb_gt; lia). reflexivity. }
    cbn [negb]. match goal with |- exists _, finalize _ _ ?cs ?k = _ => generalize k; generalize cs end.
    induction l as [|c l IH]; intro k0; [eexists; reflexivity|].
    cbn [finalize finalize_col]. apply IH.
Qed.
(** boards seen by two cameras, with everything but points optimized: [C53_from_callback] applies *)
Definition ex_full : problem :=
  {| p_lens := OPENCV8; p_sel := xsel true true true true true; p_Nci := 2; p_Nce := 1; p_Nframes := 3; p_Npoints := 0; p_Npoints_fixed := 0;
     p_boards := [{| bo_icam_i := 0; bo_icam_e := -1; bo_iframe := 0 |}; {| bo_icam_i := 1; bo_icam_e := 0; bo_iframe := 2 |}];
     p_points := []; p_tri := []; p_w := 3; p_h := 2 |}%Z.
Example C53_from_callback_hypotheses_met :
  problem_ok ex_full /\ lens_legal (p_lens ex_full) /\ obs_ok ex_full /\ refused ex_full = false /\ has_warp ex_full = true /\ p_points ex_full = [] /\ (0 < nintr_per_meas ex_full)%Z.
Proof.
  split; [unfold problem_ok; cbn; lia|]. split; [exact I|]. split.
  - unfold obs_ok. cbn. split; [|split; constructor]. repeat constructor; cbn; lia.
  - repeat split.
Qed.
(** the same with two optimized points as well: refused *)
Example C53_refuses_points_with_warp_met :
  let p := {| p_lens := OPENCV8; p_sel := xsel true true true true true; p_Nci := 2; p_Nce := 1; p_Nframes := 3; p_Npoints := 2; p_Npoints_fixed := 0;
     p_boards := p_boards ex_full; p_points := []; p_tri := []; p_w := 3; p_h := 2 |}%Z in
  problem_ok p /\ optimized p (SI_frame 0) /\ optimized p (SI_point 0) /\ optimized p SI_warp.
Proof. cbn. unfold problem_ok. cbn. repeat split; try lia; discriminate. Qed.
Print Assumptions C53_accumulation.
Print Assumptions C53_order.
Print Assumptions C53_solve.
Print Assumptions C53_from_callback.
Print Assumptions C53_refuses_points_with_warp.
Print Assumptions C53_refuses_points_only.
Print Assumptions C53_refuses_camera_without_intrinsics.
Print Assumptions C53_refuses_warpless_rows.
