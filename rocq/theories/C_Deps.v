(** C57: every row of the Jacobian has an entry for exactly the variables its
    residual depends on.  C58: every residual is stored where measurement_index_*()
    says. *)
From Coq Require Import ZArith List Bool Lia Sorted ZifyBool.
From Verif Require Import M_Lens M_Layout S_Layout P_Layout P_TriDecode M_SplineIdx M_Callback S_Callback P_Callback P_CallbackRows P_Outliers S_Deps P_Deps.
Import ListNotations.
Open Scope Z_scope.

Section D.
  Context {V : Type} (vzero : V) (ge0 le0 : V -> bool).
  Notation rowV := (@row V).
  Context (ovx : rowid -> V) (ovj : rowid -> Z -> V) (ob : Z -> Z -> Z * Z) (op : Z -> Z * Z)
      (p : problem) (bw pw : Z -> V).
  Hypothesis Hok : problem_ok p.
  Notation BRS := (boards_rows vzero ge0 ovx ovj ob p bw).
  Notation PRS := (points_rows vzero le0 ovx ovj op p pw).
  Notation TI := (tri_inner_rows vzero ovx ovj p).
  Notation TR := (tri_rows vzero ovx ovj p).

  Section Cols.
  Hypotheses (HL : lens_legal (p_lens p)) (HN : lens_narrow (p_lens p)) (Hobs : obs_ok p).
  Definition dep_cols (id : rowid) (l : list Z) : Prop :=
    forall c, In c l <-> exists it off, optimized p it /\ depends p ob op id it off /\ c = state_index p it + off.
  (** the outlier rows of points seen by a splined model are excluded: they have the
      right number of entries but not the right columns (C05_splined_point_columns_refuted) *)
  Definition dep_row (r : rowV) : Prop :=
    match r_id r with R_point i _ => splined (p_lens p) = true -> le0 (pw i) = false | _ => True end ->
    dep_cols (r_id r) (cols r).

  Lemma board_dep i ipt ixy o : nth_error (p_boards p) (Z.to_nat i) = Some o -> 0 <= ixy <= 1 ->
    0 <= bo_icam_i o < p_Nci p -> bo_icam_e o < p_Nce p -> 0 <= bo_iframe o < p_Nframes p ->
    dep_cols (R_board i ipt ixy)
      (icols p (state_index_intrinsics p (bo_icam_i o)) (fun v => dist_inlier p v (ob i ipt) ixy) ixy ++ (ecols p (bo_icam_e o) ++ fcols p (bo_iframe o) ++ wcols p)).
  Proof.
    intros Ho Hxy H1 H2 H3 c. rewrite !in_app_iff, icols_iff, ecols_iff, fcols_iff, wcols_iff by auto. cbn [depends]. split.
    - intros [(o' & A & B & ->)|[(o' & A & B & ->)|[(o' & A & B & ->)|(o' & A & B & ->)]]].
      + exists (SI_intr (bo_icam_i o)), o'. split; [auto|]. split; [|reflexivity]. exists o. split; [exact Ho|]. tauto.
      + exists (SI_ext (bo_icam_e o)), o'. split; [auto|]. split; [|reflexivity]. exists o. split; [exact Ho|]. tauto.
      + exists (SI_frame (bo_iframe o)), o'. split; [auto|]. split; [|reflexivity]. exists o. split; [exact Ho|]. tauto.
      + exists SI_warp, o'. split; [auto|]. split; [|reflexivity]. exists o. split; [exact Ho|]. tauto.
    - intros (it & off & A & (o2 & E & D) & ->). rewrite Ho in E. injection E as <-.
      destruct D as [(-> & B)|[(-> & B)|[(-> & B)|(-> & B)]]]; [left|right; left|right; right; left|right; right; right]; exists off; auto.
  Qed.
  Lemma point_dep i ixy o : nth_error (p_points p) (Z.to_nat i) = Some o -> 0 <= ixy <= 1 ->
    0 <= po_icam_i o < p_Nci p -> po_icam_e o < p_Nce p -> 0 <= po_ipoint o < p_Npoints p ->
    dep_cols (R_point i ixy)
      (icols p (state_index_intrinsics p (po_icam_i o)) (fun v => dist_inlier p v (op i) ixy) ixy ++ (ecols p (po_icam_e o) ++ pcols p (po_ipoint o))).
  Proof.
    intros Ho Hxy H1 H2 H3 c. rewrite !in_app_iff, icols_iff, ecols_iff, pcols_iff by auto. cbn [depends]. split.
    - intros [(o' & A & B & ->)|[(o' & A & B & ->)|(o' & A & B & ->)]].
      + exists (SI_intr (po_icam_i o)), o'. split; [auto|]. split; [|reflexivity]. exists o. split; [exact Ho|]. tauto.
      + exists (SI_ext (po_icam_e o)), o'. split; [auto|]. split; [|reflexivity]. exists o. split; [exact Ho|]. tauto.
      + exists (SI_point (po_ipoint o)), o'. split; [auto|]. split; [|reflexivity]. exists o. split; [exact Ho|]. tauto.
    - intros (it & off & A & (o2 & E & D) & ->). rewrite Ho in E. injection E as <-.
      destruct D as [(-> & B)|[(-> & B)|(-> & B)]]; [left|right; left|right; right]; exists off; auto.
  Qed.
  Lemma boards_dep l : forall i f, 0 <= i -> skipn (Z.to_nat i) (p_boards p) = l -> Forall dep_row (BRS i f l).
  Proof.
    induction l as [|o l IH]; intros i f Hi Hs; [constructor|]. apply nth_error_skipn in Hs. destruct Hs as (Hn & Hs).
    cbn [boards_rows]. apply Forall_app. split.
    - unfold board_rows. apply Forall_flat_map, Forall_forall. intros ipt _. apply Forall_map, Forall_forall. intros ixy Hxy.
      destruct Hobs as (O1 & _). rewrite Forall_forall in O1. destruct (O1 o (nth_error_In _ _ Hn)) as (A & B & C).
      assert (0 <= ixy <= 1) by (cbn in Hxy; lia).
      destruct (ge0 _); intros _; [rewrite inlier_cols, board_cols_inlier_eq|rewrite outlier_cols, board_cols_outlier_eq]; now apply board_dep.
    - apply IH; [lia|]. replace (Z.to_nat (i + 1)) with (S (Z.to_nat i)) by lia. exact Hs.
  Qed.
  Lemma points_dep l : forall i, 0 <= i -> skipn (Z.to_nat i) (p_points p) = l -> Forall dep_row (PRS i l).
  Proof.
    induction l as [|o l IH]; intros i Hi Hs; [constructor|]. apply nth_error_skipn in Hs. destruct Hs as (Hn & Hs).
    cbn [points_rows]. apply Forall_app. split.
    - apply Forall_map, Forall_forall. intros ixy Hxy.
      destruct Hobs as (_ & O1 & _). rewrite Forall_forall in O1. destruct (O1 o (nth_error_In _ _ Hn)) as (A & B & C).
      assert (0 <= ixy <= 1) by (cbn in Hxy; lia).
      destruct (le0 _) eqn:El; intros Hsp.
      + cbn [outlier_row r_id] in Hsp. rewrite outlier_cols, point_cols_outlier_eq. cbn [outlier_row r_id].
        assert (splined (p_lens p) = false) as Ns. { destruct (splined (p_lens p)); [|auto]. rewrite Hsp in El; auto. }
        assert (dist_outlier p (state_index_intrinsics p (po_icam_i o)) = dist_inlier p (state_index_intrinsics p (po_icam_i o)) (op i) ixy) as E.
        { unfold dist_outlier, dist_inlier. destruct (p_lens p); try reflexivity. discriminate. }
        replace (icols p (state_index_intrinsics p (po_icam_i o)) (fun v => dist_outlier p v) ixy)
          with (icols p (state_index_intrinsics p (po_icam_i o)) (fun v => dist_inlier p v (op i) ixy) ixy) by (unfold icols; now rewrite E).
        now apply point_dep.
      + rewrite inlier_cols, point_cols_inlier_eq. now apply point_dep.
    - apply IH; [lia|]. replace (Z.to_nat (i + 1)) with (S (Z.to_nat i)) by lia. exact Hs.
  Qed.
  Lemma tri_dep i0 i1 o0 o1 : do_ext (p_sel p) = true -> nth_error (p_tri p) (Z.to_nat i0) = Some o0 -> nth_error (p_tri p) (Z.to_nat i1) = Some o1 ->
    dep_cols (R_tri i0 i1) (tri_cols p o0 o1).
  Proof.
    intros He H0 H1 c. destruct Hobs as (_ & _ & O). rewrite Forall_forall in O.
    assert (tri_cols p o0 o1 = ecols p (to_icam_e o0) ++ ecols p (to_icam_e o1)) as ->. { unfold tri_cols, ecols. rewrite He. reflexivity. }
    rewrite in_app_iff, !ecols_iff by (eapply O, nth_error_In; eassumption). cbn [depends]. split.
    - intros [(o' & A & B & ->)|(o' & A & B & ->)]; [exists (SI_ext (to_icam_e o0)), o'|exists (SI_ext (to_icam_e o1)), o'];
        (split; [auto|split; [|reflexivity]]); [exists o0|exists o1]; auto.
    - intros (it & off & A & (o2 & E & -> & D) & ->). destruct E as [E|E]; rewrite E in *; [injection H0 as ->; left|injection H1 as ->; right]; exists off; auto.
  Qed.
  Lemma tri_inner_dep i0 o0 : do_ext (p_sel p) = true -> 0 <= i0 -> nth_error (p_tri p) (Z.to_nat i0) = Some o0 ->
      forall l i1 rows, 0 <= i1 -> skipn (Z.to_nat i1) (p_tri p) = l -> TI i0 o0 i1 l = Some rows -> Forall dep_row rows.
  Proof.
    intros He H0 Hn. induction l as [|o1 l IH]; intros i1 rows H1 Hs E; [discriminate|].
    apply nth_error_skipn in Hs. destruct Hs as (Hn1 & Hs). cbn [tri_inner_rows] in E.
    match type of E with context[Some [?r]] => set (row0 := r) in E end.
    assert (dep_row row0) as G.
    { unfold row0. destruct (to_outlier o0); [|destruct (to_outlier o1)]; cbn [negb]; intros _; rewrite ?inlier_cols, ?outlier_cols; now apply tri_dep. }
    destruct (to_last o1).
    - apply Some_inj in E; subst. auto.
    - destruct (TI i0 o0 (i1 + 1) l) eqn:E2; [|discriminate]. apply Some_inj in E; subst. constructor; auto.
      eapply IH in E2; auto; try lia. replace (Z.to_nat (i1 + 1)) with (S (Z.to_nat i1)) by lia. auto.
  Qed.
  Lemma tri_all_dep : do_ext (p_sel p) = true -> forall l i0 rows, 0 <= i0 -> skipn (Z.to_nat i0) (p_tri p) = l -> TR i0 l = Some rows -> Forall dep_row rows.
  Proof.
    intro He. induction l as [|o l IH]; intros i0 rows H0 Hs E; cbn [tri_rows] in E.
    - apply Some_inj in E; subst. constructor.
    - apply nth_error_skipn in Hs. destruct Hs as (Hn & Hs).
      replace (S (Z.to_nat i0)) with (Z.to_nat (i0 + 1)) in Hs by lia.
      destruct (to_last o); [eapply IH in E; auto; lia|]. destruct (TI i0 o (i0 + 1) l) eqn:E1; [|discriminate].
      destruct (TR (i0 + 1) l) eqn:E2; [|discriminate]. apply Some_inj in E; subst. apply Forall_app. split.
      + eapply tri_inner_dep in E1; eauto. lia.
      + eapply IH in E2; auto; lia.
  Qed.
  Lemma intr_dep id icam l (P : Z -> Prop) : optimized p (SI_intr icam) ->
    (forall it off, depends p ob op id it off <-> it = SI_intr icam /\ P off) ->
    (forall c, In c l <-> exists off, P off /\ c = state_index_intrinsics p icam + off) -> dep_row (inlier_row ovx ovj id l).
  Proof.
    intros Op D L _. rewrite inlier_cols. cbn [inlier_row r_id]. intro c. rewrite L. split.
    - intros (off & A & ->). exists (SI_intr icam), off. rewrite D. auto.
    - intros (it & off & _ & B & ->). apply D in B. destruct B as (-> & B). exists off. auto.
  Qed.
  Lemma reg_dist_dep : Forall dep_row (reg_dist_rows ovx ovj p).
  Proof.
    unfold reg_dist_rows, has_core. destruct (do_reg (p_sel p)); [|constructor]. destruct (do_dist (p_sel p)) eqn:Ed; [|constructor]. cbn [andb].
    assert (Forall dep_row (flat_map (fun icam => map (fun j => inlier_row ovx ovj (R_reg_dist icam j)
        [state_index_intrinsics p icam + (if do_core (p_sel p) then 4 else 0) + j])
        (zrange 0 (num_params (p_lens p) - 4))) (zrange 0 (p_Nci p)))) as NS.
    { apply Forall_flat_map, Forall_forall. intros icam Hi. apply zrange_in in Hi.
      apply Forall_map, Forall_forall. intros j Hj. apply zrange_in in Hj.
      apply (intr_dep _ icam _ (fun off => param_offset (p_sel p) (4 + j) off)).
      - split; [lia|]. right. split; [auto|lia].
      - intros. reflexivity.
      - intro c. unfold param_offset. rewrite Ed. split.
        + intros [<-|[]]. exists ((if do_core (p_sel p) then 4 else 0) + j). split; [|ring]. right. split; [auto|]. split; [lia|]. destruct (do_core (p_sel p)); lia.
        + intros (off & [(_ & X & _)|(_ & X & ->)] & ->); [lia|]. left. destruct (do_core (p_sel p)); lia. }
    destruct (p_lens p) as [| | | | | | | | | |cf] eqn:El; try exact NS. clear NS.
    destruct Hok as (Hlo & _). rewrite El in Hlo. unfold lens_ok, u16 in Hlo.
    apply Forall_flat_map, Forall_forall. intros icam Hi. apply zrange_in in Hi.
    apply Forall_flat_map, Forall_forall. intros iy Hy. apply zrange_in in Hy.
    apply Forall_flat_map, Forall_forall. intros ix Hx. apply zrange_in in Hx.
    set (iv := 2 * (iy * sp_Nx cf + ix)). pose proof (cell_in_grid cf ix iy ltac:(lia) ltac:(lia)) as Hc.
    assert (optimized p (SI_intr icam)) as Op. { split; [lia|]. right. split; [auto|]. rewrite El. unfold num_params. lia. }
    assert (forall k, dep_row (inlier_row ovx ovj (R_reg_splined icam iv k)
       [state_index_intrinsics p icam + (if do_core (p_sel p) then 4 else 0) + iv + 0; state_index_intrinsics p icam + (if do_core (p_sel p) then 4 else 0) + iv + 1])) as K.
    { intro k. apply (intr_dep _ icam _ (fun off => param_offset (p_sel p) (4 + iv) off \/ param_offset (p_sel p) (4 + iv + 1) off)); [auto|intros; reflexivity|].
      intro c. unfold param_offset. rewrite Ed. split.
      - intros [<-|[<-|[]]]; [exists ((if do_core (p_sel p) then 4 else 0) + iv); split; [left|ring]|exists ((if do_core (p_sel p) then 4 else 0) + iv + 1); split; [right|ring]];
          right; (split; [auto|]); (split; [unfold iv; lia|]); destruct (do_core (p_sel p)); lia.
      - intros (off & [[(_ & X & _)|(_ & X & ->)]|[(_ & X & _)|(_ & X & ->)]] & ->); try (unfold iv in X; lia); [left|right; left]; destruct (do_core (p_sel p)); lia. }
    constructor; [apply K|]. constructor; [apply K|constructor].
  Qed.
  Lemma reg_center_dep : Forall dep_row (reg_center_rows ovx ovj p).
  Proof.
    unfold reg_center_rows, has_core. destruct (do_reg (p_sel p)); [|constructor]. cbn [andb].
    destruct (do_core (p_sel p)) eqn:Ec; [|constructor].
    apply Forall_flat_map, Forall_forall. intros icam Hi. apply zrange_in in Hi.
    assert (forall ixy, 0 <= ixy <= 1 -> dep_row (inlier_row ovx ovj (R_reg_center icam ixy) [state_index_intrinsics p icam + (2 + ixy)])) as K.
    { intros ixy Hxy. apply (intr_dep _ icam _ (fun off => param_offset (p_sel p) (2 + ixy) off)).
      - split; [lia|]. now left.
      - intros. reflexivity.
      - intro c. unfold param_offset. rewrite Ec. split.
        + intros [<-|[]]. exists (2 + ixy). split; [left; repeat split; lia|ring].
        + intros (off & [(_ & X & ->)|(_ & X & _)] & ->); [now left|lia]. }
    constructor; [apply (K 0); lia|]. constructor; [apply (K 1); lia|constructor].
  Qed.
  Lemma unity_dep : Forall dep_row (unity_rows ovx ovj p).
  Proof.
    unfold unity_rows. destruct (_ && _) eqn:E; [|constructor]. constructor; [|constructor]. intros _ c. rewrite inlier_cols. cbn [inlier_row r_id depends].
    apply andb_true_iff in E. destruct E as (E & E0). apply andb_true_iff in E. destruct E as (_ & Ee). rewrite zrange_in. split.
    - intro H. exists (SI_ext 0), (c - state_index_extrinsics p 0). cbn [optimized state_index]. repeat split; auto; lia.
    - intros (it & off & _ & (-> & B) & ->). cbn [state_index]. lia.
  Qed.
  Lemma callback_dep rows : callback_rows vzero ge0 le0 ovx ovj ob op p bw pw = Some rows -> Forall dep_row rows.
  Proof.
    intro E. unfold callback_rows in E. destruct (tri_section vzero ovx ovj p) eqn:Et; [|discriminate].
    apply Some_inj in E; subst. repeat (apply Forall_app; split).
    - apply boards_dep; [lia|reflexivity].
    - apply points_dep; [lia|reflexivity].
    - unfold tri_section in Et. destruct (p_tri p) as [|t0 ts] eqn:Ep.
      + apply Some_inj in Et; subst. constructor.
      + destruct (negb _ && _ && _) eqn:Ex; [|discriminate]. rewrite <- Ep in *.
        apply andb_true_iff in Ex. destruct Ex as (_ & Ee). apply (tri_all_dep Ee (p_tri p) 0); [lia|reflexivity|exact Et].
    - apply reg_dist_dep. - apply reg_center_dep. - apply unity_dep.
  Qed.
  End Cols.
End D.

Theorem C57_jacobian_sparsity_partial :
  forall (V : Type) (vzero : V) ge0 le0 ovx ovj osb osp p bw pw rows r c,
  problem_ok p -> lens_legal (p_lens p) -> lens_narrow (p_lens p) -> obs_ok p ->
  callback_rows vzero ge0 le0 ovx ovj osb osp p bw pw = Some rows -> In r rows ->
  match r_id r with R_point i _ => splined (p_lens p) = true -> le0 (pw i) = false | _ => True end ->
  (In c (cols r) <-> exists it off, optimized p it /\ depends p osb osp (r_id r) it off /\ c = state_index p it + off).
Proof.
  intros V vzero ge0 le0 ovx ovj osb osp p bw pw rows r c Hok HL HN Ho E Hr Hx.
  pose proof (callback_dep vzero ge0 le0 ovx ovj osb osp p bw pw Hok HL HN Ho rows E) as G. rewrite Forall_forall in G. exact (G r Hr Hx c).
Qed.
Print Assumptions C57_jacobian_sparsity_partial.

(** the hypotheses hold of a problem with boards and points seen by splined cameras
    (C_Callback), and the second cy regularization row has the one column of that cy *)
From Verif Require Import C_Callback.
Example ex_deps : problem_ok spl_problem /\ lens_legal (p_lens spl_problem) /\ lens_narrow (p_lens spl_problem) /\ obs_ok spl_problem /\
  exists rows, spl_rows (fun _ => 1) = Some rows /\ nth_error (map (fun r => (r_id r, cols r)) rows) 351 = Some (R_reg_center 1 1, [167]).
Proof.
  destruct spl_problem_ok as (A & B & C & D & _). split; [auto|]. split; [auto|]. split; [auto|]. split; [auto|].
  eexists. split; vm_compute; reflexivity.
Qed.
