From Coq Require Import ZArith List Bool Lia Sorted ZifyBool.
From Verif Require Import M_Lens M_Layout S_Layout P_Layout M_SplineIdx M_Callback S_Callback P_Callback.
Import ListNotations.
Open Scope Z_scope.

Section R.
  Context {V : Type} (vzero : V) (ge0 le0 : V -> bool).
  Notation rowV := (@row V).

  (** ** counting *)
  Lemma tot_flat_map {A} (f : A -> list rowV) l k : (forall a, In a l -> tot (f a) = k) -> tot (flat_map f l) = lenZ l * k.
  Proof. induction l as [|a l IH]; intro H; [reflexivity|]. cbn [flat_map]. rewrite tot_app, (H a) by (left; auto).
    rewrite IH by (intros; apply H; right; auto). unfold lenZ. cbn [length]. rewrite Nat2Z.inj_succ. ring. Qed.
  Lemma tot_const (rows : list rowV) k : (forall r, In r rows -> lenZ (cols r) = k) -> tot rows = lenZ rows * k.
  Proof. induction rows as [|r rows IH]; intro H; [reflexivity|]. rewrite tot_cons, lenZ_cols, (H r) by (left; auto).
    rewrite IH by (intros; apply H; right; auto). unfold lenZ. cbn [length]. rewrite Nat2Z.inj_succ. ring. Qed.
  Lemma tot_nil : tot (@nil rowV) = 0. Proof. reflexivity. Qed.
  Lemma lenZ_nil {A} : lenZ (@nil A) = 0. Proof. reflexivity. Qed.

  Section P.
    Context (ovx : rowid -> V) (ovj : rowid -> Z -> V) (ob : Z -> Z -> Z * Z) (op : Z -> Z * Z)
      (p : problem) (bw pw : Z -> V).
    Hypothesis Hok : problem_ok p.

    Notation BR := (board_rows vzero ge0 ovx ovj ob p bw).
    Notation BRS := (boards_rows vzero ge0 ovx ovj ob p bw).
    Notation PRS := (points_rows vzero le0 ovx ovj op p pw).
    Notation TI := (tri_inner_rows vzero ovx ovj p).
    Notation TR := (tri_rows vzero ovx ovj p).
    Notation CB := (callback_rows vzero ge0 le0 ovx ovj ob op p bw pw).

    Lemma wh_nonneg : 0 <= p_w p * p_h p.
    Proof. destruct Hok as (_ & _ & _ & _ & _ & H1 & H2). nia. Qed.

    Lemma board_rows_len i f o : lenZ (BR i f o) = 2 * (p_w p * p_h p) /\ tot (BR i f o) = 2 * (p_w p * p_h p) * blen p o.
    Proof. pose proof wh_nonneg. split.
      - unfold board_rows. rewrite (lenZ_flat_map_const _ _ 2) by (intros; reflexivity).
        rewrite lenZ_zrange by auto. lia.
      - unfold board_rows. rewrite (tot_flat_map _ _ (2 * blen p o)).
        + rewrite lenZ_zrange by auto. ring.
        + intros ipt _. cbn [map]. rewrite !tot_cons, !lenZ_cols.
          destruct (ge0 _); rewrite ?inlier_cols, ?outlier_cols, ?board_inlier_len, ?board_outlier_len by auto;
          rewrite tot_nil; lia. Qed.
    Lemma boards_rows_len l : forall i f, lenZ (BRS i f l) = lenZ l * (2 * (p_w p * p_h p)) /\
      tot (BRS i f l) = sumZ (map (fun o => blen p o) l) * (2 * (p_w p * p_h p)).
    Proof. induction l as [|o l IH]; intros i f; [split; reflexivity|].
      cbn [boards_rows map]. destruct (IH (i + 1) (f + p_w p * p_h p)) as (I1 & I2).
      destruct (board_rows_len i f o) as (B1 & B2). rewrite lenZ_app, tot_app, I1, I2, B1, B2. split.
      - unfold lenZ. cbn [length]. rewrite Nat2Z.inj_succ. ring.
      - unfold sumZ. cbn [fold_right]. ring. Qed.
    Lemma points_rows_len l : forall i, lenZ (PRS i l) = lenZ l * 2 /\
      tot (PRS i l) = sumZ (map (fun o => 2 * plen p o) l).
    Proof. induction l as [|o l IH]; intros i; [split; reflexivity|].
      cbn [points_rows map]. destruct (IH (i + 1)) as (I1 & I2). rewrite lenZ_app, tot_app, I1, I2. split.
      - unfold lenZ. cbn [length]. rewrite Nat2Z.inj_succ. lia.
      - rewrite !tot_cons, !lenZ_cols. unfold sumZ at 2. cbn [fold_right]. fold (sumZ (map (fun o0 => 2 * plen p o0) l)).
        destruct (le0 _); rewrite ?inlier_cols, ?outlier_cols, ?point_inlier_len, ?point_outlier_len by auto;
        rewrite tot_nil; lia. Qed.

    (** triangulated *)
    Definition tri_row_len (o0 o1 : tri_obs) := elen (to_icam_e o0) + elen (to_icam_e o1).
    Lemma tri_inner_feature_rows i0 o0 l : forall init i1 rest,
      to_last l = true -> Forall (fun o => to_last o = false) init ->
      exists rows, TI i0 o0 i1 ((init ++ [l]) ++ rest) = Some rows /\
        lenZ rows = lenZ (init ++ [l]) /\
        tot rows = sumZ (map (tri_row_len o0) (init ++ [l])).
    Proof.
      induction init as [|o init IH]; intros i1 rest Hl Hf.
      - cbn [app tri_inner_rows]. rewrite Hl. eexists. split; [reflexivity|]. split; [reflexivity|].
        rewrite tot_cons, lenZ_cols. destruct (to_outlier o0), (to_outlier l); cbn [negb];
        rewrite ?inlier_cols, ?outlier_cols, tri_cols_len; unfold tot; cbn [map sumZ fold_right]; unfold tri_row_len; lia.
      - inversion Hf as [|? ? Ho Hf']; subst. cbn [app tri_inner_rows]. rewrite Ho.
        destruct (IH (i1 + 1) rest Hl Hf') as (rows & E & L & T). rewrite E. eexists. split; [reflexivity|]. split.
        + unfold lenZ in *. cbn [length]. lia.
        + rewrite tot_cons, lenZ_cols, T. cbn [map]. unfold sumZ at 2. cbn [fold_right]. fold (sumZ (map (tri_row_len o0) (init ++ [l]))).
          destruct (to_outlier o0), (to_outlier o); cbn [negb];
          rewrite ?inlier_cols, ?outlier_cols, tri_cols_len; unfold tri_row_len; lia.
    Qed.
    Lemma nnz_inner_feature Nvars0 l : nintr_per_meas p = 0 -> do_ext (p_sel p) = true -> forall init N rest,
      to_last l = true -> Forall (fun o => to_last o = false) init ->
      nnz_tri_inner p Nvars0 ((init ++ [l]) ++ rest) N =
      Some (N + sumZ (map (fun o1 => Nvars0 + elen (to_icam_e o1)) (init ++ [l]))).
    Proof.
      intros Hn He. induction init as [|o init IH]; intros N rest Hl Hf; cbn [app nnz_tri_inner].
      - rewrite Hl, Hn, He. cbn [negb andb map]. unfold sumZ, elen. cbn [fold_right]. f_equal. lia.
      - inversion Hf as [|? ? Ho Hf']; subst. rewrite Ho. cbn [negb]. rewrite IH by auto.
        rewrite Hn, He. cbn [map andb]. unfold sumZ. cbn [fold_right]. f_equal. unfold elen. lia.
    Qed.

    (** one feature, then the rest *)
    Lemma tri_feature_rows l : nintr_per_meas p = 0 -> do_ext (p_sel p) = true -> to_last l = true ->
      forall init i0 rest rrows, Forall (fun o => to_last o = false) init ->
      TR (i0 + lenZ (init ++ [l])) rest = Some rrows ->
      exists rows, TR i0 ((init ++ [l]) ++ rest) = Some (rows ++ rrows) /\
        lenZ rows = npairs (length (init ++ [l])) /\
        forall N, nnz_tri p ((init ++ [l]) ++ rest) N = nnz_tri p rest (N + tot rows).
    Proof.
      intros Hn He Hl. induction init as [|o init IH]; intros i0 rest rrows Hf HR.
      - exists []. cbn [app tri_rows nnz_tri]. rewrite Hl. cbn [length] in HR.
        change (i0 + lenZ [l]) with (i0 + 1) in HR. split; [exact HR|]. split; [reflexivity|].
        intro N. unfold tot. cbn [map sumZ fold_right]. now rewrite Z.add_0_r.
      - inversion Hf as [|? ? Ho Hf']; subst.
        assert (i0 + lenZ ((o :: init) ++ [l]) = (i0 + 1) + lenZ (init ++ [l])) as E
          by (cbn [app]; unfold lenZ; cbn [length]; lia).
        rewrite E in HR. clear E. destruct (IH (i0 + 1) rest rrows Hf' HR) as (rows & E1 & L1 & N1).
        destruct (tri_inner_feature_rows i0 o l init (i0 + 1) rest Hl Hf') as (r0 & E0 & L0 & T0).
        exists (r0 ++ rows). cbn [app tri_rows nnz_tri]. rewrite Ho. split; [|split].
        + change ((init ++ [l]) ++ rest) with ((init ++ [l]) ++ rest) in E0.
          rewrite E0, E1. now rewrite app_assoc.
        + rewrite lenZ_app, L0, L1. cbn [length]. rewrite npairs_S. unfold lenZ. lia.
        + intro N. rewrite (nnz_inner_feature _ l Hn He init N rest Hl Hf'). rewrite N1. f_equal.
          rewrite tot_app, T0, Hn, He. cbn [andb]. rewrite Z.add_0_l. fold (elen (to_icam_e o)). fold (tri_row_len o). ring.
    Qed.
    Lemma tri_rows_features : nintr_per_meas p = 0 -> do_ext (p_sel p) = true ->
      forall fs, Forall mark_feature fs -> forall i0,
      exists rows, TR i0 (concat fs) = Some rows /\ lenZ rows = tri_sum fs /\
        forall N, nnz_tri p (concat fs) N = Some (N + tot rows).
    Proof.
      intros Hn He fs Hfs. induction Hfs as [|f fs (init & l & -> & Hl & Hf) _ IH]; intro i0.
      - exists []. cbn [concat tri_rows nnz_tri]. split; [reflexivity|]. split; [reflexivity|]. intro.
        unfold tot; cbn. now rewrite Z.add_0_r.
      - destruct (IH (i0 + lenZ (init ++ [l]))) as (rr & E & L & N).
        destruct (tri_feature_rows l Hn He Hl init i0 (concat fs) rr Hf E) as (rows & E1 & L1 & N1).
        exists (rows ++ rr). cbn [concat]. split; [exact E1|]. split.
        + rewrite lenZ_app, L1, L, tri_sum_cons. reflexivity.
        + intro M. rewrite N1, N, tot_app. f_equal. lia.
    Qed.

    Lemma reg_dist_len : lenZ (reg_dist_rows ovx ovj p) =
        (if do_reg (p_sel p) && do_dist (p_sel p) then p_Nci p * (num_params (p_lens p) - 4) else 0) /\
      tot (reg_dist_rows ovx ovj p) =
        (if do_reg (p_sel p) && do_dist (p_sel p) then
           p_Nci p * (num_params (p_lens p) - 4) * (match p_lens p with SPLINED _ => 2 | _ => 1 end) else 0).
    Proof.
      pose proof (num_params_ge4 _ (proj1 Hok)) as G. destruct Hok as (HL & Hc & _).
      unfold reg_dist_rows. destruct (do_reg (p_sel p) && do_dist (p_sel p)); [|split; reflexivity].
      assert (forall l, let ns := flat_map (fun icam => map (fun j => @inlier_row V ovx ovj (R_reg_dist icam j)
          [state_index_intrinsics p icam + (if has_core (p_lens p) && do_core (p_sel p) then 4 else 0) + j])
          (zrange 0 (num_params l - 4))) (zrange 0 (p_Nci p)) in
          4 <= num_params l ->
          lenZ ns = p_Nci p * (num_params l - 4) /\ tot ns = p_Nci p * (num_params l - 4) * 1) as NS.
      { intros l ns Hl. unfold ns. split.
        - rewrite (lenZ_flat_map_const _ _ (num_params l - 4)).
          + rewrite lenZ_zrange by auto. reflexivity.
          + intros a _. rewrite lenZ_map. apply lenZ_zrange. lia.
        - rewrite (tot_flat_map _ _ (num_params l - 4)).
          + rewrite lenZ_zrange by auto. ring.
          + intros a _. rewrite (tot_const _ 1).
            * rewrite lenZ_map, lenZ_zrange by lia. ring.
            * intros r Hr. apply in_map_iff in Hr. destruct Hr as (j & <- & _). rewrite inlier_cols. reflexivity. }
      destruct (p_lens p) eqn:E; try (apply NS; exact G). clear NS.
      unfold lens_ok, u16 in HL. unfold num_params.
      split.
      - rewrite (lenZ_flat_map_const _ _ (sp_Ny c * (sp_Nx c * 2))).
        + rewrite lenZ_zrange by auto. ring.
        + intros a _. rewrite (lenZ_flat_map_const _ _ (sp_Nx c * 2)).
          * rewrite lenZ_zrange by lia. reflexivity.
          * intros b _. rewrite (lenZ_flat_map_const _ _ 2) by (intros; reflexivity). rewrite lenZ_zrange by lia. reflexivity.
      - rewrite (tot_flat_map _ _ (sp_Ny c * (sp_Nx c * 4))).
        + rewrite lenZ_zrange by auto. ring.
        + intros a _. rewrite (tot_flat_map _ _ (sp_Nx c * 4)).
          * rewrite lenZ_zrange by lia. reflexivity.
          * intros b _. rewrite (tot_flat_map _ _ 4). { rewrite lenZ_zrange by lia. reflexivity. }
            intros d _. rewrite !tot_cons, !lenZ_cols, !inlier_cols. reflexivity.
    Qed.
    Lemma reg_center_len : lenZ (reg_center_rows ovx ovj p) =
        (if do_reg (p_sel p) && do_core (p_sel p) then p_Nci p * 2 else 0) /\
      tot (reg_center_rows ovx ovj p) = (if do_reg (p_sel p) && do_core (p_sel p) then p_Nci p * 2 else 0).
    Proof.
      destruct Hok as (_ & Hc & _). unfold reg_center_rows, has_core.
      destruct (do_reg (p_sel p)), (do_core (p_sel p)); cbn [andb]; try (split; reflexivity). split.
      - rewrite (lenZ_flat_map_const _ _ 2) by (intros; reflexivity). now rewrite lenZ_zrange.
      - rewrite (tot_flat_map _ _ 2). { now rewrite lenZ_zrange. }
        intros a _. rewrite !tot_cons, !lenZ_cols, !inlier_cols. reflexivity.
    Qed.
    Lemma unity_len : let b := do_unity (p_sel p) && do_ext (p_sel p) && (0 <? p_Nce p) in
      lenZ (unity_rows ovx ovj p) = (if b then 1 else 0) /\ tot (unity_rows ovx ovj p) = (if b then 3 else 0).
    Proof. cbv zeta. unfold unity_rows. destruct (_ && _); [|split; reflexivity]. split; [reflexivity|].
      rewrite tot_cons, lenZ_cols, inlier_cols. reflexivity. Qed.

    (** nnz side *)
    Lemma nnz_points_eq N : nnz_points p N = N + sumZ (map (fun o => 2 * plen p o) (p_points p)).
    Proof.
      unfold nnz_points. generalize N. induction (p_points p) as [|o l IH]; intro M; cbn [fold_left map].
      - unfold sumZ; cbn; lia.
      - rewrite IH. unfold sumZ. cbn [fold_right]. fold (sumZ (map (fun o => 2 * plen p o) l)). unfold plen at 2.
        destruct (do_frames (p_sel p) && (po_ipoint o <? p_Npoints p - p_Npoints_fixed p)), (do_ext (p_sel p) && (0 <=? po_icam_e o)); lia.
    Qed.
    Lemma nnz_boards_eq : nnz_boards p = sumZ (map (fun o => blen p o) (p_boards p)) * (2 * (p_w p * p_h p)).
    Proof.
      unfold nnz_boards. rewrite <- Z.mul_assoc. f_equal. unfold Nobs_board.
      set (A := (if do_frames (p_sel p) then 6 else 0) + (if do_ext (p_sel p) then 6 else 0) + (if has_warp p then 2 else 0) + nintr_per_meas p).
      assert (forall l, (if do_ext (p_sel p) then fold_left (fun N o => if bo_icam_e o <? 0 then N - 6 else N) l (Z.of_nat (length l) * A)
                         else Z.of_nat (length l) * A) = sumZ (map (fun o => blen p o) l)) as H; [|apply H].
      intro l. assert (forall l N, fold_left (fun N o => if bo_icam_e o <? 0 then N - 6 else N) l N =
                              N + fold_left (fun N o => if bo_icam_e o <? 0 then N - 6 else N) l 0) as Hs.
      { clear. induction l as [|o l IH]; intro N; cbn [fold_left]; [lia|]. rewrite IH, (IH (if _ <? 0 then 0 - 6 else 0)).
        destruct (_ <? 0); lia. }
      induction l as [|o l IH].
      - cbn. destruct (do_ext (p_sel p)); reflexivity.
      - cbn [map]. unfold sumZ. cbn [fold_right]. fold (sumZ (map (fun o => blen p o) l)). rewrite <- IH.
        unfold blen, A. cbn [length fold_left]. rewrite Nat2Z.inj_succ.
        destruct (do_ext (p_sel p)) eqn:Ee; cbn [andb]; [|lia].
        rewrite Hs, (Hs l (Z.of_nat (length l) * _)).
        destruct (bo_icam_e o <? 0) eqn:El; destruct (0 <=? bo_icam_e o) eqn:El2; try lia.
    Qed.
    Lemma nnz_reg_eq : nnz_reg p = tot (reg_dist_rows ovx ovj p) + tot (reg_center_rows ovx ovj p) + tot (unity_rows ovx ovj p).
    Proof.
      rewrite (proj2 reg_dist_len), (proj2 reg_center_len), (proj2 unity_len).
      unfold nnz_reg, num_reg_percam, num_distortions_opt, has_core.
      destruct (do_reg (p_sel p)), (do_dist (p_sel p)), (do_core (p_sel p)), (p_lens p); cbn [negb andb]; lia.
    Qed.

    Lemma nintr_zero : do_core (p_sel p) = false -> do_dist (p_sel p) = false -> nintr_per_meas p = 0.
    Proof. intros H1 H2. rewrite nintr_eq, H1, H2. reflexivity. Qed.

    Lemma tri_section_ok fs : tri_supported p -> tri_features (p_tri p) fs ->
      exists rows, tri_section vzero ovx ovj p = Some rows /\ lenZ rows = tri_sum fs /\
        forall N, nnz_tri p (p_tri p) N = Some (N + tot rows).
    Proof.
      intros [E|(H1 & H2 & H3)] (Ec & Hm).
      - unfold tri_section. rewrite E. exists []. split; [reflexivity|]. split.
        + destruct fs as [|f fs]; [reflexivity|]. inversion Hm as [|? ? Hf]; subst. apply mark_nonempty in Hf.
          rewrite E in Ec. cbn [concat] in Ec. destruct f; cbn in Hf, Ec; [lia|discriminate].
        + intro N. cbn. unfold tot. cbn. now rewrite Z.add_0_r.
      - pose proof (nintr_zero H1 H2) as Hn.
        destruct (tri_rows_features Hn H3 fs Hm 0) as (rows & R1 & R2 & R3). rewrite <- Ec in R1, R3.
        unfold tri_section. destruct (p_tri p) eqn:Et.
        + exists rows. split; [|auto]. cbn in R1. exact R1.
        + rewrite <- Et in *. rewrite H1, H2, H3. cbn [negb andb]. exists rows. auto.
    Qed.

    Lemma callback_counts fs : tri_supported p -> tri_features (p_tri p) fs ->
      exists rows, CB = Some rows /\
        num_measurements p = Some (lenZ rows) /\ num_j_nonzero p = Some (tot rows).
    Proof.
      intros Ht Hf. destruct (tri_section_ok fs Ht Hf) as (tr & E1 & E2 & E3).
      unfold callback_rows. rewrite E1. eexists. split; [reflexivity|].
      destruct (boards_rows_len (p_boards p) 0 0) as (B1 & B2).
      destruct (points_rows_len (p_points p) 0) as (P1 & P2). split.
      - rewrite (num_measurements_closed p fs Hok Hf). f_equal. rewrite !lenZ_app, B1, P1, E2.
        rewrite (proj1 reg_dist_len), (proj1 reg_center_len), (proj1 unity_len).
        unfold Nobs_board, Nobs_point, lenZ. unfold mitem_size.
        destruct (do_reg (p_sel p)), (do_dist (p_sel p)), (do_core (p_sel p)); cbn [andb]; ring.
      - unfold num_j_nonzero. rewrite E3. f_equal. rewrite nnz_points_eq, nnz_boards_eq, nnz_reg_eq.
        rewrite !tot_app, B2, P2. ring.
    Qed.

    (** ** columns *)
    Hypothesis HL : lens_legal (p_lens p).
    Hypothesis Hobs : obs_ok p.
    Definition row_good (r : rowV) : Prop :=
      Forall (fun k => 0 <= k < num_states p) (cols r) /\
      (lens_narrow (p_lens p) -> is_tri_row (r_id r) = false -> StronglySorted Z.lt (cols r)).
    Lemma good_row_in id l : good_cols p l -> row_good (inlier_row ovx ovj id l).
    Proof. intros (A & B). unfold row_good. rewrite inlier_cols. split; auto. Qed.
    Lemma good_row_out id l : good_cols p l -> row_good (outlier_row vzero id l).
    Proof. intros (A & B). unfold row_good. rewrite outlier_cols. split; auto. Qed.

    Lemma boards_good l : Forall (fun o => 0 <= bo_icam_i o < p_Nci p /\ bo_icam_e o < p_Nce p /\ 0 <= bo_iframe o < p_Nframes p) l ->
      forall i f, Forall row_good (BRS i f l).
    Proof.
      induction 1 as [|o l (H1 & H2 & H3) _ IH]; intros i f; [constructor|].
      cbn [boards_rows]. apply Forall_app. split; [|apply IH].
      unfold board_rows. apply Forall_flat_map. apply Forall_forall. intros ipt _. cbn [map].
      destruct (ge0 _); (constructor; [|constructor; [|constructor]]).
      1,2: apply good_row_in, board_inlier_good; auto; lia.
      all: apply good_row_out, board_outlier_good; auto; lia.
    Qed.
    Lemma points_good l : Forall (fun o => 0 <= po_icam_i o < p_Nci p /\ po_icam_e o < p_Nce p /\ 0 <= po_ipoint o < p_Npoints p) l ->
      forall i, Forall row_good (PRS i l).
    Proof.
      induction 1 as [|o l (H1 & H2 & H3) _ IH]; intros i; [constructor|].
      cbn [points_rows]. apply Forall_app. split; [|apply IH]. cbn [map].
      destruct (le0 _); (constructor; [|constructor; [|constructor]]).
      1,2: apply good_row_out, point_outlier_good; auto; lia.
      all: apply good_row_in, point_inlier_good; auto; lia.
    Qed.
    Lemma tri_row_good id o0 o1 (b : bool) i0 i1 : id = R_tri i0 i1 -> to_icam_e o0 < p_Nce p -> to_icam_e o1 < p_Nce p -> do_ext (p_sel p) = true ->
      row_good (if b then inlier_row ovx ovj id (tri_cols p o0 o1) else outlier_row vzero id (tri_cols p o0 o1)).
    Proof. intros -> H0 H1 He. unfold row_good. destruct b; rewrite ?inlier_cols, ?outlier_cols;
      (split; [apply tri_cols_in; auto|intros _ X; discriminate X]). Qed.
    Lemma tri_inner_good i0 o0 : to_icam_e o0 < p_Nce p -> do_ext (p_sel p) = true ->
      forall l i1 rows, Forall (fun o => to_icam_e o < p_Nce p) l -> TI i0 o0 i1 l = Some rows -> Forall row_good rows.
    Proof.
      intros H0 He. induction l as [|o1 l IH]; intros i1 rows Hl E; [discriminate|].
      cbn [tri_inner_rows] in E. inversion Hl; subst.
      match type of E with context[Some [?r]] => set (row0 := r) in E end.
      assert (row_good row0) as G.
      { unfold row0. pose proof (tri_row_good (R_tri i0 i1) o0 o1 (negb (to_outlier o0) && negb (to_outlier o1)) i0 i1 eq_refl H0) as T.
        destruct (to_outlier o0), (to_outlier o1); cbn in *; auto. }
      destruct (to_last o1).
      - apply Some_inj in E; subst. auto.
      - destruct (TI i0 o0 (i1 + 1) l) eqn:E2; [|discriminate]. apply Some_inj in E; subst. constructor; eauto.
    Qed.
    Lemma tri_good : do_ext (p_sel p) = true -> forall l, Forall (fun o => to_icam_e o < p_Nce p) l ->
      forall i0 rows, TR i0 l = Some rows -> Forall row_good rows.
    Proof.
      intros He. induction 1 as [|o l H0 Hl IH]; intros i0 rows E; cbn [tri_rows] in E.
      - apply Some_inj in E; subst. constructor.
      - destruct (to_last o); [eauto|]. destruct (TI i0 o (i0 + 1) l) eqn:E1; [|discriminate].
        destruct (TR (i0 + 1) l) eqn:E2; [|discriminate]. apply Some_inj in E; subst. apply Forall_app. split; eauto.
        eapply tri_inner_good; eauto.
    Qed.

    Lemma single_good k : 0 <= k < num_states p -> good_cols p [k].
    Proof. intro. split; [repeat constructor; lia|]. intros _. repeat constructor. Qed.

    Lemma reg_dist_good : Forall row_good (reg_dist_rows ovx ovj p).
    Proof.
      pose proof (num_params_ge4 _ (proj1 Hok)) as G.
      pose proof (regions_ordered p Hok) as HR.
      unfold reg_dist_rows. destruct (do_reg (p_sel p)); [|constructor]. destruct (do_dist (p_sel p)) eqn:Ed; [|constructor].
      cbn [andb].
      assert (forall k icam, 0 <= icam < p_Nci p -> 0 <= k < num_params (p_lens p) - 4 ->
        0 <= state_index_intrinsics p icam + (if has_core (p_lens p) && do_core (p_sel p) then 4 else 0) + k < num_states p) as K.
      { intros k icam Hi Hk. assert (4 < num_params (p_lens p)) as H4 by lia.
        destruct (intr_block p Hok icam Hi (or_intror (conj Ed H4))) as (A & B).
        unfold item_size in B. rewrite Ed in B. unfold has_core. cbn [andb]. unfold num_states.
        destruct (do_core (p_sel p)); lia. }
      assert (Forall row_good (flat_map (fun icam => map (fun j => inlier_row ovx ovj (R_reg_dist icam j)
          [state_index_intrinsics p icam + (if has_core (p_lens p) && do_core (p_sel p) then 4 else 0) + j])
          (zrange 0 (num_params (p_lens p) - 4))) (zrange 0 (p_Nci p)))) as NS.
      { apply Forall_flat_map, Forall_forall. intros icam Hi. apply zrange_in in Hi.
        apply Forall_map, Forall_forall. intros j Hj. apply zrange_in in Hj.
        apply good_row_in, single_good. apply K; lia. }
      destruct (p_lens p) eqn:El; try exact NS. clear NS.
      destruct Hok as (Hlo & _). rewrite El in Hlo. unfold lens_ok, u16 in Hlo.
      apply Forall_flat_map, Forall_forall. intros icam Hi. apply zrange_in in Hi.
      apply Forall_flat_map, Forall_forall. intros iy Hy. apply zrange_in in Hy.
      apply Forall_flat_map, Forall_forall. intros ix Hx. apply zrange_in in Hx.
      pose proof (cell_in_grid c ix iy ltac:(lia) ltac:(lia)) as Hc.
      assert (good_cols p
        [state_index_intrinsics p icam + (if has_core (SPLINED c) && do_core (p_sel p) then 4 else 0) + 2 * (iy * sp_Nx c + ix) + 0;
         state_index_intrinsics p icam + (if has_core (SPLINED c) && do_core (p_sel p) then 4 else 0) + 2 * (iy * sp_Nx c + ix) + 1]) as GC.
      { unfold num_params in K.
        pose proof (K (2 * (iy * sp_Nx c + ix)) icam ltac:(lia) ltac:(lia)).
        pose proof (K (2 * (iy * sp_Nx c + ix) + 1) icam ltac:(lia) ltac:(lia)).
        split; [repeat constructor; lia|]. intros _. repeat constructor. lia. }
      constructor; [apply good_row_in; exact GC|]. constructor; [apply good_row_in; exact GC|constructor].
    Qed.
    Lemma reg_center_good : Forall row_good (reg_center_rows ovx ovj p).
    Proof.
      pose proof (num_params_ge4 _ (proj1 Hok)) as G. pose proof (regions_ordered p Hok) as HR.
      unfold reg_center_rows, has_core. destruct (do_reg (p_sel p)); [|constructor]. cbn [andb].
      destruct (do_core (p_sel p)) eqn:Ec; [|constructor].
      apply Forall_flat_map, Forall_forall. intros icam Hi. apply zrange_in in Hi.
      destruct (intr_block p Hok icam ltac:(lia) (or_introl Ec)) as (A & B).
      unfold item_size in B. rewrite Ec in B.
      assert (4 <= 4 + (if do_dist (p_sel p) then num_params (p_lens p) - 4 else 0)) by (destruct (do_dist (p_sel p)); lia).
      constructor; [|constructor; [|constructor]]; (apply good_row_in, single_good; unfold num_states; lia).
    Qed.
    Lemma unity_good : Forall row_good (unity_rows ovx ovj p).
    Proof.
      pose proof (regions_ordered p Hok) as HR.
      unfold unity_rows. destruct (_ && _) eqn:E; [|constructor]. constructor; [|constructor]. apply good_row_in.
      apply andb_true_iff in E. destruct E as (E & E0). apply andb_true_iff in E. destruct E as (_ & Ee).
      destruct (ext_block p Hok 0 ltac:(lia) Ee). 
      pose proof (seg_zrange 0 (num_states p) (state_index_extrinsics p 0 + 3) 3) as S. unfold num_states in S.
      destruct S as (S1 & S2); [lia|lia|]. split; auto.
    Qed.

    Lemma callback_good rows : CB = Some rows -> Forall row_good rows.
    Proof.
      intro E. unfold callback_rows in E. destruct (tri_section vzero ovx ovj p) eqn:Et; [|discriminate].
      apply Some_inj in E; subst. destruct Hobs as (O1 & O2 & O3).
      repeat (apply Forall_app; split).
      - now apply boards_good. - now apply points_good.
      - unfold tri_section in Et. destruct (p_tri p) as [|t0 ts] eqn:Ep.
        + apply Some_inj in Et; subst. constructor.
        + destruct (negb _ && _ && _) eqn:Ex; [|discriminate]. rewrite <- Ep in *.
          apply andb_true_iff in Ex. destruct Ex as (_ & Ee). eapply tri_good; eauto.
      - apply reg_dist_good. - apply reg_center_good. - apply unity_good.
    Qed.
  End P.
End R.
