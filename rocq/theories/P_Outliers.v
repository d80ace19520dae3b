From Coq Require Import ZArith List Bool Lia Sorted ZifyBool.
From Verif Require Import M_Lens M_Layout S_Layout P_Layout M_SplineIdx M_Callback S_Callback P_Callback P_CallbackRows.
Import ListNotations.
Open Scope Z_scope.

Section O.
  Context {V : Type} (vzero : V) (ge0 le0 : V -> bool).
  Notation rowV := (@row V).
  Definition zero_row (r : rowV) : Prop := r_x r = vzero /\ Forall (fun v => v = vzero) (vals r).

  Lemma outlier_zero id l : zero_row (outlier_row vzero id l).
  Proof. split; [reflexivity|]. unfold vals, outlier_row, with_zeros. cbn [r_j]. rewrite map_map. cbn [snd].
    apply Forall_map. apply Forall_forall. auto. Qed.

  Section P.
    Context (ovx : rowid -> V) (ovj : rowid -> Z -> V) (ob : Z -> Z -> Z * Z) (op : Z -> Z * Z)
      (p : problem) (bw pw : Z -> V).
    Definition live_row (r : rowV) : Prop :=
      r_x r = ovx (r_id r) /\ vals r = map (ovj (r_id r)) (zrange 0 (lenZ (r_j r))).
    Lemma inlier_live id l : live_row (inlier_row ovx ovj id l).
    Proof. split; [reflexivity|]. unfold vals, inlier_row, with_values. cbn [r_j r_id]. rewrite map_map. cbn [snd].
      rewrite lenZ_map. unfold lenZ. rewrite combine_length, seq_length, Nat.min_id.
      unfold zrange. rewrite Nat2Z.id, map_map.
      assert (forall s, map (fun x => ovj id (Z.of_nat (fst x))) (combine (seq s (length l)) l) =
                        map (fun x => ovj id (0 + Z.of_nat x)) (seq s (length l))) as H; [|apply H].
      induction l as [|a l IH]; intro s; [reflexivity|]. cbn [length seq combine map fst]. rewrite IH. f_equal. Qed.

    Notation out := (row_is_outlier ge0 le0 p bw pw).
    Definition right_row (r : rowV) : Prop := (out (r_id r) -> zero_row r) /\ (~ out (r_id r) -> live_row r).

    Notation BRS := (boards_rows vzero ge0 ovx ovj ob p bw).
    Notation PRS := (points_rows vzero le0 ovx ovj op p pw).
    Notation TI := (tri_inner_rows vzero ovx ovj p).
    Notation TR := (tri_rows vzero ovx ovj p).

    Lemma boards_right l : forall i, Forall right_row (BRS i (i * (p_w p * p_h p)) l).
    Proof.
      induction l as [|o l IH]; intro i; [constructor|]. cbn [boards_rows]. apply Forall_app. split.
      - unfold board_rows. apply Forall_flat_map, Forall_forall. intros ipt _. apply Forall_map, Forall_forall. intros ixy _.
        destruct (ge0 _) eqn:E.
        + split; [|intros _; apply inlier_live]. cbn [inlier_row r_id row_is_outlier]. congruence.
        + split; [intros _; apply outlier_zero|]. cbn [outlier_row r_id row_is_outlier]. congruence.
      - replace (i * (p_w p * p_h p) + p_w p * p_h p) with ((i + 1) * (p_w p * p_h p)) by ring. apply IH.
    Qed.
    Lemma points_right l : forall i, Forall right_row (PRS i l).
    Proof.
      induction l as [|o l IH]; intro i; [constructor|]. cbn [points_rows]. apply Forall_app. split; [|apply IH].
      apply Forall_map, Forall_forall. intros ixy _. destruct (le0 _) eqn:E.
      - split; [intros _; apply outlier_zero|]. cbn [outlier_row r_id row_is_outlier]. congruence.
      - split; [|intros _; apply inlier_live]. cbn [inlier_row r_id row_is_outlier]. congruence.
    Qed.
    Lemma nth_error_skipn {A} (l : list A) n x r : skipn n l = x :: r -> nth_error l n = Some x /\ skipn (S n) l = r.
    Proof. revert n. induction l as [|a l IH]; intros [|n] H; cbn in *; try discriminate.
      - injection H as -> ->. auto. - apply IH in H. exact H. Qed.
    Lemma tri_inner_right i0 o0 : 0 <= i0 -> nth_error (p_tri p) (Z.to_nat i0) = Some o0 ->
      forall l i1 rows, 0 <= i1 -> skipn (Z.to_nat i1) (p_tri p) = l -> TI i0 o0 i1 l = Some rows -> Forall right_row rows.
    Proof.
      intros H0 Hn. induction l as [|o1 l IH]; intros i1 rows H1 Hs E; [discriminate|].
      apply nth_error_skipn in Hs. destruct Hs as (Hn1 & Hs).
      cbn [tri_inner_rows] in E.
      match type of E with context[Some [?r]] => set (row0 := r) in E end.
      assert (right_row row0) as G.
      { unfold row0. destruct (to_outlier o0) eqn:T0; cbn [negb].
        - split; [intros _; apply outlier_zero|]. cbn [outlier_row r_id row_is_outlier]. intro X. exfalso. apply X. exists o0; auto.
        - destruct (to_outlier o1) eqn:T1; cbn [negb].
          + split; [intros _; apply outlier_zero|]. cbn [outlier_row r_id row_is_outlier]. intro X. exfalso. apply X. exists o1; auto.
          + split; [|intros _; apply inlier_live]. cbn [inlier_row r_id row_is_outlier].
            intros (o & [X|X] & Y); rewrite X in *; congruence. }
      destruct (to_last o1).
      - apply Some_inj in E; subst. auto.
      - destruct (TI i0 o0 (i1 + 1) l) eqn:E2; [|discriminate]. apply Some_inj in E; subst. constructor; auto.
        eapply IH in E2; auto; try lia. replace (Z.to_nat (i1 + 1)) with (S (Z.to_nat i1)) by lia. auto.
    Qed.
    Lemma tri_right l : forall i0 rows, 0 <= i0 -> skipn (Z.to_nat i0) (p_tri p) = l -> TR i0 l = Some rows -> Forall right_row rows.
    Proof.
      induction l as [|o l IH]; intros i0 rows H0 Hs E; cbn [tri_rows] in E.
      - apply Some_inj in E; subst. constructor.
      - apply nth_error_skipn in Hs. destruct Hs as (Hn & Hs).
        replace (S (Z.to_nat i0)) with (Z.to_nat (i0 + 1)) in Hs by lia.
        destruct (to_last o); [eapply IH in E; auto; lia|]. destruct (TI i0 o (i0 + 1) l) eqn:E1; [|discriminate].
        destruct (TR (i0 + 1) l) eqn:E2; [|discriminate]. apply Some_inj in E; subst. apply Forall_app. split.
        + eapply tri_inner_right in E1; eauto. lia.
        + eapply IH in E2; auto; lia.
    Qed.
    Lemma reg_right id l : (match id with R_board _ _ _ | R_point _ _ | R_tri _ _ => False | _ => True end) -> right_row (inlier_row ovx ovj id l).
    Proof. intro H. split; [|intros _; apply inlier_live]. cbn [inlier_row r_id]. destruct id; destruct H; cbn; tauto. Qed.

    Lemma callback_right rows : callback_rows vzero ge0 le0 ovx ovj ob op p bw pw = Some rows -> Forall right_row rows.
    Proof.
      intro E. unfold callback_rows in E. destruct (tri_section vzero ovx ovj p) eqn:Et; [|discriminate].
      apply Some_inj in E; subst. repeat (apply Forall_app; split).
      - apply (boards_right (p_boards p) 0). - apply points_right.
      - unfold tri_section in Et. destruct (p_tri p) as [|t0 ts] eqn:Ep.
        + apply Some_inj in Et; subst. constructor.
        + destruct (negb _ && _ && _) eqn:Ex; [|discriminate]. rewrite <- Ep in *. apply (tri_right (p_tri p) 0); [lia|reflexivity|exact Et].
      - unfold reg_dist_rows. destruct (_ && _); [|constructor].
        destruct (p_lens p); try (apply Forall_flat_map, Forall_forall; intros a _; apply Forall_map, Forall_forall; intros; apply reg_right; exact I).
        apply Forall_flat_map, Forall_forall. intros a _. apply Forall_flat_map, Forall_forall. intros b _.
        apply Forall_flat_map, Forall_forall. intros d _.
        constructor; [|constructor; [|constructor]]; apply reg_right; exact I.
      - unfold reg_center_rows. destruct (_ && _); [|constructor].
        apply Forall_flat_map, Forall_forall. intros a _. constructor; [|constructor; [|constructor]]; apply reg_right; exact I.
      - unfold unity_rows. destruct (_ && _); [|constructor]. constructor; [|constructor]. apply reg_right; exact I.
    Qed.
  End P.

  (** ** shape *)
  Definition same_shape (pt : bool) (r r' : rowV) : Prop :=
    r_id r = r_id r' /\ length (r_j r) = length (r_j r') /\
    ((pt = true /\ is_point_row (r_id r) = true) \/ cols r = cols r').

  Section Shape.
    Context (ovx ovx' : rowid -> V) (ovj ovj' : rowid -> Z -> V) (ob : Z -> Z -> Z * Z) (op : Z -> Z * Z)
      (p : problem) (bw pw bw' pw' : Z -> V).
    Hypothesis Hok : problem_ok p.
    Notation sh := (same_shape (splined (p_lens p))).

    Definition is_row (r : rowV) (id : rowid) (l : list Z) : Prop := r_id r = id /\ cols r = l.
    Lemma is_in ox oj id l : is_row (inlier_row ox oj id l) id l.
    Proof. split; [reflexivity|apply inlier_cols]. Qed.
    Lemma is_out id l : is_row (outlier_row vzero id l) id l.
    Proof. split; [reflexivity|apply outlier_cols]. Qed.
    Lemma shape_same r r' id l : is_row r id l -> is_row r' id l -> sh r r'.
    Proof. intros (A & B) (A' & B'). split; [congruence|]. split; [|right; congruence].
      unfold cols in *. rewrite <- (map_length fst (r_j r)), <- (map_length fst (r_j r')). congruence. Qed.
    Lemma shape_len r r' iobs ixy l l' : is_row r (R_point iobs ixy) l -> is_row r' (R_point iobs ixy) l' ->
      lenZ l = lenZ l' -> (splined (p_lens p) = false -> l = l') -> sh r r'.
    Proof. intros (A & B) (A' & B') E Hs. split; [congruence|]. split.
      - unfold cols in *. unfold lenZ in E. rewrite <- (map_length fst (r_j r)), <- (map_length fst (r_j r')), B, B'. lia.
      - destruct (splined (p_lens p)) eqn:Es; [left; split; auto; rewrite A; reflexivity|right]. rewrite B, B'. auto. Qed.

    Lemma Forall2_map_same {A B} (R : B -> B -> Prop) (f g : A -> B) l : (forall a, R (f a) (g a)) -> Forall2 R (map f l) (map g l).
    Proof. induction l; simpl; constructor; auto. Qed.
    Lemma Forall2_flat_same {A B} (R : B -> B -> Prop) (f g : A -> list B) l : (forall a, Forall2 R (f a) (g a)) -> Forall2 R (flat_map f l) (flat_map g l).
    Proof. induction l; simpl; [constructor|]. intro H. apply Forall2_app; auto. Qed.

    Lemma boards_shape l : forall i f f', Forall2 sh (boards_rows vzero ge0 ovx ovj ob p bw i f l)
                                            (boards_rows vzero ge0 ovx' ovj' ob p bw' i f' l).
    Proof.
      induction l as [|o l IH]; intros i f f'; [constructor|]. cbn [boards_rows]. apply Forall2_app; [|apply IH].
      unfold board_rows. apply Forall2_flat_same. intro ipt. apply Forall2_map_same. intro ixy.
      destruct (ge0 _), (ge0 _); (eapply shape_same; [first [apply is_in|apply is_out]|]);
        rewrite ?board_cols_inlier_eq, ?board_cols_outlier_eq; first [apply is_in|apply is_out].
    Qed.
    Lemma point_cols_same o sp ixy : splined (p_lens p) = false -> point_cols_inlier p o sp ixy = point_cols_outlier p o ixy.
    Proof. intro H. rewrite point_cols_inlier_eq, point_cols_outlier_eq. f_equal.
      unfold icols, dist_inlier, dist_outlier. destruct (p_lens p); try reflexivity. discriminate H. Qed.
    Lemma points_shape l : forall i, Forall2 sh (points_rows vzero le0 ovx ovj op p pw i l)
                                            (points_rows vzero le0 ovx' ovj' op p pw' i l).
    Proof.
      induction l as [|o l IH]; intros i; [constructor|]. cbn [points_rows]. apply Forall2_app; [|apply IH].
      apply Forall2_map_same. intro ixy.
      destruct (le0 _), (le0 _); (eapply shape_len; [first [apply is_in|apply is_out]|first [apply is_in|apply is_out]| |]);
        rewrite ?point_inlier_len, ?point_outlier_len by auto; auto; intro; rewrite point_cols_same by auto; reflexivity.
    Qed.
    Lemma tri_cols_same a a' b b' : same_tri a a' -> same_tri b b' -> tri_cols p a b = tri_cols p a' b'.
    Proof. intros (_ & E1 & _) (_ & E2 & _). unfold tri_cols. rewrite E1, E2. reflexivity. Qed.
    Definition opt2 {A} (R : A -> A -> Prop) (x y : option A) : Prop :=
      match x, y with Some a, Some b => R a b | None, None => True | _, _ => False end.
    Lemma tri_inner_shape i0 a a' : same_tri a a' -> forall l l', Forall2 same_tri l l' -> forall i1,
      opt2 (Forall2 sh) (tri_inner_rows vzero ovx ovj p i0 a i1 l) (tri_inner_rows vzero ovx' ovj' p i0 a' i1 l').
    Proof.
      intros Ha l l' Hl. induction Hl as [|b b' l l' Hb Hl IH]; intro i1; [exact I|].
      cbn [tri_inner_rows].
      match goal with |- opt2 _ (if _ then Some [?r] else _) (if _ then Some [?r'] else _) => assert (sh r r') as G end.
      { pose proof (tri_cols_same _ _ _ _ Ha Hb) as E.
        destruct (to_outlier a), (to_outlier a'), (to_outlier b), (to_outlier b'); cbn [negb];
        (eapply shape_same; [first [apply is_in|apply is_out]|rewrite E; first [apply is_in|apply is_out]]). }
      pose proof Hb as (_ & _ & El). rewrite <- El. destruct (to_last b).
      - apply Forall2_cons; [exact G|apply Forall2_nil].
      - specialize (IH (i1 + 1)). unfold opt2 in *. destruct (tri_inner_rows _ ovx _ _ _ _ _ _), (tri_inner_rows _ ovx' _ _ _ _ _ _); auto.
    Qed.
    Lemma tri_shape l l' : Forall2 same_tri l l' -> forall i0,
      opt2 (Forall2 sh) (tri_rows vzero ovx ovj p i0 l) (tri_rows vzero ovx' ovj' p i0 l').
    Proof.
      induction 1 as [|b b' l l' Hb Hl IH]; intro i0; [constructor|].
      cbn [tri_rows]. pose proof Hb as (_ & _ & El). rewrite <- El. destruct (to_last b); [apply IH|].
      pose proof (tri_inner_shape i0 b b' Hb l l' Hl (i0 + 1)) as T. specialize (IH (i0 + 1)). unfold opt2 in *.
      destruct (tri_inner_rows _ ovx _ _ _ _ _ _), (tri_inner_rows _ ovx' _ _ _ _ _ _), (tri_rows _ ovx _ _ _ _), (tri_rows _ ovx' _ _ _ _); auto.
      now apply Forall2_app.
    Qed.

    Lemma tri_rows_p (t : list tri_obs) ox oj : forall l i0, tri_rows vzero ox oj (with_tri p t) i0 l = tri_rows vzero ox oj p i0 l.
    Proof.
      assert (forall a l i0 i1, tri_inner_rows vzero ox oj (with_tri p t) i0 a i1 l = tri_inner_rows vzero ox oj p i0 a i1 l) as H.
      { induction l as [|b l IH]; intros; [reflexivity|]. cbn [tri_inner_rows]. rewrite IH. reflexivity. }
      induction l as [|b l IH]; intro i0; [reflexivity|]. cbn [tri_rows]. rewrite IH, H. reflexivity.
    Qed.

    Lemma boards_rows_p t ox oj w : forall l i f, boards_rows vzero ge0 ox oj ob (with_tri p t) w i f l = boards_rows vzero ge0 ox oj ob p w i f l.
    Proof. induction l as [|o l IH]; intros; [reflexivity|]. cbn [boards_rows]. rewrite IH. reflexivity. Qed.
    Lemma points_rows_p t ox oj w : forall l i, points_rows vzero le0 ox oj op (with_tri p t) w i l = points_rows vzero le0 ox oj op p w i l.
    Proof. induction l as [|o l IH]; intros; [reflexivity|]. cbn [points_rows]. rewrite IH. reflexivity. Qed.

    Lemma callback_shape t : Forall2 same_tri (p_tri p) t ->
      opt2 (Forall2 sh) (callback_rows vzero ge0 le0 ovx ovj ob op p bw pw)
                        (callback_rows vzero ge0 le0 ovx' ovj' ob op (with_tri p t) bw' pw').
    Proof.
      intro Ht. unfold callback_rows.
      assert (opt2 (Forall2 sh) (tri_section vzero ovx ovj p) (tri_section vzero ovx' ovj' (with_tri p t))) as T.
      { unfold tri_section. change (p_tri (with_tri p t)) with t. change (p_sel (with_tri p t)) with (p_sel p).
        destruct (p_tri p) as [|a l] eqn:E.
        - inversion Ht; subst. constructor.
        - inversion Ht as [|? b ? l' Hab Hl]; subst. destruct (_ && _); [|exact I].
          rewrite tri_rows_p. apply tri_shape. now constructor. }
      unfold opt2 in *. destruct (tri_section vzero ovx ovj p), (tri_section vzero ovx' ovj' (with_tri p t)); auto.
      rewrite boards_rows_p, points_rows_p.
      change (p_boards (with_tri p t)) with (p_boards p). change (p_points (with_tri p t)) with (p_points p).
      change (reg_dist_rows ovx' ovj' (with_tri p t)) with (reg_dist_rows ovx' ovj' p).
      change (reg_center_rows ovx' ovj' (with_tri p t)) with (reg_center_rows ovx' ovj' p).
      change (unity_rows ovx' ovj' (with_tri p t)) with (unity_rows ovx' ovj' p).
      repeat apply Forall2_app; auto.
      - apply boards_shape. - apply points_shape.
      - unfold reg_dist_rows. destruct (_ && _); [|constructor].
        destruct (p_lens p) eqn:E; try (apply Forall2_flat_same; intro; apply Forall2_map_same; intro; rewrite <- E; eapply shape_same; apply is_in).
        rewrite <- E.
        apply Forall2_flat_same; intro. apply Forall2_flat_same; intro. apply Forall2_flat_same; intro.
        constructor; [|constructor; [|constructor]]; eapply shape_same; apply is_in.
      - unfold reg_center_rows. destruct (_ && _); [|constructor].
        apply Forall2_flat_same; intro. constructor; [|constructor; [|constructor]]; eapply shape_same; apply is_in.
      - unfold unity_rows. destruct (_ && _); [|constructor]. constructor; [|constructor]; eapply shape_same; apply is_in.
    Qed.

    Lemma shape_rowptrs (rows rows' : list rowV) b : Forall2 (same_shape b) rows rows' -> forall j,
      rowptrs j rows = rowptrs j rows' /\ tot rows = tot rows' /\ length rows = length rows'.
    Proof.
      induction 1 as [|r r' rows rows' (_ & E & _) _ IH]; intro j; [repeat split; reflexivity|].
      cbn [rowptrs length]. assert (lenZ (r_j r) = lenZ (r_j r')) as El by (unfold lenZ; lia).
      rewrite !tot_cons, El. destruct (IH (j + lenZ (r_j r'))) as (-> & -> & ->). auto.
    Qed.
  End Shape.
End O.
