(** C58: every residual is stored where measurement_index_*() says. *)
From Coq Require Import ZArith List Bool Lia Sorted ZifyBool.
From Verif Require Import M_Lens M_Layout S_Layout P_Layout P_TriDecode M_SplineIdx M_Callback S_Callback P_Callback P_CallbackRows.
Import ListNotations.
Open Scope Z_scope.

Lemma nth_zrange a n k : (k < Z.to_nat n)%nat -> nth_error (zrange a n) k = Some (a + Z.of_nat k).
Proof.
  intro H. unfold zrange. rewrite nth_error_map. rewrite (nth_error_nth' _ 0%nat) by (rewrite seq_length; auto). cbn. rewrite seq_nth by auto. reflexivity.
Qed.
Lemma nth_flat_const {A B} (f : A -> list B) n : forall l i a j b, (forall x, In x l -> length (f x) = n) ->
  nth_error l i = Some a -> nth_error (f a) j = Some b -> nth_error (flat_map f l) (i * n + j) = Some b.
Proof.
  induction l as [|x l IH]; intros [|i] a j b Hn Hi Hj; try discriminate; cbn [flat_map].
  - injection Hi as ->. cbn. rewrite nth_error_app1; auto. apply nth_error_Some. congruence.
  - assert (length (f x) = n) as Hx by (apply Hn; now left). rewrite nth_error_app2 by lia. rewrite Hx. replace (S i * n + j - n)%nat with (i * n + j)%nat by lia.
    eapply IH; eauto. intros; apply Hn; now right.
Qed.
Lemma zrange_cons a n : 0 <= n -> zrange a (1 + n) = a :: zrange (a + 1) n.
Proof.
  intro H. unfold zrange. replace (Z.to_nat (1 + n)) with (S (Z.to_nat n)) by lia. cbn [seq map]. f_equal; [lia|].
  rewrite <- seq_shift, map_map. apply map_ext. lia.
Qed.
Lemma pairs_cons first n : pairs_from first (S n) = map (fun j => (first, first + j)%nat) (seq 1 n) ++ pairs_from (S first) n.
Proof.
  unfold pairs_from. change (seq 0 (S n)) with (0%nat :: seq 1 n). cbn [flat_map]. f_equal.
  { replace (S n - 1)%nat with n by lia. apply map_ext. intro. f_equal. lia. }
  rewrite <- (seq_shift n 0). rewrite !flat_map_concat_map, map_map. f_equal. apply map_ext. intro i.
  replace (S n - S (S i))%nat with (n - S i)%nat by lia. rewrite <- (seq_shift (n - S i) (S i)), map_map. apply map_ext. intro. f_equal; lia.
Qed.

Section R.
  Context {V : Type} (vzero : V) (ge0 le0 : V -> bool).
  Notation rowV := (@row V).
  Context (ovx : rowid -> V) (ovj : rowid -> Z -> V) (ob : Z -> Z -> Z * Z) (op : Z -> Z * Z)
      (p : problem) (bw pw : Z -> V).
  Hypothesis Hok : problem_ok p.
  Notation BRS := (boards_rows vzero ge0 ovx ovj ob p bw).
  Notation PRS := (points_rows vzero le0 ovx ovj op p pw).
  Notation TI := (tri_inner_rows vzero ovx ovj p).
  Notation TR := (tri_rows vzero ovx ovj p).
  Notation ids l := (map (@r_id V) l).

  Lemma boards_ids l : forall i f, ids (BRS i f l) =
    flat_map (fun io => flat_map (fun ipt => [R_board io ipt 0; R_board io ipt 1]) (zrange 0 (p_w p * p_h p))) (zrange i (lenZ l)).
  Proof.
    induction l as [|o l IH]; intros i f; [reflexivity|]. cbn [boards_rows]. rewrite map_app, IH.
    assert (lenZ (o :: l) = 1 + lenZ l) as -> by (unfold lenZ; cbn [length]; lia).
    rewrite zrange_cons by (unfold lenZ; lia). cbn [flat_map]. f_equal. unfold board_rows.
    rewrite !flat_map_concat_map, concat_map, map_map. f_equal. apply map_ext. intro ipt. cbn [map]. destruct (ge0 _); reflexivity.
  Qed.
  Lemma points_ids l : forall i, ids (PRS i l) = flat_map (fun io => [R_point io 0; R_point io 1]) (zrange i (lenZ l)).
  Proof.
    induction l as [|o l IH]; intros i; [reflexivity|]. cbn [points_rows]. rewrite map_app, IH.
    assert (lenZ (o :: l) = 1 + lenZ l) as -> by (unfold lenZ; cbn [length]; lia).
    rewrite zrange_cons by (unfold lenZ; lia). cbn [flat_map map]. destruct (le0 _); reflexivity.
  Qed.
  Definition rt (pr : nat * nat) : rowid := R_tri (Z.of_nat (fst pr)) (Z.of_nat (snd pr)).
  Lemma TI_ids i0 o0 l rest : to_last l = true -> forall init i1, Forall (fun o => to_last o = false) init ->
    exists rows, TI i0 o0 (Z.of_nat i1) (init ++ l :: rest) = Some rows /\
      ids rows = map (fun j => R_tri i0 (Z.of_nat j)) (seq i1 (S (length init))).
  Proof.
    intro Hl. induction init as [|o1 init IH]; intros i1 F; cbn [app tri_inner_rows].
    - rewrite Hl. eexists. split; [reflexivity|]. cbn. destruct (to_outlier o0); [|destruct (to_outlier l)]; reflexivity.
    - inversion F as [|? ? F1 F2]; subst. rewrite F1. destruct (IH (S i1) F2) as (rows & E & M).
      replace (Z.of_nat i1 + 1) with (Z.of_nat (S i1)) by lia. rewrite E. eexists. split; [reflexivity|].
      cbn [map length seq]. cbn [length seq map] in M. rewrite M. f_equal. destruct (to_outlier o0); [|destruct (to_outlier o1)]; reflexivity.
  Qed.
  Lemma feature_ids l rest B : to_last l = true -> forall init i0, Forall (fun o => to_last o = false) init ->
    TR (Z.of_nat (i0 + S (length init))) rest = Some B ->
    exists A, TR (Z.of_nat i0) (init ++ l :: rest) = Some (A ++ B) /\ ids A = map rt (pairs_from i0 (S (length init))).
  Proof.
    intro Hl. induction init as [|o init IH]; intros i0 F HB; cbn [app tri_rows].
    - rewrite Hl. exists []. split; [|reflexivity]. replace (Z.of_nat i0 + 1) with (Z.of_nat (i0 + S (length (@nil tri_obs)))) by (cbn; lia). exact HB.
    - inversion F as [|? ? F1 F2]; subst. rewrite F1.
      destruct (TI_ids (Z.of_nat i0) o l rest Hl init (S i0) F2) as (rows & E & M).
      replace (Z.of_nat i0 + 1) with (Z.of_nat (S i0)) by lia. rewrite E.
      destruct (IH (S i0) F2) as (A & EA & MA). { rewrite <- HB. f_equal. cbn [length]. lia. }
      rewrite EA. exists (rows ++ A). split; [now rewrite app_assoc|]. rewrite map_app, M, MA.
      cbn [length]. rewrite (pairs_cons i0 (S (length init))), map_app. f_equal. rewrite map_map. unfold rt. cbn [fst snd].
      rewrite <- (Nat.add_1_r i0) at 1. clear. generalize (S (length init)). intro n.
      assert (forall s, map (fun j => R_tri (Z.of_nat i0) (Z.of_nat j)) (seq (i0 + s) n) = map (fun x => R_tri (Z.of_nat i0) (Z.of_nat (i0 + x))) (seq s n)) as K.
      { induction n; intro s; [reflexivity|]. cbn [seq map]. f_equal. replace (S (i0 + s)) with (i0 + S s)%nat by lia. apply IHn. }
      apply K.
  Qed.
  Lemma tri_ids : forall fs i0 ifeat, Forall mark_feature fs ->
    exists A, TR (Z.of_nat i0) (concat fs) = Some A /\ ids A = map (fun e => rt (snd e)) (all_pairs ifeat i0 fs).
  Proof.
    induction fs as [|f fs IH]; intros i0 ifeat F; [exists []; auto|]. inversion F as [|? ? (init & l & -> & Hl & Fi) F2]; subst.
    destruct (IH (i0 + length (init ++ [l]))%nat (S ifeat) F2) as (B & EB & MB).
    destruct (feature_ids l (concat fs) B Hl init i0 Fi) as (A & EA & MA). { rewrite <- EB. do 2 f_equal. rewrite app_length. cbn [length]. lia. }
    exists (A ++ B). cbn [concat]. rewrite <- app_assoc. split; [exact EA|]. rewrite map_app, MA, MB. cbn [all_pairs]. rewrite map_app. f_equal.
    rewrite map_map. cbn [snd]. rewrite app_length. cbn [length]. now replace (length init + 1)%nat with (S (length init)) by lia.
  Qed.
  (** nothing before, then [a], then [b] *)
  Lemma nth_mid {A} (a b c : list A) k x : nth_error b k = Some x -> nth_error (a ++ b ++ c) (length a + k) = Some x.
  Proof.
    intro H. rewrite nth_error_app2 by lia. replace (length a + k - length a)%nat with k by lia.
    rewrite nth_error_app1; auto. apply nth_error_Some. congruence.
  Qed.
  Lemma length_lenZ {A} (l : list A) n : lenZ l = n -> length l = Z.to_nat n.
  Proof. unfold lenZ. lia. Qed.
  Lemma flat_const_len {A B} (f : A -> list B) n l : (forall x, length (f x) = n) -> length (flat_map f l) = (length l * n)%nat.
  Proof. intro H. induction l as [|a l IH]; [reflexivity|]. cbn [flat_map]. rewrite app_length, H, IH. cbn. lia. Qed.

  Lemma wh0 : 0 <= p_w p * p_h p.
  Proof. destruct Hok as (_ & _ & _ & _ & _ & A & B). nia. Qed.
  Lemma tri_ids_section fs rows : tri_features (p_tri p) fs -> tri_section vzero ovx ovj p = Some rows ->
    ids rows = map (fun e => rt (snd e)) (all_pairs 0 0 fs).
  Proof.
    intros (Ec & F) E. destruct (tri_ids fs 0 0 F) as (A & EA & MA). rewrite <- Ec in EA. unfold tri_section in E.
    destruct (p_tri p) as [|t0 ts] eqn:Ep.
    - apply Some_inj in E. subst rows. cbn in EA. apply Some_inj in EA. subst A. exact MA.
    - destruct (negb _ && _ && _) eqn:Ex; [|discriminate]. rewrite <- Ep in *. change (Z.of_nat 0) with 0 in EA. rewrite E in EA. apply Some_inj in EA. now subst.
  Qed.
  Lemma reg_dist_ids_ns : do_reg (p_sel p) = true -> do_dist (p_sel p) = true -> splined (p_lens p) = false ->
    ids (reg_dist_rows ovx ovj p) = flat_map (fun icam => map (fun j => R_reg_dist icam j) (zrange 0 (num_params (p_lens p) - 4))) (zrange 0 (p_Nci p)).
  Proof.
    intros Hr Hd Hs. unfold reg_dist_rows, has_core. rewrite Hr, Hd. cbn [andb].
    destruct (p_lens p) eqn:El; try discriminate Hs; rewrite !flat_map_concat_map, concat_map, map_map; f_equal; apply map_ext; intro icam; rewrite map_map; reflexivity.
  Qed.
  Lemma reg_dist_ids_spl c : do_reg (p_sel p) = true -> do_dist (p_sel p) = true -> p_lens p = SPLINED c ->
    ids (reg_dist_rows ovx ovj p) = flat_map (fun icam => flat_map (fun iy => flat_map (fun ix =>
       [R_reg_splined icam (2 * (iy * sp_Nx c + ix)) 0; R_reg_splined icam (2 * (iy * sp_Nx c + ix)) 1]) (zrange 0 (sp_Nx c))) (zrange 0 (sp_Ny c))) (zrange 0 (p_Nci p)).
  Proof.
    intros Hr Hd El. unfold reg_dist_rows, has_core. rewrite Hr, Hd, El. cbn [andb].
    rewrite !flat_map_concat_map, concat_map, map_map. f_equal. apply map_ext. intro icam.
    rewrite !flat_map_concat_map, concat_map, map_map. f_equal. apply map_ext. intro iy.
    rewrite !flat_map_concat_map, concat_map, map_map. f_equal.
  Qed.
  Lemma reg_center_ids : do_reg (p_sel p) = true -> do_core (p_sel p) = true ->
    ids (reg_center_rows ovx ovj p) = flat_map (fun icam => [R_reg_center icam 0; R_reg_center icam 1]) (zrange 0 (p_Nci p)).
  Proof.
    intros Hr Hd. unfold reg_center_rows, has_core. rewrite Hr, Hd. cbn [andb].
    rewrite !flat_map_concat_map, concat_map, map_map. reflexivity.
  Qed.
End R.

Lemma two {A} (f : Z -> A) ixy : 0 <= ixy <= 1 -> nth_error [f 0; f 1] (Z.to_nat ixy) = Some (f ixy).
Proof. intro H. assert (ixy = 0 \/ ixy = 1) as [-> | ->] by lia; reflexivity. Qed.

Theorem C58_rows_in_place :
  forall (V : Type) (vzero : V) ge0 le0 ovx ovj osb osp p bw pw fs rows,
  problem_ok p -> tri_supported p -> tri_features (p_tri p) fs ->
  callback_rows vzero ge0 le0 ovx ovj osb osp p bw pw = Some rows ->
  let row k := nth_error (map (@r_id V) rows) (Z.to_nat k) in
  let Ndist := num_params (p_lens p) - 4 in
  (forall i ipt ixy, 0 <= i < Z.of_nat (length (p_boards p)) -> 0 <= ipt < p_w p * p_h p -> 0 <= ixy <= 1 ->
     row (measurement_index_boards p i + 2 * ipt + ixy) = Some (R_board i ipt ixy)) /\
  (forall i ixy, 0 <= i < Z.of_nat (length (p_points p)) -> 0 <= ixy <= 1 ->
     row (measurement_index_points p i + ixy) = Some (R_point i ixy)) /\
  (forall s k f first n o0 o1, measurement_index_tri p 0 = Some s -> nth_error (all_pairs 0 0 fs) k = Some (f, first, n, (o0, o1)) ->
     row (s + Z.of_nat k) = Some (R_tri (Z.of_nat o0) (Z.of_nat o1))) /\
  (forall s, measurement_index_reg p = Some s ->
     (do_reg (p_sel p) = true -> do_dist (p_sel p) = true ->
        match p_lens p with
        | SPLINED c => forall icam ix iy k, 0 <= icam < p_Nci p -> 0 <= ix < sp_Nx c -> 0 <= iy < sp_Ny c -> 0 <= k <= 1 ->
            row (s + icam * Ndist + 2 * (iy * sp_Nx c + ix) + k) = Some (R_reg_splined icam (2 * (iy * sp_Nx c + ix)) k)
        | _ => forall icam j, 0 <= icam < p_Nci p -> 0 <= j < Ndist -> row (s + icam * Ndist + j) = Some (R_reg_dist icam j)
        end) /\
     (do_reg (p_sel p) = true -> do_core (p_sel p) = true -> forall icam ixy, 0 <= icam < p_Nci p -> 0 <= ixy <= 1 ->
        row (s + (if do_dist (p_sel p) then p_Nci p * Ndist else 0) + 2 * icam + ixy) = Some (R_reg_center icam ixy)) /\
     (do_unity (p_sel p) && do_ext (p_sel p) && (0 <? p_Nce p) = true ->
        row (s + (if do_reg (p_sel p) then p_Nci p * ((if do_dist (p_sel p) then Ndist else 0) + (if do_core (p_sel p) then 2 else 0)) else 0)) = Some R_unity)).
Proof.
  intros V vzero ge0 le0 ovx ovj osb osp p bw pw fs rows Hok HT HF E row Ndist.
  pose proof (wh0 p Hok) as WH. pose proof (num_params_ge4 _ (proj1 Hok)) as G4.
  unfold callback_rows in E. destruct (tri_section vzero ovx ovj p) as [t|] eqn:Et; [|discriminate]. apply Some_inj in E.
  pose proof (tri_ids_section vzero ovx ovj p fs t HF Et) as Mt.
  set (IB := flat_map (fun io => flat_map (fun ipt => [R_board io ipt 0; R_board io ipt 1]) (zrange 0 (p_w p * p_h p))) (zrange 0 (lenZ (p_boards p)))).
  set (IP := flat_map (fun io => [R_point io 0; R_point io 1]) (zrange 0 (lenZ (p_points p)))).
  set (IT := map (fun e => rt (snd e)) (all_pairs 0 0 fs)) in *.
  set (ID := map (@r_id V) (reg_dist_rows ovx ovj p)).
  set (IC := map (@r_id V) (reg_center_rows ovx ovj p)).
  set (IU := map (@r_id V) (unity_rows ovx ovj p)).
  assert (map (@r_id V) rows = IB ++ IP ++ IT ++ ID ++ IC ++ IU) as Er.
  { rewrite <- E, !map_app. rewrite boards_ids, points_ids, Mt. reflexivity. }
  assert (length IB = Z.to_nat (lenZ (p_boards p) * (2 * (p_w p * p_h p)))) as LB.
  { unfold IB. rewrite (flat_const_len _ (Z.to_nat (2 * (p_w p * p_h p)))).
    - rewrite zrange_length. unfold lenZ. nia.
    - intro. rewrite (flat_const_len _ 2) by reflexivity. rewrite zrange_length. lia. }
  assert (length IP = Z.to_nat (lenZ (p_points p) * 2)) as LP.
  { unfold IP. rewrite (flat_const_len _ 2) by reflexivity. rewrite zrange_length. unfold lenZ. lia. }
  assert (Z.of_nat (length IT) = tri_sum fs) as LT. { unfold IT. rewrite map_length. apply all_pairs_length. }
  assert (length ID = Z.to_nat (if do_reg (p_sel p) && do_dist (p_sel p) then p_Nci p * Ndist else 0)) as LD.
  { unfold ID. rewrite map_length. apply length_lenZ. pose proof (proj1 (reg_dist_len ovx ovj p Hok)) as R. rewrite R. reflexivity. }
  assert (length IC = Z.to_nat (if do_reg (p_sel p) && do_core (p_sel p) then p_Nci p * 2 else 0)) as LC.
  { unfold IC. rewrite map_length. apply length_lenZ. pose proof (proj1 (reg_center_len ovx ovj p Hok)) as R. rewrite R. reflexivity. }
  assert (0 <= p_w p /\ 0 <= p_h p /\ 0 <= p_Nci p) as (Hw & Hh & Hc) by (destruct Hok as (_ & ? & _ & _ & _ & ? & ?); auto).
  unfold row. rewrite Er. clear row Er.
  assert (Nobs_board p = lenZ (p_boards p)) as EB by reflexivity. assert (Nobs_point p = lenZ (p_points p)) as EP by reflexivity.
  split; [|split; [|split]].
  - intros i ipt ixy Hi Hp Hx. unfold measurement_index_boards. rewrite EB. destruct (lenZ (p_boards p) <=? 0) eqn:E0; [unfold lenZ in E0; lia|].
    rewrite nboards_i_eq by lia. replace (Z.to_nat _) with (0 + Z.to_nat (i * (2 * (p_w p * p_h p)) + 2 * ipt + ixy))%nat by lia.
    apply (nth_mid [] IB). unfold IB.
    replace (Z.to_nat _) with (Z.to_nat i * Z.to_nat (2 * (p_w p * p_h p)) + (Z.to_nat ipt * 2 + Z.to_nat ixy))%nat by nia.
    eapply nth_flat_const.
    + intros x _. rewrite (flat_const_len _ 2) by reflexivity. rewrite zrange_length. lia.
    + rewrite nth_zrange by (unfold lenZ; lia). reflexivity.
    + cbn [Z.add]. rewrite Z2Nat.id by lia. eapply nth_flat_const; [reflexivity|rewrite nth_zrange by lia; reflexivity|].
      cbn [Z.add]. rewrite Z2Nat.id by lia. now apply (two (R_board i ipt)).
  - intros i ixy Hi Hx. unfold measurement_index_points. rewrite EP. destruct (lenZ (p_points p) <=? 0) eqn:E0; [unfold lenZ in E0; lia|].
    rewrite nboards_eq, EB by auto. replace (Z.to_nat _) with (length IB + (Z.to_nat i * 2 + Z.to_nat ixy))%nat by (rewrite LB; unfold lenZ; nia).
    apply nth_mid. unfold IP. eapply nth_flat_const; [reflexivity|rewrite nth_zrange by (unfold lenZ; lia); reflexivity|].
    cbn [Z.add]. rewrite Z2Nat.id by lia. now apply (two (R_point i)).
  - intros s k f first n o0 o1 Es Hk.
    assert (s = lenZ (p_boards p) * (2 * (p_w p * p_h p)) + lenZ (p_points p) * 2) as ->.
    { destruct fs as [|f0 fs']; [destruct k; discriminate Hk|].
      pose proof (mindex_closed p (f0 :: fs') (MI_tri 0) Hok HF ltac:(cbn [mpresent length]; lia)) as X. cbn [measurement_index] in X. rewrite Es in X.
      apply Some_inj in X. rewrite X, EB, EP. cbn. unfold tri_sum. cbn. lia. }
    replace (Z.to_nat _) with (length (IB ++ IP) + k)%nat by (rewrite app_length, LB, LP; unfold lenZ; nia).
    rewrite (app_assoc IB IP). apply nth_mid. unfold IT. rewrite nth_error_map, Hk. reflexivity.
  - intros s Es.
    assert (0 < mitem_size p fs MI_reg -> s = lenZ (p_boards p) * (2 * (p_w p * p_h p)) + lenZ (p_points p) * 2 + tri_sum fs) as Hs.
    { intro Hm. pose proof (mindex_closed p fs MI_reg Hok HF Hm) as X. cbn [measurement_index] in X. rewrite Es in X. apply Some_inj in X. now rewrite X. }
    assert (forall k, 0 <= k -> 0 < mitem_size p fs MI_reg -> Z.to_nat (s + k) = (length ((IB ++ IP) ++ IT) + Z.to_nat k)%nat) as K.
    { intros k Hk Hm. rewrite (Hs Hm), !app_length, LB, LP. pose proof (tri_sum_nonneg fs). unfold lenZ. nia. }
    assert (IB ++ IP ++ IT ++ ID ++ IC ++ IU = ((IB ++ IP) ++ IT) ++ ID ++ IC ++ IU) as -> by now rewrite !app_assoc.
    split; [|split].
    + intros Hr Hd.
      assert (forall icam j, 0 <= icam < p_Nci p -> 0 <= j < Ndist -> 0 < mitem_size p fs MI_reg) as Pos.
      { intros icam j Hi Hj. cbn [mitem_size]. rewrite Hr, Hd. fold Ndist. assert (0 < p_Nci p * Ndist) by nia. rewrite Z.mul_add_distr_l. destruct (do_core (p_sel p)), (do_unity (p_sel p) && do_ext (p_sel p) && (0 <? p_Nce p)); lia. }
      assert (splined (p_lens p) = false -> forall icam j, 0 <= icam < p_Nci p -> 0 <= j < Ndist ->
         nth_error (((IB ++ IP) ++ IT) ++ ID ++ IC ++ IU) (Z.to_nat (s + icam * Ndist + j)) = Some (R_reg_dist icam j)) as NS.
      { intros Hn icam j Hi Hj. rewrite <- Z.add_assoc, K by (try eapply Pos; eauto; nia). apply nth_mid. unfold ID.
        rewrite reg_dist_ids_ns by auto. replace (Z.to_nat _) with (Z.to_nat icam * Z.to_nat Ndist + Z.to_nat j)%nat by nia.
        eapply nth_flat_const.
        - intros x _. rewrite map_length, zrange_length. reflexivity.
        - rewrite nth_zrange by lia. reflexivity.
        - cbn [Z.add]. rewrite Z2Nat.id by lia. rewrite nth_error_map, nth_zrange by (fold Ndist; lia). cbn. now rewrite Z2Nat.id by lia. }
      destruct (p_lens p) as [| | | | | | | | | |c] eqn:El; try (exact (NS eq_refl)).
      intros icam ix iy k Hi Hx Hy Hk. pose proof (cell_in_grid c ix iy Hx Hy) as Hg.
      assert (Ndist = 2 * (sp_Ny c * sp_Nx c)) as EN by (unfold Ndist, num_params; ring).
      assert (0 <= 2 * (iy * sp_Nx c + ix) + k < Ndist) as Hj by nia.
      replace (s + icam * Ndist + 2 * (iy * sp_Nx c + ix) + k) with (s + (icam * Ndist + (2 * (iy * sp_Nx c + ix) + k))) by ring.
      rewrite K by (try eapply Pos; eauto; nia). apply nth_mid. unfold ID. rewrite (reg_dist_ids_spl ovx ovj p c) by auto.
      replace (Z.to_nat _) with (Z.to_nat icam * Z.to_nat Ndist + (Z.to_nat iy * Z.to_nat (sp_Nx c * 2) + (Z.to_nat ix * 2 + Z.to_nat k)))%nat.
      2: { apply Nat2Z.inj. rewrite Z2Nat.id by (apply Z.add_nonneg_nonneg; [apply Z.mul_nonneg_nonneg; lia|lia]).
           rewrite !Nat2Z.inj_add, !Nat2Z.inj_mul, !Z2Nat.id by lia. change (Z.of_nat 2) with 2. ring. }
      eapply nth_flat_const.
      * intros x _. rewrite (flat_const_len _ (Z.to_nat (sp_Nx c * 2))).
        -- rewrite zrange_length, EN, <- Z2Nat.inj_mul by lia. f_equal. ring.
        -- intro. rewrite (flat_const_len _ 2) by reflexivity. rewrite zrange_length. lia.
      * rewrite nth_zrange by lia. reflexivity.
      * cbn [Z.add]. rewrite Z2Nat.id by lia. eapply nth_flat_const.
        -- intros x _. rewrite (flat_const_len _ 2) by reflexivity. rewrite zrange_length. lia.
        -- rewrite nth_zrange by lia. reflexivity.
        -- cbn [Z.add]. rewrite (Z2Nat.id iy) by lia. eapply nth_flat_const; [reflexivity|rewrite nth_zrange by lia; reflexivity|].
           cbn [Z.add]. rewrite (Z2Nat.id ix) by lia. now apply (two (R_reg_splined icam (2 * (iy * sp_Nx c + ix)))).
    + intros Hr Hc' icam ixy Hi Hx.
      assert (0 < mitem_size p fs MI_reg) as Pos.
      { cbn [mitem_size]. rewrite Hr, Hc'. fold Ndist. assert (0 <= p_Nci p * Ndist) by (unfold Ndist; nia). rewrite Z.mul_add_distr_l. destruct (do_dist (p_sel p)), (do_unity (p_sel p) && do_ext (p_sel p) && (0 <? p_Nce p)); lia. }
      rewrite Hr in LD. cbn [andb] in LD.
      replace (s + (if do_dist (p_sel p) then p_Nci p * Ndist else 0) + 2 * icam + ixy) with (s + ((if do_dist (p_sel p) then p_Nci p * Ndist else 0) + 2 * icam + ixy)) by ring.
      rewrite K by (try exact Pos; destruct (do_dist _); nia).
      rewrite (app_assoc ((IB ++ IP) ++ IT) ID).
      replace (_ + _)%nat with (length (((IB ++ IP) ++ IT) ++ ID) + (Z.to_nat icam * 2 + Z.to_nat ixy))%nat.
      2: { rewrite (app_length _ ID), LD. destruct (do_dist _); nia. }
      apply nth_mid. unfold IC. rewrite reg_center_ids by auto. eapply nth_flat_const; [reflexivity|rewrite nth_zrange by lia; reflexivity|].
      cbn [Z.add]. rewrite Z2Nat.id by lia. now apply (two (R_reg_center icam)).
    + intro Hu. assert (0 < mitem_size p fs MI_reg) as Pos.
      { cbn [mitem_size]. rewrite Hu. fold Ndist. assert (0 <= p_Nci p * Ndist) by (unfold Ndist; nia). rewrite Z.mul_add_distr_l. destruct (do_reg (p_sel p)), (do_dist (p_sel p)), (do_core (p_sel p)); lia. }
      assert (0 <= Ndist) by (unfold Ndist; lia).
      rewrite K by (try exact Pos; destruct (do_reg _), (do_dist _), (do_core _); nia).
      rewrite (app_assoc ((IB ++ IP) ++ IT) ID), (app_assoc _ IC). rewrite <- (app_nil_r IU), (app_nil_r IU).
      replace (_ + _)%nat with (length ((((IB ++ IP) ++ IT) ++ ID) ++ IC) + 0)%nat.
      2: { rewrite (app_length _ IC), (app_length _ ID), LD, LC. destruct (do_reg _), (do_dist _), (do_core _); cbn [andb]; nia. }
      rewrite <- (app_nil_r IU). apply nth_mid. unfold IU, unity_rows. rewrite Hu. reflexivity.
Qed.
Print Assumptions C58_rows_in_place.

From Verif Require Import C_Callback.
Example ex_rows : problem_ok spl_problem /\ tri_supported spl_problem /\ tri_features (p_tri spl_problem) [] /\
  exists rows, spl_rows (fun _ => 1) = Some rows /\ nth_error (map (@r_id Z) rows) 352 = Some R_unity /\ measurement_index_reg spl_problem = Some 28.
Proof.
  destruct spl_problem_ok as (A & B & C & D & E & F). split; [auto|]. split; [auto|]. split; [auto|].
  eexists. split; [vm_compute; reflexivity|]. split; vm_compute; reflexivity.
Qed.
Example ex_rows_tri : exists rows, callback_rows 0 (fun z => 0 <=? z) (fun z => z <=? 0) (fun _ => 1) (fun _ _ => 1) (fun _ _ => (0,0)) (fun _ => (0,0))
     tri_problem (fun _ => 1) (fun _ => 1) = Some rows /\ map (@r_id Z) rows = [R_tri 0 1; R_tri 0 2; R_tri 1 2; R_unity].
Proof. eexists. split; vm_compute; reflexivity. Qed.
