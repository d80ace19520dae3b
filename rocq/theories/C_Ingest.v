(** C51: ingest_packed_state() writes the optimized quantities, and only those. *)
From Coq Require Import ZArith List Bool Reals Lia Lra ZifyBool.
From Verif Require Import M_Lens M_Layout S_Layout P_Layout M_Pack S_Pack P_Pack M_Ingest C_Layout.
Import ListNotations.
Open Scope Z_scope.

(** ** When it works *)
(** all of the intrinsics of each camera are optimized; or there is one camera *)
Definition whole_intrinsics (p : problem) : Prop :=
  (do_core (p_sel p) = true /\ do_dist (p_sel p) = true) \/
  (do_core (p_sel p) = false /\ do_dist (p_sel p) = false) \/
  p_Nci p = 0 \/
  (p_Nci p = 1 /\ (do_dist (p_sel p) = true \/ 4 < num_params (p_lens p))) \/
  (do_core (p_sel p) = false /\ num_params (p_lens p) = 4).
(** if there are points to optimize, there are fixed points *)
Definition some_point_fixed (p : problem) : Prop :=
  do_frames (p_sel p) = true -> p_Npoints p = 0 \/ 0 < p_Npoints_fixed p.

Section Proof.
Context (p : problem) (Hok : problem_ok p).
Variable b : Z -> R.

Lemma index_some : forall it, optimized p it -> index (state_index p it) = Some (state_index p it).
Proof. intros it H. destruct (state_in_range p it Hok H) as (A & _). unfold index. destruct (0 <=? state_index p it) eqn:E; [reflexivity|lia]. Qed.
Lemma index_none : forall it, ~ optimized p it -> index (state_index p it) = None.
Proof. intros it H. apply (state_absent p it Hok) in H. unfold index. rewrite H. reflexivity. Qed.
Lemma slice_inside : forall n i k, 0 <= i -> 0 <= k -> i + k <= n -> slice_size n (Some i) (Some (i + k)) = k.
Proof. intros n i k A B C. unfold slice_size, limit. destruct (i <? 0) eqn:E; [lia|]. destruct (i + k <? 0) eqn:F; lia. Qed.
Lemma elt_id : forall n i, 0 <= i < n -> elt n i = i.
Proof. intros n i H. unfold elt. destruct (n =? 1) eqn:E; lia. Qed.
Lemma same_size : forall n, assignable n n = true.
Proof. intro n. unfold assignable. now rewrite Z.eqb_refl. Qed.

(** what each block does *)
Definition writes (kind : loc -> bool) (r : outcome) (m : loc -> R) : Prop :=
  exists m', r = Done m' /\
  (forall it j, kind (item_loc p it j) = true -> optimized p it -> 0 <= j < item_size p it -> m' (item_loc p it j) = b (state_index p it + j)) /\
  (forall l, kind l = false \/ locked p l -> m' l = m l).
Definition is_intr l := match l with LIntr _ => true | _ => false end.
Definition is_ext l := match l with LExt _ => true | _ => false end.
Definition is_frame l := match l with LFrame _ => true | _ => false end.
Definition is_point l := match l with LPoint _ => true | _ => false end.
Definition is_warp l := match l with LWarp _ => true | _ => false end.

Ltac regions := pose proof (regions_ordered p Hok) as HR.
Lemma ext_ok : forall m, writes is_ext (ingest_extrinsics p b m) m.
Proof.
  intro m. regions. unfold ingest_extrinsics. destruct Hok as (_ & _ & Hn & _).
  assert (optimized p (SI_ext 0) \/ ~ optimized p (SI_ext 0)) as [O|O] by (cbn; destruct (do_ext (p_sel p)); [|right; easy]; destruct (Z.lt_ge_cases 0 (p_Nce p)); [left; lia|right; lia]).
  - pose proof (index_some _ O) as E. cbn [state_index] in E. rewrite E. pose proof (state_index_closed p _ Hok O) as C. cbn [state_index] in C. rewrite C.
    cbn [optimized] in O. destruct O as (O1 & O2).
    assert (num_states_extrinsics p = p_Nce p * 6) as Ns by (unfold num_states_extrinsics; rewrite O2; ring).
    rewrite slice_inside by (unfold num_states; lia). rewrite Ns, same_size. cbn [negb]. eexists. split; [reflexivity|]. split.
    + intros [i|i|i|i|] j K Oi Hj; try discriminate. rewrite (state_index_closed p _ Hok Oi). cbn [item_loc item_size optimized] in *.
      destruct ((0 <=? 6 * i + j) && (6 * i + j <? p_Nce p * 6))%bool eqn:F; [|lia]. rewrite elt_id by lia. f_equal. lia.
    + intros [i|i|i|i|i] [K|K]; try reflexivity; try discriminate. cbn in K. rewrite O2 in K.
      destruct ((0 <=? i) && (i <? p_Nce p * 6))%bool eqn:F; [|reflexivity]. destruct K as [K|K]; [lia|discriminate].
  - pose proof (index_none _ O) as E. cbn [state_index] in E. rewrite E. eexists. split; [reflexivity|]. split; [|reflexivity].
    intros [i|i|i|i|] j K Oi Hj; try discriminate. exfalso. apply O. cbn in *. destruct Oi. split; [lia|assumption].
Qed.
Lemma frames_ok : forall m, writes is_frame (ingest_frames p b m) m.
Proof.
  intro m. regions. unfold ingest_frames. destruct Hok as (_ & _ & _ & Hn & _).
  assert (optimized p (SI_frame 0) \/ ~ optimized p (SI_frame 0)) as [O|O] by (cbn; destruct (do_frames (p_sel p)); [|right; easy]; destruct (Z.lt_ge_cases 0 (p_Nframes p)); [left; lia|right; lia]).
  - pose proof (index_some _ O) as E. cbn [state_index] in E. rewrite E. pose proof (state_index_closed p _ Hok O) as C. cbn [state_index] in C. rewrite C.
    cbn [optimized] in O. destruct O as (O1 & O2).
    assert (num_states_frames p = p_Nframes p * 6) as Ns by (unfold num_states_frames; rewrite O2; ring).
    rewrite slice_inside by (unfold num_states; lia). rewrite Ns, same_size. cbn [negb]. eexists. split; [reflexivity|]. split.
    + intros [i|i|i|i|] j K Oi Hj; try discriminate. rewrite (state_index_closed p _ Hok Oi). cbn [item_loc item_size optimized] in *.
      destruct ((0 <=? 6 * i + j) && (6 * i + j <? p_Nframes p * 6))%bool eqn:F; [|lia]. rewrite elt_id by lia. f_equal. lia.
    + intros [i|i|i|i|i] [K|K]; try reflexivity; try discriminate. cbn in K. rewrite O2 in K.
      destruct ((0 <=? i) && (i <? p_Nframes p * 6))%bool eqn:F; [|reflexivity]. destruct K as [K|K]; [lia|discriminate].
  - pose proof (index_none _ O) as E. cbn [state_index] in E. rewrite E. eexists. split; [reflexivity|]. split; [|reflexivity].
    intros [i|i|i|i|] j K Oi Hj; try discriminate. exfalso. apply O. cbn in *. destruct Oi. split; [lia|assumption].
Qed.
Lemma points_ok : some_point_fixed p -> forall m, writes is_point (ingest_points p b m) m.
Proof.
  intros SF m. regions. unfold ingest_points. destruct Hok as (_ & _ & _ & _ & Hn & _).
  assert (optimized p (SI_point 0) \/ ~ optimized p (SI_point 0)) as [O|O] by (cbn; destruct (do_frames (p_sel p)); [|right; easy]; destruct (Z.lt_ge_cases 0 (p_Npoints p - p_Npoints_fixed p)); [left; lia|right; lia]).
  - pose proof (index_some _ O) as E. cbn [state_index] in E. rewrite E. pose proof (state_index_closed p _ Hok O) as C. cbn [state_index] in C. rewrite C.
    cbn [optimized] in O. destruct O as (O1 & O2). specialize (SF O2).
    assert (num_states_points p = (p_Npoints p - p_Npoints_fixed p) * 3) as Ns by (unfold num_states_points; rewrite O2; ring).
    assert (slice_size (p_Npoints p * 3) None (Some (- p_Npoints_fixed p * 3)) = (p_Npoints p - p_Npoints_fixed p) * 3) as Na.
    { unfold slice_size, limit. destruct (- p_Npoints_fixed p * 3 <? 0) eqn:F; lia. }
    rewrite slice_inside by (unfold num_states; lia). rewrite Na, Ns, same_size. cbn [negb]. eexists. split; [reflexivity|]. split.
    + intros [i|i|i|i|] j K Oi Hj; try discriminate. rewrite (state_index_closed p _ Hok Oi). cbn [item_loc item_size optimized] in *.
      destruct ((0 <=? 3 * i + j) && (3 * i + j <? (p_Npoints p - p_Npoints_fixed p) * 3))%bool eqn:F; [|lia]. rewrite elt_id by lia. f_equal. lia.
    + intros [i|i|i|i|i] [K|K]; try reflexivity; try discriminate. cbn in K. rewrite O2 in K.
      destruct ((0 <=? i) && (i <? (p_Npoints p - p_Npoints_fixed p) * 3))%bool eqn:F; [|reflexivity]. destruct K as [K|K]; [lia|discriminate].
  - pose proof (index_none _ O) as E. cbn [state_index] in E. rewrite E. eexists. split; [reflexivity|]. split; [|reflexivity].
    intros [i|i|i|i|] j K Oi Hj; try discriminate. exfalso. apply O. cbn in *. destruct Oi. split; [lia|assumption].
Qed.
Lemma warp_ok : forall m, writes is_warp (ingest_warp p b m) m.
Proof.
  intro m. regions. unfold ingest_warp.
  assert (optimized p SI_warp \/ ~ optimized p SI_warp) as [O|O] by (cbn; destruct (do_warp (p_sel p)); [|right; easy]; destruct (p_boards p); [right; easy|left; easy]).
  - pose proof (index_some _ O) as E. cbn [state_index] in E. rewrite E. pose proof (state_index_closed p _ Hok O) as C. cbn [state_index] in C. rewrite C.
    pose proof (proj2 (has_warp_iff p) O) as W.
    assert (num_states_warp p = 2) as Ns by (unfold num_states_warp; now rewrite W).
    rewrite slice_inside by (unfold num_states; lia). rewrite Ns. cbn [assignable negb Z.eqb Pos.eqb orb]. eexists. split; [reflexivity|]. split.
    + intros [i|i|i|i|] j K Oi Hj; try discriminate. rewrite (state_index_closed p _ Hok Oi). cbn [item_loc item_size optimized] in *.
      destruct ((0 <=? j) && (j <? 2))%bool eqn:F; [|lia]. rewrite elt_id by lia. f_equal.
    + intros [i|i|i|i|i] [K|K]; try reflexivity; try discriminate. cbn in K. cbn in O. destruct O as (O1 & O2). rewrite O1 in K.
      destruct ((0 <=? i) && (i <? 2))%bool eqn:F; [|reflexivity]. destruct K as [K|[K|K]]; [lia|discriminate|contradiction].
  - pose proof (index_none _ O) as E. cbn [state_index] in E. rewrite E. eexists. split; [reflexivity|]. split; [|reflexivity].
    intros [i|i|i|i|] j K Oi Hj; try discriminate. contradiction.
Qed.
Lemma intr_ok : whole_intrinsics p -> forall m, writes is_intr (ingest_intrinsics p b m) m.
Proof.
  intros WI m. regions. unfold ingest_intrinsics. destruct Hok as (Hl & Hn & _). pose proof (num_params_ge4 _ Hl) as G4.
  assert (optimized p (SI_intr 0) \/ ~ optimized p (SI_intr 0)) as [O|O].
  { cbn. destruct (Z.lt_ge_cases 0 (p_Nci p)); [|right; lia]. destruct (do_core (p_sel p)); [left; split; [lia|now left]|].
    destruct (do_dist (p_sel p)); [|right; intros (_ & [[=]|([=] & _)])]. destruct (Z.lt_ge_cases 4 (num_params (p_lens p))); [left; split; [lia|now right]|right; intros (_ & [[=]|(_ & Q)]); lia]. }
  - pose proof (index_some _ O) as E. cbn [state_index] in E. rewrite E. pose proof (state_index_closed p _ Hok O) as C. cbn [state_index] in C. rewrite C.
    set (N := num_params (p_lens p)) in *. cbn [has_core].
    set (lo := slice_start _ _). set (cols := slice_size N _ _).
    assert (cols = item_size p (SI_intr 0) /\ lo = (if do_core (p_sel p) then 0 else 4) /\ (cols = N \/ p_Nci p = 1)) as (Hc & Hlo & Hv).
    { cbn [optimized] in O. unfold cols, lo, slice_start, slice_size, limit. cbn [item_size]. fold N. unfold whole_intrinsics in WI. fold N in WI.
      change (4 <? 0) with false. destruct (- (N - 4) <? 0) eqn:F; destruct (do_core (p_sel p)), (do_dist (p_sel p)); cbv iota;
        destruct WI as [(W1 & W2)|[(W1 & W2)|[W|[(W1 & W2)|(W1 & W2)]]]]; try discriminate; destruct O as (O1 & O2); try (destruct O2 as [[=]|(O2 & O3)]); try discriminate;
        try (destruct W2 as [[=]|W2]); change (4 <? 0) with false; rewrite ?F; repeat split; lia. }
    assert (num_states_intrinsics p = p_Nci p * cols) as Ns by (rewrite nsi_eq, Hc; reflexivity).
    replace (slice_size (num_states p) (Some (0 * item_size p (SI_intr 0))) (Some (num_states_intrinsics p))) with (p_Nci p * cols).
    2: { rewrite <- Ns. symmetry. rewrite <- (Z.add_0_l (num_states_intrinsics p)) at 1. apply slice_inside; unfold num_states; lia. }
    rewrite same_size. cbn [negb].
    assert ((cols =? N) || (p_Nci p =? 1) || (cols =? 0) = true)%bool as ->.
    { destruct Hv as [-> | ->]; [now rewrite Z.eqb_refl|]. now rewrite orb_true_r. }
    eexists. split; [reflexivity|]. split.
    + intros [i|i|i|i|] j K Oi Hj; try discriminate. rewrite (state_index_closed p _ Hok Oi). cbn [item_loc] in *. fold N.
      change (item_size p (SI_intr i)) with (item_size p (SI_intr 0)) in *. rewrite <- Hc in *. cbn [optimized] in Oi. destruct Oi as (Oi & _).
      set (j' := if do_core (p_sel p) then j else j + 4).
      assert (0 <= j' < N /\ lo <= j' < lo + cols /\ j' - lo = j) as (J1 & J2 & J3).
      { unfold j'. clear - Hlo Hc Hj G4. rewrite Hlo. rewrite Hc in *. cbn [item_size] in *. fold N. fold N in Hj. destruct (do_core (p_sel p)), (do_dist (p_sel p)); lia. }
      rewrite mod_lin by lia. assert ((i * N + j') / N = i) as -> by (symmetry; apply (Z.div_unique _ _ _ j'); [left; lia|ring]).
      destruct (_ && _ && _ && _)%bool eqn:F; [|exfalso; nia]. rewrite elt_id by nia. f_equal. lia.
    + intros [i|i|i|i|i] [K|K]; try reflexivity; try discriminate. cbn in K. fold N in K.
      destruct (_ && _ && _ && _)%bool eqn:F; [|reflexivity]. exfalso. rewrite Hlo, Hc in F. cbn [item_size] in F. fold N in F.
      pose proof (Z.mod_pos_bound i N ltac:(lia)). destruct (do_core (p_sel p)), (do_dist (p_sel p)); lia.
  - pose proof (index_none _ O) as E. cbn [state_index] in E. rewrite E. eexists. split; [reflexivity|]. split; [|reflexivity].
    intros [i|i|i|i|] j K Oi Hj; try discriminate. exfalso. apply O. cbn in *. destruct Oi. split; [lia|assumption].
Qed.
End Proof.

Lemma in_dec_loc : forall (l : loc) prog, {In l prog} + {~ In l prog}.
Proof. intros. apply in_dec. exact loc_eq_dec. Qed.
Lemma unlocked : forall p, problem_ok p -> forall l, locked p l \/ exists it j, optimized p it /\ 0 <= j < item_size p it /\ l = item_loc p it j.
Proof.
  intros p Hok l. destruct (in_dec_loc l (map fst (pack_struct_prog p))) as [H|H].
  - right. apply In_nth_error in H. destruct H as (k & H). rewrite nth_error_map in H. destruct (nth_error (pack_struct_prog p) k) as [[l' sc]|] eqn:E; [|discriminate].
    injection H as <-. destruct (prog_entry p Hok _ _ _ E) as (it & j & A & B & _ & C & _). eauto.
  - left. now apply locked_iff.
Qed.
Lemma unpack_vec_val : forall p, problem_ok p -> forall b it j, optimized p it -> 0 <= j < item_size p it ->
  unpack_vec p b (state_index p it + j) = (b (state_index p it + j)%Z * scale (scale_of p (item_loc p it j)))%R.
Proof.
  intros p Hok b it j Ho Hj. pose proof (state_in_range p it Hok Ho) as (R1 & R2).
  destruct (pack_vec_val p Hok b (state_index p it + j) ltac:(lia)) as (sc & E & _ & U).
  rewrite nth_error_map, (prog_position p Hok it j Ho Hj) in E. cbn in E. injection E as <-. exact U.
Qed.

(** * The theorems *)
(** If all or none of the intrinsics are optimized (or there is one camera)
    and some point is fixed (or there are none), then any packed state is
    absorbed: each optimized quantity is given its value from the state (at
    its index, times its scale); each locked one is as before.  Missing, and
    false (below): the other problems. *)
Theorem C51_ingest_partial : forall p b m, problem_ok p -> 0 < num_states p -> whole_intrinsics p -> some_point_fixed p ->
  exists m', ingest_packed_state p b (num_states p) m = Done m' /\
  (forall it j, optimized p it -> 0 <= j < item_size p it ->
     m' (item_loc p it j) = (b (state_index p it + j)%Z * scale (scale_of p (item_loc p it j)))%R) /\
  (forall l, locked p l -> m' l = m l).
Proof.
  intros p b m Hok Hn WI SF. unfold ingest_packed_state. fold (num_states p). rewrite Z.eqb_refl. cbn [negb].
  unfold unpack_state. assert (num_states p =? 0 = false) as -> by lia. set (u := unpack_vec p b).
  destruct (intr_ok p Hok u WI m) as (m1 & -> & A1 & B1). cbn [bind].
  destruct (ext_ok p Hok u m1) as (m2 & -> & A2 & B2). cbn [bind].
  destruct (frames_ok p Hok u m2) as (m3 & -> & A3 & B3). cbn [bind].
  destruct (points_ok p Hok u SF m3) as (m4 & -> & A4 & B4). cbn [bind].
  destruct (warp_ok p Hok u m4) as (m5 & -> & A5 & B5). exists m5. split; [reflexivity|]. split.
  - intros it j Ho Hj. rewrite <- unpack_vec_val by assumption. fold u.
    destruct it as [i|i|i|i|].
    + rewrite B5, B4, B3, B2 by (left; reflexivity). now apply A1.
    + rewrite B5, B4, B3 by (left; reflexivity). now apply A2.
    + rewrite B5, B4 by (left; reflexivity). now apply A3.
    + rewrite B5 by (left; reflexivity). now apply A4.
    + now apply A5.
  - intros l L. rewrite B5, B4, B3, B2, B1 by (right; exact L). reflexivity.
Qed.
Print Assumptions C51_ingest_partial.
(** In particular what was packed from [s] makes the optimized quantities those of [s] *)
Theorem C51_reproduces_partial : forall p s b0 m, problem_ok p -> 0 < num_states p -> whole_intrinsics p -> some_point_fixed p ->
  exists m', ingest_packed_state p (pack_struct p s b0) (num_states p) m = Done m' /\
  forall l, (locked p l -> m' l = m l) /\ (~ locked p l -> m' l = s l).
Proof.
  intros p s b0 m Hok Hn WI SF. destruct (C51_ingest_partial p (pack_struct p s b0) m Hok Hn WI SF) as (m' & E & A & B).
  exists m'. split; [exact E|]. intro l. split; [apply B|]. intro L. destruct (unlocked p Hok l) as [K|(it & j & Ho & Hj & ->)]; [contradiction|].
  rewrite A, (pack_struct_val p Hok) by assumption. pose proof (scale_pos (scale_of p (item_loc p it j))). field. lra.
Qed.
Print Assumptions C51_reproduces_partial.
(** A state of the wrong size is refused, and changes nothing *)
Theorem C51_wrong_size : forall p b n m, n <> num_states p -> ingest_packed_state p b n m = Raised m.
Proof. intros p b n m H. unfold ingest_packed_state. fold (num_states p). destruct (n =? num_states p) eqn:E; [lia|reflexivity]. Qed.
Print Assumptions C51_wrong_size.

(** ** When it does not work *)
(** More than one camera, with either only the core or only the distortions
    optimized: the intrinsics are silently left as they were *)
Theorem C51_partial_intrinsics_refuted : forall p b m, problem_ok p -> 1 < p_Nci p -> 4 < num_params (p_lens p) ->
  do_core (p_sel p) <> do_dist (p_sel p) -> some_point_fixed p ->
  exists m', ingest_packed_state p b (num_states p) m = Done m' /\ (forall i, m' (LIntr i) = m (LIntr i)) /\ exists i, ~ locked p (LIntr i).
Proof.
  intros p b m Hok Hc H4 Hs SF. unfold ingest_packed_state. fold (num_states p). rewrite Z.eqb_refl. cbn [negb].
  assert (0 < item_size p (SI_intr 0) /\ item_size p (SI_intr 0) < num_params (p_lens p)) as (I0 & I1).
  { cbn. destruct (do_core (p_sel p)), (do_dist (p_sel p)); try congruence; lia. }
  pose proof (regions_ordered p Hok) as HR. pose proof (nsi_eq p) as Ne.
  unfold unpack_state. assert (num_states p =? 0 = false) as -> by (unfold num_states; nia). set (u := unpack_vec p b).
  assert (ingest_intrinsics p u m = Done m) as ->.
  { unfold ingest_intrinsics.
    assert (optimized p (SI_intr 0)) as O.
    { cbn. split; [lia|]. destruct (do_core (p_sel p)); [now left|]. destruct (do_dist (p_sel p)); [now right|congruence]. }
    pose proof (index_some p Hok _ O) as E. cbn [state_index] in E. rewrite E. pose proof (state_index_closed p _ Hok O) as C. cbn [state_index] in C. rewrite C.
    set (N := num_params (p_lens p)) in *. set (lo := slice_start _ _). set (cols := slice_size N _ _).
    assert (cols = item_size p (SI_intr 0)) as Hc'.
    { unfold cols, slice_size, limit. cbn [item_size has_core] in *. fold N. fold N in I0, I1. change (4 <? 0) with false.
      destruct (- (N - 4) <? 0) eqn:F; destruct (do_core (p_sel p)), (do_dist (p_sel p)); try congruence; change (4 <? 0) with false; rewrite ?F; cbv iota; lia. }
    replace (slice_size (num_states p) (Some (0 * item_size p (SI_intr 0))) (Some (num_states_intrinsics p))) with (p_Nci p * cols).
    2: { rewrite Hc', <- Ne. symmetry. rewrite <- (Z.add_0_l (num_states_intrinsics p)) at 1. apply slice_inside; unfold num_states; lia. }
    rewrite same_size. cbn [negb]. assert ((cols =? N) || (p_Nci p =? 1) || (cols =? 0) = false)%bool as -> by lia. reflexivity. }
  cbn [bind].
  destruct (ext_ok p Hok u m) as (m2 & -> & A2 & B2). cbn [bind].
  destruct (frames_ok p Hok u m2) as (m3 & -> & A3 & B3). cbn [bind].
  destruct (points_ok p Hok u SF m3) as (m4 & -> & A4 & B4). cbn [bind].
  destruct (warp_ok p Hok u m4) as (m5 & -> & A5 & B5). exists m5. split; [reflexivity|]. split.
  - intro i. rewrite B5, B4, B3, B2 by (left; reflexivity). reflexivity.
  - assert (forall j, 0 <= j < num_params (p_lens p) -> 0 <= j < p_Nci p * num_params (p_lens p)) as In by (intros; nia).
    destruct (do_core (p_sel p)) eqn:Ec, (do_dist (p_sel p)) eqn:Ed; try congruence.
    + exists 0. unfold locked. rewrite Ec, Ed. rewrite Z.mod_0_l by lia. specialize (In 0). intuition (try discriminate; try lia).
    + exists 4. unfold locked. rewrite Ec, Ed. rewrite Z.mod_small by lia. specialize (In 4). intuition (try discriminate; try lia).
Qed.
Print Assumptions C51_partial_intrinsics_refuted.
(** Points to optimize, none of them fixed: an exception, after the poses have been changed *)
Theorem C51_no_fixed_points_refuted : forall p b m, problem_ok p -> whole_intrinsics p ->
  do_frames (p_sel p) = true -> 0 < p_Npoints p -> p_Npoints_fixed p = 0 ->
  exists m', ingest_packed_state p b (num_states p) m = Raised m' /\
  (forall i, 0 <= i < p_Nframes p -> forall j, 0 <= j < 6 -> m' (LFrame (6 * i + j)) = (b (state_index p (SI_frame i) + j)%Z * scale (scale_of p (LFrame (6 * i + j)%Z)))%R) /\
  (forall i, m' (LPoint i) = m (LPoint i)).
Proof.
  intros p b m Hok WI Df Np Nf. unfold ingest_packed_state. fold (num_states p). rewrite Z.eqb_refl. cbn [negb].
  pose proof (regions_ordered p Hok) as HR.
  assert (num_states_points p = p_Npoints p * 3) as Ns by (unfold num_states_points; rewrite Df; lia).
  unfold unpack_state. assert (num_states p =? 0 = false) as -> by (unfold num_states; lia). set (u := unpack_vec p b).
  destruct (intr_ok p Hok u WI m) as (m1 & -> & A1 & B1). cbn [bind].
  destruct (ext_ok p Hok u m1) as (m2 & -> & A2 & B2). cbn [bind].
  destruct (frames_ok p Hok u m2) as (m3 & -> & A3 & B3). cbn [bind].
  assert (ingest_points p u m3 = Raised m3) as ->.
  { unfold ingest_points. assert (optimized p (SI_point 0)) as O by (cbn; split; [lia|exact Df]).
    pose proof (index_some p Hok _ O) as E. cbn [state_index] in E. rewrite E. pose proof (state_index_closed p _ Hok O) as C. cbn [state_index] in C. rewrite C.
    rewrite slice_inside by (unfold num_states; lia). rewrite Ns, Nf. unfold slice_size, limit, assignable. cbn [Z.opp Z.mul Z.ltb Z.compare].
    match goal with |- (if negb ?c then _ else _) = _ => assert (c = false) as -> by lia end. reflexivity. }
  cbn [bind]. exists m3. split; [reflexivity|]. split.
  - intros i Hi j Hj. change (LFrame (6 * i + j)) with (item_loc p (SI_frame i) j). rewrite <- unpack_vec_val by (cbn; tauto || lia). apply A3; [reflexivity|cbn; tauto|exact Hj].
  - intro i. rewrite B3, B2, B1 by (left; reflexivity). reflexivity.
Qed.
Print Assumptions C51_no_fixed_points_refuted.
(** A lens model without distortions, of which only the core is selected: an exception *)
Theorem C51_pinhole_refuted : forall p b m, problem_ok p -> num_params (p_lens p) = 4 -> 0 < p_Nci p ->
  do_core (p_sel p) = true -> do_dist (p_sel p) = false -> ingest_packed_state p b (num_states p) m = Raised m.
Proof.
  intros p b m Hok H4 Hc Dc Dd. unfold ingest_packed_state. fold (num_states p). rewrite Z.eqb_refl. cbn [negb].
  pose proof (regions_ordered p Hok) as HR. pose proof (nsi_eq p) as Ne. cbn [item_size] in Ne. rewrite Dc, Dd in Ne.
  unfold unpack_state. assert (num_states p =? 0 = false) as -> by (unfold num_states; lia).
  unfold ingest_intrinsics. assert (optimized p (SI_intr 0)) as O by (cbn; split; [lia|now left]).
  pose proof (index_some p Hok _ O) as E. cbn [state_index] in E. rewrite E. pose proof (state_index_closed p _ Hok O) as C. cbn [state_index] in C. rewrite C.
  rewrite Dc, Dd, H4. rewrite <- (Z.add_0_l (num_states_intrinsics p)), Z.mul_0_l. rewrite slice_inside by (unfold num_states; lia).
  change (slice_size 4 None (Some (- (4 - (if has_core (p_lens p) then 4 else 0))))) with 0. rewrite Z.mul_0_r. unfold assignable.
  assert ((0 =? num_states_intrinsics p) || (num_states_intrinsics p =? 1) = false)%bool as -> by lia. reflexivity.
Qed.
Print Assumptions C51_pinhole_refuted.
(** Nothing to optimize: a division by 0 in unpack_state() *)
Theorem C51_empty_refuted : forall p b m, num_states p = 0 -> ingest_packed_state p b 0 m = Killed.
Proof. intros p b m H. unfold ingest_packed_state. fold (num_states p). rewrite H. unfold unpack_state. now rewrite H. Qed.
Print Assumptions C51_empty_refuted.

(** ** The problem of C_Layout: everything applies *)
Example ex_C51 : problem_ok ex_problem /\ 0 < num_states ex_problem /\ whole_intrinsics ex_problem /\ some_point_fixed ex_problem.
Proof. split; [exact ex_problem_ok|]. split; [reflexivity|]. split; [left; split; reflexivity|]. right. reflexivity. Qed.
