(** Proofs for C75: the sum of the columns of dp_triangulated_db, weighted by a motion of the state. *)
From Coq Require Import Reals Lra Psatz Arith Lia ZArith Bool List.
From Coquelicot Require Import Coquelicot.
From Verif Require Import S_Vec M_Pose M_Lens M_Layout S_Layout P_Layout P_Spline M_Pack S_Pack P_Pack M_Residuals P_Jacobian C_Jacobian C_Residuals M_ProjUncert P_ProjUncert C_ProjUncert M_UnprojGrad M_TriUncert.
Import ListNotations.
Open Scope R_scope.

Section S.
  Variable c : context.
  Let p := c_p c.
  Let N := Z.to_nat (num_states p).
  Variable d : nat -> R.
  Let dB : Z -> R := fun z => d (Z.to_nat z).
  Let u (k : nat) : R := unpack_vec p dB (Z.of_nat k).
  Hypothesis Hok : problem_ok p.

  Definition csum (f : nat -> v3) : v3 :=
    V3 (rsum (Z.to_nat (num_states (c_p c))) (fun k => vx (f k) * unpack_vec (c_p c) (fun z => d (Z.to_nat z)) (Z.of_nat k)))
       (rsum (Z.to_nat (num_states (c_p c))) (fun k => vy (f k) * unpack_vec (c_p c) (fun z => d (Z.to_nat z)) (Z.of_nat k)))
       (rsum (Z.to_nat (num_states (c_p c))) (fun k => vz (f k) * unpack_vec (c_p c) (fun z => d (Z.to_nat z)) (Z.of_nat k))).
  Lemma csum_ext : forall f g, (forall k, f k = g k) -> csum f = csum g.
  Proof. intros f g E. unfold csum. f_equal; apply rsum_ext; intros k _; now rewrite E. Qed.
  Lemma csum_add : forall f g, csum (fun k => vadd (f k) (g k)) = vadd (csum f) (csum g).
  Proof. intros f g. unfold csum, vadd. cbn [vx vy vz]. f_equal; rewrite <- rsum_plus; apply rsum_ext; intros k _; ring. Qed.
  Lemma csum_0 : csum (fun _ => v0) = v0.
  Proof. unfold csum, v0. f_equal; apply rsum_0; intros; cbn [vx vy vz]; ring. Qed.

  Definition blk (i0 n : Z) (f : nat -> v3) : nat -> v3 := put_cols (fun _ => v0) i0 n f.
  Lemma vadd_0_l : forall x, vadd v0 x = x. Proof. intro x. apply v3_eq; vunfold; ring. Qed.
  Lemma vadd_0_r : forall x, vadd x v0 = x. Proof. intro x. apply v3_eq; vunfold; ring. Qed.
  Lemma put_blk : forall db i0 n f k, ((i0 <= Z.of_nat k < i0 + n)%Z -> db k = v0) -> put_cols db i0 n f k = vadd (db k) (blk i0 n f k).
  Proof.
    intros db i0 n f k H. unfold blk, put_cols. destruct (Z.leb_spec i0 (Z.of_nat k)), (Z.ltb_spec (Z.of_nat k) (i0 + n)); cbn [andb]; rewrite ?vadd_0_r; try reflexivity.
    rewrite H by lia. symmetry. apply vadd_0_l.
  Qed.
  Lemma add_blk : forall db i0 n f k, add_cols db i0 n f k = vadd (db k) (blk i0 n f k).
  Proof. intros db i0 n f k. unfold blk, put_cols, add_cols. destruct (_ && _)%bool; rewrite ?vadd_0_r; reflexivity. Qed.
  Lemma blk_out : forall i0 n f k, ~ (i0 <= Z.of_nat k < i0 + n)%Z -> blk i0 n f k = v0.
  Proof. intros i0 n f k H. unfold blk, put_cols. destruct (Z.leb_spec i0 (Z.of_nat k)), (Z.ltb_spec (Z.of_nat k) (i0 + n)); cbn [andb]; try reflexivity. lia. Qed.
  Lemma blk_proj : forall (g : v3 -> R) i0 n f k, g v0 = 0 -> g (blk i0 n f k) = if (i0 <=? Z.of_nat k)%Z && (Z.of_nat k <? i0 + n)%Z then g (f (Z.to_nat (Z.of_nat k - i0))) else 0.
  Proof. intros g i0 n f k E. unfold blk, put_cols. destruct (_ && _)%bool; [reflexivity|exact E]. Qed.

  (** *** a camera pose *)
  Lemma pose_dot : forall Mr Mt T, V3 (rsum 6 (fun l => vx (col6 Mr Mt l) * pose6 T l)) (rsum 6 (fun l => vy (col6 Mr Mt l) * pose6 T l)) (rsum 6 (fun l => vz (col6 Mr Mt l) * pose6 T l)) = vadd (mv Mr (rt_r T)) (mv Mt (rt_t T)).
  Proof. intros Mr Mt T. unfold pose6, col6, mcol, vcol. cbn [rsum Nat.ltb Nat.leb Nat.sub]. apply v3_eq; vunfold; ring. Qed.
  Lemma ext_csum : forall j Mr Mt, do_ext (p_sel p) = true -> (0 <= j < p_Nce p)%Z ->
    csum (blk (state_index_extrinsics p j) 6 (col6 Mr Mt)) = vadd (mv Mr (rt_r (cvel c d j))) (mv Mt (rt_t (cvel c d j))).
  Proof.
    intros j Mr Mt HE Hj. destruct (ext_item c d Hok j j HE ltac:(lia) ltac:(fold p; lia)) as (Ho & Sz & _ & PL). unfold cvel. destruct (Z.ltb_spec j 0); [lia|].
    assert (forall g : v3 -> R, g v0 = 0 -> rsum N (fun k => g (blk (state_index_extrinsics p j) 6 (col6 Mr Mt) k) * u k) = rsum 6 (fun l => g (col6 Mr Mt l) * pose6 (cam_of (still c) dB j) l)) as K.
    { intros g G. pose proof (block_sum c Hok d (SI_ext j) (fun l => g (col6 Mr Mt l)) 6 Ho Sz) as BS. cbn [state_index] in BS.
      etransitivity; [|etransitivity; [exact BS|]].
      - apply rsum_ext. intros k _. rewrite blk_proj by exact G. reflexivity.
      - apply rsum_ext. intros l Hl. f_equal. apply PL. exact Hl. }
    rewrite <- pose_dot. unfold csum. f_equal; [apply (K vx)|apply (K vy)|apply (K vz)]; reflexivity.
  Qed.
  Lemma cvel_still : forall j, do_ext (p_sel p) = false \/ (j < 0)%Z -> cvel c d j = mkrt v0 v0.
  Proof. intros j H. unfold cvel. destruct (Z.ltb_spec j 0); [reflexivity|]. destruct H as [H|H]; [|lia]. unfold cam_of. cbn [c_p still c_cam]. fold p. now rewrite H. Qed.

  (** *** the intrinsics of a camera *)
  Definition dI (icam : Z) (i : nat) : R := intr_of (still c) (fun z => d (Z.to_nat z)) icam i.
  Definition isum (f : nat -> v3) (w : nat -> R) : v3 :=
    let n := Z.to_nat (num_params (p_lens (c_p c))) in V3 (rsum n (fun i => w i * vx (f i))) (rsum n (fun i => w i * vy (f i))) (rsum n (fun i => w i * vz (f i))).
  Definition iblk (icam : Z) (f : nat -> v3) : nat -> v3 :=
    match maybe_index (state_index_intrinsics p icam) with None => fun _ => v0
    | Some i => blk i (num_intrinsics_opt (p_sel p) (p_lens p)) (fun j => f (Z.to_nat (fst (slice_optimized_intrinsics p)) + j)%nat) end.
  Lemma iblk_out : forall icam f k, (forall i, state_index_intrinsics p icam = i -> (0 <= i)%Z -> ~ (i <= Z.of_nat k < i + num_intrinsics_opt (p_sel p) (p_lens p))%Z) -> iblk icam f k = v0.
  Proof. intros icam f k H. unfold iblk, maybe_index. destruct (Z.ltb_spec (state_index_intrinsics p icam) 0); [reflexivity|]. apply blk_out. now apply H. Qed.
  Lemma put_intr_blk : forall db icam f db', put_intrinsics_cols p db icam f = inl db' ->
    (forall k i, state_index_intrinsics p icam = i -> (0 <= i)%Z -> (i <= Z.of_nat k < i + num_intrinsics_opt (p_sel p) (p_lens p))%Z -> db k = v0) ->
    forall k, db' k = vadd (db k) (iblk icam f k).
  Proof.
    intros db icam f db' E Z0 k. unfold put_intrinsics_cols, iblk, maybe_index in *. destruct (Z.ltb_spec (state_index_intrinsics p icam) 0); [injection E as <-; symmetry; apply vadd_0_r|].
    destruct (slice_optimized_intrinsics p) as [start n]. cbn [fst]. destruct (Z.eqb_spec n (num_intrinsics_opt (p_sel p) (p_lens p))); [|discriminate]. injection E as <-.
    apply put_blk. intro R. eapply Z0; [reflexivity|lia|exact R].
  Qed.
  Lemma iblk_csum : forall icam f, (0 <= icam < p_Nci p)%Z -> csum (iblk icam f) = isum f (dI icam).
  Proof.
    intros icam f Hc. pose proof (num_params_ge4 _ (proj1 Hok)) as G.
    assert (forall g : v3 -> R, g v0 = 0 -> rsum N (fun k => g (iblk icam f k) * u k) = rsum (Z.to_nat (num_params (p_lens p))) (fun i => dI icam i * g (f i))) as K.
    { intros g G0. unfold iblk, maybe_index. destruct (item_size p (SI_intr icam)) as [|n|n] eqn:Es.
      - assert (state_index_intrinsics p icam = -1)%Z as ->.
        { unfold state_index_intrinsics, num_intrinsics_opt, num_distortions_opt. cbn [item_size] in Es. unfold has_core.
          destruct (p_Nci p <=? 0)%Z; [reflexivity|]. destruct (do_core (p_sel p)), (do_dist (p_sel p)); cbn [andb] in *; try lia;
          match goal with |- context [(?x <=? 0)%Z] => destruct (Z.leb_spec x 0) end; try reflexivity; lia. }
        cbn [Z.ltb Z.compare]. rewrite rsum_0 by (intros; rewrite G0; ring). symmetry. apply rsum_0. intros i Hi'. 
        assert (dI icam i = 0) as ->; [|ring]. unfold dI, intr_of. cbn [c_p still c_intr]. fold p. cbn [item_size] in Es.
        destruct (Nat.ltb_spec i 4); destruct (do_core (p_sel p)), (do_dist (p_sel p)); try reflexivity; lia.
      - assert (optimized p (SI_intr icam)) as Ho. { cbn [optimized]. split; [exact Hc|]. cbn [item_size] in Es. destruct (do_core (p_sel p)); [now left|]. destruct (do_dist (p_sel p)); [right; split; [reflexivity|lia]|lia]. }
        destruct (state_in_range p _ Hok Ho) as [A B]. cbn [state_index] in A, B. destruct (Z.ltb_spec (state_index_intrinsics p icam) 0); [lia|].
        assert (num_intrinsics_opt (p_sel p) (p_lens p) = Z.pos n) as ->.
        { rewrite <- Es. unfold num_intrinsics_opt, num_distortions_opt, has_core. cbn [item_size]. destruct (do_core (p_sel p)); cbn [andb]; lia. }
        set (a0 := fst (slice_optimized_intrinsics p)). assert (a0 = if do_core (p_sel p) then 0 else 4)%Z as Ea by (unfold a0, slice_optimized_intrinsics, has_core; cbn [fst]; destruct (do_core (p_sel p)); reflexivity). clearbody a0.
        pose proof (block_sum c Hok d (SI_intr icam) (fun j => g (f (Z.to_nat a0 + j)%nat)) (Pos.to_nat n) Ho ltac:(fold p; rewrite Es; lia)) as BS. cbn [state_index] in BS. rewrite positive_nat_Z in BS.
        etransitivity; [|etransitivity; [exact BS|]].
        + apply rsum_ext. intros k Hk. rewrite blk_proj by exact G0. reflexivity.
        + assert (forall i, (Z.of_nat i < num_params (p_lens p))%Z -> dI icam i = unpack_struct p dB (caller (still c)) (LIntr (icam * num_params (p_lens p) + Z.of_nat i))) as EI.
          { intros i Hi'. unfold dI. fold dB. rewrite (intr_unpacked (still c) dB Hok icam i Hc Hi'). reflexivity. }
          symmetry. rewrite (rsum_window (Pos.to_nat n) (Z.to_nat (num_params (p_lens p))) (Z.to_nat a0)).
          * apply rsum_ext. intros j Hj. assert (a0 + Z.of_nat j < num_params (p_lens p))%Z as Lj.
            { cbn [item_size] in Es. destruct (do_core (p_sel p)), (do_dist (p_sel p)); lia. }
            rewrite Rmult_comm. f_equal. rewrite EI by (destruct (do_core (p_sel p)); lia). f_equal. cbn [item_loc]. f_equal.
            fold p. destruct (do_core (p_sel p)); lia.
          * cbn [item_size] in Es. destruct (do_core (p_sel p)), (do_dist (p_sel p)); lia.
          * intros i Hi' Hout. assert (dI icam i = 0) as ->; [|ring]. unfold dI, intr_of. cbn [c_p still c_intr]. fold p. cbn [item_size] in Es.
            destruct (Nat.ltb_spec i 4); destruct (do_core (p_sel p)), (do_dist (p_sel p)); try reflexivity; lia.
      - exfalso. cbn [item_size] in Es. destruct (do_core (p_sel p)), (do_dist (p_sel p)); lia. }
    unfold csum, isum. f_equal; [apply (K vx)|apply (K vy)|apply (K vz)]; reflexivity.
  Qed.

  (** *** the frames *)
  Definition fblk (l : list (m33 * m33)) : nat -> v3 := blk (state_index_frames p 0) (num_states_frames p) (fun n => let '(a, b) := nth (n / 6) l (zero33, zero33) in col6 a b (n mod 6)).
  Definition fterm (l : list (m33 * m33)) (i : nat) : v3 :=
    let T := frame_of (still c) (fun z => d (Z.to_nat z)) (Z.of_nat i) in let ab := nth i l (zero33, zero33) in vadd (mv (fst ab) (rt_r T)) (mv (snd ab) (rt_t T)).
  Lemma fblk_csum : forall l, do_frames (p_sel p) = true -> (0 < p_Nframes p)%Z -> csum (fblk l) = vsum (map (fterm l) (seq 0 (Z.to_nat (p_Nframes p)))).
  Proof.
    intros l HD HN. set (n := Z.to_nat (p_Nframes p)). assert (p_Nframes p = Z.of_nat n) as En by (unfold n; lia).
    set (f := fun k : nat => let '(a, b) := nth (k / 6) l (zero33, zero33) in col6 a b (k mod 6)).
    assert (forall g : v3 -> R, g v0 = 0 -> rsum N (fun k => g (fblk l k) * u k) = rsum n (fun j => rsum 6 (fun i => g (f (j * 6 + i)%nat) * pose6 (frame_of (still c) dB (0 + Z.of_nat j)) i))) as K.
    { intros g G. pose proof (poses_sum c d Hok SI_frame (frame_of (still c) dB) 0 n (fun m => g (f m)) ltac:(lia)) as PS. cbn [state_index] in PS.
      etransitivity; [|exact (PS ltac:(intros j Hj; apply frame_item; auto; fold p; lia))].
      apply rsum_ext. intros k _. unfold fblk. rewrite blk_proj by exact G. unfold num_states_frames. rewrite HD, En. reflexivity. }
    assert (forall j i, (i < 6)%nat -> f (j * 6 + i)%nat = col6 (fst (nth j l (zero33, zero33))) (snd (nth j l (zero33, zero33))) i) as F.
    { intros j i Hi. unfold f. rewrite Nat.div_add_l, Nat.div_small, Nat.add_0_r by lia. rewrite Nat.add_comm, Nat.mod_add, Nat.mod_small by lia. now destruct (nth j l (zero33, zero33)). }
    assert (forall m, vsum (map (fterm l) (seq 0 m)) = V3 (rsum m (fun j => vx (fterm l j))) (rsum m (fun j => vy (fterm l j))) (rsum m (fun j => vz (fterm l j)))) as VS.
    { assert (forall a b, vsum (a ++ b)%list = vadd (vsum a) (vsum b)) as VA. { intros a b. induction a as [|x a IH]; cbn [app vsum fold_right]; [symmetry; apply vadd_0_l|]. fold (vsum (a ++ b)). fold (vsum a). rewrite IH. apply v3_eq; vunfold; ring. }
      induction m as [|m IH]; [reflexivity|]. rewrite seq_S, map_app, VA, IH. cbn [Nat.add map vsum fold_right rsum]. apply v3_eq; vunfold; ring. }
    rewrite VS. unfold csum. f_equal; (etransitivity; [first [apply (K vx eq_refl)|apply (K vy eq_refl)|apply (K vz eq_refl)]|]); apply rsum_ext; intros j _; unfold fterm; cbv zeta; fold dB; rewrite <- pose_dot; cbn [vx vy vz];
      apply rsum_ext; intros i Hi; rewrite F by exact Hi; reflexivity.
  Qed.

  (** *** dp_triangulated_db *)
  Definition eblk (j : Z) (Mr Mt : m33) : nat -> v3 := match extrinsics_index p j with None => fun _ => v0 | Some e => blk e 6 (col6 Mr Mt) end.
  Lemma extrinsics_index_some : forall j e, extrinsics_index p j = Some e -> (0 <= j < p_Nce p)%Z /\ do_ext (p_sel p) = true /\ e = state_index_extrinsics p j /\ (e = num_states_intrinsics p + j * 6)%Z.
  Proof.
    intros j e. unfold extrinsics_index, maybe_index, state_index_extrinsics. destruct (Z.leb_spec 0 j); [|discriminate]. destruct (Z.leb_spec (p_Nce p) 0); [discriminate|].
    destruct (do_ext (p_sel p)); cbn [negb]; [|discriminate]. cbn [andb]. destruct (Z.ltb_spec j (p_Nce p)); cbn [negb]; [|discriminate].
    destruct (Z.ltb _ _); [discriminate|]. intro E. injection E as <-. repeat split; try reflexivity; lia.
  Qed.
  Lemma extrinsics_index_none : forall j, (j < p_Nce p)%Z -> extrinsics_index p j = None -> do_ext (p_sel p) = false \/ (j < 0)%Z.
  Proof.
    intros j Hj. unfold extrinsics_index, maybe_index, state_index_extrinsics. destruct (Z.leb_spec 0 j); [|now right]. destruct (Z.leb_spec (p_Nce p) 0); [lia|].
    destruct (do_ext (p_sel p)); cbn [negb]; [|now left]. cbn [andb]. destruct (Z.ltb_spec j (p_Nce p)); cbn [negb]; [|lia].
    pose proof (regions_ordered p Hok). destruct (Z.ltb_spec (num_states_intrinsics p + j * 6) 0); [lia|discriminate].
  Qed.
  Lemma eblk_csum : forall j Mr Mt, (j < p_Nce p)%Z -> csum (eblk j Mr Mt) = vadd (mv Mr (rt_r (cvel c d j))) (mv Mt (rt_t (cvel c d j))).
  Proof.
    intros j Mr Mt Hj. unfold eblk. destruct (extrinsics_index p j) as [e|] eqn:E.
    - destruct (extrinsics_index_some j e E) as (R & HE & -> & _). now apply ext_csum.
    - rewrite csum_0, (cvel_still j (extrinsics_index_none j Hj E)). cbn [rt_r rt_t]. apply v3_eq; vunfold; ring.
  Qed.
  Lemma mcol_add : forall A B j, mcol (madd A B) j = vadd (mcol A j) (mcol B j).
  Proof. intros A B [|[|j]]; reflexivity. Qed.
  Lemma col6_add : forall A B A' B' j, col6 (madd A A') (madd B B') j = vadd (col6 A B j) (col6 A' B' j).
  Proof. intros. unfold col6. destruct (Nat.ltb _ _); apply mcol_add. Qed.
  Lemma col6_0 : forall j, col6 zero33 zero33 j = v0.
  Proof. assert (forall j, mcol zero33 j = v0) as M by (intros [|[|j]]; reflexivity). intro j. unfold col6. destruct (Nat.ltb _ _); apply M. Qed.
  Ltac cases := repeat match goal with |- context [(?a <=? ?b)%Z] => destruct (Z.leb_spec a b) | |- context [(?a <? ?b)%Z] => destruct (Z.ltb_spec a b) end; cbn [andb]; try lia.
  Lemma three_puts : forall db e P Q W k, ((e <= Z.of_nat k < e + 6)%Z -> db k = v0) ->
    put_cols (add_cols (put_cols db e 3 (mcol P)) e 3 (mcol Q)) (e + 3) 3 (mcol W) k = vadd (db k) (blk e 6 (col6 (madd P Q) W) k).
  Proof.
    intros db e P Q W k Z0. unfold blk, put_cols, add_cols, col6. cases; rewrite ?vadd_0_r; try reflexivity; rewrite Z0, vadd_0_l by lia.
    - destruct (Nat.ltb_spec (Z.to_nat (Z.of_nat k - e)) 3); [lia|]. f_equal. lia.
    - destruct (Nat.ltb_spec (Z.to_nat (Z.of_nat k - e)) 3); [|lia]. now rewrite mcol_add.
  Qed.
  Definition A1 (t : tri_grad) : m33 := let '(_, dr, dt) := t_inv t in
    madd (mm (mm (t_dv1 t) (t_v1r t)) (mm (dr_r1 (t_cmp t)) (mscale (-1) I3))) (mm (t_dt01 t) (madd (mm (dt_r1 (t_cmp t)) (mscale (-1) I3)) (mm (dt_t1 (t_cmp t)) dr))).
  Definition B1 (t : tri_grad) : m33 := let '(_, dr, dt) := t_inv t in mm (t_dt01 t) (madd (mm (dt_r1 (t_cmp t)) zero33) (mm (dt_t1 (t_cmp t)) dt)).
  Definition A0 (t : tri_grad) : m33 := madd (mm (mm (t_dv1 t) (t_v1r t)) (dr_r0 (t_cmp t))) (mm (t_dt01 t) (dt_r0 (t_cmp t))).
  Definition B0 (t : tri_grad) : m33 := mm (t_dt01 t) (dt_t0 (t_cmp t)).
  Lemma put_e1_eq : forall j t db k, (forall e, extrinsics_index p j = Some e -> (e <= Z.of_nat k < e + 6)%Z -> db k = v0) -> put_e1 p j t db k = vadd (db k) (eblk j (A1 t) (B1 t) k).
  Proof.
    intros j t db k Z0. unfold put_e1, eblk, A1, B1. destruct (extrinsics_index p j) as [e|]; [|symmetry; apply vadd_0_r]. destruct (t_inv t) as [[x dr] dt]. apply three_puts. now apply Z0.
  Qed.
  Lemma put_e0_eq : forall j t st db k, (forall e, extrinsics_index p j = Some e -> (e <= Z.of_nat k < e + 6)%Z -> db k = v0) ->
    let '(a, b) := match st with Some ab => ab | None => (zero33, zero33) end in put_e0 p j t st db k = vadd (db k) (eblk j (madd (A0 t) a) (madd (B0 t) b) k).
  Proof.
    intros j t st db k Z0. destruct (match st with Some ab => ab | None => (zero33, zero33) end) as [a b] eqn:Es. unfold put_e0, eblk. destruct (extrinsics_index p j) as [e|]; [|symmetry; apply vadd_0_r].
    pose proof (three_puts db e (mm (mm (t_dv1 t) (t_v1r t)) (dr_r0 (t_cmp t))) (mm (t_dt01 t) (dt_r0 (t_cmp t))) (B0 t) k (Z0 e eq_refl)) as T. fold (A0 t) in T. fold (B0 t).
    assert (blk e 6 (col6 (madd (A0 t) a) (madd (B0 t) b)) k = vadd (blk e 6 (col6 (A0 t) (B0 t)) k) (blk e 6 (col6 a b) k)) as ->.
    { unfold blk, put_cols. destruct (_ && _)%bool; [apply col6_add|symmetry; apply vadd_0_r]. }
    destruct st as [[a' b']|].
    - injection Es as -> ->. rewrite add_blk, T. apply v3_eq; vunfold; ring.
    - injection Es as <- <-. rewrite T. assert (blk e 6 (col6 zero33 zero33) k = v0) as ->; [|now rewrite vadd_0_r].
      unfold blk, put_cols. destruct (_ && _)%bool; [|reflexivity]. apply col6_0.
  Qed.
  Lemma intr_index : forall icam i, state_index_intrinsics p icam = i -> (0 <= i)%Z -> (i = icam * num_intrinsics_opt (p_sel p) (p_lens p) /\ 0 <= icam < p_Nci p /\ 0 < num_intrinsics_opt (p_sel p) (p_lens p))%Z.
  Proof.
    intros icam i <-. unfold state_index_intrinsics. destruct (Z.leb_spec (p_Nci p) 0); [lia|]. destruct (Z.leb_spec (num_intrinsics_opt (p_sel p) (p_lens p)) 0); [lia|].
    destruct (Z.leb_spec 0 icam), (Z.ltb_spec icam (p_Nci p)); cbn [andb negb]; lia.
  Qed.
  Lemma frames_index : forall i, maybe_index (state_index_frames p 0) = Some i <-> (do_frames (p_sel p) = true /\ (0 < p_Nframes p)%Z /\ i = state_index_frames p 0 /\ (i = num_states_intrinsics p + num_states_extrinsics p)%Z).
  Proof.
    intro i. pose proof (regions_ordered p Hok). unfold maybe_index, state_index_frames. destruct (Z.leb_spec (p_Nframes p) 0); [split; [discriminate|lia]|].
    destruct (do_frames (p_sel p)); cbn [negb]; [|split; [discriminate|now intros (? & _)]]. destruct (Z.ltb_spec 0 (p_Nframes p)); [|lia]. cbn [Z.leb Z.compare andb negb].
    destruct (Z.ltb_spec (num_states_intrinsics p + num_states_extrinsics p + 0 * 6) 0); [lia|]. split; [intro E; injection E as <-; repeat split; auto; lia|]. intros (_ & _ & -> & _). reflexivity.
  Qed.
  Definition moving_frames (stab : bool) : bool := stab && do_frames (p_sel p) && (0 <? p_Nframes p)%Z.
  Lemma dp_db_sum : forall rt0 frame i0 i1 e0 e1 (stab : bool) t db, i0 <> i1 -> (e0 <> e1 \/ e0 < 0)%Z -> (0 <= i0 < p_Nci p)%Z -> (0 <= i1 < p_Nci p)%Z -> (e0 < p_Nce p)%Z -> (e1 < p_Nce p)%Z ->
    dp_db p rt0 frame i0 i1 e0 e1 stab t = inl db ->
    exists a b l, (if stab then stabilize_camera rt0 (t_p t) = Some (a, b) else a = zero33 /\ b = zero33) /\
      (moving_frames stab = true -> all_some (map (fun j => stabilize_frame rt0 (t_p t) (p_Nframes p) (frame (Z.of_nat j))) (seq 0 (Z.to_nat (p_Nframes p)))) = Some l) /\
      csum db = vadd (vadd (vadd (vadd (isum (fun i => mv (t_dv0 t) (t_di0 t i)) (dI i0)) (isum (fun i => mv (t_dv1 t) (mv (t_v1v t) (t_di1 t i))) (dI i1)))
        (vadd (mv (A1 t) (rt_r (cvel c d e1))) (mv (B1 t) (rt_t (cvel c d e1))))) (vadd (mv (madd (A0 t) a) (rt_r (cvel c d e0))) (mv (madd (B0 t) b) (rt_t (cvel c d e0)))))
        (if moving_frames stab then vsum (map (fterm l) (seq 0 (Z.to_nat (p_Nframes p)))) else v0).
  Proof.
    intros rt0 frame i0 i1 e0 e1 stab t db Hi He Hi0 Hi1 He0 He1 H. unfold dp_db in H. pose proof (regions_ordered p Hok) as RO.
    set (f0 := if stab then maybe_index (state_index_frames p 0) else None) in H.
    assert (match f0 with Some i => moving_frames stab = true /\ i = state_index_frames p 0 /\ (i = num_states_intrinsics p + num_states_extrinsics p)%Z | None => moving_frames stab = false end) as Hf.
    { unfold f0, moving_frames. destruct stab; [|reflexivity]. cbn [andb]. destruct (maybe_index (state_index_frames p 0)) as [i|] eqn:E.
      - destruct (proj1 (frames_index i) E) as (-> & L & -> & E'). split; [|split; [reflexivity|exact E']]. cbn [andb]. now apply Z.ltb_lt.
      - destruct (do_frames (p_sel p)) eqn:D; [|reflexivity]. cbn [andb]. apply Z.ltb_ge. destruct (Z_lt_le_dec 0 (p_Nframes p)) as [L|L]; [|exact L]. exfalso.
        assert (maybe_index (state_index_frames p 0) = Some (state_index_frames p 0)) as X; [|congruence]. apply frames_index. repeat split; auto. unfold state_index_frames. rewrite D.
        destruct (Z.leb_spec (p_Nframes p) 0); [lia|]. destruct (Z.ltb_spec 0 (p_Nframes p)); [|lia]. cbn [Z.leb Z.compare andb negb]. lia. }
    clearbody f0.
    destruct (if stab then _ else _) as [cam|] eqn:EC in H; [|discriminate].
    destruct (match f0 with Some _ => _ | None => _ end) as [fr|] eqn:EF in H; [|discriminate].
    destruct (put_intrinsics_cols p (fun _ => v0) i0 _) as [db1|] eqn:E1 in H; [|discriminate]. destruct (put_intrinsics_cols p db1 i1 _) as [db2|] eqn:E2 in H; [|discriminate].
    set (g0 := fun i => mv (t_dv0 t) (t_di0 t i)) in *. set (g1 := fun i => mv (t_dv1 t) (mv (t_v1v t) (t_di1 t i))) in *.
    pose proof (put_intr_blk _ _ _ _ E1 ltac:(intros; reflexivity)) as P1.
    assert (forall k i, state_index_intrinsics p i1 = i -> (0 <= i)%Z -> (i <= Z.of_nat k < i + num_intrinsics_opt (p_sel p) (p_lens p))%Z -> db1 k = v0) as Z1.
    { intros k i Ei Pi Ri. destruct (intr_index i1 i Ei Pi) as (-> & _ & Pn). rewrite P1, vadd_0_l. apply iblk_out. intros i' Ei' Pi' Ri'. destruct (intr_index i0 i' Ei' Pi') as (-> & _ & _).
      assert (i0 < i1 \/ i1 < i0)%Z as [L|L] by lia; nia. }
    pose proof (put_intr_blk _ _ _ _ E2 Z1) as P2.
    assert (forall icam g k, (num_states_intrinsics p <= Z.of_nat k)%Z -> iblk icam g k = v0) as OI.
    { intros icam g k Hk. apply iblk_out. intros i Ei Pi Ri. destruct (intr_index icam i Ei Pi) as (-> & R & Pn). unfold num_states_intrinsics in Hk. nia. }
    assert (forall k, (num_states_intrinsics p <= Z.of_nat k)%Z -> db2 k = v0) as O2. { intros k Hk. rewrite P2, P1, !OI, !vadd_0_r by exact Hk. reflexivity. }
    assert (forall k, put_e1 p e1 t db2 k = vadd (db2 k) (eblk e1 (A1 t) (B1 t) k)) as P3.
    { intro k. apply put_e1_eq. intros e E R. destruct (extrinsics_index_some e1 e E) as (? & _ & _ & ->). apply O2. lia. }
    set (db3 := put_e1 p e1 t db2) in *.
    set (a := fst (match cam with Some ab => ab | None => (zero33, zero33) end)). set (b := snd (match cam with Some ab => ab | None => (zero33, zero33) end)).
    assert (forall k, put_e0 p e0 t cam db3 k = vadd (db3 k) (eblk e0 (madd (A0 t) a) (madd (B0 t) b) k)) as P4.
    { intro k. pose proof (put_e0_eq e0 t cam db3 k) as Q. unfold a, b. destruct (match cam with Some ab => ab | None => (zero33, zero33) end) as [a' b']. cbn [fst snd]. apply Q.
      intros e E R. destruct (extrinsics_index_some e0 e E) as (? & _ & _ & ->). rewrite P3, O2, vadd_0_l by lia. unfold eblk. destruct (extrinsics_index p e1) as [e'|] eqn:E'; [|reflexivity].
      destruct (extrinsics_index_some e1 e' E') as (? & _ & _ & ->). apply blk_out. lia. }
    set (db4 := put_e0 p e0 t cam db3) in *.
    exists a, b, (match fr with Some (_, l) => l | None => [] end).
    assert (if stab then stabilize_camera rt0 (t_p t) = Some (a, b) else a = zero33 /\ b = zero33) as HS.
    { unfold a, b. destruct stab; [|injection EC as <-; split; reflexivity]. destruct (stabilize_camera rt0 (t_p t)) as [[x y]|]; [|discriminate]. injection EC as <-. reflexivity. }
    assert (csum db4 = vadd (vadd (vadd (isum g0 (dI i0)) (isum g1 (dI i1))) (vadd (mv (A1 t) (rt_r (cvel c d e1))) (mv (B1 t) (rt_t (cvel c d e1))))) (vadd (mv (madd (A0 t) a) (rt_r (cvel c d e0))) (mv (madd (B0 t) b) (rt_t (cvel c d e0))))) as C4.
    { rewrite (csum_ext _ _ P4), csum_add, (csum_ext _ _ P3), csum_add, (csum_ext _ _ P2), csum_add, (csum_ext _ _ P1), csum_add, csum_0, vadd_0_l, !iblk_csum, !eblk_csum by assumption. reflexivity. }
    split; [exact HS|]. destruct f0 as [i|].
    - destruct Hf as (HM & Ei & Ei'). destruct (all_some _) as [l|] eqn:EA in EF; [|discriminate]. injection EF as <-. rewrite HM. split; [intros _; exact EA|]. injection H as <-. rewrite <- C4.
      assert (do_frames (p_sel p) = true /\ (0 < p_Nframes p)%Z) as [HD HN]. { unfold moving_frames in HM. apply andb_prop in HM. destruct HM as [HM HN]. apply andb_prop in HM. split; [apply HM|now apply Z.ltb_lt]. }
      rewrite <- fblk_csum by assumption. rewrite <- csum_add. apply csum_ext. intro k. unfold fblk. rewrite <- Ei. apply put_blk. intro R. rewrite P4, P3, O2, vadd_0_l by lia.
      assert (forall j Mr Mt, eblk j Mr Mt k = v0) as OE.
      { intros j Mr Mt. unfold eblk. destruct (extrinsics_index p j) as [e|] eqn:E; [|reflexivity]. destruct (extrinsics_index_some j e E) as (? & HE & _ & ->). apply blk_out. unfold num_states_extrinsics in Ei'. rewrite HE in Ei'. lia. }
      rewrite !OE. apply vadd_0_l.
    - injection EF as <-. rewrite Hf. split; [discriminate|]. injection H as <-. now rewrite vadd_0_r.
  Qed.
End S.
