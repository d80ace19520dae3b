From Coq Require Import ZArith List Bool Lia Sorted ZifyBool.
From Verif Require Import M_Lens M_Layout S_Layout P_Layout P_TriDecode M_SplineIdx M_Callback S_Callback P_Callback P_CallbackRows P_Outliers S_Deps.
Import ListNotations.
Open Scope Z_scope.

Lemma seg0_window order N t : (order = 2 \/ order = 3) -> order < N -> seg0 order N t - 1 = window_start order N t.
Proof. intros H HN. unfold seg0, clamp, window_start. destruct H as [-> | ->]; cbn [Z.eqb Pos.eqb]; (destruct (t <? 1) eqn:E1; [lia|]); destruct (t >? _) eqn:E2; lia. Qed.

Lemma grad_cols_iff c sp ixy k : lens_legal (SPLINED c) -> 0 <= sp_Nx c -> sp_Nx c < 32768 ->
  (In k (grad_cols c (fst sp) (snd sp) ixy) <-> in_window c sp ixy k).
Proof.
  intros HL H0 HN. assert (ivar_stridey c = 2 * sp_Nx c) as Es by (unfold ivar_stridey; apply Z.mod_small; lia).
  destruct HL as (Ho & Hx & Hy). unfold grad_cols, in_window. rewrite Es.
  assert (ivar0 c (fst sp) (snd sp) = 4 + 2 * (window_start (sp_order c) (sp_Ny c) (snd sp) * sp_Nx c + window_start (sp_order c) (sp_Nx c) (fst sp))) as Ei.
  { unfold ivar0. rewrite !seg0_window by auto. reflexivity. }
  rewrite Ei. set (x0 := window_start _ (sp_Nx c) _). set (y0 := window_start _ (sp_Ny c) _).
  rewrite in_flat_map. split.
  - intros (iy & Hiy & H). apply in_map_iff in H. destruct H as (ix & <- & Hix). apply in_seq in Hiy, Hix.
    exists (x0 + Z.of_nat ix), (y0 + Z.of_nat iy). repeat split; lia.
  - intros (ix & iy & A & B & ->). exists (Z.to_nat (iy - y0)). split; [apply in_seq; lia|].
    apply in_map_iff. exists (Z.to_nat (ix - x0)). split; [|apply in_seq; lia]. rewrite !Z2Nat.id by lia. ring.
Qed.

Lemma in_six v c : In c (zrange (v + 0) 3 ++ zrange (v + 3) 3) <-> exists off, 0 <= off < 6 /\ c = v + off.
Proof. rewrite in_app_iff, !zrange_in. split; [intro; exists (c - v); lia|intros (o & H & ->); lia]. Qed.

Section D.
  Context (p : problem) (Hok : problem_ok p) (HL : lens_legal (p_lens p)) (HN : lens_narrow (p_lens p)).
  Notation ii := (state_index_intrinsics p).

  (** intrinsics columns of one observation *)
  Lemma icols_iff icam sp ixy c : 0 <= icam < p_Nci p -> 0 <= ixy <= 1 ->
    (In c (icols p (ii icam) (fun v => dist_inlier p v sp ixy) ixy) <->
     exists off, optimized p (SI_intr icam) /\ (exists k, proj_param (p_lens p) sp ixy k /\ param_offset (p_sel p) k off) /\ c = ii icam + off).
  Proof.
    intros Hi Hxy. pose proof (num_params_ge4 _ (proj1 Hok)) as G4. unfold icols. rewrite in_app_iff.
    assert (forall k, 4 <= k < num_params (p_lens p) -> do_dist (p_sel p) = true -> optimized p (SI_intr icam)) as Opt.
    { intros k Hk Hd. split; [auto|]. right. split; [auto|lia]. }
    split.
    - intros [H|H].
      + destruct (do_core (p_sel p)) eqn:Ec; [|destruct H].
        assert (optimized p (SI_intr icam)) as Op by (split; auto).
        destruct H as [<-|[<-|[]]]; [exists ixy|exists (ixy + 2)]; (split; [auto|split; [|lia]]).
        * exists ixy. split; [now left|]. left. repeat split; auto; lia.
        * exists (2 + ixy). split; [right; now left|]. left. repeat split; auto; lia.
      + destruct (do_dist (p_sel p)) eqn:Ed; [|destruct H].
        assert (exists k, (4 <= k < num_params (p_lens p) /\ match p_lens p with SPLINED c => in_window c sp ixy k | _ => True end) /\
                          c = ii icam + (k - (if do_core (p_sel p) then 0 else 4))) as (k & Hk & ->).
        { unfold dist_inlier in H. unfold has_core in H. destruct (p_lens p) as [| | | | | | | | | |cf] eqn:El;
            try (apply zrange_in in H; exists (c - ii icam + (if do_core (p_sel p) then 0 else 4)); cbn [andb] in H; destruct (do_core (p_sel p)); split; [split; [lia|exact I]|lia|split; [lia|exact I]|lia]).
          apply in_map_iff in H. destruct H as (k & <- & Hk). exists k. split; [|reflexivity].
          split; [apply grad_cols_in in Hk; auto; unfold num_params; lia|]. apply grad_cols_iff; auto. destruct Hok as (LO & _). rewrite El in LO. cbn in LO. unfold u16 in LO. lia. }
        exists (k - (if do_core (p_sel p) then 0 else 4)). split; [eapply Opt; [apply Hk|auto]|]. split; [|reflexivity].
        exists k. split; [right; right; exact Hk|]. right. split; [auto|]. split; [lia|reflexivity].
    - intros (off & Op & (k & Hk & Ho) & ->). destruct Ho as [(Ec & Hk4 & ->)|(Ed & Hk4 & ->)].
      + left. rewrite Ec. destruct Hk as [-> |[-> |(Hk & _)]]; [left; reflexivity|right; left; ring|lia].
      + right. rewrite Ed. destruct Hk as [-> |[-> |(Hk & Hw)]]; [lia|lia|].
        unfold dist_inlier, has_core. destruct (p_lens p) as [| | | | | | | | | |cf] eqn:El;
          try (apply zrange_in; cbn [andb]; destruct (do_core (p_sel p)); lia).
        apply in_map_iff. exists k. split; [reflexivity|]. apply grad_cols_iff; auto. destruct Hok as (LO & _). rewrite El in LO. cbn in LO. unfold u16 in LO. lia.
  Qed.
  Lemma ecols_iff e c : e < p_Nce p ->
    (In c (ecols p e) <-> exists off, optimized p (SI_ext e) /\ 0 <= off < 6 /\ c = state_index_extrinsics p e + off).
  Proof.
    intro He. unfold ecols, optimized. destruct (do_ext (p_sel p)) eqn:E1.
    - destruct (0 <=? e) eqn:E2.
      + rewrite in_six. split; [intros (o & H & ->); exists o|intros (o & _ & H & ->); exists o]; repeat split; auto; lia.
      + split; [intros []|intros (o & (H & _) & _); lia].
    - split; [intros []|intros (o & (_ & H) & _); discriminate].
  Qed.
  Lemma fcols_iff i c : 0 <= i < p_Nframes p ->
    (In c (fcols p i) <-> exists off, optimized p (SI_frame i) /\ 0 <= off < 6 /\ c = state_index_frames p i + off).
  Proof.
    intro Hi. unfold fcols, optimized. destruct (do_frames (p_sel p)) eqn:E1.
    - rewrite in_six. split; [intros (o & H & ->); exists o|intros (o & _ & H & ->); exists o]; repeat split; auto; lia.
    - split; [intros []|intros (o & (_ & H) & _); discriminate].
  Qed.
  Lemma pcols_iff i c : 0 <= i < p_Npoints p ->
    (In c (pcols p i) <-> exists off, optimized p (SI_point i) /\ 0 <= off < 3 /\ c = state_index_points p i + off).
  Proof.
    intro Hi. unfold pcols, optimized. destruct (do_frames (p_sel p)) eqn:E1; cbn [andb].
    - destruct (i <? _) eqn:E2.
      + rewrite zrange_in. split; [intro H; exists (c - state_index_points p i)|intros (o & _ & H & ->)]; repeat split; auto; lia.
      + split; [intros []|intros (o & (H & _) & _); lia].
    - split; [intros []|intros (o & (_ & H) & _); discriminate].
  Qed.
  Lemma wcols_iff c : In c (wcols p) <-> exists off, optimized p SI_warp /\ 0 <= off < 2 /\ c = state_index_warp p + off.
  Proof.
    unfold wcols. destruct (has_warp p) eqn:E.
    - apply has_warp_iff in E. rewrite zrange_in. split; [intro H; exists (c - state_index_warp p)|intros (o & _ & H & ->)]; repeat split; auto; try apply E; lia.
    - split; [intros []|]. intros (o & H & _). apply has_warp_iff in H. congruence.
  Qed.
End D.
