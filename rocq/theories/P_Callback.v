From Coq Require Import ZArith List Bool Lia Sorted ZifyBool.
From Verif Require Import M_Lens M_Layout S_Layout P_Layout M_SplineIdx M_Callback S_Callback.
Import ListNotations.
Open Scope Z_scope.

(** ** lists *)
Lemma zrange_length a n : length (zrange a n) = Z.to_nat n.
Proof. unfold zrange. now rewrite map_length, seq_length. Qed.
Lemma zrange_in a n x : In x (zrange a n) <-> a <= x < a + n.
Proof. unfold zrange. rewrite in_map_iff. split.
  - intros (i & <- & Hi). apply in_seq in Hi. lia.
  - intro H. exists (Z.to_nat (x - a)). rewrite in_seq. lia. Qed.
Lemma zrange_fills n : 0 <= n -> fills n (zrange 0 n).
Proof. intro H. unfold fills. rewrite zrange_length. split; [auto|]. split; [auto|].
  intros k Hk. unfold zrange.
  rewrite (nth_indep _ (-1) ((fun i => 0 + Z.of_nat i) 0%nat)) by (rewrite map_length, seq_length; lia).
  rewrite (map_nth (fun i => 0 + Z.of_nat i)), seq_nth by lia. lia. Qed.

Definition lenZ {A} (l : list A) : Z := Z.of_nat (length l).
Lemma lenZ_app {A} (a b : list A) : lenZ (a ++ b) = lenZ a + lenZ b.
Proof. unfold lenZ. rewrite app_length. lia. Qed.
Lemma lenZ_zrange a n : 0 <= n -> lenZ (zrange a n) = n.
Proof. intro. unfold lenZ. rewrite zrange_length. lia. Qed.
Lemma lenZ_flat_map_const {A B} (f : A -> list B) l k :
  (forall a, In a l -> lenZ (f a) = k) -> lenZ (flat_map f l) = lenZ l * k.
Proof. induction l as [|a l IH]; intro H; [reflexivity|]. simpl flat_map. rewrite lenZ_app, (H a) by (left; auto).
  rewrite IH by (intros; apply H; right; auto). unfold lenZ. cbn [length]. rewrite Nat2Z.inj_succ. ring. Qed.
Lemma lenZ_map {A B} (f : A -> B) l : lenZ (map f l) = lenZ l.
Proof. unfold lenZ. now rewrite map_length. Qed.

(** ** sorted segments *)
Definition seg (lo hi : Z) (l : list Z) : Prop :=
  StronglySorted Z.lt l /\ Forall (fun x => lo <= x < hi) l.
Lemma SS_app l1 l2 : StronglySorted Z.lt l1 -> StronglySorted Z.lt l2 ->
  (forall x y, In x l1 -> In y l2 -> x < y) -> StronglySorted Z.lt (l1 ++ l2).
Proof. induction l1 as [|a l1 IH]; simpl; intros H1 H2 H; auto.
  inversion H1; subst. constructor; [apply IH; auto|].
  apply Forall_app. split; auto. apply Forall_forall. intros y Hy. apply H; auto. Qed.
Lemma seg_app lo mid mid' hi a b : lo <= mid' -> mid <= hi -> mid <= mid' -> seg lo mid a -> seg mid' hi b -> seg lo hi (a ++ b).
Proof. intros Hlo Hhi Hm (S1 & F1) (S2 & F2). rewrite Forall_forall in *. split.
  - apply SS_app; auto. intros x y Hx Hy. apply F1 in Hx. apply F2 in Hy. lia.
  - apply Forall_app. split; apply Forall_forall; intros x Hx; [apply F1 in Hx|apply F2 in Hx]; lia. Qed.
Lemma seg_nil lo hi : seg lo hi [].
Proof. split; constructor. Qed.
Lemma seg_zrange lo hi a n : lo <= a -> a + n <= hi -> seg lo hi (zrange a n).
Proof. intros. split.
  - unfold zrange. generalize 0%nat as s. induction (Z.to_nat n) as [|k IH]; intro s; [constructor|].
    simpl. constructor; [apply IH|]. apply Forall_forall. intros x Hx. apply in_map_iff in Hx.
    destruct Hx as (i & <- & Hi). apply in_seq in Hi. lia.
  - apply Forall_forall. intros x Hx. apply zrange_in in Hx. lia. Qed.
Lemma seg_weaken lo hi lo' hi' l : lo' <= lo -> hi <= hi' -> seg lo hi l -> seg lo' hi' l.
Proof. intros ? ? (S1 & F1). split; auto. eapply Forall_impl; [|exact F1]. simpl. intros; lia. Qed.
Lemma seg_shift lo hi l d : seg lo hi l -> seg (lo + d) (hi + d) (map (fun k => d + k) l).
Proof. intros (S1 & F1). split.
  - clear F1. induction S1 as [|a l S1 IH F]; simpl; constructor; auto.
    apply Forall_forall. intros x Hx. apply in_map_iff in Hx. destruct Hx as (y & <- & Hy).
    rewrite Forall_forall in F. apply F in Hy. lia.
  - apply Forall_forall. intros x Hx. apply in_map_iff in Hx. destruct Hx as (y & <- & Hy).
    rewrite Forall_forall in F1. apply F1 in Hy. lia. Qed.

(** ** C12: control points *)
Lemma clamp_range t hi : 1 <= hi -> 1 <= clamp t hi <= hi.
Proof. unfold clamp. intros. destruct (t <? 1) eqn:E; [lia|]. destruct (t >? hi) eqn:E2; lia. Qed.
Lemma seg0_range order N t : (order = 2 \/ order = 3) -> order < N -> 0 <= seg0 order N t - 1 /\ seg0 order N t - 1 + order < N.
Proof. intros Ho HN. unfold seg0. destruct (order =? 3) eqn:E.
  - pose proof (clamp_range t (N - 3)). lia.
  - pose proof (clamp_range t (N - 2)). lia. Qed.

(** the first control point used *)
Lemma ivar0_spec c tx ty : lens_legal (SPLINED c) ->
  exists x0 y0, 0 <= x0 /\ x0 + sp_order c < sp_Nx c /\ 0 <= y0 /\ y0 + sp_order c < sp_Ny c /\
  ivar0 c tx ty = 4 + 2 * (y0 * sp_Nx c + x0).
Proof. intros (Ho & Hx & Hy).
  exists (seg0 (sp_order c) (sp_Nx c) tx - 1), (seg0 (sp_order c) (sp_Ny c) ty - 1).
  pose proof (seg0_range (sp_order c) (sp_Nx c) tx Ho Hx).
  pose proof (seg0_range (sp_order c) (sp_Ny c) ty Ho Hy).
  unfold ivar0. repeat split; try lia. Qed.

Lemma cell_in_grid c x0 y0 : 0 <= x0 < sp_Nx c -> 0 <= y0 < sp_Ny c ->
  0 <= y0 * sp_Nx c + x0 < sp_Nx c * sp_Ny c.
Proof. intros. nia. Qed.

Lemma grad_cols_length c tx ty ixy : 0 <= sp_order c ->
  lenZ (grad_cols c tx ty ixy) = (sp_order c + 1) * (sp_order c + 1).
Proof. intro. unfold grad_cols. rewrite (lenZ_flat_map_const _ _ (sp_order c + 1)).
  - unfold lenZ. rewrite seq_length. rewrite Z2Nat.id by lia. reflexivity.
  - intros a _. rewrite lenZ_map. unfold lenZ. rewrite seq_length. lia. Qed.

Lemma stride_bound c : 0 <= sp_Nx c -> 0 <= ivar_stridey c <= 2 * sp_Nx c.
Proof. intro. unfold ivar_stridey. pose proof (Z.mod_pos_bound (2 * sp_Nx c) 65536 ltac:(lia)).
  pose proof (Z.mod_le (2 * sp_Nx c) 65536 ltac:(lia) ltac:(lia)). lia. Qed.

Lemma grad_cols_in c tx ty ixy k : lens_legal (SPLINED c) -> 0 <= ixy <= 1 ->
  In k (grad_cols c tx ty ixy) -> 4 <= k < 4 + 2 * (sp_Nx c * sp_Ny c).
Proof.
  intros HL Hi Hk. destruct (ivar0_spec c tx ty HL) as (x0 & y0 & H1 & H2 & H3 & H4 & E).
  destruct HL as (Ho & Hx & Hy).
  unfold grad_cols in Hk. apply in_flat_map in Hk. destruct Hk as (iy & Hiy & Hk).
  apply in_map_iff in Hk. destruct Hk as (ix & <- & Hix). apply in_seq in Hiy, Hix. rewrite E.
  pose proof (stride_bound c ltac:(lia)) as Hs.
  pose proof (cell_in_grid c (x0 + Z.of_nat ix) (y0 + Z.of_nat iy) ltac:(lia) ltac:(lia)) as Hg.
  assert (0 <= Z.of_nat iy * ivar_stridey c <= Z.of_nat iy * (2 * sp_Nx c)) by nia.
  assert (0 <= y0 * sp_Nx c) by nia.
  lia.
Qed.

Lemma seg_rows (f : nat -> list Z) s n lo st len :
  (forall i, (s <= i < s + n)%nat -> seg (lo + Z.of_nat i * st) (lo + Z.of_nat i * st + len) (f i)) -> 0 <= len <= st ->
  seg (lo + Z.of_nat s * st) (lo + Z.of_nat (s + n) * st) (flat_map f (seq s n)).
Proof.
  intros H Hst. revert s H. induction n as [|n IH]; intros s H; [apply seg_nil|].
  cbn [seq flat_map].
  eapply (seg_app _ (lo + Z.of_nat s * st + len) (lo + Z.of_nat (S s) * st)).
  - lia.
  - rewrite Nat2Z.inj_add, Nat2Z.inj_succ. assert (0 <= Z.of_nat n * st) by nia. lia.
  - lia.
  - apply H. lia.
  - replace (s + S n)%nat with (S s + n)%nat by lia. apply IH. intros; apply H; lia.
Qed.

Lemma SS_map_lt (f : nat -> Z) s n : (forall i, f i < f (S i)) -> StronglySorted Z.lt (map f (seq s n)).
Proof. intro H. assert (forall i d, f i < f (S d + i)%nat) as Hm.
  { intros i d; induction d; simpl in *; [auto|]. eapply Z.lt_trans; [apply IHd|auto]. }
  revert s. induction n as [|n IH]; intro s; simpl; constructor; auto.
  apply Forall_forall. intros x Hx. apply in_map_iff in Hx. destruct Hx as (j & <- & Hj). apply in_seq in Hj.
  replace j with (S (j - s - 1) + s)%nat by lia. apply Hm. Qed.

Lemma grad_cols_seg c tx ty ixy : lens_legal (SPLINED c) -> lens_narrow (SPLINED c) -> 0 <= ixy <= 1 ->
  StronglySorted Z.lt (grad_cols c tx ty ixy).
Proof.
  intros (Ho & Hx & Hy) Hn Hi. unfold grad_cols. simpl in Hn.
  assert (ivar_stridey c = 2 * sp_Nx c) as Es by (unfold ivar_stridey; apply Z.mod_small; lia). rewrite Es.
  eapply (seg_rows _ 0%nat _ (ivar0 c tx ty) (2 * sp_Nx c) (2 * sp_Nx c)); [|lia].
  intros i _. split.
  - apply SS_map_lt. intro; lia.
  - apply Forall_forall. intros x Hx'. apply in_map_iff in Hx'. destruct Hx' as (ix & <- & Hix).
    apply in_seq in Hix. lia.
Qed.

Lemma sample_reads_in c tx ty k : lens_legal (SPLINED c) -> In k (sample_reads c tx ty) ->
  exists iy ix ixy, 0 <= ix < sp_Nx c /\ 0 <= iy < sp_Ny c /\ 0 <= ixy <= 1 /\
    k = 4 + 2 * (iy * sp_Nx c + ix) + ixy.
Proof.
  intros HL Hk. destruct (ivar0_spec c tx ty HL) as (x0 & y0 & H1 & H2 & H3 & H4 & E).
  destruct HL as (Ho & Hx & Hy).
  unfold sample_reads in Hk. apply in_flat_map in Hk. destruct Hk as (iy & Hiy & Hk).
  apply in_flat_map in Hk. destruct Hk as (ix & Hix & Hk). apply in_map_iff in Hk.
  destruct Hk as (xy & <- & Hxy). apply in_seq in Hiy, Hix.
  exists (y0 + Z.of_nat iy), (x0 + Z.of_nat ix), (Z.of_nat xy). rewrite E.
  assert (Z.of_nat xy = 0 \/ Z.of_nat xy = 1) by (destruct Hxy as [<-|[<-|[]]]; lia).
  repeat split; try lia.
Qed.

(** ** columns *)
Section Cols.
  Context (p : problem).
  Hypothesis Hok : problem_ok p.

  Let nI := num_states_intrinsics p.
  Let nE := num_states_extrinsics p.
  Let nF := num_states_frames p.
  Let nP := num_states_points p.
  Let nW := num_states_warp p.

  Lemma intr_block icam : 0 <= icam < p_Nci p ->
    do_core (p_sel p) = true \/ (do_dist (p_sel p) = true /\ 4 < num_params (p_lens p)) ->
    0 <= state_index_intrinsics p icam /\ state_index_intrinsics p icam + item_size p (SI_intr 0) <= nI.
  Proof.
    intros Hi Hd. pose proof (state_index_closed p (SI_intr icam) Hok (conj Hi Hd)) as E. cbn [state_index] in E.
    rewrite E. unfold nI. rewrite nsi_eq. apply mul_fits; auto. apply intr_size_nonneg; auto. Qed.
  Lemma ext_block icam : 0 <= icam < p_Nce p -> do_ext (p_sel p) = true ->
    nI <= state_index_extrinsics p icam /\ state_index_extrinsics p icam + 6 <= nI + nE.
  Proof.
    intros Hi Hd. pose proof (state_index_closed p (SI_ext icam) Hok (conj Hi Hd)) as E. cbn [state_index] in E.
    rewrite E. unfold nE, num_states_extrinsics. rewrite Hd. lia. Qed.
  Lemma frame_block i : 0 <= i < p_Nframes p -> do_frames (p_sel p) = true ->
    nI + nE <= state_index_frames p i /\ state_index_frames p i + 6 <= nI + nE + nF.
  Proof.
    intros Hi Hd. pose proof (state_index_closed p (SI_frame i) Hok (conj Hi Hd)) as E. cbn [state_index] in E.
    rewrite E. unfold nF, num_states_frames. rewrite Hd. lia. Qed.
  Lemma point_block i : 0 <= i < p_Npoints p - p_Npoints_fixed p -> do_frames (p_sel p) = true ->
    nI + nE + nF <= state_index_points p i /\ state_index_points p i + 3 <= nI + nE + nF + nP.
  Proof.
    intros Hi Hd. pose proof (state_index_closed p (SI_point i) Hok (conj Hi Hd)) as E. cbn [state_index] in E.
    rewrite E. unfold nP, num_states_points. rewrite Hd. lia. Qed.
  Lemma warp_block : has_warp p = true ->
    nI + nE + nF + nP <= state_index_warp p /\ state_index_warp p + 2 <= nI + nE + nF + nP + nW.
  Proof.
    intros Hd. pose proof (state_index_closed p SI_warp Hok (proj1 (has_warp_iff p) Hd)) as E. cbn [state_index] in E.
    rewrite E. unfold nW, num_states_warp. rewrite Hd. lia. Qed.

  Lemma in_states lo hi l : 0 <= lo -> hi <= num_states p -> Forall (fun x => lo <= x < hi) l ->
    Forall (fun c => 0 <= c < num_states p) l.
  Proof. intros. eapply Forall_impl; [|eassumption]. simpl; intros; lia. Qed.

  (** the intrinsics columns of an observation *)
  Definition icols (ivi : Z) (dist : Z -> list Z) (ixy : Z) : list Z :=
    (if do_core (p_sel p) then [ivi + ixy; ivi + ixy + 2] else []) ++
    (if do_dist (p_sel p) then dist ivi else []).

  Definition dist_in (ivi : Z) : list Z -> Prop := 
    Forall (fun k => ivi + (if do_core (p_sel p) then 4 else 0) <= k < ivi + (if do_core (p_sel p) then 4 else 0) + (num_params (p_lens p) - 4)).

  Hypothesis HL : lens_legal (p_lens p).

  Definition dist_inlier (ivi : Z) (sp : Z * Z) (ixy : Z) : list Z :=
    match p_lens p with
    | SPLINED c => map (fun k => ivi + (k - (if do_core (p_sel p) then 0 else 4)))
                          (grad_cols c (fst sp) (snd sp) ixy)
    | _ => zrange (ivi + (if has_core (p_lens p) && do_core (p_sel p) then 4 else 0)) (num_params (p_lens p) - (if has_core (p_lens p) then 4 else 0))
    end.
  Definition dist_outlier (ivi : Z) : list Z :=
    match p_lens p with
    | SPLINED c => zrange (ivi + (if has_core (p_lens p) && do_core (p_sel p) then 4 else 0)) ((sp_order c + 1) * (sp_order c + 1))
    | _ => zrange (ivi + (if has_core (p_lens p) && do_core (p_sel p) then 4 else 0)) (num_params (p_lens p) - (if has_core (p_lens p) then 4 else 0))
    end.

  Lemma zrange_all a n : Forall (fun k => a <= k < a + n) (zrange a n).
  Proof. apply Forall_forall. intros x H. now apply zrange_in. Qed.

  Lemma dist_inlier_in ivi sp ixy : 0 <= ixy <= 1 -> dist_in ivi (dist_inlier ivi sp ixy).
  Proof.
    intro Hi. unfold dist_in, dist_inlier. unfold has_core. cbn [andb].
    destruct (p_lens p) eqn:E; try (apply zrange_all).
    apply Forall_forall. intros x Hx. apply in_map_iff in Hx. destruct Hx as (k & <- & Hk).
    apply grad_cols_in in Hk; auto. unfold num_params. destruct (do_core (p_sel p)); lia.
  Qed.
  Lemma dist_outlier_in ivi : dist_in ivi (dist_outlier ivi).
  Proof.
    unfold dist_in, dist_outlier. unfold has_core. cbn [andb].
    destruct (p_lens p) eqn:E; try (apply zrange_all).
    eapply Forall_impl; [|apply zrange_all]. cbv beta. intros x Hx. destruct HL as (Ho & H1 & H2).
    unfold num_params. assert ((sp_order c + 1) * (sp_order c + 1) <= sp_Nx c * sp_Ny c) by nia. lia.
  Qed.
  Lemma map_affine_SS (l : list Z) a b : StronglySorted Z.lt l -> StronglySorted Z.lt (map (fun k => a + (k - b)) l).
  Proof. induction 1; simpl; constructor; auto. apply Forall_forall. intros x Hx. apply in_map_iff in Hx.
    destruct Hx as (y & <- & Hy). rewrite Forall_forall in H0. apply H0 in Hy. lia. Qed.
  Lemma dist_inlier_sorted ivi sp ixy : lens_narrow (p_lens p) -> 0 <= ixy <= 1 ->
    StronglySorted Z.lt (dist_inlier ivi sp ixy).
  Proof.
    intros Hn Hi. unfold dist_inlier. unfold has_core. cbn [andb].
    destruct (p_lens p) eqn:E; try apply (seg_zrange _ _ _ _ (Z.le_refl _) (Z.le_refl _)).
    apply map_affine_SS. now apply grad_cols_seg.
  Qed.
  Lemma dist_outlier_sorted ivi : StronglySorted Z.lt (dist_outlier ivi).
  Proof. unfold dist_outlier. destruct (p_lens p); apply (seg_zrange _ _ _ _ (Z.le_refl _) (Z.le_refl _)). Qed.

  Lemma icols_in icam d ixy : 0 <= icam < p_Nci p -> 0 <= ixy <= 1 ->
    (forall v, dist_in v (d v)) ->
    Forall (fun k => 0 <= k < nI) (icols (state_index_intrinsics p icam) d ixy).
  Proof.
    intros Hi Hxy Hd. pose proof (num_params_ge4 _ (proj1 Hok)) as Hn.
    unfold icols. destruct (do_core (p_sel p)) eqn:Ec.
    - destruct (intr_block icam Hi (or_introl Ec)) as (A & B). unfold item_size in B. rewrite Ec in B.
      apply Forall_app. split.
      + repeat constructor; destruct (do_dist (p_sel p)); lia.
      + destruct (do_dist (p_sel p)) eqn:Ed; [|constructor].
        eapply Forall_impl; [|apply Hd]. cbv beta. rewrite Ec. intros; lia.
    - destruct (do_dist (p_sel p)) eqn:Ed; [|constructor]. cbn [app].
      destruct (Z.eq_dec (num_params (p_lens p)) 4) as [E4|E4].
      + eapply Forall_impl; [|apply Hd]. cbv beta. rewrite Ec. intros; lia.
      + assert (4 < num_params (p_lens p)) as E5 by lia.
        destruct (intr_block icam Hi (or_intror (conj Ed E5))) as (A & B). unfold item_size in B. rewrite Ec, Ed in B.
        eapply Forall_impl; [|apply Hd]. cbv beta. rewrite Ec. intros; lia.
  Qed.
  Lemma icols_sorted icam d ixy : 0 <= ixy <= 1 ->
    (forall v, dist_in v (d v)) -> (forall v, StronglySorted Z.lt (d v)) ->
    StronglySorted Z.lt (icols (state_index_intrinsics p icam) d ixy).
  Proof.
    intros Hxy Hd Hs. unfold icols. destruct (do_core (p_sel p)) eqn:Ec.
    - apply SS_app.
      + repeat constructor. lia.
      + destruct (do_dist (p_sel p)); [auto|constructor].
      + intros x y Hx Hy. destruct (do_dist (p_sel p)); [|destruct Hy].
        specialize (Hd (state_index_intrinsics p icam)). unfold dist_in in Hd. rewrite Ec, Forall_forall in Hd.
        apply Hd in Hy. simpl in Hx. lia.
    - destruct (do_dist (p_sel p)); [cbn [app]; auto|constructor].
  Qed.

  Definition ecols (e : Z) : list Z :=
    if do_ext (p_sel p) then if 0 <=? e then zrange (state_index_extrinsics p e + 0) 3 ++ zrange (state_index_extrinsics p e + 3) 3 else [] else [].
  Lemma six lo hi v : lo <= v -> v + 6 <= hi -> seg lo hi (zrange (v + 0) 3 ++ zrange (v + 3) 3).
  Proof. intros. apply (seg_app lo (v+3) (v+3) hi); try lia; apply seg_zrange; lia. Qed.
  Lemma ecols_seg e : e < p_Nce p -> seg nI (nI + nE) (ecols e).
  Proof. intro He. unfold ecols. destruct (do_ext (p_sel p)) eqn:E; [|apply seg_nil].
    destruct (0 <=? e) eqn:E0; [|apply seg_nil].
    destruct (ext_block e ltac:(lia) E). apply six; lia. Qed.
  Definition fcols (i : Z) : list Z :=
    if do_frames (p_sel p) then zrange (state_index_frames p i + 0) 3 ++ zrange (state_index_frames p i + 3) 3 else [].
  Lemma fcols_seg i : 0 <= i < p_Nframes p -> seg (nI + nE) (nI + nE + nF) (fcols i).
  Proof. intro. unfold fcols. destruct (do_frames (p_sel p)) eqn:E; [|apply seg_nil].
    destruct (frame_block i H E). apply six; lia. Qed.
  Definition wcols : list Z := if has_warp p then zrange (state_index_warp p) 2 else [].
  Lemma wcols_seg : seg (nI + nE + nF + nP) (num_states p) wcols.
  Proof. unfold wcols. destruct (has_warp p) eqn:E; [|apply seg_nil].
    destruct (warp_block E). unfold num_states. fold nI nE nF nP nW. apply seg_zrange; lia. Qed.
  Definition pcols (i : Z) : list Z :=
    if do_frames (p_sel p) && (i <? p_Npoints p - p_Npoints_fixed p) then zrange (state_index_points p i) 3 else [].
  Lemma pcols_seg i : 0 <= i < p_Npoints p -> seg (nI + nE + nF) (nI + nE + nF + nP) (pcols i).
  Proof. intro. unfold pcols. destruct (_ && _) eqn:E; [|apply seg_nil].
    apply andb_true_iff in E. destruct E as (E1 & E2). destruct (point_block i ltac:(lia) E1). apply seg_zrange; lia. Qed.
  Lemma nonneg : 0 <= nI /\ 0 <= nE /\ 0 <= nF /\ 0 <= nP /\ 0 <= nW.
  Proof. apply regions_ordered; auto. Qed.

  Lemma SS_of_seg_tail a lo hi b : StronglySorted Z.lt a -> Forall (fun k => 0 <= k < lo) a -> seg lo hi b ->
    StronglySorted Z.lt (a ++ b).
  Proof. intros Sa Fa (Sb & Fb). apply SS_app; auto. intros x y Hx Hy. rewrite Forall_forall in *.
    apply Fa in Hx. apply Fb in Hy. lia. Qed.

  (** whole rows *)
  Lemma board_tail_seg o : bo_icam_e o < p_Nce p -> 0 <= bo_iframe o < p_Nframes p ->
    seg nI (num_states p) (ecols (bo_icam_e o) ++ fcols (bo_iframe o) ++ wcols).
  Proof. intros He Hf. pose proof nonneg as N. pose proof (wcols_seg) as W.
    assert (num_states p = nI + nE + nF + nP + nW) as En by reflexivity.
    apply (seg_app nI (nI+nE) (nI+nE) _); try lia.
    - now apply ecols_seg.
    - apply (seg_app (nI+nE) (nI+nE+nF) (nI+nE+nF+nP) _); try lia; auto. now apply fcols_seg. Qed.
  Lemma point_tail_seg e i : e < p_Nce p -> 0 <= i < p_Npoints p ->
    seg nI (num_states p) (ecols e ++ pcols i).
  Proof. intros He Hi. pose proof nonneg as N.
    assert (num_states p = nI + nE + nF + nP + nW) as En by reflexivity.
    apply (seg_app nI (nI+nE) (nI+nE+nF) _); try lia.
    - now apply ecols_seg.
    - apply (seg_weaken (nI+nE+nF) (nI+nE+nF+nP)); [lia|lia|]. now apply pcols_seg. Qed.

  Lemma board_cols_inlier_eq o sp ixy : board_cols_inlier p o sp ixy =
    icols (state_index_intrinsics p (bo_icam_i o)) (fun v => dist_inlier v sp ixy) ixy
    ++ (ecols (bo_icam_e o) ++ fcols (bo_iframe o) ++ wcols).
  Proof. unfold board_cols_inlier, icols. now rewrite <- app_assoc. Qed.
  Lemma board_cols_outlier_eq o sp ixy : board_cols_outlier p o sp ixy =
    icols (state_index_intrinsics p (bo_icam_i o)) (fun v => dist_inlier v sp ixy) ixy
    ++ (ecols (bo_icam_e o) ++ fcols (bo_iframe o) ++ wcols).
  Proof. unfold board_cols_outlier, icols. now rewrite <- app_assoc. Qed.
  Lemma point_cols_inlier_eq o sp ixy : point_cols_inlier p o sp ixy =
    icols (state_index_intrinsics p (po_icam_i o)) (fun v => dist_inlier v sp ixy) ixy
    ++ (ecols (po_icam_e o) ++ pcols (po_ipoint o)).
  Proof. unfold point_cols_inlier, icols. now rewrite <- app_assoc. Qed.
  Lemma point_cols_outlier_eq o ixy : point_cols_outlier p o ixy =
    icols (state_index_intrinsics p (po_icam_i o)) (fun v => dist_outlier v) ixy
    ++ (ecols (po_icam_e o) ++ pcols (po_ipoint o)).
  Proof. unfold point_cols_outlier, icols, ecols, pcols, use_position_from_state. rewrite <- app_assoc.
    do 3 f_equal. destruct (0 <=? po_icam_e o), (do_ext (p_sel p)); reflexivity. Qed.

  Definition good_cols (l : list Z) : Prop :=
    Forall (fun k => 0 <= k < num_states p) l /\ (lens_narrow (p_lens p) -> StronglySorted Z.lt l).

  Lemma obs_good icam d ixy tail : 0 <= icam < p_Nci p -> 0 <= ixy <= 1 ->
    (forall v, dist_in v (d v)) -> (lens_narrow (p_lens p) -> forall v, StronglySorted Z.lt (d v)) ->
    seg nI (num_states p) tail ->
    good_cols (icols (state_index_intrinsics p icam) d ixy ++ tail).
  Proof.
    intros Hi Hxy Hd Hs Ht. pose proof nonneg as N.
    assert (num_states p = nI + nE + nF + nP + nW) as En by reflexivity.
    pose proof (icols_in icam d ixy Hi Hxy Hd) as Hin. split.
    - apply Forall_app. split.
      + eapply Forall_impl; [|exact Hin]. cbv beta; intros; lia.
      + eapply Forall_impl; [|apply Ht]. cbv beta; intros; lia.
    - intro Hn. eapply SS_of_seg_tail; [apply icols_sorted; auto|exact Hin|exact Ht].
  Qed.

  Lemma board_inlier_good o sp ixy : 0 <= bo_icam_i o < p_Nci p -> bo_icam_e o < p_Nce p -> 0 <= bo_iframe o < p_Nframes p ->
    0 <= ixy <= 1 -> good_cols (board_cols_inlier p o sp ixy).
  Proof. intros. rewrite board_cols_inlier_eq. apply obs_good; auto.
    - intro; now apply dist_inlier_in.
    - intros Hn v. now apply dist_inlier_sorted.
    - now apply board_tail_seg. Qed.
  Lemma board_outlier_good o sp ixy : 0 <= bo_icam_i o < p_Nci p -> bo_icam_e o < p_Nce p -> 0 <= bo_iframe o < p_Nframes p ->
    0 <= ixy <= 1 -> good_cols (board_cols_outlier p o sp ixy).
  Proof. intros. rewrite board_cols_outlier_eq. apply obs_good; auto.
    - intro; now apply dist_inlier_in.
    - intros Hn v. now apply dist_inlier_sorted.
    - now apply board_tail_seg. Qed.
  Lemma point_inlier_good o sp ixy : 0 <= po_icam_i o < p_Nci p -> po_icam_e o < p_Nce p -> 0 <= po_ipoint o < p_Npoints p ->
    0 <= ixy <= 1 -> good_cols (point_cols_inlier p o sp ixy).
  Proof. intros. rewrite point_cols_inlier_eq. apply obs_good; auto.
    - intro; now apply dist_inlier_in.
    - intros Hn v. now apply dist_inlier_sorted.
    - now apply point_tail_seg. Qed.
  Lemma point_outlier_good o ixy : 0 <= po_icam_i o < p_Nci p -> po_icam_e o < p_Nce p -> 0 <= po_ipoint o < p_Npoints p ->
    0 <= ixy <= 1 -> good_cols (point_cols_outlier p o ixy).
  Proof. intros. rewrite point_cols_outlier_eq. apply obs_good; auto.
    - intro; now apply dist_outlier_in.
    - intros Hn v. now apply dist_outlier_sorted.
    - now apply point_tail_seg. Qed.

  Lemma tri_cols_in o0 o1 : to_icam_e o0 < p_Nce p -> to_icam_e o1 < p_Nce p -> do_ext (p_sel p) = true ->
    Forall (fun k => 0 <= k < num_states p) (tri_cols p o0 o1).
  Proof.
    intros H0 H1 He. pose proof nonneg as N.
    assert (num_states p = nI + nE + nF + nP + nW) as En by reflexivity.
    assert (forall e, e < p_Nce p -> Forall (fun k => 0 <= k < num_states p)
      (if 0 <=? e then let iv := state_index_extrinsics p e in zrange (iv + 0) 3 ++ zrange (iv + 3) 3 else [])) as A.
    { intros e Hlt. pose proof (ecols_seg e Hlt) as (_ & F). unfold ecols in F. rewrite He in F.
      cbv zeta. eapply Forall_impl; [|exact F]. cbv beta; intros; lia. }
    unfold tri_cols. apply Forall_app. split; apply A; auto.
  Qed.
End Cols.

(** ** lengths of rows *)
Section Lengths.
  Context (p : problem).
  Hypothesis Hok : problem_ok p.
  Lemma icols_len v d ixy n : 0 <= n -> (do_dist (p_sel p) = true -> lenZ (d v) = n) ->
    lenZ (icols p v d ixy) = (if do_core (p_sel p) then 2 else 0) + (if do_dist (p_sel p) then n else 0).
  Proof. intros Hn Hd. unfold icols. rewrite lenZ_app. destruct (do_core (p_sel p)), (do_dist (p_sel p));
    rewrite ?Hd by auto; reflexivity. Qed.
  Definition dlen : Z := match p_lens p with SPLINED c => (sp_order c + 1) * (sp_order c + 1) | m => num_params m - 4 end.
  Lemma dlen_nonneg : 0 <= dlen.
  Proof. pose proof (num_params_ge4 _ (proj1 Hok)). unfold dlen. destruct (p_lens p); try lia. nia. Qed.
  Lemma dist_inlier_len v sp ixy : lenZ (dist_inlier p v sp ixy) = dlen.
  Proof. pose proof (num_params_ge4 _ (proj1 Hok)) as G. unfold dist_inlier, dlen, has_core.
    destruct (p_lens p) eqn:E; try (apply lenZ_zrange; lia).
    rewrite lenZ_map. apply grad_cols_length. destruct Hok as (L & _). rewrite E in L. unfold lens_ok, u16 in L. lia. Qed.
  Lemma dist_outlier_len v : lenZ (dist_outlier p v) = dlen.
  Proof. pose proof (num_params_ge4 _ (proj1 Hok)) as G. unfold dist_outlier, dlen, has_core.
    destruct (p_lens p) eqn:E; try (apply lenZ_zrange; lia).
    apply lenZ_zrange. nia. Qed.
  Lemma nintr_eq : nintr_per_meas p = (if do_core (p_sel p) then 2 else 0) + (if do_dist (p_sel p) then dlen else 0).
  Proof. unfold nintr_per_meas, num_intrinsics_opt, num_distortions_opt, dlen, has_core.
    destruct (do_core (p_sel p)), (do_dist (p_sel p)), (p_lens p); cbn [andb]; lia. Qed.
  Lemma ecols_len e : lenZ (ecols p e) = if do_ext (p_sel p) && (0 <=? e) then 6 else 0.
  Proof. unfold ecols. destruct (do_ext (p_sel p)); [|reflexivity]. cbn [andb].
    destruct (0 <=? e); reflexivity. Qed.
  Lemma fcols_len i : lenZ (fcols p i) = if do_frames (p_sel p) then 6 else 0.
  Proof. unfold fcols. destruct (do_frames (p_sel p)); reflexivity. Qed.
  Lemma wcols_len : lenZ (wcols p) = if has_warp p then 2 else 0.
  Proof. unfold wcols. destruct (has_warp p); reflexivity. Qed.
  Lemma pcols_len i : lenZ (pcols p i) = if do_frames (p_sel p) && (i <? p_Npoints p - p_Npoints_fixed p) then 3 else 0.
  Proof. unfold pcols. destruct (_ && _); reflexivity. Qed.

  Definition blen (o : board_obs) : Z :=
    nintr_per_meas p + (if do_ext (p_sel p) && (0 <=? bo_icam_e o) then 6 else 0) + (if do_frames (p_sel p) then 6 else 0)
    + (if has_warp p then 2 else 0).
  Lemma board_inlier_len o sp ixy : lenZ (board_cols_inlier p o sp ixy) = blen o.
  Proof. rewrite board_cols_inlier_eq, !lenZ_app, ecols_len, fcols_len, wcols_len.
    rewrite (icols_len _ _ _ dlen), <- nintr_eq; [unfold blen; ring|apply dlen_nonneg|intros; apply dist_inlier_len]. Qed.
  Lemma board_outlier_len o sp ixy : lenZ (board_cols_outlier p o sp ixy) = blen o.
  Proof. rewrite board_cols_outlier_eq, !lenZ_app, ecols_len, fcols_len, wcols_len.
    rewrite (icols_len _ _ _ dlen), <- nintr_eq; [unfold blen; ring|apply dlen_nonneg|intros; apply dist_inlier_len]. Qed.
  Definition plen (o : point_obs) : Z :=
    nintr_per_meas p + (if do_ext (p_sel p) && (0 <=? po_icam_e o) then 6 else 0)
    + (if do_frames (p_sel p) && (po_ipoint o <? p_Npoints p - p_Npoints_fixed p) then 3 else 0).
  Lemma point_inlier_len o sp ixy : lenZ (point_cols_inlier p o sp ixy) = plen o.
  Proof. rewrite point_cols_inlier_eq, !lenZ_app, ecols_len, pcols_len.
    rewrite (icols_len _ _ _ dlen), <- nintr_eq; [unfold plen; ring|apply dlen_nonneg|intros; apply dist_inlier_len]. Qed.
  Lemma point_outlier_len o ixy : lenZ (point_cols_outlier p o ixy) = plen o.
  Proof. rewrite point_cols_outlier_eq, !lenZ_app, ecols_len, pcols_len.
    rewrite (icols_len _ _ _ dlen), <- nintr_eq; [unfold plen; ring|apply dlen_nonneg|intros; apply dist_outlier_len]. Qed.
  Definition elen (e : Z) : Z := if 0 <=? e then 6 else 0.
  Lemma tri_cols_len o0 o1 : lenZ (tri_cols p o0 o1) = elen (to_icam_e o0) + elen (to_icam_e o1).
  Proof. unfold tri_cols, elen. rewrite lenZ_app. destruct (0 <=? to_icam_e o0), (0 <=? to_icam_e o1); reflexivity. Qed.
End Lengths.

(** ** values and the write machine *)
Section Rows.
  Context {V : Type} (vzero : V) (ge0 le0 : V -> bool).
  Notation rowV := (@row V).
  Notation rtot := (fun rows : list rowV => sumZ (map (fun r => lenZ (r_j r)) rows)).
  Definition tot (rows : list rowV) : Z := rtot rows.

  Lemma tot_app a b : tot (a ++ b) = tot a + tot b.
  Proof. unfold tot. now rewrite map_app, sumZ_app. Qed.
  Lemma tot_nonneg rows : 0 <= tot rows.
  Proof. unfold tot. induction rows; simpl; [lia|]. unfold sumZ in *. simpl. unfold lenZ at 1. lia. Qed.
  Lemma tot_cons r rows : tot (r :: rows) = lenZ (r_j r) + tot rows.
  Proof. reflexivity. Qed.

  Lemma combine_snd {A B} (l : list B) : forall (a : list A), length a = length l -> map snd (combine a l) = l.
  Proof. induction l; intros [|x a'] H; simpl in *; try discriminate; auto. f_equal. auto. Qed.
  Lemma with_values_cols ov id l : map fst (@with_values V ov id l) = l.
  Proof. unfold with_values. rewrite map_map. cbn [fst]. rewrite <- (combine_snd l (seq 0 (length l))) at 3 by apply seq_length.
    reflexivity. Qed.
  Lemma with_zeros_cols l : map fst (with_zeros vzero l) = l.
  Proof. unfold with_zeros. rewrite map_map. cbn [fst]. apply map_id. Qed.
  Lemma inlier_cols ovx ovj id l : cols (@inlier_row V ovx ovj id l) = l.
  Proof. unfold cols, inlier_row. cbn [r_j]. apply with_values_cols. Qed.
  Lemma outlier_cols id l : cols (outlier_row vzero id l) = l.
  Proof. unfold cols, outlier_row. cbn [r_j]. apply with_zeros_cols. Qed.
  Lemma lenZ_cols (r : rowV) : lenZ (r_j r) = lenZ (cols r).
  Proof. unfold cols. now rewrite lenZ_map. Qed.

  (** effect of the writes *)
  Lemma stores_effect jt l : forall s : @wstate V,
    let s' := fold_left (store jt) l s in
    iM s' = iM s /\ iJ s' = iJ s + lenZ l /\ w_x s' = w_x s /\ w_rowptr s' = w_rowptr s /\
    map fst (w_colidx s') = map fst (w_colidx s) ++ (if jt then zrange (iJ s) (lenZ l) else []) /\
    map snd (w_colidx s') = map snd (w_colidx s) ++ (if jt then map fst l else []) /\
    map fst (w_val s') = map fst (w_val s) ++ (if jt then zrange (iJ s) (lenZ l) else []) /\
    map snd (w_val s') = map snd (w_val s) ++ (if jt then map snd l else []).
  Proof.
    induction l as [|cv l IH]; intro s; cbv zeta.
    - cbn [fold_left]. unfold lenZ, zrange. cbn. destruct jt; rewrite ?app_nil_r; repeat split; lia.
    - cbn [fold_left]. specialize (IH (store jt s cv)). cbv zeta in IH.
      destruct IH as (H1 & H2 & H3 & H4 & H5 & H6 & H7 & H8).
      rewrite H1, H2, H3, H4, H5, H6, H7, H8. cbn [store iM iJ w_x w_rowptr w_colidx w_val].
      assert (lenZ (cv :: l) = lenZ l + 1) as El by (unfold lenZ; cbn [length]; lia).
      assert (zrange (iJ s) (lenZ l + 1) = iJ s :: zrange (iJ s + 1) (lenZ l)) as Ez.
      { unfold zrange. rewrite Z2Nat.inj_add by (unfold lenZ; lia). rewrite Nat.add_comm. cbn [Z.to_nat Pos.to_nat Pos.iter_op Nat.add seq map].
        change (Pos.to_nat 1 + Z.to_nat (lenZ l))%nat with (S (Z.to_nat (lenZ l))). cbn [seq map].
        f_equal; [lia|]. rewrite <- seq_shift, map_map. apply map_ext. intro; lia. }
      rewrite El. destruct jt; cbn [map fst snd]; rewrite ?app_nil_r, ?map_app, ?Ez, <- ?app_assoc; cbn [map fst snd app];
        repeat split; auto; lia.
  Qed.

  Fixpoint rowptrs (j : Z) (rows : list rowV) : list Z :=
    match rows with [] => [] | r :: rest => j :: rowptrs (j + lenZ (r_j r)) rest end.

  Lemma rows_effect jt rows : forall s : @wstate V,
    let s' := fold_left (write_row jt) rows s in
    iM s' = iM s + lenZ rows /\ iJ s' = iJ s + tot rows /\
    map fst (w_x s') = map fst (w_x s) ++ zrange (iM s) (lenZ rows) /\
    map snd (w_x s') = map snd (w_x s) ++ map r_x rows /\
    map fst (w_rowptr s') = map fst (w_rowptr s) ++ (if jt then zrange (iM s) (lenZ rows) else []) /\
    map snd (w_rowptr s') = map snd (w_rowptr s) ++ (if jt then rowptrs (iJ s) rows else []) /\
    map fst (w_colidx s') = map fst (w_colidx s) ++ (if jt then zrange (iJ s) (tot rows) else []) /\
    map snd (w_colidx s') = map snd (w_colidx s) ++ (if jt then flat_map cols rows else []) /\
    map fst (w_val s') = map fst (w_val s) ++ (if jt then zrange (iJ s) (tot rows) else []) /\
    map snd (w_val s') = map snd (w_val s) ++ (if jt then flat_map vals rows else []).
  Proof.
    induction rows as [|r rows IH]; intro s; cbv zeta.
    - cbn [fold_left]. unfold tot, lenZ, zrange. cbn. destruct jt; rewrite ?app_nil_r; repeat split; lia.
    - cbn [fold_left]. specialize (IH (write_row jt s r)). cbv zeta in IH.
      destruct IH as (H1 & H2 & H3 & H4 & H5 & H6 & H7 & H8 & H9 & H10).
      rewrite H1, H2, H3, H4, H5, H6, H7, H8, H9, H10. clear H1 H2 H3 H4 H5 H6 H7 H8 H9 H10.
      unfold write_row.
      match goal with |- context[fold_left (store jt) (r_j r) ?s1] => pose proof (stores_effect jt (r_j r) s1) as E end.
      cbv zeta in E. cbn [iM iJ w_x w_rowptr w_colidx w_val] in E.
      match type of E with context[fold_left (store jt) (r_j r) ?s1] => set (s2 := fold_left (store jt) (r_j r) s1) in * end.
      cbn [iM iJ w_x w_rowptr w_colidx w_val].
      destruct E as (E1 & E2 & E3 & E4 & E5 & E6 & E7 & E8). rewrite E1, E2, E3, E4, E5, E6, E7, E8.
      assert (forall a n, 0 <= n -> zrange a (n + 1) = a :: zrange (a + 1) n) as Ez.
      { intros a n Hn. unfold zrange. replace (Z.to_nat (n + 1)) with (S (Z.to_nat n)) by lia. cbn [seq map].
        f_equal; [lia|]. rewrite <- seq_shift, map_map. apply map_ext. intro; lia. }
      assert (forall a n k, 0 <= n -> 0 <= k -> zrange a (n + k) = zrange a n ++ zrange (a + n) k) as Ezz.
      { intros a n k Hn Hk. unfold zrange. rewrite Z2Nat.inj_add by lia. rewrite seq_app, map_app. f_equal.
        rewrite <- (Nat.add_0_l (Z.to_nat n)), Nat.add_comm, Nat.add_0_r.
        change (0 + Z.to_nat n)%nat with (Z.to_nat n).
        replace (seq (Z.to_nat n) (Z.to_nat k)) with (map (fun i => i + Z.to_nat n)%nat (seq 0 (Z.to_nat k))).
        - rewrite map_map. apply map_ext. intro; lia.
        - clear. generalize (Z.to_nat n). induction (Z.to_nat k) as [|m IHm] using nat_ind; intro s; auto.
          rewrite !seq_S, map_app, IHm. simpl. do 2 f_equal. lia. }
      assert (lenZ (r :: rows) = lenZ rows + 1) as El by (unfold lenZ; cbn [length]; lia).
      rewrite El, Ez by (unfold lenZ; lia). rewrite tot_cons, Ezz by (unfold lenZ; try lia; apply tot_nonneg).
      destruct jt; cbn [flat_map rowptrs map fst snd]; rewrite ?app_nil_r, ?map_app, <- ?app_assoc; cbn [map fst snd app];
        repeat split; auto; lia.
  Qed.

  Lemma write_all_effect jt rows :
    let s := write_all jt rows in
    iM s = lenZ rows /\ iJ s = tot rows /\
    map fst (w_x s) = zrange 0 (lenZ rows) /\ map snd (w_x s) = map r_x rows /\
    map fst (w_rowptr s) = (if jt then zrange 0 (lenZ rows + 1) else []) /\
    map snd (w_rowptr s) = (if jt then rowptrs 0 rows ++ [tot rows] else []) /\
    map fst (w_colidx s) = (if jt then zrange 0 (tot rows) else []) /\
    map snd (w_colidx s) = (if jt then flat_map cols rows else []) /\
    map fst (w_val s) = (if jt then zrange 0 (tot rows) else []) /\
    map snd (w_val s) = (if jt then flat_map vals rows else []).
  Proof.
    cbv zeta. unfold write_all. cbn [iM iJ w_x w_rowptr w_colidx w_val].
    pose proof (rows_effect jt rows wstart) as E. cbv zeta in E.
    set (s2 := fold_left (write_row jt) rows wstart) in *.
    unfold wstart in E. cbn [iM iJ w_x w_rowptr w_colidx w_val map app] in E.
    destruct E as (E1 & E2 & E3 & E4 & E5 & E6 & E7 & E8 & E9 & E10).
    rewrite E1, E2, E3, E4, E7, E8, E9, E10.
    repeat split; try lia.
    - destruct jt; [|exact E5]. rewrite map_app, E5. cbn [map fst].
      unfold zrange. replace (Z.to_nat (lenZ rows + 1)) with (S (Z.to_nat (lenZ rows))) by (unfold lenZ; lia).
      rewrite seq_S, map_app. cbn [map]. rewrite Nat.add_0_l, Z2Nat.id by (unfold lenZ; lia). do 2 f_equal.
    - destruct jt; [|exact E6]. rewrite map_app, E6. cbn [map snd]. do 2 f_equal.
  Qed.

  Lemma rowptrs_sorted rows : forall j, 
    (forall k, In k (rowptrs j rows) -> j <= k <= j + tot rows) /\ StronglySorted Z.le (rowptrs j rows).
  Proof.
    induction rows as [|r rows IH]; intro j.
    - split; [intros k []|constructor].
    - cbn [rowptrs]. destruct (IH (j + lenZ (r_j r))) as (I1 & I2). pose proof (tot_nonneg rows).
      assert (0 <= lenZ (r_j r)) by (unfold lenZ; lia). rewrite tot_cons. split.
      + intros k [<-|Hk]; [lia|]. apply I1 in Hk. lia.
      + constructor; auto. apply Forall_forall. intros k Hk. apply I1 in Hk. lia.
  Qed.
  Lemma SS_le_snoc l a : StronglySorted Z.le l -> (forall k, In k l -> k <= a) -> StronglySorted Z.le (l ++ [a]).
  Proof. induction 1; simpl; intro Hk; constructor.
    - constructor. - constructor. - apply IHStronglySorted. intros; apply Hk; auto.
    - apply Forall_app; split; auto. Qed.
  Lemma rowptr_full rows : let l := rowptrs 0 rows ++ [tot rows] in
    StronglySorted Z.le l /\ hd (-1) l = 0 /\ last l (-1) = tot rows.
  Proof. cbv zeta. destruct (rowptrs_sorted rows 0) as (H1 & H2). split; [|split].
    - apply SS_le_snoc; auto. intros k Hk. apply H1 in Hk. lia.
    - destruct rows; reflexivity.
    - apply last_last. Qed.
End Rows.
