(** C83: stereo_pair_diff() compares where two calibrated pairs see the same pixel of camera 0 *)
From Coq Require Import Reals ZArith List Bool Lra Lia Psatz.
From Verif Require Import S_Vec M_Pose M_Match M_Diff C_Rt M_PairDiff.
From Verif Require C_Diff.
Import ListNotations.
Open Scope R_scope.

(** ** Specification *)
Definition pose (c : camera) : Rt := m_cam_ref (c_model c).
(** camera c sees the point x of the reference system at this pixel *)
Definition pixel_of (c : camera) (x : v3) : pixel := m_project (c_model c) (vadd (mv (Rt_R (pose c)) x) (Rt_t (pose c))).
(** ... the point at infinity in the direction w of the reference system *)
Definition pixel_of_direction (c : camera) (w : v3) : pixel := m_project (c_model c) (mv (Rt_R (pose c)) w).
(** the point x is at the distance d from camera c, along the ray v *)
Definition at_distance (c : camera) (d : R) (v x : v3) : Prop := vadd (mv (Rt_R (pose c)) x) (Rt_t (pose c)) = vscale d v.
Definition along (c : camera) (v w : v3) : Prop := mv (Rt_R (pose c)) w = v.
(** the cameras of a pair are mounted by rigid motions *)
Definition mounted (p : pair) : Prop := is_rot (Rt_R (pose (fst p))) /\ is_rot (Rt_R (pose (snd p))).
(** the same camera after its rig was moved: cam_ref' x = cam_ref (g x) *)
Definition moved (g : v3 -> v3) (c c' : camera) : Prop :=
  m_size (c_model c') = m_size (c_model c) /\ m_unproject (c_model c') = m_unproject (c_model c) /\ m_project (c_model c') = m_project (c_model c) /\
  c_kind c' = c_kind c /\
  forall x, vadd (mv (Rt_R (pose c')) x) (Rt_t (pose c')) = vadd (mv (Rt_R (pose c)) (g x)) (Rt_t (pose c)).

(** ** Proofs *)
Definition the_Rt (dist : option R) (p : pair) : Rt := match dist with None => no_translation (Rt10_of p) | Some _ => Rt10_of p end.
Definition the_d (dist : option R) : R := match dist with None => 1 | Some d => d end.
Definition pick (pa pb : pair) (k : nat) : pair := match k with O => pa | _ => pb end.
Definition side (p : pair) (i : nat) : camera := match i with O => fst p | _ => snd p end.
Definition rep (pa pb : pair) (dist : option R) (q : pixel) (k i : nat) : option pixel :=
  option_map (fun v => m_project (c_model (match i with O => snd (pick pa pb k) | _ => fst (pick pa pb k) end))
     (transform_point_Rt (match i with O => the_Rt dist (pick pa pb k) | _ => invert_Rt (the_Rt dist (pick pa pb k)) end) (vscale (the_d dist) v) false))
   (m_unproject (c_model (side (pick pa pb k) i)) q).

Lemma done_inv : forall pa pb gw gh dist r, stereo_pair_diff [pa; pb] gw gh dist = Done r ->
  Forall (fun c => c_kind c = Central) [fst pa; snd pa; fst pb; snd pb] /\
  m_size (c_model (fst pb)) = m_size (c_model (fst pa)) /\ m_size (c_model (snd pb)) = m_size (c_model (snd pa)) /\
  pd_q0 r = sample_imager gw gh (fst (m_size (c_model (fst pa)))) (snd (m_size (c_model (fst pa)))) /\
  pd_reproject r = rep pa pb dist /\
  pd_diff r = map (fun q => pixel_sub (rep pa pb dist q 1 0) (rep pa pb dist q 0 0)) (pd_q0 r) /\
  pd_difflen r = map (option_map mag) (pd_diff r).
Proof.
  intros pa pb gw gh dist r H. unfold stereo_pair_diff in H. cbn [map check_kinds] in H.
  destruct (c_kind (fst pa)) eqn:K1; cbn [check_kind] in H; try discriminate.
  destruct (c_kind (snd pa)) eqn:K2; cbn [check_kind] in H; try discriminate.
  destruct (c_kind (fst pb)) eqn:K3; cbn [check_kind] in H; try discriminate.
  destruct (c_kind (snd pb)) eqn:K4; cbn [check_kind] in H; try discriminate.
  destruct (same_size (fst pb) (fst pa)) eqn:S1; cbn [negb] in H; [|discriminate].
  destruct (same_size (snd pb) (snd pa)) eqn:S2; cbn [negb] in H; [|discriminate].
  assert (forall a b, same_size a b = true -> m_size (c_model a) = m_size (c_model b)) as Z.
  { intros a b Q. unfold same_size in Q. apply andb_true_iff in Q. destruct Q as [Q1 Q2]. apply Z.eqb_eq in Q1, Q2.
    rewrite (surjective_pairing (m_size (c_model a))), (surjective_pairing (m_size (c_model b))). congruence. }
  apply (f_equal (fun o => match o with Done x => x | _ => r end)) in H. cbv iota beta in H. subst r. cbn [pd_q0 pd_reproject pd_diff pd_difflen].
  split; [repeat constructor; assumption|]. split; [apply Z, S1|]. split; [apply Z, S2|]. split; [reflexivity|]. split; [reflexivity|]. split; [|reflexivity].
  set (q0 := sample_imager _ _ _ _). clearbody q0. induction q0 as [|q q0 IH]; [reflexivity|]. cbn [map combine]. f_equal. exact IH.
Qed.
Lemma Rt10_acts : forall p x, mounted p -> act (Rt10_of p) (act (pose (fst p)) x) = act (pose (snd p)) x.
Proof.
  intros p x (M0 & M1). unfold Rt10_of. rewrite <- C22_transform_is_action. destruct (C22_compose (m_cam_ref (c_model (snd p))) (invert_Rt (m_cam_ref (c_model (fst p)))) (act (pose (fst p)) x)) as [E _].
  rewrite E, !C22_transform_is_action. unfold pose in *. now rewrite (proj1 (invert_act _ x M0)).
Qed.

Lemma Rt10_rot : forall p, mounted p -> is_rot (Rt_R (Rt10_of p)).
Proof.
  intros p (M0 & M1). apply (C22_compose (m_cam_ref (c_model (snd p))) (invert_Rt (m_cam_ref (c_model (fst p)))) v0); [exact M1|].
  apply (C22_invert (m_cam_ref (c_model (fst p))) v0 M0).
Qed.
Lemma Rt10_directions : forall p w, mounted p -> mv (Rt_R (Rt10_of p)) (mv (Rt_R (pose (fst p))) w) = mv (Rt_R (pose (snd p))) w.
Proof.
  intros p w M. pose proof (Rt10_acts p w M) as A. pose proof (Rt10_acts p v0 M) as B. unfold act in A, B.
  rewrite !mv_vadd in A. rewrite !mv_vadd in B.
  assert (forall m, mv m v0 = v0) as Z by (intro; apply v3_eq; vunfold; ring). rewrite !Z in B.
  set (a := mv (Rt_R (Rt10_of p)) (mv (Rt_R (pose (fst p))) w)) in *. clearbody a.
  set (b := mv (Rt_R (Rt10_of p)) (Rt_t (pose (fst p)))) in *. clearbody b. set (c := mv (Rt_R (pose (snd p))) w) in *. clearbody c.
  apply v3_eq; [apply (f_equal vx) in A, B|apply (f_equal vy) in A, B|apply (f_equal vz) in A, B]; revert A B; vunfold; lra.
Qed.
Lemma act_onto : forall T y, is_rot (Rt_R T) -> exists x, act T x = y.
Proof. intros T y H. exists (act (invert_Rt T) y). apply (invert_act T y H). Qed.

(** The difference at a pixel of camera 0: at a finite distance, the points at that distance along the two rays, as the two cameras 1 see them.
    At infinity, the two directions.  A pixel that some camera 0 can't unproject isn't reported *)
Theorem C83_reports : forall pa pb gw gh dist r, stereo_pair_diff [pa; pb] gw gh dist = Done r -> mounted pa -> mounted pb ->
  pd_q0 r = sample_imager gw gh (fst (m_size (c_model (fst pa)))) (snd (m_size (c_model (fst pa)))) /\
  length (pd_diff r) = length (pd_q0 r) /\ pd_difflen r = map (option_map (fun d => sqrt (fst d * fst d + snd d * snd d))) (pd_diff r) /\
  forall n q, nth_error (pd_q0 r) n = Some q ->
    match m_unproject (c_model (fst pa)) q, m_unproject (c_model (fst pb)) q with
    | Some va, Some vb =>
        exists qa qb, nth_error (pd_diff r) n = Some (Some (fst qb - fst qa, snd qb - snd qa)) /\
          match dist with
          | Some d => exists xa xb, at_distance (fst pa) d va xa /\ at_distance (fst pb) d vb xb /\ qa = pixel_of (snd pa) xa /\ qb = pixel_of (snd pb) xb
          | None => exists wa wb, along (fst pa) va wa /\ along (fst pb) vb wb /\ qa = pixel_of_direction (snd pa) wa /\ qb = pixel_of_direction (snd pb) wb
          end
    | _, _ => nth_error (pd_diff r) n = Some None
    end.
Proof.
  intros pa pb gw gh dist r H Ma Mb. destruct (done_inv _ _ _ _ _ _ H) as (_ & _ & _ & Q & _ & D & L).
  split; [exact Q|]. split; [rewrite D; apply map_length|]. split; [exact L|]. intros n q N. rewrite D, (map_nth_error _ _ _ N). unfold rep. cbn [pick side].
  destruct (m_unproject (c_model (fst pa)) q) as [va|]; destruct (m_unproject (c_model (fst pb)) q) as [vb|]; cbn [option_map pixel_sub]; try reflexivity.
  eexists. eexists. split; [reflexivity|]. unfold the_Rt, the_d. destruct dist as [d|].
  - destruct (act_onto (pose (fst pa)) (vscale d va) (proj1 Ma)) as (xa & Xa). destruct (act_onto (pose (fst pb)) (vscale d vb) (proj1 Mb)) as (xb & Xb).
    exists xa, xb. split; [exact Xa|]. split; [exact Xb|]. rewrite !C22_transform_is_action, <- Xa, <- Xb, !Rt10_acts by assumption. split; reflexivity.
  - exists (mv (mT (Rt_R (pose (fst pa)))) va), (mv (mT (Rt_R (pose (fst pb)))) vb). destruct Ma as [Ma0 Ma1], Mb as [Mb0 Mb1].
    assert (forall m v, is_rot m -> mv m (mv (mT m) v) = v) as RT by (intros; now apply rot_mv_mT).
    split; [apply RT, Ma0|]. split; [apply RT, Mb0|].
    rewrite !C22_transform_is_action. unfold act, no_translation. cbn [Rt_R Rt_t].
    assert (forall x, vadd x v0 = x) as A0 by (intro; apply v3_eq; vunfold; ring). assert (forall v, vscale 1 v = v) as S1 by (intro; apply v3_eq; vunfold; ring). rewrite !A0, !S1.
    unfold pixel_of_direction. split; f_equal.
    + rewrite <- (Rt10_directions pa) by (split; assumption). rewrite RT by exact Ma0. reflexivity.
    + rewrite <- (Rt10_directions pb) by (split; assumption). rewrite RT by exact Mb0. reflexivity.
Qed.

Lemma moved_Rt10 : forall g p p', mounted p -> mounted p' -> moved g (fst p) (fst p') -> moved g (snd p) (snd p') -> Rt10_of p' = Rt10_of p.
Proof.
  intros g p p' M M' (_ & _ & _ & _ & A) (_ & _ & _ & _ & B). apply act_inj_R. intro y.
  destruct (act_onto (pose (fst p')) y (proj1 M')) as (x & <-). rewrite Rt10_acts by exact M'.
  assert (act (pose (fst p')) x = act (pose (fst p)) (g x)) as -> by apply A. rewrite Rt10_acts by exact M. apply B.
Qed.
(** There is a result exactly for two pairs of central cameras, with the same imager sizes *)
Theorem C83_refuses : forall pairs gw gh dist, (exists r, stereo_pair_diff pairs gw gh dist = Done r) <->
  exists a0 a1 b0 b1, pairs = [(a0, a1); (b0, b1)] /\ Forall (fun c => c_kind c = Central) [a0; a1; b0; b1] /\
    m_size (c_model b0) = m_size (c_model a0) /\ m_size (c_model b1) = m_size (c_model a1).
Proof.
  intros pairs gw gh dist. split.
  - intros (r & H). destruct pairs as [|pa [|pb [|]]]; try discriminate. destruct (done_inv _ _ _ _ _ _ H) as (K & S0 & S1 & _).
    destruct pa as [a0 a1], pb as [b0 b1]. exists a0, a1, b0, b1. easy.
  - intros (a0 & a1 & b0 & b1 & -> & K & S0 & S1). unfold stereo_pair_diff. cbn [fst snd map].
    inversion K as [|? ? K0 K']; subst. inversion K' as [|? ? K1 K'']; subst. inversion K'' as [|? ? K2 Kq]; subst. inversion Kq as [|? ? K3 _]; subst.
    rewrite K0, K1, K2, K3. cbn [check_kinds check_kind]. unfold same_size. rewrite S0, S1, !Z.eqb_refl. cbn [andb negb]. eexists. reflexivity.
Qed.
(** Moving either rig as a whole changes nothing *)
Theorem C83_rig_moved : forall pa pb pa' pb' ga gb gw gh dist, mounted pa -> mounted pb -> mounted pa' -> mounted pb' ->
  moved ga (fst pa) (fst pa') -> moved ga (snd pa) (snd pa') -> moved gb (fst pb) (fst pb') -> moved gb (snd pb) (snd pb') ->
  forall r, stereo_pair_diff [pa; pb] gw gh dist = Done r -> exists r', stereo_pair_diff [pa'; pb'] gw gh dist = Done r' /\
    pd_q0 r' = pd_q0 r /\ pd_diff r' = pd_diff r /\ pd_difflen r' = pd_difflen r /\ forall q k i, pd_reproject r' q k i = pd_reproject r q k i.
Proof.
  intros pa pb pa' pb' ga gb gw gh dist Ma Mb Ma' Mb' A0 A1 B0 B1 r H. destruct (done_inv _ _ _ _ _ _ H) as (K & S0 & S1 & Q & P & D & L).
  pose proof (moved_Rt10 ga pa pa' Ma Ma' A0 A1) as Ea. pose proof (moved_Rt10 gb pb pb' Mb Mb' B0 B1) as Eb.
  destruct A0 as (A01 & A02 & A03 & A04 & _), A1 as (A11 & A12 & A13 & A14 & _), B0 as (B01 & B02 & B03 & B04 & _), B1 as (B11 & B12 & B13 & B14 & _).
  destruct (proj2 (C83_refuses [pa'; pb'] gw gh dist)) as (r' & H').
  { exists (fst pa'), (snd pa'), (fst pb'), (snd pb'). split; [now rewrite <- !surjective_pairing|].
    inversion K as [|? ? K0 Ka]; subst. inversion Ka as [|? ? K1 Kb]; subst. inversion Kb as [|? ? K2 Kq]; subst. inversion Kq as [|? ? K3 _]; subst.
    split; [repeat constructor; congruence|]. split; congruence. }
  exists r'. split; [exact H'|]. destruct (done_inv _ _ _ _ _ _ H') as (_ & _ & _ & Q' & P' & D' & L').
  assert (forall q k i, rep pa' pb' dist q k i = rep pa pb dist q k i) as X.
  { intros q k i. unfold rep. destruct k; cbn [pick]; unfold the_Rt; [rewrite Ea|rewrite Eb]; destruct i; cbn [side]; [rewrite A02, A13|rewrite A12, A03|rewrite B02, B13|rewrite B12, B03]; reflexivity. }
  assert (pd_q0 r' = pd_q0 r) as EQ by (rewrite Q', Q, A01; reflexivity). split; [exact EQ|].
  assert (pd_diff r' = pd_diff r) as ED by (rewrite D', D, EQ; apply map_ext; intro q; now rewrite !X). split; [exact ED|]. split; [now rewrite L', L, ED|].
  intros q k i. rewrite P', P. apply X.
Qed.
(** A rig that was only moved shows no difference *)
Theorem C83_same_rig : forall pa pb g gw gh dist r, mounted pa -> mounted pb -> moved g (fst pa) (fst pb) -> moved g (snd pa) (snd pb) ->
  stereo_pair_diff [pa; pb] gw gh dist = Done r ->
  forall n q, nth_error (pd_q0 r) n = Some q ->
    match m_unproject (c_model (fst pa)) q with
    | Some _ => nth_error (pd_diff r) n = Some (Some (0, 0)) /\ nth_error (pd_difflen r) n = Some (Some 0)
    | None => nth_error (pd_diff r) n = Some None /\ nth_error (pd_difflen r) n = Some None
    end.
Proof.
  intros pa pb g gw gh dist r Ma Mb A0 A1 H n q N. destruct (done_inv _ _ _ _ _ _ H) as (_ & _ & _ & _ & _ & D & L).
  pose proof (moved_Rt10 g pa pb Ma Mb A0 A1) as E. destruct A0 as (_ & U & _), A1 as (_ & _ & P & _).
  rewrite L, D, map_map, !(map_nth_error _ _ _ N). unfold rep. cbn [pick side]. unfold the_Rt. rewrite E, U, P.
  destruct (m_unproject (c_model (fst pa)) q) as [v|]; cbn [option_map pixel_sub]; [|split; reflexivity]. unfold mag. cbn [fst snd]. rewrite !Rminus_diag_eq by reflexivity. split; [reflexivity|].
  rewrite Rmult_0_l, Rplus_0_l, sqrt_0. reflexivity.
Qed.

(** At infinity the returned function maps back and forth between the two cameras of a pair *)
Theorem C83_back_and_forth : forall pa pb gw gh r k i q q', mounted pa -> mounted pb -> stereo_pair_diff [pa; pb] gw gh None = Done r -> (i < 2)%nat ->
  let c j := c_model (match j with O => fst (match k with O => pa | _ => pb end) | _ => snd (match k with O => pa | _ => pb end) end) in
  C_Diff.good_lens (c i) ->
  (forall x, norm2 x = 1 -> m_project (c (1 - i)%nat) x = q' -> m_unproject (c (1 - i)%nat) q' = Some x) ->
  pd_reproject r q k i = Some q' -> pd_reproject r q' k (1 - i) = Some q.
Proof.
  intros pa pb gw gh r k i q q' Ma Mb H I c G U E. destruct (done_inv _ _ _ _ _ _ H) as (_ & _ & _ & _ & P & _ & _). rewrite P in *. unfold rep in *.
  assert (mounted (pick pa pb k)) as M by (destruct k; assumption). fold (pick pa pb k) in c.
  set (T := the_Rt None (pick pa pb k)) in *.
  assert (is_rot (Rt_R T)) as RT by (apply (Rt10_rot _ M)).
  assert (forall v, vscale (the_d None) v = v) as S1 by (intro; apply v3_eq; cbn [the_d]; vunfold; ring). 
  assert (Rt_t T = v0) as T0 by reflexivity.
  assert (Rt_t (invert_Rt T) = v0) as T1. { unfold invert_Rt. cbn [Rt_t Rt_R]. rewrite T0. apply v3_eq; unfold mul_Rv; vunfold; ring. }
  assert (is_rot (Rt_R (invert_Rt T))) as RI by (apply (C22_invert T v0 RT)).
  assert (forall W v, is_rot (Rt_R W) -> Rt_t W = v0 -> norm2 (act W v) = norm2 v) as NN.
  { intros W v RW W0. unfold act. rewrite W0. replace (vadd (mv (Rt_R W) v) v0) with (mv (Rt_R W) v) by (apply v3_eq; vunfold; ring). unfold norm2. now apply rot_dot. }
  destruct (invert_act T v0 RT) as [_ _]. 
  destruct i as [|[|]]; [| |lia]; cbn [Nat.sub side] in *.
  - destruct (m_unproject (c_model (fst (pick pa pb k))) q) as [v|] eqn:V; cbn [option_map] in E; [|discriminate]. apply (f_equal (fun o => match o with Some x => x | None => q end)) in E; cbv iota beta in E.
    destruct (G q v V) as (N1 & Pr). rewrite C22_transform_is_action, S1 in E.
    change (c_model (snd (pick pa pb k))) with (c 1%nat). rewrite (U (act T v)); [|rewrite NN by assumption; exact N1|exact E]. cbn [option_map]. f_equal. rewrite C22_transform_is_action, S1.
    rewrite (proj1 (invert_act T v RT)). rewrite <- (Pr 1) by lra. f_equal. apply v3_eq; vunfold; ring.
  - destruct (m_unproject (c_model (snd (pick pa pb k))) q) as [v|] eqn:V; cbn [option_map] in E; [|discriminate]. apply (f_equal (fun o => match o with Some x => x | None => q end)) in E; cbv iota beta in E.
    destruct (G q v V) as (N1 & Pr). rewrite C22_transform_is_action, S1 in E.
    change (c_model (fst (pick pa pb k))) with (c 0%nat). rewrite (U (act (invert_Rt T) v)); [|rewrite NN by assumption; exact N1|exact E]. cbn [option_map]. f_equal. rewrite C22_transform_is_action, S1.
    rewrite (proj2 (invert_act T v RT)). rewrite <- (Pr 1) by lra. f_equal. apply v3_eq; vunfold; ring.
Qed.

(** The code says about CAHVORE "I know how to centralize this.  If we're looking at infinity, then this is ok".  It isn't: the evaluation of np.norm2 fails *)
Theorem C83_cahvore_refuted : exists a0 a1 b0 b1, Forall (fun c => c_kind c = Cahvore) [a0; a1; b0; b1] /\
  m_size (c_model b0) = m_size (c_model a0) /\ m_size (c_model b1) = m_size (c_model a1) /\
  forall gw gh, stereo_pair_diff [(a0, a1); (b0, b1)] gw gh None = Attribute_error.
Proof.
  pose (c := Camera (C_Diff.pin identity_R identity_Rt) Cahvore). exists c, c, c, c. split; [repeat constructor|]. easy.
Qed.

(** A pair of pinhole cameras, 1 apart, and the same pair moved by 5 along x: there is no difference at the distance 10.
    A pair 2 apart differs *)
Definition ex_camera (x : R) : camera := Camera (C_Diff.pin identity_R (mkRt identity_R (V3 x 0 0))) Central.
Definition ex_pair (x y : R) : pair := (ex_camera x, ex_camera y).
Lemma ex_I : is_rot identity_R.
Proof. exact is_rot_I. Qed.
Lemma ex_Rt10 : forall x y, Rt10_of (ex_pair x y) = mkRt identity_R (V3 (y - x) 0 0).
Proof.
  intros x y. apply act_inj_R. intro z. assert (mounted (ex_pair x y)) as M by (split; exact ex_I).
  destruct (act_onto (pose (fst (ex_pair x y))) z ex_I) as (w & <-). rewrite Rt10_acts by exact M.
  unfold act, pose. cbn [ex_pair ex_camera fst snd c_model C_Diff.pin m_cam_ref Rt_R Rt_t]. unfold identity_R. apply v3_eq; vunfold; ring.
Qed.
Example ex_C83 : mounted (ex_pair 0 1) /\ mounted (ex_pair 5 6) /\
  moved (fun x => vadd x (V3 5 0 0)) (ex_camera 0) (ex_camera 5) /\ moved (fun x => vadd x (V3 5 0 0)) (ex_camera 1) (ex_camera 6) /\
  C_Diff.good_lens (c_model (ex_camera 0)) /\
  (forall d, exists r, stereo_pair_diff [ex_pair 0 1; ex_pair 5 6] 3 (Some 3%Z) d = Done r /\ length (pd_q0 r) = 9%nat) /\
  exists r, stereo_pair_diff [ex_pair 0 1; ex_pair 0 2] 3 (Some 3%Z) (Some 10) = Done r /\ nth_error (pd_diff r) 0 = Some (Some (1 / 10, 0)).
Proof.
  split; [split; exact ex_I|]. split; [split; exact ex_I|].
  split. { repeat split. intro x. cbn [ex_camera pose c_model C_Diff.pin m_cam_ref Rt_R Rt_t]. unfold identity_R. apply v3_eq; vunfold; ring. }
  split. { repeat split. intro x. cbn [ex_camera pose c_model C_Diff.pin m_cam_ref Rt_R Rt_t]. unfold identity_R. apply v3_eq; vunfold; ring. }
  split; [apply C_Diff.pin_good, ex_I|].
  split; [intro d; eexists; split; reflexivity|].
  eexists. split; [reflexivity|]. set (r := PD _ _ _ _). 
  assert (stereo_pair_diff [ex_pair 0 1; ex_pair 0 2] 3 (Some 3%Z) (Some 10) = Done r) as E by reflexivity.
  destruct (done_inv _ _ _ _ _ _ E) as (_ & _ & _ & Q & _ & D & _). rewrite D. rewrite nth_error_map.
  assert (nth_error (pd_q0 r) 0 = Some (0, 0)) as ->.
  { rewrite Q. cbn [ex_pair ex_camera fst snd c_model C_Diff.pin m_size]. 
    destruct (C_Diff.C81_grid 3 (Some 3%Z) 3 3) as (G & _). specialize (G 0%Z 0%Z). cbn [grid_height] in G. 
    replace (Z.to_nat (0 * 3 + 0)) with 0%nat in G by reflexivity. rewrite G by lia. do 2 f_equal; ring. }
  cbn [option_map]. unfold rep. cbn [pick side ex_pair ex_camera fst snd c_model C_Diff.pin m_unproject m_project C_Diff.pin_unproject option_map pixel_sub the_Rt the_d].
  do 2 f_equal.
  assert (norm (V3 0 0 1) = 1) as N1 by (unfold norm, norm2, dot; cbn [vx vy vz]; replace (0 * 0 + 0 * 0 + 1 * 1) with 1 by ring; apply sqrt_1).
  change (ex_camera 0, ex_camera 1) with (ex_pair 0 1). change (ex_camera 0, ex_camera 2) with (ex_pair 0 2). rewrite !ex_Rt10.
  unfold C_Diff.unit, C_Diff.pin_project. rewrite N1, !C22_transform_is_action. unfold act. cbn [Rt_R Rt_t]. unfold identity_R. cbn [fst snd]. f_equal; vunfold; field; lra.
Qed.

Print Assumptions C83_reports.
Print Assumptions C83_rig_moved.
Print Assumptions C83_same_rig.
Print Assumptions C83_back_and_forth.
Print Assumptions C83_refuses.
Print Assumptions C83_cahvore_refuted.
