(** C40: the rectification maps contain, for every pixel, the projection of that
    pixel's direction; the incremental trigonometry does not drift (over the reals). *)
From Coq Require Import Reals ZArith List Bool Lia Lra Psatz ZifyNat ZifyBool.
From Verif Require Import S_Vec M_Pose P_Pose C_Rt M_Project M_Stereo C_Rectified.
Import ListNotations.
Open Scope R_scope.

(** *** Specification *)
(** the documented layout: a dense array of shape (Ncameras=2, Nel, Naz, 2) *)
Definition map_address (W H : nat) (cam i j k : nat) : Z := Z.of_nat (((cam * H + i) * W + j) * 2 + k).
(** the direction pixel (column j, row i) of the rectified image looks in *)
Definition unproject_rect (model : rmodel) (c : core) (q : p2) : v3 :=
  match model with LATLON => unproject_latlon c q | _ => unproject_pinhole c q end.

Lemma advance_sum : forall x d, advance (sin x, cos x) (sin d) (cos d) = (sin (x + d), cos (x + d)).
Proof. intros. unfold advance. now rewrite sin_plus, cos_plus. Qed.

Lemma for_loop_ext : forall {St} (f g : nat -> St -> St) n s, (forall i s, (i < n)%nat -> f i s = g i s) -> for_loop n f s = for_loop n g s.
Proof. intros St f g n s. induction n; cbn; intros H; [reflexivity|]. rewrite IHn by (intros; apply H; lia). apply H. lia. Qed.

Definition focal_nonzero (c : core) : Prop := fx c <> 0 /\ fy c <> 0.
Section Maps40.
  Variables project0 project1 : v3 -> p2.
  Notation set_px := (set_pixel project0 project1).
  Definition paint (R0 R1 : m33) (W H : nat) (v : nat -> nat -> v3) (m : mem) : mem :=
    for_loop H (fun i m => for_loop W (fun j m => set_px R0 R1 (Z.of_nat W) (Z.of_nat H) (Z.of_nat i) (Z.of_nat j) (v i j) m) m) m.

  Lemma row_latlon_state : forall R0 R1 W H i lon x d n m,
    row_latlon project0 project1 R0 R1 W H i lon (sin d) (cos d) (sin x, cos x) n m =
    ((sin (x + INR n * d), cos (x + INR n * d)),
     for_loop n (fun j m => set_px R0 R1 W H i (Z.of_nat j) (V3 (sin (x + INR j * d)) (cos (x + INR j * d) * fst lon) (cos (x + INR j * d) * snd lon)) m) m).
  Proof.
    intros R0 R1 W H i lon x d n m. unfold row_latlon. induction n.
    - cbn. replace (x + 0 * d) with x by ring. reflexivity.
    - cbn [for_loop]. rewrite IHn. rewrite advance_sum. cbn [fst snd]. rewrite S_INR.
      replace (x + INR n * d + d) with (x + (INR n + 1) * d) by ring. reflexivity.
  Qed.

  Lemma maps_latlon_paint : forall R0 R1 c W H m, fx c <> 0 -> fy c <> 0 ->
    maps_latlon project0 project1 R0 R1 c W H m = paint R0 R1 W H (fun i j => unproject_latlon c (P2 (INR j) (INR i))) m.
  Proof.
    intros R0 R1 c W H m FX FY. unfold maps_latlon, paint.
    set (step := fun i '(lon, m) => (advance lon (sin (1 / fy c)) (cos (1 / fy c)),
       snd (row_latlon project0 project1 R0 R1 (Z.of_nat W) (Z.of_nat H) (Z.of_nat i) lon (sin (1 / fx c)) (cos (1 / fx c)) (sin (- (cx c * (1 / fx c))), cos (- (cx c * (1 / fx c)))) W m))).
    assert (forall n, for_loop n step ((sin (- (cy c * (1 / fy c))), cos (- (cy c * (1 / fy c)))), m) =
      ((sin (- (cy c * (1 / fy c)) + INR n * (1 / fy c)), cos (- (cy c * (1 / fy c)) + INR n * (1 / fy c))),
       for_loop n (fun i m => for_loop W (fun j m => set_px R0 R1 (Z.of_nat W) (Z.of_nat H) (Z.of_nat i) (Z.of_nat j) (unproject_latlon c (P2 (INR j) (INR i))) m) m) m)) as G.
    { induction n.
      - cbn. rewrite !Rmult_0_l, !Rplus_0_r. reflexivity.
      - cbn [for_loop]. rewrite IHn. unfold step at 1. rewrite advance_sum, row_latlon_state. cbn [snd fst]. rewrite S_INR.
        match goal with |- ((sin ?a, cos ?a), ?m1) = ((sin ?b, cos ?b), ?m2) => replace a with b by ring; apply (f_equal (pair (sin b, cos b))) end.
        apply for_loop_ext. intros j s J. f_equal. unfold unproject_latlon. cbn [px py].
        replace ((INR j - cx c) * (1 / fx c)) with (- (cx c * (1 / fx c)) + INR j * (1 / fx c)) by ring.
        replace ((INR n - cy c) * (1 / fy c)) with (- (cy c * (1 / fy c)) + INR n * (1 / fy c)) by ring. reflexivity. }
    rewrite G. reflexivity.
  Qed.
  Lemma maps_pinhole_paint : forall R0 R1 c W H m, fx c <> 0 -> fy c <> 0 ->
    maps_pinhole project0 project1 R0 R1 c W H m = paint R0 R1 W H (fun i j => unproject_pinhole c (P2 (INR j) (INR i))) m.
  Proof.
    intros R0 R1 c W H m FX FY. unfold maps_pinhole, paint. apply for_loop_ext. intros i s I. apply for_loop_ext. intros j s' J. f_equal.
    unfold unproject_pinhole. cbn [px py]. apply v3_eq; cbn [vx vy vz]; [field; exact FX|field; exact FY|reflexivity].
  Qed.

  Definition small (W H : nat) : Prop := (Z.of_nat W * Z.of_nat H * 2 < 4294967296)%Z.
  Lemma map_address_inj : forall W H cam i j k cam' i' j' k', (i < H)%nat -> (j < W)%nat -> (k < 2)%nat -> (i' < H)%nat -> (j' < W)%nat -> (k' < 2)%nat ->
    map_address W H cam i j k = map_address W H cam' i' j' k' -> cam = cam' /\ i = i' /\ j = j' /\ k = k'.
  Proof.
    unfold map_address. intros W H cam i j k cam' i' j' k' I J K I' J' K' E. apply Nat2Z.inj in E.
    assert (k = k' /\ (cam * H + i) * W + j = (cam' * H + i') * W + j')%nat as [-> E2] by lia.
    assert (j = j' /\ (cam * H + i = cam' * H + i'))%nat as [-> E3].
    { assert (j = ((cam * H + i) * W + j) mod W)%nat as A by (rewrite Nat.add_comm, Nat.mod_add by lia; now rewrite Nat.mod_small).
      assert (j' = ((cam' * H + i') * W + j') mod W)%nat as B by (rewrite Nat.add_comm, Nat.mod_add by lia; now rewrite Nat.mod_small).
      assert (j = j') by congruence. subst j'. split; [reflexivity|]. assert ((cam * H + i) * W = (cam' * H + i') * W)%nat by lia. apply Nat.mul_cancel_r in H0; lia. }
    assert (i = (cam * H + i) mod H)%nat as A by (rewrite Nat.add_comm, Nat.mod_add by lia; now rewrite Nat.mod_small).
    assert (i' = (cam' * H + i') mod H)%nat as B by (rewrite Nat.add_comm, Nat.mod_add by lia; now rewrite Nat.mod_small).
    assert (i = i') by congruence. subst i'. assert (cam * H = cam' * H)%nat by lia. apply Nat.mul_cancel_r in H0; lia.
  Qed.

  (** the values a pixel must hold *)
  Definition value (R0 R1 : m33) (v : v3) (cam k : nat) : R :=
    let q := match cam with O => project0 (mv R0 v) | _ => project1 (mv R1 v) end in match k with O => px q | _ => py q end.

  Lemma set_pixel_spec : forall R0 R1 W H i j v m, small W H -> (i < H)%nat -> (j < W)%nat ->
    let m' := set_px R0 R1 (Z.of_nat W) (Z.of_nat H) (Z.of_nat i) (Z.of_nat j) v m in
    (forall cam k, (cam < 2)%nat -> (k < 2)%nat -> m' (map_address W H cam i j k) = value R0 R1 v cam k) /\
    (forall a, (forall cam k, (cam < 2)%nat -> (k < 2)%nat -> a <> map_address W H cam i j k) -> m' a = m a).
  Proof.
    intros R0 R1 W H i j v m SM I J m'. unfold small in SM.
    assert (Lt : (Z.of_nat i * Z.of_nat W + Z.of_nat j < Z.of_nat W * Z.of_nat H)%Z) by nia.
    assert (A0 : forall k, map_address W H 0 i j k = ((Z.of_nat i * Z.of_nat W + Z.of_nat j) * 2 + Z.of_nat k)%Z) by (intro; unfold map_address; lia).
    assert (A1 : forall k, map_address W H 1 i j k = (Z.of_nat W * Z.of_nat H * 2 + ((Z.of_nat i * Z.of_nat W + Z.of_nat j) * 2 + Z.of_nat k))%Z) by (intro; unfold map_address; lia).
    assert (E : m' = store (store (store (store m (map_address W H 0 i j 0) (value R0 R1 v 0 0)) (map_address W H 0 i j 1) (value R0 R1 v 0 1))
       (map_address W H 1 i j 0) (value R0 R1 v 1 0)) (map_address W H 1 i j 1) (value R0 R1 v 1 1)).
    { unfold m', set_pixel, u32. rewrite !A0, !A1.
      set (n := (Z.of_nat i * Z.of_nat W)%Z) in *. assert (0 <= n)%Z by (unfold n; nia). set (wh := (Z.of_nat W * Z.of_nat H)%Z) in *.
      clearbody n wh.
      rewrite (Z.mod_small wh) by lia. rewrite (Z.mod_small (wh * 2)) by lia. rewrite (Z.mod_small n) by lia. rewrite (Z.mod_small (n + Z.of_nat j)) by lia.
      rewrite (Z.mod_small ((n + Z.of_nat j) * 2)) by lia. rewrite (Z.mod_small ((n + Z.of_nat j) * 2 + 1)) by lia.
      replace ((n + Z.of_nat j) * 2 + Z.of_nat 0)%Z with ((n + Z.of_nat j) * 2)%Z by lia.
      replace (Z.of_nat 1) with 1%Z by reflexivity. reflexivity. }
    assert (D : forall cam k cam' k', (cam < 2)%nat -> (k < 2)%nat -> (cam' < 2)%nat -> (k' < 2)%nat -> map_address W H cam i j k = map_address W H cam' i j k' -> cam = cam' /\ k = k').
    { intros cam k cam' k' C K C' K' Q. apply map_address_inj in Q; [tauto|lia..]. }
    rewrite E. unfold store. split.
    - intros cam k C K.
      destruct (Z.eqb_spec (map_address W H cam i j k) (map_address W H 1 i j 1)) as [Q|N1]; [apply D in Q as [-> ->]; [reflexivity|lia..]|].
      destruct (Z.eqb_spec (map_address W H cam i j k) (map_address W H 1 i j 0)) as [Q|N2]; [apply D in Q as [-> ->]; [reflexivity|lia..]|].
      destruct (Z.eqb_spec (map_address W H cam i j k) (map_address W H 0 i j 1)) as [Q|N3]; [apply D in Q as [-> ->]; [reflexivity|lia..]|].
      destruct (Z.eqb_spec (map_address W H cam i j k) (map_address W H 0 i j 0)) as [Q|N4]; [apply D in Q as [-> ->]; [reflexivity|lia..]|].
      exfalso. destruct cam as [|[|]], k as [|[|]]; try lia; congruence.
    - intros a N.
      destruct (Z.eqb_spec a (map_address W H 1 i j 1)) as [Q|_]; [exfalso; revert Q; apply N; lia|].
      destruct (Z.eqb_spec a (map_address W H 1 i j 0)) as [Q|_]; [exfalso; revert Q; apply N; lia|].
      destruct (Z.eqb_spec a (map_address W H 0 i j 1)) as [Q|_]; [exfalso; revert Q; apply N; lia|].
      destruct (Z.eqb_spec a (map_address W H 0 i j 0)) as [Q|_]; [exfalso; revert Q; apply N; lia|].
      reflexivity.
  Qed.

  Lemma row_spec : forall R0 R1 W H v i, small W H -> (i < H)%nat -> forall n m, (n <= W)%nat ->
    let m' := for_loop n (fun j m => set_px R0 R1 (Z.of_nat W) (Z.of_nat H) (Z.of_nat i) (Z.of_nat j) (v i j) m) m in
    (forall cam j k, (cam < 2)%nat -> (k < 2)%nat -> (j < n)%nat -> m' (map_address W H cam i j k) = value R0 R1 (v i j) cam k) /\
    (forall a, (forall cam j k, (cam < 2)%nat -> (k < 2)%nat -> (j < n)%nat -> a <> map_address W H cam i j k) -> m' a = m a).
  Proof.
    intros R0 R1 W H v i SM I n. induction n as [|n IH]; intros m L.
    - split; [intros; lia|reflexivity].
    - cbn [for_loop]. destruct (IH m ltac:(lia)) as [IH1 IH2]. cbn zeta in IH1, IH2 |- *.
      set (m1 := for_loop n _ m) in *.
      destruct (set_pixel_spec R0 R1 W H i n (v i n) m1 SM I ltac:(lia)) as [S1 S2]. split.
      + intros cam j k C K J. destruct (Nat.eq_dec j n) as [->|J']; [now apply S1|].
        rewrite S2; [apply IH1; lia|]. intros cam' k' C' K' Q. apply map_address_inj in Q; lia.
      + intros a N. rewrite S2; [apply IH2|]; intros; apply N; lia.
  Qed.

  Lemma paint_spec : forall R0 R1 W H v m, small W H ->
    let m' := paint R0 R1 W H v m in
    (forall cam i j k, (cam < 2)%nat -> (i < H)%nat -> (j < W)%nat -> (k < 2)%nat -> m' (map_address W H cam i j k) = value R0 R1 (v i j) cam k) /\
    (forall a, (forall cam i j k, (cam < 2)%nat -> (i < H)%nat -> (j < W)%nat -> (k < 2)%nat -> a <> map_address W H cam i j k) -> m' a = m a).
  Proof.
    intros R0 R1 W H v m SM. unfold paint.
    assert (forall n, (n <= H)%nat ->
      let m' := for_loop n (fun i m => for_loop W (fun j m => set_px R0 R1 (Z.of_nat W) (Z.of_nat H) (Z.of_nat i) (Z.of_nat j) (v i j) m) m) m in
      (forall cam i j k, (cam < 2)%nat -> (i < n)%nat -> (j < W)%nat -> (k < 2)%nat -> m' (map_address W H cam i j k) = value R0 R1 (v i j) cam k) /\
      (forall a, (forall cam i j k, (cam < 2)%nat -> (i < n)%nat -> (j < W)%nat -> (k < 2)%nat -> a <> map_address W H cam i j k) -> m' a = m a)) as G.
    { induction n as [|n IH]; intros L.
      - split; [intros; lia|reflexivity].
      - cbn [for_loop]. destruct (IH ltac:(lia)) as [IH1 IH2]. cbn zeta in IH1, IH2 |- *. set (m1 := for_loop n _ m) in *.
        destruct (row_spec R0 R1 W H v n SM ltac:(lia) W m1 ltac:(lia)) as [S1 S2]. split.
        + intros cam i j k C I J K. destruct (Nat.eq_dec i n) as [->|I']; [now apply S1|].
          rewrite S2; [apply IH1; lia|]. intros cam' j' k' C' K' J' Q. apply map_address_inj in Q; lia.
        + intros a N. rewrite S2; [apply IH2|]; intros; apply N; lia. }
    apply G. lia.
  Qed.

  (** C40 *)
  Theorem C40_maps : forall model r0 r1 rr c W H m m', focal_nonzero c -> small W H ->
    rectification_maps project0 project1 model r0 r1 rr c W H m = Some m' ->
    (forall i j k, (i < H)%nat -> (j < W)%nat -> (k < 2)%nat ->
       let v_ref := mv (mT (R_from_r rr)) (unproject_rect model c (P2 (INR j) (INR i))) in
       m' (map_address W H 0 i j k) = (match k with O => px | _ => py end) (project0 (mv (R_from_r r0) v_ref)) /\
       m' (map_address W H 1 i j k) = (match k with O => px | _ => py end) (project1 (mv (R_from_r r1) v_ref))) /\
    (forall a, ~ (0 <= a < Z.of_nat (2 * H * W * 2))%Z -> m' a = m a).
  Proof.
    intros model r0 r1 rr c W H m m' [FX FY] SM E.
    assert (Em : m' = paint (R_cam_rect (R_from_r r0) (R_from_r rr)) (R_cam_rect (R_from_r r1) (R_from_r rr)) W H (fun i j => unproject_rect model c (P2 (INR j) (INR i))) m).
    { destruct model; cbn in E; [rewrite maps_latlon_paint in E by assumption|rewrite maps_pinhole_paint in E by assumption|discriminate]; now inversion E. }
    destruct (paint_spec (R_cam_rect (R_from_r r0) (R_from_r rr)) (R_cam_rect (R_from_r r1) (R_from_r rr)) W H (fun i j => unproject_rect model c (P2 (INR j) (INR i))) m SM) as [P1 P2'].
    cbn zeta in P1, P2'. rewrite <- Em in P1, P2'. split.
    - intros i j k I J K v_ref.
      assert (forall A, mv (R_cam_rect A (R_from_r rr)) (unproject_rect model c (P2 (INR j) (INR i))) = mv A v_ref) as X.
      { intro A. unfold R_cam_rect, v_ref. now rewrite mul_RR_mm, swap_mT, mv_mm. }
      rewrite !P1 by lia. unfold value. rewrite !X. destruct k; split; reflexivity.
    - intros a N. apply P2'. intros cam i j k C I J K Q. apply N. rewrite Q. unfold map_address.
      assert ((cam * H + i + 1) * W <= 2 * H * W)%nat by (apply Nat.mul_le_mono_r; nia). lia.
  Qed.
End Maps40.
Print Assumptions C40_maps.
(** the hypothesis about the size is needed: with 2^16 x 2^16 pixels the 32-bit offset of the second map is that of the first *)
Theorem C40_overflow_refuted : exists W H, (0 < W)%Z /\ (0 < H)%Z /\ u32 (u32 (W * H) * 2) = 0%Z.
Proof. exists 65536%Z, 65536%Z. vm_compute. auto. Qed.
Example ex_C40 : focal_nonzero (Core 1000 1000 500 400) /\ small 1000 800.
Proof. unfold focal_nonzero, small. cbn. split; [lra|lia]. Qed.
Print Assumptions C40_overflow_refuted.
