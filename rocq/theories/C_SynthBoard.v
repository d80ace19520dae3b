(** C87: synthesize_board_observations() returns poses with the pixels where the cameras see the board in this pose; the poses are the first acceptable ones *)
From Coq Require Import String Reals ZArith List Bool Lia Lra.
From Verif Require Import S_Vec M_Pose M_Perfect M_SynthBoard P_Trig P_Pose C_Rodrigues C_Rt.
Import ListNotations.
Open Scope list_scope.
Open Scope R_scope.

(** ** Specification *)
(** where a pose puts a point *)
Definition placed (p : Rt) (x : v3) : v3 := vadd (mv (Rt_R p) x) (Rt_t p).
(** the pixel is in the image *)
Definition in_image (m : camera) (q : option (R * R)) : Prop :=
  exists x y, q = Some (x, y) /\ 0 <= x <= IZR (cam_W m) - 1 /\ 0 <= y <= IZR (cam_H m) - 1.
Inductive count {A} (P : A -> Prop) : list A -> nat -> Prop :=
| count_nil : count P [] 0
| count_yes x l n : P x -> count P l n -> count P (x :: l) (S n)
| count_no x l n : ~ P x -> count P l n -> count P (x :: l) n.
Definition sees_all (m : camera) (q : list (option (R * R))) : Prop := forall p, In p q -> in_image m p.
Definition sees_more_than_half (m : camera) (q : list (option (R * R))) : Prop :=
  exists n, count (in_image m) q n /\ (List.length q < 2 * n)%nat.
(** camera number i sees what is asked for *)
Definition camera_sees (P : camera -> list (option (R * R)) -> Prop) (a : args) (q : list (list (option (R * R)))) (i : nat) : Prop :=
  exists m qi, nth_error (a_models a) i = Some m /\ nth_error q i = Some qi /\ P m qi.
Definition which_ok (a : args) (q : list (list (option (R * R)))) : Prop :=
  let all P := forall i, (i < List.length (a_models a))%nat -> camera_sees P a q i in
  let some P := exists i, camera_sees P a q i in
  (a_which a = "all-cameras-must-see-full-board"%string /\ all sees_all) \/
  (a_which a = "some-cameras-must-see-full-board"%string /\ some sees_all) \/
  (a_which a = "all-cameras-must-see-half-board"%string /\ all sees_more_than_half) \/
  (a_which a = "some-cameras-must-see-half-board"%string /\ some sees_more_than_half).
(** the center of the board isn't at the camera, and the line to it makes an angle below the maximum with the normal of the board *)
Definition facing (a : args) (center normal : v3) : Prop :=
  match a_max_oblique_deg a with
  | None => True
  | Some deg => exists th, vsub center (a_pcamera a) <> v0 /\ 0 <= th <= PI / 2 /\ th < deg * PI / 180 /\
      Rabs (dot (vsub center (a_pcamera a)) normal) = norm (vsub center (a_pcamera a)) * norm normal * cos th
  end.

(** ** Each frame *)
Lemma Rleb_spec : forall a b, Rleb a b = true <-> a <= b.
Proof. intros. unfold Rleb. destruct (Rle_dec a b); split; (easy || intro; lra). Qed.
Lemma Rltb_spec : forall a b, Rltb a b = true <-> a < b.
Proof. intros. unfold Rltb. destruct (Rlt_dec a b); split; (easy || intro; lra). Qed.
Lemma mask_spec : forall m q, mask_visible m q = true <-> in_image m q.
Proof.
  intros m [[x y]|]; unfold in_image; cbn [mask_visible].
  - rewrite !andb_true_iff, !Rleb_spec, !minus_IZR. split; [intros; exists x, y; split; [reflexivity|lra]|].
    intros (x' & y' & E & H). injection E as <- <-. lra.
  - split; [discriminate|]. intros (x & y & E & _). discriminate.
Qed.
Lemma count_filter : forall {A} (P : A -> Prop) f, (forall x, f x = true <-> P x) -> forall l, count P l (List.length (filter f l)).
Proof.
  intros A P f H. induction l as [|x l IH]; cbn [filter]; [constructor|]. destruct (f x) eqn:E.
  - cbn [List.length]. constructor; [now apply H|exact IH].
  - constructor; [|exact IH]. intro Q. apply H in Q. congruence.
Qed.
Lemma count_fun : forall {A} (P : A -> Prop) l n, count P l n -> forall n', count P l n' -> n = n'.
Proof. intros A P l n H. induction H; intros n' H'; inversion H'; subst; try contradiction; auto. Qed.
Lemma filter_length_le : forall {A} (f : A -> bool) l, (List.length (filter f l) <= List.length l)%nat.
Proof. intros A f. induction l as [|x l IH]; [constructor|]. cbn [filter]. destruct (f x); cbn [List.length]; lia. Qed.
Lemma filter_all : forall {A} (f : A -> bool) l, List.length (filter f l) = List.length l <-> forall x, In x l -> f x = true.
Proof.
  intros A f. induction l as [|x l IH]; cbn [filter]; [split; [intros _ y []|reflexivity]|].
  destruct (f x) eqn:E; cbn [List.length].
  - split.
    + intros H y [<-|Hy]; [exact E|]. apply IH; [lia|exact Hy].
    + intro H. f_equal. apply IH. intros y Hy. apply H. now right.
  - split.
    + intro H. exfalso. pose proof (filter_length_le f l). lia.
    + intro H. specialize (H x (or_introl eq_refl)). congruence.
Qed.
Lemma grid_length : forall w h, List.length (grid w h) = (Z.to_nat h * Z.to_nat w)%nat.
Proof.
  intros w h. unfold grid. generalize (Z.to_nat h) as n. intro n. generalize 0%nat at 2 as s.
  induction n as [|n IH]; intro s; [reflexivity|]. cbn [seq flat_map]. rewrite app_length, map_length, seq_length, IH. lia.
Qed.
Definition well (a : args) (f : frame) : Prop := Forall (fun q => List.length q = (Z.to_nat (a_h a) * Z.to_nat (a_w a))%nat) (fst f) /\ List.length (fst f) = List.length (a_models a).
Lemma make_well : forall a n, well a (make_frame a n).
Proof.
  intros a n. unfold make_frame, well. cbn [fst]. split; [|apply map_length]. apply Forall_forall. intros q Hq. apply in_map_iff in Hq.
  destruct Hq as (m & <- & _). rewrite !map_length. unfold board_reference. rewrite map_length. apply grid_length.
Qed.
Lemma full_spec : forall a m q, (0 <= a_w a)%Z -> (0 <= a_h a)%Z -> List.length q = (Z.to_nat (a_h a) * Z.to_nat (a_w a))%nat ->
  ((Z.of_nat (List.length (filter (mask_visible m) q)) =? a_h a * a_w a)%Z = true <-> sees_all m q).
Proof.
  intros a m q W H L. rewrite Z.eqb_eq. unfold sees_all.
  assert ((a_h a * a_w a)%Z = Z.of_nat (List.length q)) as -> by (rewrite L, Nat2Z.inj_mul, !Z2Nat.id by assumption; reflexivity).
  rewrite Nat2Z.inj_iff, filter_all. split; intros Q p Hp; apply mask_spec; now apply Q.
Qed.
Lemma half_spec : forall a m q, (0 <= a_w a)%Z -> (0 <= a_h a)%Z -> List.length q = (Z.to_nat (a_h a) * Z.to_nat (a_w a))%nat ->
  ((Z.of_nat (List.length (filter (mask_visible m) q)) >? a_h a * a_w a / 2)%Z = true <-> sees_more_than_half m q).
Proof.
  intros a m q W H L. unfold sees_more_than_half.
  assert ((a_h a * a_w a)%Z = Z.of_nat (List.length q)) as -> by (rewrite L, Nat2Z.inj_mul, !Z2Nat.id by assumption; reflexivity).
  pose proof (count_filter (in_image m) (mask_visible m) (mask_spec m) q) as C. set (n := List.length (filter (mask_visible m) q)) in *.
  rewrite Z.gtb_lt. pose proof (Z.div_mod (Z.of_nat (List.length q)) 2 ltac:(lia)). pose proof (Z.mod_pos_bound (Z.of_nat (List.length q)) 2 ltac:(lia)).
  split.
  - intro G. exists n. split; [exact C|]. lia.
  - intros (n' & C' & G). rewrite <- (count_fun _ _ _ C _ C') in G. lia.
Qed.

Lemma forall_combine : forall (b : Z -> bool) (P : camera -> list (option (R * R)) -> Prop) (g : camera -> list (option (R * R)) -> Z) ms qs,
  List.length qs = List.length ms -> (forall m q, In q qs -> b (g m q) = true <-> P m q) ->
  (forallb b (map (fun mq => g (fst mq) (snd mq)) (combine ms qs)) = true <->
   forall i, (i < List.length ms)%nat -> exists m q, nth_error ms i = Some m /\ nth_error qs i = Some q /\ P m q).
Proof.
  intros b P g. induction ms as [|m ms IH]; intros [|q qs] L H; try discriminate; cbn [combine map forallb].
  - split; [intros _ i Hi; cbn in Hi; lia|reflexivity].
  - cbn [fst snd]. rewrite andb_true_iff, (H m q (or_introl eq_refl)), (IH qs) by (try (cbn in L; lia); intros m' q' Hq; apply H; now right). split.
    + intros [H1 H2] [|i] Hi; [exists m, q; split; [reflexivity|split; [reflexivity|exact H1]]|]. cbn [nth_error]. apply H2. cbn in Hi. lia.
    + intro H1. split.
      * destruct (H1 0%nat ltac:(cbn; lia)) as (m' & q' & E1 & E2 & E3). injection E1 as <-. injection E2 as <-. exact E3.
      * intros i Hi. apply (H1 (S i)). cbn. lia.
Qed.
Lemma exists_combine : forall (b : Z -> bool) (P : camera -> list (option (R * R)) -> Prop) (g : camera -> list (option (R * R)) -> Z) ms qs,
  List.length qs = List.length ms -> (forall m q, In q qs -> b (g m q) = true <-> P m q) ->
  (existsb b (map (fun mq => g (fst mq) (snd mq)) (combine ms qs)) = true <->
   exists i m q, nth_error ms i = Some m /\ nth_error qs i = Some q /\ P m q).
Proof.
  intros b P g. induction ms as [|m ms IH]; intros [|q qs] L H; try discriminate; cbn [combine map existsb].
  - split; [discriminate|]. intros (i & m & q & E & _). destruct i; discriminate.
  - cbn [fst snd]. rewrite orb_true_iff, (H m q (or_introl eq_refl)), (IH qs) by (try (cbn in L; lia); intros m' q' Hq; apply H; now right). split.
    + intros [H1|(i & m' & q' & H1)]; [exists 0%nat, m, q; split; [reflexivity|split; [reflexivity|exact H1]]|exists (S i), m', q'; exact H1].
    + intros ([|i] & m' & q' & E1 & E2 & E3); [left; injection E1 as <-; injection E2 as <-; exact E3|right; exists i, m', q'; repeat split; assumption].
Qed.
Definition valid_which (w : string) : Prop :=
  w = "all-cameras-must-see-full-board"%string \/ w = "some-cameras-must-see-full-board"%string \/
  w = "all-cameras-must-see-half-board"%string \/ w = "some-cameras-must-see-half-board"%string.
Lemma seen_spec : forall a f, (0 <= a_w a)%Z -> (0 <= a_h a)%Z -> valid_which (a_which a) -> well a f -> (seen a f = true <-> which_ok a (fst f)).
Proof.
  intros a f W H V [F L]. rewrite Forall_forall in F.
  pose proof (fun m q Hq => full_spec a m q W H (F q Hq)) as FS. pose proof (fun m q Hq => half_spec a m q W H (F q Hq)) as HS.
  pose proof (forall_combine (fun n => (n =? a_h a * a_w a)%Z) sees_all (fun m q => Z.of_nat (List.length (filter (mask_visible m) q))) _ _ L FS) as C1.
  pose proof (exists_combine (fun n => (n =? a_h a * a_w a)%Z) sees_all (fun m q => Z.of_nat (List.length (filter (mask_visible m) q))) _ _ L FS) as C2.
  pose proof (forall_combine (fun n => (n >? a_h a * a_w a / 2)%Z) sees_more_than_half (fun m q => Z.of_nat (List.length (filter (mask_visible m) q))) _ _ L HS) as C3.
  pose proof (exists_combine (fun n => (n >? a_h a * a_w a / 2)%Z) sees_more_than_half (fun m q => Z.of_nat (List.length (filter (mask_visible m) q))) _ _ L HS) as C4.
  unfold seen, which_ok, camera_sees. cbv zeta. fold (Nvisible a f) in C1, C2, C3, C4.
  destruct V as [E|[E|[E|E]]]; rewrite E; cbn -[Nvisible Z.mul Z.div Z.gtb].
  - rewrite C1. split; [intro Q; left; split; [reflexivity|exact Q]|intros [[_ Q]|[[Q _]|[[Q _]|[Q _]]]]; [exact Q|discriminate..]].
  - rewrite C2. split; [intro Q; right; left; split; [reflexivity|exact Q]|intros [[Q _]|[[_ Q]|[[Q _]|[Q _]]]]; [discriminate|exact Q|discriminate..]].
  - rewrite C3. split; [intro Q; right; right; left; split; [reflexivity|exact Q]|intros [[Q _]|[[Q _]|[[_ Q]|[Q _]]]]; [discriminate..|exact Q|discriminate]].
  - rewrite C4. split; [intro Q; right; right; right; split; [reflexivity|exact Q]|intros [[Q _]|[[Q _]|[[Q _]|[_ Q]]]]; [discriminate..|exact Q]].
Qed.

Lemma column_normal : forall m, V3 (m02 m) (m12 m) (m22 m) = mv m (V3 0 0 1).
Proof. intro m. apply v3_eq; vunfold; ring. Qed.
Lemma oblique_spec : forall a f, (forall deg, a_max_oblique_deg a = Some deg -> 0 <= deg <= 180) -> is_rot (Rt_R (snd f)) ->
  (not_oblique a f = true <-> facing a (Rt_t (snd f)) (mv (Rt_R (snd f)) (V3 0 0 1))).
Proof.
  intros a f D HR. unfold not_oblique, facing. destruct (a_max_oblique_deg a) as [deg|]; [|split; [exact (fun _ => Logic.I)|reflexivity]].
  specialize (D deg eq_refl). cbv zeta. rewrite column_normal. set (p := vsub (Rt_t (snd f)) (a_pcamera a)). set (n := mv (Rt_R (snd f)) (V3 0 0 1)).
  assert (norm n = 1) as Nn.
  { unfold norm, n, norm2. rewrite rot_dot by exact HR. replace (dot (V3 0 0 1) (V3 0 0 1)) with 1 by (vunfold; ring). apply sqrt_1. }
  pose proof PI_RGT_0 as Hpi. assert (0 <= deg * PI / 180 <= PI) as Dr by (split; [apply Rmult_le_pos; [nra|lra]|nra]).
  destruct (Req_EM_T (norm p) 0) as [Z|Z].
  { apply norm_0_iff in Z. split; [discriminate|]. intros (th & Q & _). contradiction. }
  assert (p <> v0) as Hp. { intro Q. apply Z. rewrite Q. apply norm_v0. } pose proof (norm_pos p Hp) as Np.
  rewrite Rltb_spec. replace (dot (vscale (/ norm p) p) n) with (/ norm p * dot p n) by vring.
  rewrite Rabs_mult, (Rabs_right (/ norm p)) by (apply Rle_ge, Rlt_le, Rinv_0_lt_compat; exact Np).
  set (c := / norm p * Rabs (dot p n)). assert (Rabs (dot p n) = norm p * c) as E by (unfold c; field; lra).
  assert (0 <= c <= 1) as Hc.
  { pose proof (Rabs_pos (dot p n)). pose proof (cauchy p n) as C. rewrite Nn, E in C. split; [unfold c; apply Rmult_le_pos; [apply Rlt_le, Rinv_0_lt_compat; exact Np|assumption]|].
    apply Rmult_le_reg_l with (norm p); [exact Np|lra]. }
  split.
  - intro H. exists (acos c). pose proof (acos_bound c) as B. assert (cos (acos c) = c) as Ec by (apply cos_acos; lra).
    split; [exact Hp|]. split; [split; [lra|]|split].
    + destruct (Rle_dec (acos c) (PI / 2)) as [|Q]; [assumption|exfalso]. assert (cos (acos c) < cos (PI / 2)) by (apply cos_decreasing_1; lra). rewrite cos_PI2, Ec in H0. lra.
    + destruct (Rlt_dec (acos c) (deg * PI / 180)) as [|Q]; [assumption|exfalso]. assert (cos (acos c) <= cos (deg * PI / 180)) by (apply cos_decr_1; lra). lra.
    + rewrite Nn, E, Ec. ring.
  - intros (th & _ & T1 & T2 & T3). rewrite Nn, E in T3. assert (c = cos th) as -> by (apply Rmult_eq_reg_l with (norm p); lra).
    apply cos_decreasing_1; lra.
Qed.

(** ** The loop *)
Definition wanted (a : args) (f : frame) : bool := not_oblique a f && seen a f.
Lemma cull_filter : forall a l, cull a l = filter (wanted a) l.
Proof.
  intros a. unfold cull, wanted. induction l as [|f l IH]; [reflexivity|]. cbn [filter]. destruct (not_oblique a f); cbn [filter andb].
  - destruct (seen a f); [f_equal|]; exact IH.
  - exact IH.
Qed.
(** the frames of the first M rows of the random numbers *)
Definition frames (a : args) (noise : nat -> v3 * v3) (M : nat) : list frame := map (fun i => make_frame a (noise i)) (seq 0 M).
Lemma frames_chunk : forall a noise k, frames a noise ((k + 1) * a_Nframes a) = frames a noise (k * a_Nframes a) ++ get_observation_chunk a noise k.
Proof. intros. unfold frames, get_observation_chunk. rewrite <- map_app. f_equal. replace ((k + 1) * a_Nframes a)%nat with (k * a_Nframes a + a_Nframes a)%nat by lia. apply seq_app. Qed.
Lemma loop_spec : forall a noise fuel k l, loop a noise fuel k (filter (wanted a) (frames a noise (k * a_Nframes a))) = Some l ->
  exists k', l = firstn (a_Nframes a) (filter (wanted a) (frames a noise (k' * a_Nframes a))) /\ (a_Nframes a <= List.length (filter (wanted a) (frames a noise (k' * a_Nframes a))))%nat.
Proof.
  intros a noise. induction fuel as [|fuel IH]; intros k l H; [discriminate|]. cbn [loop] in H. rewrite cull_filter, <- filter_app, <- frames_chunk in H.
  destruct (Nat.leb_spec (a_Nframes a) (List.length (filter (wanted a) (frames a noise ((k + 1) * a_Nframes a))))) as [G|G].
  - injection H as <-. exists (k + 1)%nat. split; [reflexivity|exact G].
  - apply (IH (k + 1)%nat). exact H.
Qed.
Lemma frames_prefix : forall a noise M M', (M <= M')%nat -> exists r, filter (wanted a) (frames a noise M') = filter (wanted a) (frames a noise M) ++ r.
Proof.
  intros a noise M M' H. unfold frames. replace M' with (M + (M' - M))%nat by lia. rewrite seq_app, map_app, filter_app. eexists. reflexivity.
Qed.
Definition finish (a : args) (f : frame) : frame := (fst f, compose_Rt2 (snd f) (Rt_boardref_origboardref a) false false).
Lemma returned_inv : forall a noise fuel l, synthesize_board_observations a noise fuel = Returned l ->
  valid_which (a_which a) /\ exists M, l = map (finish a) (firstn (a_Nframes a) (filter (wanted a) (frames a noise M))) /\
    (a_Nframes a <= List.length (filter (wanted a) (frames a noise M)))%nat.
Proof.
  intros a noise fuel l H. unfold synthesize_board_observations in H. destruct (existsb _ _) eqn:V; [|discriminate]. cbn [negb] in H.
  split.
  - cbn [existsb] in V. rewrite !orb_true_iff, !String.eqb_eq in V. unfold valid_which. destruct V as [V|[V|[V|[V|V]]]]; [tauto..|discriminate].
  - destruct (loop a noise fuel 0 []) as [l0|] eqn:E; [|discriminate]. injection H as <-.
    apply (loop_spec a noise fuel 0) in E. destruct E as (k & -> & G). exists (k * a_Nframes a)%nat. split; [reflexivity|exact G].
Qed.

(** ** The claims *)
(** The pixels are those where each camera sees the board of ref_calibration_object() in the returned pose.  The center of this board is at the nominal position
    plus the noise, the rotation is the nominal one plus the noise *)
Lemma grid_rows : forall w h, grid w h = map (fun k => (Z.of_nat (k mod Z.to_nat w), Z.of_nat (k / Z.to_nat w))) (seq 0 (Z.to_nat h * Z.to_nat w)).
Proof.
  intros w h. unfold grid. set (n := Z.to_nat w). induction (Z.to_nat h) as [|m IH]; [reflexivity|].
  rewrite seq_S, flat_map_app, IH. cbn [Nat.mul Nat.add flat_map]. rewrite app_nil_r.
  replace (n + m * n)%nat with (m * n + n)%nat by lia. rewrite seq_app, map_app. f_equal.
  replace (0 + m * n)%nat with (0 + m * n)%nat by reflexivity. cbn [Nat.add].
  assert (E : seq (m * n) n = map (fun i => (m * n + i)%nat) (seq 0 n)).
  { clear. generalize (m * n)%nat as s. intro s. induction n as [|n IHn]; [reflexivity|]. rewrite !seq_S, map_app, IHn. cbn [map Nat.add]. reflexivity. }
  rewrite E, map_map. apply map_ext_in. intros i Hi. apply in_seq in Hi.
  assert (n <> 0)%nat by lia. replace (m * n + i)%nat with (i + m * n)%nat by lia.
  rewrite Nat.mod_add, Nat.div_add, Nat.mod_small, Nat.div_small by lia. reflexivity.
Qed.
(** corner number k is the one in column k mod w and row k / w *)
Definition board (a : args) : list v3 :=
  map (fun k => ref_calibration_object (a_w a) (a_h a) (a_spacing a) (a_warp a) (Z.of_nat (k mod Z.to_nat (a_w a))) (Z.of_nat (k / Z.to_nat (a_w a))))
      (seq 0 (Z.to_nat (a_h a) * Z.to_nat (a_w a))).
(** the center of the board is the point in the middle between the first and the last corner of a flat board *)
Definition flat_corner (a : args) (ix iy : R) : v3 := V3 (ix * a_spacing a) (iy * a_spacing a) 0.
Definition middle (a : args) : v3 := vscale (1 / 2) (vadd (flat_corner a 0 0) (flat_corner a (IZR (a_w a) - 1) (IZR (a_h a) - 1))).
Lemma center_middle : forall a, board_center a = middle a.
Proof. intro a. unfold board_center, middle, flat_corner. rewrite !minus_IZR. apply v3_eq; vunfold; lra. Qed.
Lemma finish_placed : forall a p x, placed (compose_Rt2 p (Rt_boardref_origboardref a) false false) x = placed p (vsub x (board_center a)).
Proof.
  intros a p x. pose proof (proj1 (C22_compose p (Rt_boardref_origboardref a) x)) as E. rewrite !C22_transform_is_action in E. unfold act in E. unfold placed. rewrite E. f_equal.
  f_equal. unfold Rt_boardref_origboardref. cbn [Rt_R Rt_t identity_Rt]. change identity_R with I3. rewrite mv_I. vring.
Qed.
Theorem C87_pixels : forall a noise fuel l q p, synthesize_board_observations a noise fuel = Returned l -> In (q, p) l ->
  q = map (fun m => map (fun x => cam_project m (placed (cam_Rt_cam_ref m) (placed p x))) (board a)) (a_models a).
Proof.
  intros a noise fuel l q p H Hin. apply returned_inv in H. destruct H as (_ & M & -> & _). apply in_map_iff in Hin. destruct Hin as (f & E & Hf).
  assert (In f (frames a noise M)) as Hf'. { apply (proj1 (filter_In (wanted a) f (frames a noise M))). rewrite <- (firstn_skipn (a_Nframes a)). apply in_or_app. now left. }
  apply in_map_iff in Hf'. destruct Hf' as (i & <- & _). unfold finish in E. pose proof (f_equal fst E) as E1. pose proof (f_equal snd E) as E2. cbn [fst snd] in E1, E2. rewrite <- E1, <- E2. unfold make_frame. cbn [fst snd].
  apply map_ext. intro m. unfold board_reference, board. rewrite grid_rows, !map_map. apply map_ext. intro ii. cbn [fst snd]. f_equal. rewrite finish_placed.
  unfold placed. rewrite !C22_transform_is_action. reflexivity.
Qed.
Theorem C87_pose : forall a noise fuel l q p, synthesize_board_observations a noise fuel = Returned l -> In (q, p) l ->
  exists i, let n := noise i in
    Rt_R p = R_from_r (vadd (rt_r (a_rt a)) (vmul (fst n) (rt_r (a_radius a)))) /\
    placed p (middle a) = vadd (rt_t (a_rt a)) (vmul (snd n) (rt_t (a_radius a))).
Proof.
  intros a noise fuel l q p H Hin. apply returned_inv in H. destruct H as (_ & M & -> & _). apply in_map_iff in Hin. destruct Hin as (f & E & Hf).
  assert (In f (frames a noise M)) as Hf'. { apply (proj1 (filter_In (wanted a) f (frames a noise M))). rewrite <- (firstn_skipn (a_Nframes a)). apply in_or_app. now left. }
  apply in_map_iff in Hf'. destruct Hf' as (i & <- & _). exists i. cbv zeta. unfold finish in E. pose proof (f_equal snd E) as E2. cbn [fst snd] in E2. rewrite <- E2. unfold make_frame. cbn [fst snd]. split.
  - unfold compose_Rt2, Rt_from_rt. cbn [Rt_R rt_r]. rewrite mul_RR_mm. cbn [Rt_R identity_Rt Rt_boardref_origboardref]. change identity_R with I3. apply m33_eq; vunfold; ring.
  - rewrite finish_placed, <- center_middle. unfold placed, Rt_from_rt. cbn [Rt_t rt_t Rt_R]. replace (vsub (board_center a) (board_center a)) with v0 by vring.
    apply v3_eq; vunfold; cbn; ring.
Qed.
(** The board is never further from the nominal pose than the radius *)
Theorem C87_radius : forall a noise fuel l q p, (forall i, let n := snd (noise i) in -1 <= vx n <= 1 /\ -1 <= vy n <= 1 /\ -1 <= vz n <= 1) ->
  0 <= vx (rt_t (a_radius a)) -> 0 <= vy (rt_t (a_radius a)) -> 0 <= vz (rt_t (a_radius a)) ->
  synthesize_board_observations a noise fuel = Returned l -> In (q, p) l ->
  let d := vsub (placed p (middle a)) (rt_t (a_rt a)) in
  Rabs (vx d) <= vx (rt_t (a_radius a)) /\ Rabs (vy d) <= vy (rt_t (a_radius a)) /\ Rabs (vz d) <= vz (rt_t (a_radius a)).
Proof.
  intros a noise fuel l q p HN R0 R1 R2 H Hin d. destruct (C87_pose _ _ _ _ _ _ H Hin) as (i & _ & E). cbv zeta in E. unfold d. rewrite E.
  specialize (HN i). cbv zeta in HN. destruct HN as (N0 & N1 & N2).
  assert (forall t n r, -1 <= n <= 1 -> 0 <= r -> Rabs (t + n * r - t) <= r) as A by (intros t n r Hn Hr; apply Rabs_le; nra).
  cbn [vsub vadd vmul vx vy vz]. split; [|split]; apply A; assumption.
Qed.
(** As many frames as asked for; each is seen as asked for; the boards face the camera *)
Theorem C87_acceptable : forall a noise fuel l, (0 <= a_w a)%Z -> (0 <= a_h a)%Z -> (forall deg, a_max_oblique_deg a = Some deg -> 0 <= deg <= 180) ->
  synthesize_board_observations a noise fuel = Returned l ->
  List.length l = a_Nframes a /\
  forall q p, In (q, p) l -> which_ok a q /\ facing a (placed p (middle a)) (mv (Rt_R p) (V3 0 0 1)).
Proof.
  intros a noise fuel l W Hh D H. apply returned_inv in H. destruct H as (V & M & -> & G). split.
  { rewrite map_length, firstn_length. lia. }
  intros q p Hin. apply in_map_iff in Hin. destruct Hin as (f & E & Hf).
  assert (In f (filter (wanted a) (frames a noise M))) as Hf'. { rewrite <- (firstn_skipn (a_Nframes a)). apply in_or_app. now left. }
  apply filter_In in Hf'. destruct Hf' as [Hf' Wt]. apply in_map_iff in Hf'. destruct Hf' as (i & <- & _). unfold wanted in Wt. apply andb_true_iff in Wt. destruct Wt as [W1 W2].
  unfold finish in E. pose proof (f_equal fst E) as Eq. pose proof (f_equal snd E) as Ep. cbn [fst snd] in Eq, Ep.
  assert (is_rot (Rt_R (snd (make_frame a (noise i))))) as HR by (cbn [make_frame snd Rt_from_rt Rt_R]; apply R_from_r_rot).
  split.
  - rewrite <- Eq. apply seen_spec; [assumption..|apply make_well|exact W2].
  - apply oblique_spec in W1; [|exact D|exact HR]. rewrite <- Ep, finish_placed, <- center_middle. set (f := make_frame a (noise i)) in *.
    replace (placed (snd f) (vsub (board_center a) (board_center a))) with (Rt_t (snd f)) by (unfold placed; apply v3_eq; vunfold; ring).
    replace (Rt_R (compose_Rt2 (snd f) (Rt_boardref_origboardref a) false false)) with (Rt_R (snd f)); [exact W1|].
    unfold compose_Rt2. cbn [Rt_R]. rewrite mul_RR_mm. cbn [Rt_R identity_Rt Rt_boardref_origboardref]. change identity_R with I3. apply m33_eq; vunfold; ring.
Qed.
(** Nothing acceptable is skipped: the frames are the first acceptable ones in the sequence of random rows.  [acceptable] is as in C87_acceptable *)
Definition acceptable (a : args) (f : frame) : Prop := which_ok a (fst f) /\ facing a (Rt_t (snd f)) (mv (Rt_R (snd f)) (V3 0 0 1)).
Inductive selected (P : frame -> Prop) : list frame -> list frame -> Prop :=
| sel_nil : selected P [] []
| sel_yes f l l' : P f -> selected P l l' -> selected P (f :: l) (f :: l')
| sel_no f l l' : ~ P f -> selected P l l' -> selected P (f :: l) l'.
Lemma filter_selected : forall (P : frame -> Prop) b l, (forall f, In f l -> b f = true <-> P f) -> selected P l (filter b l).
Proof.
  intros P b. induction l as [|f l IH]; intro H; [constructor|]. cbn [filter]. pose proof (H f (or_introl eq_refl)) as Hf.
  assert (selected P l (filter b l)) as S1 by (apply IH; intros g Hg; apply H; now right). destruct (b f); constructor; try exact S1.
  - now apply Hf.
  - intro Q. apply Hf in Q. discriminate.
Qed.
Theorem C87_first : forall a noise fuel l, (0 <= a_w a)%Z -> (0 <= a_h a)%Z -> (forall deg, a_max_oblique_deg a = Some deg -> 0 <= deg <= 180) ->
  synthesize_board_observations a noise fuel = Returned l ->
  exists M sel, selected (acceptable a) (map (fun i => make_frame a (noise i)) (seq 0 M)) sel /\
    map fst l = map fst (firstn (a_Nframes a) sel) /\
    (forall x, map (fun f => placed (snd f) x) l = map (fun f => placed (snd f) (vsub x (middle a))) (firstn (a_Nframes a) sel)).
Proof.
  intros a noise fuel l W Hh D H. apply returned_inv in H. destruct H as (V & M & -> & G). exists M, (filter (wanted a) (frames a noise M)). split; [|split].
  - apply filter_selected. intros f Hf. apply in_map_iff in Hf. destruct Hf as (i & <- & _). unfold wanted, acceptable.
    rewrite andb_true_iff, seen_spec, oblique_spec; [tauto|exact D|cbn [make_frame snd Rt_from_rt Rt_R]; apply R_from_r_rot|assumption..|apply make_well].
  - rewrite map_map. apply map_ext. reflexivity.
  - intro x. rewrite map_map. apply map_ext. intro f. unfold finish. cbn [snd]. rewrite <- center_middle. apply finish_placed.
Qed.
(** "identical poses when asking for N-1 random poses and when asking for the first N-1 of a set of N random poses" *)
Definition with_N (a : args) (N : nat) : args :=
  Args (a_models a) (a_w a) (a_h a) (a_spacing a) (a_warp a) (a_rt a) (a_radius a) N (a_max_oblique_deg a) (a_pcamera a) (a_which a).
Theorem C87_prefix : forall a noise N N' fuel fuel' l l', (N' <= N)%nat ->
  synthesize_board_observations (with_N a N) noise fuel = Returned l -> synthesize_board_observations (with_N a N') noise fuel' = Returned l' ->
  l' = firstn N' l.
Proof.
  intros a noise N N' fuel fuel' l l' HN H H'. apply returned_inv in H, H'. destruct H as (_ & M & -> & G). destruct H' as (_ & M' & -> & G').
  change (frames (with_N a N) noise) with (frames a noise) in *. change (frames (with_N a N') noise) with (frames a noise) in *.
  change (wanted (with_N a N)) with (wanted a) in *. change (wanted (with_N a N')) with (wanted a) in *. change (finish (with_N a N)) with (finish a). change (finish (with_N a N')) with (finish a).
  cbn [a_Nframes with_N] in *. rewrite firstn_map, firstn_firstn, Nat.min_l by exact HN. f_equal.
  destruct (Nat.le_ge_cases M M') as [C|C]; destruct (frames_prefix a noise _ _ C) as (r & E); rewrite E in *; rewrite firstn_app.
  - replace (N' - List.length (filter (wanted a) (frames a noise M)))%nat with 0%nat by lia. cbn [firstn]. now rewrite app_nil_r.
  - replace (N' - List.length (filter (wanted a) (frames a noise M')))%nat with 0%nat by lia. cbn [firstn]. now rewrite app_nil_r.
Qed.
(** It returns once enough acceptable rows have been drawn, and runs forever if there are none *)
Lemma loop_runs : forall a noise M, (0 < a_Nframes a)%nat -> (a_Nframes a <= List.length (filter (wanted a) (frames a noise M)))%nat ->
  forall fuel k sofar, sofar = filter (wanted a) (frames a noise (k * a_Nframes a)) -> (M <= (k + fuel) * a_Nframes a)%nat -> (0 < fuel)%nat -> exists l, loop a noise fuel k sofar = Some l.
Proof.
  intros a noise M P G. induction fuel as [|fuel IH]; intros k sofar -> HM F; [lia|]. cbn [loop]. rewrite cull_filter, <- filter_app, <- frames_chunk.
  destruct (Nat.leb_spec (a_Nframes a) (List.length (filter (wanted a) (frames a noise ((k + 1) * a_Nframes a))))) as [Q|Q]; [eexists; reflexivity|].
  destruct fuel as [|fuel].
  - exfalso. destruct (frames_prefix a noise M ((k + 1) * a_Nframes a) ltac:(lia)) as (r & E). rewrite E, app_length in Q. lia.
  - apply IH; [reflexivity|lia|lia].
Qed.
Theorem C87_returns : forall a noise M sel, (0 <= a_w a)%Z -> (0 <= a_h a)%Z -> (forall deg, a_max_oblique_deg a = Some deg -> 0 <= deg <= 180) -> valid_which (a_which a) ->
  selected (acceptable a) (map (fun i => make_frame a (noise i)) (seq 0 M)) sel -> (a_Nframes a <= List.length sel)%nat ->
  exists fuel l, synthesize_board_observations a noise fuel = Returned l.
Proof.
  intros a noise M sel W Hh D V Hs G.
  assert (sel = filter (wanted a) (frames a noise M)) as ->.
  { fold (frames a noise M) in Hs. assert (forall f, In f (frames a noise M) -> wanted a f = true <-> acceptable a f) as Q.
    { intros f Hf. apply in_map_iff in Hf. destruct Hf as (i & <- & _). unfold wanted, acceptable.
      rewrite andb_true_iff, seen_spec, oblique_spec; [tauto|exact D|cbn [make_frame snd Rt_from_rt Rt_R]; apply R_from_r_rot|assumption..|apply make_well]. }
    clear G. revert Q. induction Hs; intro Q; [reflexivity|cbn [filter]|cbn [filter]]; pose proof (Q f (or_introl eq_refl)) as Qf; (rewrite IHHs by (intros g Hg; apply Q; now right)).
    - destruct (wanted a f); [reflexivity|]. exfalso. apply Qf in H. discriminate.
    - destruct (wanted a f); [|reflexivity]. exfalso. apply H, Qf. reflexivity. }
  assert (exists fuel l, loop a noise fuel 0 [] = Some l) as (fuel & l & E).
  { destruct (a_Nframes a) as [|N] eqn:EN.
    - exists 1%nat. cbn [loop]. rewrite EN. eexists. reflexivity.
    - exists (S M). apply (loop_runs a noise M); [lia|lia|reflexivity|rewrite EN; nia|lia]. }
  exists fuel. unfold synthesize_board_observations. rewrite E.
  assert (existsb (String.eqb (a_which a)) ["all-cameras-must-see-full-board"; "some-cameras-must-see-full-board"; "all-cameras-must-see-half-board"; "some-cameras-must-see-half-board"]%string = true) as ->.
  { destruct V as [V|[V|[V|V]]]; rewrite V; reflexivity. }
  cbn [negb]. eexists. reflexivity.
Qed.
Theorem C87_runs_forever : forall a noise fuel, (0 <= a_w a)%Z -> (0 <= a_h a)%Z -> (forall deg, a_max_oblique_deg a = Some deg -> 0 <= deg <= 180) -> (0 < a_Nframes a)%nat ->
  (forall i, ~ acceptable a (make_frame a (noise i))) -> forall l, synthesize_board_observations a noise fuel <> Returned l.
Proof.
  intros a noise fuel W Hh D P H l E. destruct (C87_acceptable _ _ _ _ W Hh D E) as [L _].
  destruct (C87_first _ _ _ _ W Hh D E) as (M & sel & Hs & El & _).
  assert (sel = []) as ->. { clear - Hs H. remember (map _ _) as fs eqn:Ef. assert (forall f, In f fs -> ~ acceptable a f) as Q by (intros f Hf; subst fs; apply in_map_iff in Hf; destruct Hf as (i & <- & _); apply H).
    clear Ef. induction Hs; [reflexivity| |]; [exfalso; apply (Q f); [now left|assumption]|apply IHHs; intros g Hg; apply Q; now right]. }
  rewrite firstn_nil in El. destruct l; [cbn in L; lia|discriminate].
Qed.
(** A wrong [which] is refused, and only that *)
Theorem C87_refused : forall a noise fuel, synthesize_board_observations a noise fuel = Raised <-> ~ valid_which (a_which a).
Proof.
  intros a noise fuel. unfold synthesize_board_observations. destruct (existsb _ _) eqn:V; cbn [negb].
  - cbn [existsb] in V. rewrite !orb_true_iff, !String.eqb_eq in V. split; [destruct (loop a noise fuel 0 []); discriminate|]. intro Q. exfalso. apply Q. unfold valid_which. destruct V as [V|[V|[V|[V|V]]]]; [tauto..|discriminate].
  - split; [|reflexivity]. intros _ [Q|[Q|[Q|Q]]]; rewrite Q in V; discriminate.
Qed.

(** ** A camera that sees points (x,y,z) at (x,y) in an image of 11x11, a board of 2x2 corners with its center at (tx,5,0) *)
Definition ex_cam : camera := Camera (fun p => Some (vx p, vy p)) identity_Rt 11 11.
Definition ex_args (tx : R) (which : string) (N : nat) : args := Args [ex_cam] 2 2 1 None (mkrt v0 (V3 tx 5 0)) (mkrt v0 v0) N None v0 which.
Lemma ex_frame : forall tx which N n, fst (make_frame (ex_args tx which N) n) =
  [[Some (tx - 1 / 2, 9 / 2); Some (tx + 1 / 2, 9 / 2); Some (tx - 1 / 2, 11 / 2); Some (tx + 1 / 2, 11 / 2)]].
Proof.
  intros tx which N n. unfold make_frame. cbn [fst a_models ex_args map a_rt rt_r rt_t a_radius]. f_equal.
  replace (vadd v0 (vmul (fst n) v0)) with v0 by (apply v3_eq; unfold vmul; vunfold; cbn; ring).
  replace (vadd (V3 tx 5 0) (vmul (snd n) v0)) with (V3 tx 5 0) by (apply v3_eq; unfold vmul; vunfold; cbn; ring).
  unfold Rt_from_rt. cbn [rt_r rt_t]. rewrite R_from_r_tiny by (rewrite norm_v0; apply eps_pos).
  unfold board_reference. cbn [a_w a_h a_spacing a_warp ex_args]. change (grid 2 2) with [(0, 0); (1, 0); (0, 1); (1, 1)]%Z. cbn [map fst snd].
  unfold ref_calibration_object, linspace, board_center. cbn [a_w a_h a_spacing ex_args Z.eqb Pos.eqb]. cbn [ex_cam cam_project cam_Rt_cam_ref].
  rewrite !C22_transform_is_action. unfold act. change (Rt_R identity_Rt) with I3. change (Rt_t identity_Rt) with v0. cbn [Rt_R Rt_t]. rewrite !mv_I.
  change (2 - 1)%Z with 1%Z. unfold v0. cbn [vadd vsub vx vy vz]. repeat (f_equal; try (f_equal; f_equal; field)).
Qed.
Lemma ex_selected : forall (P : frame -> Prop) l, (forall f, In f l -> P f) -> selected P l l.
Proof. intros P. induction l as [|f l IH]; intro H; constructor; [apply H; now left|apply IH; intros g Hg; apply H; now right]. Qed.
Example ex_returns : exists fuel l, synthesize_board_observations (ex_args 5 "all-cameras-must-see-full-board" 3) (fun _ => (v0, v0)) fuel = Returned l.
Proof.
  set (a := ex_args 5 "all-cameras-must-see-full-board" 3).
  apply (C87_returns a (fun _ => (v0, v0)) 3 (map (fun i => make_frame a (v0, v0)) (seq 0 3))); [cbn; lia|cbn; lia|discriminate|left; reflexivity| |cbn; lia].
  apply ex_selected. intros f Hf. apply in_map_iff in Hf. destruct Hf as (i & <- & _). split; [|exact Logic.I]. unfold a. rewrite ex_frame. left. split; [reflexivity|].
  intros [|i'] Hi; [|cbn in Hi; lia]. eexists _, _. split; [reflexivity|]. split; [reflexivity|]. intros p Hp. unfold in_image. cbn [ex_cam cam_W cam_H].
  destruct Hp as [<-|[<-|[<-|[<-|[]]]]]; eexists _, _; (split; [reflexivity|lra]).
Qed.
(** "AT LEAST HALF visible": a board of which exactly half is visible isn't accepted; here it is all that there is, and the function doesn't return *)
Theorem C87_exactly_half_refuted : exists a noise, a_which a = "all-cameras-must-see-half-board"%string /\ (0 < a_Nframes a)%nat /\
  (forall k m q, nth_error (combine (a_models a) (fst (make_frame a (noise k)))) 0 = Some (m, q) -> exists n, count (in_image m) q n /\ (2 * n = List.length q)%nat) /\
  List.length (a_models a) = 1%nat /\ forall fuel l, synthesize_board_observations a noise fuel <> Returned l.
Proof.
  exists (ex_args 0 "all-cameras-must-see-half-board" 1), (fun _ => (v0, v0)).
  assert (count (in_image ex_cam) [Some (0 - 1 / 2, 9 / 2); Some (0 + 1 / 2, 9 / 2); Some (0 - 1 / 2, 11 / 2); Some (0 + 1 / 2, 11 / 2)] 2) as C.
  { assert (forall y, ~ in_image ex_cam (Some (0 - 1 / 2, y))) as Out by (intros y (x & y' & E & H & _); injection E as E _; rewrite <- E in H; lra).
    assert (forall y, 0 <= y <= 10 -> in_image ex_cam (Some (0 + 1 / 2, y))) as Inn by (intros y Hy; unfold in_image; cbn [cam_W cam_H ex_cam]; eexists _, _; split; [reflexivity|lra]).
    apply count_no; [apply Out|]. apply count_yes; [apply Inn; lra|]. apply count_no; [apply Out|]. apply count_yes; [apply Inn; lra|]. constructor. }
  split; [reflexivity|]. split; [cbn; lia|]. split; [|split; [reflexivity|]].
  - intros k m q. rewrite ex_frame. cbn [ex_args a_models combine nth_error]. intro E.
    apply (f_equal (fun o => match o with Some x => x | None => (m, q) end)) in E. cbv iota beta in E. pose proof (f_equal fst E) as E1. pose proof (f_equal snd E) as E2. cbn [fst snd] in E1, E2.
    rewrite <- E1, <- E2. exists 2%nat. split; [exact C|reflexivity].
  - intros fuel. apply C87_runs_forever; [cbn; lia|cbn; lia|discriminate|cbn; lia|]. intros i [Q _]. rewrite ex_frame in Q.
    destruct Q as [[Q _]|[[Q _]|[[_ Q]|[Q _]]]]; try discriminate. destruct (Q 0%nat ltac:(cbn; lia)) as (m & q & E1 & E2 & n & Cn & L).
    cbn [ex_args a_models nth_error] in E1, E2. injection E1 as <-.
    apply (f_equal (fun o => match o with Some x => x | None => q end)) in E2. cbv iota beta in E2. rewrite <- E2 in Cn, L. rewrite <- (count_fun _ _ _ C _ Cn) in L. cbn in L. lia.
Qed.

Print Assumptions C87_pixels.
Print Assumptions C87_pose.
Print Assumptions C87_radius.
Print Assumptions C87_acceptable.
Print Assumptions C87_first.
Print Assumptions C87_prefix.
Print Assumptions C87_returns.
Print Assumptions C87_runs_forever.
Print Assumptions C87_refused.
Print Assumptions C87_exactly_half_refuted.
