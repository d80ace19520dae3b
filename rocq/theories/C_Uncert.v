(** Property theorems C68 (propagation of the noise to a quantity computed from the solution) and C69 (estimate of the noise level). *)
From Coq Require Import Reals Lra Psatz Lia Arith ZArith List Bool FunctionalExtensionality.
From Coquelicot Require Import Coquelicot.
From Verif Require Import S_Vec M_Pose M_Lens M_Layout S_Layout P_Layout M_Pack P_Pack M_Callback S_Callback P_Callback P_CallbackRows C_Callback M_Project P_Spline M_Residuals C_Splined C_Jacobian M_Uncert P_Uncert.
Import ListNotations.
Open Scope R_scope.

(** ** Vocabulary *)
Definition is_reg (id : rowid) : bool := match id with R_reg_dist _ _ | R_reg_splined _ _ _ | R_reg_center _ _ | R_unity => true | _ => false end.
Definition is_obs (id : rowid) : bool := match id with R_board _ _ _ | R_point _ _ => true | _ => false end.
(** the weight of the feature that a row is about *)
Definition weight_of (c : context) (id : rowid) : R :=
  match id with R_board iobs ipt _ => vz (c_bpool c (feature c iobs ipt)) | R_point iobs _ => vz (c_ppool c iobs) | _ => 0 end.
(** dx_m/db_k (C66_partial_derivatives) *)
Definition gradient (rows : list (@row R)) (m k : nat) : R := match nth_error rows m with Some r => column (r_j r) (Z.of_nat k) | None => 0 end.
(** Noise in the observed pixels, seen in the measurement vector: observations with a positive weight have independent noise with the
    standard deviation sigma (in weighted pixels); there is no noise in the regularization. *)
Definition pixel_noise {Om : Type} (E : (Om -> R) -> R) (c : context) (rows : list (@row R)) (sigma : R) (n : Om -> nat -> R) : Prop :=
  (forall m r w, nth_error rows m = Some r -> is_reg (r_id r) = true -> n w m = 0) /\
  (forall m l r r', nth_error rows m = Some r -> nth_error rows l = Some r' -> 0 < weight_of c (r_id r) -> 0 < weight_of c (r_id r') ->
     E (fun w => n w m * n w l) = if Nat.eqb m l then sigma * sigma else 0).
(** how much F_i changes if the solution moves by d (in packed units); dF: derivative by the unpacked state *)
Definition change (p : problem) (dF : nat -> nat -> R) (i : nat) (d : nat -> R) : R :=
  rsum (Z.to_nat (num_states p)) (fun k => dF i k * unpack_vec p (fun z => d (Z.to_nat z)) (Z.of_nat k)).

(** ** The rows *)
Section Rows.
  Variable stale : j23.
  Variable c : context.
  Variable b : Z -> R.
  Let p := c_p c.
  Hypothesis Hok : problem_ok p.
  Hypothesis HL : lens_legal (p_lens p).
  Hypothesis Ho : obs_ok p.
  Hypothesis SO : splines_ok (p_lens p).
  Variable fs : list (list tri_obs).
  Hypothesis HT : tri_supported p.
  Hypothesis HF : tri_features (p_tri p) fs.
  Variable rows : list (@row R).
  Hypothesis EV : evaluate stale c b = Some rows.

  Lemma weighted_column : forall l k, weighted l (fun n => if (n =? k)%Z then 1 else 0) = column l k.
  Proof. induction l as [|[n a] l IH]; intro k; cbn [weighted column]; [reflexivity|]. rewrite IH. destruct (n =? k)%Z; ring. Qed.
  Lemma zero_row : forall r k, In r rows -> is_obs (r_id r) = true -> weight_of c (r_id r) <= 0 -> column (r_j r) k = 0.
  Proof.
    intros r k HR IO W. pose proof (good_all stale c b rows EV) as G. rewrite Forall_forall in G. destruct (G r HR) as (V & GI & GO).
    assert (forall cols, column (map (fun n : Z => (n, 0)) cols) k = 0) as Z by (induction cols as [|x l IH]; cbn [map column]; [reflexivity|rewrite IH; destruct (x =? k)%Z; ring]).
    destruct (Classical_Prop.classic (inlier c (r_id r))) as [I|I]; [|destruct (GO I) as (_ & cols & ->); apply Z].
    destruct (GI I) as [_ ->]. destruct (r_id r) as [iobs ipt ixy|iobs ixy| | | | |]; try discriminate; cbn [inlier weight_of valid row_entries] in *; [|lra].
    assert (vz (c_bpool c (feature c iobs ipt)) = 0) as W0 by lra.
    rewrite <- weighted_column. rewrite (board_entries_rate stale c (fun _ => b) 0 _ iobs ipt ixy) by (try apply V; exact SO). rewrite W0. ring.
  Qed.
  Lemma flat_map_all : forall {A B} (f : A -> list B) l (P : B -> Prop), (forall a x, In x (f a) -> P x) -> forall x, In x (flat_map f l) -> P x.
  Proof. intros A B f l P H x HI. apply in_flat_map in HI. destruct HI as (a & _ & Ha). eauto. Qed.
  Lemma seq_plus : forall s n, seq s n = map (fun i => (s + i)%nat) (seq 0 n).
  Proof. intros s n. revert s. induction n as [|n IH]; intro s; cbn [seq map]; [reflexivity|]. rewrite (IH (S s)), (IH 1%nat), map_map, Nat.add_0_r. f_equal. apply map_ext. intro. lia. Qed.
  Lemma flat_map_map : forall {A B C} (f : B -> list C) (g : A -> B) l, flat_map f (map g l) = flat_map (fun a => f (g a)) l.
  Proof. intros A B C f g l. induction l; cbn; congruence. Qed.
  Lemma map_flat_map : forall {A B C} (f : B -> C) (g : A -> list B) l, map f (flat_map g l) = flat_map (fun a => map f (g a)) l.
  Proof. intros A B C f g l. induction l; cbn; [reflexivity|]. rewrite map_app. congruence. Qed.
  Lemma flat_map_ext_in : forall {A B} (f g : A -> list B) l, (forall a, In a l -> f a = g a) -> flat_map f l = flat_map g l.
  Proof. intros A B f g l H. induction l as [|a l IH]; cbn; [reflexivity|]. rewrite (H a), IH; [reflexivity|intros; apply H; now right|now left]. Qed.
  Lemma rows_split : exists A T B, rows = (A ++ T ++ B)%list /\ (forall r, In r A -> is_obs (r_id r) = true) /\ (forall r, In r B -> is_reg (r_id r) = true) /\
    lenZ A = (num_measurements_boards p (Nobs_board p) + num_measurements_points (Nobs_point p))%Z /\ num_measurements p = Some (lenZ A + lenZ T + lenZ B)%Z /\ lenZ B = num_measurements_reg p /\
    map (fun r => weight_pos (weight_of c (r_id r))) A =
      (flat_map (fun w => [weight_pos w; weight_pos w]) (map (fun i => vz (c_bpool c (Z.of_nat i))) (seq 0 (Z.to_nat (Nobs_board p * (p_w p * p_h p))))) ++
       flat_map (fun w => [weight_pos w; weight_pos w]) (map (fun i => vz (c_ppool c (Z.of_nat i))) (seq 0 (Z.to_nat (Nobs_point p)))))%list.
  Proof.
    pose proof EV as EV'. unfold evaluate, callback_rows in EV'. fold p in EV'.
    destruct (callback_counts 0 is_ge0 is_le0 (row_x stale c b) (row_j stale c b) (fun iobs ipt => truncated c (board_seen c b iobs ipt)) (fun iobs => truncated c (point_seen c b iobs)) p
       (fun i => vz (c_bpool c i)) (fun i => vz (c_ppool c i)) Hok fs HT HF) as (rows' & E1 & E2 & _).
    unfold callback_rows in E1. destruct (tri_section 0 _ _ p) as [T|] eqn:ET; [|discriminate]. injection EV' as EV'. injection E1 as E1.
    destruct (boards_rows_len 0 is_ge0 (row_x stale c b) (row_j stale c b) (fun iobs ipt => truncated c (board_seen c b iobs ipt)) p (fun i => vz (c_bpool c i)) Hok (p_boards p) 0 0) as (B1 & _).
    destruct (points_rows_len 0 is_le0 (row_x stale c b) (row_j stale c b) (fun iobs => truncated c (point_seen c b iobs)) p (fun i => vz (c_ppool c i)) Hok (p_points p) 0) as (P1 & _).
    set (BS := boards_rows _ _ _ _ _ _ _ _ _ _) in *. set (PS := points_rows _ _ _ _ _ _ _ _ _) in *.
    set (Bs := (reg_dist_rows (row_x stale c b) (row_j stale c b) p ++ reg_center_rows (row_x stale c b) (row_j stale c b) p ++ unity_rows (row_x stale c b) (row_j stale c b) p)%list) in *.
    exists (BS ++ PS)%list, T, Bs. split; [now rewrite <- app_assoc|]. split; [|split; [|split; [|split; [|split]]]].
    - intros r HR. apply in_app_or in HR. destruct HR as [HR|HR].
      + unfold BS in HR. clear -HR. set (zr := 0) in HR. clearbody zr. revert HR. generalize 0%Z at 2. generalize 0%Z. induction (p_boards p) as [|o l IH]; intros f i HR; cbn [boards_rows] in HR; [destruct HR|]. apply in_app_or in HR. destruct HR as [HR|HR]; [|now apply IH in HR].
        unfold board_rows in HR. revert HR. apply (flat_map_all _ _ (fun r => is_obs (r_id r) = true)). intros ipt x. cbn [map In]. destruct (is_ge0 _); intros [<-|[<-|[]]]; reflexivity.
      + unfold PS in HR. clear -HR. set (zr := 0) in HR. clearbody zr. revert HR. generalize 0%Z. induction (p_points p) as [|o l IH]; intros i HR; cbn [points_rows] in HR; [destruct HR|]. apply in_app_or in HR. destruct HR as [HR|HR]; [|now apply IH in HR].
        revert HR. cbn [map In]. destruct (is_le0 _); intros [<-|[<-|[]]]; reflexivity.
    - intros r HR. unfold Bs in HR. apply in_app_or in HR. destruct HR as [HR|HR]; [|apply in_app_or in HR; destruct HR as [HR|HR]].
      + unfold reg_dist_rows in HR. destruct (_ && _); [|destruct HR]. destruct (p_lens p); revert HR; try (apply (flat_map_all _ _ (fun r => is_reg (r_id r) = true)); intros icam x HX; apply in_map_iff in HX; destruct HX as (? & <- & _); reflexivity).
        apply (flat_map_all _ _ (fun r => is_reg (r_id r) = true)). intros icam x. apply (flat_map_all _ _ (fun r => is_reg (r_id r) = true)). intros iy x'. apply (flat_map_all _ _ (fun r => is_reg (r_id r) = true)). intros ix x'' [<-|[<-|[]]]; reflexivity.
      + unfold reg_center_rows in HR. destruct (_ && _ && _); [|destruct HR]. revert HR. apply (flat_map_all _ _ (fun r => is_reg (r_id r) = true)). intros icam x [<-|[<-|[]]]; reflexivity.
      + unfold unity_rows in HR. destruct (_ && _ && _); [|destruct HR]. destruct HR as [<-|[]]; reflexivity.
    - rewrite lenZ_app, B1, P1. unfold num_measurements_boards, num_measurements_points, Nobs_board, Nobs_point. change (Z.of_nat (length (p_boards p))) with (lenZ (p_boards p)). change (Z.of_nat (length (p_points p))) with (lenZ (p_points p)).
      destruct (Z.leb_spec (lenZ (p_boards p)) 0) as [H|H]; [|ring]. assert (lenZ (p_boards p) = 0)%Z as -> by (unfold lenZ in *; lia). ring.
    - rewrite E2, <- E1. rewrite !lenZ_app. f_equal. unfold Bs. rewrite !lenZ_app. ring.
    - unfold Bs. rewrite !lenZ_app. rewrite (proj1 (reg_dist_len _ _ p Hok)), (proj1 (reg_center_len _ _ p Hok)), (proj1 (unity_len _ _ p)).
      unfold num_measurements_reg, num_reg_percam, num_distortions_opt, has_core. destruct (do_reg (p_sel p)), (do_dist (p_sel p)), (do_core (p_sel p)); cbn [andb negb]; ring.
    - rewrite map_app. f_equal.
      + unfold BS, Nobs_board. pose proof (wh_nonneg p Hok) as WH.
        assert (forall l i f, (0 <= i)%Z -> f = (i * (p_w p * p_h p))%Z -> map (fun r => weight_pos (weight_of c (r_id r))) (boards_rows 0 is_ge0 (row_x stale c b) (row_j stale c b) (fun iobs ipt => truncated c (board_seen c b iobs ipt)) p (fun i => vz (c_bpool c i)) i f l)
          = flat_map (fun w => [weight_pos w; weight_pos w]) (map (fun i => vz (c_bpool c (Z.of_nat i))) (seq (Z.to_nat f) (Z.to_nat (Z.of_nat (length l) * (p_w p * p_h p)))))) as G; [|apply (G _ 0%Z 0%Z); lia].
        induction l as [|o l IH]; intros i f Hi Hf; cbn [boards_rows]; [reflexivity|]. rewrite map_app, (IH (i + 1)%Z (f + p_w p * p_h p)%Z) by lia.
        replace (Z.to_nat (Z.of_nat (length (o :: l)) * (p_w p * p_h p))) with (Z.to_nat (p_w p * p_h p) + Z.to_nat (Z.of_nat (length l) * (p_w p * p_h p)))%nat by (cbn [length]; nia).
        rewrite seq_app, map_app, flat_map_app. f_equal.
        * unfold board_rows, zrange. rewrite (seq_plus (Z.to_nat f)), map_map, flat_map_map, map_flat_map, flat_map_map. apply flat_map_ext_in. intros k Hk. apply in_seq in Hk. cbn [map].
          assert (vz (c_bpool c (feature c i (0 + Z.of_nat k))) = vz (c_bpool c (Z.of_nat (Z.to_nat f + k)))) as W by (do 2 f_equal; unfold feature; fold p; lia).
          destruct (is_ge0 _); cbn [inlier_row outlier_row r_id weight_of]; now rewrite W.
        * do 3 f_equal. lia.
      + unfold PS, Nobs_point.
        assert (forall l i, (0 <= i)%Z -> map (fun r => weight_pos (weight_of c (r_id r))) (points_rows 0 is_le0 (row_x stale c b) (row_j stale c b) (fun iobs => truncated c (point_seen c b iobs)) p (fun i => vz (c_ppool c i)) i l)
          = flat_map (fun w => [weight_pos w; weight_pos w]) (map (fun i => vz (c_ppool c (Z.of_nat i))) (seq (Z.to_nat i) (Z.to_nat (Z.of_nat (length l)))))) as G; [|apply (G _ 0%Z); lia].
        induction l as [|o l IH]; intros i Hi; cbn [points_rows]; [reflexivity|]. rewrite map_app, (IH (i + 1)%Z) by lia.
        replace (Z.to_nat (Z.of_nat (length (o :: l)))) with (S (Z.to_nat (Z.of_nat (length l)))) by (cbn [length]; lia). cbn [seq map flat_map]. rewrite Z2Nat.id by exact Hi. replace (Z.to_nat (i + 1)) with (S (Z.to_nat i)) by lia. f_equal.
        cbn [map]. destruct (is_le0 _); reflexivity.
  Qed.

  Lemma column_out : forall r k, In r rows -> (k < 0 \/ num_states p <= k)%Z -> column (r_j r) k = 0.
  Proof.
    intros r k HR Hk. destruct (C04_jacobian_columns R 0 is_ge0 is_le0 _ _ _ _ p _ _ rows r Hok HL Ho EV HR) as [C _]. unfold cols in C. revert C. clear -Hk.
    induction (r_j r) as [|[n a] l IH]; intro C; cbn [column map] in *; [reflexivity|]. inversion C as [|? ? H1 H2]; subst. rewrite IH by exact H2. cbn [fst] in H1. destruct (Z.eqb_spec n k); [lia|ring].
  Qed.
  Let N := Z.to_nat (num_states p).
  Let js := csr_rows rows.
  Lemma csr_range : forall m, (m < length rows)%nat -> in_range (indptr js) (indices js) N m.
  Proof.
    intros m Hm i Hi. unfold in_range, indices. assert (indptr js m + i < length (concat js))%nat as B.
    { assert (indptr js (S m) <= length (concat js))%nat; [|lia]. unfold indptr. rewrite <- (firstn_skipn (S m) js) at 2. rewrite concat_app, app_length. lia. }
    pose proof (nth_In (concat js) (0%Z, 0) B) as I. apply in_concat in I. destruct I as (l & I1 & I2). unfold js, csr_rows in I1. apply in_map_iff in I1. destruct I1 as (r & <- & HR).
    destruct (C04_jacobian_columns R 0 is_ge0 is_le0 _ _ _ _ p _ _ rows r Hok HL Ho EV HR) as [C _]. rewrite Forall_forall in C. specialize (C (fst (nth (indptr js m + i) (concat js) (0%Z, 0)))).
    assert (In (fst (nth (indptr js m + i) (concat js) (0%Z, 0))) (cols r)) as I3 by (unfold cols; now apply in_map). specialize (C I3). unfold N. unfold js in *. lia.
  Qed.
  Lemma csr_gradient : forall m k, (m < length rows)%nat -> dense (indptr js) (indices js) (data js) m k = gradient rows m k.
  Proof.
    intros m k Hm. destruct (nth_error rows m) as [r|] eqn:ER; [|apply nth_error_None in ER; lia]. assert (nth m js [] = r_j r) as EJ. { unfold js, csr_rows. change [] with (@r_j R {| r_id := R_unity; r_x := 0; r_j := [] |}). rewrite map_nth. f_equal. now apply nth_error_nth. }
    rewrite dense_csr; [|unfold js, csr_rows; now rewrite map_length|].
    - unfold gradient. now rewrite ER, EJ.
    - rewrite EJ. intros e HI. destruct (C04_jacobian_columns R 0 is_ge0 is_le0 _ _ _ _ p _ _ rows r Hok HL Ho EV (nth_error_In _ _ ER)) as [C _]. rewrite Forall_forall in C. specialize (C (fst e)).
      assert (In (fst e) (cols r)) as I3 by (unfold cols; now apply in_map). specialize (C I3). lia.
  Qed.
  Definition used (m : nat) : bool := match nth_error rows m with Some r => weight_pos (weight_of c (r_id r)) | None => false end.
  Lemma weight_pos_iff : forall w, weight_pos w = true <-> 0 < w.
  Proof. intro w. unfold weight_pos. destruct (Rlt_dec 0 w); split; intros; try lra; try discriminate; reflexivity. Qed.

  (** observations_leading(): the first rows are all of the observations *)
  Lemma leading_rows : forall leading, observations_leading p = inl leading ->
    (leading = 0%nat /\ (forall m r, nth_error rows m = Some r -> is_obs (r_id r) = true) \/
     (0 < leading <= length rows)%nat /\ (forall m r, nth_error rows m = Some r -> if Nat.ltb m leading then is_obs (r_id r) = true else is_reg (r_id r) = true)).
  Proof.
    intros leading HLd. destruct rows_split as (A & T & B & ER & HA & HB & LA & LM & LB & _). unfold observations_leading in HLd. rewrite LM, <- LB, <- LA in HLd.
    destruct (measurement_index_reg p) as [ireg|]; [|discriminate].
    destruct (Z.eqb_spec (lenZ A + lenZ B) (lenZ A + lenZ T + lenZ B)) as [E|E]; cbn [negb] in HLd; [|discriminate].
    assert (T = []) as -> by (destruct T; [reflexivity|unfold lenZ in E; cbn [length] in E; lia]). cbn [app] in ER. change (lenZ (@nil (@row R))) with 0%Z in HLd. rewrite Z.add_0_r in HLd.
    destruct (_ && _); [discriminate|]. destruct (Z.eqb_spec (lenZ B) 0) as [EB|EB].
    - injection HLd as <-. left. split; [reflexivity|]. assert (B = []) as -> by (destruct B; [reflexivity|unfold lenZ in EB; cbn [length] in EB; lia]). rewrite app_nil_r in ER. subst A. intros m r HR. apply HA. eapply nth_error_In. exact HR.
    - replace (lenZ A + lenZ B - lenZ B)%Z with (lenZ A) in HLd by ring. destruct (Z.eqb_spec (lenZ A) 0) as [EA|EA]; [discriminate|]. injection HLd as <-. right. unfold lenZ in *. rewrite Nat2Z.id. rewrite ER, app_length. split; [lia|].
      intros m r HR. destruct (Nat.ltb_spec m (length A)).
      + rewrite nth_error_app1 in HR by assumption. apply HA. eapply nth_error_In. exact HR.
      + rewrite nth_error_app2 in HR by assumption. apply HB. eapply nth_error_In. exact HR.
  Qed.
End Rows.


Lemma unpack_scale : forall p k, (0 <= k < num_states p)%Z -> problem_ok p -> exists s, forall b, unpack_vec p b k = b k * s.
Proof.
  intros p k Hk Hok. destruct (pack_vec_val p Hok (fun _ => 0) k Hk) as (s & E & _ & _). exists (scale s). intro b. destruct (pack_vec_val p Hok b k Hk) as (s' & E' & _ & U). rewrite E in E'. injection E' as <-. exact U.
Qed.
(** scaling the derivatives instead of the change of the state *)
Lemma change_packed : forall p dF i d, problem_ok p -> change p dF i d = rsum (Z.to_nat (num_states p)) (fun k => packed_gradient p dF i k * d k).
Proof.
  intros p dF i d Hok. unfold change, packed_gradient. apply rsum_ext. intros k Hk. destruct (unpack_scale p (Z.of_nat k) ltac:(lia) Hok) as (s & U). rewrite !U, Nat2Z.id. ring.
Qed.
Lemma mulv_gradient : forall N J J' a m, (forall k, J m k = J' m k) -> mulv N J a m = mulv N J' a m.
Proof. intros. unfold mulv. apply rsum_ext. intros. now rewrite H. Qed.

Section Main.
  Context (stale : j23) (c : context) (b : Z -> R) (fs : list (list tri_obs)) (rows : list (@row R)) (leading : nat) (solve : system -> (nat -> R) -> (nat -> R)).
  Let p := c_p c.
  Let N := Z.to_nat (num_states p).
  Let M := length rows.
  Let js := csr_rows rows.
  Context (Hok : problem_ok p) (HL : lens_legal (p_lens p)) (Ho : obs_ok p) (SO : splines_ok (p_lens p)) (HT : tri_supported p) (HF : tri_features (p_tri p) fs)
    (EV : evaluate stale c b = Some rows) (LD : observations_leading p = inl leading) (FC : factorizes M N (gradient rows) solve).

  Lemma row_cases : forall m, (m < M)%nat -> exists r, nth_error rows m = Some r /\ (is_obs (r_id r) = true \/ is_reg (r_id r) = true) /\ (used c rows m = true <-> 0 < weight_of c (r_id r)).
  Proof.
    intros m Hm. destruct (nth_error rows m) as [r|] eqn:ER; [|apply nth_error_None in ER; unfold M in Hm; lia]. exists r. split; [reflexivity|]. split.
    - destruct (leading_rows stale c b Hok HL SO fs HT HF rows EV leading LD) as [[_ H]|[_ H]]; specialize (H m r ER); [auto|]. destruct (Nat.ltb m leading); auto.
    - unfold used. rewrite ER. apply weight_pos_iff.
  Qed.
  (** an unused row: no noise, or no gradient *)
  Lemma unused_row : forall (Om : Type) (E : (Om -> R) -> R) sigma n m, pixel_noise E c rows sigma n -> (m < M)%nat -> used c rows m = false -> (forall w, n w m = 0) \/ forall k, gradient rows m k = 0.
  Proof.
    intros Om E sigma n m [HZ _] Hm HU. destruct (row_cases m Hm) as (r & ER & [IO|IR] & U).
    - right. intro k. unfold gradient. rewrite ER. apply (zero_row stale c b SO rows EV r); [eapply nth_error_In; exact ER|exact IO|]. destruct (Rle_dec (weight_of c (r_id r)) 0); [assumption|]. assert (used c rows m = true) by (apply U; lra). congruence.
    - left. intro w. now apply (HZ m r w).
  Qed.
  Lemma used_noise : forall (Om : Type) (E : (Om -> R) -> R) sigma n, pixel_noise E c rows sigma n -> forall m l, (m < M)%nat -> (l < M)%nat -> used c rows m = true -> used c rows l = true ->
    E (fun w => n w m * n w l) = if Nat.eqb m l then sigma * sigma else 0.
  Proof.
    intros Om E sigma n [_ HN] m l Hm Hl U U'. destruct (row_cases m Hm) as (r & ER & _ & Ur). destruct (row_cases l Hl) as (r' & ER' & _ & Ur'). apply (HN m l r r'); try assumption; [now apply Ur|now apply Ur'].
  Qed.
  (** what process_slice() computes *)
  Lemma slice_val : forall Nx g i j, (i < Nx)%nat -> (j < Nx)%nat ->
    process_slice solve (indptr js) (indices js) (data js) N leading Nx g i j =
    rsum M (fun m => ind (used c rows m) * (mulv N (gradient rows) (solve Sys_A (g i)) m * mulv N (gradient rows) (solve Sys_A (g j)) m)).
  Proof.
    intros Nx g i j Hi Hj. unfold process_slice.
    assert (forall m a, (m < M)%nat -> used c rows m = false -> is_reg (r_id (nth m rows {| r_id := R_board 0 0 0; r_x := 0; r_j := [] |})) = false -> mulv N (gradient rows) a m = 0) as Z.
    { intros m a Hm HU NR. destruct (row_cases m Hm) as (r & ER & [IO|IR] & U); [|rewrite (nth_error_nth _ _ _ ER) in NR; congruence].
      unfold mulv. apply rsum_0. intros k _. unfold gradient. rewrite ER. rewrite (zero_row stale c b SO rows EV r); [ring|eapply nth_error_In; exact ER|exact IO|]. destruct (Rle_dec (weight_of c (r_id r)) 0); [assumption|]. assert (used c rows m = true) by (apply U; lra). congruence. }
    destruct (leading_rows stale c b Hok HL SO fs HT HF rows EV leading LD) as [[L0 H]|[HLd H]].
    - replace (Nat.ltb 0 leading) with false by (rewrite L0; reflexivity). cbv zeta. rewrite for_loop_sum, Rplus_0_l. rewrite (pieces M N (gradient rows) solve FC). apply rsum_ext. intros m Hm. destruct (used c rows m) eqn:HU; cbn [ind]; [ring|].
      destruct (row_cases m Hm) as (r & ER & _ & _). rewrite !Z; [ring|assumption..| |assumption|assumption|]; rewrite (nth_error_nth _ _ _ ER); specialize (H m r ER); destruct (r_id r); try discriminate; reflexivity.
    - destruct (Nat.ltb_spec 0 leading); [|lia]. cbv zeta. set (A := fun n => solve Sys_A (g (n / N)%nat) (n mod N)%nat).
      assert (forall o, (if Nat.eqb Nx 2 then A_Jt_J_At_2 (indptr js) (indices js) (data js) N A leading o else A_Jt_J_At (indptr js) (indices js) (data js) N A leading Nx o) (i * Nx + j)%nat =
        rsum leading (fun m => rsum N (fun k => dense (indptr js) (indices js) (data js) m k * A (k + i * N)%nat) * rsum N (fun k => dense (indptr js) (indices js) (data js) m k * A (k + j * N)%nat))) as EP.
      { intro o. assert (forall m, (m < leading)%nat -> in_range (indptr js) (indices js) N m) as RG by (intros; apply (csr_range stale c b Hok HL Ho rows EV); lia).
        destruct (Nat.eqb_spec Nx 2) as [->|]; [now apply A_Jt_J_At_2_val|now apply A_Jt_J_At_val]. }
      specialize (EP (fun _ => 0)). replace ((if Nat.eqb Nx 2 then A_Jt_J_At_2 (indptr js) (indices js) (data js) N A leading else A_Jt_J_At (indptr js) (indices js) (data js) N A leading Nx) (fun _ => 0) (i * Nx + j)%nat) with
        ((if Nat.eqb Nx 2 then A_Jt_J_At_2 (indptr js) (indices js) (data js) N A leading (fun _ => 0) else A_Jt_J_At (indptr js) (indices js) (data js) N A leading Nx (fun _ => 0)) (i * Nx + j)%nat) by (destruct (Nat.eqb Nx 2); reflexivity).
      rewrite EP. clear EP.
      assert (forall m q, (m < leading)%nat -> rsum N (fun k => dense (indptr js) (indices js) (data js) m k * A (k + q * N)%nat) = mulv N (gradient rows) (solve Sys_A (g q)) m) as EQ.
      { intros m q Hm. unfold mulv. apply rsum_ext. intros k Hk. rewrite (csr_gradient stale c b Hok HL Ho rows EV) by lia. f_equal. unfold A. rewrite Nat.div_add, Nat.mod_add by lia. rewrite Nat.div_small, Nat.mod_small by exact Hk. reflexivity. }
      assert (M = leading + (M - leading))%nat as -> by (unfold M; lia). rewrite rsum_app. rewrite (rsum_0 (M - leading)).
      + rewrite Rplus_0_r. apply rsum_ext. intros m Hm. rewrite !EQ by exact Hm. destruct (used c rows m) eqn:HU; cbn [ind]; [ring|]. destruct (row_cases m ltac:(unfold M; lia)) as (r & ER & _ & _).
        assert (is_reg (r_id (nth m rows {| r_id := R_board 0 0 0; r_x := 0; r_j := [] |})) = false) as NR. { rewrite (nth_error_nth _ _ _ ER). specialize (H m r ER). destruct (Nat.ltb_spec m leading); [|lia]. destruct (r_id r); try discriminate; reflexivity. }
        rewrite !Z by (unfold M; try lia; assumption). ring.
      + intros m Hm. destruct (row_cases (leading + m)%nat ltac:(unfold M in *; lia)) as (r & ER & _ & U). specialize (H _ _ ER). destruct (Nat.ltb_spec (leading + m) leading); [lia|].
        assert (used c rows (leading + m) = false) as ->; [|cbn [ind]; ring]. destruct (used c rows (leading + m)); [|reflexivity]. exfalso. assert (0 < weight_of c (r_id r)) as W by now apply U. destruct (r_id r); try discriminate; cbn [weight_of] in W; lra.
  Qed.

  Context (Om : Type) (E : (Om -> R) -> R) (HE : expectation E) (sigma : R) (n : Om -> nat -> R) (PN : pixel_noise E c rows sigma n) (d : Om -> nat -> R)
    (FIT : forall w, fits M N (gradient rows) (n w) (d w)).
  Lemma negligible_mulv : forall a, negligible M (used c rows) n (mulv N (gradient rows) a).
  Proof. intros a m Hm HU. destruct (unused_row Om E sigma n m PN Hm HU) as [Z|Z]; [now left|right]. unfold mulv. apply rsum_0. intros. rewrite Z. ring. Qed.
  Lemma covariance_exact : forall Nx dF i j, (i < Nx)%nat -> (j < Nx)%nat ->
    E (fun w => change p dF i (d w) * change p dF j (d w)) = covariance solve (indptr js) (indices js) (data js) N leading Nx (packed_gradient p dF) sigma i j.
  Proof.
    intros Nx dF i j Hi Hj. unfold covariance. rewrite slice_val by assumption.
    rewrite (E_ext E _ (fun w => rsum M (fun m => mulv N (gradient rows) (solve Sys_A (packed_gradient p dF i)) m * n w m) * rsum M (fun m => mulv N (gradient rows) (solve Sys_A (packed_gradient p dF j)) m * n w m))).
    - rewrite (E_product E HE M (used c rows) n sigma (used_noise Om E sigma n PN)) by apply negligible_mulv. ring.
    - intro w. rewrite !change_packed by exact Hok. fold N. now rewrite !(change_noise M N (gradient rows) solve FC _ (n w) (d w)).
  Qed.

  (** the residuals of the new fit *)
  Definition fit_residual (w : Om) (m : nat) : R := n w m - mulv N (gradient rows) (d w) m.
  Lemma E_residual : forall m, (m < M)%nat -> used c rows m = true ->
    E (fun w => fit_residual w m * fit_residual w m) = sigma * sigma * rsum M (fun l => ind (used c rows l) * ((unit_vec m l - hat N (gradient rows) solve l m) * (unit_vec m l - hat N (gradient rows) solve l m))).
  Proof.
    intros m Hm HU. assert (negligible M (used c rows) n (fun l => unit_vec m l - hat N (gradient rows) solve l m)) as NG.
    { intros l Hl HU'. destruct (unused_row Om E sigma n l PN Hl HU') as [Z|Z]; [now left|right]. unfold hat, mulv. rewrite rsum_0 by (intros; rewrite Z; ring). unfold unit_vec. destruct (Nat.eqb_spec l m); [congruence|cbn; ring]. }
    rewrite <- (E_product E HE M (used c rows) n sigma (used_noise Om E sigma n PN) _ _ NG NG). apply E_ext. intro w. 
    assert (fit_residual w m = rsum M (fun l => (unit_vec m l - hat N (gradient rows) solve l m) * n w l)) as ->; [|reflexivity].
    unfold fit_residual, mulv. rewrite (change_noise M N (gradient rows) solve FC (fun k => gradient rows m k) (n w) (d w) (FIT w)). rewrite (rsum_ext M (fun l => (unit_vec m l - _) * n w l) (fun l => n w l * unit_vec m l - hat N (gradient rows) solve l m * n w l)) by (intros; ring).
    rewrite rsum_minus, dot_unit by exact Hm. reflexivity.
  Qed.
  Let H := hat N (gradient rows) solve.
  Lemma E_sum_residuals : E (fun w => rsum M (fun m => ind (used c rows m) * (fit_residual w m * fit_residual w m))) =
    sigma * sigma * (rsum M (fun m => ind (used c rows m)) - INR N + rsum M (fun m => ind (negb (used c rows m)) * rsum M (fun l => ind (negb (used c rows l)) * (H l m * H l m)))).
  Proof.
    rewrite (E_sum E HE M (fun m w => ind (used c rows m) * (fit_residual w m * fit_residual w m))).
    rewrite (rsum_ext M _ (fun m => sigma * sigma * (ind (used c rows m) * (1 - 2 * H m m + rsum M (fun l => ind (used c rows l) * (H l m * H l m)))))).
    - rewrite rsum_scal. f_equal.
      assert (forall m, rsum M (fun l => ind (used c rows l) * (H l m * H l m)) + rsum M (fun l => ind (negb (used c rows l)) * (H l m * H l m)) = H m m) as S1.
      { intro m. rewrite <- rsum_plus. unfold H at 5. rewrite (hat_idem M N (gradient rows) solve FC m m). apply rsum_ext. intros l _. unfold H. destruct (used c rows l); cbn [ind negb]; ring. }
      pose (uu := rsum M (fun m => ind (used c rows m) * rsum M (fun l => ind (used c rows l) * (H l m * H l m)))).
      pose (un := rsum M (fun m => ind (used c rows m) * rsum M (fun l => ind (negb (used c rows l)) * (H l m * H l m)))).
      pose (nn := rsum M (fun m => ind (negb (used c rows m)) * rsum M (fun l => ind (negb (used c rows l)) * (H l m * H l m)))).
      assert (rsum M (fun m => ind (negb (used c rows m)) * rsum M (fun l => ind (used c rows l) * (H l m * H l m))) = un) as NU.
      { unfold un. rewrite (rsum_ext M _ (fun m => rsum M (fun l => ind (negb (used c rows m)) * ind (used c rows l) * (H l m * H l m)))) by (intros; rewrite <- rsum_scal; apply rsum_ext; intros; ring).
        rewrite rsum_swap. apply rsum_ext. intros l _. rewrite <- rsum_scal. apply rsum_ext. intros k _. unfold H. rewrite (hat_sym M N (gradient rows) solve FC k l). ring. }
      assert (rsum M (fun m => ind (used c rows m) * H m m) = uu + un) as U1. { unfold uu, un. rewrite <- rsum_plus. apply rsum_ext. intros m _. rewrite <- S1. ring. }
      assert (rsum M (fun m => ind (negb (used c rows m)) * H m m) = un + nn) as U2. { rewrite <- NU. unfold nn. rewrite <- rsum_plus. apply rsum_ext. intros m _. rewrite <- S1. ring. }
      assert (rsum M (fun m => ind (used c rows m) * H m m) + rsum M (fun m => ind (negb (used c rows m)) * H m m) = INR N) as TR. { rewrite <- rsum_plus. rewrite <- (hat_trace M N (gradient rows) solve FC). apply rsum_ext. intros m _. unfold H. destruct (used c rows m); cbn [ind negb]; ring. }
      rewrite (rsum_ext M _ (fun m => (ind (used c rows m) + -2 * (ind (used c rows m) * H m m)) + ind (used c rows m) * rsum M (fun l => ind (used c rows l) * (H l m * H l m)))) by (intros; ring).
      rewrite !rsum_plus, rsum_scal. fold uu. fold nn. lra.
    - intros m Hm. destruct (used c rows m) eqn:HU; cbn [ind].
      + rewrite (proj2 HE 1 (fun w => fit_residual w m * fit_residual w m)). rewrite E_residual by assumption. rewrite Rmult_1_l. f_equal. rewrite Rmult_1_l.
        rewrite (rsum_ext M _ (fun l => ind (used c rows l) * (H l m * H l m) + (ind (used c rows l) * (1 - 2 * H l m)) * unit_vec m l)).
        * rewrite rsum_plus. rewrite (dot_unit M m (fun l => ind (used c rows l) * (1 - 2 * H l m)) Hm). rewrite HU. cbn [ind]. ring.
        * intros l _. fold H. assert (unit_vec m l * unit_vec m l = unit_vec m l) as Q by (unfold unit_vec; destruct (Nat.eqb l m); cbn; ring). 
          replace ((unit_vec m l - H l m) * (unit_vec m l - H l m)) with (unit_vec m l * unit_vec m l - 2 * unit_vec m l * H l m + H l m * H l m) by ring. rewrite Q. ring.
      + rewrite (E_ext E _ (fun _ => 0)) by (intro; ring). rewrite (E_0 E HE). ring.
  Qed.

  (** the estimate, as a function of the residuals *)
  Definition board_weights : list R := map (fun i => vz (c_bpool c (Z.of_nat i))) (seq 0 (Z.to_nat (Nobs_board p * (p_w p * p_h p)))).
  Definition point_weights : list R := map (fun i => vz (c_ppool c (Z.of_nat i))) (seq 0 (Z.to_nat (Nobs_point p))).
  Lemma sum_squares_cons : forall x l, sum_squares (x :: l) = x * x + sum_squares l.
  Proof.
    intros x l. unfold sum_squares. cbn [fold_left]. assert (forall l a, fold_left (fun s x => s + x * x) l a = a + fold_left (fun s x => s + x * x) l 0) as G; [|rewrite G; ring].
    induction l0 as [|y l0 IH]; intro a; cbn [fold_left]; [ring|]. rewrite IH, (IH (0 + y * y)). ring.
  Qed.
  Lemma rsum_first : forall k f, rsum (S k) f = f 0%nat + rsum k (fun i => f (S i)).
  Proof. intros k f. induction k as [|k IH]; [cbn [rsum]; ring|]. change (rsum (S (S k)) f) with (rsum (S k) f + f (S k)). rewrite IH. cbn [rsum]. ring. Qed.
  Lemma selected_sum : forall keep x s, sum_squares (selected keep (map x (seq s (length keep)))) = rsum (length keep) (fun i => ind (nth i keep false) * (x (s + i)%nat * x (s + i)%nat)).
  Proof.
    induction keep as [|k keep IH]; intros x s; [reflexivity|]. cbn [length seq map]. rewrite rsum_first. cbn [nth]. rewrite (rsum_ext (length keep) _ (fun i => ind (nth i keep false) * (x (S s + i)%nat * x (S s + i)%nat))) by (intros; do 2 f_equal; f_equal; lia).
    rewrite <- (IH x (S s)). rewrite Nat.add_0_r. destruct k; cbn [selected ind]; [rewrite sum_squares_cons|]; ring.
  Qed.
  Lemma selected_count : forall keep (x : nat -> R) s, INR (length (selected keep (map x (seq s (length keep))))) = rsum (length keep) (fun i => ind (nth i keep false)).
  Proof.
    intros keep. induction keep as [|k keep IH]; intros x s; [reflexivity|]. cbn [length seq map]. rewrite rsum_first. cbn [nth]. rewrite <- (IH x (S s)). destruct k; cbn [selected ind length]; [rewrite S_INR|]; ring.
  Qed.
  Definition Nused : nat := length (filter (fun r => weight_pos (weight_of c (r_id r))) rows).
  Lemma Nused_sum : INR Nused = rsum M (fun m => ind (used c rows m)).
  Proof.
    unfold Nused, M, used. clear. induction rows as [|r l IH]; [reflexivity|]. cbn [length]. rewrite rsum_first. cbn [nth_error filter]. rewrite <- IH. destruct (weight_pos _); cbn [length ind]; [rewrite S_INR|]; ring.
  Qed.
  Lemma estimate_val : forall x, observed_pixel_uncertainty p board_weights point_weights x =
    if Nat.eqb Nused 0 then inr No_noise_level
    else inl (sqrt (rsum M (fun m => ind (used c rows m) * (x m * x m)) / INR Nused) / sqrt (1 - IZR (num_states p) / INR Nused)).
  Proof.
    intro x. destruct (rows_split stale c b Hok HL SO fs HT HF rows EV) as (A & T & B & ER & HA & HB & LA & LM & LB & W). unfold observed_pixel_uncertainty. cbv zeta. fold p in LA, LM, LB, W. fold board_weights in W. fold point_weights in W.
    assert (T = []) as TN.
    { pose proof LD as LD'. unfold observations_leading in LD'. rewrite LM, <- LB, <- LA in LD'. destruct (measurement_index_reg p) as [ireg|]; [|discriminate].
      destruct (Z.eqb_spec (lenZ A + lenZ B) (lenZ A + lenZ T + lenZ B)) as [EE|EE]; cbn [negb] in LD'; [|discriminate]. destruct T; [reflexivity|unfold lenZ in EE; cbn [length] in EE; lia]. }
    rewrite TN in ER. cbn [app] in ER.
    set (two := flat_map (fun w => [weight_pos w; weight_pos w])) in *.
    assert (forall l, length (two l) = (2 * length l)%nat) as L2. { clear. intro l. unfold two. induction l as [|a l IH]; cbn [flat_map app length]; [reflexivity|]. rewrite IH. lia. }
    assert (0 <= p_w p * p_h p)%Z as WH by (apply wh_nonneg; exact Hok).
    assert (Z.to_nat (num_measurements_boards p (Nobs_board p)) = length (two board_weights)) as LBd.
    { rewrite L2. unfold board_weights. rewrite map_length, seq_length. unfold num_measurements_boards. assert (0 <= Nobs_board p)%Z by (unfold Nobs_board; lia). destruct (Z.leb_spec (Nobs_board p) 0); nia. }
    assert (Z.to_nat (num_measurements_points (Nobs_point p)) = length (two point_weights)) as LPt.
    { rewrite L2. unfold point_weights. rewrite map_length, seq_length. unfold num_measurements_points. assert (0 <= Nobs_point p)%Z by (unfold Nobs_point; lia). nia. }
    rewrite LBd, LPt. set (nb := length (two board_weights)). set (np := length (two point_weights)).
    assert (length A = nb + np)%nat as LAA. { rewrite <- (map_length (fun r => weight_pos (weight_of c (r_id r))) A), W, app_length. reflexivity. }
    assert (forall m, (m < M)%nat -> used c rows m = nth m (two board_weights ++ two point_weights) false) as U.
    { intros m Hm. unfold used. rewrite ER. rewrite <- W. destruct (Nat.lt_ge_cases m (length A)) as [H0|H0].
      - rewrite nth_error_app1 by exact H0. destruct (nth_error A m) as [r|] eqn:EA; [|apply nth_error_None in EA; lia]. symmetry. erewrite nth_error_nth; [reflexivity|]. now rewrite nth_error_map, EA.
      - rewrite nth_error_app2 by exact H0. rewrite (nth_overflow (map _ A)) by (rewrite map_length; lia). destruct (nth_error B (m - length A)) as [r|] eqn:EB; [|reflexivity].
        pose proof (HB r (nth_error_In _ _ EB)) as IR. unfold weight_pos. destruct (Rlt_dec 0 _) as [Hw|]; [|reflexivity]. exfalso. destruct (r_id r); try discriminate; cbn [weight_of] in Hw; lra. }
    assert (forall f, rsum M (fun m => ind (used c rows m) * f m) = rsum nb (fun i => ind (nth i (two board_weights) false) * f i) + rsum np (fun i => ind (nth i (two point_weights) false) * f (nb + i)%nat)) as G.
    { intro f. rewrite (rsum_ext M _ (fun m => ind (nth m (two board_weights ++ two point_weights) false) * f m)) by (intros; now rewrite U).
      assert (M = nb + np + length B)%nat as -> by (unfold M; rewrite ER, app_length; lia). rewrite !rsum_app. rewrite (rsum_0 (length B)).
      2:{ intros i Hi. rewrite nth_overflow by (rewrite app_length; fold nb np; lia). cbn. ring. }
      rewrite Rplus_0_r. f_equal; apply rsum_ext; intros i Hi; [rewrite app_nth1 by exact Hi; reflexivity|]. rewrite app_nth2 by (fold nb; lia). fold nb. do 3 f_equal. lia. }
    set (xb := selected (two board_weights) (map x (seq 0 nb))). set (xp := selected (two point_weights) (map x (seq nb np))).
    assert (sum_squares xb + sum_squares xp = rsum M (fun m => ind (used c rows m) * (x m * x m))) as SS. { rewrite (G (fun m => x m * x m)). unfold xb, xp. fold nb np. rewrite !selected_sum. reflexivity. }
    assert (length xb + length xp = Nused)%nat as CN. { apply INR_eq. rewrite plus_INR. unfold xb, xp. rewrite !selected_count. rewrite Nused_sum. rewrite (rsum_ext M _ (fun m => ind (used c rows m) * 1)) by (intros; ring). rewrite (G (fun _ => 1)). fold nb np. f_equal; apply rsum_ext; intros; ring. }
    rewrite CN, SS. reflexivity.
  Qed.
End Main.

(** ** C68.  Move the observations by a small noise; solve again (the linear least-squares problem given by the Jacobian).
    Whatever the noise is, as long as the used pixels are independent and equally noisy, the covariance of the resulting change
    of F is the matrix that is returned.  [E]: any linear functional on random variables. *)
Theorem C68_covariance :
  forall stale c b fs rows leading solve (Om : Type) (E : (Om -> R) -> R) sigma n d Nx dF i j,
  let p := c_p c in let N := Z.to_nat (num_states p) in let js := csr_rows rows in
  problem_ok p -> lens_legal (p_lens p) -> obs_ok p -> splines_ok (p_lens p) -> tri_supported p -> tri_features (p_tri p) fs ->
  evaluate stale c b = Some rows -> observations_leading p = inl leading -> factorizes (length rows) N (gradient rows) solve ->
  expectation E -> pixel_noise E c rows sigma n -> (forall w, fits (length rows) N (gradient rows) (n w) (d w)) ->
  (i < Nx)%nat -> (j < Nx)%nat ->
  E (fun w => change p dF i (d w) * change p dF j (d w)) = covariance solve (indptr js) (indices js) (data js) N leading Nx (packed_gradient p dF) sigma i j.
Proof. intros. eapply covariance_exact; eassumption. Qed.
Print Assumptions C68_covariance.

(** there is exactly one such solution *)
Theorem C68_one_solution : forall M N J solve n, factorizes M N J solve -> exists d, fits M N J n d /\ forall d', fits M N J n d' -> forall k, (k < N)%nat -> d' k = d k.
Proof. intros M N J solve n F. eexists. split; [apply (fit_exists M N J solve F)|]. intros d' H. apply (fit_unique M N J solve F n); [exact H|apply (fit_exists M N J solve F)]. Qed.
Print Assumptions C68_one_solution.

(** 'rms-stdev': the root of the mean variance *)
Theorem C68_rms :
  forall stale c b fs rows leading solve (Om : Type) (E : (Om -> R) -> R) sigma n d Nx dF,
  let p := c_p c in let N := Z.to_nat (num_states p) in let js := csr_rows rows in
  problem_ok p -> lens_legal (p_lens p) -> obs_ok p -> splines_ok (p_lens p) -> tri_supported p -> tri_features (p_tri p) fs ->
  evaluate stale c b = Some rows -> observations_leading p = inl leading -> factorizes (length rows) N (gradient rows) solve ->
  expectation E -> pixel_noise E c rows sigma n -> (forall w, fits (length rows) N (gradient rows) (n w) (d w)) -> 0 <= sigma -> (0 < Nx)%nat ->
  rms_stdev solve (indptr js) (indices js) (data js) N leading Nx (packed_gradient p dF) sigma =
  sqrt (rsum Nx (fun i => E (fun w => change p dF i (d w) * change p dF i (d w))) / INR Nx).
Proof.
  intros stale c b fs rows leading solve Om E sigma n d Nx dF p N js Hok HL Ho SO HT HF EV LD FC HE PN FIT SG NX. unfold rms_stdev. rewrite for_loop_sum, Rplus_0_l.
  rewrite (rsum_ext Nx (fun i => E (fun w => change p dF i (d w) * change p dF i (d w))) (fun i => process_slice solve (indptr js) (indices js) (data js) N leading Nx (packed_gradient p dF) i i * (sigma * sigma))).
  2:{ intros i Hi. pose proof (C68_covariance stale c b fs rows leading solve Om E sigma n d Nx dF i i Hok HL Ho SO HT HF EV LD FC HE PN FIT Hi Hi) as CV. fold p N js in CV. rewrite CV. unfold covariance. ring. }
  rewrite <- rsum_scal_r. set (V := rsum Nx _). assert (0 < INR Nx) by (apply lt_0_INR; exact NX). replace (V * (sigma * sigma) / INR Nx) with (V / INR Nx * (sigma * sigma)) by (field; lra).
  assert (0 <= V) as PV. { unfold V. apply rsum_ge0. intros i Hi. unfold p, N, js. rewrite (slice_val stale c b fs rows leading solve Hok HL Ho SO HT HF EV LD FC) by assumption. apply rsum_ge0. intros m _. destruct (used c rows m); cbn [ind]; nra. }
  rewrite sqrt_mult_alt by (apply Rmult_le_pos; [exact PV|left; now apply Rinv_0_lt_compat]). rewrite sqrt_square by exact SG. reflexivity.
Qed.
Print Assumptions C68_rms.

(** the covariance is symmetric and not negative in any direction *)
Theorem C68_symmetric_psd :
  forall stale c b fs rows leading solve sigma Nx g,
  let p := c_p c in let N := Z.to_nat (num_states p) in let js := csr_rows rows in let V := covariance solve (indptr js) (indices js) (data js) N leading Nx g sigma in
  problem_ok p -> lens_legal (p_lens p) -> obs_ok p -> splines_ok (p_lens p) -> tri_supported p -> tri_features (p_tri p) fs ->
  evaluate stale c b = Some rows -> observations_leading p = inl leading -> factorizes (length rows) N (gradient rows) solve ->
  (forall i j, (i < Nx)%nat -> (j < Nx)%nat -> V i j = V j i) /\
  (forall u : nat -> R, 0 <= rsum Nx (fun i => rsum Nx (fun j => u i * V i j * u j))).
Proof.
  intros stale c b fs rows leading solve sigma Nx g p N js V Hok HL Ho SO HT HF EV LD FC.
  assert (forall i j, (i < Nx)%nat -> (j < Nx)%nat -> V i j = rsum (length rows) (fun m => sigma * sigma * (ind (used c rows m) * (mulv N (gradient rows) (solve Sys_A (g i)) m * mulv N (gradient rows) (solve Sys_A (g j)) m)))) as G.
  { intros i j Hi Hj. unfold V, covariance, js, N, p. rewrite (slice_val stale c b fs rows leading solve Hok HL Ho SO HT HF EV LD FC) by assumption. rewrite rsum_scal. ring. }
  split.
  - intros i j Hi Hj. rewrite !G by assumption. apply rsum_ext. intros. ring.
  - intro u. rewrite (rsum_ext Nx _ (fun i => rsum Nx (fun j => rsum (length rows) (fun m => sigma * sigma * (ind (used c rows m) * ((u i * mulv N (gradient rows) (solve Sys_A (g i)) m) * (u j * mulv N (gradient rows) (solve Sys_A (g j)) m))))))).
    2:{ intros i Hi. apply rsum_ext. intros j Hj. rewrite G by assumption. rewrite Rmult_comm, <- Rmult_assoc, <- rsum_scal. apply rsum_ext. intros. ring. }
    rewrite (rsum_ext Nx _ (fun i => rsum (length rows) (fun m => sigma * sigma * (ind (used c rows m) * ((u i * mulv N (gradient rows) (solve Sys_A (g i)) m) * rsum Nx (fun j => u j * mulv N (gradient rows) (solve Sys_A (g j)) m)))))).
    2:{ intros i Hi. rewrite rsum_swap. apply rsum_ext. intros m _. rewrite <- !rsum_scal. apply rsum_ext. intros. ring. }
    rewrite rsum_swap. apply rsum_ge0. intros m _.
    rewrite (rsum_ext Nx _ (fun i => (sigma * sigma * ind (used c rows m) * rsum Nx (fun j => u j * mulv N (gradient rows) (solve Sys_A (g j)) m)) * (u i * mulv N (gradient rows) (solve Sys_A (g i)) m))) by (intros; ring). rewrite rsum_scal.
    set (q := rsum Nx _). destruct (used c rows m); cbn [ind]; nra.
Qed.
Print Assumptions C68_symmetric_psd.

(** Which problems are refused: those with triangulated points, and those with nothing but regularization. *)
Theorem C68_refused : forall p fs, problem_ok p -> tri_features (p_tri p) fs ->
  match observations_leading p with
  | inl _ => tri_sum fs = 0%Z
  | inr f => f = Other_measurements /\ tri_sum fs <> 0%Z \/ f = No_observations /\ (num_measurements_boards p (Nobs_board p) + num_measurements_points (Nobs_point p) = 0)%Z /\ num_measurements_reg p <> 0%Z
  end.
Proof.
  intros p fs Hok HF. unfold observations_leading, num_measurements, measurement_index_reg. assert (num_measurements_tri (p_tri p) = Some (tri_sum fs)) as -> by now apply tri_total_features.
  set (B := num_measurements_boards p (Nobs_board p)). set (P := num_measurements_points (Nobs_point p)). set (G := num_measurements_reg p). set (T := tri_sum fs).
  destruct (Z.leb_spec G 0) as [HG|HG].
  - destruct (Z.eqb_spec (B + P + G) (B + P + T + G)) as [E|E]; cbn [negb]; [|left; split; [reflexivity|lia]]. change (0 <=? -1)%Z with false. cbn [andb].
    destruct (Z.eqb_spec G 0); [lia|]. destruct (Z.eqb_spec (B + P + T + G - G) 0); [right|lia]. split; [reflexivity|]. split; [lia|assumption].
  - destruct (Z.eqb_spec (B + P + G) (B + P + T + G)) as [E|E]; cbn [negb]; [|left; split; [reflexivity|lia]].
    replace (B + P + T + G =? B + P + T + G)%Z with true by (symmetry; apply Z.eqb_refl). cbn [negb]. rewrite andb_false_r. destruct (Z.eqb_spec G 0); [lia|]. destruct (Z.eqb_spec (B + P + T + G - G) 0); [right|lia]. split; [reflexivity|]. split; [lia|assumption].
Qed.
Print Assumptions C68_refused.

(** ** C69.  The noise level reported from the residuals: its mean square is sigma^2 if there is no regularization, and never less. *)
Theorem C69_noise_level :
  forall stale c b fs rows leading solve (Om : Type) (E : (Om -> R) -> R) sigma n d (est : Om -> R),
  let p := c_p c in let N := Z.to_nat (num_states p) in
  problem_ok p -> lens_legal (p_lens p) -> obs_ok p -> splines_ok (p_lens p) -> tri_supported p -> tri_features (p_tri p) fs ->
  evaluate stale c b = Some rows -> observations_leading p = inl leading -> factorizes (length rows) N (gradient rows) solve ->
  expectation E -> pixel_noise E c rows sigma n -> (forall w, fits (length rows) N (gradient rows) (n w) (d w)) ->
  (N < length (filter (fun r => weight_pos (weight_of c (r_id r))) rows))%nat ->
  (forall w, observed_pixel_uncertainty p (board_weights c) (point_weights c) (fun m => n w m - rsum N (fun k => gradient rows m k * d w k)) = inl (est w)) ->
  (forall w, 0 <= est w) /\ sigma * sigma <= E (fun w => est w * est w) /\ (num_measurements_reg p = 0%Z -> E (fun w => est w * est w) = sigma * sigma).
Proof.
  intros stale c b fs rows leading solve Om E sigma n d est p N Hok HL Ho SO HT HF EV LD FC HE PN FIT HN EST.
  set (M := length rows) in *. fold (Nused c rows) in HN. assert (INR N < INR (Nused c rows)) as HR by now apply lt_INR. assert (0 <= INR N) as N0 by apply pos_INR.
  assert (0 <= num_states p)%Z as SN. { rewrite <- (vec_len p Hok). unfold lenZ. lia. }
  assert (IZR (num_states p) = INR N) as EN by (unfold N; rewrite INR_IZR_INZ, Z2Nat.id by exact SN; reflexivity).
  set (SS := fun w => rsum M (fun m => ind (used c rows m) * (fit_residual c rows Om n d w m * fit_residual c rows Om n d w m))).
  assert (forall w, est w = sqrt (SS w / INR (Nused c rows)) / sqrt (1 - INR N / INR (Nused c rows))) as EE.
  { intro w. specialize (EST w). rewrite (estimate_val stale c b fs rows leading solve Hok HL SO HT HF EV LD FC Om n d FIT) in EST. destruct (Nat.eqb_spec (Nused c rows) 0); [lia|]. injection EST as <-. unfold p. fold p. rewrite EN. reflexivity. }
  assert (0 < 1 - INR N / INR (Nused c rows)) as FP. { assert (INR N / INR (Nused c rows) < 1); [|lra]. apply Rmult_lt_reg_r with (INR (Nused c rows)); [lra|]. unfold Rdiv. rewrite Rmult_assoc, Rinv_l by lra. lra. }
  assert (forall w, 0 <= SS w) as SP. { intro w. apply rsum_ge0. intros m _. destruct (used c rows m); cbn [ind]; nra. }
  assert (forall w, 0 <= SS w / INR (Nused c rows)) as SP'. { intro w. apply Rmult_le_pos; [apply SP|]. left. apply Rinv_0_lt_compat. lra. }
  assert (forall w, est w * est w = / (INR (Nused c rows) - INR N) * SS w) as E2.
  { intro w. rewrite EE. assert (0 < sqrt (1 - INR N / INR (Nused c rows))) by now apply sqrt_lt_R0.
    replace (sqrt (SS w / INR (Nused c rows)) / sqrt (1 - INR N / INR (Nused c rows)) * (sqrt (SS w / INR (Nused c rows)) / sqrt (1 - INR N / INR (Nused c rows)))) with
      ((sqrt (SS w / INR (Nused c rows)) * sqrt (SS w / INR (Nused c rows))) / (sqrt (1 - INR N / INR (Nused c rows)) * sqrt (1 - INR N / INR (Nused c rows)))) by (field; lra).
    rewrite !sqrt_sqrt by (try apply SP'; lra). field. repeat split; lra. }
  split; [|].
  { intro w. rewrite EE. apply Rmult_le_pos; [apply sqrt_pos|]. left. apply Rinv_0_lt_compat. now apply sqrt_lt_R0. }
  assert (E (fun w => est w * est w) = / (INR (Nused c rows) - INR N) * E SS) as EE2 by (rewrite (E_ext E _ _ E2); apply (proj2 HE)).
  pose proof (E_sum_residuals stale c b fs rows leading solve Hok HL SO HT HF EV LD FC Om E HE sigma n PN d FIT) as ES. fold p N M in ES. fold SS in ES. pose proof (Nused_sum c rows) as NS. fold M in NS. rewrite <- NS in ES.
  set (X := rsum M (fun m => ind (negb (used c rows m)) * _)) in ES.
  assert (0 <= X) as XP. { apply rsum_ge0. intros m _. apply Rmult_le_pos; [destruct (used c rows m); cbn; lra|]. apply rsum_ge0. intros l _. destruct (used c rows l); cbn [ind negb]; nra. }
  assert (E (fun w => est w * est w) = sigma * sigma * (1 + X / (INR (Nused c rows) - INR N))) as EF by (rewrite EE2, ES; field; lra).
  assert (0 <= X / (INR (Nused c rows) - INR N)) as XQ by (apply Rmult_le_pos; [exact XP|left; apply Rinv_0_lt_compat; lra]).
  split; [rewrite EF; nra|]. intro RZ. rewrite EF. assert (X = 0) as ->; [|field; lra].
  apply rsum_0. intros m Hm. destruct (used c rows m) eqn:HU; cbn [ind negb]; [ring|]. rewrite (rsum_0 M); [ring|]. intros l Hl. destruct (used c rows l) eqn:HUl; cbn [ind negb]; [ring|].
  assert (hat N (gradient rows) solve l m = 0) as ->; [|ring]. unfold hat, mulv. apply rsum_0. intros k _.
  destruct (leading_rows stale c b Hok HL SO fs HT HF rows EV leading LD) as [[_ H]|[HLd H]].
  - destruct (nth_error rows l) as [r|] eqn:ER; [|apply nth_error_None in ER; unfold M in Hl; lia]. unfold gradient at 1. rewrite ER. rewrite (zero_row stale c b SO rows EV r); [ring|eapply nth_error_In; exact ER|now apply (H l r)|].
    unfold used in HUl. rewrite ER in HUl. unfold weight_pos in HUl. destruct (Rlt_dec 0 (weight_of c (r_id r))); [discriminate|lra].
  - exfalso. unfold observations_leading in LD. fold p in LD. rewrite RZ in LD. change (0 =? 0)%Z with true in LD. destruct (num_measurements p), (measurement_index_reg p); try discriminate. repeat match type of LD with (if ?x then _ else _) = _ => destruct x; try discriminate end; injection LD as LD; lia.
Qed.
Print Assumptions C69_noise_level.

(** ** a problem that meets all of these hypotheses: a pinhole camera looks at three known points; its four parameters are estimated *)
Definition ex68_sel : selections := {| do_core := true; do_dist := false; do_ext := false; do_frames := false; do_warp := false; do_reg := false; do_unity := false |}.
Definition ex68_p : problem :=
  {| p_lens := PINHOLE; p_sel := ex68_sel; p_Nci := 1; p_Nce := 0; p_Nframes := 0; p_Npoints := 3; p_Npoints_fixed := 3; p_boards := [];
     p_points := [{| po_icam_i := 0; po_icam_e := -1; po_ipoint := 0 |}; {| po_icam_i := 0; po_icam_e := -1; po_ipoint := 1 |}; {| po_icam_i := 0; po_icam_e := -1; po_ipoint := 2 |}];
     p_tri := []; p_w := 0; p_h := 0 |}%Z.
Definition ex68_at (i : Z) : R := if (i =? 0)%Z then 1 else if (i =? 1)%Z then -1 else 0.
Definition ex68_c : context :=
  {| c_p := ex68_p; c_intr := fun _ _ => 0; c_cam := fun _ => mkrt (V3 0 0 0) (V3 0 0 0); c_frame := fun _ => mkrt (V3 0 0 0) (V3 0 0 0); c_point := fun i => V3 (ex68_at i) (ex68_at i) 1;
     c_warp := None; c_imager := fun _ => 1000%Z; c_spacing := 1; c_bpool := fun _ => V3 0 0 0; c_ppool := fun _ => V3 600 600 1; c_tri_px := fun _ => V3 0 0 0 |}.
Definition ex68_D (k : nat) : R := if Nat.ltb k 2 then 500000 else 1200.
Definition ex68_solve (s : system) (v : nat -> R) (k : nat) : R := match s with Sys_A | Sys_D => v k / ex68_D k | Sys_P | Sys_L => v k end.
Definition ex68_noise (sigma : R) (w m : nat) : R := if Nat.eqb w m then sigma else 0.
Definition ex68_E (f : nat -> R) : R := rsum 6 f.
Lemma ex68_entries : forall stale iobs ixy, (iobs = 0 \/ iobs = 1 \/ iobs = 2)%Z -> row_entries stale ex68_c (fun _ => 1) (R_point iobs ixy) = [((0 + ixy)%Z, ex68_at iobs * 500); ((0 + ixy + 2)%Z, 20)].
Proof.
  intros stale iobs ixy H. cbn [row_entries]. unfold point_entries. assert (po_icam_e (point_at ex68_c iobs) = -1 /\ po_icam_i (point_at ex68_c iobs) = 0 /\ po_ipoint (point_at ex68_c iobs) = iobs)%Z as (E1 & E2 & E3) by (destruct H as [-> | [-> | ->]]; repeat split; reflexivity).
  cbv zeta. rewrite E2. unfold point_seen. cbv zeta. rewrite E1. unfold use_position_from_state, intr_entries. cbn [ex68_c c_p ex68_p p_sel ex68_sel do_ext do_frames do_core do_dist andb app c_ppool vz].
  change (state_index_intrinsics ex68_p 0) with 0%Z. unfold point_frame, point_of, use_position_from_state. cbn [c_p ex68_p p_sel ex68_sel do_frames andb c_point]. rewrite E3.
  unfold extr_of. change (-1 <? 0)%Z with true. cbn [ex68_c c_point]. unfold camera_point. cbn [joint_pose rt_r rt_t]. cbv zeta. 
  assert (forall X v, vadd (mul_Rv X (V3 0 0 0)) v = v) as AV by (intros X [a b' c']; apply v3_eq; unfold vadd, mul_Rv, mv, dot; cbn; ring).
  rewrite AV. cbn [p_lens ex68_p lens_dfxy do_frames p_sel c_p ex68_c ex68_sel andb]. f_equal; [|repeat f_equal; cbn; ring].
  f_equal. change (M_OpenCV.core_of (intr_of ex68_c (fun _ => 1) 0)) with (Core (1 * scale S_focal) (1 * scale S_focal) (1 * scale S_center) (1 * scale S_center)).
  unfold p2get; destruct (ixy =? 0)%Z; cbn; field.
Qed.
Example C68_example : exists stale b rows, problem_ok ex68_p /\ lens_legal (p_lens ex68_p) /\ obs_ok ex68_p /\ splines_ok (p_lens ex68_p) /\ tri_supported ex68_p /\ tri_features (p_tri ex68_p) [] /\
  evaluate stale ex68_c b = Some rows /\ observations_leading ex68_p = inl 0%nat /\ num_states ex68_p = 4%Z /\ factorizes (length rows) 4 (gradient rows) ex68_solve /\
  expectation ex68_E /\ pixel_noise ex68_E ex68_c rows 1 (ex68_noise 1) /\ (4 < length (filter (fun r => weight_pos (weight_of ex68_c (r_id r))) rows))%nat /\
  (forall x, exists e, observed_pixel_uncertainty ex68_p (board_weights ex68_c) (point_weights ex68_c) x = inl e).
Proof.
  exists j0, (fun _ => 1).
  assert (exists rows, evaluate j0 ex68_c (fun _ => 1) = Some rows) as [rows EV] by (eexists; reflexivity).
  assert (map r_id rows = [R_point 0 0; R_point 0 1; R_point 1 0; R_point 1 1; R_point 2 0; R_point 2 1]%Z) as EI.
  { assert (map r_id rows = match evaluate j0 ex68_c (fun _ => 1) with Some l => map r_id l | None => [] end) as -> by now rewrite EV. 
    unfold evaluate, callback_rows. cbn [tri_section p_tri c_p ex68_c ex68_p p_boards boards_rows p_points points_rows]. assert (forall i, is_le0 (vz (c_ppool ex68_c i)) = false) as LE by (intro; unfold is_le0; cbn; destruct (Rle_dec 1 0); [lra|reflexivity]). cbn [map]. rewrite !LE. reflexivity. }
  assert (forall r, In r rows -> inlier ex68_c (r_id r)) as IN.
  { intros r HR. assert (In (r_id r) (map r_id rows)) as HI by now apply in_map. rewrite EI in HI. cbn [In] in HI. destruct HI as [<- | [<- | [<- | [<- | [<- | [<- | []]]]]]]; cbn; lra. }
  assert (forall r, In r rows -> r_j r = row_entries j0 ex68_c (fun _ => 1) (r_id r)) as RJ.
  { intros r HR. pose proof (good_all j0 ex68_c (fun _ => 1) rows EV) as G. rewrite Forall_forall in G. destruct (G r HR) as (_ & GI & _). exact (proj2 (GI (IN r HR))). }
  destruct rows as [|r0 [|r1 [|r2 [|r3 [|r4 [|r5 [|? ?]]]]]]]; try discriminate EI. injection EI as E0 E1 E2 E3 E4 E5.
  assert (forall r iobs ixy k, In r [r0; r1; r2; r3; r4; r5] -> r_id r = R_point iobs ixy -> (iobs = 0 \/ iobs = 1 \/ iobs = 2)%Z -> column (r_j r) k = column [((0 + ixy)%Z, ex68_at iobs * 500); ((0 + ixy + 2)%Z, 20)] k) as CL.
  { intros r iobs ixy k HR HID HI. rewrite (RJ r HR), HID, ex68_entries by exact HI. reflexivity. }
  exists [r0; r1; r2; r3; r4; r5].
  split; [repeat split; vm_compute; congruence|]. split; [exact I|]. split; [repeat split; repeat constructor; vm_compute; congruence|]. split; [exact I|]. split; [left; reflexivity|]. split; [split; [reflexivity|constructor]|].
  split; [exact EV|]. split; [reflexivity|]. split; [reflexivity|].
  set (J := gradient [r0; r1; r2; r3; r4; r5]).
  assert (forall m k, (m < 6)%nat -> J m k = column [(Z.of_nat (m mod 2), ex68_at (Z.of_nat (m / 2)) * 500); ((Z.of_nat (m mod 2) + 2)%Z, 20)] (Z.of_nat k)) as EJ.
  { intros m k Hm. unfold J, gradient. do 6 (destruct m as [|m]; [cbn [nth_error]; first [rewrite (CL r0 0%Z 0%Z)|rewrite (CL r1 0%Z 1%Z)|rewrite (CL r2 1%Z 0%Z)|rewrite (CL r3 1%Z 1%Z)|rewrite (CL r4 2%Z 0%Z)|rewrite (CL r5 2%Z 1%Z)]; [reflexivity|cbn; tauto|assumption|lia]|]). lia. }
  assert (forall k l, (k < 4)%nat -> (l < 4)%nat -> JtJ (length [r0; r1; r2; r3; r4; r5]) J k l = if Nat.eqb k l then ex68_D k else 0) as EJJ.
  { intros k l Hk Hl. unfold JtJ. cbn [length rsum]. rewrite !EJ by lia. clear -Hk Hl.
    do 4 (destruct k as [|k]; [do 4 (destruct l as [|l]; [cbn; unfold ex68_D, ex68_at; cbn; lra|]); lia|]). lia. }
  clearbody J. split; [|split; [|split; [|split]]].
  - split.
    + intros v k Hk. cbn [rsum]. rewrite !EJJ by lia. clear -Hk. do 4 (destruct k as [|k]; [cbn; unfold ex68_D; cbn; field|]). lia.
    + exists (fun i => i), (fun i j => if Nat.eqb i j then 1 else 0), ex68_D. split; [auto|]. split; [auto|]. split; [intros; now rewrite Nat.eqb_refl|]. split; [intros i j H; destruct (Nat.eqb_spec i j); [lia|reflexivity]|]. split; [|split; [|split]].
      * intros i j Hi Hj. cbn [rsum]. rewrite EJJ by assumption. clear -Hi Hj. do 4 (destruct i as [|i]; [do 4 (destruct j as [|j]; [cbn; lra|]); lia|]). lia.
      * reflexivity.
      * intros v i Hi. cbn [rsum]. clear -Hi. do 4 (destruct i as [|i]; [cbn; lra|]). lia.
      * intros v i Hi. cbn [ex68_solve]. unfold ex68_D. destruct (Nat.ltb i 2); field.
  - split; intros; unfold ex68_E; [apply rsum_plus|apply rsum_scal].
  - split.
    + intros m r w Hr RG. apply nth_error_In in Hr. cbn [In] in Hr. destruct Hr as [<- | [<- | [<- | [<- | [<- | [<- | []]]]]]]; rewrite ?E0, ?E1, ?E2, ?E3, ?E4, ?E5 in RG; discriminate.
    + intros m l r r' Hm Hl _ _. assert (nth_error [r0; r1; r2; r3; r4; r5] m <> None /\ nth_error [r0; r1; r2; r3; r4; r5] l <> None) as [A B] by (rewrite Hm, Hl; split; discriminate). apply nth_error_Some in A. apply nth_error_Some in B. cbn [length] in A, B.
      unfold ex68_E, ex68_noise. clear -A B. do 6 (destruct m as [|m]; [do 6 (destruct l as [|l]; [cbn; lra|]); lia|]). lia.
  - cbn [filter]. rewrite E0, E1, E2, E3, E4, E5. cbn [weight_of]. assert (forall i, weight_pos (vz (c_ppool ex68_c i)) = true) as WP by (intro; unfold weight_pos; cbn; destruct (Rlt_dec 0 1); [reflexivity|lra]). rewrite !WP. cbn. lia.
  - intro x. unfold observed_pixel_uncertainty. change (board_weights ex68_c) with (@nil R). change (point_weights ex68_c) with [1; 1; 1]. cbn [flat_map app]. assert (weight_pos 1 = true) as -> by (unfold weight_pos; destruct (Rlt_dec 0 1); [reflexivity|lra]). eexists. reflexivity.
Qed.
