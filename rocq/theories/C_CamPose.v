(** C44: the four pose accessors of a camera model object agree. *)
From Coq Require Import Reals List Lra Lia.
From Verif Require Import S_Vec M_Dual M_Pose P_Trig P_Pose C_Rodrigues C_Rt P_Quat C_RtVec P_Euler P_RfromR C_RfromR.
Import ListNotations.
Open Scope R_scope.

(** ** Model: mrcal/cameramodel.py.  The pose is kept as one rt array,
    self._rt_cam_ref.  The argument/result of an accessor: *)
Inductive value := Val_rt (p : rt) | Val_Rt (p : Rt).
Inductive accessor := A_rt_ref_cam | A_rt_cam_ref | A_Rt_ref_cam | A_Rt_cam_ref.

(** The branches for an argument None: cameramodel.py:1647-1649 rt_ref_cam, 1688-1690 rt_cam_ref,
    1729-1731 Rt_ref_cam, 1769-1771 Rt_cam_ref *)
Definition get (a : accessor) (self : rt) : value :=
  match a with
  | A_rt_ref_cam => Val_rt (invert_rt self)
  | A_rt_cam_ref => Val_rt self
  | A_Rt_ref_cam => Val_Rt (invert_Rt (Rt_from_rt self))
  | A_Rt_cam_ref => Val_Rt (Rt_from_rt self)
  end.
(** The setter branches: cameramodel.py:1652-1654, 1693-1695, 1733-1735, 1773-1775.  None: the
    shape of the argument is not the one of this accessor (the C functions
    raise; rt_cam_ref itself does not check the shape: not modelled) *)
Definition set (a : accessor) (v : value) : option rt :=
  match a, v with
  | A_rt_ref_cam, Val_rt p => Some (invert_rt p)
  | A_rt_cam_ref, Val_rt p => Some p
  | A_Rt_ref_cam, Val_Rt p => Some (rt_from_Rt (invert_Rt p))
  | A_Rt_cam_ref, Val_Rt p => Some (rt_from_Rt p)
  | _, _ => None
  end.
(** The deprecated names: cameramodel.py:1778-1792 *)
Inductive legacy := L_extrinsics_rt_toref | L_extrinsics_rt_fromref | L_extrinsics_Rt_toref | L_extrinsics_Rt_fromref.
Definition legacy_accessor (l : legacy) : accessor :=
  match l with
  | L_extrinsics_rt_toref => A_rt_ref_cam
  | L_extrinsics_rt_fromref => A_rt_cam_ref
  | L_extrinsics_Rt_toref => A_Rt_ref_cam
  | L_extrinsics_Rt_fromref => A_Rt_cam_ref
  end.
(** One call, by either name *)
Inductive call := Get (a : accessor) | Set_ (a : accessor) (v : value) | Get_legacy (l : legacy) | Set_legacy (l : legacy) (v : value).
Inductive outcome := Returned (v : value) | Done | Raised.
Definition step_set (self : rt) (a : accessor) (v : value) : rt * outcome :=
  match set a v with Some p => (p, Done) | None => (self, Raised) end.
Definition step (self : rt) (c : call) : rt * outcome :=
  match c with
  | Get a => (self, Returned (get a self))
  | Set_ a v => step_set self a v
  | Get_legacy l => (self, Returned (get (legacy_accessor l) self))
  | Set_legacy l v => step_set self (legacy_accessor l) v
  end.
Fixpoint run (self : rt) (cs : list call) : rt * list outcome :=
  match cs with
  | [] => (self, [])
  | c :: cs => let '(self, o) := step self c in let '(self, os) := run self cs in (self, o :: os)
  end.
(** What goes into the file: cameramodel.py:529-531 writes self._rt_cam_ref *)
Definition written (self : rt) : rt := self.

(** ** Specification.  A pose is a map f from reference to camera coordinates; a
    value "is" this pose when read through an accessor if the points go where
    they should: from ref to cam by f, or back *)
Definition maps (v : value) (x : v3) : v3 :=
  match v with Val_rt p => transform_point_rt p x false | Val_Rt p => transform_point_Rt p x false end.
Definition from_ref (a : accessor) : Prop := a = A_rt_cam_ref \/ a = A_Rt_cam_ref.
Definition is_pose (a : accessor) (v : value) (f : v3 -> v3) : Prop :=
  (from_ref a -> forall x, maps v x = f x) /\ (~ from_ref a -> forall x, maps v (f x) = x /\ f (maps v x) = x) /\
  match a, v with A_rt_ref_cam, Val_rt _ | A_rt_cam_ref, Val_rt _ | A_Rt_ref_cam, Val_Rt _ | A_Rt_cam_ref, Val_Rt _ => True | _, _ => False end.
(** Rotations where the code is exact: 0, or an angle of at least 1e-5.  For a
    matrix: symmetric, or with an antisymmetric part that is not tiny *)
Definition plain_r (r : v3) : Prop := r = v0 \/ 1 / 100000 <= norm r.
Definition plain_R (m : m33) : Prop := is_rot m /\
  (m = mT m \/ 2 / 100000 <= norm (V3 (m21 m - m12 m) (m02 m - m20 m) (m10 m - m01 m))).
Definition plain (v : value) : Prop := match v with Val_rt p => plain_r (rt_r p) | Val_Rt p => plain_R (Rt_R p) end.

(** ** Proofs *)
Lemma plain_vneg : forall r, plain_r r -> plain_r (vneg r).
Proof. intros r [-> | H]; [left; vring|right; now rewrite norm_vneg]. Qed.
Lemma plain_from_R : forall m, plain_R m -> plain_r (r_from_R m) /\ R_from_r (r_from_R m) = m.
Proof.
  intros m (Hm & H).
  destruct (C21_R_roundtrip_partial m Hm) as (E & N). { destruct H; [now left|right; lra]. }
  split; [|exact E]. set (r := r_from_R m) in *.
  destruct (Rle_dec (1 / 100000) (norm r)) as [L|L]; [now right|]. left.
  destruct (Rlt_dec (norm r) DBL_EPSILON) as [T|T].
  - rewrite R_from_r_tiny in E by exact T. unfold r. rewrite <- E.
    rewrite <- (R_from_r_tiny v0) by (rewrite norm_v0; apply eps_pos). apply C21_r_roundtrip_partial. now left.
  - exfalso. assert (0 < DBL_EPSILON) by apply eps_pos. assert (r <> v0) as Hr by (apply pos_ne0; lra).
    rewrite R_from_r_rod in E by lra. pose proof (unit_norm2 r Hr) as U. set (u := unit r) in *. set (th := norm r) in *.
    assert (0 < th) by lra. pose proof PI2_1 as P2.
    assert (0 < sin th) by (apply sin_gt_0; lra). pose proof (sin_lt_x th ltac:(lra)) as SL.
    assert (norm (V3 (m21 m - m12 m) (m02 m - m20 m) (m10 m - m01 m)) = 2 * sin th) as An.
    { rewrite <- E. replace (V3 _ _ _) with (vscale (2 * sin th) u) by (unfold rod; apply v3_eq; vunfold; ring).
      rewrite norm_vscale. unfold norm. rewrite U, sqrt_1, Rabs_pos_eq; lra. }
    rewrite An in H. destruct H as [H|H]; [|lra].
    assert (norm (V3 (m21 m - m12 m) (m02 m - m20 m) (m10 m - m01 m)) = 0) as Z.
    { replace (V3 _ _ _) with v0; [apply norm_v0|].
      pose proof (f_equal m21 H) as G1; pose proof (f_equal m02 H) as G2; pose proof (f_equal m10 H) as G3. cbn in G1, G2, G3.
      apply v3_eq; cbn; lra. }
    lra.
Qed.
Lemma plain_mT : forall m, plain_R m -> plain_R (mT m).
Proof.
  intros m (Hm & H). split; [now apply is_rot_mT|]. destruct H as [H|H].
  - left. rewrite <- H. now rewrite <- H.
  - right. replace (V3 _ _ _) with (vneg (V3 (m21 m - m12 m) (m02 m - m20 m) (m10 m - m01 m))) by (apply v3_eq; vunfold; ring).
    now rewrite norm_vneg.
Qed.
Lemma proper_from_rt : forall p, proper (Rt_from_rt p).
Proof. intro p. unfold proper. cbn. apply R_from_r_rot. Qed.
Lemma maps_rt : forall p x, plain_r (rt_r p) -> maps (Val_rt p) x = act (Rt_from_rt p) x.
Proof. intros p x H. unfold maps. rewrite C23_transform_partial by exact H. apply C22_transform_is_action. Qed.
Lemma maps_Rt : forall p x, maps (Val_Rt p) x = act p x.
Proof. intros. apply C22_transform_is_action. Qed.
Lemma plain_invert_rt : forall p, plain_r (rt_r p) -> plain_r (rt_r (invert_rt p)).
Proof. intros p H. exact (plain_vneg _ H). Qed.

(** Whatever the stored pose, the four getters return it *)
Lemma get_is_pose : forall self a, plain_r (rt_r self) -> is_pose a (get a self) (act (Rt_from_rt self)).
Proof.
  intros self a H. pose proof (proper_from_rt self) as P. unfold is_pose, from_ref.
  destruct (C23_invert_partial self H) as (Ei & _).
  destruct a; (split; [|split]); cbn [get]; try exact I; intros F x; try (exfalso; destruct F as [F|F]; discriminate); try (exfalso; apply F; (now left) || now right).
  - rewrite !maps_rt by now apply plain_invert_rt. rewrite Ei. now apply invert_act.
  - now rewrite maps_rt.
  - rewrite !maps_Rt. now apply invert_act.
  - now rewrite maps_Rt.
Qed.
Lemma inverse_unique : forall p (f : v3 -> v3), proper p -> (forall x, act p (f x) = x /\ f (act p x) = x) -> forall x, act (invert_Rt p) x = f x.
Proof. intros p f P H x. destruct (H x) as (A & _). rewrite <- A at 1. now apply invert_act. Qed.
(** ... and whatever is set is what is stored *)
Lemma set_stores : forall a v f, plain v -> is_pose a v f ->
  exists self, set a v = Some self /\ plain_r (rt_r self) /\ forall x, act (Rt_from_rt self) x = f x.
Proof.
  intros a v f Hv (H1 & H2 & H3). unfold from_ref in *.
  destruct a, v as [p|p]; try contradiction; cbn [set]; eexists; (split; [reflexivity|]); cbn [plain] in Hv.
  - split; [now apply plain_invert_rt|]. rewrite (proj1 (C23_invert_partial p Hv)).
    apply inverse_unique; [apply proper_from_rt|]. intro x.
    assert (~ (A_rt_ref_cam = A_rt_cam_ref \/ A_rt_ref_cam = A_Rt_cam_ref)) as N by (intros [F|F]; discriminate).
    destruct (H2 N x) as (A & B). rewrite maps_rt in A, B by exact Hv. now split.
  - split; [exact Hv|]. intro x. rewrite <- H1 by now left. now rewrite maps_rt.
  - assert (plain_R (Rt_R (invert_Rt p))) as Q by exact (plain_mT _ Hv).
    destruct (plain_from_R _ Q) as (Q1 & Q2). cbn [rt_from_Rt rt_r]. split; [exact Q1|].
    assert (Rt_from_rt (rt_from_Rt (invert_Rt p)) = invert_Rt p) as E.
    { unfold Rt_from_rt. cbn [rt_from_Rt rt_r rt_t]. rewrite Q2. now destruct (invert_Rt p). }
    rewrite E. apply inverse_unique; [exact (proj1 Hv)|]. intro x.
    assert (~ (A_Rt_ref_cam = A_rt_cam_ref \/ A_Rt_ref_cam = A_Rt_cam_ref)) as N by (intros [F|F]; discriminate).
    destruct (H2 N x) as (A & B). rewrite maps_Rt in A, B. now split.
  - destruct (plain_from_R _ Hv) as (Q1 & Q2). cbn [rt_from_Rt rt_r]. split; [exact Q1|].
    intro x. rewrite <- H1 by now right. rewrite maps_Rt. unfold Rt_from_rt. cbn [rt_from_Rt rt_r rt_t]. rewrite Q2. now destruct p.
Qed.
(** every proper value is some pose, read through any accessor of its shape *)
Lemma has_pose : forall a v, plain v -> (match a, v with A_rt_ref_cam, Val_rt _ | A_rt_cam_ref, Val_rt _ | A_Rt_ref_cam, Val_Rt _ | A_Rt_cam_ref, Val_Rt _ => True | _, _ => False end) ->
  exists f, is_pose a v f.
Proof.
  intros a v Hv H. unfold is_pose, from_ref.
  destruct a, v as [p|p]; try contradiction; cbn [plain] in Hv.
  - exists (act (invert_Rt (Rt_from_rt p))). split; [|split]; try exact I; intros F x; [exfalso; destruct F as [F|F]; discriminate|].
    rewrite !maps_rt by exact Hv. destruct (invert_act (Rt_from_rt p) x (proper_from_rt p)) as (A & B). now split.
  - exists (maps (Val_rt p)). split; [|split]; try exact I; intros F x; [reflexivity|exfalso; apply F; now left].
  - exists (act (invert_Rt p)). split; [|split]; try exact I; intros F x; [exfalso; destruct F as [F|F]; discriminate|].
    rewrite !maps_Rt. destruct (invert_act p x (proj1 Hv)) as (A & B). now split.
  - exists (maps (Val_Rt p)). split; [|split]; try exact I; intros F x; [reflexivity|exfalso; apply F; now right].
Qed.

(** The accessor that a call uses, by either name *)
Definition getter_of (c : call) (a : accessor) : Prop := c = Get a \/ exists l, c = Get_legacy l /\ legacy_accessor l = a.
Definition setter_of (c : call) (a : accessor) (v : value) : Prop := c = Set_ a v \/ exists l, c = Set_legacy l v /\ legacy_accessor l = a.
Lemma run_app : forall cs1 cs2 s, run s (cs1 ++ cs2) =
  let '(s1, o1) := run s cs1 in let '(s2, o2) := run s1 cs2 in (s2, o1 ++ o2).
Proof.
  induction cs1 as [|c cs1 IH]; intros cs2 s; cbn.
  - now destruct (run s cs2).
  - destruct (step s c) as [s0 o0]. rewrite IH. destruct (run s0 cs1) as [s1 o1]. now destruct (run s1 cs2).
Qed.
Lemma run_getters : forall gs s, Forall (fun c => exists a, getter_of c a) gs ->
  fst (run s gs) = s /\ Forall2 (fun c o => exists a, getter_of c a /\ o = Returned (get a s)) gs (snd (run s gs)).
Proof.
  induction gs as [|c gs IH]; intros s H; [now split; [|constructor]|].
  inversion H as [|? ? (a & Hc) Hg]; subst. cbn [run].
  assert (step s c = (s, Returned (get a s))) as E. { destruct Hc as [-> | (l & -> & <-)]; reflexivity. }
  rewrite E. destruct (IH s Hg) as (A & B). destruct (run s gs) as [s1 o1]. cbn in *. split; [exact A|].
  constructor; [|exact B]. exists a. split; [exact Hc|reflexivity].
Qed.

(** After any history, a pose set through any accessor, by its present or
    deprecated name, is what every later call of every accessor returns, and it
    is what is written to disk.
    Missing from the full claim: non-zero rotations by less than 1e-5 rad, and
    matrices that close to a half turn but not exactly there. *)
Theorem C44_accessors_agree_partial : forall history start a v f c getters,
  setter_of c a v -> plain v -> is_pose a v f ->
  Forall (fun c => exists a, getter_of c a) getters ->
  let '(self, os) := run start (history ++ c :: getters) in
  is_pose A_rt_cam_ref (Val_rt (written self)) f /\
  exists o1 o2, os = o1 ++ Done :: o2 /\ length o1 = length history /\
    Forall2 (fun c o => forall a', getter_of c a' -> exists w, o = Returned w /\ is_pose a' w f) getters o2.
Proof.
  intros history start a v f c getters Hc Hv Hf Hg. rewrite run_app.
  assert (forall cs s, length (snd (run s cs)) = length cs) as RL.
  { induction cs as [|c' cs IH]; intro s; [reflexivity|]. cbn. destruct (step s c') as [s0 o0]. specialize (IH s0). destruct (run s0 cs). cbn in *. now rewrite IH. }
  pose proof (RL history start) as L. destruct (run start history) as [s1 o1]. cbn in L. cbn [run].
  destruct (set_stores a v f Hv Hf) as (self & Es & Hp & Hs).
  assert (step s1 c = (self, Done)) as E. { destruct Hc as [-> | (l & -> & <-)]; cbn; unfold step_set; now rewrite Es. }
  rewrite E. destruct (run_getters getters self Hg) as (A & B). destruct (run self getters) as [s2 o2]. cbn in A, B. subst s2.
  assert (forall a' w, is_pose a' w (act (Rt_from_rt self)) -> is_pose a' w f) as T.
  { intros a' w (T1 & T2 & T3). split; [|split; [|exact T3]].
    - intros F x. now rewrite T1, Hs.
    - intros F x. rewrite <- !Hs. now apply T2. }
  split. { apply T. exact (get_is_pose self A_rt_cam_ref Hp). }
  exists o1, o2. split; [reflexivity|]. split; [exact L|].
  clear - B T Hp. induction B as [|c o gs os (a0 & G & ->) B IH]; constructor; [|exact IH].
  intros a' G'. exists (get a0 self). split; [reflexivity|].
  assert (a' = a0) as ->. { destruct G as [-> | (l & -> & <-)], G' as [G' | (l' & G' & <-)]; congruence. }
  apply T. now apply get_is_pose.
Qed.
Print Assumptions C44_accessors_agree_partial.

(** The deprecated names mean what they say: an rt or Rt array, to or from the reference *)
Definition legacy_says (l : legacy) (v : value) (f : v3 -> v3) : Prop :=
  match l, v with
  | L_extrinsics_rt_toref, Val_rt p => forall x, transform_point_rt p (f x) false = x /\ f (transform_point_rt p x false) = x
  | L_extrinsics_rt_fromref, Val_rt p => forall x, transform_point_rt p x false = f x
  | L_extrinsics_Rt_toref, Val_Rt p => forall x, transform_point_Rt p (f x) false = x /\ f (transform_point_Rt p x false) = x
  | L_extrinsics_Rt_fromref, Val_Rt p => forall x, transform_point_Rt p x false = f x
  | _, _ => False
  end.
Theorem C44_legacy_names : forall l v f, is_pose (legacy_accessor l) v f <-> legacy_says l v f.
Proof.
  intros l v f. unfold is_pose, from_ref. split.
  - intros (A & B & D). destruct l, v; cbn in D |- *; try contradiction; try (apply B; intros [E|E]; discriminate); apply A; cbn; auto.
  - intro H. destruct l, v; cbn in H |- *; try contradiction; (split; [intros [E|E]; try discriminate; exact H|split; [|exact I]]); intro F; try exact H; exfalso; apply F; auto.
Qed.
Print Assumptions C44_legacy_names.

(** Every value with such a rotation is the pose of some f, so the theorem
    applies to all of them *)
Theorem C44_every_value_is_a_pose : forall a v, plain v ->
  (match a, v with A_rt_ref_cam, Val_rt _ | A_rt_cam_ref, Val_rt _ | A_Rt_ref_cam, Val_Rt _ | A_Rt_cam_ref, Val_Rt _ => True | _, _ => False end) ->
  exists f, is_pose a v f.
Proof. exact has_pose. Qed.
Print Assumptions C44_every_value_is_a_pose.

(** Reading through one accessor and setting through it again, any number of
    times and through any accessors in turn, does not move the camera: no drift *)
Fixpoint cycles (self : rt) (l : list accessor) : option rt :=
  match l with [] => Some self | a :: l => match set a (get a self) with Some s => cycles s l | None => None end end.
Theorem C44_no_drift_partial : forall l self, plain_r (rt_r self) -> norm (rt_r self) <= PI - 1 / 100000 ->
  cycles self l = Some self.
Proof.
  induction l as [|a l IH]; intros self H HP; [reflexivity|]. cbn [cycles].
  assert (set a (get a self) = Some self) as ->; [|now apply IH].
  pose proof (C23_invert_partial self H) as (E1 & E2 & E3).
  assert (r_from_R (R_from_r (rt_r self)) = rt_r self) as Er. { apply C21_r_roundtrip_partial. destruct H as [-> | H]; [now left|right; lra]. }
  destruct (C22_invert (Rt_from_rt self) v0 (proper_from_rt self)) as (_ & _ & _ & _ & _ & E4).
  destruct a; cbn [get set]; f_equal.
  - destruct self as [r t]. destruct (invert_rt (invert_rt (mkrt r t))) as [r' t']. cbn in *. congruence.
  - rewrite E4. unfold rt_from_Rt. cbn. rewrite Er. now destruct self.
  - unfold rt_from_Rt. cbn. rewrite Er. now destruct self.
Qed.
Print Assumptions C44_no_drift_partial.

(** For every rotation matrix at all, the stored rotation vector is within 5e-8
    (per component) of a rotation vector of the matrix set, and the translation
    is exact *)
Theorem C44_any_matrix : forall p, proper p -> exists self r, set A_Rt_cam_ref (Val_Rt p) = Some self /\
  rotation_by (Rt_R p) r /\ (forall i, (i < 3)%nat -> Rabs (vget (rt_r self) i - vget r i) <= 5 / 100000000) /\ rt_t self = Rt_t p.
Proof.
  intros p Hp. destruct (C21_r_from_R_accurate (Rt_R p) Hp) as (r & A & B).
  exists (rt_from_Rt p), r. split; [reflexivity|]. split; [exact A|]. split; [exact B|reflexivity].
Qed.
Print Assumptions C44_any_matrix.

(** Not exact everywhere: a small rotation comes back changed *)
Theorem C44_tiny_rotation_refuted : exists self, cycles self [A_Rt_cam_ref] <> Some self.
Proof.
  destruct C21_roundtrip_refuted as ((r & _ & H) & _). exists (mkrt r v0). cbn. intro E. injection E as E. exact (H E).
Qed.
Print Assumptions C44_tiny_rotation_refuted.

(** *** A non-trivial case: a quarter turn about z, set as a matrix to the reference *)
Definition ex_m : m33 := M33 0 (-1) 0 1 0 0 0 0 1.
Lemma ex_plain : plain (Val_Rt (mkRt ex_m (V3 1 2 3))).
Proof.
  split.
  - unfold ex_m. cbn. split; [|split]; vring.
  - right. cbn. unfold norm, norm2, dot. cbn.
    replace (_ + _ + _) with (Rsqr 2) by (unfold Rsqr; ring). rewrite sqrt_Rsqr; lra.
Qed.
Example ex_C44 : exists f, is_pose A_Rt_ref_cam (Val_Rt (mkRt ex_m (V3 1 2 3))) f /\ f (V3 1 2 3) = v0 /\ f (V3 1 3 3) = V3 1 0 0.
Proof.
  exists (act (invert_Rt (mkRt ex_m (V3 1 2 3)))). split; [|split; apply v3_eq; unfold act, invert_Rt, invert_R, mul_Rv, ex_m; vunfold; cbn; ring].
  split; [|split]; try exact I; intros F x; [exfalso; destruct F as [F|F]; discriminate|].
  rewrite !maps_Rt. destruct (invert_act (mkRt ex_m (V3 1 2 3)) x (proj1 ex_plain)) as (A & B). now split.
Qed.
