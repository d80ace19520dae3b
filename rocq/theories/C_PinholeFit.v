(** C76: the pinhole model for reprojection. *)
From Coq Require Import Reals ZArith List Bool Lia Lra Psatz.
From Verif Require Import S_Vec M_Project M_PinholeFit.
Import ListNotations.
Open Scope R_scope.

(** *** Specification *)
(** a float is this real number *)
Definition is_num (a : fl) (x : R) : Prop := exists s, a = Num x s.
(** a ray in front of the camera *)
Definition front (v : ray) (w : v3) : Prop := let '(x, y, z) := v in is_num x (vx w) /\ is_num y (vy w) /\ is_num z (vz w) /\ 0 < vz w.
(** a pinhole camera sees the point in the image *)
Definition in_view (W H : R) (c : core) (w : v3) : Prop := let q := project_pinhole c w in 0 <= px q <= W - 1 /\ 0 <= py q <= H - 1.
Definition at_edge (W H : R) (c : core) (w : v3) : Prop := let q := project_pinhole c w in px q = 0 \/ px q = W - 1 \/ py q = 0 \/ py q = H - 1.
Definition zoomed (c : core) (k : R) : core := Core (k * fx c) (k * fy c) (cx c) (cy c).
(** the center of projection is inside the image *)
Definition center_inside (W H : R) (c : core) : Prop := 0 < fx c /\ 0 < fy c /\ 0 < cx c < W - 1 /\ 0 < cy c < H - 1.
(** no ray is exactly above, below, left or right of the center *)
Definition off_axis (w : v3) : Prop := vx w <> 0 /\ vy w <> 0.

(** *** One coordinate *)
Lemma div_num : forall a x b y, is_num a x -> is_num b y -> y <> 0 -> is_num (fdiv a b) (x / y).
Proof. intros a x b y [s ->] [t ->] N. unfold fdiv. destruct (Req_EM_T y 0); [contradiction|]. eexists. reflexivity. Qed.
Lemma num_num : forall x, is_num (num x) x. Proof. intro x. now exists false. Qed.
Lemma pos_num : forall a x, is_num a x -> fpos a = if Rlt_dec 0 x then true else false. Proof. intros a x [s ->]. reflexivity. Qed.
Lemma min_num : forall a x b y, is_num a x -> is_num b y -> is_num (fmin a b) (Rmin x y).
Proof. intros a x b y [s ->] [t ->]. cbn [fmin]. unfold Rmin. destruct (Rlt_dec y x), (Rle_dec x y); try lra; [now exists t|now exists s]. Qed.
Lemma Rle_min : forall a b k, k <= Rmin a b <-> k <= a /\ k <= b.
Proof. intros a b k. unfold Rmin. destruct (Rle_dec a b); lra. Qed.
Lemma cut_num : forall f c0 n scale k p x, 0 < f -> 0 < c0 < n -> is_num scale k -> is_num p x -> x <> 0 ->
  exists k', is_num (cut (fdiv (num (- c0)) (num f)) (fdiv (num (n - c0)) (num f)) scale p) k' /\ (0 < k -> 0 < k') /\
  (forall t, 0 <= t -> (t <= k' <-> t <= k /\ 0 <= x * (t * f) + c0 <= n)) /\ (k' = k \/ x * (k' * f) + c0 = 0 \/ x * (k' * f) + c0 = n).
Proof.
  intros f c0 n scale k p x F C Hk Hp N. unfold cut. rewrite (pos_num p x Hp). destruct (Rlt_dec 0 x) as [P|P].
  - set (b := (n - c0) / f / x). exists (Rmin k b). assert (0 < b) as B by (unfold b; repeat apply Rdiv_lt_0_compat; lra). assert (x * (b * f) + c0 = n) as E by (unfold b; field; lra).
    split; [apply min_num; auto; apply div_num; auto; apply div_num; try apply num_num; lra|]. split; [intro; apply Rmin_glb_lt; lra|]. split.
    + intros t T. rewrite Rle_min. assert (0 < x * f) by nra. split; [intros [? ?]; split; [assumption|]; nra|]. intros [? [? ?]]. split; [assumption|]. apply Rnot_lt_le. intro. assert (b * (x * f) < t * (x * f)) by (apply Rmult_lt_compat_r; lra). lra.
    + unfold Rmin. destruct (Rle_dec k b); [now left|]. right. right. exact E.
  - assert (x < 0) as Q by lra. set (b := - c0 / f / x). exists (Rmin k b).
    assert (0 < b) as B by (unfold b; replace (- c0 / f / x) with (c0 / f / (- x)) by (field; lra); repeat apply Rdiv_lt_0_compat; lra). assert (x * (b * f) + c0 = 0) as E by (unfold b; field; lra).
    split; [apply min_num; auto; apply div_num; auto; apply div_num; try apply num_num; lra|]. split; [intro; apply Rmin_glb_lt; lra|]. split.
    + intros t T. rewrite Rle_min. assert (0 < - x * f) by nra. split; [intros [? ?]; split; [assumption|]; nra|]. intros [? [? ?]]. split; [assumption|]. apply Rnot_lt_le. intro. assert (b * (- x * f) < t * (- x * f)) by (apply Rmult_lt_compat_r; lra). lra.
    + unfold Rmin. destruct (Rle_dec k b); [now left|]. right. left. exact E.
Qed.
Lemma view_pixel : forall c k w, 0 < vz w -> project_pinhole (zoomed c k) w = P2 (vx w / vz w * (k * fx c) + cx c) (vy w / vz w * (k * fy c) + cy c).
Proof. intros c k w Z. unfold project_pinhole, zoomed. cbn [fx fy cx cy]. f_equal; field; lra. Qed.
Lemma div_nonzero : forall a b, a <> 0 -> 0 < b -> a / b <> 0.
Proof. intros a b A B E. apply A. replace a with (a / b * b) by (field; lra). rewrite E. ring. Qed.
Lemma point_num : forall W H c scale k v w, center_inside W H c -> is_num scale k -> 0 < k -> front v w -> off_axis w ->
  exists k', is_num (cut_point W H c scale v) k' /\ 0 < k' /\ (forall t, 0 <= t -> (t <= k' <-> t <= k /\ in_view W H (zoomed c t) w)) /\ (k' = k \/ at_edge W H (zoomed c k') w).
Proof.
  intros W H c scale k [[x y] z] w (F0 & F1 & C0 & C1) Hk K (X & Y & Z & P) [Nx Ny]. unfold cut_point.
  destruct (cut_num (fx c) (cx c) (W - 1) scale k (fdiv x z) (vx w / vz w) F0 C0 Hk (div_num _ _ _ _ X Z ltac:(lra)) (div_nonzero _ _ Nx P)) as (k1 & H1 & P1 & L1 & E1).
  destruct (cut_num (fy c) (cy c) (H - 1) _ k1 (fdiv y z) (vy w / vz w) F1 C1 H1 (div_num _ _ _ _ Y Z ltac:(lra)) (div_nonzero _ _ Ny P)) as (k2 & H2 & P2' & L2 & E2).
  exists k2. split; [exact H2|]. split; [auto|]. split.
  - intros t T. unfold in_view. rewrite view_pixel by exact P. cbn [px py]. rewrite (L2 t T), (L1 t T). tauto.
  - unfold at_edge. rewrite view_pixel by exact P. cbn [px py]. destruct E2 as [-> | E2]; [destruct E1 as [-> | E1]|]; tauto.
Qed.

(** ** the scale is the largest one with all of the points in view *)
Theorem C76_fit : forall W H c vs ws, center_inside W H c -> Forall2 front vs ws -> Forall off_axis ws ->
  exists k, is_num (scale_edges W H c vs) k /\ 0 < k <= 1000000 /\
  (forall t, 0 <= t <= 1000000 -> (t <= k <-> Forall (in_view W H (zoomed c t)) ws)) /\ (k < 1000000 -> Exists (at_edge W H (zoomed c k)) ws).
Proof.
  intros W H c vs ws HC HF HO. unfold scale_edges.
  enough (forall scale k0, is_num scale k0 -> 0 < k0 -> exists k, is_num (fold_left (cut_point W H c) vs scale) k /\ 0 < k <= k0 /\
    (forall t, 0 <= t -> (t <= k <-> t <= k0 /\ Forall (in_view W H (zoomed c t)) ws)) /\ (k = k0 \/ Exists (at_edge W H (zoomed c k)) ws)) as G.
  { destruct (G (num 1000000) 1000000 (num_num _) ltac:(lra)) as (k & A & B & L & E). exists k. split; [exact A|]. split; [exact B|]. split; [|intro; destruct E; [lra|assumption]]. intros t T. rewrite (L t) by lra. intuition lra. }
  revert HO. induction HF as [|v w vs ws Hv HF IH]; intros HO scale k0 Hs Hk; cbn [fold_left].
  - exists k0. split; [exact Hs|]. split; [lra|]. split; [intros t T; split; [intro; split; [assumption|constructor]|tauto]|now left].
  - inversion HO as [|? ? Ow HO']; subst. destruct (point_num W H c scale k0 v w HC Hs Hk Hv Ow) as (k1 & N1 & P1 & L1 & E1).
    destruct (IH HO' _ k1 N1 P1) as (k & A & B & L & E). exists k. split; [exact A|].
    assert (k1 <= k0) as Q by (apply (L1 k1); lra). split; [lra|]. split.
    + intros t T. rewrite (L t T), (L1 t T), Forall_cons_iff. tauto.
    + destruct E as [-> | E]; [|right; now right]. destruct E1 as [-> | E1]; [now left|right; now left].
Qed.
Print Assumptions C76_fit.
(** ** a point on an axis through the center: -infinity *)
Lemma min_ninf : forall b, b <> NaN -> fmin (Inf true) b = Inf true /\ fmin b (Inf true) = Inf true.
Proof. intros [x s|[]|] N; try easy. Qed.
Lemma cut_ninf : forall f c0 n scale p x, 0 < f -> 0 < c0 < n -> scale <> NaN -> is_num p x -> x <> 0 -> cut (fdiv (num (- c0)) (num f)) (fdiv (num (n - c0)) (num f)) scale p <> NaN /\
  (scale = Inf true -> cut (fdiv (num (- c0)) (num f)) (fdiv (num (n - c0)) (num f)) scale p = Inf true).
Proof.
  intros f c0 n scale p x F C Hs Hp N. unfold cut. rewrite (pos_num p x Hp).
  destruct (div_num (num (- c0)) _ (num f) _ (num_num _) (num_num _) ltac:(lra)) as [s ->]. destruct (div_num (num (n - c0)) _ (num f) _ (num_num _) (num_num _) ltac:(lra)) as [s' ->]. destruct Hp as [t ->].
  destruct (div_num (Num (- c0 / f) s) _ (Num x t) x (ex_intro _ s eq_refl) (ex_intro _ t eq_refl) N) as [u ->]. destruct (div_num (Num ((n - c0) / f) s') _ (Num x t) x (ex_intro _ s' eq_refl) (ex_intro _ t eq_refl) N) as [u' ->].
  split; [destruct scale as [? ?|[]|]; try easy; destruct (Rlt_dec 0 x); cbn [fmin]; try easy; destruct (Rlt_dec _ _); easy|]. intros ->. now destruct (Rlt_dec 0 x).
Qed.
Lemma cut_zero : forall f c0 n scale, 0 < f -> 0 < c0 < n -> scale <> NaN -> cut (fdiv (num (- c0)) (num f)) (fdiv (num (n - c0)) (num f)) scale (Num 0 false) = Inf true.
Proof.
  intros f c0 n scale F C N. unfold cut. cbn [fpos]. destruct (Rlt_dec 0 0); [lra|].
  destruct (div_num (num (- c0)) _ (num f) _ (num_num _) (num_num _) ltac:(lra)) as [s ->]. cbn [fdiv].
  assert (- c0 / f < 0) by (apply Rmult_lt_reg_r with f; [exact F|]; replace (- c0 / f * f) with (- c0) by (field; lra); lra).
  destruct (Req_EM_T 0 0); [|lra]. destruct (Req_EM_T (- c0 / f) 0); [lra|]. cbn [sgn]. destruct (Rlt_dec (- c0 / f) 0); [|lra]. destruct (Rlt_dec 0 0); [lra|]. cbn [xorb]. now apply min_ninf.
Qed.
(** a pinhole camera, centered: 'centers-vertical' and 'centers-horizontal' are never fitted *)
Theorem C76_centered_refuted : exists W H c fit, center_inside W H c /\ q_edges W H fit <> None /\
  (forall ws, Forall (fun w => 0 < vz w) ws -> exists k, 0 < k /\ Forall (in_view W H (zoomed c k)) ws) /\
  scale_focal__best_pinhole_fit W H c (pinhole_ray c) (Some fit) = Some (Inf true).
Proof.
  exists 641, 481, (Core 500 500 320 240), Centers_vertical. assert (center_inside 641 481 (Core 500 500 320 240)) as HC by (repeat split; cbn; lra). split; [exact HC|]. split; [discriminate|]. split.
  - intros ws HW.
    enough (exists k, 0 < k /\ forall t, 0 <= t <= k -> Forall (in_view 641 481 (zoomed (Core 500 500 320 240) t)) ws) as (k & K & A) by (exists k; split; [exact K|apply A; lra]).
    induction HW as [|w ws Hw HW (k & K & A)]; [exists 1; split; [lra|]; constructor|].
    set (m := Rabs (vx w / vz w) + Rabs (vy w / vz w) + 1). assert (0 < m) as M by (unfold m; pose proof (Rabs_pos (vx w / vz w)); pose proof (Rabs_pos (vy w / vz w)); lra).
    exists (Rmin k (1 / 10 / m)). split; [apply Rmin_glb_lt; [lra|apply Rdiv_lt_0_compat; lra]|]. intros t [T0 T1]. apply Rle_min in T1. constructor; [|apply A; lra].
    unfold in_view. rewrite view_pixel by exact Hw. cbn [px py fx fy cx cy].
    assert (t * m <= 1 / 10) as B. { replace (1 / 10) with (1 / 10 / m * m) by (field; lra). apply Rmult_le_compat_r; lra. }
    unfold m in B. set (a := vx w / vz w) in *. set (b := vy w / vz w) in *. pose proof (Rle_abs a). pose proof (Rle_abs (- a)) as Q. rewrite Rabs_Ropp in Q. pose proof (Rle_abs b). pose proof (Rle_abs (- b)) as Q'. rewrite Rabs_Ropp in Q'. pose proof (Rabs_pos a). pose proof (Rabs_pos b).
    assert (- (1 / 10) <= a * t <= 1 / 10) by nra. assert (- (1 / 10) <= b * t <= 1 / 10) by nra. lra.
  - cbn [scale_focal__best_pinhole_fit q_edges]. f_equal. unfold scale_edges. cbn [map fold_left]. unfold pinhole_ray, cut_point. cbn [px py fx fy cx cy].
    assert (fdiv (fdiv (num ((641 - 1) / 2 - 320)) (num 500)) (num 1) = Num 0 false) as ->.
    { replace ((641 - 1) / 2 - 320) with 0 by field. unfold num. cbn [fdiv]. destruct (Req_EM_T 500 0); [lra|]. cbn [fdiv]. destruct (Req_EM_T 1 0); [lra|]. replace (0 / 500 / 1) with 0 by field. cbn [sgn]. repeat (destruct (Rlt_dec _ _); try lra). reflexivity. }
    assert (forall q scale, q <> 240 -> scale <> NaN -> let s' := cut (fdiv (num (- (240))) (num 500)) (fdiv (num (481 - 1 - 240)) (num 500)) scale (fdiv (fdiv (num (q - 240)) (num 500)) (num 1)) in s' <> NaN /\ (scale = Inf true -> s' = Inf true)) as Cy.
    { intros q scale N Ns. assert ((q - 240) / 500 / 1 <> 0) as Nz by (intro E; apply N; replace q with ((q - 240) / 500 / 1 * 500 + 240) by field; rewrite E; ring).
      assert (is_num (fdiv (fdiv (num (q - 240)) (num 500)) (num 1)) ((q - 240) / 500 / 1)) as Np by (repeat apply div_num; try apply num_num; lra).
      exact (cut_ninf 500 240 (481 - 1) scale _ _ ltac:(lra) ltac:(lra) Ns Np Nz). }
    rewrite (cut_zero 500 320 (641 - 1) (num 1000000)) by (try lra; discriminate).
    destruct (Cy 0 (Inf true) ltac:(lra) ltac:(discriminate)) as [_ E1]. cbv zeta in E1. rewrite (E1 eq_refl). clear E1.
    rewrite (cut_zero 500 320 (641 - 1) (Inf true)) by (try lra; discriminate).
    destruct (Cy (481 - 1) (Inf true) ltac:(lra) ltac:(discriminate)) as [_ E1]. exact (E1 eq_refl).
Qed.
Print Assumptions C76_centered_refuted.

(** ** the model *)
Lemma mul_num : forall a x b y, is_num a x -> is_num b y -> is_num (fmul a b) (x * y).
Proof. intros a x b y [s ->] [t ->]. now eexists. Qed.
(** the result is this pinhole camera *)
Definition is_model (m : pinhole_model) (c : core) : Prop := is_num (p_fx m) (fx c) /\ is_num (p_fy m) (fy c) /\ is_num (p_cx m) (cx c) /\ is_num (p_cy m) (cy c).
Lemma in_view_edges : forall W H c unproject fit qs (w : p2 -> v3), center_inside (IZR W) (IZR H) c -> q_edges (IZR W) (IZR H) fit = Some qs ->
  (forall q, In q qs -> front (unproject q) (w q) /\ off_axis (w q)) ->
  exists m c', pinhole_model_for_reprojection W H c unproject (Some fit) None None = Some m /\ is_model m c' /\ p_W m = W /\ p_H m = H /\ cx c' = cx c /\ cy c' = cy c /\ fx c' * fy c = fy c' * fx c /\ 0 < fx c' /\
  forall q, In q qs -> in_view (IZR W) (IZR H) c' (w q).
Proof.
  intros W H c U fit qs w HC HQ HU. unfold pinhole_model_for_reprojection, scale_focal__best_pinhole_fit. rewrite HQ.
  destruct (C76_fit (IZR W) (IZR H) c (map U qs) (map w qs) HC) as (k & Hk & K & L & _).
  { clear HQ. induction qs as [|q qs IH]; [constructor|]. cbn [map]. constructor; [apply HU; now left|apply IH; intros; apply HU; now right]. }
  { apply Forall_forall. intros x Hx. apply in_map_iff in Hx. destruct Hx as (q & <- & Hq). now apply HU. }
  eexists. exists (zoomed c k). split; [reflexivity|]. cbn [zoomed cx cy fx fy p_W p_H].
  split. { unfold is_model. cbn [p_fx p_fy p_cx p_cy fx fy cx cy zoomed]. rewrite (Rmult_comm k (fx c)), (Rmult_comm k (fy c)). repeat split; try apply num_num; apply mul_num; auto; apply num_num. }
  do 4 (split; [reflexivity|]). split; [ring|]. split; [apply Rmult_lt_0_compat; [lra|apply HC]|].
  assert (Forall (in_view (IZR W) (IZR H) (zoomed c k)) (map w qs)) as A by (apply L; lra). intros q Hq. apply (proj1 (Forall_forall _ _) A). now apply in_map.
Qed.
(** the points that should be visible: the given ones, the 4 corners, the middles of 2 edges *)
Definition requested (W H : R) (fit : fitting) (q : p2) : Prop :=
  match fit with
  | Points l => In q l
  | Corners => (px q = 0 \/ px q = W - 1) /\ (py q = 0 \/ py q = H - 1)
  | Centers_horizontal => (px q = 0 \/ px q = W - 1) /\ py q = (H - 1) / 2
  | Centers_vertical => px q = (W - 1) / 2 /\ (py q = 0 \/ py q = H - 1)
  | Something_else => False
  end.
Lemma edges_spec : forall W H fit, fit <> Something_else -> exists qs, q_edges W H fit = Some qs /\ forall q, In q qs <-> requested W H fit q.
Proof.
  intros W H fit N. destruct fit as [l| | | |]; try contradiction; eexists; (split; [reflexivity|]); intro q; cbn [requested In]; [reflexivity| | |];
    (split; [intros Q; repeat (destruct Q as [<- | Q]; [cbn [px py]; tauto|]); contradiction|]); destruct q as [a b]; cbn [px py].
  - intros [[-> | ->] [-> | ->]]; tauto.
  - intros [[-> | ->] ->]; tauto.
  - intros [-> [-> | ->]]; tauto.
Qed.
Theorem C76_in_view : forall W H c unproject fit (w : p2 -> v3), center_inside (IZR W) (IZR H) c -> fit <> Something_else ->
  (forall q, requested (IZR W) (IZR H) fit q -> front (unproject q) (w q) /\ off_axis (w q)) ->
  exists m c', pinhole_model_for_reprojection W H c unproject (Some fit) None None = Some m /\ is_model m c' /\ p_W m = W /\ p_H m = H /\ cx c' = cx c /\ cy c' = cy c /\ fx c' * fy c = fy c' * fx c /\ 0 < fx c' /\
  forall q, requested (IZR W) (IZR H) fit q -> in_view (IZR W) (IZR H) c' (w q).
Proof.
  intros W H c U fit w HC N HU. destruct (edges_spec (IZR W) (IZR H) fit N) as (qs & Q & E).
  destruct (in_view_edges W H c U fit qs w HC Q) as (m & c' & A & B & C1 & C2 & C3 & C4 & C5 & C6 & V); [intros q Iq; apply HU, E; exact Iq|].
  exists m, c'. repeat (split; [assumption|]). intros q Rq. apply V, E, Rq.
Qed.
Print Assumptions C76_in_view.
(** the size of the image: the imager is stretched, edge to edge. A pixel is a square, with its coordinate in the middle *)
Definition stretched (k : R) (q : p2) : p2 := P2 (k * (px q + 1 / 2) - 1 / 2) (k * (py q + 1 / 2) - 1 / 2).
Lemma round_near : forall x, Rabs (IZR (round_even x) - x) <= 1 / 2 /\ (forall n, x = IZR n -> round_even x = n).
Proof.
  intro x. pose proof (base_Int_part x) as [A B]. unfold round_even. set (f := Int_part x) in *. split.
  - destruct (Rlt_dec _ _); [|destruct (Rlt_dec _ _); [|destruct (Z.even f)]]; rewrite ?plus_IZR; unfold Rabs; destruct (Rcase_abs _); lra.
  - intros n ->. assert (f = n) as ->. { apply Z.le_antisymm; [apply le_IZR; lra|]. assert (n < f + 1)%Z by (apply lt_IZR; rewrite plus_IZR; lra). lia. } destruct (Rlt_dec _ _); [reflexivity|lra].
Qed.
Theorem C76_scale_image : forall W H c unproject s k, fx c <> 0 -> fy c <> 0 -> cx c <> 0 -> cy c <> 0 -> s <> 0 -> k <> 0 ->
  exists m c', pinhole_model_for_reprojection W H c unproject None (Some s) (Some k) = Some m /\ is_model m c' /\
  (forall q, unproject_pinhole c' (stretched k q) = unproject_pinhole (zoomed c s) q) /\
  Rabs (IZR (p_W m) - k * IZR W) <= 1 / 2 /\ Rabs (IZR (p_H m) - k * IZR H) <= 1 / 2 /\
  (* the middle of the image, if the new size is exact *)
  (IZR (p_W m) = k * IZR W -> IZR (p_H m) = k * IZR H -> unproject_pinhole c' (P2 ((IZR (p_W m) - 1) / 2) ((IZR (p_H m) - 1) / 2)) = unproject_pinhole (zoomed c s) (P2 ((IZR W - 1) / 2) ((IZR H - 1) / 2))).
Proof.
  intros W H c U s k F0 F1 C0 C1 S0 K0. unfold pinhole_model_for_reprojection. eexists. exists (Core (fx c * s * k) (fy c * s * k) (cx c * ((k + 2 * cx c * k - 1) / (2 * cx c))) (cy c * ((k + 2 * cy c * k - 1) / (2 * cy c)))).
  split; [reflexivity|]. cbn [p_W p_H]. split.
  { unfold is_model. cbn [p_fx p_fy p_cx p_cy fx fy cx cy]. repeat split; repeat apply mul_num; try apply num_num; apply div_num; try apply num_num; lra. }
  assert (forall q, unproject_pinhole (Core (fx c * s * k) (fy c * s * k) (cx c * ((k + 2 * cx c * k - 1) / (2 * cx c))) (cy c * ((k + 2 * cy c * k - 1) / (2 * cy c)))) (stretched k q) = unproject_pinhole (zoomed c s) q) as G.
  { intro q. unfold unproject_pinhole, stretched, zoomed. cbn [px py fx fy cx cy]. apply v3_eq; cbn [vx vy vz]; field; repeat split; assumption. }
  split; [exact G|]. split; [rewrite (Rmult_comm k); apply round_near|]. split; [rewrite (Rmult_comm k); apply round_near|].
  intros EW EH. rewrite <- G. f_equal. unfold stretched. cbn [px py]. rewrite EW, EH. f_equal; field.
Qed.
Print Assumptions C76_scale_image.
(** a center on the edge of the image: not a number *)
Theorem C76_center_0_refuted : forall W H c unproject s k, cx c = 0 -> exists m, pinhole_model_for_reprojection W H c unproject None (Some s) (Some k) = Some m /\ p_cx m = NaN.
Proof.
  intros W H c U s k C0. eexists. split; [reflexivity|]. cbn [p_cx]. rewrite C0. rewrite !Rmult_0_r. unfold num. cbn [fdiv]. destruct (Req_EM_T 0 0); [|lra]. destruct (Req_EM_T _ _); [reflexivity|]. cbn [fmul]. destruct (Req_EM_T 0 0); [reflexivity|lra].
Qed.
Print Assumptions C76_center_0_refuted.
(** the arguments *)
Theorem C76_arguments : forall W H c unproject fit s k, (pinhole_model_for_reprojection W H c unproject fit s k = None <-> (fit <> None /\ s <> None) \/ fit = Some Something_else) /\
  (exists m, pinhole_model_for_reprojection W H c unproject None None None = Some m /\ is_model m c /\ p_W m = W /\ p_H m = H).
Proof.
  intros W H c U fit s k. split.
  - unfold pinhole_model_for_reprojection. destruct s as [s|], fit as [fit|]; cbn [scale_focal__best_pinhole_fit]; try (destruct fit; cbn [q_edges]); destruct k; split; try easy; intros; try (left; split; discriminate); try (right; reflexivity); intuition discriminate.
  - eexists. split; [reflexivity|]. unfold is_model. cbn [p_fx p_fy p_cx p_cy p_W p_H]. repeat split; try apply num_num.
    + replace (fx c) with (fx c * 1) at 2 by ring. apply mul_num; apply num_num.
    + replace (fy c) with (fy c * 1) at 2 by ring. apply mul_num; apply num_num.
Qed.
Print Assumptions C76_arguments.

(** ** The hypotheses are satisfiable *)
Example C76_example : let c := Core 500 500 300 200 in center_inside 641 481 c /\ (forall q, In q [P2 0 0; P2 0 480; P2 640 480; P2 640 0] -> front (pinhole_ray c q) (unproject_pinhole c q) /\ off_axis (unproject_pinhole c q)) /\
  is_num (scale_edges 641 481 c (map (pinhole_ray c) [P2 0 0; P2 0 480; P2 640 480; P2 640 0])) 1.
Proof.
  intro c. assert (center_inside 641 481 c) as HC by (repeat split; cbn; lra). split; [exact HC|].
  assert (forall q, In q [P2 0 0; P2 0 480; P2 640 480; P2 640 0] -> front (pinhole_ray c q) (unproject_pinhole c q) /\ off_axis (unproject_pinhole c q)) as HQ.
  { intros q Hq. split.
    - unfold front, pinhole_ray, unproject_pinhole, c. cbn [vx vy vz fx fy cx cy]. repeat split; try apply num_num; try (apply div_num; try apply num_num); lra.
    - unfold off_axis, unproject_pinhole, c. cbn [vx vy vz fx fy cx cy]. cbn [In] in Hq. decompose [or] Hq; subst; try contradiction; cbn [px py]; split; lra. }
  split; [exact HQ|].
  destruct (C76_fit 641 481 c (map (pinhole_ray c) [P2 0 0; P2 0 480; P2 640 480; P2 640 0]) (map (unproject_pinhole c) [P2 0 0; P2 0 480; P2 640 480; P2 640 0]) HC) as (k & Hk & K & L & _).
  { cbn [map]. repeat constructor; apply HQ; cbn; tauto. }
  { cbn [map]. repeat constructor; apply HQ; cbn; tauto. }
  assert (k = 1) as <-; [|exact Hk]. apply Rle_antisym.
  - assert (Forall (in_view 641 481 (zoomed c k)) (map (unproject_pinhole c) [P2 0 0; P2 0 480; P2 640 480; P2 640 0])) as A by (apply L; lra). cbn [map] in A. inversion A as [|? ? [[A0 _] _] _]; subst.
    unfold project_pinhole, unproject_pinhole, zoomed, c in A0. cbn [px py vx vy vz fx fy cx cy] in A0. lra.
  - apply L; [lra|]. cbn [map]. repeat constructor; unfold project_pinhole, unproject_pinhole, zoomed, c; cbn [px py vx vy vz fx fy cx cy]; lra.
Qed.
