(** Lemmas about the spline surface: piecewise functions whose pieces match at the knots. *)
From Coq Require Import Reals ZArith Lia Lra List Bool.
From Coquelicot Require Import Coquelicot.
From Verif Require Import M_Lens M_SplineIdx M_Spline.
Open Scope R_scope.

(** ** Gluing *)
Lemma derive_glue : forall (f g h : R -> R) (t d e : R), 0 < e ->
  (forall s, t - e < s <= t -> f s = g s) -> (forall s, t <= s < t + e -> f s = h s) ->
  is_derive g t d -> is_derive h t d -> is_derive f t d.
Proof.
  intros f g h t d e He Hg Hh Dg Dh. apply is_derive_Reals in Dg, Dh. apply is_derive_Reals. intros eps Heps.
  destruct (Dg eps Heps) as [d1 H1]. destruct (Dh eps Heps) as [d2 H2].
  assert (0 < Rmin e (Rmin d1 d2)) as Hm. { repeat apply Rmin_pos; auto; apply cond_pos. }
  exists (mkposreal _ Hm). intros x Hx Hlt. cbn in Hlt.
  assert (Rabs x < e /\ Rabs x < d1 /\ Rabs x < d2) as (He' & Hd1 & Hd2).
  { pose proof (Rmin_l e (Rmin d1 d2)). pose proof (Rmin_r e (Rmin d1 d2)). pose proof (Rmin_l d1 d2). pose proof (Rmin_r d1 d2). lra. }
  apply Rabs_def2 in He'. destruct (Rle_dec x 0).
  - rewrite (Hg (t + x)), (Hg t) by lra. now apply H1.
  - rewrite (Hh (t + x)), (Hh t) by lra. now apply H2.
Qed.
Lemma continuous_glue : forall (f g h : R -> R) (t e : R), 0 < e ->
  (forall s, t - e < s <= t -> f s = g s) -> (forall s, t <= s < t + e -> f s = h s) ->
  continuity_pt g t -> continuity_pt h t -> continuity_pt f t.
Proof.
  intros f g h t e He Hg Hh Cg Ch eps Heps. destruct (Cg eps Heps) as (d1 & P1 & H1). destruct (Ch eps Heps) as (d2 & P2 & H2).
  exists (Rmin e (Rmin d1 d2)). split. { repeat apply Rmin_pos; auto. }
  intros x (Dx & Hx). unfold dist, R_met, R_dist in *. cbn in *. unfold R_dist in *.
  assert (Rabs (x - t) < e /\ Rabs (x - t) < d1 /\ Rabs (x - t) < d2) as (He' & Hd1 & Hd2).
  { pose proof (Rmin_l e (Rmin d1 d2)). pose proof (Rmin_r e (Rmin d1 d2)). pose proof (Rmin_l d1 d2). pose proof (Rmin_r d1 d2). lra. }
  apply Rabs_def2 in He'. destruct (Rle_dec x t).
  - rewrite (Hg x), (Hg t) by lra. now apply H1.
  - rewrite (Hh x), (Hh t) by lra. now apply H2.
Qed.

(** ** Segments *)
Definition shift (order : Z) : R := if (order =? 3)%Z then 0 else 1 / 2.
Definition last_seg (order N : Z) : Z := if (order =? 3)%Z then (N - 3)%Z else (N - 2)%Z.

Lemma ctrunc_spec : forall x, (0 <= x -> (0 <= ctrunc x)%Z /\ IZR (ctrunc x) <= x < IZR (ctrunc x) + 1) /\ (x < 0 -> (ctrunc x <= 0)%Z).
Proof.
  intro x. unfold ctrunc. destruct (Rle_dec 0 x) as [H|H]; (split; intro C; [|try lra]); try lra.
  - destruct (archimed x) as [A1 A2]. rewrite minus_IZR. split; [|lra]. assert (0 < up x)%Z; [|lia]. apply lt_IZR. lra.
  - destruct (archimed (- x)) as [A1 A2]. assert (0 < up (- x))%Z; [|lia]. apply lt_IZR. lra.
Qed.
Lemma seg_form : forall order N t, seg order N t = clamp (ctrunc (t + shift order)) (last_seg order N).
Proof. intros. unfold seg, seg0, shift, last_seg. destruct (order =? 3)%Z; [rewrite Rplus_0_r|]; reflexivity. Qed.
Lemma seg_spec : forall order N t, (1 <= last_seg order N)%Z -> let k := seg order N t in
  (1 <= k <= last_seg order N)%Z /\ ((1 < k)%Z -> IZR k <= t + shift order) /\ ((k < last_seg order N)%Z -> t + shift order < IZR k + 1).
Proof.
  intros order N t H k. unfold k. rewrite seg_form. set (u := t + shift order). destruct (ctrunc_spec u) as [P Q]. clearbody u.
  set (hi := last_seg order N) in *. unfold clamp.
  destruct (Z.ltb_spec (ctrunc u) 1) as [C|C].
  - split; [lia|]. split; [lia|]. intros _. destruct (Rle_dec 0 u) as [U|U]; [|lra]. destruct (P U) as (P1 & P2 & P3).
    assert (IZR (ctrunc u) <= 0) by (apply IZR_le; lia). lra.
  - destruct (Rle_dec 0 u) as [U|U]. 2: { assert (ctrunc u <= 0)%Z by (apply Q; lra). lia. }
    destruct (P U) as (P1 & P2 & P3). rewrite Z.gtb_ltb. destruct (Z.ltb_spec hi (ctrunc u)) as [E|E].
    + split; [lia|]. split; [|lia]. intros _. apply IZR_lt in E. lra.
    + split; [lia|]. split; intros; lra.
Qed.
Lemma seg_unique : forall order N t k, (1 <= k <= last_seg order N)%Z ->
  ((1 < k)%Z -> IZR k <= t + shift order) -> ((k < last_seg order N)%Z -> t + shift order < IZR k + 1) -> seg order N t = k.
Proof.
  intros order N t k H L U. destruct (seg_spec order N t ltac:(lia)) as (A & B & C). set (j := seg order N t) in *. clearbody j.
  destruct (Z.lt_trichotomy j k) as [E|[E|E]]; [|assumption|]; exfalso.
  - assert (1 < k)%Z as K by lia. specialize (L K). assert (j < last_seg order N)%Z as J by lia. specialize (C J).
    assert (IZR j + 1 <= IZR k) by (rewrite <- plus_IZR; apply IZR_le; lia). lra.
  - assert (1 < j)%Z as K by lia. specialize (B K). assert (k < last_seg order N)%Z as J by lia. specialize (U J).
    assert (IZR k + 1 <= IZR j) by (rewrite <- plus_IZR; apply IZR_le; lia). lra.
Qed.

(** around any t, a piecewise function is one piece, or two pieces joined at t, which is then a knot *)
Lemma seg_local : forall order N t, (1 <= last_seg order N)%Z -> let k := seg order N t in
  (exists e, 0 < e /\ forall s, t - e < s < t + e -> seg order N s = k) \/
  ((1 < k)%Z /\ t = IZR k - shift order /\
   exists e, 0 < e /\ (forall s, t - e < s < t -> seg order N s = (k - 1)%Z) /\ (forall s, t <= s < t + e -> seg order N s = k)).
Proof.
  intros order N t H k. destruct (seg_spec order N t H) as (A & B & C). fold k in A, B, C. set (h := shift order) in *. set (hi := last_seg order N) in *.
  assert (exists e1, 0 < e1 /\ ((k < hi)%Z -> forall s, s < t + e1 -> s + h < IZR k + 1)) as (e1 & E1 & F1).
  { destruct (Z.ltb_spec k hi) as [K|K].
    - specialize (C K). exists (IZR k + 1 - (t + h)). split; [lra|]. intros _ s Hs. lra.
    - exists 1. split; [lra|lia]. }
  destruct (Z.ltb_spec 1 k) as [K|K].
  - specialize (B K). destruct (Req_dec (IZR k) (t + h)) as [Q|Q].
    + right. split; [assumption|]. split; [lra|]. exists (Rmin e1 1). pose proof (Rmin_l e1 1). pose proof (Rmin_r e1 1).
      split; [apply Rmin_pos; lra|]. split; intros s Hs; apply seg_unique; fold h hi; try lia.
      * intros _. rewrite minus_IZR. lra.
      * intros _. rewrite minus_IZR. lra.
      * intros _. lra.
      * intros D. apply F1; [assumption|lra].
    + left. exists (Rmin e1 (t + h - IZR k)). pose proof (Rmin_l e1 (t + h - IZR k)). pose proof (Rmin_r e1 (t + h - IZR k)).
      split; [apply Rmin_pos; lra|]. intros s Hs. apply seg_unique; fold h hi; try lia; [intros _; lra|]. intros D. apply F1; [assumption|lra].
  - left. exists e1. split; [assumption|]. intros s Hs. apply seg_unique; fold h hi; try lia. intros D. apply F1; [assumption|lra].
Qed.

(** ** Piecewise functions *)
Lemma pw_derive : forall order N (P P' : Z -> R -> R), (1 <= last_seg order N)%Z ->
  (forall k t, is_derive (P k) t (P' k t)) ->
  (forall k, (1 < k)%Z -> P (k - 1)%Z (IZR k - shift order) = P k (IZR k - shift order)) ->
  (forall k, (1 < k)%Z -> P' (k - 1)%Z (IZR k - shift order) = P' k (IZR k - shift order)) ->
  forall t, is_derive (fun s => P (seg order N s) s) t (P' (seg order N t) t).
Proof.
  intros order N P P' H D M M' t. destruct (seg_local order N t H) as [(e & He & L)|(K & Q & e & He & L & U)].
  - apply derive_glue with (P (seg order N t)) (P (seg order N t)) e; auto; intros s Hs; rewrite L by lra; reflexivity.
  - apply derive_glue with (P (seg order N t - 1)%Z) (P (seg order N t)) e; auto.
    + intros s Hs. destruct (Req_dec s t) as [->|Ns]; [|rewrite L by lra; reflexivity].
      specialize (M _ K). rewrite <- Q in M. now rewrite M.
    + intros s Hs. now rewrite U.
    + specialize (M' _ K). rewrite <- Q in M'. rewrite <- M'. apply D.
Qed.
Lemma pw_continuous : forall order N (P : Z -> R -> R), (1 <= last_seg order N)%Z ->
  (forall k t, continuity_pt (P k) t) ->
  (forall k, (1 < k)%Z -> P (k - 1)%Z (IZR k - shift order) = P k (IZR k - shift order)) ->
  forall t, continuity_pt (fun s => P (seg order N s) s) t.
Proof.
  intros order N P H D M t. destruct (seg_local order N t H) as [(e & He & L)|(K & Q & e & He & L & U)].
  - apply continuous_glue with (P (seg order N t)) (P (seg order N t)) e; auto; intros s Hs; rewrite L by lra; reflexivity.
  - apply continuous_glue with (P (seg order N t - 1)%Z) (P (seg order N t)) e; auto.
    + intros s Hs. destruct (Req_dec s t) as [->|Ns]; [|rewrite L by lra; reflexivity].
      specialize (M _ K). rewrite <- Q in M. now rewrite M.
    + intros s Hs. now rewrite U.
Qed.

(** ** Finite sums *)
Fixpoint rsum (n : nat) (f : nat -> R) : R := match n with O => 0 | S m => rsum m f + f m end.
Lemma rsum_ext : forall n f g, (forall i, (i < n)%nat -> f i = g i) -> rsum n f = rsum n g.
Proof. induction n; intros f g H; cbn; [reflexivity|]. rewrite (IHn f g), H; auto; intros; apply H; lia. Qed.
Lemma rsum_0 : forall n f, (forall i, (i < n)%nat -> f i = 0) -> rsum n f = 0.
Proof. induction n; intros f H; cbn; [reflexivity|]. rewrite IHn, H; auto; try lra; intros; apply H; lia. Qed.
Lemma rsum_plus : forall n f g, rsum n (fun i => f i + g i) = rsum n f + rsum n g.
Proof. induction n; intros; cbn; [lra|]. rewrite IHn. lra. Qed.
Lemma rsum_scal : forall n a f, rsum n (fun i => a * f i) = a * rsum n f.
Proof. induction n; intros; cbn; [lra|]. rewrite IHn. lra. Qed.
(** only m consecutive terms are not 0 *)
Lemma rsum_window : forall m n a f, (a + m <= n)%nat -> (forall i, (i < n)%nat -> (i < a \/ a + m <= i)%nat -> f i = 0) ->
  rsum n f = rsum m (fun i => f (a + i)%nat).
Proof.
  intros m n. revert m. induction n as [|n IH]; intros m a f L Z.
  - destruct m; [reflexivity|lia].
  - cbn. destruct (Nat.eq_dec (a + m) (S n)) as [E|E].
    + destruct m as [|m].
      * cbn. rewrite Z by lia. rewrite rsum_0; [lra|]. intros; apply Z; lia.
      * cbn. replace (a + m)%nat with n by lia. rewrite (IH m a f); [reflexivity|lia|]. intros i Hi C. apply Z; lia.
    + rewrite (IH m a f); [|lia|]. { rewrite (Z n) by lia. lra. } intros i Hi C. apply Z; lia.
Qed.
Lemma derive_mult_const : forall (f : R -> R) t d c, is_derive f t d -> is_derive (fun s => f s * c) t (d * c).
Proof. intros f t d c H. exact (is_derive_scal_l f t d c H). Qed.
Lemma rsum_derive : forall n (f : nat -> R -> R) (d : nat -> R) t, (forall i, (i < n)%nat -> is_derive (f i) t (d i)) ->
  is_derive (fun s => rsum n (fun i => f i s)) t (rsum n d).
Proof.
  induction n; intros f d t H; cbn.
  - apply (is_derive_const 0).
  - apply (is_derive_plus (fun s => rsum n (fun i => f i s)) (f n)); [apply IHn; intros; apply H; lia|apply H; lia].
Qed.

(** ** The weight of control point i along one axis *)
Definition piece (F : R -> nat -> R) (i k : Z) (t : R) : R :=
  if (k - 1 <=? i)%Z then F (t - IZR k) (Z.to_nat (i - (k - 1))) else 0.
Definition W (F : R -> nat -> R) (order N i : Z) (t : R) : R := piece F i (seg order N t) t.
Definition matches (F : R -> nat -> R) (h : R) : Prop := F (1 - h) 0%nat = 0 /\ forall j, F (1 - h) (S j) = F (- h) j.

Lemma piece_matches : forall F h i k, matches F h -> piece F i (k - 1) (IZR k - h) = piece F i k (IZR k - h).
Proof.
  intros F h i k [M0 M]. unfold piece. rewrite minus_IZR. replace (IZR k - h - (IZR k - 1)) with (1 - h) by ring. replace (IZR k - h - IZR k) with (- h) by ring.
  destruct (Z.leb_spec (k - 1) i) as [A|A].
  - replace (k - 1 - 1 <=? i)%Z with true by (symmetry; apply Z.leb_le; lia).
    replace (Z.to_nat (i - (k - 1 - 1))) with (S (Z.to_nat (i - (k - 1)))) by lia. apply M.
  - destruct (Z.leb_spec (k - 1 - 1) i) as [B|B]; [|reflexivity]. replace (Z.to_nat (i - (k - 1 - 1))) with 0%nat by lia. apply M0.
Qed.
Lemma W_derive : forall F F' order N i t, (1 <= last_seg order N)%Z -> matches F (shift order) -> matches F' (shift order) ->
  (forall x j, is_derive (fun x => F x j) x (F' x j)) -> is_derive (W F order N i) t (W F' order N i t).
Proof.
  intros F F' order N i t H M M' D. unfold W. apply (pw_derive order N (piece F i) (piece F' i)); auto using piece_matches.
  intros k s. unfold piece. destruct (k - 1 <=? i)%Z; [|apply (is_derive_const 0)].
  evar_last. { apply (is_derive_comp (fun x => F x _) (fun t => t - IZR k)); [apply D|]. auto_derive; [exact I|reflexivity]. }
  unfold scal; simpl; unfold mult; simpl. ring.
Qed.
Lemma W_continuous : forall F order N i t, (1 <= last_seg order N)%Z -> matches F (shift order) ->
  (forall x j, continuity_pt (fun x => F x j) x) -> continuity_pt (W F order N i) t.
Proof.
  intros F order N i t H M D. unfold W. apply (pw_continuous order N (piece F i)); auto using piece_matches.
  intros k s. unfold piece. destruct (k - 1 <=? i)%Z; [|now apply continuity_pt_const; intros ? ?].
  apply (continuity_pt_comp (fun t => t - IZR k) (fun x => F x _)); [|apply D].
  apply continuity_pt_minus; [apply continuity_pt_id|now apply continuity_pt_const; intros ? ?].
Qed.

(** *** the coefficient polynomials *)
(** second derivatives of the cubic coefficients (not computed by the code) *)
Definition cubic2 (x : R) (i : nat) : R :=
  match i with 0%nat => 1 - x | 1%nat => 3 * x - 2 | 2%nat => 1 - 3 * x | 3%nat => x | _ => 0 end.

Lemma coefs_match : forall order, order = 2%Z \/ order = 3%Z -> matches (coefs order) (shift order).
Proof. intros order [-> | ->]; split; unfold coefs, shift; cbn; try intros [|[|[|[|j]]]]; cbn; lra. Qed.
Lemma grad_match : forall order, order = 2%Z \/ order = 3%Z -> matches (coefs_grad order) (shift order).
Proof. intros order [-> | ->]; split; unfold coefs_grad, shift; cbn; try intros [|[|[|[|j]]]]; cbn; lra. Qed.
Lemma cubic2_match : matches cubic2 (shift 3).
Proof. split; unfold shift; cbn; try intros [|[|[|[|j]]]]; cbn; lra. Qed.
Lemma coefs_derive : forall order, order = 2%Z \/ order = 3%Z -> forall x j, is_derive (fun x => coefs order x j) x (coefs_grad order x j).
Proof.
  intros order [-> | ->] x j; unfold coefs, coefs_grad; cbn.
  - destruct j as [|[|[|j]]]; unfold quad_ABC, quad_ABCgrad; try apply (is_derive_const 0); auto_derive; try exact I; field.
  - destruct j as [|[|[|[|j]]]]; unfold cubic_ABCD, cubic_ABCDgrad; try apply (is_derive_const 0); auto_derive; try exact I; field.
Qed.
Lemma cubic2_derive : forall x j, is_derive (fun x => coefs_grad 3 x j) x (cubic2 x j).
Proof.
  intros x j; unfold coefs_grad; cbn.
  destruct j as [|[|[|[|j]]]]; unfold cubic2, cubic_ABCDgrad; try apply (is_derive_const 0); auto_derive; try exact I; field.
Qed.
Lemma derive_continuity : forall (f : R -> R) t d, is_derive f t d -> continuity_pt f t.
Proof. intros f t d H. apply derivable_continuous_pt. exists d. now apply is_derive_Reals. Qed.
Lemma grad_continuous : forall order, order = 2%Z \/ order = 3%Z -> forall x j, continuity_pt (fun x => coefs_grad order x j) x.
Proof.
  intros order [-> | ->] x j.
  - apply derive_continuity with (match j with 0%nat => 1 | 1%nat => -2 | 2%nat => 1 | _ => 0 end).
    unfold coefs_grad; cbn. destruct j as [|[|[|j]]]; unfold quad_ABCgrad; [| | |apply (is_derive_const 0)]; auto_derive; try exact I; ring.
  - eapply derive_continuity, cubic2_derive.
Qed.
Lemma cubic2_continuous : forall x j, continuity_pt (fun x => cubic2 x j) x.
Proof.
  intros x j. apply derive_continuity with (match j with 0%nat => -1 | 1%nat => 3 | 2%nat => -3 | 3%nat => 1 | _ => 0 end).
  destruct j as [|[|[|[|j]]]]; unfold cubic2; [| | | |apply (is_derive_const 0)]; auto_derive; try exact I; ring.
Qed.
Definition short (order : Z) (F : R -> nat -> R) : Prop := forall x j, (order < Z.of_nat j)%Z -> F x j = 0.
Lemma coefs_short : forall order, order = 2%Z \/ order = 3%Z -> short order (coefs order).
Proof. intros order [-> | ->] x j H; unfold coefs; cbn; destruct j as [|[|[|[|j]]]]; try lia; reflexivity. Qed.
Lemma grad_short : forall order, order = 2%Z \/ order = 3%Z -> short order (coefs_grad order).
Proof. intros order [-> | ->] x j H; unfold coefs_grad; cbn; destruct j as [|[|[|[|j]]]]; try lia; reflexivity. Qed.
Lemma cubic2_short : short 3 cubic2.
Proof. intros x j H; destruct j as [|[|[|[|j]]]]; try lia; reflexivity. Qed.

(** ** The surface is the sum over all control points of weight times control point *)
Definition cpoint (cfg : spline_cfg) (intr : Z -> R) (k : Z) (j i : nat) : R := intr (4 + 2 * (Z.of_nat j * sp_Nx cfg + Z.of_nat i) + k)%Z.
Definition bigsum (X Y : R -> nat -> R) (cfg : spline_cfg) (intr : Z -> R) (k : Z) (ix iy : R) : R :=
  rsum (Z.to_nat (sp_Ny cfg)) (fun j => W Y (sp_order cfg) (sp_Ny cfg) (Z.of_nat j) iy *
    rsum (Z.to_nat (sp_Nx cfg)) (fun i => W X (sp_order cfg) (sp_Nx cfg) (Z.of_nat i) ix * cpoint cfg intr k j i)).

Lemma legal_cases : forall cfg, spline_legal cfg = true ->
  (sp_order cfg = 2%Z \/ sp_order cfg = 3%Z) /\ (1 <= last_seg (sp_order cfg) (sp_Nx cfg))%Z /\ (1 <= last_seg (sp_order cfg) (sp_Ny cfg))%Z /\
  (last_seg (sp_order cfg) (sp_Nx cfg) + sp_order cfg = sp_Nx cfg)%Z /\ (last_seg (sp_order cfg) (sp_Ny cfg) + sp_order cfg = sp_Ny cfg)%Z.
Proof.
  intros cfg H. unfold spline_legal in H. apply orb_prop in H. destruct H as [H|H]; apply andb_prop in H; destruct H as [H H3];
    apply andb_prop in H; destruct H as [H1 H2]; apply Z.eqb_eq in H1; apply Z.leb_le in H2, H3; rewrite H1; unfold last_seg; cbn; lia.
Qed.
(** along one axis *)
Lemma axis_sum : forall F order N t (c : nat -> R), short order F -> (order = 2 \/ order = 3)%Z -> (1 <= last_seg order N)%Z -> (last_seg order N + order = N)%Z ->
  rsum (Z.to_nat N) (fun i => W F order N (Z.of_nat i) t * c i) =
  rsum (Z.to_nat (order + 1)) (fun m => F (t - IZR (seg order N t)) m * c (Z.to_nat (seg order N t - 1) + m)%nat).
Proof.
  intros F order N t c Sh O L E. destruct (seg_spec order N t L) as (A & _ & _). set (k := seg order N t) in *.
  rewrite (rsum_window (Z.to_nat (order + 1)) (Z.to_nat N) (Z.to_nat (k - 1))).
  - apply rsum_ext. intros m Hm. f_equal. unfold W, piece. fold k. replace (k - 1 <=? Z.of_nat (Z.to_nat (k - 1) + m))%Z with true by (symmetry; apply Z.leb_le; lia).
    f_equal. lia.
  - lia.
  - intros i Hi C. unfold W, piece. fold k. destruct (Z.leb_spec (k - 1) (Z.of_nat i)) as [B|B]; [|ring]. rewrite Sh by lia. ring.
Qed.
Lemma surface_bigsum : forall cfg X Y intr k ix iy, spline_legal cfg = true -> short (sp_order cfg) X -> short (sp_order cfg) Y ->
  surface_with X Y cfg intr k ix iy = bigsum X Y cfg intr k ix iy.
Proof.
  intros cfg X Y intr k ix iy H SX SY. destruct (legal_cases cfg H) as (O & Lx & Ly & Ex & Ey). unfold bigsum.
  rewrite (axis_sum Y (sp_order cfg) (sp_Ny cfg) iy (fun j => rsum (Z.to_nat (sp_Nx cfg)) (fun i => W X (sp_order cfg) (sp_Nx cfg) (Z.of_nat i) ix * cpoint cfg intr k j i))) by assumption.
  assert (forall j, rsum (Z.to_nat (sp_Nx cfg)) (fun i => W X (sp_order cfg) (sp_Nx cfg) (Z.of_nat i) ix * cpoint cfg intr k j i) =
    rsum (Z.to_nat (sp_order cfg + 1)) (fun m => X (ix - IZR (seg (sp_order cfg) (sp_Nx cfg) ix)) m * cpoint cfg intr k j (Z.to_nat (seg (sp_order cfg) (sp_Nx cfg) ix - 1) + m))) as R1.
  { intro j. now apply axis_sum. }
  rewrite (rsum_ext _ _ (fun m => Y (iy - IZR (seg (sp_order cfg) (sp_Ny cfg) iy)) m *
     rsum (Z.to_nat (sp_order cfg + 1)) (fun m' => X (ix - IZR (seg (sp_order cfg) (sp_Nx cfg) ix)) m' *
       cpoint cfg intr k (Z.to_nat (seg (sp_order cfg) (sp_Ny cfg) iy - 1) + m) (Z.to_nat (seg (sp_order cfg) (sp_Nx cfg) ix - 1) + m')))) by (intros; now rewrite R1).
  clear R1. destruct (seg_spec (sp_order cfg) (sp_Nx cfg) ix Lx) as (Ax & _ & _). destruct (seg_spec (sp_order cfg) (sp_Ny cfg) iy Ly) as (Ay & _ & _).
  unfold surface_with, interp, ivar0_at, cpoint.
  set (kx := seg (sp_order cfg) (sp_Nx cfg) ix) in *. set (ky := seg (sp_order cfg) (sp_Ny cfg) iy) in *.
  assert (forall jy jx, intr (4 + 2 * (Z.of_nat (Z.to_nat (ky - 1) + jy) * sp_Nx cfg + Z.of_nat (Z.to_nat (kx - 1) + jx)) + k)%Z =
    intr (4 + 2 * ((ky - 1) * sp_Nx cfg + (kx - 1)) + Z.of_nat jy * (2 * sp_Nx cfg) + Z.of_nat jx * 2 + k)%Z) as I.
  { intros jy jx. f_equal. rewrite !Nat2Z.inj_add, !Z2Nat.id by lia. ring. }
  destruct O as [O|O]; rewrite O; unfold interp_cubic, interp_quad.
  - change (2 =? 3)%Z with false. change (Z.to_nat (2 + 1)) with 3%nat. cbn [rsum]. rewrite !I. change (Z.of_nat 0) with 0%Z. change (Z.of_nat 1) with 1%Z. change (Z.of_nat 2) with 2%Z. change (Z.of_nat 3) with 3%Z. cbv beta iota. ring.
  - change (3 =? 3)%Z with true. change (Z.to_nat (3 + 1)) with 4%nat. cbn [rsum]. rewrite !I. change (Z.of_nat 0) with 0%Z. change (Z.of_nat 1) with 1%Z. change (Z.of_nat 2) with 2%Z. change (Z.of_nat 3) with 3%Z. cbv beta iota. ring.
Qed.

(** derivatives and continuity of the big sum *)
Lemma bigsum_dx : forall cfg X X' Y intr k ix iy, (1 <= last_seg (sp_order cfg) (sp_Nx cfg))%Z ->
  matches X (shift (sp_order cfg)) -> matches X' (shift (sp_order cfg)) -> (forall x j, is_derive (fun x => X x j) x (X' x j)) ->
  is_derive (fun s => bigsum X Y cfg intr k s iy) ix (bigsum X' Y cfg intr k ix iy).
Proof.
  intros cfg X X' Y intr k ix iy L M M' D. unfold bigsum. apply rsum_derive. intros j _. apply is_derive_scal.
  apply (rsum_derive _ (fun i s => W X (sp_order cfg) (sp_Nx cfg) (Z.of_nat i) s * cpoint cfg intr k j i)). intros i _.
  apply derive_mult_const. now apply W_derive.
Qed.
Lemma bigsum_dy : forall cfg X Y Y' intr k ix iy, (1 <= last_seg (sp_order cfg) (sp_Ny cfg))%Z ->
  matches Y (shift (sp_order cfg)) -> matches Y' (shift (sp_order cfg)) -> (forall x j, is_derive (fun x => Y x j) x (Y' x j)) ->
  is_derive (fun s => bigsum X Y cfg intr k ix s) iy (bigsum X Y' cfg intr k ix iy).
Proof.
  intros cfg X Y Y' intr k ix iy L M M' D. unfold bigsum.
  apply (rsum_derive _ (fun j s => W Y (sp_order cfg) (sp_Ny cfg) (Z.of_nat j) s * rsum (Z.to_nat (sp_Nx cfg)) (fun i => W X (sp_order cfg) (sp_Nx cfg) (Z.of_nat i) ix * cpoint cfg intr k j i))
    (fun j => W Y' (sp_order cfg) (sp_Ny cfg) (Z.of_nat j) iy * rsum (Z.to_nat (sp_Nx cfg)) (fun i => W X (sp_order cfg) (sp_Nx cfg) (Z.of_nat i) ix * cpoint cfg intr k j i))).
  intros j _. apply derive_mult_const. now apply W_derive.
Qed.
Lemma rsum_cont2 : forall n (f : nat -> R -> R -> R) x y, (forall i, continuity_2d_pt (f i) x y) -> continuity_2d_pt (fun a b => rsum n (fun i => f i a b)) x y.
Proof.
  induction n; intros f x y H; cbn; [apply continuity_2d_pt_const|]. apply continuity_2d_pt_plus; [now apply IHn|apply H].
Qed.
Lemma bigsum_cont : forall cfg X Y intr k ix iy, (1 <= last_seg (sp_order cfg) (sp_Nx cfg))%Z -> (1 <= last_seg (sp_order cfg) (sp_Ny cfg))%Z ->
  matches X (shift (sp_order cfg)) -> matches Y (shift (sp_order cfg)) ->
  (forall x j, continuity_pt (fun x => X x j) x) -> (forall x j, continuity_pt (fun x => Y x j) x) ->
  continuity_2d_pt (bigsum X Y cfg intr k) ix iy.
Proof.
  intros cfg X Y intr k ix iy Lx Ly MX MY CX CY. unfold bigsum.
  apply (rsum_cont2 _ (fun j a b => W Y (sp_order cfg) (sp_Ny cfg) (Z.of_nat j) b * rsum (Z.to_nat (sp_Nx cfg)) (fun i => W X (sp_order cfg) (sp_Nx cfg) (Z.of_nat i) a * cpoint cfg intr k j i))).
  intro j. apply continuity_2d_pt_mult.
  - apply (continuity_1d_2d_pt_comp (W Y (sp_order cfg) (sp_Ny cfg) (Z.of_nat j)) (fun a b => b)); [now apply W_continuous|apply continuity_2d_pt_id2].
  - apply (rsum_cont2 _ (fun i a b => W X (sp_order cfg) (sp_Nx cfg) (Z.of_nat i) a * cpoint cfg intr k j i)). intro i. apply continuity_2d_pt_mult; [|apply continuity_2d_pt_const].
    apply (continuity_1d_2d_pt_comp (W X (sp_order cfg) (sp_Nx cfg) (Z.of_nat i)) (fun a b => a)); [now apply W_continuous|apply continuity_2d_pt_id1].
Qed.
