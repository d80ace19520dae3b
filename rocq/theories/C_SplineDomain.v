(** C88: _splined_stereographic_domain() goes exactly around the area where the
    splined surface is defined, i.e. where projection doesn't extrapolate. *)
From Coq Require Import Reals ZArith Lra Lia List Bool.
From Verif Require Import S_Vec S_Densify S_SplineDomain M_Lens M_SplineIdx M_Spline P_Spline C_Spline M_Splined M_SplineDomain.
Import ListNotations.
Open Scope R_scope.

(** Specification: each of the pieces of the surface is one segment wide, starting at its knot (cubic) or centered on it (quadratic).
    A sample position x is inside of the piece of the knot k: *)
Definition inside_piece (order k : Z) (x : R) : Prop :=
  if (order =? 3)%Z then IZR k <= x <= IZR k + 1 else IZR k - 1 / 2 <= x <= IZR k + 1 / 2.
(** projecting p uses a piece of the surface outside of which p is, in neither direction *)
Definition not_extrapolated (cfg : spline_cfg) (p : v3) : Prop :=
  inside_piece (sp_order cfg) (seg (sp_order cfg) (sp_Nx cfg) (sp_ix cfg p)) (sp_ix cfg p) /\
  inside_piece (sp_order cfg) (seg (sp_order cfg) (sp_Ny cfg) (sp_iy cfg p)) (sp_iy cfg p).
(** the margin left out at each edge of the grid of knots, in segments *)
Definition margin (cfg : spline_cfg) : R := if (sp_order cfg =? 2)%Z then 1 / 2 else 1.
(** position of knots in u: N of them, centered on 0, evenly spaced *)
Definition u_at (cfg : spline_cfg) (N : Z) (i : R) : R := (i - IZR (N - 1) / 2) / segments_per_u cfg.
(** the rectangle in u-space *)
Definition edges {A} (cfg : spline_cfg) (f : R -> R -> R -> R -> A) : A :=
  f (u_at cfg (sp_Nx cfg) (margin cfg)) (u_at cfg (sp_Nx cfg) (IZR (sp_Nx cfg - 1) - margin cfg))
    (u_at cfg (sp_Ny cfg) (margin cfg)) (u_at cfg (sp_Ny cfg) (IZR (sp_Ny cfg - 1) - margin cfg)).

(** ** polylines *)
Ltac assoc := cbn [app]; repeat (rewrite <- app_assoc; cbn [app]).
Definition sub (m l : list (R * R)) : Prop := exists l1 l2, l = l1 ++ m ++ l2.
Lemma next_sub : forall a b m l, next_to a b m -> sub m l -> next_to a b l.
Proof.
  intros a b m l (m1 & m2 & ->) (l1 & l2 & ->). exists (l1 ++ m1), (m2 ++ l2).
  rewrite <- !app_assoc. reflexivity.
Qed.
Lemma next_join : forall l1 (x : R * R) l2 a b, next_to a b (l1 ++ x :: l2) -> next_to a b (l1 ++ [x]) \/ next_to a b (x :: l2).
Proof.
  induction l1 as [|c l1 IH]; intros x l2 a b (m1 & m2 & E).
  - right. exists m1, m2. exact E.
  - destruct m1 as [|d m1].
    + cbn [app] in E. injection E as -> E. destruct l1 as [|e l1]; cbn [app] in E; injection E as -> E.
      * left. exists [], []. reflexivity.
      * left. exists [], (l1 ++ [x]). reflexivity.
    + cbn [app] in E. injection E as -> E. destruct (IH x l2 a b) as [(n1 & n2 & F) | F].
      * exists m1, m2. exact E.
      * left. exists (d :: n1), n2. cbn [app]. now rewrite F.
      * now right.
Qed.
Lemma next_In : forall (l : list (R * R)) a b, next_to a b l -> In a l /\ In b l.
Proof. intros l a b (l1 & l2 & ->). split; apply in_or_app; right; cbn [In]; auto. Qed.

Lemma crosses : forall (f : R * R -> R) m a b x, f a <= x <= f b \/ f b <= x <= f a ->
  exists p q, next_to p q (a :: m ++ [b]) /\ (f p <= x <= f q \/ f q <= x <= f p).
Proof.
  intros f. induction m as [|c m IH]; intros a b x H.
  - exists a, b. split; [exists [], []; reflexivity|exact H].
  - assert (D : (f a <= x <= f c \/ f c <= x <= f a) \/ (f c <= x <= f b \/ f b <= x <= f c)).
    { destruct (Rle_dec x (f c)); destruct H; try (left; left; lra); try (left; right; lra); try (right; left; lra); try (right; right; lra). }
    destruct D as [D | D].
    + exists a, c. split; [exists [], (m ++ [b]); reflexivity|exact D].
    + destruct (IH c b x D) as (p & q & N & B). exists p, q. split; [|exact B].
      destruct N as (l1 & l2 & E). exists (a :: l1), l2. cbn [app] in *. now rewrite E.
Qed.

Lemma span : forall x p q, p <= x <= q \/ q <= x <= p -> exists t, 0 <= t <= 1 /\ x = (1 - t) * p + t * q.
Proof.
  intros x p q H. destruct (Req_dec p q) as [E | E].
  - exists 0. split; [lra|]. subst. lra.
  - exists ((x - p) / (q - p)). split.
    + destruct H as [H | H].
      * split; [apply Rmult_le_pos; [lra|apply Rlt_le, Rinv_0_lt_compat; lra]|].
        apply (Rmult_le_reg_r (q - p)); [lra|]. unfold Rdiv. rewrite Rmult_assoc, Rinv_l by lra. lra.
      * replace ((x - p) / (q - p)) with ((p - x) / (p - q)) by (field; lra).
        split; [apply Rmult_le_pos; [lra|apply Rlt_le, Rinv_0_lt_compat; lra]|].
        apply (Rmult_le_reg_r (p - q)); [lra|]. unfold Rdiv. rewrite Rmult_assoc, Rinv_l by lra. lra.
    + field. lra.
Qed.

(** a straight side, horizontal or vertical, is gone through from its first to its last point *)
Lemma covers_x : forall l a m b y x, sub (a :: m ++ [b]) l -> (forall p, In p (a :: m ++ [b]) -> snd p = y) ->
  fst a <= x <= fst b \/ fst b <= x <= fst a -> on_polyline l (x, y).
Proof.
  intros l a m b y x S A H. destruct (crosses fst m a b x H) as (p & q & N & B). destruct (span _ _ _ B) as (t & T & E).
  destruct (next_In _ _ _ N) as [P Q]. exists p, q, t. split; [eapply next_sub; eauto|]. split; [exact T|].
  unfold between. rewrite (A p P), (A q Q). f_equal; [exact E|ring].
Qed.
Lemma covers_y : forall l a m b x y, sub (a :: m ++ [b]) l -> (forall p, In p (a :: m ++ [b]) -> fst p = x) ->
  snd a <= y <= snd b \/ snd b <= y <= snd a -> on_polyline l (x, y).
Proof.
  intros l a m b x y S A H. destruct (crosses snd m a b y H) as (p & q & N & B). destruct (span _ _ _ B) as (t & T & E).
  destruct (next_In _ _ _ N) as [P Q]. exists p, q, t. split; [eapply next_sub; eauto|]. split; [exact T|].
  unfold between. rewrite (A p P), (A q Q). f_equal; [ring|exact E].
Qed.

Section Outline.
  Variables x0 x1 y0 y1 : R.
  Hypothesis HX : x0 < x1.
  Hypothesis HY : y0 < y1.
  Let rect := in_rectangle x0 x1 y0 y1.
  Definition hside (y : R) (l : list (R * R)) := forall p, In p l -> snd p = y /\ x0 <= fst p <= x1.
  Definition vside (x : R) (l : list (R * R)) := forall p, In p l -> fst p = x /\ y0 <= snd p <= y1.
  Definition straight (l : list (R * R)) := forall a b, next_to a b l -> forall t, 0 <= t <= 1 -> on_outline x0 x1 y0 y1 (between a b t).
  Lemma mixed : forall a b lo hi t, lo <= a <= hi -> lo <= b <= hi -> 0 <= t <= 1 -> lo <= (1 - t) * a + t * b <= hi.
  Proof.
    intros a b lo hi t A B T.
    assert (0 <= (1 - t) * (a - lo)) by (apply Rmult_le_pos; lra). assert (0 <= t * (b - lo)) by (apply Rmult_le_pos; lra).
    assert (0 <= (1 - t) * (hi - a)) by (apply Rmult_le_pos; lra). assert (0 <= t * (hi - b)) by (apply Rmult_le_pos; lra). lra.
  Qed.
  Lemma h_straight : forall y l, y = y0 \/ y = y1 -> hside y l -> straight l.
  Proof.
    intros y l Y H a b N t T. destruct (next_In _ _ _ N) as [A B]. destruct (H a A) as [Ea Ra], (H b B) as [Eb Rb].
    unfold on_outline, in_rectangle, between. cbn [fst snd]. rewrite Ea, Eb. pose proof (mixed _ _ _ _ t Ra Rb T).
    replace ((1 - t) * y + t * y) with y by ring. split; [lra|]. destruct Y; auto.
  Qed.
  Lemma v_straight : forall x l, x = x0 \/ x = x1 -> vside x l -> straight l.
  Proof.
    intros x l X H a b N t T. destruct (next_In _ _ _ N) as [A B]. destruct (H a A) as [Ea Ra], (H b B) as [Eb Rb].
    unfold on_outline, in_rectangle, between. cbn [fst snd]. rewrite Ea, Eb. pose proof (mixed _ _ _ _ t Ra Rb T).
    replace ((1 - t) * x + t * x) with x by ring. split; [lra|]. destruct X; auto.
  Qed.
  Lemma straight_join : forall l1 x l2, straight (l1 ++ [x]) -> straight (x :: l2) -> straight (l1 ++ x :: l2).
  Proof. intros l1 x l2 A B a b N. destruct (next_join _ _ _ _ _ N); auto. Qed.
  Lemma hside_ends : forall y a m b, hside y [a; b] -> hside y m -> hside y (a :: m ++ [b]).
  Proof. intros y a m b A M p [<- | I]; [apply A; cbn; auto|]. apply in_app_or in I. destruct I as [I | [<- | []]]; [auto|apply A; cbn; auto]. Qed.
  Lemma vside_ends : forall y a m b, vside y [a; b] -> vside y m -> vside y (a :: m ++ [b]).
  Proof. intros y a m b A M p [<- | I]; [apply A; cbn; auto|]. apply in_app_or in I. destruct I as [I | [<- | []]]; [auto|apply A; cbn; auto]. Qed.

  (** once around, starting anywhere on the first side *)
  Variables (e : R) (m1 m2 m3 m4 : list (R * R)).
  Hypothesis HE : x0 <= e <= x1.
  Hypothesis H1 : hside y0 m1.
  Hypothesis H2 : vside x1 m2.
  Hypothesis H3 : hside y1 m3.
  Hypothesis H4 : vside x0 m4.
  Ltac two := intros p [<- | [<- | []]]; cbn [fst snd]; split; lra.
  Lemma around : forall tail, (tail = [] /\ e = x0) \/ tail = [(e, y0)] ->
    let l := (e, y0) :: m1 ++ (x1, y0) :: m2 ++ (x1, y1) :: m3 ++ (x0, y1) :: m4 ++ (x0, y0) :: tail in
    closed l /\ forall q, on_polyline l q <-> on_outline x0 x1 y0 y1 q.
  Proof.
    intros tail HT l.
    assert (S1 : hside y0 ((e, y0) :: m1 ++ [(x1, y0)])) by (apply hside_ends; [two|exact H1]).
    assert (S2 : vside x1 ((x1, y0) :: m2 ++ [(x1, y1)])) by (apply vside_ends; [two|exact H2]).
    assert (S3 : hside y1 ((x1, y1) :: m3 ++ [(x0, y1)])) by (apply hside_ends; [two|exact H3]).
    assert (S4 : vside x0 ((x0, y1) :: m4 ++ [(x0, y0)])) by (apply vside_ends; [two|exact H4]).
    assert (S5 : hside y0 ((x0, y0) :: tail)). { destruct HT as [[-> _] | ->]; intros p I; [destruct I as [<- | []]|destruct I as [<- | [<- | []]]]; cbn [fst snd]; split; lra. }
    split.
    - unfold l, closed. exists (e, y0).
      destruct HT as [[-> ->] | ->]; [exists (m1 ++ (x1, y0) :: m2 ++ (x1, y1) :: m3 ++ (x0, y1) :: m4)|exists (m1 ++ (x1, y0) :: m2 ++ (x1, y1) :: m3 ++ (x0, y1) :: m4 ++ [(x0, y0)])];
        assoc; reflexivity.
    - assert (ST : straight l).
      { unfold l. apply (straight_join (_ :: m1)); [apply (h_straight y0); [auto|exact S1]|].
        apply (straight_join (_ :: m2)); [apply (v_straight x1); [auto|exact S2]|].
        apply (straight_join (_ :: m3)); [apply (h_straight y1); [auto|exact S3]|].
        apply (straight_join (_ :: m4)); [apply (v_straight x0); [auto|exact S4]|].
        apply (h_straight y0); [auto|exact S5]. }
      intro q. split.
      + intros (a & b & t & N & T & ->). now apply ST.
      + destruct q as [x y]. intros [[RX RY] O]. cbn [fst snd] in *. destruct O as [-> | [-> | [-> | ->]]].
        * apply (covers_y l (x0, y1) m4 (x0, y0)); [|apply S4|cbn [fst snd]; lra].
          exists ((e, y0) :: m1 ++ (x1, y0) :: m2 ++ (x1, y1) :: m3), tail. unfold l. assoc. reflexivity.
        * apply (covers_y l (x1, y0) m2 (x1, y1)); [|apply S2|cbn [fst snd]; lra].
          exists ((e, y0) :: m1), (m3 ++ (x0, y1) :: m4 ++ (x0, y0) :: tail). unfold l. assoc. reflexivity.
        * destruct (Rle_dec e x) as [L | L].
          -- apply (covers_x l (e, y0) m1 (x1, y0)); [|apply S1|cbn [fst snd]; lra].
             exists [], (m2 ++ (x1, y1) :: m3 ++ (x0, y1) :: m4 ++ (x0, y0) :: tail). unfold l. assoc. reflexivity.
          -- destruct HT as [[-> E] | ->]; [lra|]. apply (covers_x l (x0, y0) [] (e, y0)); [|apply S5|cbn [fst snd]; lra].
             exists ((e, y0) :: m1 ++ (x1, y0) :: m2 ++ (x1, y1) :: m3 ++ (x0, y1) :: m4), []. unfold l. assoc. reflexivity.
        * apply (covers_x l (x1, y1) m3 (x0, y1)); [|apply S3|cbn [fst snd]; lra].
          exists ((e, y0) :: m1 ++ (x1, y0) :: m2), (m4 ++ (x0, y0) :: tail). unfold l. assoc. reflexivity.
  Qed.
End Outline.

(** ** slices *)
Lemma upto_first : forall a b, (a < b)%Z -> upto a b = a :: upto (a + 1) b.
Proof.
  intros a b H. unfold upto. replace (Z.to_nat (b - a)) with (S (Z.to_nat (b - (a + 1)))) by lia.
  cbn [seq map]. f_equal; [lia|]. rewrite <- seq_shift, map_map. apply map_ext. intros. lia.
Qed.
Lemma downto_first : forall a b, (b < a)%Z -> downto a b = a :: downto (a - 1) b.
Proof.
  intros a b H. unfold downto. replace (Z.to_nat (a - b)) with (S (Z.to_nat (a - 1 - b))) by lia.
  cbn [seq map]. f_equal; [lia|]. rewrite <- seq_shift, map_map. apply map_ext. intros. lia.
Qed.
Lemma downto_last : forall a b, (b < a)%Z -> downto a b = downto a (b + 1) ++ [(b + 1)%Z].
Proof.
  intros a b H. unfold downto. replace (Z.to_nat (a - b)) with (S (Z.to_nat (a - (b + 1)))) by lia.
  rewrite seq_S, map_app. f_equal. cbn [map]. f_equal. lia.
Qed.
Lemma in_upto : forall i a b, In i (upto a b) -> (a <= i < b)%Z.
Proof. intros i a b H. unfold upto in H. apply in_map_iff in H. destruct H as (k & <- & K). apply in_seq in K. lia. Qed.
Lemma in_downto : forall i a b, In i (downto a b) -> (b < i <= a)%Z.
Proof. intros i a b H. unfold downto in H. apply in_map_iff in H. destruct H as (k & <- & K). apply in_seq in K. lia. Qed.

(** ** the scale is positive *)
Lemma scale_pos : forall cfg, spline_legal cfg = true -> (0 < sp_fov cfg < 360)%Z -> 0 < segments_per_u cfg.
Proof.
  intros cfg H F. destruct (legal_cases cfg H) as (O & Lx & _ & Ex & _). unfold segments_per_u.
  assert (0 < tan (IZR (sp_fov cfg) / 2 * PI / 180 / 2)) as T.
  { pose proof PI_RGT_0. assert (0 < IZR (sp_fov cfg) < 360) as [F1 F2] by (split; apply IZR_lt; lia).
    apply tan_gt_0; nra. }
  apply Rmult_lt_0_compat; [|apply Rinv_0_lt_compat; lra].
  apply IZR_lt. unfold last_seg, shift in *. destruct O as [Q | Q]; rewrite Q in *; cbn [Z.eqb Pos.eqb] in *; lia.
Qed.

(** ** knots *)
Lemma uk_at : forall cfg iy ix, uk cfg iy ix = (u_at cfg (sp_Nx cfg) (IZR ix), u_at cfg (sp_Ny cfg) (IZR iy)).
Proof. reflexivity. Qed.
Lemma u_at_le : forall cfg N i j, 0 < segments_per_u cfg -> i <= j -> u_at cfg N i <= u_at cfg N j.
Proof. intros cfg N i j P H. unfold u_at, Rdiv. apply Rmult_le_compat_r; [apply Rlt_le, Rinv_0_lt_compat, P|lra]. Qed.
Lemma u_at_lt : forall cfg N i j, 0 < segments_per_u cfg -> i < j -> u_at cfg N i < u_at cfg N j.
Proof. intros cfg N i j P H. unfold u_at, Rdiv. apply Rmult_lt_compat_r; [apply Rinv_0_lt_compat, P|lra]. Qed.
Lemma u_at_mean : forall cfg N i j k, 0 < segments_per_u cfg -> k = (i + j) / 2 -> (u_at cfg N i + u_at cfg N j) / 2 = u_at cfg N k.
Proof. intros cfg N i j k P ->. unfold u_at. field. lra. Qed.
Lemma u_at_mean4 : forall cfg N i j k l m, 0 < segments_per_u cfg -> m = (i + j + k + l) / 4 ->
  (u_at cfg N i + u_at cfg N j + u_at cfg N k + u_at cfg N l) / 4 = u_at cfg N m.
Proof. intros cfg N i j k l m P ->. unfold u_at. field. lra. Qed.
Lemma u_at_le_iff : forall cfg N i x, 0 < segments_per_u cfg -> (u_at cfg N i <= x <-> i <= x * segments_per_u cfg + IZR (N - 1) / 2).
Proof.
  intros cfg N i x P. unfold u_at. split; intro H.
  - apply (Rmult_le_compat_r (segments_per_u cfg)) in H; [|lra]. unfold Rdiv in H at 1. rewrite Rmult_assoc, Rinv_l in H by lra. lra.
  - apply (Rmult_le_reg_r (segments_per_u cfg)); [exact P|]. unfold Rdiv at 1. rewrite Rmult_assoc, Rinv_l by lra. lra.
Qed.
Lemma u_at_ge_iff : forall cfg N i x, 0 < segments_per_u cfg -> (x <= u_at cfg N i <-> x * segments_per_u cfg + IZR (N - 1) / 2 <= i).
Proof.
  intros cfg N i x P. unfold u_at. split; intro H.
  - apply (Rmult_le_compat_r (segments_per_u cfg)) in H; [|lra]. unfold Rdiv in H at 1. rewrite Rmult_assoc, Rinv_l in H by lra. lra.
  - apply (Rmult_le_reg_r (segments_per_u cfg)); [exact P|]. unfold Rdiv at 1. rewrite Rmult_assoc, Rinv_l by lra. lra.
Qed.

Ltac izr := repeat rewrite ?minus_IZR, ?plus_IZR; try lra.
Ltac side_in :=
  let i := fresh "i" in let Hi := fresh "Hi" in let J1 := fresh "J" in let J2 := fresh "J" in
  intros ? Hi; apply in_map_iff in Hi; destruct Hi as (i & <- & Hi); first [apply in_upto in Hi | apply in_downto in Hi];
  destruct Hi as [J1 J2]; first [apply IZR_le in J1 | apply IZR_lt in J1]; first [apply IZR_le in J2 | apply IZR_lt in J2].

(** the contour, in terms of positions *)
Definition at2 (cfg : spline_cfg) (x y : R) : R * R := (u_at cfg (sp_Nx cfg) x, u_at cfg (sp_Ny cfg) y).
Lemma mean2_at : forall cfg a b x y, 0 < segments_per_u cfg ->
  x = (IZR (snd a) + IZR (snd b)) / 2 -> y = (IZR (fst a) + IZR (fst b)) / 2 ->
  mean2 (uk cfg (fst a) (snd a)) (uk cfg (fst b) (snd b)) = at2 cfg x y.
Proof. intros. unfold mean2, at2. rewrite !uk_at. cbn [fst snd]. f_equal; now apply u_at_mean. Qed.
Lemma mean4_at : forall cfg a b c d x y, 0 < segments_per_u cfg ->
  x = (IZR (snd a) + IZR (snd b) + IZR (snd c) + IZR (snd d)) / 4 -> y = (IZR (fst a) + IZR (fst b) + IZR (fst c) + IZR (fst d)) / 4 ->
  mean4 (uk cfg (fst a) (snd a)) (uk cfg (fst b) (snd b)) (uk cfg (fst c) (snd c)) (uk cfg (fst d) (snd d)) = at2 cfg x y.
Proof. intros. unfold mean4, at2. rewrite !uk_at. cbn [fst snd]. f_equal; now apply u_at_mean4. Qed.

Lemma domain2 : forall cfg, 0 < segments_per_u cfg -> sp_order cfg = 2%Z ->
  let X := IZR (sp_Nx cfg) in let Y := IZR (sp_Ny cfg) in
  splined_stereographic_domain cfg = Some (
    map (fun i => at2 cfg (IZR i) (1 / 2)) (upto 1 (sp_Nx cfg - 2)) ++ at2 cfg (X - 1 - 1 / 2) (1 / 2) ::
    map (fun i => at2 cfg (X - 1 - 1 / 2) (IZR i)) (upto 1 (sp_Ny cfg - 2)) ++ at2 cfg (X - 1 - 1 / 2) (Y - 1 - 1 / 2) ::
    map (fun i => at2 cfg (IZR i) (Y - 1 - 1 / 2)) (downto (sp_Nx cfg - 2) 1) ++ at2 cfg (1 / 2) (Y - 1 - 1 / 2) ::
    map (fun i => at2 cfg (1 / 2) (IZR i)) (downto (sp_Ny cfg - 2) 0) ++ at2 cfg (1 / 2) (1 / 2) :: [at2 cfg 1 (1 / 2)]).
Proof.
  intros cfg P E X Y. unfold splined_stereographic_domain. rewrite E. change (2 =? 2)%Z with true. cbv iota. f_equal.
  unfold X, Y.
  f_equal; [apply map_ext; intro i; apply (mean2_at cfg (0, i)%Z (1, i)%Z); cbn [fst snd]; izr|].
  cbn [app]. f_equal; [apply (mean4_at cfg (0, sp_Nx cfg - 2)%Z (1, sp_Nx cfg - 2)%Z (0, sp_Nx cfg - 1)%Z (1, sp_Nx cfg - 1)%Z); cbn [fst snd]; izr|].
  f_equal; [apply map_ext; intro i; apply (mean2_at cfg (i, sp_Nx cfg - 2)%Z (i, sp_Nx cfg - 1)%Z); cbn [fst snd]; izr|].
  f_equal; [apply (mean4_at cfg (sp_Ny cfg - 2, sp_Nx cfg - 2)%Z (sp_Ny cfg - 1, sp_Nx cfg - 2)%Z (sp_Ny cfg - 2, sp_Nx cfg - 1)%Z (sp_Ny cfg - 1, sp_Nx cfg - 1)%Z); cbn [fst snd]; izr|].
  f_equal; [apply map_ext; intro i; apply (mean2_at cfg (sp_Ny cfg - 2, i)%Z (sp_Ny cfg - 1, i)%Z); cbn [fst snd]; izr|].
  f_equal; [apply (mean4_at cfg (sp_Ny cfg - 2, 1)%Z (sp_Ny cfg - 1, 1)%Z (sp_Ny cfg - 2, 0)%Z (sp_Ny cfg - 1, 0)%Z); cbn [fst snd]; izr|].
  f_equal; [apply map_ext; intro i; apply (mean2_at cfg (i, 0)%Z (i, 1)%Z); cbn [fst snd]; izr|].
  f_equal; [apply (mean4_at cfg (0, 0)%Z (0, 1)%Z (1, 0)%Z (1, 1)%Z); cbn [fst snd]; izr|].
  f_equal. apply (mean2_at cfg (0, 1)%Z (1, 1)%Z); cbn [fst snd]; izr.
Qed.

Lemma domain3 : forall cfg, sp_order cfg = 3%Z -> (4 <= sp_Nx cfg)%Z -> (4 <= sp_Ny cfg)%Z ->
  let X := IZR (sp_Nx cfg) in let Y := IZR (sp_Ny cfg) in
  splined_stereographic_domain cfg = Some (
    at2 cfg 1 1 :: map (fun i => at2 cfg (IZR i) 1) (upto 2 (sp_Nx cfg - 2)) ++ at2 cfg (X - 1 - 1) 1 ::
    map (fun i => at2 cfg (X - 1 - 1) (IZR i)) (upto 2 (sp_Ny cfg - 2)) ++ at2 cfg (X - 1 - 1) (Y - 1 - 1) ::
    map (fun i => at2 cfg (IZR i) (Y - 1 - 1)) (downto (sp_Nx cfg - 3) 1) ++ at2 cfg 1 (Y - 1 - 1) ::
    map (fun i => at2 cfg 1 (IZR i)) (downto (sp_Ny cfg - 3) 1) ++ at2 cfg 1 1 :: []).
Proof.
  intros cfg E LX LY X Y. unfold splined_stereographic_domain. rewrite E. change (3 =? 2)%Z with false. change (3 =? 3)%Z with true. cbv iota. f_equal.
  assert (EX : X - 1 - 1 = IZR (sp_Nx cfg - 2)) by (unfold X; izr). assert (EY : Y - 1 - 1 = IZR (sp_Ny cfg - 2)) by (unfold Y; izr).
  rewrite EX, EY. rewrite (upto_first 1 (sp_Nx cfg - 2)), (upto_first 1 (sp_Ny cfg - 2)), (downto_first (sp_Nx cfg - 2) 1) by lia.
  rewrite (downto_first (sp_Ny cfg - 2) 0) by lia. rewrite (downto_last (sp_Ny cfg - 2 - 1) 0) by lia.
  replace (sp_Nx cfg - 2 - 1)%Z with (sp_Nx cfg - 3)%Z by lia. replace (sp_Ny cfg - 2 - 1)%Z with (sp_Ny cfg - 3)%Z by lia.
  change (1 + 1)%Z with 2%Z. change (0 + 1)%Z with 1%Z. cbn [map]. rewrite map_app. cbn [map app]. reflexivity.
Qed.

Theorem C88_contour_partial : forall cfg, spline_legal cfg = true -> (0 < sp_fov cfg < 360)%Z -> (sp_order cfg = 2 -> 4 <= sp_Nx cfg)%Z ->
  exists l, splined_stereographic_domain cfg = Some l /\ closed l /\ forall q, on_polyline l q <-> edges cfg on_outline q.
Proof.
  intros cfg H F L4. pose proof (scale_pos cfg H F) as P. destruct (legal_cases cfg H) as (O & Lx & Ly & Ex & Ey).
  unfold edges, margin. destruct O as [O | O].
  - rewrite O in Lx, Ly, Ex, Ey. assert (LX : (4 <= sp_Nx cfg)%Z) by now apply L4. assert (LY : (3 <= sp_Ny cfg)%Z) by (unfold last_seg in *; cbn [Z.eqb Pos.eqb] in *; lia).
    pose proof (IZR_le _ _ LX) as RX. pose proof (IZR_le _ _ LY) as RY.
    rewrite (domain2 cfg P O), O. change (2 =? 2)%Z with true. cbv iota. eexists. split; [reflexivity|].
    rewrite (upto_first 1 (sp_Nx cfg - 2)) by lia. change (1 + 1)%Z with 2%Z. cbn [map].
    rewrite !minus_IZR. unfold at2.
    apply (around (u_at cfg (sp_Nx cfg) (1 / 2)) (u_at cfg (sp_Nx cfg) (IZR (sp_Nx cfg) - 1 - 1 / 2)) (u_at cfg (sp_Ny cfg) (1 / 2)) (u_at cfg (sp_Ny cfg) (IZR (sp_Ny cfg) - 1 - 1 / 2))).
    + apply u_at_lt; lra.
    + apply u_at_lt; lra.
    + split; apply u_at_le; lra.
    + side_in. rewrite minus_IZR in *. cbn [fst snd]. split; [reflexivity|split; apply u_at_le; lra].
    + side_in. rewrite minus_IZR in *. cbn [fst snd]. split; [reflexivity|split; apply u_at_le; lra].
    + side_in. rewrite minus_IZR in *. cbn [fst snd]. split; [reflexivity|split; apply u_at_le; lra].
    + intros p I; apply in_map_iff in I; destruct I as (i & <- & I); apply in_downto in I. assert (I1 : (1 <= i)%Z) by lia. destruct I as [_ I2]. apply IZR_le in I1, I2.
      rewrite minus_IZR in *. cbn [fst snd]. split; [reflexivity|split; apply u_at_le; lra].
    + right. reflexivity.
  - rewrite O in Lx, Ly, Ex, Ey. assert (LX : (4 <= sp_Nx cfg)%Z) by (unfold last_seg in *; cbn [Z.eqb Pos.eqb] in *; lia). assert (LY : (4 <= sp_Ny cfg)%Z) by (unfold last_seg in *; cbn [Z.eqb Pos.eqb] in *; lia).
    pose proof (IZR_le _ _ LX) as RX. pose proof (IZR_le _ _ LY) as RY.
    rewrite (domain3 cfg O LX LY), O. change (3 =? 2)%Z with false. cbv iota. eexists. split; [reflexivity|].
    rewrite !minus_IZR. unfold at2.
    apply (around (u_at cfg (sp_Nx cfg) 1) (u_at cfg (sp_Nx cfg) (IZR (sp_Nx cfg) - 1 - 1)) (u_at cfg (sp_Ny cfg) 1) (u_at cfg (sp_Ny cfg) (IZR (sp_Ny cfg) - 1 - 1))).
    + apply u_at_lt; lra.
    + apply u_at_lt; lra.
    + split; apply u_at_le; lra.
    + side_in. rewrite minus_IZR in *. cbn [fst snd]. split; [reflexivity|split; apply u_at_le; lra].
    + side_in. rewrite minus_IZR in *. cbn [fst snd]. split; [reflexivity|split; apply u_at_le; lra].
    + side_in. rewrite minus_IZR in *. cbn [fst snd]. split; [reflexivity|split; apply u_at_le; lra].
    + side_in. rewrite minus_IZR in *. cbn [fst snd]. split; [reflexivity|split; apply u_at_le; lra].
    + left. split; reflexivity.
Qed.
Print Assumptions C88_contour_partial.

(** ** what is inside is what isn't extrapolated *)
Lemma piece_iff : forall order N x, (order = 2 \/ order = 3)%Z -> (1 <= last_seg order N)%Z -> (last_seg order N + order = N)%Z ->
  let m := if (order =? 2)%Z then 1 / 2 else 1 in
  (inside_piece order (seg order N x) x <-> m <= x <= IZR (N - 1) - m).
Proof.
  intros order N x O L E m. rewrite seg_form. set (t := x + shift order). destruct (ctrunc_spec t) as [Q1 Q2]. set (k := ctrunc t) in *.
  assert (HL : IZR (last_seg order N) = IZR N - IZR order) by (pose proof (f_equal IZR E) as E'; rewrite plus_IZR in E'; lra).
  assert (ET : t = x + shift order) by reflexivity. clearbody t k.
  pose proof (IZR_le _ _ L) as RL. unfold m, inside_piece, clamp. rewrite minus_IZR.
  destruct (Z.ltb_spec k 1) as [K | K].
  - assert (T : t < 1). { destruct (Rle_dec 0 t) as [T | T]; [|lra]. destruct (Q1 T) as (_ & _ & T2). assert (IZR k <= 0) by (apply IZR_le; lia). lra. }
    destruct O as [-> | ->]; unfold shift in ET; cbn [Z.eqb Pos.eqb] in *; split; intro; lra.
  - pose proof (IZR_le _ _ K) as RK.
    assert (T : IZR k <= t < IZR k + 1). { destruct (Rle_dec 0 t) as [T | T]; [now apply Q1|]. assert (k <= 0)%Z by (apply Q2; lra). lia. }
    rewrite Z.gtb_ltb. destruct (Z.ltb_spec (last_seg order N) k) as [B | B].
    + assert (RB : IZR (last_seg order N) + 1 <= IZR k) by (rewrite <- plus_IZR; apply IZR_le; lia).
      destruct O as [-> | ->]; unfold shift in ET; cbn [Z.eqb Pos.eqb] in *; split; intro; lra.
    + pose proof (IZR_le _ _ B) as RB.
      destruct O as [-> | ->]; unfold shift in ET; cbn [Z.eqb Pos.eqb] in *; split; intro; lra.
Qed.

Theorem C88_inside : forall cfg p, spline_legal cfg = true -> (0 < sp_fov cfg < 360)%Z ->
  (not_extrapolated cfg p <-> edges cfg in_rectangle (sp_ux p, sp_uy p)).
Proof.
  intros cfg p H F. pose proof (scale_pos cfg H F) as P. destruct (legal_cases cfg H) as (O & Lx & Ly & Ex & Ey).
  unfold not_extrapolated, edges, in_rectangle. cbn [fst snd]. rewrite !piece_iff by assumption. fold (margin cfg).
  rewrite !(u_at_le_iff cfg) by exact P. rewrite !(u_at_ge_iff cfg) by exact P. unfold sp_ix, sp_iy. reflexivity.
Qed.
Print Assumptions C88_inside.

(** with three columns of knots the quadratic contour isn't closed, and misses a part of the outline *)
Theorem C88_three_columns_refuted : forall cfg, spline_legal cfg = true -> (0 < sp_fov cfg < 360)%Z -> sp_order cfg = 2%Z -> sp_Nx cfg = 3%Z ->
  exists l q, splined_stereographic_domain cfg = Some l /\ ~ closed l /\ edges cfg on_outline q /\ ~ on_polyline l q.
Proof.
  intros cfg H F O EX. pose proof (scale_pos cfg H F) as P. destruct (legal_cases cfg H) as (_ & Lx & Ly & Ex & Ey). rewrite O in Ly, Ey.
  assert (LY : (3 <= sp_Ny cfg)%Z) by (unfold last_seg in *; cbn [Z.eqb Pos.eqb] in *; lia). pose proof (IZR_le _ _ LY) as RY.
  rewrite (domain2 cfg P O), EX. change (upto 1 (3 - 2)) with (@nil Z). change (downto (3 - 2) 1) with (@nil Z). cbn [map app].
  eexists. exists (at2 cfg (5 / 4) (1 / 2)). split; [reflexivity|].
  assert (X01 : u_at cfg (sp_Nx cfg) (1 / 2) < u_at cfg (sp_Nx cfg) 1) by (apply u_at_lt; lra).
  assert (X12 : u_at cfg (sp_Nx cfg) 1 < u_at cfg (sp_Nx cfg) (5 / 4)) by (apply u_at_lt; lra).
  assert (X23 : u_at cfg (sp_Nx cfg) (5 / 4) < u_at cfg (sp_Nx cfg) (3 - 1 - 1 / 2)) by (apply u_at_lt; lra).
  assert (Y01 : u_at cfg (sp_Ny cfg) (1 / 2) < u_at cfg (sp_Ny cfg) (IZR (sp_Ny cfg) - 1 - 1 / 2)) by (apply u_at_lt; lra).
  split; [|split].
  - intros (a & m & E). set (xs := map _ (upto _ _)) in E. set (ys := map _ (downto _ _)) in E.
    pose proof (f_equal (fun l => hd (0, 0) l) E) as E1. pose proof (f_equal (fun l => last l (0, 0)) E) as E2. cbn [hd app] in E1.
    cbv beta in E2. change (a :: m ++ [a]) with ((a :: m) ++ [a]) in E2. rewrite (last_last (a :: m)) in E2.
    replace (at2 cfg (3 - 1 - 1 / 2) (1 / 2) :: xs ++ at2 cfg (3 - 1 - 1 / 2) (IZR (sp_Ny cfg) - 1 - 1 / 2) :: at2 cfg (1 / 2) (IZR (sp_Ny cfg) - 1 - 1 / 2) :: ys ++ [at2 cfg (1 / 2) (1 / 2); at2 cfg 1 (1 / 2)])
      with ((at2 cfg (3 - 1 - 1 / 2) (1 / 2) :: xs ++ at2 cfg (3 - 1 - 1 / 2) (IZR (sp_Ny cfg) - 1 - 1 / 2) :: at2 cfg (1 / 2) (IZR (sp_Ny cfg) - 1 - 1 / 2) :: ys ++ [at2 cfg (1 / 2) (1 / 2)]) ++ [at2 cfg 1 (1 / 2)]) in E2
      by (assoc; reflexivity).
    rewrite last_last in E2. pose proof (f_equal fst (eq_trans E1 (eq_sym E2))) as E3. unfold at2 in E3. cbn [fst] in E3. lra.
  - unfold edges, on_outline, in_rectangle, margin, at2. rewrite O, EX. change (2 =? 2)%Z with true. cbv iota. cbn [fst snd]. rewrite <- EX in *. rewrite !minus_IZR.
    rewrite EX at 2 4. replace (3 - 1 - 1 / 2) with (IZR (sp_Nx cfg) - 1 - 1 / 2) in X23 by (rewrite EX; lra). rewrite EX in *. lra.
  - intros (a & b & t & N & T & Q). unfold at2 in Q.
    pose proof (f_equal fst Q) as QX. pose proof (f_equal snd Q) as QY. unfold between in QX, QY. cbn [fst snd] in QX, QY.
    destruct (next_join (_ :: map _ _) _ _ _ _ N) as [N1 | N1].
    + apply next_In in N1. destruct N1 as [A B].
      assert (V : forall p, In p ((at2 cfg (3 - 1 - 1 / 2) (1 / 2) :: map (fun i => at2 cfg (3 - 1 - 1 / 2) (IZR i)) (upto 1 (sp_Ny cfg - 2))) ++ [at2 cfg (3 - 1 - 1 / 2) (IZR (sp_Ny cfg) - 1 - 1 / 2)]) -> fst p = u_at cfg (sp_Nx cfg) (3 - 1 - 1 / 2)).
      { intros p I. apply in_app_or in I. destruct I as [[<- | I] | [<- | []]]; [reflexivity| |reflexivity]. apply in_map_iff in I. destruct I as (i & <- & _). reflexivity. }
      rewrite (V a A), (V b B) in QX. lra.
    + destruct (next_join [_] _ _ _ _ N1) as [N2 | N2].
      * apply next_In in N2. destruct N2 as [A B].
        assert (V : forall p, In p ([at2 cfg (3 - 1 - 1 / 2) (IZR (sp_Ny cfg) - 1 - 1 / 2)] ++ [at2 cfg (1 / 2) (IZR (sp_Ny cfg) - 1 - 1 / 2)]) -> snd p = u_at cfg (sp_Ny cfg) (IZR (sp_Ny cfg) - 1 - 1 / 2)).
        { intros p [<- | [<- | []]]; reflexivity. }
        rewrite (V a A), (V b B) in QY. lra.
      * assert (V : forall p, In p (at2 cfg (1 / 2) (IZR (sp_Ny cfg) - 1 - 1 / 2) :: map (fun i => at2 cfg (1 / 2) (IZR i)) (downto (sp_Ny cfg - 2) 0) ++ [at2 cfg (1 / 2) (1 / 2); at2 cfg 1 (1 / 2)]) ->
          u_at cfg (sp_Nx cfg) (1 / 2) <= fst p <= u_at cfg (sp_Nx cfg) 1).
        { intros p [<- | I]; [cbn; lra|]. apply in_app_or in I. destruct I as [I | [<- | [<- | []]]]; [|cbn; lra|cbn; lra].
          apply in_map_iff in I. destruct I as (i & <- & _). cbn; lra. }
        apply next_In in N2. destruct N2 as [A B]. pose proof (mixed _ _ _ _ t (V a A) (V b B) T). lra.
Qed.
Print Assumptions C88_three_columns_refuted.

(** any other order is refused *)
Theorem C88_refused : forall cfg, sp_order cfg <> 2%Z -> sp_order cfg <> 3%Z -> splined_stereographic_domain cfg = None.
Proof. intros cfg A B. unfold splined_stereographic_domain. apply Z.eqb_neq in A, B. now rewrite A, B. Qed.
Print Assumptions C88_refused.

Definition ex_cfg : spline_cfg := {| sp_order := 3; sp_Nx := 16; sp_Ny := 12; sp_fov := 120 |}.
Example C88_ex : spline_legal ex_cfg = true /\ (0 < sp_fov ex_cfg < 360)%Z /\ (sp_order ex_cfg = 2%Z -> (4 <= sp_Nx ex_cfg)%Z) /\
  option_map (fun l => List.length l) (splined_stereographic_domain ex_cfg) = Some 45%nat.
Proof. repeat split; try reflexivity; cbn; lia. Qed.
Definition ex_cfg2 : spline_cfg := {| sp_order := 2; sp_Nx := 3; sp_Ny := 4; sp_fov := 120 |}.
Example C88_ex2 : spline_legal ex_cfg2 = true /\ (0 < sp_fov ex_cfg2 < 360)%Z /\ sp_order ex_cfg2 = 2%Z /\ sp_Nx ex_cfg2 = 3%Z.
Proof. cbn. repeat split; lia. Qed.
