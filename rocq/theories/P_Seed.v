(** The pairwise fits of _estimate_camera_poses() on exact data. *)
From Coq Require Import Reals ZArith List Bool Lra Lia Psatz.
From Verif Require Import S_Vec M_Pose M_Align P_Trig P_Pose P_Euler C_Align P_Fit C_Rt M_Traverse M_Connect M_Perfect C_Perfect C_Connect M_Seed.
Import ListNotations.
Open Scope R_scope.

(** *** Specification *)
(** the rows count up: by frame, then by camera *)
Definition ordered (l : list (Z * Z)) : Prop :=
  forall i j p q, (i < j)%nat -> nth_error l i = Some p -> nth_error l j = Some q -> (fst p < fst q \/ fst p = fst q /\ snd p < snd q)%Z.
(** the poses of the board in each camera agree with the poses T of the cameras (camera -> reference) and F of the board (board -> reference) *)
Definition exact (T F : Z -> Rt) (obs : list ((Z * Z) * Rt)) : Prop :=
  forall f c p x, In ((f, c), p) obs -> act (T c) (act p x) = act (F f) x.
(** cameras that have two frames in common *)
Definition linked2 (l : list (Z * Z)) (a b : Z) : Prop :=
  exists f g, f <> g /\ In (f, a) l /\ In (f, b) l /\ In (g, a) l /\ In (g, b) l.
Inductive connected (l : list (Z * Z)) : Z -> Prop :=
| conn_0 : connected l 0
| conn_step : forall a b, connected l a -> linked2 l a b -> connected l b.

(** *** the board *)
Lemma zrange_S : forall a b, (a < b)%Z -> zrange a b = a :: zrange (a + 1) b.
Proof.
  intros a b H. unfold zrange. replace (Z.to_nat (b - a)) with (S (Z.to_nat (b - (a + 1)))) by lia. cbn [seq map]. f_equal; [lia|].
  rewrite <- seq_shift, map_map. apply map_ext. intro k. lia.
Qed.
Lemma corner_at : forall w h s ix iy, (0 <= ix < w)%Z -> (0 <= iy < h)%Z -> ref_calibration_object w h s None ix iy = V3 (IZR ix * s) (IZR iy * s) 0.
Proof. intros w h s ix iy Hx Hy. unfold ref_calibration_object. rewrite !linspace_grid by assumption. reflexivity. Qed.
Lemma board_three : forall w h s, (2 <= w)%Z -> (2 <= h)%Z -> three (board w h s) (V3 0 0 0) (V3 s 0 0) (V3 0 s 0).
Proof.
  intros w h s Hw Hh. unfold board. rewrite (zrange_S 0 h) by lia. cbn [flat_map]. replace (0 + 1)%Z with 1%Z by ring. rewrite (zrange_S 1 h) by lia. cbn [flat_map].
  rewrite (zrange_S 0 w) by lia. cbn [map]. replace (0 + 1)%Z with 1%Z by ring. rewrite (zrange_S 1 w) by lia. cbn [map].
  rewrite !corner_at by lia. replace (0 * s) with 0 by ring. replace (1 * s) with s by ring.
  eexists [], [], _, _. cbn [app]. reflexivity.
Qed.

Lemma in_combine_map : forall (f g : v3 -> v3) l x y, In (x, y) (combine (map f l) (map g l)) -> exists z, x = f z /\ y = g z.
Proof. induction l as [|z l IH]; cbn; [tauto|]. intros x y [H|H]; [inversion H; now exists z|now apply IH]. Qed.
Lemma map_snd_combine : forall (l m : list v3), length l = length m -> map snd (combine l m) = m.
Proof. induction l as [|x l IH]; intros [|y m] H; try discriminate; [reflexivity|]. cbn. now rewrite IH by (cbn in H; lia). Qed.

(** *** rigid transformations *)
Lemma act_vsub : forall p a b, vsub (act p a) (act p b) = mv (Rt_R p) (vsub a b).
Proof. intros p a b. unfold act. rewrite mv_vsub. apply v3_eq; unfold vsub, vadd; cbn; ring. Qed.
Lemma comp_act : forall a b x, act (comp a b) x = act a (act b x).
Proof. intros a b x. pose proof (proj1 (C22_compose a b x)) as E. rewrite !C22_transform_is_action in E. exact E. Qed.
Lemma comp_proper : forall a b, proper a -> proper b -> proper (comp a b).
Proof. intros a b. exact (proj2 (C22_compose a b v0)). Qed.
Lemma inv_act : forall p x, proper p -> act (invert_Rt p) (act p x) = x /\ act p (act (invert_Rt p) x) = x.
Proof. intros p x H. destruct (C22_invert p x H) as (_ & A & B & _). rewrite !C22_transform_is_action in A, B. auto. Qed.
Lemma inv_proper : forall p, proper p -> proper (invert_Rt p).
Proof. intros p H. exact (proj1 (C22_invert p v0 H)). Qed.

Section Exact.
Variable svd : m33 -> option (m33 * v3 * m33).
Hypothesis Hsvd : forall A U d V, svd A = Some (U, d, V) -> is_svd A U d V.
Hypothesis Htot : forall A, svd A <> None.
Variables (w h : Z) (spacing : R).
Hypothesis Hw : (2 <= w)%Z.
Hypothesis Hh : (2 <= h)%Z.
Hypothesis Hspacing : 3 / 1000000000000 <= spacing * spacing.
Variable obs : list ((Z * Z) * Rt).
Variables T F : Z -> Rt.
Hypothesis HT : forall c, proper (T c).
Hypothesis HF : forall f, proper (F f).
Hypothesis Hexact : exact T F obs.
Hypothesis Hord : ordered (map fst obs).
Hypothesis Hframe : forall f c, In (f, c) (map fst obs) -> (0 <= f)%Z.

(** a fit of points related by D, that contain a moved board *)
Lemma fit_D : forall ps D p, proper D -> proper p -> (forall a b, In (a, b) ps -> a = act D b) ->
  three (map snd ps) (act p (V3 0 0 0)) (act p (V3 spacing 0 0)) (act p (V3 0 spacing 0)) -> fit svd ps = Some D.
Proof.
  intros ps D p HD Hp H H3. unfold fit.
  rewrite (fit_exact svd ps (Rt_R D) (Rt_t D) _ _ _ (spacing * spacing) Hsvd Htot HD H H3); [destruct D; reflexivity| | | |exact Hspacing].
  - rewrite !act_vsub, rot_dot by exact Hp. unfold dot, vsub. cbn. ring.
  - rewrite act_vsub. unfold norm2. rewrite rot_dot by exact Hp. unfold dot, vsub. cbn. ring.
  - rewrite act_vsub. unfold norm2. rewrite rot_dot by exact Hp. unfold dot, vsub. cbn. ring.
Qed.
Lemma obs_proper : forall f c p, In ((f, c), p) obs -> proper p.
Proof.
  intros f c p I. assert (p = comp (invert_Rt (T c)) (F f)) as ->.
  { apply act_inj_R. intro x. rewrite comp_act. rewrite <- (Hexact f c p x I). symmetry. now apply inv_act. }
  apply comp_proper; [now apply inv_proper|apply HF].
Qed.

Section Pair.
Variables a b : Z.   (* icam_to, icam_from *)
Hypothesis Hab : (a < b)%Z.
Definition block (p : Rt) (ab : list (v3 * v3)) : Prop :=
  three (map snd ab) (act p (V3 0 0 0)) (act p (V3 spacing 0 0)) (act p (V3 0 spacing 0)).
Record pinv (pre : list ((Z * Z) * Rt)) (s : pst) : Prop := {
  i_frame : forall f c p, In ((f, c), p) pre -> (f <= l_frame s)%Z;
  i_last : pre = [] /\ l_frame s = (-1)%Z \/ exists c p, In ((l_frame s, c), p) pre;
  i_0 : forall p, l_0 s = Some p <-> In ((l_frame s, a), p) pre;
  i_1 : forall p, l_1 s = Some p -> In ((l_frame s, b), p) pre;
  i_ab : forall x y, In (x, y) (l_ab s) -> act (T a) x = act (T b) y;
  i_block : forall f p0 p1, In ((f, a), p0) pre -> In ((f, b), p1) pre -> block p1 (l_ab s);
}.
Lemma three_app : forall l m o x y, three l o x y -> three (l ++ m) o x y.
Proof. intros l m o x y (l0 & l1 & l2 & l3 & ->). exists l0, l1, l2, (l3 ++ m)%list. now rewrite <- !app_assoc, <- !app_comm_cons, <- !app_assoc, <- !app_comm_cons, <- !app_assoc, <- !app_comm_cons. Qed.
Lemma three_app_r : forall l m o x y, three l o x y -> three (m ++ l) o x y.
Proof. intros l m o x y (l0 & l1 & l2 & l3 & ->). exists (m ++ l0)%list, l1, l2, l3. now rewrite <- app_assoc. Qed.
Lemma three_map : forall (f : v3 -> v3) l o x y, three l o x y -> three (map f l) (f o) (f x) (f y).
Proof.
  intros f l o x y (l0 & l1 & l2 & l3 & ->). exists (map f l0), (map f l1), (map f l2), (map f l3).
  rewrite map_app; cbn [map]; rewrite map_app; cbn [map]; rewrite map_app; reflexivity.
Qed.
Lemma ord_split : forall pre f c p suf, obs = (pre ++ ((f, c), p) :: suf)%list -> forall f' c' p', In ((f', c'), p') pre -> (f' < f \/ f' = f /\ c' < c)%Z.
Proof.
  intros pre f c p suf E f' c' p' I. apply In_nth_error in I. destruct I as (i & I).
  assert (i < length pre)%nat as L by (apply nth_error_Some; congruence).
  apply (Hord i (length pre) (f', c') (f, c) L).
  - rewrite E, map_app, nth_error_app1 by (rewrite map_length; lia). rewrite nth_error_map, I. reflexivity.
  - rewrite E, map_app, nth_error_app2 by (rewrite map_length; lia). rewrite map_length, Nat.sub_diag. reflexivity.
Qed.
Lemma pair_ok : forall suf pre s, obs = (pre ++ suf)%list -> pinv pre s -> exists s', foldo (pair_step w h spacing a b) suf s = Some s' /\ pinv obs s'.
Proof.
  induction suf as [|[[f c] p] suf IH]; intros pre s E I.
  - rewrite app_nil_r in E. subst pre. exists s. split; [reflexivity|exact I].
  - pose proof (ord_split _ _ _ _ _ E) as O.
    assert (In ((f, c), p) obs) as Io by (rewrite E; apply in_or_app; right; now left).
    assert (0 <= f)%Z as F0 by (apply (Hframe f c); apply in_map_iff; now exists ((f, c), p)).
    cbn [foldo].
    set (s1 := if (f =? l_frame s)%Z then s else {| l_frame := f; l_0 := None; l_1 := None; l_ab := l_ab s |}).
    (* after the reset *)
    assert (l_frame s1 = f /\ (forall q, l_0 s1 = Some q <-> In ((f, a), q) pre) /\ (forall q, l_1 s1 = Some q -> In ((f, b), q) pre) /\ l_ab s1 = l_ab s) as (S1 & S2 & S3 & S4).
    { unfold s1. destruct (Z.eqb_spec f (l_frame s)) as [Ef|Ef].
      - subst f. split; [reflexivity|]. split; [apply (i_0 _ _ I)|]. split; [apply (i_1 _ _ I)|reflexivity].
      - cbn [l_frame l_0 l_1 l_ab]. split; [reflexivity|]. split; [|split; [discriminate|reflexivity]]. intro q. split; [discriminate|]. intro Iq. exfalso.
        pose proof (i_frame _ _ I _ _ _ Iq) as L. destruct (i_last _ _ I) as [(-> & _)|(c' & p' & I')]; [destruct Iq|]. apply O in I'. lia. }
    assert (pair_step w h spacing a b s ((f, c), p) =
      if (c =? a)%Z then match l_0 s1 with Some _ => None | None => Some {| l_frame := l_frame s1; l_0 := Some p; l_1 := l_1 s1; l_ab := l_ab s1 |} end
      else if (c =? b)%Z then match l_0 s1 with None => Some s1 | Some q => match l_1 s1 with Some _ => None | None =>
         Some {| l_frame := l_frame s1; l_0 := l_0 s1; l_1 := Some p; l_ab := (l_ab s1 ++ combine (map (fun x => transform_point_Rt q x false) (board w h spacing)) (map (fun x => transform_point_Rt p x false) (board w h spacing)))%list |} end end
      else Some s1) as Estep by reflexivity.
    rewrite Estep. clear Estep.
    assert (obs = ((pre ++ [((f, c), p)]) ++ suf)%list) as E' by (rewrite <- app_assoc; exact E).
    assert (forall f' c' p', In ((f', c'), p') (pre ++ [((f, c), p)])%list <-> In ((f', c'), p') pre \/ (f' = f /\ c' = c /\ p' = p)) as Iapp.
    { intros. rewrite in_app_iff. cbn. split; [intros [H|[H|[]]]; [now left|right; inversion H; auto]|intros [H|(-> & -> & ->)]; auto]. }
    assert (forall f' c' p', In ((f', c'), p') (pre ++ [((f, c), p)])%list -> (f' <= f)%Z) as Ile.
    { intros f' c' p' H. apply Iapp in H. destruct H as [H|(-> & _)]; [apply O in H|]; lia. }
    destruct (Z.eqb_spec c a) as [Ca|Ca].
    + subst c. destruct (l_0 s1) as [q|] eqn:E0; [exfalso; pose proof (proj1 (S2 q) eq_refl) as X; apply O in X; lia|].
      apply (IH _ _ E'). constructor; cbn [l_frame l_0 l_1 l_ab]; rewrite ?S1, ?S4.
      * exact Ile.
      * right. exists a, p. apply Iapp. right. auto.
      * intro q. rewrite Iapp. split; [intro X; injection X as <-; right; auto|]. intros [X|(_ & _ & ->)]; [apply O in X; lia|reflexivity].
      * intros q X. apply Iapp. left. now apply S3.
      * exact (i_ab _ _ I).
      * intros f' p0 p1 X0 X1. apply Iapp in X0, X1. destruct X1 as [X1|(_ & X1 & _)]; [|lia]. destruct X0 as [X0|(-> & _ & ->)]; [exact (i_block _ _ I f' p0 p1 X0 X1)|]. apply O in X1. lia.
    + destruct (Z.eqb_spec c b) as [Cb|Cb].
      * subst c. destruct (l_0 s1) as [q|] eqn:E0.
        -- pose proof (proj1 (S2 q) eq_refl) as Iq. destruct (l_1 s1) as [r|] eqn:E1; [exfalso; pose proof (S3 r eq_refl) as X; apply O in X; lia|].
           assert (In ((f, a), q) obs) as Iqo by (rewrite E; apply in_or_app; now left).
           apply (IH _ _ E'). constructor; cbn [l_frame l_0 l_1 l_ab]; rewrite ?S1, ?S4.
           ++ exact Ile.
           ++ right. exists b, p. apply Iapp. right. auto.
           ++ intro r. rewrite Iapp. rewrite (S2 r). split; [intro X; now left|]. intros [X|(_ & X & _)]; [exact X|lia].
           ++ intros r X. injection X as <-. apply Iapp. right. auto.
           ++ intros x y X. apply in_app_or in X. destruct X as [X|X]; [exact (i_ab _ _ I x y X)|].
              apply in_combine_map in X. destruct X as (z & -> & ->). rewrite !C22_transform_is_action. rewrite (Hexact _ _ _ _ Iqo), (Hexact _ _ _ _ Io). reflexivity.
           ++ intros f' p0 p1 X0 X1. unfold block. rewrite map_app. apply Iapp in X0, X1. destruct X0 as [X0|(_ & X0 & _)]; [|lia]. destruct X1 as [X1|(-> & _ & ->)].
              ** apply three_app. exact (i_block _ _ I f' p0 p1 X0 X1).
              ** apply three_app_r. rewrite map_snd_combine by (now rewrite !map_length). rewrite (map_ext _ (act p)) by (intro; apply C22_transform_is_action). apply three_map. now apply board_three.
        -- apply (IH _ _ E'). constructor; rewrite ?S1, ?S4.
           ++ exact Ile.
           ++ right. exists b, p. apply Iapp. right. auto.
           ++ intro r. rewrite E0. split; [discriminate|]. intro X. apply Iapp in X. destruct X as [X|(_ & X & _)]; [|lia]. apply S2 in X. congruence.
           ++ intros r X. apply Iapp. left. now apply S3.
           ++ exact (i_ab _ _ I).
           ++ intros f' p0 p1 X0 X1. apply Iapp in X0, X1. destruct X0 as [X0|(_ & X0 & _)]; [|lia]. destruct X1 as [X1|(-> & _ & ->)]; [exact (i_block _ _ I f' p0 p1 X0 X1)|].
              apply S2 in X0. congruence.
      * apply (IH _ _ E'). constructor; rewrite ?S1, ?S4.
        -- exact Ile.
        -- right. exists c, p. apply Iapp. right. auto.
        -- intro r. rewrite (S2 r), Iapp. split; [now left|]. intros [X|(_ & X & _)]; [exact X|congruence].
        -- intros r X. apply Iapp. left. now apply S3.
        -- exact (i_ab _ _ I).
        -- intros f' p0 p1 X0 X1. apply Iapp in X0, X1. destruct X0 as [X0|(_ & X0 & _)]; [|congruence]. destruct X1 as [X1|(_ & X1 & _)]; [|congruence]. exact (i_block _ _ I f' p0 p1 X0 X1).
Qed.
Lemma pair_Rt_exact : (exists f, In (f, a) (map fst obs) /\ In (f, b) (map fst obs)) -> pair_Rt svd w h spacing obs a b = Some (comp (invert_Rt (T a)) (T b)).
Proof.
  intros (f & Ia & Ib). apply in_map_iff in Ia, Ib. destruct Ia as ((k0 & p0) & E0 & I0), Ib as ((k1 & p1) & E1 & I1). cbn [fst] in E0, E1. subst k0 k1.
  unfold pair_Rt. destruct (pair_ok obs [] {| l_frame := -1; l_0 := None; l_1 := None; l_ab := [] |} eq_refl) as (s & -> & I).
  { constructor; cbn; try tauto; try discriminate. intro p. split; [discriminate|intros []]. }
  pose proof (i_block _ _ I f p0 p1 I0 I1) as B.
  assert (fit svd (l_ab s) = Some (comp (invert_Rt (T a)) (T b))) as Fi.
  { apply (fit_D _ _ p1); [apply comp_proper; [apply inv_proper|]; apply HT|eapply obs_proper; exact I1| |exact B].
    intros x y X. rewrite comp_act, <- (i_ab _ _ I x y X). symmetry. now apply inv_act. }
  destruct (l_ab s) as [|x l]; [|exact Fi]. destruct B as (l0 & l1 & l2 & l3 & B). destruct l0; discriminate.
Qed.
End Pair.
Lemma pairwise_exact : forall a b, a <> b -> (exists f, In (f, a) (map fst obs) /\ In (f, b) (map fst obs)) ->
  compute_pairwise_Rt svd w h spacing obs a b = Some (comp (invert_Rt (T a)) (T b)).
Proof.
  intros a b N (f & Ia & Ib). unfold compute_pairwise_Rt. destruct (Z.gtb_spec a b) as [G|G].
  - rewrite (pair_Rt_exact b a) by (try lia; now exists f). cbn [option_map]. f_equal.
    assert (proper (comp (invert_Rt (T b)) (T a))) as P by (apply comp_proper; [apply inv_proper|]; apply HT).
    apply act_inj_R. intro x. rewrite comp_act. set (y := act (invert_Rt (T a)) (act (T b) x)).
    replace x with (act (comp (invert_Rt (T b)) (T a)) y); [now apply inv_act|].
    rewrite comp_act. unfold y. rewrite (proj2 (inv_act (T a) _ (HT a))). now apply inv_act.
  - destruct (Z.eqb_spec a b) as [X|X]; [contradiction|]. apply pair_Rt_exact; [lia|now exists f].
Qed.
End Exact.
