(** C91: polygon_difference() returns hole-free polygons that together cover, once, exactly the area that's inside the positive
    polygon and outside the negative one -- except the shapes that it warns about, which are left out. *)
From Coq Require Import Reals List Lia Lra Bool.
From Verif Require Import M_PolyDiff.
Import ListNotations.
Open Scope R_scope.

(** *** Specification: the even-odd rule and the boundary of a closed polyline *)
Definition cross (a b x : pt) : R := (fst b - fst a) * (snd x - snd a) - (snd b - snd a) * (fst x - fst a).
Definition le (a b : R) : bool := if Rle_dec a b then true else false.
Definition lt (a b : R) : bool := if Rlt_dec a b then true else false.
(** the ray from x towards +infinity along the first axis crosses the edge from a to b *)
Definition crosses (a b x : pt) : bool :=
  (le (snd a) (snd x) && lt (snd x) (snd b) && lt 0 (cross a b x)) || (le (snd b) (snd x) && lt (snd x) (snd a) && lt (cross a b x) 0).
Fixpoint inside (r : ring) (x : pt) : bool :=
  match r with
  | a :: ((b :: _) as rest) => xorb (crosses a b x) (inside rest x)
  | _ => false
  end.
Definition on_segment (a b x : pt) : Prop :=
  exists t, 0 <= t <= 1 /\ x = (fst a + t * (fst b - fst a), snd a + t * (snd b - snd a)).
Fixpoint on_ring (r : ring) (x : pt) : Prop :=
  match r with
  | a :: ((b :: _) as rest) => on_segment a b x \/ on_ring rest x
  | _ => False
  end.
(** a shape with holes *)
Definition covers (p : poly) (x : pt) : bool := inside (exterior p) x && forallb (fun h => negb (inside h x)) (interiors p).
Definition on_boundary (p : poly) (x : pt) : Prop := on_ring (exterior p) x \/ Exists (fun h => on_ring h x) (interiors p).
Definition one (b : bool) : nat := if b then 1 else 0.
Definition times {A} (f : A -> bool) (l : list A) : nat := length (filter f l).
Definition gcovers (g : geom) (x : pt) : bool := match g with GPolygon p => covers p x | _ => false end.
Definition gboundary (g : geom) (x : pt) : Prop := match g with GPolygon p => on_boundary p x | _ => False end.
(** the shapes gs cover each point of the area once; what's on their boundaries isn't looked at *)
Definition tiles (gs : list geom) (area : pt -> bool) (x : pt) : Prop :=
  ~ Exists (fun g => gboundary g x) gs -> times (fun g => gcovers g x) gs = one (area x).
Definition geoms (g : geom) : list geom := match g with GCollection gs => gs | GPolygon p => [g] | GOther => [] end.

Section Shapely.
Variable difference : ring -> ring -> geom.
Variable centroid : ring -> pt.
Variable split : poly -> pt -> pt -> list geom.
Notation remove_holes := (remove_holes centroid split).
Notation polygon_difference := (polygon_difference difference centroid split).

(** *** What is relied on of shapely.ops.split(): the pieces cover what was cut, once, and the boundary of what was cut remains
    a boundary *)
Definition split_ok := forall p a b x,
  tiles (split p a b) (covers p) x /\ (on_boundary p x -> Exists (fun g => gboundary g x) (split p a b)).
(** ... and of .difference() *)
Definition difference_ok (positive negative : ring) := forall x,
  ~ on_ring positive x -> ~ on_ring negative x ->
  tiles (geoms (difference positive negative)) (fun x => inside positive x && negb (inside negative x)) x.

Lemma times_app : forall A (f : A -> bool) a b, times f (a ++ b) = (times f a + times f b)%nat.
Proof. intros. unfold times. now rewrite filter_app, app_length. Qed.
Lemma times_cons : forall A (f : A -> bool) a l, times f (a :: l) = (one (f a) + times f l)%nat.
Proof. intros. unfold times. cbn [filter]. destruct (f a); reflexivity. Qed.

Definition clear (res : list ring) (ign : list poly) (x : pt) := (forall r, In r res -> ~ on_ring r x) /\ (forall p, In p ign -> ~ on_boundary p x).
Definition total (res : list ring) (ign : list poly) (x : pt) : nat := (times (fun r => inside r x) res + times (fun p => covers p x) ign)%nat.

Lemma glue2_inv : forall a b r w, glue2 a b = Some (r, w) ->
  exists r1 w1 r2 w2, a = Some (r1, w1) /\ b = Some (r2, w2) /\ r = r1 ++ r2 /\ w = w1 ++ w2.
Proof.
  intros [[r1 w1]|] [[r2 w2]|] r w E; cbn in E; try discriminate E. exists r1, w1, r2, w2.
  assert (r1 ++ r2 = r /\ w1 ++ w2 = w) as [<- <-] by (split; congruence). repeat split.
Qed.
Lemma first_cut_inv : forall p c vs s, first_cut split p c vs = Some s -> exists a b, s = split p a b /\ (1 < length s)%nat.
Proof.
  intros p c. induction vs as [|v vs IH]; intros s E; cbn [first_cut] in E; [discriminate|].
  destruct (Nat.ltb 1 (length (split p (extend v c) (extend c v)))) eqn:L; [|now apply IH].
  apply PeanoNat.Nat.ltb_lt in L. exists (extend v c), (extend c v).
  assert (s = split p (extend v c) (extend c v)) as -> by congruence. split; [reflexivity|exact L].
Qed.

Definition fine (fuel : nat) (g : geom) := forall res ign, remove_holes fuel g = Some (res, ign) ->
  forall x, clear res ign x -> ~ gboundary g x /\ total res ign x = one (gcovers g x).

Lemma fine_list : forall fuel, (forall g, fine fuel g) -> forall gs res ign,
  fold_right (fun g acc => glue2 (remove_holes fuel g) acc) (Some ([], [])) gs = Some (res, ign) ->
  forall x, clear res ign x -> ~ Exists (fun g => gboundary g x) gs /\ total res ign x = times (fun g => gcovers g x) gs.
Proof.
  intros fuel F. induction gs as [|g gs IH]; intros res ign E x C; cbn [fold_right] in E.
  - assert (res = [] /\ ign = []) as [-> ->] by (split; congruence). split; [intro Q; inversion Q|reflexivity].
  - destruct (glue2_inv _ _ _ _ E) as (r1 & w1 & r2 & w2 & E1 & E2 & -> & ->).
    assert (clear r1 w1 x /\ clear r2 w2 x) as [C1 C2].
    { destruct C as [Ca Cb]. split; split; intros y Iy; (apply Ca || apply Cb); apply in_or_app; tauto. }
    destruct (F g _ _ E1 x C1) as [B1 T1]. destruct (IH _ _ E2 x C2) as [B2 T2]. split.
    + intro Q. inversion Q; subst; contradiction.
    + unfold total in *. rewrite !times_app, times_cons. lia.
Qed.

Lemma all_fine : split_ok -> forall fuel g, fine fuel g.
Proof.
  intros OK. induction fuel as [|fuel IH]; intros g res ign E x C; [discriminate E|].
  cbn [M_PolyDiff.remove_holes] in E. destruct g as [[ext ints]|gs|]; try discriminate E. cbn [interiors exterior] in E.
  destruct ints as [|hole more].
  - destruct ext as [|e ext].
    + assert (res = [] /\ ign = []) as [-> ->] by (split; congruence).
      split; [intros [Q|Q]; [exact Q|inversion Q]|reflexivity].
    + assert (res = [e :: ext] /\ ign = []) as [-> ->] by (split; congruence). destruct C as [C _].
      split.
      * intros [Q|Q]; [|inversion Q]. exact (C _ (or_introl eq_refl) Q).
      * unfold total. rewrite times_cons. unfold times, gcovers, covers. cbn [filter length interiors exterior forallb].
        rewrite andb_true_r. lia.
  - set (p := Poly ext (hole :: more)) in *.
    destruct (first_cut split p (centroid hole) hole) as [s|] eqn:Fc.
    + destruct (first_cut_inv _ _ _ _ Fc) as (a & b & Es & _).
      destruct (fine_list fuel IH s res ign E x C) as [B T]. destruct (OK p a b x) as [Ti Bo]. rewrite <- Es in Ti, Bo.
      split; [intro Q; exact (B (Bo Q))|]. rewrite T. exact (Ti B).
    + assert (res = [] /\ ign = [p]) as [-> ->] by (split; congruence). destruct C as [_ C]. split; [apply C; now left|].
      unfold total. rewrite times_cons. unfold times. cbn [filter length gcovers]. lia.
Qed.

(** *** The theorems *)
(** the returned polygons, with the shapes warned about, cover each point of the difference once and nothing else *)
Theorem C91_tiles : forall fuel positive negative res ign, split_ok -> difference_ok positive negative ->
  polygon_difference fuel positive negative = Some (res, ign) ->
  forall x, ~ on_ring positive x -> ~ on_ring negative x ->
    (forall r, In r res -> ~ on_ring r x) -> (forall p, In p ign -> ~ on_boundary p x) ->
    (length (filter (fun r => inside r x) res) + length (filter (fun p => covers p x) ign))%nat
    = if inside positive x && negb (inside negative x) then 1%nat else 0%nat.
Proof.
  intros fuel pos neg res ign OK D E x Np Nn Cr Ci. unfold M_PolyDiff.polygon_difference in E. specialize (D x Np Nn). unfold tiles in D.
  pose proof (fine_list fuel (all_fine OK fuel)) as FL.
  destruct (difference pos neg) as [p|gs|] eqn:G; try discriminate E; cbn [geoms] in D;
    destruct (FL _ _ _ E x (conj Cr Ci)) as [B T]; specialize (D B); unfold total, times in T; unfold times in D; rewrite T; exact D.
Qed.

(** without a warning: inside the difference exactly one of the returned polygons has the point, elsewhere none *)
Theorem C91_exact : forall fuel positive negative res, split_ok -> difference_ok positive negative ->
  polygon_difference fuel positive negative = Some (res, []) ->
  forall x, ~ on_ring positive x -> ~ on_ring negative x -> (forall r, In r res -> ~ on_ring r x) ->
    ((inside positive x = true /\ inside negative x = false) <-> exists r, In r res /\ inside r x = true).
Proof.
  intros fuel pos neg res OK D E x Np Nn Cr.
  pose proof (C91_tiles fuel pos neg res [] OK D E x Np Nn Cr (fun p (F : In p []) => match F with end)) as T.
  cbn [filter length] in T. rewrite PeanoNat.Nat.add_0_r in T. split.
  - intros [A B]. rewrite A, B in T. cbn [andb negb] in T.
    destruct (filter (fun r => inside r x) res) as [|r l] eqn:Fl; [discriminate T|]. exists r. apply (filter_In (fun r => inside r x) r res). rewrite Fl. now left.
  - intros (r & Ir & In'). assert (In r (filter (fun r => inside r x) res)) as Q by (apply filter_In; now split).
    destruct (filter (fun r => inside r x) res); [destruct Q|]. cbn [length] in T.
    destruct (inside pos x), (inside neg x); cbn [andb negb] in T; try discriminate T. now split.
Qed.

(** a shape is warned about only if it has a hole, and no line from the center of its first hole to a vertex cuts it *)
Definition uncuttable (p : poly) := exists hole more, interiors p = hole :: more /\
  forall v, In v hole -> let c := centroid hole in
    let pieces := split p (fst v + 100 * (fst c - fst v), snd v + 100 * (snd c - snd v))
                        (fst c + 100 * (fst v - fst c), snd c + 100 * (snd v - snd c)) in (length pieces <= 1)%nat.
Lemma first_cut_none : forall p c vs, first_cut split p c vs = None -> forall v, In v vs -> (length (split p (extend v c) (extend c v)) <= 1)%nat.
Proof.
  intros p c. induction vs as [|v vs IH]; intros E w Iw; [destruct Iw|]. cbn [first_cut] in E.
  destruct (Nat.ltb 1 (length (split p (extend v c) (extend c v)))) eqn:L; [discriminate E|]. apply PeanoNat.Nat.ltb_ge in L.
  destruct Iw as [<- |Iw]; [exact L|now apply IH].
Qed.
Lemma warned : forall fuel g res ign, remove_holes fuel g = Some (res, ign) -> Forall uncuttable ign.
Proof.
  assert (forall fuel, (forall g res ign, remove_holes fuel g = Some (res, ign) -> Forall uncuttable ign) -> forall gs res ign,
    fold_right (fun g acc => glue2 (remove_holes fuel g) acc) (Some ([], [])) gs = Some (res, ign) -> Forall uncuttable ign) as L.
  { intros fuel F. induction gs as [|g gs IH]; intros res ign E; cbn [fold_right] in E.
    - assert (ign = []) as -> by congruence. constructor.
    - destruct (glue2_inv _ _ _ _ E) as (r1 & w1 & r2 & w2 & E1 & E2 & _ & ->). apply Forall_app. split; [now apply (F g r1)|now apply (IH r2)]. }
  induction fuel as [|fuel IH]; intros g res ign E; [discriminate E|]. cbn [M_PolyDiff.remove_holes] in E.
  destruct g as [[ext ints]|gs|]; try discriminate E. cbn [interiors exterior] in E. destruct ints as [|hole more].
  - destruct ext; assert (ign = []) as -> by congruence; constructor.
  - destruct (first_cut split (Poly ext (hole :: more)) (centroid hole) hole) as [s|] eqn:Fc; [exact (L fuel IH s res ign E)|].
    assert (ign = [Poly ext (hole :: more)]) as -> by congruence. constructor; [|constructor].
    exists hole, more. split; [reflexivity|]. exact (first_cut_none _ _ _ Fc).
Qed.
Theorem C91_warned : forall fuel positive negative res ign, polygon_difference fuel positive negative = Some (res, ign) ->
  forall p, In p ign -> uncuttable p.
Proof.
  intros fuel pos neg res ign E. apply Forall_forall.
  assert (forall gs res ign, fold_right (fun g acc => glue2 (remove_holes fuel g) acc) (Some ([], [])) gs = Some (res, ign) -> Forall uncuttable ign) as L.
  { induction gs as [|g gs IH]; intros r w Er; cbn [fold_right] in Er.
    - assert (w = []) as -> by congruence. constructor.
    - destruct (glue2_inv _ _ _ _ Er) as (r1 & w1 & r2 & w2 & E1 & E2 & _ & ->). apply Forall_app. split; [now apply (warned fuel g r1)|now apply (IH r2)]. }
  unfold M_PolyDiff.polygon_difference in E. destruct (difference pos neg); [exact (L _ _ _ E)|exact (L _ _ _ E)|discriminate E].
Qed.

(** it returns: if a cut that makes pieces leaves each piece with fewer holes than there were, recursion as deep as there are
    holes is enough *)
Definition holes (g : geom) : nat := match g with GPolygon p => length (interiors p) | _ => 0 end.
Definition is_polygon (g : geom) := exists p, g = GPolygon p.
Definition split_progress := forall p a b, (1 < length (split p a b))%nat ->
  Forall (fun g => is_polygon g /\ (holes g < length (interiors p))%nat) (split p a b).
Lemma finishes : split_progress -> forall fuel g, is_polygon g -> (holes g < fuel)%nat -> exists o, remove_holes fuel g = Some o.
Proof.
  intros P. induction fuel as [|fuel IH]; intros g [[ext ints] ->] H; [lia|]. cbn [holes interiors] in H.
  cbn [M_PolyDiff.remove_holes interiors exterior]. destruct ints as [|hole more]; [destruct ext; eexists; reflexivity|].
  destruct (first_cut split (Poly ext (hole :: more)) (centroid hole) hole) as [s|] eqn:Fc; [|eexists; reflexivity].
  destruct (first_cut_inv _ _ _ _ Fc) as (a & b & Es & Ls). pose proof (P (Poly ext (hole :: more)) a b) as Q. rewrite <- Es in Q.
  specialize (Q Ls). clear Es Ls Fc. induction Q as [|g gs [Ig Hg] _ IHs]; cbn [fold_right]; [eexists; reflexivity|].
  cbn [interiors] in Hg. destruct (IH g Ig) as [[r1 w1] E1]; [lia|]. destruct IHs as [[r2 w2] E2]. rewrite E1, E2. eexists. reflexivity.
Qed.
Theorem C91_finishes : forall fuel positive negative, split_progress ->
  difference positive negative <> GOther ->
  Forall (fun g => is_polygon g /\ (holes g < fuel)%nat) (geoms (difference positive negative)) ->
  exists res ign, polygon_difference fuel positive negative = Some (res, ign).
Proof.
  intros fuel pos neg P N A. unfold M_PolyDiff.polygon_difference.
  assert (forall gs, Forall (fun g => is_polygon g /\ (holes g < fuel)%nat) gs ->
    exists r w, fold_right (fun g acc => glue2 (remove_holes fuel g) acc) (Some ([], [])) gs = Some (r, w)) as L.
  { induction 1 as [|g gs [Ig Hg] _ (r2 & w2 & E2)]; cbn [fold_right]; [exists [], []; reflexivity|].
    destruct (finishes P fuel g Ig Hg) as [[r1 w1] E1]. rewrite E1, E2. eexists. eexists. reflexivity. }
  destruct (difference pos neg) as [p|gs|]; [|exact (L gs A)|now elim N]. exact (L _ A).
Qed.

(** *** A hole that's small compared to the shape around it makes polygon_difference() return nothing at all: the cutting line
    is only 100 times as long as the hole is wide.  All that is used of split() is that a cut that doesn't reach the outline of
    the shape doesn't make pieces. *)
Definition short_cuts := forall p a b, (forall x, on_segment a b x -> ~ on_ring (exterior p) x) -> (length (split p a b) <= 1)%nat.
Definition square (s : R) : ring := [(-s,-s); (s,-s); (s,s); (-s,s); (-s,-s)].
Theorem C91_small_hole_refuted : short_cuts ->
  let positive := square 1 in let negative := square (1/200) in
  difference positive negative = GPolygon (Poly positive [negative]) -> centroid negative = (0, 0) ->
  (forall fuel, (0 < fuel)%nat -> polygon_difference fuel positive negative = Some ([], [Poly positive [negative]])) /\
  inside positive (1/2, 0) = true /\ inside negative (1/2, 0) = false.
Proof.
  intros SC pos neg D Ce. split; [|split].
  - intros [|fuel] F; [lia|]. unfold M_PolyDiff.polygon_difference. rewrite D. cbn [fold_right M_PolyDiff.remove_holes interiors exterior].
    rewrite Ce.
    assert (forall v, fst v = 1/200 \/ fst v = -(1/200) -> snd v = 1/200 \/ snd v = -(1/200) ->
      Nat.ltb 1 (length (split (Poly pos [neg]) (extend v (0,0)) (extend (0,0) v))) = false) as N.
    { intros [vx vy] Hx Hy. apply PeanoNat.Nat.ltb_ge, SC. intros x (t & Ht & ->). cbn [fst snd extend exterior] in *.
      unfold pos, square. cbn [on_ring].
      intros [(u & Hu & E)|[(u & Hu & E)|[(u & Hu & E)|[(u & Hu & E)|[]]]]]; cbn [fst snd] in E;
        pose proof (f_equal fst E) as E1; pose proof (f_equal snd E) as E2; cbn [fst snd] in E1, E2;
        destruct Hx as [-> | ->], Hy as [-> | ->]; lra. }
    unfold neg at 2, square. cbn [first_cut]. rewrite !N by (cbn [fst snd]; lra). reflexivity.
  - unfold pos, square, inside, crosses, cross, le, lt. cbn [fst snd].
    repeat match goal with |- context [Rle_dec ?a ?b] => destruct (Rle_dec a b); try lra | |- context [Rlt_dec ?a ?b] => destruct (Rlt_dec a b); try lra end; reflexivity.
  - unfold neg, square, inside, crosses, cross, le, lt. cbn [fst snd].
    repeat match goal with |- context [Rle_dec ?a ?b] => destruct (Rle_dec a b); try lra | |- context [Rlt_dec ?a ?b] => destruct (Rlt_dec a b); try lra end; reflexivity.
Qed.

(** generally: the first hole is within r of its center, and the outline of the shape is further than 100 r away *)
Definition dist2 (a b : pt) : R := (fst a - fst b) * (fst a - fst b) + (snd a - snd b) * (snd a - snd b).
Theorem C91_small_hole : short_cuts -> forall fuel positive negative p hole more r,
  difference positive negative = GPolygon p -> interiors p = hole :: more ->
  (forall v, In v hole -> dist2 v (centroid hole) <= r * r) ->
  (forall x, on_ring (exterior p) x -> (100 * r) * (100 * r) < dist2 x (centroid hole)) ->
  polygon_difference (S fuel) positive negative = Some ([], [p]).
Proof.
  intros SC fuel pos neg p hole more r D Ih Hv Hx. unfold M_PolyDiff.polygon_difference. rewrite D.
  cbn [fold_right M_PolyDiff.remove_holes]. rewrite Ih. set (c := centroid hole) in *.
  assert (forall v, In v hole -> Nat.ltb 1 (length (split p (extend v c) (extend c v))) = false) as N.
  { intros v Iv. apply PeanoNat.Nat.ltb_ge, SC. intros x (t & Ht & E) Q. specialize (Hx x Q). specialize (Hv v Iv).
    assert (dist2 x c = (199 * t - 99) * (199 * t - 99) * dist2 v c) as Ed by (rewrite E; unfold dist2, extend; cbn [fst snd]; ring).
    assert ((199 * t - 99) * (199 * t - 99) <= 100 * 100) by nra.
    assert (0 <= dist2 v c) as Pd by (unfold dist2; apply Rplus_le_le_0_compat; apply Rle_0_sqr).
    assert ((199 * t - 99) * (199 * t - 99) * dist2 v c <= 100 * 100 * dist2 v c) by (apply Rmult_le_compat_r; lra).
    lra. }
  assert (forall vs, (forall v, In v vs -> In v hole) -> first_cut split p c vs = None) as Fc.
  { induction vs as [|v vs IH]; intros Sub; [reflexivity|]. cbn [first_cut]. rewrite (N v) by (apply Sub; now left). apply IH. intros w Iw. apply Sub. now right. }
  rewrite (Fc hole) by auto. reflexivity.
Qed.
End Shapely.

Print Assumptions C91_tiles.
Print Assumptions C91_exact.
Print Assumptions C91_warned.
Print Assumptions C91_finishes.
Print Assumptions C91_small_hole_refuted.
Print Assumptions C91_small_hole.

(** *** Examples.  A square with a square hole is cut into two, by the vertical line through the first vertex of the hole. *)
Definition ex_hole : ring := [(0,1); (-1,1); (-1,-1); (1,-1); (1,1); (0,1)].
Definition ex_p : poly := Poly (square 2) [ex_hole].
Definition ex_left : ring := [(-2,-2); (0,-2); (0,-1); (-1,-1); (-1,1); (0,1); (0,2); (-2,2); (-2,-2)].
Definition ex_right : ring := [(0,-2); (2,-2); (2,2); (0,2); (0,1); (1,1); (1,-1); (0,-1); (0,-2)].
Definition pt_dec (a b : pt) : {a = b} + {a <> b}.
Proof. destruct a as [a1 a2], b as [b1 b2]. destruct (Req_EM_T a1 b1) as [E|E]; [destruct (Req_EM_T a2 b2) as [F|F]|]; [left; congruence|right; congruence|right; congruence]. Defined.
Definition poly_dec (p q : poly) : {p = q} + {p <> q}.
Proof.
  destruct p as [e i], q as [e' i']. destruct (list_eq_dec pt_dec e e') as [E|E]; [|right; congruence].
  destruct (list_eq_dec (list_eq_dec pt_dec) i i') as [F|F]; [left; congruence|right; congruence].
Defined.
Definition ex_split (p : poly) (a b : pt) : list geom :=
  if poly_dec p ex_p then [GPolygon (Poly ex_left []); GPolygon (Poly ex_right [])] else [GPolygon p].
Definition ex_difference (positive negative : ring) : geom := GPolygon ex_p.
Definition ex_centroid (r : ring) : pt := (0, 0).

Lemma div01 : forall n d, 0 < d -> 0 <= n <= d -> 0 <= n / d <= 1.
Proof.
  intros n d D H. assert (n / d * d = n) as E by (field; lra). split; apply Rmult_le_reg_r with d; lra.
Qed.
Lemma segx : forall a1 a2 b1 b2 x, a2 = b2 -> snd x = a2 -> (a1 < b1 /\ a1 <= fst x <= b1 \/ b1 < a1 /\ b1 <= fst x <= a1) -> on_segment (a1,a2) (b1,b2) x.
Proof.
  intros a1 a2 b1 b2 [x1 x2] <- E H. cbn [fst snd] in *. subst x2. exists ((x1 - a1) / (b1 - a1)). cbn [fst snd]. split.
  - destruct H as [[L H]|[L H]].
    + apply div01; lra.
    + replace ((x1 - a1) / (b1 - a1)) with ((a1 - x1) / (a1 - b1)) by (field; lra). apply div01; lra.
  - f_equal; [field; lra|ring].
Qed.
Lemma segy : forall a1 a2 b1 b2 x, a1 = b1 -> fst x = a1 -> (a2 < b2 /\ a2 <= snd x <= b2 \/ b2 < a2 /\ b2 <= snd x <= a2) -> on_segment (a1,a2) (b1,b2) x.
Proof.
  intros a1 a2 b1 b2 [x1 x2] <- E H. cbn [fst snd] in *. subst x1. exists ((x2 - a2) / (b2 - a2)). cbn [fst snd]. split.
  - destruct H as [[L H]|[L H]].
    + apply div01; lra.
    + replace ((x2 - a2) / (b2 - a2)) with ((a2 - x2) / (a2 - b2)) by (field; lra). apply div01; lra.
  - f_equal; [ring|field; lra].
Qed.
Ltac pick := first [ apply segx; cbn [fst snd]; lra | apply segy; cbn [fst snd]; lra | left; pick | right; pick ].

Lemma ex_boundary : forall x, on_boundary ex_p x -> on_ring ex_left x \/ on_ring ex_right x.
Proof.
  intros x H. assert (on_ring (square 2) x \/ on_ring ex_hole x) as [Q|Q].
  { destruct H as [H|H]; [now left|right]. cbn [ex_p interiors] in H. inversion H as [? ? A|? ? A]; subst; [exact A|inversion A]. }
  - unfold square in Q. cbn [on_ring] in Q. unfold ex_left, ex_right. cbn [on_ring].
    repeat destruct Q as [Q|Q]; try contradiction; destruct Q as (t & Ht & ->); cbn [fst snd];
    (destruct (Rle_dec t (1/2)); pick).
  - unfold ex_hole in Q. cbn [on_ring] in Q. unfold ex_left, ex_right. cbn [on_ring].
    repeat destruct Q as [Q|Q]; try contradiction; destruct Q as (t & Ht & ->); cbn [fst snd];
    (destruct (Rle_dec t (1/2)); pick).
Qed.
Lemma ex_tile : forall x, (one (inside ex_left x) + one (inside ex_right x))%nat = one (covers ex_p x).
Proof.
  intros [x y]. unfold covers, ex_p. cbn [exterior interiors forallb].
  unfold ex_left, ex_right, ex_hole, square, inside, crosses, cross. cbn [fst snd]. unfold le, lt.
  assert (y < -2 \/ -2 <= y < -1 \/ -1 <= y < 1 \/ 1 <= y < 2 \/ 2 <= y) as Y by lra.
  repeat destruct Y as [Y|Y];
  (repeat match goal with
     | |- context [Rle_dec ?a y] => destruct (Rle_dec a y); try (exfalso; lra)
     | |- context [Rlt_dec y ?a] => destruct (Rlt_dec y a); try (exfalso; lra)
     end);
  cbn [andb orb xorb negb one Nat.add]; try reflexivity;
  (repeat match goal with |- context [Rlt_dec ?a ?b] => destruct (Rlt_dec a b); try (exfalso; lra) end);
  reflexivity.
Qed.

Lemma ex_split_ok : split_ok ex_split.
Proof.
  intros p a b x. unfold ex_split. destruct (poly_dec p ex_p) as [-> |N].
  - split.
    + intros _. rewrite !times_cons. cbn [gcovers]. unfold covers at 1 2. cbn [exterior interiors forallb]. rewrite !andb_true_r.
      rewrite <- ex_tile. unfold times. cbn [filter length]. lia.
    + intros B. destruct (ex_boundary x B) as [Q|Q]; [left|right; left]; left; exact Q.
  - split.
    + intros _. rewrite times_cons. cbn [gcovers]. unfold times. cbn [filter length]. lia.
    + intros B. left. exact B.
Qed.
Lemma ex_difference_ok : difference_ok ex_difference (square 2) ex_hole.
Proof.
  intros x _ _ _. unfold ex_difference, geoms. rewrite times_cons. unfold gcovers, covers, ex_p, exterior, interiors, forallb.
  destruct (inside (square 2) x), (inside ex_hole x); reflexivity.
Qed.
Example C91_example : split_ok ex_split /\ difference_ok ex_difference (square 2) ex_hole /\ split_progress ex_split /\
  polygon_difference ex_difference ex_centroid ex_split 2 (square 2) ex_hole = Some ([ex_left; ex_right], []).
Proof.
  split; [exact ex_split_ok|]. split; [exact ex_difference_ok|]. split.
  - intros p a b L. unfold ex_split in *. destruct (poly_dec p ex_p) as [-> |N]; [|cbn [length] in L; lia].
    repeat constructor; try (eexists; reflexivity); cbn; lia.
  - unfold polygon_difference, ex_difference. unfold fold_right at 1. unfold remove_holes at 1. cbn [interiors ex_p ex_hole first_cut].
    change (Poly (square 2) [[(0, 1); (-1, 1); (-1, -1); (1, -1); (1, 1); (0, 1)]]) with ex_p.
    unfold ex_split. destruct (poly_dec ex_p ex_p) as [_|N]; [|now elim N]. reflexivity.
Qed.
(** a split() that meets the hypotheses of C91_small_hole_refuted *)
Example C91_example_small_hole : let split (p : poly) (a b : pt) := [GPolygon p] in
  short_cuts split /\ split_ok split /\ (forall p, ex_centroid p = (0, 0)).
Proof.
  intros split. split; [intros p a b _; cbn; lia|]. split; [|reflexivity]. intros p a b x. split.
  - intros _. unfold split. rewrite times_cons. cbn [gcovers]. unfold times. cbn [filter length]. lia.
  - intros B. left. exact B.
Qed.
