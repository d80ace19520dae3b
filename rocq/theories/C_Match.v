(** C80: match_feature() reports the best of all placements in the search window, refined by a quadratic fit *)
From Coq Require Import String Reals ZArith List Bool Lra Lia Psatz.
From Verif Require Import S_Vec M_Match.
Import ListNotations.
Open Scope R_scope.

(** ** Specification *)
(** a placement of a template of size (w,h): its top-left pixel.  It lies inside the image, and no more than r from the placement (tx,ty) *)
Definition inside (img : image) (w h : Z) (p : Z * Z) : Prop :=
  (0 <= fst p /\ fst p + w <= iw img /\ 0 <= snd p /\ snd p + h <= ih img)%Z.
Definition allowed (img : image) (w h r tx ty : Z) (p : Z * Z) : Prop :=
  inside img w h p /\ (Z.abs (fst p - tx) <= r)%Z /\ (Z.abs (snd p - ty) <= r)%Z.
(** the score of a placement; the two SQDIFF methods look for the smallest score, the others for the largest *)
Definition at_placement (img : image) (w h : Z) (m : method) (T : list R) (p : Z * Z) : R := score m (patch img w h (fst p) (snd p)) T.
Definition smaller_is_better (m : method) : bool := match m with SQDIFF | SQDIFF_NORMED => true | _ => false end.
Definition no_better (m : method) (s best : R) : Prop := if smaller_is_better m then best <= s else s <= best.
Definition best_placement (img : image) (w h r tx ty : Z) (m : method) (T : list R) (b : Z * Z) : Prop :=
  allowed img w h r tx ty b /\
  forall p, allowed img w h r tx ty p -> no_better m (at_placement img w h m T p) (at_placement img w h m T b).
(** a quadratic function of the plane *)
Record quad := Q { k00 : R; k10 : R; k01 : R; k20 : R; k11 : R; k02 : R }.
Definition qval (c : quad) (x y : R) : R := k00 c + k10 c * x + k01 c * y + k20 c * (x * x) + k11 c * (x * y) + k02 c * (y * y).
(** the sum of the squared errors of c for the values f on the 3x3 grid *)
Definition err (c : quad) (f : Z -> Z -> R) : R :=
  let e i j := (qval c (IZR i) (IZR j) - f i j)² in
  e (-1)%Z (-1)%Z + e 0%Z (-1)%Z + e 1%Z (-1)%Z + e (-1)%Z 0%Z + e 0%Z 0%Z + e 1%Z 0%Z + e (-1)%Z 1%Z + e 0%Z 1%Z + e 1%Z 1%Z.
Definition best_fit (c : quad) (f : Z -> Z -> R) : Prop := forall c', err c f <= err c' f.
(** the only point where the gradient of c is 0 *)
Definition critical (c : quad) (x y : R) : Prop :=
  forall x' y', (k10 c + 2 * k20 c * x' + k11 c * y' = 0 /\ k01 c + k11 c * x' + 2 * k02 c * y' = 0) <-> (x' = x /\ y' = y).
(** np.linalg.lstsq() reports a least-squares solution *)
Definition residual2 (M : list (list R)) (z c : list R) : R := sumR (map (fun rz => (dotl (fst rz) c - snd rz)²) (combine M z)).
Definition lstsq_ok (lstsq : list (list R) -> list R -> option (list R)) : Prop :=
  forall M z c n, (forall row, In row M -> length row = n) -> M <> [] -> length z = length M -> lstsq M z = Some c ->
    length c = n /\ forall c', length c' = n -> residual2 M z c <= residual2 M z c'.
(** the template: the value of image0 at the points that the homography takes to the pixels of the template in image1 *)
Definition is_template (sample : image -> R * R -> R) (image0 : image) (H : m33) (w h tx ty : Z) (T : list R) (pts : list (R * R)) : Prop :=
  T = map (sample image0) pts /\ length pts = Z.to_nat (w * h) /\
  forall i j, (0 <= i < w)%Z -> (0 <= j < h)%Z ->
    homography H (nth (Z.to_nat (j * w + i)) pts (0, 0)) = Some (IZR (tx + i), IZR (ty + j)).

(** ** Lemmas: numbers, lists *)
Lemma rint_err x : Rabs (IZR (rint x) - x) <= 1 / 2.
Proof.
  unfold rint. pose proof (base_Int_part x) as [A B]. set (f := Int_part x) in *.
  assert (E : IZR (f + 1) = IZR f + 1) by (rewrite plus_IZR; reflexivity).
  destruct (Rlt_dec (x - IZR f) (1 / 2)) as [?|?]; [apply Rabs_le; lra|].
  destruct (Rlt_dec (1 / 2) (x - IZR f)) as [?|?]; [rewrite E; apply Rabs_le; lra|].
  destruct (Z.even f); [|rewrite E]; apply Rabs_le; lra.
Qed.

Lemma arg_from_spec (bt : R -> R -> bool) (T1 : forall a b c, bt b a = false -> bt c b = false -> bt c a = false)
  (T2 : forall a b, bt a b = true -> bt b a = false) :
  forall l all i ib best d,
    (forall n, nth (i + n) all d = nth n l d) -> (i + length l = length all)%nat -> (ib < i)%nat ->
    nth ib all d = best -> (forall n, (n < i)%nat -> bt (nth n all d) best = false) ->
    (forall a, bt a a = false) ->
    let k := arg_from bt l i ib best in
    (k < length all)%nat /\ forall n, (n < length all)%nat -> bt (nth n all d) (nth k all d) = false.
Proof.
  induction l as [|v l IH]; intros all i ib best d N L B V A Irr; cbn [arg_from].
  { cbn [length] in L. split; [lia|]. intros n Hn. rewrite V. apply A; lia. }
  assert (Ev : nth i all d = v) by (rewrite <- (Nat.add_0_r i); rewrite N; reflexivity).
  destruct (bt v best) eqn:E.
  - apply IH; auto; try lia.
    + intros n. replace (S i + n)%nat with (i + S n)%nat by lia. rewrite N. reflexivity.
    + cbn [length] in L. lia.
    + intros n Hn. destruct (Nat.eq_dec n i) as [-> | ?]; [rewrite Ev; apply Irr|].
      apply (T1 v best); [apply T2; exact E|apply A; lia].
  - apply IH; auto; try lia.
    + intros n. replace (S i + n)%nat with (i + S n)%nat by lia. rewrite N. reflexivity.
    + cbn [length] in L. lia.
    + intros n Hn. destruct (Nat.eq_dec n i) as [-> | ?]; [rewrite Ev; exact E|apply A; lia].
Qed.

Lemma rltb_spec a b : rltb a b = false <-> b <= a.
Proof. unfold rltb. destruct (Rlt_dec a b) as [?|?]; split; intros; try discriminate; try lra; reflexivity. Qed.

Lemma better_no_better m s b : better m s b = false <-> no_better m s b.
Proof. unfold better, no_better, smaller_is_better. destruct m; apply rltb_spec. Qed.

Lemma arg_opt_spec m l : l <> [] ->
  (arg_opt (better m) l < length l)%nat /\ forall n, (n < length l)%nat -> no_better m (nth n l 0) (nth (arg_opt (better m) l) l 0).
Proof.
  destruct l as [|v l]; [congruence|]. intros _. cbn [arg_opt].
  assert (IR : forall a, better m a a = false) by (intros a; apply better_no_better; unfold no_better; destruct (smaller_is_better m); lra).
  destruct (arg_from_spec (better m)) with (l := l) (all := v :: l) (i := 1%nat) (ib := 0%nat) (best := v) (d := 0) as [A B]; auto; try lia.
  - intros a b c. rewrite !better_no_better. unfold no_better. destruct (smaller_is_better m); lra.
  - intros a b Hb. apply better_no_better. unfold no_better. destruct m; cbn [better smaller_is_better] in *; unfold rltb in Hb; destruct (Rlt_dec _ _) in Hb; try discriminate; lra.
  - intros n Hn. assert (n = 0)%nat by lia. subst n. apply IR.
  - split; [exact A|]. intros n Hn. apply better_no_better. apply B. exact Hn.
Qed.

Lemma coords_length w h : length (coords w h) = Z.to_nat (w * h).
Proof. unfold coords. rewrite map_length, seq_length. reflexivity. Qed.

Lemma map_coords_nth {A} (f : Z * Z -> A) w h i j d : (0 <= i < w)%Z -> (0 <= j < h)%Z ->
  nth (Z.to_nat (j * w + i)) (map f (coords w h)) d = f (i, j).
Proof.
  intros Hi Hj. assert (L : (0 <= j * w + i < w * h)%Z) by nia.
  assert (Hlt : (Z.to_nat (j * w + i) < Z.to_nat (w * h))%nat) by lia.
  unfold coords. rewrite map_map.
  rewrite (nth_indep _ d (f (unravel w (Z.of_nat 0)))) by (rewrite map_length, seq_length; exact Hlt).
  rewrite (map_nth (fun k => f (unravel w (Z.of_nat k)))). rewrite seq_nth by exact Hlt. cbn [Nat.add]. f_equal. unfold unravel. rewrite Z2Nat.id by lia. f_equal.
  - rewrite Z.add_comm, Z.mod_add by lia. apply Z.mod_small; lia.
  - rewrite Z.add_comm, Z.div_add by lia. rewrite Z.div_small by lia. lia.
Qed.

Lemma unravel_range w h k : (0 < w)%Z -> (0 <= k < w * h)%Z ->
  let '(x, y) := unravel w k in ((0 <= x < w) /\ (0 <= y < h) /\ y * w + x = k)%Z.
Proof.
  intros W K. unfold unravel. pose proof (Z.mod_pos_bound k w W). pose proof (Z.div_mod k w ltac:(lia)).
  assert (0 <= k / w)%Z by (apply Z.div_pos; lia). assert (k / w < h)%Z by (apply Z.div_lt_upper_bound; lia). lia.
Qed.

Lemma all_some_spec {A} (l : list (option A)) r : all_some l = Some r -> l = map Some r.
Proof.
  revert r. induction l as [|[a|] l IH]; intros r Hl; cbn [all_some] in Hl; try discriminate.
  - injection Hl as <-. reflexivity.
  - destruct (all_some l) as [r'|] eqn:E; [|discriminate]. injection Hl as <-. cbn [map]. f_equal. apply IH. reflexivity.
Qed.

Lemma checkdims_spec w h l : checkdims w h l = None <-> forall q, In q l -> 0 <= fst q < IZR w /\ 0 <= snd q < IZR h.
Proof.
  induction l as [|q l IH]; cbn [checkdims In]; [split; [intros _ ? []|reflexivity]|].
  unfold outside. destruct (Rlt_dec (fst q) 0) as [?|?]; [split; [discriminate|intros Hq; specialize (Hq q (or_introl eq_refl)); lra]|].
  destruct (Rlt_dec (snd q) 0) as [?|?]; [split; [discriminate|intros Hq; specialize (Hq q (or_introl eq_refl)); lra]|].
  destruct (Rle_dec (IZR w) (fst q)) as [?|?]; [split; [discriminate|intros Hq; specialize (Hq q (or_introl eq_refl)); lra]|].
  destruct (Rle_dec (IZR h) (snd q)) as [?|?]; [split; [discriminate|intros Hq; specialize (Hq q (or_introl eq_refl)); lra]|].
  rewrite IH. split; [intros Hq q' [<- | ?]; [lra|apply Hq; assumption]|intros Hq q' ?; apply Hq; right; assumption].
Qed.

(** ** Homographies *)
Lemma minv_mv H v : det H <> 0 -> mv H (mv (minv H) v) = v.
Proof.
  intros D. destruct H as [a b c d e f g h i], v as [x y z]. unfold det in D. cbn [m00 m01 m02 m10 m11 m12 m20 m21 m22] in D.
  unfold minv, mv, det. cbn [m00 m01 m02 m10 m11 m12 m20 m21 m22 vx vy vz]. f_equal; field; exact D.
Qed.

Lemma mv_scale H k v : mv H (vscale k v) = vscale k (mv H v).
Proof. destruct H as [a b c d e f g h i], v as [x y z]. unfold mv, vscale. cbn [m00 m01 m02 m10 m11 m12 m20 m21 m22 vx vy vz]. f_equal; ring. Qed.

Lemma homography_back H p s : det H <> 0 -> homography (minv H) p = Some s -> homography H s = Some p.
Proof.
  intros D. unfold homography. destruct p as [x y]. cbn [fst snd].
  pose proof (minv_mv H (V3 x y 1) D) as B. destruct (mv (minv H) (V3 x y 1)) as [a b c] eqn:E. cbn [vx vy vz].
  destruct (Req_EM_T c 0) as [?|N]; [discriminate|]. intros Hs. injection Hs as <-. cbn [fst snd].
  replace (V3 (a / c) (b / c) 1) with (vscale (/ c) (V3 a b c)) by (unfold vscale; cbn [vx vy vz]; f_equal; field; exact N).
  rewrite mv_scale, B. unfold vscale. cbn [vx vy vz].
  destruct (Req_EM_T (/ c * 1) 0) as [Z0|_]; [exfalso; apply (Rinv_neq_0_compat c N); lra|].
  f_equal. f_equal; field; exact N.
Qed.

(** ** The quadratic fit *)
Definition fit (f : Z -> Z -> R) : quad :=
  let f i j := f i%Z j%Z in
  let a := f (-1)%Z (-1)%Z in let b := f 0%Z (-1)%Z in let c := f 1%Z (-1)%Z in
  let d := f (-1)%Z 0%Z in let e := f 0%Z 0%Z in let g := f 1%Z 0%Z in
  let h := f (-1)%Z 1%Z in let i := f 0%Z 1%Z in let j := f 1%Z 1%Z in
  Q ((5 * e + 2 * (b + d + g + i) - (a + c + h + j)) / 9)
    ((c + g + j - a - d - h) / 6) ((h + i + j - a - b - c) / 6)
    ((a + d + h + c + g + j) / 6 - (b + e + i) / 3) ((a + j - c - h) / 4) ((a + b + c + h + i + j) / 6 - (d + e + g) / 3).
Definition qsub (c c' : quad) : quad :=
  Q (k00 c - k00 c') (k10 c - k10 c') (k01 c - k01 c') (k20 c - k20 c') (k11 c - k11 c') (k02 c - k02 c').
Lemma pythagoras c f : err c f = err (fit f) f + err (qsub c (fit f)) (fun _ _ => 0).
Proof.
  unfold err, Rsqr, qval, qsub, fit. destruct c as [c00 c10 c01 c20 c11 c02]. cbn [k00 k10 k01 k20 k11 k02].
  generalize (f (-1)%Z (-1)%Z) (f 0%Z (-1)%Z) (f 1%Z (-1)%Z) (f (-1)%Z 0%Z) (f 0%Z 0%Z) (f 1%Z 0%Z) (f (-1)%Z 1%Z) (f 0%Z 1%Z) (f 1%Z 1%Z).
  intros. field.
Qed.
Lemma err_nonneg c f : 0 <= err c f.
Proof. unfold err. repeat apply Rplus_le_le_0_compat; apply Rle_0_sqr. Qed.
Lemma nine a b c d e f g h i : a² + b² + c² + d² + e² + f² + g² + h² + i² = 0 ->
  a = 0 /\ b = 0 /\ c = 0 /\ d = 0 /\ e = 0 /\ f = 0 /\ g = 0 /\ h = 0 /\ i = 0.
Proof.
  intros E. pose proof (Rle_0_sqr a). pose proof (Rle_0_sqr b). pose proof (Rle_0_sqr c). pose proof (Rle_0_sqr d). pose proof (Rle_0_sqr e).
  pose proof (Rle_0_sqr f). pose proof (Rle_0_sqr g). pose proof (Rle_0_sqr h). pose proof (Rle_0_sqr i).
  repeat split; apply Rsqr_eq_0; lra.
Qed.
Lemma err_zero c f : err c f = 0 -> forall i j, In (i, j) ij9 -> qval c (IZR i) (IZR j) = f i j.
Proof.
  unfold err. intros E i j I. apply nine in E. destruct E as (A0 & A1 & A2 & A3 & A4 & A5 & A6 & A7 & A8).
  unfold ij9 in I. cbn [In] in I.
  repeat destruct I as [I | I]; try (injection I as <- <-; lra). destruct I.
Qed.
Lemma err_only c : err c (fun _ _ => 0) = 0 -> c = Q 0 0 0 0 0 0.
Proof.
  intros E. pose proof (err_zero c _ E) as Z0. destruct c as [c00 c10 c01 c20 c11 c02].
  assert (forall i j, In (i, j) ij9 -> qval (Q c00 c10 c01 c20 c11 c02) (IZR i) (IZR j) = 0) as Z1 by (intros i j I; exact (Z0 i j I)).
  unfold qval in Z1. cbn [k00 k10 k01 k20 k11 k02] in Z1.
  pose proof (Z1 0%Z 0%Z ltac:(cbn; tauto)). pose proof (Z1 1%Z 0%Z ltac:(cbn; tauto)). pose proof (Z1 (-1)%Z 0%Z ltac:(cbn; tauto)).
  pose proof (Z1 0%Z 1%Z ltac:(cbn; tauto)). pose proof (Z1 0%Z (-1)%Z ltac:(cbn; tauto)). pose proof (Z1 1%Z 1%Z ltac:(cbn; tauto)).
  f_equal; lra.
Qed.
Lemma best_fit_is c f : best_fit c f -> c = fit f.
Proof.
  intros B. pose proof (B (fit f)) as B1. rewrite (pythagoras c f) in B1.
  assert (E : err (qsub c (fit f)) (fun _ _ => 0) = 0) by (pose proof (err_nonneg (qsub c (fit f)) (fun _ _ => 0)); lra).
  apply err_only in E. destruct c, (fit f). unfold qsub in E. cbn [k00 k10 k01 k20 k11 k02] in E. injection E as E0 E1 E2 E3 E4 E5. f_equal; lra.
Qed.
Lemma fit_best f : best_fit (fit f) f.
Proof. intros c'. rewrite (pythagoras c' f). pose proof (err_nonneg (qsub c' (fit f)) (fun _ _ => 0)). lra. Qed.
Lemma fit_exact c f : (forall i j, In (i, j) ij9 -> f i j = qval c (IZR i) (IZR j)) -> fit f = c.
Proof.
  intros E. symmetry. apply best_fit_is. intros c'. apply Rle_trans with 0; [|apply err_nonneg].
  right. unfold err. rewrite !E by (cbn; tauto). unfold Rsqr. ring.
Qed.
Lemma residual_err c00 c10 c01 c20 c11 c02 f :
  residual2 M9 (map (fun d => f (fst d) (snd d)) ij9) [c00; c10; c01; c20; c11; c02] = err (Q c00 c10 c01 c20 c11 c02) f.
Proof.
  unfold residual2, M9, xy9, ij9, dotl, err, qval. cbn [map combine fst snd sumR fold_right k00 k10 k01 k20 k11 k02]. unfold Rsqr. ring.
Qed.
Lemma lstsq_fit lstsq f c : lstsq_ok lstsq -> lstsq M9 (map (fun d => f (fst d) (snd d)) ij9) = Some c ->
  c = [k00 (fit f); k10 (fit f); k01 (fit f); k20 (fit f); k11 (fit f); k02 (fit f)].
Proof.
  intros OK L. destruct (OK M9 (map (fun d => f (fst d) (snd d)) ij9) c 6%nat) as [L6 Min]; auto.
  { intros row I. unfold M9, xy9 in I. cbn [map In] in I. repeat destruct I as [<- | I]; try reflexivity. destruct I. }
  { discriminate. }
  destruct c as [|c00 [|c10 [|c01 [|c20 [|c11 [|c02 [|]]]]]]]; try discriminate L6.
  assert (B : best_fit (Q c00 c10 c01 c20 c11 c02) f).
  { intros [a0 a1 a2 a3 a4 a5]. rewrite <- !residual_err. apply Min. reflexivity. }
  apply best_fit_is in B. rewrite <- B. reflexivity.
Qed.

(** ** The search *)
Lemma window_spec N r n t : (0 <= r -> 0 <= t -> t + n <= N -> 0 < n ->
  let '(a, b) := window N r n t in
  0 < b - a + 1 - n + 1 /\ forall x, a <= x < a + (b - a + 1 - n + 1) <-> (0 <= x /\ x + n <= N /\ Z.abs (x - t) <= r))%Z.
Proof.
  intros Hr Ht HN Hn. unfold window.
  destruct (Z.ltb_spec (t - r) 0)%Z; destruct (Z.ltb_spec (N - 1) (t + r + n - 1))%Z; (split; [lia|intros x; lia]).
Qed.

(** the match output: the scores of all the placements, in raster order *)
Definition is_output (img : image) (w h r tx ty : Z) (m : method) (T : list R) (mo : list R) (x0 y0 mw mh : Z) : Prop :=
  (0 < mw)%Z /\ (0 < mh)%Z /\
  (forall p, allowed img w h r tx ty p <-> (x0 <= fst p < x0 + mw)%Z /\ (y0 <= snd p < y0 + mh)%Z) /\
  length mo = Z.to_nat (mw * mh) /\
  forall i j, (0 <= i < mw)%Z -> (0 <= j < mh)%Z -> nth (Z.to_nat (j * mw + i)) mo 0 = at_placement img w h m T ((x0 + i)%Z, (y0 + j)%Z).

Lemma mt_cases lstsq img r m T w h tx ty e : (0 <= r)%Z -> (0 < w)%Z -> (0 < h)%Z -> inside img w h (tx, ty) ->
  exists x0 y0 mw mh px py mo, is_output img w h r tx ty m T mo x0 y0 mw mh /\
    (0 <= px < mw)%Z /\ (0 <= py < mh)%Z /\ best_placement img w h r tx ty m T ((x0 + px)%Z, (y0 + py)%Z) /\
    match_template lstsq img r m T w h tx ty e =
      if ((px <=? 0) || (py <=? 0) || (mw - 1 <=? px) || (mh - 1 <=? py))%Z then NoMatch mo
      else subpixel lstsq mo mw px py x0 y0 tx ty e.
Proof.
  intros Hr Hw Hh (I1 & I2 & I3 & I4). cbn [fst snd] in *. unfold match_template.
  pose proof (window_spec (iw img) r w tx Hr I1 I2 Hw) as Wx. pose proof (window_spec (ih img) r h ty Hr I3 I4 Hh) as Wy.
  destruct (window (iw img) r w tx) as [x0 x1], (window (ih img) r h ty) as [y0 y1].
  set (mw := (x1 - x0 + 1 - w + 1)%Z) in *. set (mh := (y1 - y0 + 1 - h + 1)%Z) in *. destruct Wx as [Mw Wx], Wy as [Mh Wy].
  replace ((mw <=? 0) || (mh <=? 0))%Z with false by (symmetry; apply orb_false_iff; split; apply Z.leb_gt; assumption).
  set (mo := map _ (coords mw mh)).
  assert (L : length mo = Z.to_nat (mw * mh)) by (unfold mo; rewrite map_length; apply coords_length).
  assert (OUT : is_output img w h r tx ty m T mo x0 y0 mw mh).
  { split; [exact Mw|]. split; [exact Mh|]. split.
    { intros p. unfold allowed, inside. rewrite Wx, Wy. tauto. }
    split; [exact L|]. intros i j Hi Hj. unfold mo. rewrite map_coords_nth by assumption. reflexivity. }
  assert (NE : mo <> []) by (intros E; rewrite E in L; cbn [length] in L; nia).
  destruct (arg_opt_spec m mo NE) as [A B]. set (k := arg_opt (better m) mo) in *.
  pose proof (unravel_range mw mh (Z.of_nat k) Mw ltac:(lia)) as U. destruct (unravel mw (Z.of_nat k)) as [px py]. destruct U as (Ux & Uy & Uk).
  exists x0, y0, mw, mh, px, py, mo. split; [exact OUT|]. split; [exact Ux|]. split; [exact Uy|]. split; [|reflexivity].
  destruct OUT as (_ & _ & AL & _ & V). split; [apply AL; cbn [fst snd]; lia|].
  intros [x y] Hp. apply AL in Hp. cbn [fst snd] in Hp. destruct Hp as [Hx Hy].
  rewrite <- (V px py Ux Uy). rewrite Uk, Nat2Z.id.
  replace (x, y) with ((x0 + (x - x0))%Z, (y0 + (y - y0))%Z) by (f_equal; lia).
  rewrite <- V by lia. apply B. nia.
Qed.

Lemma critical_sol c d : d = 4 * k20 c * k02 c - k11 c * k11 c -> d <> 0 ->
  critical c (- (2 * k10 c * k02 c - k01 c * k11 c) / d) (- (2 * k01 c * k20 c - k10 c * k11 c) / d).
Proof.
  intros Ed N x y. split.
  - intros [E1 E2]. split.
    + apply (Rmult_eq_reg_r d); [|exact N]. replace (- (2 * k10 c * k02 c - k01 c * k11 c) / d * d) with (- (2 * k10 c * k02 c - k01 c * k11 c)) by (field; exact N).
      rewrite Ed. assert (Hx : 2 * k02 c * (k10 c + 2 * k20 c * x + k11 c * y) - k11 c * (k01 c + k11 c * x + 2 * k02 c * y) = 0) by (rewrite E1, E2; ring). lra.
    + apply (Rmult_eq_reg_r d); [|exact N]. replace (- (2 * k01 c * k20 c - k10 c * k11 c) / d * d) with (- (2 * k01 c * k20 c - k10 c * k11 c)) by (field; exact N).
      rewrite Ed. assert (Hx : 2 * k20 c * (k01 c + k11 c * x + 2 * k02 c * y) - k11 c * (k10 c + 2 * k20 c * x + k11 c * y) = 0) by (rewrite E1, E2; ring). lra.
  - intros [-> ->]. subst d. split; field; exact N.
Qed.

(** the arguments: the size of the template, the homography, the estimate of q1, the method *)
Definition resolves (q0 : R * R) (ts : tsize) (q1_estimate : option (R * R)) (H10 : option m33) (meth : option method)
  (w h : Z) (H : m33) (e : R * R) (m : method) : Prop :=
  (ts = TScalar w /\ h = w \/ ts = TSeq [w; h]) /\ (meth = Some m \/ meth = None /\ m = CCORR_NORMED) /\
  (H10 = Some H /\ q1_estimate = None /\ homography H q0 = Some e \/
   H10 = None /\ q1_estimate = Some e /\ forall q, homography H q = Some (fst q + (fst e - fst q0), snd q + (snd e - snd q0))).

Definition is_raise (x : mres) : Prop := match x with Raise _ | Undef => True | _ => False end.

Lemma mf_cases sample lstsq image0 image1 q0 r ts q1_estimate H10 meth :
  let res := match_feature sample lstsq image0 image1 q0 r ts q1_estimate H10 meth in
  ~ is_raise res ->
  exists w h H e m tx ty T pts, resolves q0 ts q1_estimate H10 meth w h H e m /\ (0 < w)%Z /\ (0 < h)%Z /\
    Rabs (IZR tx + (IZR w - 1) / 2 - fst e) <= 1 / 2 /\ Rabs (IZR ty + (IZR h - 1) / 2 - snd e) <= 1 / 2 /\
    inside image1 w h (tx, ty) /\ is_template sample image0 H w h tx ty T pts /\
    (det H <> 0 /\ forall i j, (i = 0 \/ i = w - 1)%Z -> (j = 0 \/ j = h - 1)%Z ->
       let s := nth (Z.to_nat (j * w + i)) pts (0, 0) in 0 <= fst s < IZR (iw image0) /\ 0 <= snd s < IZR (ih image0)) /\
    res = match_template lstsq image1 r m T w h tx ty e.
Proof.
  intros res. unfold res, match_feature. clear res.
  destruct (size2 ts) as [[w h]|] eqn:S2; [|intros N; exfalso; apply N; exact Logic.I].
  assert (Sz : (ts = TScalar w /\ h = w \/ ts = TSeq [w; h]) /\ (0 < w)%Z /\ (0 < h)%Z).
  { unfold size2 in S2. destruct ts as [n|[|n [|n' [|]]]]; try discriminate.
    - destruct (Z.ltb_spec 0 n)%Z; [|discriminate]. cbn [andb] in S2. injection S2 as <- <-. auto.
    - destruct (Z.ltb_spec 0 n)%Z; [|discriminate]. destruct (Z.ltb_spec 0 n')%Z; [|discriminate]. cbn [andb] in S2. injection S2 as <- <-. auto. }
  destruct Sz as (Sz & Hw & Hh). set (m := match meth with Some m => m | None => CCORR_NORMED end).
  assert (Hm : meth = Some m \/ meth = None /\ m = CCORR_NORMED) by (unfold m; destruct meth; auto).
  assert (G : forall H e, resolves q0 ts q1_estimate H10 meth w h H e m -> ~ is_raise (with_homography sample lstsq image0 image1 r w h m H e) ->
    exists tx ty T pts, (Rabs (IZR tx + (IZR w - 1) / 2 - fst e) <= 1 / 2 /\ Rabs (IZR ty + (IZR h - 1) / 2 - snd e) <= 1 / 2) /\
    inside image1 w h (tx, ty) /\ is_template sample image0 H w h tx ty T pts /\
    (det H <> 0 /\ forall i j, (i = 0 \/ i = w - 1)%Z -> (j = 0 \/ j = h - 1)%Z ->
       let s := nth (Z.to_nat (j * w + i)) pts (0, 0) in 0 <= fst s < IZR (iw image0) /\ 0 <= snd s < IZR (ih image0)) /\
    with_homography sample lstsq image0 image1 r w h m H e = match_template lstsq image1 r m T w h tx ty e).
  { intros H e _. unfold with_homography.
    pose proof (rint_err (fst e - (IZR w - 1) / 2)) as Ex. pose proof (rint_err (snd e - (IZR h - 1) / 2)) as Ey.
    set (tx := rint (fst e - (IZR w - 1) / 2)) in *. set (ty := rint (snd e - (IZR h - 1) / 2)) in *.
    destruct (checkdims (iw image1) _ _) eqn:C1; [intros N; exfalso; apply N; exact Logic.I|].
    destruct (Req_EM_T (det H) 0) as [?|D]; [intros N; exfalso; apply N; exact Logic.I|].
    destruct (all_some (map _ (coords w h))) as [pts|] eqn:AP; [|intros N; exfalso; apply N; exact Logic.I].
    destruct (all_some [_; _; _; _]) as [corners|] eqn:AC; [|intros N; exfalso; apply N; exact Logic.I].
    destruct (checkdims (iw image0) _ _) eqn:C0; [intros N; exfalso; apply N; exact Logic.I|]. intros _.
    apply all_some_spec in AP, AC. rewrite checkdims_spec in C1, C0.
    assert (PT : forall i j, (0 <= i < w)%Z -> (0 <= j < h)%Z ->
       homography (minv H) (IZR (tx + i), IZR (ty + j)) = Some (nth (Z.to_nat (j * w + i)) pts (0, 0))).
    { intros i j Hi Hj. pose proof (f_equal (fun l => nth (Z.to_nat (j * w + i)) l None) AP) as EN. cbn beta in EN.
      rewrite map_coords_nth in EN by assumption. cbn [fst snd] in EN. rewrite EN.
      assert (LP : length pts = Z.to_nat (w * h)) by (pose proof (f_equal (@length _) AP) as EL; rewrite !map_length, coords_length in EL; symmetry; exact EL).
      rewrite (nth_indep _ None (Some (0, 0))) by (rewrite map_length, LP; nia). apply map_nth. }
    exists tx, ty, (map (sample image0) pts), pts. split; [|split; [|split; [|split; [|reflexivity]]]].
    - split; [replace (IZR tx + (IZR w - 1) / 2 - fst e) with (IZR tx - (fst e - (IZR w - 1) / 2)) by ring; exact Ex|].
      replace (IZR ty + (IZR h - 1) / 2 - snd e) with (IZR ty - (snd e - (IZR h - 1) / 2)) by ring; exact Ey.
    - pose proof (C1 _ (or_introl eq_refl)) as P1. pose proof (C1 _ (or_intror (or_introl eq_refl))) as P2. cbn [fst snd] in P1, P2.
      destruct P1 as [[P1 _] [P3 _]], P2 as [[_ P2] [_ P4]]. apply le_IZR in P1, P3. apply lt_IZR in P2, P4. unfold inside. cbn [fst snd]. lia.
    - split; [reflexivity|]. split; [pose proof (f_equal (@length _) AP) as EL; rewrite !map_length, coords_length in EL; symmetry; exact EL|].
      intros i j Hi Hj. apply homography_back; [exact D|]. apply PT; assumption.
    - split; [exact D|]. intros i j Hi Hj. apply C0. assert (In (Some (nth (Z.to_nat (j * w + i)) pts (0, 0))) (map Some corners)) as IN.
      { rewrite <- AC. rewrite <- (PT i j) by lia. cbn [In]. destruct Hi as [-> | ->], Hj as [-> | ->]; tauto. }
      apply in_map_iff in IN. destruct IN as (q & Eq & IN). injection Eq as <-. exact IN. }
  destruct q1_estimate as [e|], H10 as [H|]; try (intros N; exfalso; apply N; exact Logic.I).
  - set (H := M33 1 0 (fst e - fst q0) 0 1 (snd e - snd q0) 0 0 1). intros N.
    assert (RS : resolves q0 ts (Some e) None meth w h H e m).
    { split; [exact Sz|]. split; [exact Hm|]. right. split; [reflexivity|]. split; [reflexivity|]. intros [x y]. unfold homography, mv, H.
      cbn [m00 m01 m02 m10 m11 m12 m20 m21 m22 vx vy vz fst snd]. destruct (Req_EM_T _ 0) as [E0|_]; [exfalso; lra|]. f_equal. f_equal; field. }
    destruct (G H e RS N) as (tx & ty & T & pts & (A1 & A2) & A3 & A4 & A5 & A6).
    exists w, h, H, e, m, tx, ty, T, pts. split; [exact RS|split; [exact Hw|split; [exact Hh|split; [exact A1|split; [exact A2|split; [exact A3|split; [exact A4|split; [exact A5|exact A6]]]]]]]].
  - destruct (homography H q0) as [e|] eqn:HE; [|intros N; exfalso; apply N; exact Logic.I]. intros N.
    assert (RS : resolves q0 ts None (Some H) meth w h H e m) by (split; [exact Sz|]; split; [exact Hm|]; left; auto).
    destruct (G H e RS N) as (tx & ty & T & pts & (A1 & A2) & A3 & A4 & A5 & A6).
    exists w, h, H, e, m, tx, ty, T, pts. split; [exact RS|split; [exact Hw|split; [exact Hh|split; [exact A1|split; [exact A2|split; [exact A3|split; [exact A4|split; [exact A5|exact A6]]]]]]]].
Qed.

(** the match: the placement b has the best score of all the placements in the search window, and so have its 8 neighbors a score.
    The reported pixel is the estimate, moved by the whole pixels from the placement of the template to b, and by the critical point of the
    quadratic function that fits the 9 scores best *)
Theorem C80_match sample lstsq image0 image1 q0 r ts q1_estimate H10 meth q1 mo at_ opt :
  lstsq_ok lstsq -> (0 <= r)%Z ->
  match_feature sample lstsq image0 image1 q0 r ts q1_estimate H10 meth = Match q1 mo at_ opt ->
  exists w h H e m tx ty T pts b c sx sy x0 y0 mw mh,
    resolves q0 ts q1_estimate H10 meth w h H e m /\ (0 < w)%Z /\ (0 < h)%Z /\
    Rabs (IZR tx + (IZR w - 1) / 2 - fst e) <= 1 / 2 /\ Rabs (IZR ty + (IZR h - 1) / 2 - snd e) <= 1 / 2 /\
    inside image1 w h (tx, ty) /\ is_template sample image0 H w h tx ty T pts /\
    best_placement image1 w h r tx ty m T b /\
    let near i j := ((fst b + i)%Z, (snd b + j)%Z) in
    (forall i j, In (i, j) ij9 -> allowed image1 w h r tx ty (near i j)) /\
    best_fit c (fun i j => at_placement image1 w h m T (near i j)) /\ critical c sx sy /\
    q1 = (fst e + IZR (fst b - tx) + sx, snd e + IZR (snd b - ty) + sy) /\
    is_output image1 w h r tx ty m T mo x0 y0 mw mh /\ at_ = (IZR (fst b - x0) + sx, IZR (snd b - y0) + sy) /\ opt = qval c sx sy.
Proof.
  intros OK Hr E. destruct (mf_cases sample lstsq image0 image1 q0 r ts q1_estimate H10 meth) as (w & h & H & e & m & tx & ty & T & pts & A1 & A2 & A3 & A4 & A5 & A6 & A7 & _ & A8).
  { rewrite E. intros []. }
  destruct (mt_cases lstsq image1 r m T w h tx ty e Hr A2 A3 A6) as (x0 & y0 & mw & mh & px & py & mo' & B1 & B2 & B3 & B4 & B5).
  rewrite A8, B5 in E. destruct ((px <=? 0) || (py <=? 0) || (mw - 1 <=? px) || (mh - 1 <=? py))%Z eqn:Edge; [discriminate|].
  apply orb_false_iff in Edge. destruct Edge as [Edge E4]. apply orb_false_iff in Edge. destruct Edge as [Edge E3]. apply orb_false_iff in Edge. destruct Edge as [E1 E2].
  apply Z.leb_gt in E1, E2, E3, E4.
  set (f := fun i j => at_placement image1 w h m T ((x0 + px + i)%Z, (y0 + py + j)%Z)).
  pose proof B1 as (M1 & M2 & AL & ML & V).
  assert (Ez : map (fun d => nth (Z.to_nat ((py + snd d) * mw + (px + fst d))) mo' 0) ij9 = map (fun d => f (fst d) (snd d)) ij9).
  { apply map_ext_in. intros [i j] I. cbn [fst snd].
    assert (-1 <= i <= 1 /\ -1 <= j <= 1)%Z by (unfold ij9 in I; cbn [In] in I; repeat destruct I as [I | I]; try (injection I as <- <-; lia); destruct I).
    rewrite V by lia. unfold f. rewrite !Z.add_assoc. reflexivity. }
  unfold subpixel in E. rewrite Ez in E. destruct (lstsq M9 _) as [c|] eqn:LS; [|discriminate].
  apply lstsq_fit in LS; [|exact OK]. subst c. pose proof (fit_best f) as FB. set (c := fit f) in *. clearbody c.
  destruct (Req_EM_T _ 0) as [?|ND] in E; [discriminate|].
  exists w, h, H, e, m, tx, ty, T, pts, ((x0 + px)%Z, (y0 + py)%Z), c,
    (- (2 * k10 c * k02 c - k01 c * k11 c) / (4 * k20 c * k02 c - k11 c * k11 c)),
    (- (2 * k01 c * k20 c - k10 c * k11 c) / (4 * k20 c * k02 c - k11 c * k11 c)), x0, y0, mw, mh.
  injection E as Eq Emo Eat Eopt.
  split; [exact A1|]. split; [exact A2|]. split; [exact A3|]. split; [exact A4|]. split; [exact A5|]. split; [exact A6|]. split; [exact A7|]. split; [exact B4|].
  cbv zeta. cbn [fst snd] in *. split.
  { intros i j I. apply AL. cbn [fst snd].
    assert (-1 <= i <= 1 /\ -1 <= j <= 1)%Z by (unfold ij9 in I; cbn [In] in I; repeat destruct I as [I | I]; try (injection I as <- <-; lia); destruct I). lia. }
  split; [exact FB|]. split; [apply critical_sol; [reflexivity|exact ND]|].
  split. { rewrite <- Eq. rewrite !minus_IZR, !plus_IZR. f_equal; ring. }
  split. { subst mo. exact B1. }
  split. { rewrite <- Eat. rewrite !minus_IZR, !plus_IZR. f_equal; ring. }
  rewrite <- Eopt. unfold qval. ring.
Qed.
Print Assumptions C80_match.

(** no match: the best placement is at the edge of the search window (or np.linalg.lstsq() failed) *)
Theorem C80_no_match sample lstsq image0 image1 q0 r ts q1_estimate H10 meth mo :
  (0 <= r)%Z -> (forall z, lstsq M9 z <> None) ->
  match_feature sample lstsq image0 image1 q0 r ts q1_estimate H10 meth = NoMatch mo ->
  exists w h H e m tx ty T pts b i j,
    resolves q0 ts q1_estimate H10 meth w h H e m /\ inside image1 w h (tx, ty) /\ is_template sample image0 H w h tx ty T pts /\
    best_placement image1 w h r tx ty m T b /\ (Z.abs i + Z.abs j = 1)%Z /\ ~ allowed image1 w h r tx ty ((fst b + i)%Z, (snd b + j)%Z).
Proof.
  intros Hr OK E. destruct (mf_cases sample lstsq image0 image1 q0 r ts q1_estimate H10 meth) as (w & h & H & e & m & tx & ty & T & pts & A1 & A2 & A3 & A4 & A5 & A6 & A7 & _ & A8).
  { rewrite E. intros []. }
  destruct (mt_cases lstsq image1 r m T w h tx ty e Hr A2 A3 A6) as (x0 & y0 & mw & mh & px & py & mo' & B1 & B2 & B3 & B4 & B5).
  rewrite A8, B5 in E. pose proof B1 as (M1 & M2 & AL & ML & V).
  destruct ((px <=? 0) || (py <=? 0) || (mw - 1 <=? px) || (mh - 1 <=? py))%Z eqn:Edge.
  2:{ unfold subpixel in E. destruct (lstsq M9 _) as [[|c00 [|c10 [|c01 [|c20 [|c11 [|c02 [|]]]]]]]|] eqn:LS; try discriminate; [|exfalso; exact (OK _ LS)].
      destruct (Req_EM_T _ 0) in E; discriminate. }
  assert (EX : exists i j, (Z.abs i + Z.abs j = 1)%Z /\ ~ allowed image1 w h r tx ty ((x0 + px + i)%Z, (y0 + py + j)%Z)).
  { apply orb_true_iff in Edge. destruct Edge as [Edge | E4]; [apply orb_true_iff in Edge; destruct Edge as [Edge | E3]; [apply orb_true_iff in Edge; destruct Edge as [E1 | E2]|]|].
    - apply Z.leb_le in E1. exists (-1)%Z, 0%Z. split; [reflexivity|]. rewrite AL. cbn [fst snd]. lia.
    - apply Z.leb_le in E2. exists 0%Z, (-1)%Z. split; [reflexivity|]. rewrite AL. cbn [fst snd]. lia.
    - apply Z.leb_le in E3. exists 1%Z, 0%Z. split; [reflexivity|]. rewrite AL. cbn [fst snd]. lia.
    - apply Z.leb_le in E4. exists 0%Z, 1%Z. split; [reflexivity|]. rewrite AL. cbn [fst snd]. lia. }
  destruct EX as (i & j & X1 & X2).
  exists w, h, H, e, m, tx, ty, T, pts, ((x0 + px)%Z, (y0 + py)%Z), i, j. cbn [fst snd]. tauto.
Qed.
Print Assumptions C80_no_match.

(** ** What the best score means *)
Lemma combine_len_ind (Pr : list R -> list R -> Prop) : Pr [] [] -> (forall p t P T, length P = length T -> Pr P T -> Pr (p :: P) (t :: T)) ->
  forall P T, length P = length T -> Pr P T.
Proof. intros H0 H1. induction P as [|p P IH]; intros [|t T] L; try discriminate; [exact H0|]. injection L as L. apply H1; auto. Qed.

Lemma dotl_cons p t P T : dotl (p :: P) (t :: T) = p * t + dotl P T. Proof. reflexivity. Qed.
Lemma sqdl_cons p t P T : sqdl (p :: P) (t :: T) = (p - t) * (p - t) + sqdl P T. Proof. reflexivity. Qed.
Lemma dotl_self_nonneg P : 0 <= dotl P P.
Proof. induction P as [|p P IH]; [cbn; lra|]. rewrite dotl_cons. pose proof (Rle_0_sqr p) as S1. unfold Rsqr in S1. lra. Qed.
Lemma sqdl_nonneg P T : 0 <= sqdl P T.
Proof.
  revert T. induction P as [|p P IH]; intros [|t T]; try (cbn; lra). rewrite sqdl_cons. pose proof (Rle_0_sqr (p - t)) as S1. unfold Rsqr in S1. specialize (IH T). lra.
Qed.
Lemma sqdl_self T : sqdl T T = 0.
Proof. induction T as [|t T IH]; [reflexivity|]. rewrite sqdl_cons, IH. ring. Qed.
Lemma sqdl_zero P T : length P = length T -> sqdl P T = 0 -> P = T.
Proof.
  revert P T. apply (combine_len_ind (fun P T => sqdl P T = 0 -> P = T)); [reflexivity|]. intros p t P T _ IH E. rewrite sqdl_cons in E.
  pose proof (Rle_0_sqr (p - t)) as S1. pose proof (sqdl_nonneg P T). assert (S2 : (p - t)² = 0) by (unfold Rsqr in *; lra).
  apply Rsqr_eq_0 in S2. f_equal; [lra|apply IH; unfold Rsqr in *; lra].
Qed.
Lemma sqdl_scaled c b P T : length P = length T ->
  sqdl (map (Rmult c) P) (map (Rmult b) T) = c * c * dotl P P - 2 * c * b * dotl P T + b * b * dotl T T.
Proof.
  revert P T. apply (combine_len_ind (fun P T => sqdl (map (Rmult c) P) (map (Rmult b) T) = c * c * dotl P P - 2 * c * b * dotl P T + b * b * dotl T T)); [cbn; ring|].
  intros p t P T _ IH. cbn [map]. rewrite sqdl_cons, !dotl_cons, IH. ring.
Qed.

Lemma ratio_best P T : length P = length T -> 0 < dotl T T ->
  1 <= ratio (dotl P T) (sqrt (dotl P P * dotl T T)) 0 -> exists k, 0 < k /\ P = map (Rmult k) T.
Proof.
  intros L C B. set (a := dotl P P) in *. set (n := dotl P T) in *. set (c := dotl T T) in *.
  assert (A0 : 0 <= a) by apply dotl_self_nonneg.
  unfold ratio in B. destruct (Rlt_dec 0 (sqrt (a * c))) as [D|D]; [|lra].
  assert (N : sqrt (a * c) <= n).
  { destruct (Rlt_dec (sqrt (a * c)) n) as [?|?]; [lra|]. apply (Rmult_le_compat_r (sqrt (a * c))) in B; [|lra].
    replace (n / sqrt (a * c) * sqrt (a * c)) with n in B by (field; lra). lra. }
  assert (S2 : sqrt (a * c) * sqrt (a * c) = a * c) by (apply sqrt_sqrt; apply Rmult_le_pos; lra).
  assert (N2 : a * c <= n * n) by (rewrite <- S2; apply Rmult_le_compat; lra).
  assert (Z0 : sqdl (map (Rmult c) P) (map (Rmult n) T) = 0).
  { apply Rle_antisym; [|apply sqdl_nonneg]. rewrite sqdl_scaled by exact L. fold a n c.
    replace (c * c * a - 2 * c * n * n + n * n * c) with (c * (a * c - n * n)) by ring. 
    apply (Rmult_le_compat_l c) in N2; [|lra]. lra. }
  apply sqdl_zero in Z0; [|rewrite !map_length; exact L].
  exists (n / c). split; [apply Rdiv_lt_0_compat; lra|].
  transitivity (map (Rmult (/ c)) (map (Rmult c) P)).
  - rewrite map_map. rewrite <- (map_id P) at 1. apply map_ext. intros x. field. lra.
  - rewrite Z0, map_map. apply map_ext. intros x. field. lra.
Qed.
Lemma ratio_self T : 0 < dotl T T -> ratio (dotl T T) (sqrt (dotl T T * dotl T T)) 0 = 1.
Proof.
  intros C. rewrite sqrt_square by lra. unfold ratio. destruct (Rlt_dec 0 (dotl T T)) as [_|?]; [|lra].
  destruct (Rlt_dec (dotl T T) (dotl T T)) as [?|_]; [lra|]. field. lra.
Qed.
Lemma patch_length img w h x y : length (patch img w h x y) = Z.to_nat (w * h).
Proof. unfold patch. rewrite map_length. apply coords_length. Qed.

(** if the template appears somewhere in the search window then the normalized methods and SQDIFF select a placement where it appears:
    exactly, up to the brightness (CCORR_NORMED), or up to brightness and offset (CCOEFF_NORMED).
    CCORR_NORMED and CCOEFF_NORMED can't tell these apart *)
Theorem C80_exact img w h r tx ty m T b p :
  best_placement img w h r tx ty m T b -> allowed img w h r tx ty p -> patch img w h (fst p) (snd p) = T ->
  let P := patch img w h (fst b) (snd b) in
  (m = SQDIFF -> P = T) /\
  (m = SQDIFF_NORMED -> 0 < dotl T T -> P = T) /\
  (m = CCORR_NORMED -> 0 < dotl T T -> exists k, 0 < k /\ P = map (fun t => k * t) T) /\
  (m = CCOEFF_NORMED -> 0 < dotl (centered T) (centered T) -> exists k a, 0 < k /\ P = map (fun t => k * t + a) T).
Proof.
  intros [_ B] AP E P. specialize (B p AP). unfold at_placement in B. rewrite E in B. fold P in B.
  assert (L : length P = length T) by (rewrite <- E; unfold P; rewrite !patch_length; reflexivity).
  split; [|split; [|split]].
  - intros ->. unfold no_better in B. cbn [smaller_is_better score] in B. rewrite sqdl_self in B. apply sqdl_zero; [exact L|]. pose proof (sqdl_nonneg P T). lra.
  - intros -> C. unfold no_better in B. cbn [smaller_is_better score] in B. rewrite sqdl_self, sqrt_square in B by lra.
    unfold ratio in B. destruct (Rlt_dec 0 (dotl T T)) as [_|?]; [|lra]. destruct (Rlt_dec (dotl T T) 0) as [?|_]; [lra|].
    replace (0 / dotl T T) with 0 in B by (field; lra). destruct (Rlt_dec 0 (sqrt (dotl P P * dotl T T))) as [D|?]; [|lra].
    destruct (Rlt_dec _ (sqdl P T)) as [?|?] in B; [lra|]. apply sqdl_zero; [exact L|]. pose proof (sqdl_nonneg P T).
    apply (Rmult_le_compat_r (sqrt (dotl P P * dotl T T))) in B; [|lra].
    replace (sqdl P T / sqrt (dotl P P * dotl T T) * sqrt (dotl P P * dotl T T)) with (sqdl P T) in B by (field; lra). lra.
  - intros -> C. unfold no_better in B. cbn [smaller_is_better score] in B. rewrite ratio_self in B by exact C. apply ratio_best; assumption.
  - intros -> C. unfold no_better in B. cbn [smaller_is_better score] in B. rewrite ratio_self in B by exact C. apply ratio_best in B; [|unfold centered; rewrite !map_length; exact L|exact C].
    destruct B as (k & K & EC). exists k, (meanl P - k * meanl T). split; [exact K|].
    unfold centered in EC. rewrite map_map in EC.
    transitivity (map (fun x => x + meanl P) (map (fun x => x - meanl P) P)).
    + rewrite map_map. rewrite <- (map_id P) at 1. apply map_ext. intros x. ring.
    + rewrite EC, map_map. apply map_ext. intros x. ring.
Qed.
Print Assumptions C80_exact.

(** TM_CCORR does not: a bright spot wins *)
Theorem C80_ccorr_refuted : exists img w h r tx ty T b p,
  best_placement img w h r tx ty CCORR T b /\ allowed img w h r tx ty p /\ patch img w h (fst p) (snd p) = T /\ 0 < dotl T T /\
  ~ exists k a, patch img w h (fst b) (snd b) = map (fun t => k * t + a) T /\ 0 < k.
Proof.
  exists (Img 5 1 (fun x _ => match x with 0%Z => 1 | 1%Z => 2 | 2%Z => 1 | _ => 9 end)), 3%Z, 1%Z, 2%Z, 0%Z, 0%Z, [1; 2; 1], (2, 0)%Z, (0, 0)%Z.
  assert (AL : forall x y, allowed (Img 5 1 (fun x _ => match x with 0%Z => 1 | 1%Z => 2 | 2%Z => 1 | _ => 9 end)) 3 1 2 0 0 (x, y) <-> (0 <= x <= 2 /\ y = 0)%Z).
  { intros x y. unfold allowed, inside. cbn [fst snd iw ih]. lia. }
  split; [split; [apply AL; lia|]|split; [apply AL; lia|split; [reflexivity|split; [cbn; lra|]]]].
  - intros [x y] Hp. apply AL in Hp. destruct Hp as [Hx ->]. unfold no_better, at_placement. cbn [smaller_is_better score fst snd].
    change (patch _ 3 1 2 0) with [1; 9; 9].
    assert (x = 0 \/ x = 1 \/ x = 2)%Z as [-> | [-> | ->]] by lia.
    + change (patch _ 3 1 0 0) with [1; 2; 1]. unfold dotl, sumR. cbn [combine map fold_right fst snd]. lra.
    + change (patch _ 3 1 1 0) with [2; 1; 9]. unfold dotl, sumR. cbn [combine map fold_right fst snd]. lra.
    + change (patch _ 3 1 2 0) with [1; 9; 9]. unfold dotl, sumR. cbn [combine map fold_right fst snd]. lra.
  - intros (k & a & E & K). change (patch _ 3 1 _ _) with [1; 9; 9] in E. injection E as E1 E2 E3. lra.
Qed.
Print Assumptions C80_ccorr_refuted.

(** if the 9 scores are a quadratic function of the displacement then the fit is that function;
    if opposite neighbors have the same score then the match is at the whole pixel *)
Theorem C80_fit c f : best_fit c f ->
  (forall c', (forall i j, In (i, j) ij9 -> f i j = qval c' (IZR i) (IZR j)) -> c = c') /\
  ((forall i j, f (- i)%Z (- j)%Z = f i j) -> forall x y, critical c x y -> x = 0 /\ y = 0).
Proof.
  intros B. apply best_fit_is in B. subst c. split; [intros c' E; apply fit_exact; exact E|].
  intros Sy x y C. destruct (proj1 (C 0 0)); [|auto]. unfold fit. cbn [k00 k10 k01 k20 k11 k02].
  pose proof (Sy 1%Z 1%Z) as S1. pose proof (Sy 1%Z 0%Z) as S2. pose proof (Sy 0%Z 1%Z) as S3. pose proof (Sy 1%Z (-1)%Z) as S4. cbn in S1, S2, S3, S4.
  rewrite S1, S2, S3, S4. split; field.
Qed.
Print Assumptions C80_fit.

(** ** The homography *)
(** an estimate of q1 is the same as a homography that is a translation *)
Theorem C80_translation sample lstsq image0 image1 q0 r ts e meth :
  match_feature sample lstsq image0 image1 q0 r ts (Some e) None meth =
  match_feature sample lstsq image0 image1 q0 r ts None (Some (M33 1 0 (fst e - fst q0) 0 1 (snd e - snd q0) 0 0 1)) meth.
Proof.
  unfold match_feature. destruct (size2 ts) as [[w h]|]; [|reflexivity].
  replace (homography _ q0) with (Some e); [reflexivity|]. symmetry. destruct e as [ex ey], q0 as [x y]. unfold homography, mv.
  cbn [m00 m01 m02 m10 m11 m12 m20 m21 m22 vx vy vz fst snd]. destruct (Req_EM_T _ 0) as [E0|_]; [exfalso; lra|]. f_equal. f_equal; field.
Qed.
Print Assumptions C80_translation.

Definition mscale (k : R) (m : m33) : m33 :=
  M33 (k * m00 m) (k * m01 m) (k * m02 m) (k * m10 m) (k * m11 m) (k * m12 m) (k * m20 m) (k * m21 m) (k * m22 m).
Lemma homography_scale k H q : k <> 0 -> homography (mscale k H) q = homography H q.
Proof.
  intros K. destruct H as [a b c d e f g h i], q as [x y]. unfold homography, mv, mscale. cbn [m00 m01 m02 m10 m11 m12 m20 m21 m22 vx vy vz fst snd].
  assert (E : k * g * x + k * h * y + k * i * 1 = k * (g * x + h * y + i * 1)) by ring. 
  assert (E2 : k * a * x + k * b * y + k * c * 1 = k * (a * x + b * y + c * 1)) by ring.
  assert (E3 : k * d * x + k * e * y + k * f * 1 = k * (d * x + e * y + f * 1)) by ring. rewrite E, E2, E3. clear E E2 E3.
  generalize (a * x + b * y + c * 1) (d * x + e * y + f * 1) (g * x + h * y + i * 1). intros n1 n2 n3.
  destruct (Req_EM_T (k * n3) 0) as [E0|N], (Req_EM_T n3 0) as [E1|N1]; try reflexivity.
  - exfalso. apply Rmult_integral in E0. destruct E0; auto.
  - exfalso. apply N. rewrite E1. ring.
  - f_equal. f_equal; field; split; assumption.
Qed.
Lemma det_scale k H : det (mscale k H) = k * k * k * det H.
Proof. destruct H as [a b c d e f g h i]. unfold mscale, det. cbn [m00 m01 m02 m10 m11 m12 m20 m21 m22]. ring. Qed.
Lemma minv_scale k H : k <> 0 -> det H <> 0 -> minv (mscale k H) = mscale (/ k) (minv H).
Proof.
  intros K D. unfold minv. rewrite det_scale. destruct H as [a b c d e f g h i]. unfold mscale. cbn [m00 m01 m02 m10 m11 m12 m20 m21 m22].
  generalize dependent (det (M33 a b c d e f g h i)). intros dd D. f_equal; field; split; assumption.
Qed.
(** a homography is the same as any multiple of it *)
Theorem C80_scale sample lstsq image0 image1 q0 r ts H meth k : k <> 0 ->
  match_feature sample lstsq image0 image1 q0 r ts None (Some (mscale k H)) meth =
  match_feature sample lstsq image0 image1 q0 r ts None (Some H) meth.
Proof.
  intros K. unfold match_feature. destruct (size2 ts) as [[w h]|]; [|reflexivity]. rewrite homography_scale by exact K.
  destruct (homography H q0) as [e|]; [|reflexivity]. unfold with_homography. cbv zeta.
  destruct (checkdims (iw image1) _ _); [reflexivity|].
  destruct (Req_EM_T (det H) 0) as [D|D], (Req_EM_T (det (mscale k H)) 0) as [D'|D']; try reflexivity.
  - exfalso. apply D'. rewrite det_scale, D. ring.
  - exfalso. apply D. rewrite det_scale in D'. apply Rmult_integral in D'. destruct D' as [D' | ?]; [|assumption].
    exfalso. apply (Rmult_integral_contrapositive_currified (k * k) k); try assumption. apply Rmult_integral_contrapositive_currified; assumption.
  - assert (B : forall q, homography (minv (mscale k H)) q = homography (minv H) q).
    { intros q. rewrite minv_scale by assumption. apply homography_scale. apply Rinv_neq_0_compat. exact K. }
    rewrite !B. rewrite (map_ext _ _ (fun ij => B _)). reflexivity.
Qed.
Print Assumptions C80_scale.

(** ** The template lies in image0 *)
Lemma affine_box (a b c : R) (x y X Y : R) : 0 <= x <= X -> 0 <= y <= Y ->
  forall lo, lo <= a -> lo <= a + b * X -> lo <= a + c * Y -> lo <= a + b * X + c * Y -> lo <= a + b * x + c * y.
Proof.
  intros Hx Hy lo A1 A2 A3 A4.
  assert (B1 : lo - a - c * y <= 0 \/ 0 < lo - a - c * y) by lra.
  assert (L0 : forall u v t U, 0 <= t <= U -> lo <= u -> lo <= u + v * U -> lo <= u + v * t).
  { intros u v t U Ht Hu HU. destruct (Rle_dec 0 v) as [V|V].
    - pose proof (Rmult_le_pos v t V (proj1 Ht)). lra.
    - assert (v * U <= v * t) by (apply Rmult_le_compat_neg_l; lra). lra. }
  pose proof (L0 a c y Y Hy A1 A3) as P1. pose proof (L0 (a + b * X) c y Y Hy A2 A4) as P2.
  replace (a + b * x + c * y) with ((a + c * y) + b * x) by ring. apply (L0 _ _ _ X Hx); lra.
Qed.

Lemma affine_box_pos (a b c : R) (x y X Y : R) : 0 <= x <= X -> 0 <= y <= Y ->
  0 < a -> 0 < a + b * X -> 0 < a + c * Y -> 0 < a + b * X + c * Y -> 0 < a + b * x + c * y.
Proof.
  intros Hx Hy A1 A2 A3 A4. set (lo := Rmin (Rmin a (a + b * X)) (Rmin (a + c * Y) (a + b * X + c * Y))).
  assert (P : 0 < lo) by (unfold lo; repeat apply Rmin_pos; assumption).
  apply Rlt_le_trans with lo; [exact P|].
  pose proof (Rmin_l (Rmin a (a + b * X)) (Rmin (a + c * Y) (a + b * X + c * Y))). pose proof (Rmin_r (Rmin a (a + b * X)) (Rmin (a + c * Y) (a + b * X + c * Y))).
  pose proof (Rmin_l a (a + b * X)). pose proof (Rmin_r a (a + b * X)). pose proof (Rmin_l (a + c * Y) (a + b * X + c * Y)). pose proof (Rmin_r (a + c * Y) (a + b * X + c * Y)).
  fold lo in H, H0. apply (affine_box a b c x y X Y Hx Hy); lra.
Qed.

Lemma minv_mv_l H v : det H <> 0 -> mv (minv H) (mv H v) = v.
Proof.
  intros D. destruct H as [a b c d e f g h i], v as [x y z]. unfold det in D. cbn [m00 m01 m02 m10 m11 m12 m20 m21 m22] in D.
  unfold minv, mv, det. cbn [m00 m01 m02 m10 m11 m12 m20 m21 m22 vx vy vz]. f_equal; field; exact D.
Qed.

(** the depth of a point of image0 under the homography: positive if the point is in front of the second camera *)
Definition depth (H : m33) (s : R * R) : R := vz (mv H (V3 (fst s) (snd s) 1)).

Lemma depth_back H s X Y : det H <> 0 -> homography H s = Some (X, Y) ->
  depth H s <> 0 /\ V3 (fst s) (snd s) 1 = vscale (depth H s) (mv (minv H) (V3 X Y 1)).
Proof.
  intros D E. unfold homography in E. fold (depth H s) in E. destruct (Req_EM_T (depth H s) 0) as [?|N]; [discriminate|].
  assert (EX : X = vx (mv H (V3 (fst s) (snd s) 1)) / depth H s) by (injection E as E1 E2; symmetry; exact E1).
  assert (EY : Y = vy (mv H (V3 (fst s) (snd s) 1)) / depth H s) by (injection E as E1 E2; symmetry; exact E2). subst X Y.
  split; [exact N|]. rewrite <- mv_scale. rewrite <- (minv_mv_l H (V3 (fst s) (snd s) 1) D) at 1. f_equal.
  unfold depth in *. destruct (mv H (V3 (fst s) (snd s) 1)) as [a b c]. unfold vscale. cbn [vx vy vz] in *. f_equal; field; exact N.
Qed.

Theorem C80_template_inside sample lstsq image0 image1 q0 r ts q1_estimate H10 meth :
  ~ is_raise (match_feature sample lstsq image0 image1 q0 r ts q1_estimate H10 meth) ->
  exists w h H e m tx ty T pts, resolves q0 ts q1_estimate H10 meth w h H e m /\
    inside image1 w h (tx, ty) /\ is_template sample image0 H w h tx ty T pts /\
    let pt i j := nth (Z.to_nat (j * w + i)) pts (0, 0) in
    ((forall i j, (i = 0 \/ i = w - 1)%Z -> (j = 0 \/ j = h - 1)%Z -> 0 < depth H (pt i j)) ->
     forall i j, (0 <= i < w)%Z -> (0 <= j < h)%Z -> 0 <= fst (pt i j) < IZR (iw image0) /\ 0 <= snd (pt i j) < IZR (ih image0)).
Proof.
  intros N. destruct (mf_cases sample lstsq image0 image1 q0 r ts q1_estimate H10 meth N) as (w & h & H & e & m & tx & ty & T & pts & A1 & A2 & A3 & A4 & A5 & A6 & A7 & [D C] & A8).
  exists w, h, H, e, m, tx, ty, T, pts. split; [exact A1|]. split; [exact A6|]. split; [exact A7|]. cbv zeta. intros DP i j Hi Hj.
  destruct A7 as (_ & _ & HP). set (n := minv H).
  assert (K : forall i j, (0 <= i < w)%Z -> (0 <= j < h)%Z -> let s := nth (Z.to_nat (j * w + i)) pts (0, 0) in
     let k := depth H s in k <> 0 /\
     1 = k * ((m20 n * IZR tx + m21 n * IZR ty + m22 n) + m20 n * IZR i + m21 n * IZR j) /\
     fst s = k * ((m00 n * IZR tx + m01 n * IZR ty + m02 n) + m00 n * IZR i + m01 n * IZR j) /\
     snd s = k * ((m10 n * IZR tx + m11 n * IZR ty + m12 n) + m10 n * IZR i + m11 n * IZR j)).
  { intros i' j' Hi' Hj' s k. destruct (depth_back H s _ _ D (HP i' j' Hi' Hj')) as [K0 K1]. split; [exact K0|]. fold n k in K1.
    unfold mv, vscale in K1. cbn [vx vy vz] in K1. rewrite !plus_IZR in K1. pose proof (f_equal vx K1) as K2. pose proof (f_equal vy K1) as K3. pose proof (f_equal vz K1) as K4. cbn [vx vy vz] in K2, K3, K4. split; [etransitivity; [exact K4|ring]|]. split; [etransitivity; [exact K2|ring]|etransitivity; [exact K3|ring]]. }
  assert (Cn : forall i j, (i = 0 \/ i = w - 1)%Z -> (j = 0 \/ j = h - 1)%Z ->
     0 < (m20 n * IZR tx + m21 n * IZR ty + m22 n) + m20 n * IZR i + m21 n * IZR j /\
     0 <= (m00 n * IZR tx + m01 n * IZR ty + m02 n) + m00 n * IZR i + m01 n * IZR j /\
     0 <= (m10 n * IZR tx + m11 n * IZR ty + m12 n) + m10 n * IZR i + m11 n * IZR j /\
     0 < IZR (iw image0) * ((m20 n * IZR tx + m21 n * IZR ty + m22 n) + m20 n * IZR i + m21 n * IZR j) - ((m00 n * IZR tx + m01 n * IZR ty + m02 n) + m00 n * IZR i + m01 n * IZR j) /\
     0 < IZR (ih image0) * ((m20 n * IZR tx + m21 n * IZR ty + m22 n) + m20 n * IZR i + m21 n * IZR j) - ((m10 n * IZR tx + m11 n * IZR ty + m12 n) + m10 n * IZR i + m11 n * IZR j)).
  { intros i' j' Hi' Hj'. destruct (K i' j' ltac:(lia) ltac:(lia)) as (K0 & K1 & K2 & K3). pose proof (DP i' j' Hi' Hj') as KP. pose proof (C i' j' Hi' Hj') as [[C1 C2] [C3 C4]].
    set (s := nth (Z.to_nat (j' * w + i')) pts (0, 0)) in *. set (k := depth H s) in *.
    set (d := m20 n * IZR tx + m21 n * IZR ty + m22 n + m20 n * IZR i' + m21 n * IZR j') in *.
    set (nx := m00 n * IZR tx + m01 n * IZR ty + m02 n + m00 n * IZR i' + m01 n * IZR j') in *.
    set (ny := m10 n * IZR tx + m11 n * IZR ty + m12 n + m10 n * IZR i' + m11 n * IZR j') in *.
    assert (KI : 0 < / k) by (apply Rinv_0_lt_compat; exact KP).
    assert (Ed : d = / k) by (apply (Rmult_eq_reg_l k); [rewrite <- K1; field; exact K0|exact K0]).
    assert (Ex : nx = fst s * / k) by (rewrite K2; field; exact K0).
    assert (Ey : ny = snd s * / k) by (rewrite K3; field; exact K0).
    rewrite Ed, Ex, Ey. split; [exact KI|]. split; [apply Rmult_le_pos; lra|]. split; [apply Rmult_le_pos; lra|].
    split; [replace (IZR (iw image0) * / k - fst s * / k) with ((IZR (iw image0) - fst s) * / k) by ring|
            replace (IZR (ih image0) * / k - snd s * / k) with ((IZR (ih image0) - snd s) * / k) by ring]; apply Rmult_lt_0_compat; lra. }
  pose proof (Cn 0%Z 0%Z ltac:(lia) ltac:(lia)) as C00. pose proof (Cn (w - 1)%Z 0%Z ltac:(lia) ltac:(lia)) as C10.
  pose proof (Cn 0%Z (h - 1)%Z ltac:(lia) ltac:(lia)) as C01. pose proof (Cn (w - 1)%Z (h - 1)%Z ltac:(lia) ltac:(lia)) as C11. clear Cn.
  assert (Bi : 0 <= IZR i <= IZR (w - 1)) by (split; apply IZR_le; lia). assert (Bj : 0 <= IZR j <= IZR (h - 1)) by (split; apply IZR_le; lia).
  destruct (K i j Hi Hj) as (K0 & K1 & K2 & K3). clear K.
  set (s := nth (Z.to_nat (j * w + i)) pts (0, 0)) in *. set (k := depth H s) in *. clearbody k.
  set (d0 := m20 n * IZR tx + m21 n * IZR ty + m22 n) in *. set (a0 := m00 n * IZR tx + m01 n * IZR ty + m02 n) in *. set (b0 := m10 n * IZR tx + m11 n * IZR ty + m12 n) in *.
  clearbody d0 a0 b0. set (WW := IZR (w - 1)) in *. set (HH := IZR (h - 1)) in *. set (x := IZR i) in *. set (y := IZR j) in *. clearbody WW HH x y.
  rewrite !Rmult_0_r, !Rplus_0_r in C00, C10, C01.
  destruct C00 as (C001 & C002 & C003 & C004 & C005), C10 as (C101 & C102 & C103 & C104 & C105), C01 as (C011 & C012 & C013 & C014 & C015), C11 as (C111 & C112 & C113 & C114 & C115).
  assert (P1 : 0 < d0 + m20 n * x + m21 n * y) by (apply (affine_box_pos _ _ _ x y WW HH); lra).
  assert (P2 : 0 <= a0 + m00 n * x + m01 n * y) by (apply (affine_box _ _ _ x y WW HH Bi Bj 0); lra).
  assert (P3 : 0 <= b0 + m10 n * x + m11 n * y) by (apply (affine_box _ _ _ x y WW HH Bi Bj 0); lra).
  assert (P4 : 0 < (IZR (iw image0) * d0 - a0) + (IZR (iw image0) * m20 n - m00 n) * x + (IZR (iw image0) * m21 n - m01 n) * y) by (apply (affine_box_pos _ _ _ x y WW HH Bi Bj); lra).
  assert (P5 : 0 < (IZR (ih image0) * d0 - b0) + (IZR (ih image0) * m20 n - m10 n) * x + (IZR (ih image0) * m21 n - m11 n) * y) by (apply (affine_box_pos _ _ _ x y WW HH Bi Bj); lra).
  set (d := d0 + m20 n * x + m21 n * y) in *.
  assert (Ek : k = / d) by (apply (Rmult_eq_reg_r d); [rewrite <- K1; field; lra|lra]). assert (KP : 0 < k) by (rewrite Ek; apply Rinv_0_lt_compat; exact P1).
  rewrite K2, K3. split; split.
  - apply Rmult_le_pos; lra.
  - replace (IZR (iw image0)) with (k * (IZR (iw image0) * d)) by (rewrite Ek; field; lra). apply Rmult_lt_compat_l; [exact KP|unfold d; lra].
  - apply Rmult_le_pos; lra.
  - replace (IZR (ih image0)) with (k * (IZR (ih image0) * d)) by (rewrite Ek; field; lra). apply Rmult_lt_compat_l; [exact KP|unfold d; lra].
Qed.
Print Assumptions C80_template_inside.

(** ** Exceptions *)
(** cv2.remap() reports the pixels of the image at whole pixels *)
Definition sample_ok (sample : image -> R * R -> R) : Prop :=
  forall img x y, (0 <= x < iw img)%Z -> (0 <= y < ih img)%Z -> sample img (IZR x, IZR y) = pix img x y.

Lemma rint_IZR n : rint (IZR n) = n.
Proof.
  pose proof (rint_err (IZR n)) as E. rewrite <- minus_IZR, <- abs_IZR in E.
  assert (A : IZR (Z.abs (rint (IZR n) - n)) < IZR 1) by lra. apply lt_IZR in A. lia.
Qed.

Lemma mf_1x1 sample lstsq image0 image1 a b c d r m : sample_ok sample ->
  (0 <= a < iw image0)%Z -> (0 <= b < ih image0)%Z -> (0 <= c < iw image1)%Z -> (0 <= d < ih image1)%Z ->
  match_feature sample lstsq image0 image1 (IZR a, IZR b) r (TScalar 1) (Some (IZR c, IZR d)) None (Some m) =
  match_template lstsq image1 r m [pix image0 a b] 1 1 c d (IZR c, IZR d).
Proof.
  intros SO Ha Hb Hc Hd. unfold match_feature. cbn [size2 Z.ltb Z.compare andb]. unfold with_homography. cbn [fst snd]. cbv zeta.
  replace (IZR c - (1 - 1) / 2) with (IZR c) by field. replace (IZR d - (1 - 1) / 2) with (IZR d) by field. rewrite !rint_IZR.
  replace (c + 1 - 1)%Z with c by lia. replace (d + 1 - 1)%Z with d by lia.
  assert (L : forall u v, (0 <= u < v)%Z -> 0 <= IZR u < IZR v) by (intros u v Huv; split; [apply IZR_le|apply IZR_lt]; lia).
  assert (C1 : checkdims (iw image1) (ih image1) [(IZR c, IZR d); (IZR c, IZR d)] = None).
  { apply checkdims_spec. intros q [<- | [<- | []]]; cbn [fst snd]; auto. }
  rewrite C1. set (H := M33 1 0 (IZR c - IZR a) 0 1 (IZR d - IZR b) 0 0 1).
  assert (D : det H = 1) by (unfold det, H; cbn [m00 m01 m02 m10 m11 m12 m20 m21 m22]; ring).
  destruct (Req_EM_T (det H) 0) as [E0|_]; [exfalso; lra|].
  assert (B : homography (minv H) (IZR (c + 0), IZR (d + 0)) = Some (IZR a, IZR b)).
  { rewrite !Z.add_0_r. unfold minv. rewrite D. unfold homography, mv, H. cbn [m00 m01 m02 m10 m11 m12 m20 m21 m22 vx vy vz fst snd].
    destruct (Req_EM_T _ 0) as [E0|_]; [exfalso; lra|]. f_equal. f_equal; field. }
  change (coords 1 1) with [(0, 0)%Z]. cbn [map fst snd]. change (1 - 1)%Z with 0%Z. rewrite B. cbn [all_some].
  assert (C0 : checkdims (iw image0) (ih image0) [(IZR a, IZR b); (IZR a, IZR b); (IZR a, IZR b); (IZR a, IZR b)] = None).
  { apply checkdims_spec. intros q [<- | [<- | [<- | [<- | []]]]]; cbn [fst snd]; auto. }
  rewrite C0. cbn [map]. rewrite SO by assumption. reflexivity.
Qed.

Definition grid3 (a b c d e f g h i : R) : image :=
  Img 3 3 (fun x y => match y, x with
    | 0, 0 => a | 0, 1 => b | 0, _ => c | 1, 0 => d | 1, 1 => e | 1, _ => f | _, 0 => g | _, 1 => h | _, _ => i end%Z).

Lemma mt_3x3 lstsq a b c d f g h i : lstsq_ok lstsq -> (forall z, lstsq M9 z <> None) ->
  0 < a -> 0 < b -> 0 < c -> 0 < d -> 0 < f -> 0 < g -> 0 < h -> 0 < i ->
  let q := fit (fun x y => (pix (grid3 a b c d 0 f g h i) (1 + x) (1 + y))²) in
  let D := 4 * k20 q * k02 q - k11 q * k11 q in
  D <> 0 ->
  exists mo at_ opt, match_template lstsq (grid3 a b c d 0 f g h i) 1 SQDIFF [0] 1 1 1 1 (1, 1) =
    Match (1 - (2 * k10 q * k02 q - k01 q * k11 q) / D, 1 - (2 * k01 q * k20 q - k10 q * k11 q) / D) mo at_ opt.
Proof.
  intros OK TOT Pa Pb Pc Pd Pf Pg Ph Pi q D ND. unfold match_template. cbn [iw ih grid3].
  change (window 3 1 1 1) with (0, 2)%Z. cbn match. cbv zeta. change (2 - 0 + 1 - 1 + 1)%Z with 3%Z. cbn [Z.leb Z.compare orb].
  set (mo := map _ (coords 3 3)).
  assert (Emo : mo = [a²; b²; c²; d²; 0²; f²; g²; h²; i²]).
  { unfold mo. change (coords 3 3) with [(0, 0); (1, 0); (2, 0); (0, 1); (1, 1); (2, 1); (0, 2); (1, 2); (2, 2)]%Z. cbn [map fst snd].
    unfold patch. change (coords 1 1) with [(0, 0)%Z]. cbn [map fst snd Z.add Pos.add Pos.succ pix grid3]. cbn [score]. unfold sqdl, sumR. cbn [combine map fold_right fst snd].
    unfold Rsqr. repeat (f_equal; [ring|]). f_equal. ring. }
  rewrite Emo. clear mo Emo.
  assert (S2 : forall x, 0 < x -> 0 < x²) by (intros x Px; apply Rlt_0_sqr; lra).
  pose proof (S2 a Pa). pose proof (S2 b Pb). pose proof (S2 c Pc). pose proof (S2 d Pd). pose proof (S2 f Pf). pose proof (S2 g Pg). pose proof (S2 h Ph). pose proof (S2 i Pi).
  assert (E0 : 0² = 0) by (unfold Rsqr; ring).
  set (mo := [a²; b²; c²; d²; 0²; f²; g²; h²; i²]).
  assert (K : arg_opt (better SQDIFF) mo = 4%nat).
  { destruct (arg_opt_spec SQDIFF mo) as [A B]; [discriminate|]. specialize (B 4%nat ltac:(cbn [mo length]; lia)).
    destruct (arg_opt (better SQDIFF) mo) as [|[|[|[|[|[|[|[|[|]]]]]]]]]; unfold mo, no_better in B; cbn [nth smaller_is_better] in B; try reflexivity; try (exfalso; lra).
    exfalso. unfold mo in A. cbn [length] in A. lia. }
  rewrite K. change (unravel 3 (Z.of_nat 4)) with (1, 1)%Z. change (3 - 1)%Z with 2%Z. cbn [Z.leb Z.compare Pos.compare Pos.compare_cont orb].
  unfold subpixel. cbv zeta.
  set (fn := fun x y => (pix (grid3 a b c d 0 f g h i) (1 + x) (1 + y))²) in *.
  replace (map (fun d0 => nth (Z.to_nat ((1 + snd d0) * 3 + (1 + fst d0))) mo 0) ij9) with (map (fun d0 => fn (fst d0) (snd d0)) ij9) by reflexivity.
  destruct (lstsq M9 _) as [l|] eqn:LS; [|exfalso; exact (TOT _ LS)]. apply lstsq_fit in LS; [|exact OK]. fold q in LS. subst l. fold D.
  destruct (Req_EM_T D 0) as [?|_]; [contradiction|]. eexists _, _, _. f_equal. cbn [fst snd]. f_equal; field; exact ND.
Qed.

(** the pixel 0 of image0 appears in image1, at the estimate and nowhere else.  The reported match is 46.5 pixels away, outside of the 3x3 image *)
Theorem C80_far_refuted : forall sample lstsq, sample_ok sample -> lstsq_ok lstsq -> (forall z, lstsq M9 z <> None) ->
  exists image0 image1 q1 mo at_ opt, iw image1 = 3%Z /\ ih image1 = 3%Z /\
    (forall x y, (0 <= x < 3)%Z -> (0 <= y < 3)%Z -> pix image1 x y = pix image0 0 0 <-> x = 1%Z /\ y = 1%Z) /\
    match_feature sample lstsq image0 image1 (0, 0) 1 (TScalar 1) (Some (1, 1)) None (Some SQDIFF) = Match q1 mo at_ opt /\ q1 = (95 / 2, 1).
Proof.
  intros sample lstsq SO OK TOT.
  destruct (mt_3x3 lstsq 1 5 4 1 8 1 5 4 OK TOT ltac:(lra) ltac:(lra) ltac:(lra) ltac:(lra) ltac:(lra) ltac:(lra) ltac:(lra) ltac:(lra)) as (mo & at_ & opt & E).
  { unfold fit. cbn [k00 k10 k01 k20 k11 k02]. cbn [Z.add Pos.add Pos.succ Z.pos_sub pix grid3]. unfold Rsqr. lra. }
  eexists (Img 1 1 (fun _ _ => 0)), (grid3 1 5 4 1 0 8 1 5 4), _, mo, at_, opt. split; [reflexivity|]. split; [reflexivity|]. split.
  { intros x y Hx Hy. assert (x = 0 \/ x = 1 \/ x = 2)%Z as [-> | [-> | ->]] by lia; assert (y = 0 \/ y = 1 \/ y = 2)%Z as [-> | [-> | ->]] by lia;
      cbn [pix grid3]; split; intros E0; try (exfalso; lra); try (exfalso; lia); auto. }
  split.
  { rewrite (mf_1x1 sample lstsq (Img 1 1 (fun _ _ => 0)) (grid3 1 5 4 1 0 8 1 5 4) 0 0 1 1 1 SQDIFF SO) by (cbn [iw ih grid3]; lia). exact E. }
  unfold fit. cbn [k00 k10 k01 k20 k11 k02]. cbn [Z.add Pos.add Pos.succ Z.pos_sub pix grid3]. unfold Rsqr. f_equal; field.
Qed.
Print Assumptions C80_far_refuted.

(** "If the template being matched is out-of-bounds in either image, this function raises an exception": not with a template between
    the last pixel of image0 (here 0) and the width (here 1) *)
Theorem C80_edge_refuted sample lstsq image1 : iw image1 = 3%Z -> ih image1 = 3%Z ->
  let image0 := Img 1 1 (fun _ _ => 0) in
  match_feature sample lstsq image0 image1 (1 / 2, 0) 0 (TScalar 1) (Some (1, 1)) None (Some SQDIFF) =
  NoMatch [score SQDIFF [pix image1 1 1] [sample image0 (1 / 2, 0)]].
Proof.
  intros W1 H1 image0. unfold match_feature. cbn [size2 Z.ltb Z.compare andb]. unfold with_homography. cbn [fst snd]. cbv zeta.
  replace (1 - (1 - 1) / 2) with (IZR 1) by field. rewrite !rint_IZR. rewrite W1, H1.
  assert (C1 : checkdims 3 3 [(IZR 1, IZR 1); (IZR (1 + 1 - 1), IZR (1 + 1 - 1))] = None).
  { apply checkdims_spec. intros q [<- | [<- | []]]; cbn [fst snd]; change (1 + 1 - 1)%Z with 1%Z; lra. }
  rewrite C1. set (H := M33 _ _ _ _ _ _ _ _ _).
  assert (D : det H = 1) by (unfold det, H; cbn [m00 m01 m02 m10 m11 m12 m20 m21 m22]; ring).
  destruct (Req_EM_T (det H) 0) as [E0|_]; [exfalso; lra|].
  assert (B : homography (minv H) (IZR (1 + 0), IZR (1 + 0)) = Some (1 / 2, 0)).
  { change (1 + 0)%Z with 1%Z. unfold minv. rewrite D. unfold homography, mv, H. cbn [m00 m01 m02 m10 m11 m12 m20 m21 m22 vx vy vz fst snd].
    destruct (Req_EM_T _ 0) as [E0|_]; [exfalso; lra|]. f_equal. f_equal; field. }
  change (coords 1 1) with [(0, 0)%Z]. cbn [map fst snd]. change (1 - 1)%Z with 0%Z. rewrite B. cbn [all_some iw ih image0].
  assert (C0 : checkdims 1 1 [(1 / 2, 0); (1 / 2, 0); (1 / 2, 0); (1 / 2, 0)] = None).
  { apply checkdims_spec. intros q [<- | [<- | [<- | [<- | []]]]]; cbn [fst snd]; lra. }
  rewrite C0. unfold match_template. rewrite W1, H1. change (window 3 0 1 1) with (1, 1)%Z. reflexivity.
Qed.
Print Assumptions C80_edge_refuted.

(** nor if the corners of the template are inside of image0, but other pixels are not: here the second of five pixels is at x=3 of
    an image of width 3, because the depth of the homography changes its sign inside the template *)
Theorem C80_corners_refuted sample lstsq image1 : iw image1 = 5%Z -> ih image1 = 1%Z ->
  let image0 := Img 3 1 (fun _ _ => 0) in
  match_feature sample lstsq image0 image1 (8 / 3, 0) 0 (TSeq [5; 1])%Z None (Some (M33 2 0 (-4) 0 1 0 4 0 (-10))) (Some SQDIFF) =
  NoMatch [score SQDIFF (patch image1 5 1 0 0)
             [sample image0 (2, 0); sample image0 (3, 0); sample image0 (8 / 3, 0); sample image0 (13 / 5, 0); sample image0 (18 / 7, 0)]].
Proof.
  intros W1 H1 image0. unfold match_feature. cbn [size2 Z.ltb Z.compare andb].
  set (H := M33 2 0 (-4) 0 1 0 4 0 (-10)).
  assert (HE : homography H (8 / 3, 0) = Some (2, 0)).
  { unfold homography, mv, H. cbn [m00 m01 m02 m10 m11 m12 m20 m21 m22 vx vy vz fst snd]. destruct (Req_EM_T _ 0) as [E0|_]; [exfalso; lra|]. f_equal. f_equal; field. }
  rewrite HE. unfold with_homography. cbn [fst snd]. cbv zeta.
  replace (2 - (5 - 1) / 2) with (IZR 0) by field. replace (0 - (1 - 1) / 2) with (IZR 0) by field. rewrite !rint_IZR. rewrite W1, H1.
  assert (C1 : checkdims 5 1 [(IZR 0, IZR 0); (IZR (0 + 5 - 1), IZR (0 + 1 - 1))] = None).
  { apply checkdims_spec. intros q [<- | [<- | []]]; cbn [fst snd]; change (0 + 1 - 1)%Z with 0%Z; change (0 + 5 - 1)%Z with 4%Z; lra. }
  rewrite C1.
  assert (D : det H = -4) by (unfold det, H; cbn [m00 m01 m02 m10 m11 m12 m20 m21 m22]; ring).
  destruct (Req_EM_T (det H) 0) as [E0|_]; [exfalso; lra|].
  assert (EI : minv H = M33 (5 / 2) 0 (-1) 0 1 0 1 0 (- 1 / 2)).
  { unfold minv. rewrite D. unfold H. cbn [m00 m01 m02 m10 m11 m12 m20 m21 m22]. f_equal; field. }
  rewrite EI.
  assert (B : forall p r', p - 1 / 2 <> 0 -> (5 / 2 * p - 1) / (p - 1 / 2) = r' -> homography (M33 (5 / 2) 0 (-1) 0 1 0 1 0 (- 1 / 2)) (p, 0) = Some (r', 0)).
  { intros p r' N Er. unfold homography, mv. cbn [m00 m01 m02 m10 m11 m12 m20 m21 m22 vx vy vz fst snd].
    destruct (Req_EM_T _ 0) as [E0|N0]; [exfalso; lra|]. f_equal. rewrite <- Er. f_equal; field; lra. }
  change (coords 5 1) with [(0, 0); (1, 0); (2, 0); (3, 0); (4, 0)]%Z. cbn [map fst snd]. change (1 - 1)%Z with 0%Z. change (5 - 1)%Z with 4%Z. rewrite !Z.add_0_l.
  rewrite (B 0 2) by (lra || field). rewrite (B 1 3) by (lra || field). rewrite (B 2 (8 / 3)) by (lra || field). rewrite (B 3 (13 / 5)) by (lra || field). rewrite (B 4 (18 / 7)) by (lra || field).
  cbn [all_some iw ih image0].
  assert (C0 : checkdims 3 1 [(2, 0); (2, 0); (18 / 7, 0); (18 / 7, 0)] = None).
  { apply checkdims_spec. intros q [<- | [<- | [<- | [<- | []]]]]; cbn [fst snd]; lra. }
  rewrite C0. unfold match_template. rewrite W1, H1. change (window 5 0 5 0) with (0, 4)%Z. change (window 1 0 1 0) with (0, 0)%Z. reflexivity.
Qed.
Print Assumptions C80_corners_refuted.

(** ** The hypotheses are met *)
Definition some_lstsq (M : list (list R)) (z : list R) : option (list R) :=
  if list_eq_dec (list_eq_dec Req_EM_T) M M9 then
    let f i j := nth (Z.to_nat ((1 + j) * 3 + (1 + i))) z 0 in
    Some [k00 (fit f); k10 (fit f); k01 (fit f); k20 (fit f); k11 (fit f); k02 (fit f)]
  else None.
Lemma some_lstsq_ok : lstsq_ok some_lstsq.
Proof.
  intros M z c n ROW NE LZ E. unfold some_lstsq in E. destruct (list_eq_dec _ M M9) as [-> |]; [|discriminate].
  assert (n = 6%nat) as -> by (symmetry; apply (ROW [1; -1; -1; -1 * -1; -1 * -1; -1 * -1]); left; reflexivity).
  injection E as <-. split; [reflexivity|]. intros c' L6.
  destruct z as [|z1 [|z2 [|z3 [|z4 [|z5 [|z6 [|z7 [|z8 [|z9 [|]]]]]]]]]]; try discriminate LZ.
  destruct c' as [|c00 [|c10 [|c01 [|c20 [|c11 [|c02 [|]]]]]]]; try discriminate L6.
  set (f := fun i j => nth (Z.to_nat ((1 + j) * 3 + (1 + i))) [z1; z2; z3; z4; z5; z6; z7; z8; z9] 0).
  change [z1; z2; z3; z4; z5; z6; z7; z8; z9] with (map (fun d => f (fst d) (snd d)) ij9).
  pose proof (fit_best f (Q c00 c10 c01 c20 c11 c02)) as FB. rewrite <- residual_err in FB.
  refine (Rle_trans _ _ _ _ FB). right. rewrite residual_err. reflexivity.
Qed.
Definition some_sample (img : image) (q : R * R) : R := pix img (rint (fst q)) (rint (snd q)).
Example ex_C80 : exists image0 image1 mo at_ opt,
  lstsq_ok some_lstsq /\ (forall z, some_lstsq M9 z <> None) /\ sample_ok some_sample /\
  match_feature some_sample some_lstsq image0 image1 (0, 0) 1 (TScalar 1) (Some (1, 1)) None (Some SQDIFF) = Match (1, 31 / 34) mo at_ opt /\
  depth (M33 2 0 (-4) 0 1 0 4 0 (-9)) (8 / 3, 0) = 5 / 3.
Proof.
  assert (TOT : forall z, some_lstsq M9 z <> None) by (intros z; unfold some_lstsq; destruct (list_eq_dec _ M9 M9); [discriminate|contradiction]).
  assert (SO : sample_ok some_sample) by (intros img x y _ _; unfold some_sample; cbn [fst snd]; rewrite !rint_IZR; reflexivity).
  destruct (mt_3x3 some_lstsq 2 1 2 1 1 2 2 2 some_lstsq_ok TOT ltac:(lra) ltac:(lra) ltac:(lra) ltac:(lra) ltac:(lra) ltac:(lra) ltac:(lra) ltac:(lra)) as (mo & at_ & opt & E).
  { unfold fit. cbn [k00 k10 k01 k20 k11 k02]. cbn [Z.add Pos.add Pos.succ Z.pos_sub pix grid3]. unfold Rsqr. lra. }
  exists (Img 1 1 (fun _ _ => 0)), (grid3 2 1 2 1 0 1 2 2 2), mo, at_, opt.
  split; [exact some_lstsq_ok|]. split; [exact TOT|]. split; [exact SO|]. split.
  - rewrite (mf_1x1 some_sample some_lstsq (Img 1 1 (fun _ _ => 0)) (grid3 2 1 2 1 0 1 2 2 2) 0 0 1 1 1 SQDIFF SO) by (cbn [iw ih grid3]; lia). etransitivity; [exact E|]. f_equal.
    unfold fit. cbn [k00 k10 k01 k20 k11 k02]. cbn [Z.add Pos.add Pos.succ Z.pos_sub pix grid3]. unfold Rsqr. f_equal; field.
  - unfold depth, mv. cbn [m00 m01 m02 m10 m11 m12 m20 m21 m22 vx vy vz fst snd]. field.
Qed.
