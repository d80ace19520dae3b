(** C79: apply_color_map() colors the values of an image by their position between the bounds. *)
From Coq Require Import Reals ZArith List Bool Lra Lia Psatz.
From Verif Require Import M_Color.
Import ListNotations.
Open Scope R_scope.

(** *** Specification: the documented table (docstring of apply_color_map(); stereo.c:1127-1145).  Angles in degrees *)
Definition deg (a : R) : R := a * PI / 180.
Definition documented (n : Z) (x : R) : R :=
  match n with
  | 0%Z => 0                | 1%Z => 1 / 2               | 2%Z => 1
  | 3%Z => x                | 4%Z => x ^ 2               | 5%Z => x ^ 3
  | 6%Z => x ^ 4            | 7%Z => sqrt x              | 8%Z => sqrt (sqrt x)
  | 9%Z => sin (deg (90 * x))          | 10%Z => cos (deg (90 * x))         | 11%Z => Rabs (x - 1 / 2)
  | 12%Z => (2 * x - 1) ^ 2            | 13%Z => sin (deg (180 * x))        | 14%Z => Rabs (cos (deg (180 * x)))
  | 15%Z => sin (deg (360 * x))        | 16%Z => cos (deg (360 * x))        | 17%Z => Rabs (sin (deg (360 * x)))
  | 18%Z => Rabs (cos (deg (360 * x))) | 19%Z => Rabs (sin (deg (720 * x))) | 20%Z => Rabs (cos (deg (720 * x)))
  | 21%Z => 3 * x           | 22%Z => 3 * x - 1          | 23%Z => 3 * x - 2
  | 24%Z => Rabs (3 * x - 1)           | 25%Z => Rabs (3 * x - 2)           | 26%Z => (3 * x - 1) / 2
  | 27%Z => (3 * x - 2) / 2            | 28%Z => Rabs ((3 * x - 1) / 2)     | 29%Z => Rabs ((3 * x - 2) / 2)
  | 30%Z => x / (32 / 100) - 78125 / 100000
  | 31%Z => 2 * x - 84 / 100
  | 32%Z => if Rlt_dec x (25 / 100) then 4 * x else if Rlt_dec x (42 / 100) then 1 else if Rlt_dec x (92 / 100) then - 2 * x + 184 / 100 else x / (8 / 100) - 115 / 10
  | 33%Z => Rabs (2 * x - 1 / 2)       | 34%Z => 2 * x  | 35%Z => 2 * x - 1 / 2
  | 36%Z => 2 * x - 1
  | _ => 0
  end.
Definition clip (x : R) : R := Rmax 0 (Rmin 1 x).
(** negative numbers mean inverted *)
Definition shade (n : Z) (x : R) : R := if (n <? 0)%Z then clip (documented (- n) (1 - x)) else clip (documented n x).
(** the byte nearest to 255 y (half a step rounds up) *)
Definition byte_of (y : R) (b : Z) : Prop := IZR b - 1 / 2 <= 255 * y < IZR b + 1 / 2.
Definition color_of (fr fg fb : Z) (x : R) (c : Z * Z * Z) : Prop :=
  let '(b, g, r) := c in byte_of (shade fr x) r /\ byte_of (shade fg x) g /\ byte_of (shade fb x) b.

(** *** Proofs *)
Lemma clip_range : forall x, 0 <= clip x <= 1.
Proof. intro x. unfold clip, Rmax, Rmin. destruct (Rle_dec 1 x), (Rle_dec 0 _); lra. Qed.
Lemma clip_code : forall x, (if Rle_dec x 0 then 0 else if Rle_dec 1 x then 1 else x) = clip x.
Proof. intro x. unfold clip, Rmax, Rmin. destruct (Rle_dec x 0), (Rle_dec 1 x), (Rle_dec 0 _); try lra. Qed.
Lemma clip_lo : forall x, x <= 0 -> clip x = 0.
Proof. intros x H. rewrite <- clip_code. destruct (Rle_dec x 0); [reflexivity|lra]. Qed.
Lemma clip_hi : forall x, 1 <= x -> clip x = 1.
Proof. intros x H. rewrite <- clip_code. destruct (Rle_dec x 0); [lra|]. destruct (Rle_dec 1 x); [reflexivity|lra]. Qed.
Lemma clip_id : forall x, 0 <= x <= 1 -> clip x = x.
Proof. intros x H. rewrite <- clip_code. destruct (Rle_dec x 0); [lra|]. destruct (Rle_dec 1 x); [lra|reflexivity]. Qed.
Lemma byte_code : forall x, byte_of (clip x) (Int_part (5 / 10 + 255 * clip x)).
Proof. intro x. destruct (base_Int_part (5 / 10 + 255 * clip x)) as (A & B). unfold byte_of. lra. Qed.
Lemma byte_range : forall y b, 0 <= y <= 1 -> byte_of y b -> (0 <= b <= 255)%Z.
Proof.
  intros y b Y (A & B). split.
  - assert (-1 < b)%Z; [|lia]. apply lt_IZR. lra.
  - assert (b < 256)%Z; [|lia]. apply lt_IZR. lra.
Qed.
Lemma byte_unique : forall y b c, byte_of y b -> byte_of y c -> b = c.
Proof.
  intros y b c (A & B) (C & D). assert (b < c + 1)%Z by (apply lt_IZR; rewrite plus_IZR; lra). assert (c < b + 1)%Z by (apply lt_IZR; rewrite plus_IZR; lra). lia.
Qed.
Lemma byte_mono : forall x y b c, x <= y -> byte_of x b -> byte_of y c -> (b <= c)%Z.
Proof. intros x y b c H (A & B) (C & D). assert (b < c + 1)%Z; [|lia]. apply lt_IZR. rewrite plus_IZR. lra. Qed.

(** the formulas are the documented ones, rounded to the nearest byte; others are refused *)
Definition known (n : Z) : Prop := (-36 <= n <= 36)%Z.
Lemma clip_eq : forall x y, x = y -> clip x = clip y.
Proof. now intros x y ->. Qed.
Definition raw (formula : Z) (x : R) : option R :=
    match formula with
    | 0%Z => Some 0 | 1%Z => Some (5 / 10) | 2%Z => Some 1 | 3%Z => Some x | 4%Z => Some (x * x) | 5%Z => Some (x * x * x) | 6%Z => Some (x * x * x * x)
    | 7%Z => Some (sqrt x) | 8%Z => Some (sqrt (sqrt x)) | 9%Z => Some (sin (90 * x * PI / 180)) | 10%Z => Some (cos (90 * x * PI / 180))
    | 11%Z => Some (Rabs (x - 5 / 10)) | 12%Z => Some ((2 * x - 1) * (2 * x - 1)) | 13%Z => Some (sin (180 * x * PI / 180))
    | 14%Z => Some (Rabs (cos (180 * x * PI / 180))) | 15%Z => Some (sin (360 * x * PI / 180)) | 16%Z => Some (cos (360 * x * PI / 180))
    | 17%Z => Some (Rabs (sin (360 * x * PI / 180))) | 18%Z => Some (Rabs (cos (360 * x * PI / 180))) | 19%Z => Some (Rabs (sin (720 * x * PI / 180)))
    | 20%Z => Some (Rabs (cos (720 * x * PI / 180))) | 21%Z => Some (3 * x) | 22%Z => Some (3 * x - 1) | 23%Z => Some (3 * x - 2)
    | 24%Z => Some (Rabs (3 * x - 1)) | 25%Z => Some (Rabs (3 * x - 2)) | 26%Z => Some (15 / 10 * x - 5 / 10) | 27%Z => Some (15 / 10 * x - 1)
    | 28%Z => Some (Rabs (15 / 10 * x - 5 / 10)) | 29%Z => Some (Rabs (15 / 10 * x - 1))
    | 30%Z => Some (if Rle_dec x (25 / 100) then 0 else if Rle_dec (57 / 100) x then 1 else x / (32 / 100) - 78125 / 100000)
    | 31%Z => Some (if Rle_dec x (42 / 100) then 0 else if Rle_dec (92 / 100) x then 1 else 2 * x - 84 / 100)
    | 32%Z => Some (if Rle_dec x (42 / 100) then x * 4 else if Rle_dec x (92 / 100) then - 2 * x + 184 / 100 else x / (8 / 100) - 115 / 10)
    | 33%Z => Some (Rabs (2 * x - 5 / 10)) | 34%Z => Some (2 * x) | 35%Z => Some (2 * x - 5 / 10) | 36%Z => Some (2 * x - 1)
    | _ => None
    end.
Lemma raw_known : forall n x, (0 <= n <= 36)%Z -> 0 <= x <= 1 -> exists y, raw n x = Some y /\ clip y = clip (documented n x).
Proof.
  intros n x Hn Hx.
  assert (n = 0 \/ n = 1 \/ n = 2 \/ n = 3 \/ n = 4 \/ n = 5 \/ n = 6 \/ n = 7 \/ n = 8 \/ n = 9 \/ n = 10 \/ n = 11 \/ n = 12 \/ n = 13 \/ n = 14 \/ n = 15 \/ n = 16 \/ n = 17 \/ n = 18 \/ n = 19 \/ n = 20
    \/ n = 21 \/ n = 22 \/ n = 23 \/ n = 24 \/ n = 25 \/ n = 26 \/ n = 27 \/ n = 28 \/ n = 29 \/ n = 30 \/ n = 31 \/ n = 32 \/ n = 33 \/ n = 34 \/ n = 35 \/ n = 36)%Z as H by lia.
  repeat (destruct H as [->|H]); try subst n; (eexists; split; [reflexivity|]);
    try (apply clip_eq; unfold documented, deg; first [reflexivity | field | f_equal; field | f_equal; f_equal; field]; fail).
  - unfold documented. replace (x / (32 / 100)) with (25 / 8 * x) by field. destruct (Rle_dec x (25 / 100)); [now rewrite !clip_lo by lra|destruct (Rle_dec (57 / 100) x); [now rewrite !clip_hi by lra|reflexivity]].
  - unfold documented. destruct (Rle_dec x (42 / 100)); [now rewrite !clip_lo by lra|destruct (Rle_dec (92 / 100) x); [now rewrite !clip_hi by lra|reflexivity]].
  - unfold documented. destruct (Rle_dec x (42 / 100)).
    + destruct (Rlt_dec x (25 / 100)); [apply clip_eq; ring|]. destruct (Rlt_dec x (42 / 100)); [now rewrite !clip_hi by lra|]. destruct (Rlt_dec x (92 / 100)); [|lra]. now rewrite !clip_hi by lra.
    + destruct (Rlt_dec x (25 / 100)); [lra|]. destruct (Rlt_dec x (42 / 100)); [lra|]. destruct (Rle_dec x (92 / 100)), (Rlt_dec x (92 / 100)); try lra; try reflexivity.
      assert (x = 92 / 100) as -> by lra. replace (92 / 100 / (8 / 100) - 115 / 10) with 0 by field. now rewrite !clip_lo by lra.
Qed.
Lemma raw_unknown : forall n x, (36 < n)%Z -> raw n x = None.
Proof.
  intros n x H. destruct n as [|p|p]; try lia. do 6 (destruct p as [p|p|]; try lia; try reflexivity).
Qed.
Lemma formula_raw : forall n x, color_formula n x =
  match raw (if (n <? 0)%Z then - n else n)%Z (if (n <? 0)%Z then 1 - x else x) with None => None | Some y => Some (Int_part (5 / 10 + 255 * (if Rle_dec y 0 then 0 else if Rle_dec 1 y then 1 else y))) end.
Proof. intros n x. unfold color_formula. destruct (n <? 0)%Z; reflexivity. Qed.
Theorem C79_formula : forall n x, 0 <= x <= 1 ->
  (known n -> exists b, color_formula n x = Some b /\ byte_of (shade n x) b /\ (0 <= b <= 255)%Z) /\ (~ known n -> color_formula n x = None).
Proof.
  intros n x Hx. rewrite formula_raw. unfold known, shade. destruct (Z.ltb_spec n 0) as [L|L].
  - split.
    + intro K. destruct (raw_known (- n) (1 - x) ltac:(lia) ltac:(lra)) as (y & -> & E). eexists. split; [reflexivity|]. rewrite clip_code, E.
      pose proof (byte_code (documented (- n) (1 - x))) as B. split; [exact B|]. eapply byte_range; [apply clip_range|exact B].
    + intro K. now rewrite raw_unknown by lia.
  - split.
    + intro K. destruct (raw_known n x ltac:(lia) Hx) as (y & -> & E). eexists. split; [reflexivity|]. rewrite clip_code, E.
      pose proof (byte_code (documented n x)) as B. split; [exact B|]. eapply byte_range; [apply clip_range|exact B].
    + intro K. now rewrite raw_unknown by lia.
Qed.

(** *** the whole image *)
(** values of the type *)
Definition valid (t : ctype) (v : R) : Prop :=
  if is_float t then - T_MAX t <= v <= T_MAX t else (exists z, v = IZR z) /\ T_MIN t <= v <= T_MAX t.
(** the bounds asked for; or the extreme values of the image *)
Definition lower (t : ctype) (image : list R) (a_min lo : R) : Prop :=
  a_min = DBL_MAX /\ In lo image /\ (forall v, In v image -> lo <= v) \/ a_min <> DBL_MAX /\ a_min = lo /\ valid t lo.
Definition upper (t : ctype) (image : list R) (a_max hi : R) : Prop :=
  a_max = DBL_MIN /\ In hi image /\ (forall v, In v image -> v <= hi) \/ a_max <> DBL_MIN /\ a_max = hi /\ valid t hi.
(** the span of 32-bit and 64-bit signed data fits into the type *)
Definition fits (t : ctype) (d : R) : Prop := match t with I32 => d <= IZR (2 ^ 31 - 1) | I64 => d <= IZR (2 ^ 63 - 1) | _ => True end.
(** the smallest positive numbers of the float types *)
Definition not_below_float_min (t : ctype) (v : R) : Prop := match t with F32 => FLT_MIN <= v | F64 => DBL_MIN <= v | _ => True end.

Lemma Int_part_IZR : forall z, Int_part (IZR z) = z.
Proof.
  intro z. destruct (base_Int_part (IZR z)) as (A & B). assert (Int_part (IZR z) <= z)%Z by (now apply le_IZR).
  assert (z < Int_part (IZR z) + 1)%Z by (apply lt_IZR; rewrite plus_IZR; lra). lia.
Qed.
Lemma trunc_IZR : forall z, trunc (IZR z) = IZR z.
Proof. intro z. unfold trunc. destruct (Rlt_dec (IZR z) 0); [|now rewrite Int_part_IZR]. rewrite <- (opp_IZR z), Int_part_IZR, opp_IZR. ring. Qed.
Lemma limit_id : forall t a, valid t a -> not_below_float_min t a -> limit t a = a.
Proof.
  intros t a V M. assert (T_MIN t <= a <= T_MAX t) as B.
  { unfold valid in V. destruct t; cbn [is_float] in V; try (exact (proj2 V)); cbn [T_MIN not_below_float_min] in *; lra. }
  unfold limit. destruct (Rlt_dec a (T_MIN t)); [lra|]. destruct (Rlt_dec (T_MAX t) a); [lra|]. unfold cast, valid in *. destruct (is_float t); [reflexivity|]. destruct V as ((z & ->) & _). apply trunc_IZR.
Qed.
Lemma fold_min : forall image m, fold_left (fun m v => if Rlt_dec v m then v else m) image m <= m /\ (forall v, In v image -> fold_left (fun m v => if Rlt_dec v m then v else m) image m <= v) /\
  (fold_left (fun m v => if Rlt_dec v m then v else m) image m = m \/ In (fold_left (fun m v => if Rlt_dec v m then v else m) image m) image).
Proof.
  induction image as [|x l IH]; intro m; cbn [fold_left]; [split; [lra|split; [intros v []|now left]]|].
  destruct (IH (if Rlt_dec x m then x else m)) as (A & B & C). destruct (Rlt_dec x m) as [L|L].
  - split; [lra|]. split; [intros v [<-|I]; [exact A|now apply B]|]. right. destruct C as [C|C]; [left; now rewrite C|now right].
  - split; [exact A|]. split; [intros v [<-|I]; [lra|now apply B]|]. destruct C as [C|C]; [now left|right; now right].
Qed.
Lemma fold_max : forall image m, m <= fold_left (fun m v => if Rlt_dec m v then v else m) image m /\ (forall v, In v image -> v <= fold_left (fun m v => if Rlt_dec m v then v else m) image m) /\
  (fold_left (fun m v => if Rlt_dec m v then v else m) image m = m \/ In (fold_left (fun m v => if Rlt_dec m v then v else m) image m) image).
Proof.
  induction image as [|x l IH]; intro m; cbn [fold_left]; [split; [lra|split; [intros v []|now left]]|].
  destruct (IH (if Rlt_dec m x then x else m)) as (A & B & C). destruct (Rlt_dec m x) as [L|L].
  - split; [lra|]. split; [intros v [<-|I]; [exact A|now apply B]|]. right. destruct C as [C|C]; [left; now rewrite C|now right].
  - split; [exact A|]. split; [intros v [<-|I]; [lra|now apply B]|]. destruct C as [C|C]; [now left|right; now right].
Qed.
Lemma min_is : forall t image lo, (forall v, In v image -> valid t v) -> In lo image -> (forall v, In v image -> lo <= v) -> fold_left (fun m v => if Rlt_dec v m then v else m) image (T_MAX t) = lo.
Proof.
  intros t image lo V I L. destruct (fold_min image (T_MAX t)) as (A & B & C). pose proof (B lo I) as X. apply Rle_antisym; [exact X|].
  destruct C as [C|C]; [|now apply L]. rewrite C. specialize (V lo I). unfold valid in V. destruct (is_float t); [lra|]. destruct V as (_ & V). lra.
Qed.
Lemma max_is : forall t image hi, (forall v, In v image -> valid t v) -> not_below_float_min t hi -> In hi image -> (forall v, In v image -> v <= hi) -> fold_left (fun m v => if Rlt_dec m v then v else m) image (T_MIN t) = hi.
Proof.
  intros t image hi V M I L. destruct (fold_max image (T_MIN t)) as (A & B & C). pose proof (B hi I) as X. apply Rle_antisym; [|exact X].
  destruct C as [C|C]; [|now apply L]. rewrite C. specialize (V hi I). unfold valid in V. destruct t; cbn [is_float] in V; try (destruct V as (_ & V); lra); exact M.
Qed.
Lemma fits_ok : forall t d, fits t d -> d <= T_MAX t - T_MIN t -> no_overflow t d = true.
Proof.
  intros t d Fd D. unfold no_overflow. destruct t; cbn [fits T_MAX T_MIN] in *; try reflexivity;
    match goal with |- (if Rle_dec d ?k then _ else _) = _ => destruct (Rle_dec d k) as [L|L]; [reflexivity|exfalso; apply L] end; try exact Fd;
    (eapply Rle_trans; [exact D|]; rewrite <- ?minus_IZR; apply IZR_le; cbn; lia) || (eapply Rle_trans; [exact D|]; rewrite Rminus_0_r; apply IZR_le; cbn; lia).
Qed.
Lemma pixel_ok : forall t lo hi fr fg fb v, lo < hi -> (lo < v < hi -> no_overflow t (v - lo) = true /\ no_overflow t (hi - lo) = true) -> known fr -> known fg -> known fb ->
  exists c, pixel t lo hi fr fg fb v = Some (Some c) /\ color_of fr fg fb (clip ((v - lo) / (hi - lo))) c.
Proof.
  intros t lo hi fr fg fb v H O Kr Kg Kb. set (x := clip ((v - lo) / (hi - lo))). unfold pixel.
  assert (0 < / (hi - lo)) as I by (apply Rinv_0_lt_compat; lra).
  assert ((if Rle_dec v lo then Some 0 else if Rle_dec hi v then Some 1 else if no_overflow t (v - lo) && no_overflow t (hi - lo) then Some ((v - lo) / (hi - lo)) else None) = Some x) as ->.
  { unfold x. destruct (Rle_dec v lo) as [A|A].
    - f_equal. symmetry. apply clip_lo. unfold Rdiv. assert (0 <= (lo - v) * / (hi - lo)) by (apply Rmult_le_pos; lra). lra.
    - destruct (Rle_dec hi v) as [B|B].
      + f_equal. symmetry. apply clip_hi. apply (Rmult_le_reg_r (hi - lo)); [lra|]. unfold Rdiv. rewrite Rmult_assoc, Rinv_l by lra. lra.
      + destruct O as (-> & ->); [lra|]. cbn [andb]. f_equal. symmetry. apply clip_id. split.
        * unfold Rdiv. apply Rmult_le_pos; lra.
        * apply (Rmult_le_reg_r (hi - lo)); [lra|]. unfold Rdiv. rewrite Rmult_assoc, Rinv_l by lra. lra. }
  pose proof (clip_range ((v - lo) / (hi - lo))) as X. fold x in X.
  destruct (proj1 (C79_formula fr x X) Kr) as (r & -> & Br & _). destruct (proj1 (C79_formula fg x X) Kg) as (g & -> & Bg & _). destruct (proj1 (C79_formula fb x X) Kb) as (b & -> & Bb & _).
  exists (b, g, r). split; [reflexivity|]. cbn. auto.
Qed.
(** every pixel gets the documented color of its position between the bounds *)
Theorem C79_linear : forall t image a_min a_max fr fg fb lo hi,
  (forall v, In v image -> valid t v) -> lower t image a_min lo -> upper t image a_max hi -> lo < hi -> fits t (hi - lo) ->
  (a_min <> DBL_MAX -> not_below_float_min t lo) -> not_below_float_min t hi ->
  known fr -> known fg -> known fb ->
  exists out, apply_color_map t image a_min a_max fr fg fb = Colored out /\
    Forall2 (fun v c => color_of fr fg fb (clip ((v - lo) / (hi - lo))) c) image out.
Proof.
  intros t image a_min a_max fr fg fb lo hi V Lo Hi Lt Fi Ml Mh Kr Kg Kb.
  unfold apply_color_map, c_apply_color_map.
  assert ((if (if Req_EM_T a_min DBL_MAX then true else false) then fold_left (fun m v => if Rlt_dec v m then v else m) image (T_MAX t) else limit t a_min) = lo) as ->.
  { destruct Lo as [(E & I & L)|(E & -> & Vl)]; destruct (Req_EM_T _ DBL_MAX); try contradiction; [now apply min_is|apply limit_id; auto]. }
  assert ((if (if Req_EM_T a_max DBL_MIN then true else false) then fold_left (fun m v => if Rlt_dec m v then v else m) image (T_MIN t) else limit t a_max) = hi) as ->.
  { destruct Hi as [(E & I & L)|(E & -> & Vl)]; destruct (Req_EM_T _ DBL_MIN); try contradiction; [now apply max_is|apply limit_id; auto]. }
  assert (valid t lo) as Vl by (destruct Lo as [(_ & I & _)|(_ & _ & X)]; auto). assert (valid t hi) as Vh by (destruct Hi as [(_ & I & _)|(_ & _ & X)]; auto).
  assert (no_overflow t (hi - lo) = true) as Oh.
  { destruct (is_float t) eqn:Ft; [destruct t; try discriminate; reflexivity|]. apply fits_ok; [exact Fi|]. unfold valid in Vl, Vh. rewrite Ft in *. lra. }
  assert (forall v, lo < v < hi -> no_overflow t (v - lo) = true) as Ov.
  { intros v Hv. unfold no_overflow in *. destruct t; try reflexivity; match type of Oh with (if Rle_dec ?a ?b then _ else _) = _ => destruct (Rle_dec a b); [|discriminate]; destruct (Rle_dec (v - lo) b); [reflexivity|lra] end. }
  clear - Lt Oh Ov Kr Kg Kb. induction image as [|v l (out & E & Fo)]; [exists []; split; [reflexivity|constructor]|].
  cbn [pixels]. destruct (pixel_ok t lo hi fr fg fb v Lt ltac:(auto) Kr Kg Kb) as (c & -> & C). rewrite E. exists (c :: out). split; [reflexivity|]. now constructor.
Qed.
(** an unknown formula is refused *)
Theorem C79_refused : forall t image a_min a_max fr fg fb, (forall out, apply_color_map t image a_min a_max fr fg fb = Colored out -> image = [] \/ known fr /\ known fg /\ known fb).
Proof.
  intros t image a_min a_max fr fg fb out E. destruct image as [|v l]; [now left|right]. unfold apply_color_map, c_apply_color_map in E. revert E.
  match goal with |- pixels _ ?a ?b _ _ _ _ = _ -> _ => generalize a; generalize b end. intros hi lo E. cbn [pixels] in E.
  destruct (pixel t lo hi fr fg fb v) as [[c|]|] eqn:Ep; try discriminate. unfold pixel in Ep.
  assert (forall x, 0 <= x <= 1 -> match color_formula fr x, color_formula fg x, color_formula fb x with Some r, Some g, Some b => Some (Some (b, g, r)) | _, _, _ => Some None end = Some (Some c) -> known fr /\ known fg /\ known fb) as G.
  { intros x X Q. assert (forall n y, color_formula n x = Some y -> known n) as U.
    { intros n y Y. destruct (Z_le_dec (-36) n), (Z_le_dec n 36); [split; assumption| | |]; exfalso; rewrite (proj2 (C79_formula n x X)) in Y by (unfold known; lia); discriminate. }
    destruct (color_formula fr x) eqn:E1; [|discriminate]. destruct (color_formula fg x) eqn:E2; [|discriminate]. destruct (color_formula fb x) eqn:E3; [|discriminate]. split; [|split]; eapply U; eassumption. }
  destruct (Rle_dec v lo) as [A|A]; [apply (G 0); [lra|exact Ep]|]. destruct (Rle_dec hi v) as [B|B]; [apply (G 1); [lra|exact Ep]|].
  destruct (_ && _); [|discriminate]. apply (G ((v - lo) / (hi - lo))); [|exact Ep].
  assert (0 < / (hi - lo)) as I by (apply Rinv_0_lt_compat; lra). split; [unfold Rdiv; apply Rmult_le_pos; lra|].
  apply (Rmult_le_reg_r (hi - lo)); [lra|]. unfold Rdiv. rewrite Rmult_assoc, Rinv_l by lra. lra.
Qed.

(** with the default formulas (7,5,15) a larger value is never less red or less green *)
Lemma clip_mono : forall x y, x <= y -> clip x <= clip y.
Proof. intros x y H. rewrite <- !clip_code. destruct (Rle_dec x 0), (Rle_dec y 0), (Rle_dec 1 x), (Rle_dec 1 y); lra. Qed.
Lemma default_mono : forall x y, 0 <= x <= y -> shade 7 x <= shade 7 y /\ shade 5 x <= shade 5 y.
Proof.
  intros x y H. split; apply clip_mono; cbn [documented].
  - now apply sqrt_le_1_alt.
  - now apply pow_incr.
Qed.
Theorem C79_default_order : forall t image a_min a_max lo hi out i j u v bu gu ru bv gv rv,
  (forall v, In v image -> valid t v) -> lower t image a_min lo -> upper t image a_max hi -> lo < hi -> fits t (hi - lo) ->
  (a_min <> DBL_MAX -> not_below_float_min t lo) -> not_below_float_min t hi ->
  apply_color_map t image a_min a_max 7 5 15 = Colored out ->
  nth_error image i = Some u -> nth_error image j = Some v -> nth_error out i = Some (bu, gu, ru) -> nth_error out j = Some (bv, gv, rv) ->
  u <= v -> (ru <= rv /\ gu <= gv)%Z.
Proof.
  intros t image a_min a_max lo hi out i j u v bu gu ru bv gv rv V Lo Hi Lt Fi Ml Mh E Iu Iv Ou Ov Huv.
  destruct (C79_linear t image a_min a_max 7 5 15 lo hi V Lo Hi Lt Fi Ml Mh) as (out' & E' & Fo); try (unfold known; lia).
  rewrite E in E'. injection E' as <-.
  assert (forall i x c, nth_error image i = Some x -> nth_error out i = Some c -> color_of 7 5 15 (clip ((x - lo) / (hi - lo))) c) as G.
  { clear - Fo. induction Fo as [|x c l m H Fo IH]; intros [|i] y d A B; try discriminate; cbn in A, B; [inversion A; inversion B; now subst|eauto]. }
  pose proof (G i u _ Iu Ou) as (Ru & Gu & _). pose proof (G j v _ Iv Ov) as (Rv & Gv & _).
  assert (clip ((u - lo) / (hi - lo)) <= clip ((v - lo) / (hi - lo))) as M.
  { apply clip_mono. unfold Rdiv. apply Rmult_le_compat_r; [|lra]. left. apply Rinv_0_lt_compat. lra. }
  pose proof (clip_range ((u - lo) / (hi - lo))) as C.
  destruct (default_mono _ _ (conj (proj1 C) M)) as (M7 & M5). split; [exact (byte_mono _ _ _ _ M7 Ru Rv)|exact (byte_mono _ _ _ _ M5 Gu Gv)].
Qed.

(** *** floats: the limits FLT_MIN and DBL_MIN are the smallest POSITIVE numbers *)
Lemma DBL_MIN_small : 0 < DBL_MIN < 1 / 4.
Proof.
  unfold DBL_MIN. assert (4 < IZR (2 ^ 1022)) as H by (apply IZR_lt; reflexivity). split; [apply Rinv_0_lt_compat; lra|].
  apply (Rmult_lt_reg_r (IZR (2 ^ 1022))); [lra|]. rewrite Rinv_l by lra. lra.
Qed.
Lemma DBL_MAX_large : 100 < DBL_MAX.
Proof. unfold DBL_MAX. apply IZR_lt. reflexivity. Qed.
Lemma linear_formula : forall x, 0 <= x <= 1 -> color_formula 3 x = Some (Int_part (5 / 10 + 255 * x)).
Proof. intros x X. unfold color_formula. change (3 <? 0)%Z with false. cbv beta iota. rewrite clip_code, clip_id by exact X. reflexivity. Qed.
Lemma Int_part_is : forall x z, IZR z <= x < IZR z + 1 -> Int_part x = z.
Proof.
  intros x z H. destruct (base_Int_part x) as (A & B). assert (Int_part x < z + 1)%Z by (apply lt_IZR; rewrite plus_IZR; lra). assert (z < Int_part x + 1)%Z by (apply lt_IZR; rewrite plus_IZR; lra). lia.
Qed.
(** the docstring: "If omitted, we use array.max()".  With negative values only, the largest one isn't colored as 1, but as about 1/2 *)
Theorem C79_negative_data_refuted : exists image hi out,
  (forall v, In v image -> valid F64 v) /\ In hi image /\ (forall v, In v image -> v <= hi) /\
  apply_color_map F64 image DBL_MAX DBL_MIN 3 3 3 = Colored out /\
  exists b g r, nth_error image 1 = Some hi /\ nth_error out 1 = Some (b, g, r) /\ ~ byte_of 1 r /\ (r <= 128)%Z.
Proof.
  pose proof DBL_MIN_small as D. pose proof DBL_MAX_large as X.
  set (q := (-1 - -2) / (DBL_MIN - -2)).
  assert (0 < q < 1 / 2) as Q.
  { unfold q. replace (-1 - -2) with 1 by ring. assert (0 < / (DBL_MIN - -2)) as I by (apply Rinv_0_lt_compat; lra). split; [lra|]. apply (Rmult_lt_reg_r (DBL_MIN - -2)); [lra|]. unfold Rdiv. rewrite Rmult_assoc, Rinv_l by lra. lra. }
  exists [-2; -1], (-1). eexists. split; [|split; [right; now left|split]].
  - intros v [<-|[<-|[]]]; unfold valid; cbn [is_float T_MAX]; lra.
  - intros v [<-|[<-|[]]]; lra.
  - split.
    + unfold apply_color_map, c_apply_color_map. destruct (Req_EM_T DBL_MAX DBL_MAX) as [_|?]; [|contradiction]. destruct (Req_EM_T DBL_MIN DBL_MIN) as [_|?]; [|contradiction].
      cbn [fold_left T_MAX T_MIN]. destruct (Rlt_dec (-2) DBL_MAX); [|exfalso; lra]. destruct (Rlt_dec (-1) (-2)); [exfalso; lra|]. destruct (Rlt_dec DBL_MIN (-2)); [exfalso; lra|]. destruct (Rlt_dec DBL_MIN (-1)); [exfalso; lra|].
      cbn [pixels]. unfold pixel. destruct (Rle_dec (-2) (-2)); [|exfalso; lra]. destruct (Rle_dec (-1) (-2)); [exfalso; lra|]. destruct (Rle_dec DBL_MIN (-1)); [exfalso; lra|]. cbn [no_overflow andb]. fold q.
      rewrite !linear_formula by lra. reflexivity.
    + eexists _, _, _. split; [reflexivity|]. split; [reflexivity|].
      destruct (base_Int_part (5 / 10 + 255 * q)) as (A & B). assert (Int_part (5 / 10 + 255 * q) < 129)%Z as L by (apply lt_IZR; lra).
      split; [|lia]. intros (_ & Y). assert (IZR (Int_part (5 / 10 + 255 * q)) < 129) by (now apply (IZR_lt _ 129)). lra.
Qed.
(** a negative lower bound is replaced by 0 (almost): between -1 and 1 the value 0 isn't colored as 1/2 but as 0, and -1/2 not as 1/4 but as 0 *)
Theorem C79_negative_bound_refuted : exists out,
  valid F64 (-1) /\ valid F64 1 /\ -1 <> DBL_MAX /\ 1 <> DBL_MIN /\
  apply_color_map F64 [- (1 / 2); 0] (-1) 1 3 3 3 = Colored out /\ out = [(0, 0, 0); (0, 0, 0)]%Z /\
  ~ byte_of (clip ((- (1 / 2) - -1) / (1 - -1))) 0 /\ ~ byte_of (clip ((0 - -1) / (1 - -1))) 0.
Proof.
  pose proof DBL_MIN_small as D. pose proof DBL_MAX_large as X. eexists.
  split; [unfold valid; cbn [is_float T_MAX]; lra|]. split; [unfold valid; cbn [is_float T_MAX]; lra|]. split; [lra|]. split; [lra|]. split; [|split; [reflexivity|split]].
  - unfold apply_color_map, c_apply_color_map. destruct (Req_EM_T (-1) DBL_MAX); [lra|]. destruct (Req_EM_T 1 DBL_MIN); [lra|].
    unfold limit. cbn [T_MIN T_MAX cast is_float]. destruct (Rlt_dec (-1) DBL_MIN); [|lra].
    cbn [pixels]. unfold pixel. destruct (Rle_dec (- (1 / 2)) DBL_MIN); [|lra]. destruct (Rle_dec 0 DBL_MIN); [|lra].
    rewrite !linear_formula by lra. rewrite !(Int_part_is (5 / 10 + 255 * 0) 0) by lra. reflexivity.
  - replace ((- (1 / 2) - -1) / (1 - -1)) with (1 / 4) by field. rewrite clip_id by lra. unfold byte_of. lra.
  - replace ((0 - -1) / (1 - -1)) with (1 / 2) by field. rewrite clip_id by lra. unfold byte_of. lra.
Qed.
(** 32-bit signed data that spans more than half of its range: signed integer overflow *)
Theorem C79_span_refuted : exists image, (forall v, In v image -> valid I32 v) /\ apply_color_map I32 image DBL_MAX DBL_MIN 7 5 15 = Undefined.
Proof.
  exists [-2147483648; 0; 2147483647].
  assert (forall v, In v [-2147483648; 0; 2147483647] -> valid I32 v) as V.
  { intros v H. unfold valid. cbn [is_float T_MIN T_MAX]. change (- 2 ^ 31)%Z with (-2147483648)%Z. change (2 ^ 31 - 1)%Z with 2147483647%Z.
    destruct H as [<-|[<-|[<-|[]]]]; (split; [eexists; reflexivity|]); lra. }
  split; [exact V|].
  - unfold apply_color_map, c_apply_color_map. destruct (Req_EM_T DBL_MAX DBL_MAX) as [_|?]; [|contradiction]. destruct (Req_EM_T DBL_MIN DBL_MIN) as [_|?]; [|contradiction].
    rewrite (min_is I32 _ (-2147483648) V) by (first [now left|intros v [<-|[<-|[<-|[]]]]; lra]).
    rewrite (max_is I32 _ 2147483647 V I) by (first [right; right; now left|intros v [<-|[<-|[<-|[]]]]; lra]).
    assert (0 <= 0 <= 1) as Z0 by lra.
    assert (exists c, pixel I32 (-2147483648) 2147483647 7 5 15 (-2147483648) = Some (Some c)) as (c & Ec).
    { unfold pixel. destruct (Rle_dec (-2147483648) (-2147483648)); [|exfalso; lra].
      destruct (proj1 (C79_formula 7 0 Z0) ltac:(unfold known; lia)) as (cr & -> & _). destruct (proj1 (C79_formula 5 0 Z0) ltac:(unfold known; lia)) as (cg & -> & _). destruct (proj1 (C79_formula 15 0 Z0) ltac:(unfold known; lia)) as (cb & -> & _).
      eexists. reflexivity. }
    assert (pixel I32 (-2147483648) 2147483647 7 5 15 0 = None) as E0.
    { unfold pixel. destruct (Rle_dec 0 (-2147483648)); [exfalso; lra|]. destruct (Rle_dec 2147483647 0); [exfalso; lra|]. cbn [no_overflow]. change (2 ^ 31 - 1)%Z with 2147483647%Z.
      destruct (Rle_dec (0 - -2147483648) 2147483647); [exfalso; lra|]. reflexivity. }
    cbn [pixels]. rewrite Ec, E0. reflexivity.
Qed.

(** the hypotheses are met: bytes with omitted bounds; floats with bounds *)
Example ex_C79 : let image := [10; 250; 130] in
  (forall v, In v image -> valid U8 v) /\ lower U8 image DBL_MAX 10 /\ upper U8 image DBL_MIN 250 /\ fits U8 (250 - 10) /\ not_below_float_min U8 250 /\
  apply_color_map U8 image DBL_MAX DBL_MIN 3 (-3) 2 = Colored [(255, 255, 0); (255, 0, 255); (255, 128, 128)]%Z.
Proof.
  cbv zeta. assert (forall v, In v [10; 250; 130] -> valid U8 v) as V.
  { intros v H. unfold valid. cbn [is_float T_MIN T_MAX]. destruct H as [<-|[<-|[<-|[]]]]; (split; [eexists; reflexivity|]); cbn; lra. }
  assert (lower U8 [10; 250; 130] DBL_MAX 10) as L by (left; split; [reflexivity|split; [now left|intros v [<-|[<-|[<-|[]]]]; lra]]).
  assert (upper U8 [10; 250; 130] DBL_MIN 250) as U by (left; split; [reflexivity|split; [right; now left|intros v [<-|[<-|[<-|[]]]]; lra]]).
  split; [exact V|]. split; [exact L|]. split; [exact U|]. split; [exact I|]. split; [exact I|].
  destruct (C79_linear U8 [10; 250; 130] DBL_MAX DBL_MIN 3 (-3) 2 10 250 V L U ltac:(lra) I (fun _ => I) I) as (out & -> & Fo); try (unfold known; lia).
  assert (forall x c c', color_of 3 (-3) 2 x c -> color_of 3 (-3) 2 x c' -> c = c') as Un.
  { intros x [[b g] r] [[b' g'] r'] (A & B & C) (A' & B' & C'). now rewrite (byte_unique _ _ _ A A'), (byte_unique _ _ _ B B'), (byte_unique _ _ _ C C'). }
  inversion Fo as [|? c0 ? o0 H0 F0]; subst. inversion F0 as [|? c1 ? o1 H1 F1]; subst. inversion F1 as [|? c2 ? o2 H2 F2]; subst. inversion F2; subst.
  rewrite (clip_id ((10 - 10) / (250 - 10))) in H0 by lra. rewrite (clip_id ((250 - 10) / (250 - 10))) in H1 by lra. rewrite (clip_id ((130 - 10) / (250 - 10))) in H2 by lra.
  f_equal. repeat f_equal; (eapply Un; [eassumption|]); unfold color_of, shade, byte_of; cbn [Z.ltb Z.compare Z.opp documented]; rewrite !clip_id by lra; repeat split; lra.
Qed.

Print Assumptions C79_formula.
Print Assumptions C79_linear.
Print Assumptions C79_refused.
Print Assumptions C79_default_order.
Print Assumptions C79_negative_data_refuted.
Print Assumptions C79_negative_bound_refuted.
Print Assumptions C79_span_refuted.
