(** Model: match_feature(): stereo.py:1609-2046, and apply_homography(): mrcal-genpywrap.py:721-731.
    Images are grayscale (the ndim checks at :1866-1870 are not modelled); numbers are real numbers (the code computes q0, q1 and H10 in float32).
    The visualization (:2047-2091) is not modelled.
    Three library calls:
    - cv2.remap() in transform_image() (image_transforms.py:586): argument [sample], the value of an image at a point
    - cv2.matchTemplate(): [score], by the formulas in the OpenCV documentation
    - np.linalg.lstsq(): argument [lstsq]; None: it raised an exception *)
From Coq Require Import String Reals ZArith List Bool.
From Verif Require Import S_Vec.
Import ListNotations.
Open Scope R_scope.

Record image := Img { iw : Z; ih : Z; pix : Z -> Z -> R }.

(** the results: an exception; not a finite number (a division by 0); q1=None, with the match output; (q1,diagnostics) *)
Inductive mres :=
  | Raise (why : string)
  | Undef
  | NoMatch (mo : list R)
  | Match (q1 : R * R) (mo : list R) (at_ : R * R) (opt : R).

(** mrcal-genpywrap.py:721-731.  None: a division by 0 *)
Definition homography (H : m33) (q : R * R) : option (R * R) :=
  let v := mv H (V3 (fst q) (snd q) 1) in
  if Req_EM_T (vz v) 0 then None else Some (vx v / vz v, vy v / vz v).

(** np.linalg.inv(); the matrix is not singular *)
Definition minv (m : m33) : m33 :=
  let d := det m in
  M33 ((m11 m * m22 m - m12 m * m21 m) / d) ((m02 m * m21 m - m01 m * m22 m) / d) ((m01 m * m12 m - m02 m * m11 m) / d)
      ((m12 m * m20 m - m10 m * m22 m) / d) ((m00 m * m22 m - m02 m * m20 m) / d) ((m02 m * m10 m - m00 m * m12 m) / d)
      ((m10 m * m21 m - m11 m * m20 m) / d) ((m01 m * m20 m - m00 m * m21 m) / d) ((m00 m * m11 m - m01 m * m10 m) / d).

(** np.round(): to the nearest integer, half to even *)
Definition rint (x : R) : Z :=
  let f := Int_part x in
  if Rlt_dec (x - IZR f) (1 / 2) then f
  else if Rlt_dec (1 / 2) (x - IZR f) then (f + 1)%Z
  else if Z.even f then f else (f + 1)%Z.

(** the elements of an array of width w and height h, in the order of ravel(); stereo.py:1965-1967 np.unravel_index, [(-1,-2),] *)
Definition unravel (w k : Z) : Z * Z := ((k mod w)%Z, (k / w)%Z).
Definition coords (w h : Z) : list (Z * Z) := map (fun k => unravel w (Z.of_nat k)) (seq 0 (Z.to_nat (w * h))).

(** template_size1: a scalar or an iterable *)
Inductive tsize := TScalar (n : Z) | TSeq (l : list Z).
(** :1853-1862 *)
Definition size2 (t : tsize) : option (Z * Z) :=
  match (match t with TScalar n => Some (n, n) | TSeq [a; b] => Some (a, b) | TSeq _ => None end) with
  | Some (a, b) => if (0 <? a)%Z && (0 <? b)%Z then Some (a, b) else None
  | None => None
  end.

(** :1905-1914 *)
Definition outside (w h : Z) (q : R * R) : option string :=
  if Rlt_dec (fst q) 0 then Some "left"%string
  else if Rlt_dec (snd q) 0 then Some "top"%string
  else if Rle_dec (IZR w) (fst q) then Some "right"%string
  else if Rle_dec (IZR h) (snd q) then Some "bottom"%string
  else None.
Fixpoint checkdims (w h : Z) (qall : list (R * R)) : option string :=
  match qall with
  | [] => None
  | q :: l => match outside w h q with Some e => Some e | None => checkdims w h l end
  end.

Fixpoint all_some {A} (l : list (option A)) : option (list A) :=
  match l with
  | [] => Some []
  | None :: _ => None
  | Some a :: l => match all_some l with Some r => Some (a :: r) | None => None end
  end.

(** cv2.matchTemplate(): the score of one placement, P: the pixels of the image, T: the pixels of the template.
    With a denominator of 0 OpenCV reports 0 (1 for TM_SQDIFF_NORMED), and it clamps the normalized methods at 1 *)
Inductive method := SQDIFF | SQDIFF_NORMED | CCORR | CCORR_NORMED | CCOEFF | CCOEFF_NORMED.
Definition sumR (l : list R) : R := fold_right Rplus 0 l.
Definition dotl (P T : list R) : R := sumR (map (fun pt => fst pt * snd pt) (combine P T)).
Definition sqdl (P T : list R) : R := sumR (map (fun pt => (fst pt - snd pt) * (fst pt - snd pt)) (combine P T)).
Definition meanl (l : list R) : R := sumR l / INR (length l).
Definition centered (l : list R) : list R := map (fun x => x - meanl l) l.
Definition ratio (num den zero : R) : R := if Rlt_dec 0 den then (if Rlt_dec den num then 1 else num / den) else zero.
Definition score (m : method) (P T : list R) : R :=
  match m with
  | SQDIFF => sqdl P T
  | SQDIFF_NORMED => ratio (sqdl P T) (sqrt (dotl P P * dotl T T)) 1
  | CCORR => dotl P T
  | CCORR_NORMED => ratio (dotl P T) (sqrt (dotl P P * dotl T T)) 0
  | CCOEFF => dotl (centered P) (centered T)
  | CCOEFF_NORMED =>
      ratio (dotl (centered P) (centered T)) (sqrt (dotl (centered P) (centered P) * dotl (centered T) (centered T))) 0
  end.
(** the pixels of the image under a template with the top-left corner at (x,y) *)
Definition patch (img : image) (w h x y : Z) : list R := map (fun ij => pix img (x + fst ij) (y + snd ij)) (coords w h).

(** np.argmin(), np.argmax(): the first optimum *)
Fixpoint arg_from (better : R -> R -> bool) (l : list R) (i ibest : nat) (best : R) : nat :=
  match l with
  | [] => ibest
  | v :: l => if better v best then arg_from better l (S i) i v else arg_from better l (S i) ibest best
  end.
Definition arg_opt (better : R -> R -> bool) (l : list R) : nat :=
  match l with [] => 0%nat | v :: l => arg_from better l 1 0 v end.
Definition rltb (a b : R) : bool := if Rlt_dec a b then true else false.
(** :1959-1962 *)
Definition better (m : method) : R -> R -> bool :=
  match m with SQDIFF | SQDIFF_NORMED => rltb | _ => fun a b => rltb b a end.

(** :1995-1999.  x, y, M *)
Definition xy9 : list (R * R) := [(-1, -1); (0, -1); (1, -1); (-1, 0); (0, 0); (1, 0); (-1, 1); (0, 1); (1, 1)].
Definition M9 : list (list R) := map (fun xy => let '(x, y) := xy in [1; x; y; x * x; x * y; y * y]) xy9.
(** the same points, as indices *)
Definition ij9 : list (Z * Z) := [(-1, -1); (0, -1); (1, -1); (-1, 0); (0, 0); (1, 0); (-1, 1); (0, 1); (1, 1)]%Z.

Section match_feature.
Context (sample : image -> R * R -> R) (lstsq : list (list R) -> list R -> option (list R)).

(** :1939-1947.  The search window in one dimension: the template at t, of size n, in an image of size N *)
Definition window (N r n t : Z) : Z * Z :=
  let a := (t - r)%Z in
  let b := (t + r + n - 1)%Z in
  ((if a <? 0 then 0 else a)%Z, (if N - 1 <? b then N - 1 else b)%Z).

(** :2000-2040.  The peak at (px,py) of the match output of width mw; (x0,y0), (tx,ty), q1e: q1_min, q1_template_min, q1_estimate *)
Definition subpixel (mo : list R) (mw px py x0 y0 tx ty : Z) (q1e : R * R) : mres :=
  let z := map (fun d => nth (Z.to_nat ((py + snd d) * mw + (px + fst d))) mo 0) ij9 in
  match lstsq M9 z with
  | None => NoMatch mo
  | Some [c00; c10; c01; c20; c11; c02] =>
      let d := 4 * c20 * c02 - c11 * c11 in
      if Req_EM_T d 0 then Undef else
      let x := - (2 * c10 * c02 - c01 * c11) / d in
      let y := - (2 * c01 * c20 - c10 * c11) / d in
      let opt := c00 + c10 * x + c01 * y + c20 * x * x + c11 * x * y + c02 * y * y in
      let cut := (IZR px + x, IZR py + y) in
      Match (fst cut + (IZR x0 + fst q1e - IZR tx), snd cut + (IZR y0 + snd q1e - IZR ty)) mo cut opt
  | Some _ => Raise "unpack"
  end.

(** :1939-1993.  The template T, of size (tw,th), at (tx,ty) *)
Definition match_template (image1 : image) (r : Z) (m : method) (T : list R) (tw th tx ty : Z) (q1e : R * R) : mres :=
  let '(x0, x1) := window (iw image1) r tw tx in
  let '(y0, y1) := window (ih image1) r th ty in
  let mw := (x1 - x0 + 1 - tw + 1)%Z in
  let mh := (y1 - y0 + 1 - th + 1)%Z in
  if ((mw <=? 0) || (mh <=? 0))%Z then Raise "matchTemplate" else
  let mo := map (fun ij => score m (patch image1 tw th (x0 + fst ij) (y0 + snd ij)) T) (coords mw mh) in
  let '(px, py) := unravel mw (Z.of_nat (arg_opt (better m) mo)) in
  if ((px <=? 0) || (py <=? 0) || (mw - 1 <=? px) || (mh - 1 <=? py))%Z then NoMatch mo
  else subpixel mo mw px py x0 y0 tx ty q1e.

(** :1901-1935 *)
Definition with_homography (image0 image1 : image) (r tw th : Z) (m : method) (H : m33) (q1e : R * R) : mres :=
  let tx := rint (fst q1e - (IZR tw - 1) / 2) in
  let ty := rint (snd q1e - (IZR th - 1) / 2) in
  match checkdims (iw image1) (ih image1) [(IZR tx, IZR ty); (IZR (tx + tw - 1), IZR (ty + th - 1))] with
  | Some e => Raise ("Too close to the " ++ e ++ " edge in image1")
  | None =>
      if Req_EM_T (det H) 0 then Raise "Singular matrix" else
      let back i j := homography (minv H) (IZR (tx + i), IZR (ty + j)) in
      match all_some (map (fun ij => back (fst ij) (snd ij)) (coords tw th)),
            all_some [back 0 0; back 0 (th - 1); back (tw - 1) 0; back (tw - 1) (th - 1)]%Z with
      | Some q0, Some corners =>
          match checkdims (iw image0) (ih image0) corners with
          | Some e => Raise ("Too close to the " ++ e ++ " edge in image0")
          | None => match_template image1 r m (map (sample image0) q0) tw th tx ty q1e
          end
      | _, _ => Undef
      end
  end.

(** :1853-1892 *)
Definition match_feature (image0 image1 : image) (q0 : R * R) (search_radius1 : Z) (template_size1 : tsize)
  (q1_estimate : option (R * R)) (H10 : option m33) (meth : option method) : mres :=
  match size2 template_size1 with
  | None => Raise "template_size1"
  | Some (tw, th) =>
      let m := match meth with Some m => m | None => CCORR_NORMED end in
      match q1_estimate, H10 with
      | None, None | Some _, Some _ => Raise "Exactly one of (q1_estimate,H10) must be given"
      | Some q1e, None =>
          with_homography image0 image1 search_radius1 tw th m
            (M33 1 0 (fst q1e - fst q0) 0 1 (snd q1e - snd q0) 0 0 1) q1e
      | None, Some H =>
          match homography H q0 with
          | Some q1e => with_homography image0 image1 search_radius1 tw th m H q1e
          | None => Undef
          end
      end
  end.
End match_feature.
