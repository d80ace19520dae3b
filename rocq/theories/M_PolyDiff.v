(** Model of polygon_difference() (mrcal/utils.py:648-746).
    The shapely library is external: its difference(), split() and the centroid of a ring are oracles (Section variables); what
    is relied on of them is stated as hypotheses in C_PolyDiff.v.  Coordinates are real numbers.
    An exception (including Python's RecursionError, modelled by running out of [fuel]) is None. *)
From Coq Require Import Reals List.
Import ListNotations.
Open Scope R_scope.

Definition pt := (R * R)%type.
Definition ring := list pt.
(** shapely.geometry.Polygon: p.exterior.coords, and [hole.coords for hole in p.interiors] (used in utils.py:713-727) *)
Record poly := Poly { exterior : ring; interiors : list ring }.
(** the types told apart in utils.py:702-711: Polygon; MultiPolygon and GeometryCollection with their .geoms; anything else *)
Inductive geom := GPolygon (p : poly) | GCollection (gs : list geom) | GOther.

(** numpy arithmetic on points (utils.py:731): a + 100*(b-a) *)
Definition extend (a b : pt) : pt := (fst a + 100 * (fst b - fst a), snd a + 100 * (snd b - snd a)).

(** what is computed: the polygons that are returned, and the shapes that the "Couldn't split" warnings were printed about *)
Definition outcome := option (list ring * list poly).
Definition glue2 (a b : outcome) : outcome :=
  match a, b with Some (r, w), Some (r', w') => Some (r ++ r', w ++ w') | _, _ => None end.

Section Shapely.
Variable difference : ring -> ring -> geom.       (* Polygon(positive).difference(Polygon(negative)) *)
Variable centroid : ring -> pt.                    (* hole.centroid *)
Variable split : poly -> pt -> pt -> list geom.    (* shapely.ops.split(p, LineString((l0,l1))) *)

(** utils.py:727-739: "for i in range(0,len(hole.coords))": the pieces of the first cut that makes more than one *)
Fixpoint first_cut (p : poly) (c : pt) (vertices : ring) : option (list geom) :=
  match vertices with
  | [] => None
  | v :: rest =>
      let s := split p (extend v c) (extend c v) in
      if Nat.ltb 1 (length s) then Some s else first_cut p c rest
  end.

(** split_polygon_to_remove_holes (utils.py:709-743) *)
Fixpoint remove_holes (fuel : nat) (g : geom) : outcome :=
  match fuel with
  | 0%nat => None
  | S fuel =>
      match g with
      | GPolygon p =>
          match interiors p with
          | [] => match exterior p with [] => Some ([], []) | c => Some ([c], []) end
          | hole :: _ =>
              match first_cut p (centroid hole) hole with
              | Some s => fold_right (fun piece acc => glue2 (remove_holes fuel piece) acc) (Some ([], [])) s
              | None => Some ([], [p])      (* the warning (utils.py:741-743) *)
              end
          end
      | _ => None
      end
  end.

(** utils.py:701-746 *)
Definition polygon_difference (fuel : nat) (positive negative : ring) : outcome :=
  match difference positive negative with
  | GCollection gs => fold_right (fun g acc => glue2 (remove_holes fuel g) acc) (Some ([], [])) gs
  | GPolygon p => fold_right (fun g acc => glue2 (remove_holes fuel g) acc) (Some ([], [])) [GPolygon p]
  | GOther => None
  end.
End Shapely.
