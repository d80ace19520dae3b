(** Model: stereo_pair_diff(): model_analysis.py:1931-2104.
    Cameras as in M_Diff, with the kind of the lens model.  None: a value that isn't finite.
    The names that the code uses: np.norm2 (:2061) is not a function of numpy, so that evaluating it is an exception.
    Not modelled: the shape of the arrays (lists in raster order). *)
From Coq Require Import Reals ZArith List Bool.
From Verif Require Import S_Vec M_Pose M_Match M_Diff.
Import ListNotations.
Open Scope R_scope.

Inductive kind := Central | Cahvore | Other_noncentral.
Record camera := Camera { c_model : model; c_kind : kind }.
Definition pair := (camera * camera)%type.
Record pd_result := PD { pd_difflen : list (option R); pd_diff : list (option pixel); pd_q0 : list pixel;
  pd_reproject : pixel -> nat -> nat -> option pixel }.
Inductive outcome := Raised | Attribute_error | Done (r : pd_result).

(** :2052-2068.  None: the loop continues *)
Definition check_kind (k : kind) : option outcome :=
  match k with
  | Central => None
  | Other_noncentral => Some Raised
  | Cahvore => Some Attribute_error
  end.
Fixpoint check_kinds (l : list kind) : option outcome :=
  match l with
  | [] => None
  | k :: l => match check_kind k with Some e => Some e | None => check_kinds l end
  end.
(** :2040-2041 *)
Definition Rt10_of (p : pair) : Rt :=
  compose_Rt2 (m_cam_ref (c_model (snd p))) (invert_Rt (m_cam_ref (c_model (fst p)))) false false.
(** :2047 *)
Definition no_translation (x : Rt) : Rt := mkRt (Rt_R x) v0.
Definition same_size (a b : camera) : bool :=
  ((fst (m_size (c_model a)) =? fst (m_size (c_model b))) && (snd (m_size (c_model a)) =? snd (m_size (c_model b))))%Z.
(** :2101 *)
Definition pixel_sub (a b : option pixel) : option pixel :=
  match a, b with Some a, Some b => Some (fst a - fst b, snd a - snd b) | _, _ => None end.
Definition stereo_pair_diff (pairs : list pair) (gw : Z) (gh : option Z) (distance : option R) : outcome :=
  match pairs with
  | [pa; pb] =>
    let Rt10 p := match distance with None => no_translation (Rt10_of p) | Some _ => Rt10_of p end in
    let d := match distance with None => 1 | Some d => d end in
    match check_kinds (map c_kind [fst pa; snd pa; fst pb; snd pb]) with
    | Some e => e
    | None =>
      if negb (same_size (fst pb) (fst pa)) then Raised
      else if negb (same_size (snd pb) (snd pa)) then Raised
      else
        let reproject q p i :=
          let pr := match p with O => pa | _ => pb end in
          let T := match i with O => Rt10 pr | _ => invert_Rt (Rt10 pr) end in
          let from := match i with O => fst pr | _ => snd pr end in
          let to := match i with O => snd pr | _ => fst pr end in
          option_map (fun v => m_project (c_model to) (transform_point_Rt T (vscale d v) false)) (m_unproject (c_model from) q) in
        let q0 := sample_imager gw gh (fst (m_size (c_model (fst pa)))) (snd (m_size (c_model (fst pa)))) in
        let q1 p := map (fun q => reproject q p 0%nat) q0 in
        let diff := map (fun e => pixel_sub (snd e) (fst e)) (combine (q1 0%nat) (q1 1%nat)) in
        Done (PD (map (option_map mag) diff) diff q0 reproject)
    end
  | _ => Raised
  end.
