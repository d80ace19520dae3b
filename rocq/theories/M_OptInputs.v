(** Model: mrcal/cameramodel.py _serialize_optimization_inputs() (lines 160-307) and
    _deserialize_optimization_inputs() (lines 310-387).

    Trusted: numpy's savez_compressed()/load() and base64's b85encode()/b85decode()
    are an exact codec for dicts of arrays (the variables [encode], [decode]).
    Not modelled: values that numpy can only store by pickling them. *)
From Coq Require Import String List Bool ZArith QArith.
Import ListNotations.
Open Scope string_scope.

(** ** Python values *)
Inductive item :=
| I_bool (b : bool) | I_int (z : Z) | I_float (q : Q) | I_nonfinite (* nan, +-inf *)
| I_str (s : string).
Inductive val :=
| V_none
| V_item (i : item)                              (* a Python scalar or string *)
| V_array (shape : list nat) (data : list item). (* a numpy array; shape () allowed *)

(** ** Python dicts: in order of insertion *)
Definition dict := list (string * val).
Fixpoint dget {A} (k : string) (d : list (string * A)) : option A :=
  match d with [] => None | (k', v) :: d => if String.eqb k k' then Some v else dget k d end.
Fixpoint dset {A} (k : string) (v : A) (d : list (string * A)) : list (string * A) :=
  match d with
  | [] => [(k, v)]
  | (k', v') :: d => if String.eqb k k' then (k', v) :: d else (k', v') :: dset k v d
  end.
Fixpoint ddel {A} (k : string) (d : list (string * A)) : list (string * A) :=
  match d with [] => [] | (k', v) :: d => if String.eqb k k' then ddel k d else (k', v) :: ddel k d end.
Definition din {A} (k : string) (d : list (string * A)) : bool := match dget k d with Some _ => true | None => false end.

(** ** Serializing *)
Definition V_empty : val := V_item (I_str "").
(** cameramodel.py:243-246 *)
Definition ignorable_keys : list string :=
  ["do_apply_regularization_unity_cam01"; "observations_point_triangulated"; "indices_point_triangulated_camintrinsics_camextrinsics"].
Definition ignorable_key (k : string) : bool := existsb (String.eqb k) ignorable_keys.
(** Python's "not v" for a scalar or string *)
Definition falsy_item (i : item) : bool :=
  match i with
  | I_bool b => negb b | I_int z => (z =? 0)%Z | I_float q => Qeq_bool q 0 | I_nonfinite => false
  | I_str s => String.eqb s ""
  end.
Definition size (shape : list nat) : nat := fold_right Nat.mul 1%nat shape.
(** cameramodel.py:252-256: is the entry the default, to be left out? *)
Definition is_default (v : val) : bool :=
  match v with
  | V_array shape _ => Nat.eqb (size shape) 0
  | V_item i => falsy_item i
  | V_none => true
  end.
(** cameramodel.py:247-258 *)
Fixpoint normalized (d : dict) : dict :=
  match d with
  | [] => []
  | (k, v) :: d =>
    let v := match v with V_none => V_empty | _ => v end in
    if (ignorable_key k && is_default v)%bool then normalized d else (k, v) :: normalized d
  end.
(** cameramodel.py:269-270 *)
Definition is_empty (v : val) : bool := match v with V_item (I_str s) => String.eqb s "" | _ => false end.
(** cameramodel.py:272: a str that starts with 'ERROR:' *)
Definition is_poison (v : option val) : bool := match v with Some (V_item (I_str s)) => String.prefix "ERROR:" s | _ => false end.

(** cameramodel.py:283-284: not np.any(v_from-v_to), False if that raises.  A
    difference with a nan or an inf is a nan; strings raise; bools raise. *)
Definition same_item (a b : item) : bool :=
  match a, b with
  | I_int x, I_int y => (x =? y)%Z
  | I_float x, I_float y => Qeq_bool x y
  | I_int x, I_float y | I_float y, I_int x => Qeq_bool (inject_Z x) y
  | _, _ => false
  end.
Fixpoint same_items (a b : list item) : bool :=
  match a, b with [], [] => true | x :: a, y :: b => (same_item x y && same_items a b)%bool | _, _ => false end.
Definition shape_eqb (a b : list nat) : bool := if list_eq_dec Nat.eq_dec a b then true else false.
Section Codec.
(** numpy's broadcasting, for arrays of different shapes *)
Variable broadcast_same : val -> val -> bool.
Definition np_same (a b : val) : bool :=
  match a, b with
  | V_array s x, V_array s' y => if shape_eqb s s' then same_items x y else broadcast_same a b
  | V_item x, V_item y => same_item x y
  | _, _ => broadcast_same a b
  end.

(** cameramodel.py:262-294 renamed_write_old_name().  None: an exception *)
Definition renamed_write_old_name (name_from name_to : string) (d : dict) : option dict :=
  let v_to := match dget name_to d with Some v => v | None => V_empty end in
  let d := if is_poison (dget name_from d) then dset name_from v_to d else d in
  let v_from := match dget name_from d with Some v => v | None => V_empty end in
  if negb (is_empty v_from) then
    if is_empty v_to then Some d
    else if np_same v_from v_to then Some (ddel name_to d) else None
  else
    let d := if negb (is_empty v_to) then dset name_from v_to d else d in
    Some (ddel name_to d).

(** What numpy stores: every value as an array, scalars and strings with shape () *)
Definition npz := list (string * (list nat * list item)).
Definition to_array (v : val) : list nat * list item :=
  match v with V_none => ([], [I_str ""]) | V_item i => ([], [i]) | V_array s x => (s, x) end.
Definition savez (d : dict) : npz := map (fun kv => (fst kv, to_array (snd kv))) d.
Variable encode : npz -> string.
Variable decode : string -> option npz.
(** cameramodel.py:160-307 *)
Definition serialize (d : dict) : option string :=
  match renamed_write_old_name "frames_rt_toref" "rt_ref_frame" (normalized d) with
  | None => None
  | Some d =>
    match renamed_write_old_name "extrinsics_rt_fromref" "rt_cam_ref" d with
    | None => None
    | Some d => Some (encode (savez d))
    end
  end.

(** ** Deserializing *)
(** cameramodel.py:329-336 *)
Definition loaded (a : list nat * list item) : val :=
  match a with
  | ([], [i]) => if is_empty (V_item i) then V_none else V_item i
  | (s, x) => V_array s x
  end.
(** cameramodel.py:353 *)
Definition poison (name_from name_to : string) : val :=
  V_item (I_str ("ERROR: mrcal 2.5 renamed optimization_inputs fields: """ ++ name_from ++ """ -> """ ++ name_to ++ """. Please update your code to use the new name")).
(** cameramodel.py:339-353 renamed() *)
Definition renamed (name_from name_to : string) (poisonold : bool) (d : dict) : dict :=
  let d := match dget name_from d with
           | Some v => if din name_to d then d else ddel name_from (dset name_to v d)
           | None => d
           end in
  if poisonold then dset name_from (poison name_from name_to) d else d.
Definition zeros06 : val := V_array [0; 6]%nat [].
(** cameramodel.py:310-387 *)
Definition deserialize (s : string) : option dict :=
  match decode s with
  | None => None
  | Some z =>
    let d := map (fun kv => (fst kv, loaded (snd kv))) z in
    let d := renamed "do_optimize_intrinsic_core" "do_optimize_intrinsics_core" false d in
    let d := renamed "do_optimize_intrinsic_distortions" "do_optimize_intrinsics_distortions" false d in
    let d := renamed "frames_rt_toref" "rt_ref_frame" true d in
    let d := renamed "extrinsics_rt_fromref" "rt_cam_ref" true d in
    let d := ddel "calibration_object_width_n" d in
    let d := ddel "calibration_object_height_n" d in
    Some (match dget "rt_cam_ref" d with
          | None | Some V_none => dset "rt_cam_ref" zeros06 d
          | Some _ => d
          end)
  end.
End Codec.
