(** Specification vocabulary for lens model names (C08-C10): which texts denote
    which lens model.  Order-free; refers to the model only for the names of the
    lens models and character classes. *)
From Coq Require Import ZArith NArith List Bool QArith String Ascii.
From Verif Require Import M_Lens M_Names.
Open Scope string_scope.
Open Scope Z_scope.

Fixpoint all_chars (P : ascii -> bool) (s : string) : Prop :=
  match s with EmptyString => True | String c r => P c = true /\ all_chars P r end.

(** positional value of a decimal numeral *)
Fixpoint dec_value (s : string) : Z :=
  match s with
  | EmptyString => 0
  | String c r => digit_val c * 10 ^ Z.of_nat (String.length r) + dec_value r
  end.

Definition sign_text (s : string) (neg : bool) : Prop :=
  (s = "" /\ neg = false) \/ (s = "+" /\ neg = false) \/ (s = "-" /\ neg = true).

(** texts read as a 16-bit unsigned number *)
Definition u16_text (a : string) (v : Z) : Prop :=
  exists sp sg neg ds,
    a = sp ++ sg ++ ds /\ all_chars is_space sp /\ sign_text sg neg /\
    all_chars is_digit ds /\ ds <> "" /\
    v = if 2^64 - 1 <? dec_value ds then 65535
        else (if neg then - dec_value ds else dec_value ds) mod 65536.

(** ".ddd" or nothing; [n] digits after the point *)
Definition frac_text (f : string) (ds : string) : Prop :=
  (f = "" /\ ds = "") \/ (f = String "." ds).
(** texts read as a floating-point number *)
Definition lf_text (rnd : Q -> Q) (a : string) (q : Q) : Prop :=
  exists sp sg neg ip f fr,
    all_chars is_space sp /\ sign_text sg neg /\ all_chars is_digit ip /\
    frac_text f fr /\ all_chars is_digit fr /\ (ip ++ fr <> "") /\
    let v := dec_value (ip ++ fr) in
    let mant := (if neg then - v else v) # p10 (String.length fr) in
    (a = sp ++ sg ++ ip ++ f /\ q = rnd mant) \/
    (exists E es eneg ed, (E = "e" \/ E = "E") /\ sign_text es eneg /\ all_chars is_digit ed /\ ed <> "" /\
       a = sp ++ sg ++ ip ++ f ++ E ++ es ++ ed /\
       q = rnd (mant * q10 (if eneg then - dec_value ed else dec_value ed))%Q).

(** the models that have no configuration, and their names *)
Definition noconfig_model (t : ltype) : option lensmodel :=
  match t with
  | T_PINHOLE => Some PINHOLE | T_STEREOGRAPHIC => Some STEREOGRAPHIC
  | T_LONLAT => Some LONLAT | T_LATLON => Some LATLON
  | T_OPENCV4 => Some OPENCV4 | T_OPENCV5 => Some OPENCV5
  | T_OPENCV8 => Some OPENCV8 | T_OPENCV12 => Some OPENCV12
  | T_CAHVOR => Some CAHVOR
  | T_CAHVORE | T_SPLINED => None
  end.

(** configuration texts (everything after the type name) *)
Definition config_text (rnd : Q -> Q) (t : ltype) (c : string) (m : lensmodel) : Prop :=
  match t with
  | T_CAHVORE => exists l q, c = "_linearity=" ++ l /\ lf_text rnd l q /\ m = CAHVORE q
  | T_SPLINED => exists a b d e cfg,
      c = "_order=" ++ a ++ "_Nx=" ++ b ++ "_Ny=" ++ d ++ "_fov_x_deg=" ++ e /\
      u16_text a (sp_order cfg) /\ u16_text b (sp_Nx cfg) /\ u16_text d (sp_Ny cfg) /\
      u16_text e (sp_fov cfg) /\ m = SPLINED cfg
  | _ => False
  end.

(** [s] is a well-formed name of [m] *)
Definition denotes (rnd : Q -> Q) (s : string) (m : lensmodel) : Prop :=
  exists t, (s = base_name t /\ noconfig_model t = Some m) \/
            (exists c, s = base_name t ++ c /\ config_text rnd t c m).

Definition needs_config (t : ltype) : Prop := noconfig_model t = None.

(** [s] is a type name that needs a configuration, with something after it *)
Definition has_config_part (s : string) : Prop :=
  exists t c, needs_config t /\ s = base_name t ++ String "_" c.
Definition lacks_config (s : string) : Prop :=
  exists t, needs_config t /\ s = base_name t.

(** what each answer of the parser means *)
Definition classified (rnd : Q -> Q) (s : string) (r : parsed) : Prop :=
  match r with
  | Accept m => denotes rnd s m
  | Missing_config => lacks_config s
  | Bad_config => has_config_part s /\ (forall m, ~ denotes rnd s m)
  | Invalid_type => ~ has_config_part s /\ ~ lacks_config s /\ (forall m, ~ denotes rnd s m)
  end.

(** bytes of a buffer *)
Definition holds (out : mem) (text : string) : Prop :=
  forall i c, String.get i text = Some c -> out (Z.of_nat i) = c.
