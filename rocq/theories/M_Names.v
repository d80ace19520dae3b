(** Model: lens model names (mrcal.c:27-253).

    A C string is modelled by the bytes before its terminator.  libc's
    snprintf()/sscanf() are not part of mrcal: the conversions these functions
    use (%u %hu %.2f %lf %n) are modelled from the C standard; the hexadecimal,
    "inf" and "nan" spellings accepted by %lf are not modelled (a [Q] has no
    such values).  The conversion of a decimal number to the nearest double is
    the parameter [rnd]. *)
From Coq Require Import ZArith NArith List Bool QArith Qabs String Ascii.
From Verif Require Import M_Lens.
Import ListNotations.
Open Scope string_scope.
Open Scope Z_scope.

(** types.h:102-117 mrcal_lensmodel_type_t *)
Inductive ltype :=
| T_PINHOLE | T_STEREOGRAPHIC | T_LONLAT | T_LATLON
| T_OPENCV4 | T_OPENCV5 | T_OPENCV8 | T_OPENCV12
| T_CAHVOR | T_CAHVORE | T_SPLINED.

Definition type_of (m : lensmodel) : ltype :=
  match m with
  | PINHOLE => T_PINHOLE | STEREOGRAPHIC => T_STEREOGRAPHIC | LONLAT => T_LONLAT | LATLON => T_LATLON
  | OPENCV4 => T_OPENCV4 | OPENCV5 => T_OPENCV5 | OPENCV8 => T_OPENCV8 | OPENCV12 => T_OPENCV12
  | CAHVOR => T_CAHVOR | CAHVORE _ => T_CAHVORE | SPLINED _ => T_SPLINED
  end.

(** the macro argument [s] of types.h:33-46, stringised *)
Definition base_name (t : ltype) : string :=
  match t with
  | T_PINHOLE => "LENSMODEL_PINHOLE"
  | T_STEREOGRAPHIC => "LENSMODEL_STEREOGRAPHIC"
  | T_LONLAT => "LENSMODEL_LONLAT"
  | T_LATLON => "LENSMODEL_LATLON"
  | T_OPENCV4 => "LENSMODEL_OPENCV4"
  | T_OPENCV5 => "LENSMODEL_OPENCV5"
  | T_OPENCV8 => "LENSMODEL_OPENCV8"
  | T_OPENCV12 => "LENSMODEL_OPENCV12"
  | T_CAHVOR => "LENSMODEL_CAHVOR"
  | T_CAHVORE => "LENSMODEL_CAHVORE"
  | T_SPLINED => "LENSMODEL_SPLINED_STEREOGRAPHIC"
  end.

(** ** libc number formatting *)
Definition digit (d : N) : ascii := ascii_of_N (48 + d).

(** decimal digits, most significant first; [fuel] bounds the digit count *)
Fixpoint digits_fuel (fuel : nat) (n : N) (acc : string) : string :=
  let acc' := String (digit (n mod 10)) acc in
  match fuel with
  | O => acc'
  | S f => if (n <? 10)%N then acc' else digits_fuel f (n / 10) acc'
  end.
(** printf %u *)
Definition fmt_u (n : Z) : string := digits_fuel (N.size_nat (Z.to_N n)) (Z.to_N n) "".

(** round to nearest, ties to even: the default printf rounding *)
Definition rne (q : Q) : Z :=
  let fl := Qnum q / Zpos (Qden q) in
  let r2 := 2 * (Qnum q mod Zpos (Qden q)) in
  match (r2 ?= Zpos (Qden q))%Z with
  | Lt => fl
  | Gt => fl + 1
  | Eq => if Z.even fl then fl else fl + 1
  end.
(** printf %.2f.  A negative number that rounds to 0 prints as -0.00 *)
Definition fmt_2f (x : Q) : string :=
  let h := rne (Qabs x * (100#1))%Q in
  (if (Qnum x <? 0)%Z then "-" else "") ++ fmt_u (h / 100) ++ "." ++
  String (digit (Z.to_N (h mod 100 / 10))) (String (digit (Z.to_N (h mod 10))) "").

(** ** libc number scanning *)
Definition is_digit (c : ascii) : bool := let n := N_of_ascii c in (48 <=? n)%N && (n <=? 57)%N.
Definition digit_val (c : ascii) : Z := Z.of_N (N_of_ascii c) - 48.
(** isspace() in the C locale *)
Definition is_space (c : ascii) : bool :=
  let n := N_of_ascii c in ((9 <=? n)%N && (n <=? 13)%N) || (n =? 32)%N.
Fixpoint skip_space (s : string) : string :=
  match s with
  | String c r => if is_space c then skip_space r else s
  | EmptyString => s
  end.
(** greedy run of digits: (value continuing from [acc], how many, rest) *)
Fixpoint scan_digits (acc : Z) (n : nat) (s : string) : Z * nat * string :=
  match s with
  | String c r => if is_digit c then scan_digits (acc * 10 + digit_val c) (S n) r else (acc, n, s)
  | EmptyString => (acc, n, s)
  end.
Definition scan_sign (s : string) : bool * string :=
  match s with
  | String "-" r => (true, r)
  | String "+" r => (false, r)
  | _ => (false, s)
  end.
(** sscanf %hu: strtoul() (saturating at ULONG_MAX, negating modulo 2^64) then
    conversion to unsigned short *)
Definition scan_hu (s : string) : option (Z * string) :=
  let '(neg, s1) := scan_sign (skip_space s) in
  let '(v, n, rest) := scan_digits 0 0 s1 in
  match n with
  | O => None
  | S _ =>
    let ulong := if v >? 2^64 - 1 then 2^64 - 1 else if neg then (- v) mod 2^64 else v in
    Some (ulong mod 65536, rest)
  end.

Definition pow10 (n : nat) : positive := Pos.pow 10 (Pos.of_nat n).

(** literal characters of a scanf format *)
Fixpoint scan_lit (lit s : string) : option string :=
  match lit, s with
  | EmptyString, _ => Some s
  | String a l, String b r => if Ascii.eqb a b then scan_lit l r else None
  | String _ _, EmptyString => None
  end.

Section Names.
Variable rnd : Q -> Q.

Definition p10 (n : nat) : positive := match n with O => 1%positive | S _ => pow10 n end.
(** 10^e for an exponent that may be negative *)
Definition q10 (e : Z) : Q := if e <? 0 then 1 # p10 (Z.to_nat (- e)) else (Zpos (p10 (Z.to_nat e)) # 1).

(** sscanf %lf, decimal spellings *)
Definition scan_lf (s : string) : option (Q * string) :=
  let '(neg, s1) := scan_sign (skip_space s) in
  let '(ip, ni, s2) := scan_digits 0 0 s1 in
  let '(m, nf, s3) :=
    match s2 with
    | String "." r => scan_digits ip 0 r
    | _ => (ip, 0%nat, s2)
    end in
  if (ni + nf =? 0)%nat then None
  else
    let mant := (if neg then - m else m) # p10 nf in
    match s3 with
    | String c r =>
      if (Ascii.eqb c "e" || Ascii.eqb c "E")%bool then
        let '(eneg, s4) := scan_sign r in
        let '(e, ne, s5) := scan_digits 0 0 s4 in
        match ne with
        | O => None
        | S _ => Some (rnd (mant * q10 (if eneg then - e else e))%Q, s5)
        end
      else Some (rnd mant, s3)
    | EmptyString => Some (rnd mant, s3)
    end.

(** ** mrcal.c:73-90 the two snprintf_model functions: the full text *)
Definition config_str (m : lensmodel) : string :=
  match m with
  | CAHVORE l => "_linearity=" ++ fmt_2f l
  | SPLINED c => "_order=" ++ fmt_u (sp_order c) ++ "_Nx=" ++ fmt_u (sp_Nx c) ++
                 "_Ny=" ++ fmt_u (sp_Ny c) ++ "_fov_x_deg=" ++ fmt_u (sp_fov c)
  | _ => ""
  end.
(** the text that mrcal_lensmodel_name() prints (mrcal.c:92-114) *)
Definition name_text (m : lensmodel) : string := base_name (type_of m) ++ config_str m.

(** snprintf(out,size,...) of a fully-formatted text: writes at most size-1
    bytes and a terminator (nothing if size=0), returns the full length.
    [out] is a piece of memory: address offset -> byte. *)
Definition mem := Z -> ascii.
Definition snprintf (out : mem) (size : Z) (text : string) : Z * mem :=
  let len := Z.of_nat (String.length text) in
  let n := Z.min len (size - 1) in
  (len, fun i => if (0 <=? i) && (i <? n) && (0 <? size) then
                   match String.get (Z.to_nat i) text with Some c => c | None => out i end
                 else if (i =? n) && (0 <? size) then "000"%char else out i).
(** mrcal.c:92-114 mrcal_lensmodel_name(), for size >= 0.  A negative size
    converts to a huge size_t: not modelled. *)
Definition lensmodel_name (out : mem) (size : Z) (m : lensmodel) : bool * mem :=
  let '(n, out') := snprintf out size (name_text m) in
  (size >? n, out').

(** mrcal.c:47-69 mrcal_lensmodel_name_unconfigured(); also the entries of
    mrcal_supported_lensmodel_names(), mrcal.c:142-155 *)
Definition name_unconfigured (t : ltype) : string :=
  base_name t ++
  match t with
  | T_CAHVORE => "_linearity=..."
  | T_SPLINED => "_order=..._Nx=..._Ny=..._fov_x_deg=..."
  | _ => ""
  end.

Definition obind {A B} (o : option A) (f : A -> option B) : option B :=
  match o with Some a => f a | None => None end.
Notation "x <- e ; f" := (obind e (fun x => f)) (at level 60, e at next level, right associativity).

(** mrcal.c:117-128 LENSMODEL_CAHVORE__scan_model_config(): all conversions
    succeed and the whole string is consumed *)
Definition scan_cahvore (s : string) : option Q :=
  s <- scan_lit "_linearity=" s ;
  r <- scan_lf s ;
  match snd r with EmptyString => Some (fst r) | _ => None end.
(** mrcal.c:129-140 LENSMODEL_SPLINED_STEREOGRAPHIC__scan_model_config() *)
Definition scan_splined (s : string) : option spline_cfg :=
  s <- scan_lit "_order=" s ;
  o <- scan_hu s ;
  s <- scan_lit "_Nx=" (snd o) ;
  nx <- scan_hu s ;
  s <- scan_lit "_Ny=" (snd nx) ;
  ny <- scan_hu s ;
  s <- scan_lit "_fov_x_deg=" (snd ny) ;
  f <- scan_hu s ;
  match snd f with
  | EmptyString => Some {| sp_order := fst o; sp_Nx := fst nx; sp_Ny := fst ny; sp_fov := fst f |}
  | _ => None
  end.

Inductive parsed :=
| Accept (m : lensmodel) | Invalid_type | Missing_config | Bad_config.

(** CHECK_AND_RETURN_NOCONFIG, mrcal.c:171-176 *)
Definition check_noconfig (s : string) (m : lensmodel) (k : parsed) : parsed :=
  if String.eqb s (base_name (type_of m)) then Accept m else k.
(** CHECK_AND_RETURN_WITHCONFIG, mrcal.c:178-205; [scan] is the model's
    __scan_model_config *)
Definition check_withconfig (s : string) (t : ltype) (scan : string -> option lensmodel) (k : parsed) : parsed :=
  match scan_lit (base_name t) s with     (* strncmp(name,#s,len_s)==0; the rest is &name[len_s] *)
  | Some EmptyString => Missing_config
  | Some (String c r) =>
      if Ascii.eqb c "_" then
        match scan (String c r) with Some m => Accept m | None => Bad_config end
      else k
  | None => k
  end.
(** mrcal.c:165-221 mrcal_lensmodel_from_name(); None = NULL *)
Definition from_name (name : option string) : parsed :=
  match name with
  | None => Invalid_type
  | Some s =>
    check_noconfig s PINHOLE (
    check_noconfig s STEREOGRAPHIC (
    check_noconfig s LONLAT (
    check_noconfig s LATLON (
    check_noconfig s OPENCV4 (
    check_noconfig s OPENCV5 (
    check_noconfig s OPENCV8 (
    check_noconfig s OPENCV12 (
    check_noconfig s CAHVOR (
    check_withconfig s T_CAHVORE (fun c => option_map CAHVORE (scan_cahvore c)) (
    check_withconfig s T_SPLINED (fun c => option_map SPLINED (scan_splined c))
    Invalid_type))))))))))
  end.

Definition tcheck_noconfig (s : string) (t : ltype) (k : option ltype) : option ltype :=
  if String.eqb s (base_name t) then Some t else k.
Definition tcheck_withconfig (s : string) (t : ltype) (k : option ltype) : option ltype :=
  match scan_lit (base_name t) s with
  | Some EmptyString => Some t
  | Some (String c _) => if Ascii.eqb c "_" then Some t else k
  | None => k
  end.
(** mrcal.c:226-253 mrcal_lensmodel_type_from_name(); None = INVALID_TYPE *)
Definition type_from_name (name : option string) : option ltype :=
  match name with
  | None => None
  | Some s =>
    tcheck_noconfig s T_PINHOLE (
    tcheck_noconfig s T_STEREOGRAPHIC (
    tcheck_noconfig s T_LONLAT (
    tcheck_noconfig s T_LATLON (
    tcheck_noconfig s T_OPENCV4 (
    tcheck_noconfig s T_OPENCV5 (
    tcheck_noconfig s T_OPENCV8 (
    tcheck_noconfig s T_OPENCV12 (
    tcheck_noconfig s T_CAHVOR (
    tcheck_withconfig s T_CAHVORE (
    tcheck_withconfig s T_SPLINED None))))))))))
  end.
End Names.
