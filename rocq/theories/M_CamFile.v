(** Model: the reader of .cameramodel files (cameramodel-parser.re) and the two
    writers (mrcal/cameramodel.py:_write, mrcal.c:mrcal_write_cameramodel_file).

    The text is the bytes before the first NUL, which ends it also when a length
    is given (cameramodel-parser.re:398-417).  The cursor YYCURSOR is modelled by
    the text that remains; [EmptyString] is the cursor at the NUL.  Each re2c
    block is modelled by a function that computes its longest match.

    Numbers are rationals.  strtod() is [strtod] below: a decimal text is
    converted exactly and then rounded by the parameter [rnd]; a result beyond
    DBL_MAX stands for an infinity. *)
From Coq Require Import ZArith NArith List Bool QArith Qabs String Ascii.
From Verif Require Import M_Lens M_Names.
Import ListNotations.
Open Scope string_scope.
Open Scope Z_scope.

(** C string: up to the NUL *)
Fixpoint cstr (s : string) : string :=
  match s with
  | EmptyString => EmptyString
  | String c r => if Ascii.eqb c "000" then EmptyString else String c (cstr r)
  end.

Definition nl : ascii := "010".
(** SPACE, cameramodel-parser.re:51 *)
Definition is_ws (c : ascii) : bool := Ascii.eqb c " " || Ascii.eqb c "009" || Ascii.eqb c nl || Ascii.eqb c "013".
Definition is_quote (c : ascii) : bool := Ascii.eqb c """" || Ascii.eqb c "'".
Definition is_open (c : ascii) : bool := Ascii.eqb c "[" || Ascii.eqb c "(".
Definition is_close (c : ascii) : bool := Ascii.eqb c "]" || Ascii.eqb c ")".
(** [0-9eE.,-], cameramodel-parser.re:310 *)
Definition is_junk (c : ascii) : bool :=
  is_digit c || Ascii.eqb c "e" || Ascii.eqb c "E" || Ascii.eqb c "." || Ascii.eqb c "," || Ascii.eqb c "-".

(** IGNORE, cameramodel-parser.re:52, with further ignorable characters [also].
    [comment]: where the comment we are in started; a comment without a newline
    is not matched, and the match ends before it. *)
Fixpoint skip_from (also : ascii -> bool) (comment : option string) (s : string) : string :=
  match s with
  | EmptyString => match comment with Some at_ => at_ | None => s end
  | String c r =>
    match comment with
    | Some at_ => if Ascii.eqb c nl then skip_from also None r else skip_from also comment r
    | None => if is_ws c || also c then skip_from also None r
              else if Ascii.eqb c "#" then skip_from also (Some s) r else s
    end
  end.
Definition skip : string -> string := skip_from (fun _ => false) None.
Definition skip_junk : string -> string := skip_from is_junk None.

Fixpoint take (P : ascii -> bool) (s : string) : string * string :=
  match s with
  | String c r => if P c then let '(a, b) := take P r in (String c a, b) else (EmptyString, s)
  | EmptyString => (EmptyString, EmptyString)
  end.
(** at most one character *)
Definition take1 (P : ascii -> bool) (s : string) : string * string :=
  match s with
  | String c r => if P c then (String c EmptyString, r) else (EmptyString, s)
  | EmptyString => (EmptyString, EmptyString)
  end.
(** FLOAT, cameramodel-parser.re:55 *)
Definition float_lex (s : string) : string * string :=
  let '(a, s) := take1 (fun c => Ascii.eqb c "-") s in
  let '(b, s) := take is_digit s in
  let '(p, s1) := take1 (fun c => Ascii.eqb c ".") s in
  let '(d, s) := match p with EmptyString => (EmptyString, s) | _ => take is_digit s1 end in
  let '(e, s1) := take1 (fun c => Ascii.eqb c "e" || Ascii.eqb c "E") s in
  match e with
  | EmptyString => (a ++ b ++ p ++ d, s)
  | _ =>
    let '(g, s2) := take1 (fun c => Ascii.eqb c "+" || Ascii.eqb c "-") s1 in
    match take is_digit s2 with
    | (EmptyString, _) => (a ++ b ++ p ++ d, s)
    | (x, s3) => (a ++ b ++ p ++ d ++ e ++ g ++ x, s3)
    end
  end.
(** UNSIGNED_INT, cameramodel-parser.re:56; None: no match *)
Definition uint_lex (s : string) : option (string * string) :=
  match s with
  | String c r =>
    if Ascii.eqb c "0" then Some ("0", r)
    else if is_digit c then Some (take is_digit s) else None
  | EmptyString => None
  end.

(** the next character, after [skip], if it is in the class *)
Definition expect (P : ascii -> bool) (s : string) : option string :=
  match skip s with String c r => if P c then Some r else None | EmptyString => None end.

(** read_string, cameramodel-parser.re:69-102 *)
Definition read_string (s : string) : option (string * string) :=
  let '(_, s) := take1 (fun c => Ascii.eqb c "b") (skip s) in
  match s with
  | String q s =>
    if is_quote q then
      let '(v, s) := take (fun c => negb (is_quote c)) s in
      match s with String _ s => Some (v, s) | EmptyString => None end
    else None
  | EmptyString => None
  end.
(** read_value, cameramodel-parser.re:104-134: the text after it *)
Definition read_value (s : string) : option string :=
  let '(t, s) := float_lex (skip s) in
  if String.eqb t "" then None else if String.eqb t "." then None else Some s.

Section Reader.
Variable rnd : Q -> Q.
Definition DBL_MAX : Q := inject_Z (2^1024 - 2^971).
Definition strtod (t : string) : option Q :=
  match scan_lf rnd t with
  | Some (q, EmptyString) => if Qle_bool (Qabs q) DBL_MAX then Some q else None
  | _ => None
  end.
(** glibc's atoi(): strtol() saturates, and the result is converted to int *)
Definition atoi (t : string) : Z :=
  let '(v, _, _) := scan_digits 0 0 t in
  let l := Z.min v (2^63 - 1) in
  (l + 2^31) mod 2^32 - 2^31.

(** ingest_double_consume_ignorable, cameramodel-parser.re:139-185 *)
Definition ingest_double (s : string) : option (Q * string) :=
  let '(t, s) := float_lex (skip s) in
  match strtod t with Some q => Some (q, skip s) | None => None end.
(** ingest_uint_consume_ignorable, cameramodel-parser.re:187-232 *)
Definition ingest_uint (s : string) : option (Z * string) :=
  match uint_lex (skip s) with
  | Some (t, s) => if atoi t <? 0 then None else Some (atoi t, skip s)
  | None => None
  end.
Section List.
  Context {A : Type}.
  Variable f : string -> option (A * string).
  Definition skip_comma (s : string) : string := snd (take1 (fun c => Ascii.eqb c ",") s).
  (** [n] values followed by a comma, then one with an optional comma *)
  Fixpoint read_values (n : nat) (s : string) : option (list A * string) :=
    match f s with
    | None => None
    | Some (x, s) =>
      match n with
      | O => Some ([x], skip_comma s)
      | S n =>
        match s with
        | String c s' =>
          if Ascii.eqb c "," then match read_values n s' with Some (l, s) => Some (x :: l, s) | None => None end
          else None
        | EmptyString => None
        end
      end
    end.
  (** read_list_values_generic, cameramodel-parser.re:234-298.  For Nvalues <= 0
      the code reads one value. *)
  Definition read_list (Nvalues : Z) (s : string) : option (list A * string) :=
    match expect is_open s with
    | None => None
    | Some s =>
      match read_values (Z.to_nat (Nvalues - 1)) s with
      | None => None
      | Some (l, s) => match expect is_close s with Some s => Some (l, s) | None => None end
      end
    end.
End List.
(** read_balanced_list, cameramodel-parser.re:300-353.  [fuel]: at most one turn per character *)
Fixpoint balanced (fuel : nat) (level : Z) (s : string) : option string :=
  match fuel with
  | O => None
  | S fuel =>
    match skip_junk s with
    | String c r =>
      if is_open c then balanced fuel (level + 1) r
      else if is_close c then
        let r := skip r in
        if level - 1 <? 0 then None
        else if level - 1 =? 0 then Some r       (* the trailing , is not consumed *)
        else balanced fuel (level - 1) (skip_comma r)
      else None
    | EmptyString => None
    end
  end.
Definition read_balanced_list (s : string) : option string := balanced (String.length s) 0 s.
Definition read_unknown (s : string) : option string :=
  match read_value s with
  | Some s => Some s
  | None => match read_string s with Some (_, s) => Some s | None => read_balanced_list s end
  end.

(** *** read_cameramodel_from_string, cameramodel-parser.re:356-656.
    [into]: the space in the preallocated buffer, None if it should be allocated *)
Record model := Model { m_lens : lensmodel; m_intrinsics : list Q; m_rt_cam_ref : list Q; m_size : Z * Z }.
Record state := State { st_lens : option lensmodel; st_intrinsics : option (list Q); st_rt : list Q; st_size : Z * Z }.
(** model_not_intrinsics, cameramodel-parser.re:388-391 *)
Definition state0 : state := State None None [DBL_MAX; 0%Q; 0%Q; 0%Q; 0%Q; 0%Q] (0, 0).
Definition unset (rt : list Q) : bool := match rt with x :: _ => Qeq_bool x DBL_MAX | [] => false end.
(** cameramodel-parser.re:540-545: all six within 1e-9 *)
Fixpoint close_lists (a b : list Q) : bool :=
  match a, b with
  | x :: a, y :: b => Qle_bool (Qabs (x - y)) (1 # 1000000000) && close_lists a b
  | _, _ => true
  end.
Inductive step_result := Step (st : state) (s : string) | Step_error | Step_need (N : Z).
(** one value, cameramodel-parser.re:458-577 *)
Definition read_entry (into : option Z) (key : string) (st : state) (s : string) : step_result :=
  if String.eqb key "lensmodel" then
    match st_lens st with
    | Some _ => Step_error
    | None =>
      match read_string s with
      | None => Step_error
      | Some (name, s) =>
        match from_name rnd (Some name) with
        | Accept m => Step (State (Some m) (st_intrinsics st) (st_rt st) (st_size st)) s
        | _ => Step_error
        end
      end
    end
  else if String.eqb key "intrinsics" then
    match st_intrinsics st with
    | Some _ => Step_error
    | None =>
      match st_lens st with
      | None => Step_error
      | Some m =>
        let N := num_params m in
        if match into with Some max => max <? N | None => false end then Step_need N
        else match read_list ingest_double N s with
             | Some (l, s) => Step (State (st_lens st) (Some l) (st_rt st) (st_size st)) s
             | None => Step_error
             end
      end
    end
  else if (String.eqb key "extrinsics" || String.eqb key "rt_cam_ref")%bool then
    match read_list ingest_double 6 s with
    | None => Step_error
    | Some (l, s) =>
      if unset (st_rt st) then Step (State (st_lens st) (st_intrinsics st) l (st_size st)) s
      else if close_lists l (st_rt st) then Step st s else Step_error
    end
  else if String.eqb key "imagersize" then
    if fst (st_size st) >? 0 then Step_error
    else match read_list ingest_uint 2 s with
         | Some (w :: h :: _, s) => Step (State (st_lens st) (st_intrinsics st) (st_rt st) (w, h)) s
         | _ => Step_error
         end
  else
    match read_unknown s with Some s => Step st s | None => Step_error end.

Inductive result := Read_ok (m : model) | Read_error | Read_need (N : Z) | Out_of_fuel.
(** cameramodel-parser.re:639-656 *)
Definition finalize (st : state) : result :=
  match st_lens st, st_intrinsics st with
  | Some m, Some l => if negb (unset (st_rt st)) && (fst (st_size st) >? 0) then Read_ok (Model m l (st_rt st) (st_size st)) else Read_error
  | _, _ => Read_error
  end.
(** the loop, cameramodel-parser.re:433-620 *)
Fixpoint entries (fuel : nat) (into : option Z) (st : state) (s : string) : result :=
  match fuel with
  | O => Out_of_fuel
  | S fuel =>
    match read_string s with
    | None => Read_error
    | Some (key, s) =>
      match expect (fun c => Ascii.eqb c ":") s with
      | None => Read_error
      | Some s =>
        match read_entry into key st s with
        | Step_error => Read_error
        | Step_need N => Read_need N
        | Step st s =>
          (* IGNORE ("," | "}" | ("," IGNORE "}")) *)
          let finish s := match skip s with EmptyString => finalize st | _ => Read_error end in
          match skip s with
          | String c s =>
            if Ascii.eqb c "}" then finish s
            else if Ascii.eqb c "," then
              match expect (fun c => Ascii.eqb c "}") s with
              | Some s => finish s
              | None => entries fuel into st s
              end
            else Read_error
          | EmptyString => Read_error
          end
        end
      end
    end
  end.
Definition read_cameramodel (into : option Z) (text : string) : result :=
  let s := cstr text in
  match expect (fun c => Ascii.eqb c "{") s with
  | None => Read_error
  | Some s => entries (S (String.length s)) into state0 (skip s)
  end.
(** what is left in *Nintrinsics_max, cameramodel-parser.re:624-625 *)
Definition Nintrinsics_max_out (r : result) : Z := match r with Read_need N => N | _ => 0 end.
End Reader.

(** *** The writers.  [fmt]: Python's "{:.10g}".format *)
Section Writers.
  Variable fmt : Q -> string.
  Definition line (s : string) : string := s ++ String nl "".
  Fixpoint concat_map {A} (f : A -> string) (l : list A) : string :=
    match l with [] => "" | x :: l => f x ++ concat_map f l end.
  (** "{:d}".format *)
  Definition fmt_d (n : Z) : string := (if n <? 0 then "-" else "") ++ fmt_u (Z.abs n).
  (** cameramodel._write, mrcal/cameramodel.py:503-560.  [note]: its lines.
      [opt]: icam_intrinsics, icam_extrinsics and the optimization inputs, which
      are the repr() of a byte string *)
  Record pymodel := PyModel {
    py_lens : string;                          (* self._intrinsics[0] *)
    py_intrinsics : list Q;
    py_region : option (list (Q * Q));
    py_rt : list Q;
    py_size : Z * Z;
    py_icam_intrinsics : option Z;
    py_icam_extrinsics : option Z;
    py_optimization_inputs : option string }.
  Definition opt_text {A} (f : A -> string) (o : option A) : string := match o with Some x => f x | None => "" end.
  Definition nums (l : list Q) : string := concat_map (fun x => " " ++ fmt x ++ ",") l.
  Definition inputs_comment : string :=
    line "    # The optimization inputs contain all the data used to compute this model." ++
    line "    # This contains ALL the observations for ALL the cameras in the solve. The uses of" ++
    line "    # this are to be able to compute projection uncertainties, to visualize the" ++
    line "    # calibration-time geometry and to re-run the original optimization for" ++
    line "    # diagnostics. This is a big chunk of data that isn't useful for humans to" ++
    line "    # interpret, so it's stored in binary, compressed, and encoded to ascii in" ++
    line "    # base-85. Modifying the intrinsics of the model invalidates the optimization" ++
    line "    # inputs: the optimum implied by the inputs would no longer match the stored" ++
    line "    # parameters. Modifying the extrinsics is OK, however: if we move the camera" ++
    line "    # elsewhere, the original solve can still be used to represent the camera-relative" ++
    line "    # projection uncertainties".
  Definition py_write (note : list string) (m : pymodel) : string :=
    concat_map (fun l => line ("# " ++ l)) note ++
    line "{" ++
    line ("    'lensmodel':  '" ++ py_lens m ++ "',") ++
    line "" ++
    line "    # intrinsics are fx,fy,cx,cy,distortion0,distortion1,...." ++     (* has_core: every model *)
    line ("    'intrinsics': [" ++ nums (py_intrinsics m) ++ "],") ++
    line "" ++
    opt_text (fun reg =>
      line "    'valid_intrinsics_region': [" ++
      concat_map (fun r => line ("    [ " ++ fmt (fst r) ++ ", " ++ fmt (snd r) ++ " ],")) reg ++
      line "]," ++ line "") (py_region m) ++
    line ("    'rt_cam_ref': [" ++ nums (py_rt m) ++ "],") ++
    line ("    'extrinsics': [" ++ nums (py_rt m) ++ "], # for compatibility with mrcal < 2.5") ++
    line "" ++
    line ("    'imagersize': [ " ++ fmt_d (fst (py_size m)) ++ ", " ++ fmt_d (snd (py_size m)) ++ ",],") ++
    line "" ++
    opt_text (fun i => line ("    'icam_intrinsics': " ++ fmt_d i ++ ",")) (py_icam_intrinsics m) ++
    opt_text (fun i => line ("    'icam_extrinsics': " ++ fmt_d i ++ ",")) (py_icam_extrinsics m) ++
    line "" ++
    opt_text (fun b => inputs_comment ++ line ("    'optimization_inputs': " ++ b ++ ",") ++ line "") (py_optimization_inputs m) ++
    line "}".
End Writers.
(** printf %f: six decimals, like [fmt_2f] *)
Fixpoint fixed_digits (n : nat) (h : Z) (acc : string) : string :=
  match n with O => acc | S n => fixed_digits n (h / 10) (String (digit (Z.to_N (h mod 10))) acc) end.
Definition fmt_f (x : Q) : string :=
  let h := rne (Qabs x * (1000000#1))%Q in
  (if (Qnum x <? 0)%Z then "-" else "") ++ fmt_u (h / 1000000) ++ "." ++ fixed_digits 6 (h mod 1000000) "".
(** mrcal_write_cameramodel_file, mrcal.c:6625-6680: the contents of the file.
    The name is truncated at 1023 bytes, in which case nothing is written; the
    longest one has fewer. *)
Definition c_write (m : model) : string :=
  line "{" ++
  line ("  'lensmodel':  '" ++ name_text (m_lens m) ++ "',") ++
  "  'intrinsics': [ " ++ concat_map (fun x => fmt_f x ++ ", ") (m_intrinsics m) ++ line "]," ++
  line ("  'imagersize': [ " ++ fmt_u (fst (m_size m)) ++ ", " ++ fmt_u (snd (m_size m)) ++ " ],") ++
  match m_rt_cam_ref m with
  | [a; b; c; d; e; f] =>
    line ("  'extrinsics': [ " ++ fmt_f a ++ ", " ++ fmt_f b ++ ", " ++ fmt_f c ++ ", " ++ fmt_f d ++ ", " ++ fmt_f e ++ ", " ++ fmt_f f ++ " ]")
  | _ => ""                                     (* rt_cam_ref is an array of 6 *)
  end ++
  line "}".
