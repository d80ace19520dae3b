(** Model: the camera model object, mrcal/cameramodel.py.  Its state, the
    operations that change it, writing it to a file and reading it.

    Files are modelled as the sequence of 'key': value texts; what
    ast.literal_eval() makes of them is [literal_eval] below (trusted).  The
    texts of numbers are modelled by their value; the one oracle is [print10],
    the value that '{:.10g}' prints.  The C reader of the same files, down to
    the characters, is in M_CamFile.v.
    Not modelled: the .cahvor, yaml and json formats (M_Cahvor.v has the first),
    and numbers in the imager size that do not fit an int32: refused here. *)
From Coq Require Import String Ascii List Bool ZArith QArith Qabs.
From Verif Require Import M_Lens M_Names M_OptInputs.
Import ListNotations.
Open Scope string_scope.
Open Scope Z_scope.

Inductive num := Fin (q : Q) | NonFin. (* nan, +-inf *)
(** self._optimization_inputs_string: None, a bytes or (after a copy) a str *)
Inductive pyopt := O_none | O_bytes (b : string) | O_str (s : string).
Record obj := Obj {
  o_lens : string; o_intr : list num;           (* self._intrinsics *)
  o_size : Z * Z;                               (* self._imagersize *)
  o_rt : list num;                              (* self._rt_cam_ref *)
  o_region : option (list (num * num));         (* self._valid_intrinsics_region *)
  o_opt : pyopt; o_icam_i : option Z; o_icam_e : option Z }.

(** ** Validation *)
Section Object.
Variable rnd : Q -> Q.
(** cameramodel.py:62-123 _validateIntrinsics(), the part about the imager size and the intrinsics;
    and np.array(imagersize, dtype=np.int32) *)
Definition lens_params (lens : string) : option Z := match from_name rnd (Some lens) with Accept m => Some (num_params m) | _ => None end.
Definition valid_intrinsics (size : Z * Z) (lens : string) (intr : list num) : bool :=
  (0 <? fst size) && (0 <? snd size) && (fst size <? 2^31) && (snd size <? 2^31) &&
  match lens_params lens with Some n => n =? Z.of_nat (List.length intr) | None => false end.
(** np.linalg.norm(a-b) < 1e-6 in close_contour(), utils.py:996; nps.norm2(a-b) > 1e-6
    in _validateValidIntrinsicsRegion(), cameramodel.py:146.  Both are False if there is a nan in the difference; the
    norm is inf if exactly one of a,b is infinite *)
Definition dist2 (a b : num * num) : option Q :=
  match a, b with
  | (Fin x, Fin y), (Fin x', Fin y') => Some ((x - x') * (x - x') + (y - y') * (y - y'))%Q
  | _, _ => None
  end.
Definition near (a b : num * num) : bool := match dist2 a b with Some q => negb (Qle_bool (1 # 1000000000000) q) | None => false end.
(** (a contour that has been closed has no end where only one of the two is infinite) *)
Definition far (a b : num * num) : bool := match dist2 a b with Some q => negb (Qle_bool q (1 # 1000000)) | None => false end.
(** mrcal/utils.py:941-999 close_contour(), for an array of shape (N,2) *)
Definition close_contour (c : list (num * num)) : list (num * num) :=
  match c with
  | [] => []
  | p :: _ => if near p (List.last c p) then c else (c ++ [p])%list
  end.
(** cameramodel.py:126-148 _validateValidIntrinsicsRegion() *)
Definition valid_region (c : list (num * num)) : bool :=
  match c with
  | [] => true
  | p :: _ => (4 <=? Z.of_nat (List.length c)) && negb (far p (List.last c p))
  end.

(** ** The operations *)
Variable broadcast_same : val -> val -> bool.
Variable encode : npz -> string.
Variable decode : string -> option npz.
(** mrcal.corresponding_icam_extrinsics(): None if it raises *)
Variable corresponding_icam_extrinsics : dict -> Z -> option Z.

Inductive op :=
| Set_rt (rt : list num)   (* rt_cam_ref(), cameramodel.py:1693-1695, and the other accessors: see C_CamPose.v *)
| Set_intrinsics (lens : string) (intr : list num) (size : option (Z * Z)) (opt : option dict) (icam_i icam_e : option Z)
| Set_region (c : list (num * num))
| Reset_region
| Reset_optimization_inputs
| Copy                     (* model = mrcal.cameramodel(model) *)
| Save_and_load.           (* model.write(f); model = mrcal.cameramodel(f) *)

(** The result: the object, and whether an exception was raised *)
Definition done (o : obj) : obj * bool := (o, false).
Definition raised (o : obj) : obj * bool := (o, true).

(** cameramodel.py:1579-1612 intrinsics(), setting.  The assignments made before an exception stay. *)
Definition set_intrinsics (o : obj) (lens : string) (intr : list num) (size : option (Z * Z)) (opt : option dict) (icam_i icam_e : option Z) : obj * bool :=
  let size := match size with Some s => s | None => o_size o end in
  if negb (valid_intrinsics size lens intr) then raised o else
  let o1 := Obj lens intr size (o_rt o) (o_region o) (o_opt o) (o_icam_i o) (o_icam_e o) in
  match opt, icam_i with
  | None, None =>
    match icam_e with
    | Some _ => raised o                                                       (* :122-123 *)
    | None => done (Obj lens intr size (o_rt o) None O_none None None)
    end
  | None, Some _ | Some _, None => raised o                                    (* :115-116, :122-123 *)
  | Some d, Some i =>
    if i <? 0 then raised o else                                               (* :119-120 *)
    match serialize broadcast_same encode d with
    | None => raised o1
    | Some b =>
      let o2 := Obj lens intr size (o_rt o) (o_region o) (O_bytes b) (Some i) (o_icam_e o) in
      match icam_e with
      | Some e => done (Obj lens intr size (o_rt o) None (O_bytes b) (Some i) (Some e))
      | None =>
        match corresponding_icam_extrinsics d i with
        | None => raised o2
        | Some e => done (Obj lens intr size (o_rt o) None (O_bytes b) (Some i) (Some e))
        end
      end
    end
  end.
(** cameramodel.py:1859-1866 valid_intrinsics_region(), setting *)
Definition set_region (o : obj) (c : list (num * num)) : obj * bool :=
  let c := close_contour c in
  if valid_region c then done (Obj (o_lens o) (o_intr o) (o_size o) (o_rt o) (Some c) (o_opt o) (o_icam_i o) (o_icam_e o)) else raised o.
(** cameramodel.py:1868-1891 *)
Definition reset_region (o : obj) : obj := Obj (o_lens o) (o_intr o) (o_size o) (o_rt o) None (o_opt o) (o_icam_i o) (o_icam_e o).
(** cameramodel.py:1938-1958 *)
Definition reset_opt (o : obj) : obj := Obj (o_lens o) (o_intr o) (o_size o) (o_rt o) (o_region o) O_none (o_icam_i o) (o_icam_e o).
(** str() of a bytes: its repr, for bytes without quotes, backslashes and control characters *)
Definition repr_bytes (b : string) : string := "b'" ++ b ++ "'".
(** cameramodel.py:866-891: construction from another cameramodel *)
Definition copy (o : obj) : obj :=
  Obj (o_lens o) (o_intr o) (o_size o) (o_rt o) (match o_region o with Some c => Some (close_contour c) | None => None end)
      (match o_opt o with O_none => O_none | O_bytes b => O_str (repr_bytes b) | O_str s => O_str s end) (o_icam_i o) (o_icam_e o).
(** cameramodel.py:1232-1291: construction from discrete values *)
Definition new_discrete (lens : string) (intr : list num) (size : Z * Z) (rt : option (list num)) (region : option (list (num * num))) : option obj :=
  if valid_intrinsics size lens intr then
    let o := Obj lens intr size (match rt with Some l => l | None => repeat (Fin 0) 6 end) None O_none None None in
    Some (match region with Some c => fst (set_region o c) | None => o end)
  else None.

(** ** Writing: cameramodel.py:503-558 *)
Variable print10 : Q -> Q.
Definition printed (x : num) : num := match x with Fin q => Fin (print10 q) | NonFin => NonFin end.
(** the texts after each key *)
Inductive text :=
| T_quoted (s : string)         (* '...' *)
| T_raw (s : string)            (* just this *)
| T_numbers (l : list num)      (* [ 1.5, nan, ...] *)
| T_rows (l : list (list num))
| T_int (z : Z) | T_ints (l : list Z).
Definition file := list (string * text).
Definition write_ (o : obj) : file := ([("lensmodel", T_quoted (o_lens o)); ("intrinsics", T_numbers (map printed (o_intr o)))] ++
  (match o_region o with Some c => [("valid_intrinsics_region", T_rows (map (fun p => [printed (fst p); printed (snd p)]) c))] | None => [] end) ++
  [("rt_cam_ref", T_numbers (map printed (o_rt o))); ("extrinsics", T_numbers (map printed (o_rt o)));
   ("imagersize", T_ints [fst (o_size o); snd (o_size o)])] ++
  (match o_icam_i o with Some i => [("icam_intrinsics", T_int i)] | None => [] end) ++
  (match o_icam_e o with Some i => [("icam_extrinsics", T_int i)] | None => [] end) ++
  (match o_opt o with O_none => [] | O_bytes b => [("optimization_inputs", T_raw (repr_bytes b))] | O_str s => [("optimization_inputs", T_raw s)] end))%list.
(** cameramodel.py:1363-1366: write() checks first.  None: it raises *)
Definition write (o : obj) : option file :=
  if valid_intrinsics (o_size o) (o_lens o) (o_intr o) && (match o_region o with Some c => valid_region c | None => true end) &&
     (Z.of_nat (List.length (o_rt o)) =? 6)
  then Some (write_ o) else None.

(** ** Reading *)
Inductive pyval := P_str (s : string) | P_bytes (b : string) | P_numbers (l : list Q) | P_rows (l : list (list Q)) | P_int (z : Z) | P_ints (l : list Z).
(** ast.literal_eval() of the texts that are written.  nan and inf are names, not literals.
    A ' or \ in a '...', or a newline, is not taken apart: refused here *)
Definition quotable (c : ascii) : bool := negb (Ascii.eqb c "'" || Ascii.eqb c "\" || Ascii.eqb c "010" || Ascii.eqb c "013").
Fixpoint unquote (s : string) : option string :=
  match s with
  | EmptyString => None
  | String c r =>
    match r with
    | EmptyString => if Ascii.eqb c "'" then Some "" else None
    | _ => if quotable c then option_map (String c) (unquote r) else None
    end
  end.
Fixpoint all_fin (l : list num) : option (list Q) :=
  match l with
  | [] => Some []
  | Fin q :: l => option_map (cons q) (all_fin l)
  | NonFin :: _ => None
  end.
Fixpoint all_rows (l : list (list num)) : option (list (list Q)) :=
  match l with
  | [] => Some []
  | r :: l => match all_fin r, all_rows l with Some r, Some l => Some (r :: l) | _, _ => None end
  end.
Definition eval_text (t : text) : option pyval :=
  match t with
  | T_quoted s => option_map P_str (unquote (s ++ "'"))
  | T_raw (String b (String q s)) => if Ascii.eqb b "b" && Ascii.eqb q "'" then option_map P_bytes (unquote s) else None
  | T_raw _ => None
  | T_numbers l => option_map P_numbers (all_fin l)
  | T_rows l => option_map P_rows (all_rows l)
  | T_int z => Some (P_int z)
  | T_ints l => Some (P_ints l)
  end.
Definition pydict := list (string * pyval).
Fixpoint literal_eval (f : file) : option pydict :=
  match f with
  | [] => Some []
  | (k, t) :: f => match eval_text t, literal_eval f with Some v, Some d => Some ((k, v) :: d) | _, _ => None end
  end.

(** cameramodel.py:593-607 renamed() in _read_into_self() *)
Fixpoint all_close (a b : list Q) : bool :=
  match a, b with [], [] => true | x :: a, y :: b => negb (Qle_bool (1 # 1000000000) (Qabs (x - y))) && all_close a b | _, _ => false end.
Definition renamed (name_from name_to : string) (check_equal : bool) (d : pydict) : option pydict :=
  match dget name_from d with
  | None => Some d
  | Some v =>
    match dget name_to d with
    | Some w =>
      if check_equal then match v, w with P_numbers a, P_numbers b => if all_close a b then Some d else None | _, _ => None end
      else Some d
    | None => Some (ddel name_from (dset name_to v d))
    end
  end.
(** str.replace(pat, new); [skip]: what remains of an occurrence being replaced *)
Fixpoint replace_from (pat new : string) (skip : nat) (s : string) : string :=
  match s with
  | EmptyString => ""
  | String c r =>
    match skip with
    | S k => replace_from pat new k r
    | O => if String.prefix pat s then new ++ replace_from pat new (String.length pat - 1) r else String c (replace_from pat new 0 r)
    end
  end.
Definition replace (pat new s : string) : string := replace_from pat new 0 s.
(** rows that make an array of shape (N,2) *)
Fixpoint pairs (l : list (list Q)) : option (list (num * num)) :=
  match l with
  | [] => Some []
  | [x; y] :: l => option_map (cons (Fin x, Fin y)) (pairs l)
  | _ => None
  end.
(** cameramodel.py:635-653: the region; an invalid one is dropped, with a warning *)
Definition read_region (d : pydict) : option (option (list (num * num))) :=
  match dget "valid_intrinsics_region" d with
  | None => Some None
  | Some (P_rows l) =>
    match pairs l with
    | Some c => if valid_region c then Some (Some (close_contour c)) else Some None
    | None => Some None
    end
  | Some _ => None
  end.
Definition bind {A B} (x : option A) (f : A -> option B) : option B := match x with Some a => f a | None => None end.
(** cameramodel.py:586-686 _read_into_self(), after parsing *)
Definition read_into_self (d : pydict) : option obj :=
  bind (renamed "distortion_model" "lensmodel" false d) (fun d =>
  bind (renamed "lens_model" "lensmodel" false d) (fun d =>
  bind (renamed "icam_intrinsics_optimization_inputs" "icam_intrinsics" false d) (fun d =>
  bind (match dget "lensmodel" d with Some (P_str s) => Some (dset "lensmodel" (P_str (replace "DISTORTION" "LENSMODEL" s)) d) | _ => None end) (fun d =>
  bind (renamed "extrinsics" "rt_cam_ref" true d) (fun d =>
  bind (read_region d) (fun region =>
  match dget "lensmodel" d, dget "intrinsics" d, dget "imagersize" d, dget "rt_cam_ref" d with
  | Some (P_str lens), Some (P_numbers intr), Some (P_ints [w; h]), Some (P_numbers rt) =>
    if negb (valid_intrinsics (w, h) lens (map Fin intr)) then None else
    if negb (Z.of_nat (List.length rt) =? 6) then None else
    match dget "optimization_inputs" d with
    | Some (P_bytes b) =>
      match dget "icam_intrinsics" d with
      | Some (P_int i) =>
        if i <? 0 then None else
        match dget "icam_extrinsics" d with
        | Some (P_int e) => Some (Obj lens (map Fin intr) (w, h) (map Fin rt) region (O_bytes b) (Some i) (Some e))
        | Some _ => None
        | None => Some (Obj lens (map Fin intr) (w, h) (map Fin rt) region (O_bytes b) (Some i) None)
        end
      | _ => None
      end
    | Some _ => None
    | None =>
      if din "icam_intrinsics" d || din "icam_extrinsics" d then None
      else Some (Obj lens (map Fin intr) (w, h) (map Fin rt) region O_none None None)
    end
  | _, _, _, _ => None
  end)))))).
(** cameramodel.py:561-584, 1165-1229: what is not a .cameramodel is tried as
    the other formats, which do not accept these texts *)
Definition read (f : file) : option obj := bind (literal_eval f) read_into_self.

Definition step (o : obj) (c : op) : obj * bool :=
  match c with
  | Set_rt rt => done (Obj (o_lens o) (o_intr o) (o_size o) rt (o_region o) (o_opt o) (o_icam_i o) (o_icam_e o))
  | Set_intrinsics lens intr size opt i e => set_intrinsics o lens intr size opt i e
  | Set_region c => set_region o c
  | Reset_region => done (reset_region o)
  | Reset_optimization_inputs => done (reset_opt o)
  | Copy => done (copy o)
  | Save_and_load => match bind (write o) read with Some o' => done o' | None => raised o end
  end.
Definition run (o : obj) (l : list op) : obj := fold_left (fun o c => fst (step o c)) l o.

(** cameramodel.py:1922-1935 optimization_inputs().  b85decode() of a str is that of its
    characters, and raises for a character that is not one of the 85 (such as ') *)
Definition b85_char (c : ascii) : bool :=
  match String.index 0 (String c "") "0123456789ABCDEFGHIJKLMNOPQRSTUVWXYZabcdefghijklmnopqrstuvwxyz!#$%&()*+-;<=>?@^_`{|}~" with Some _ => true | None => false end.
Fixpoint forall_chars (P : ascii -> bool) (s : string) : bool := match s with EmptyString => true | String c r => P c && forall_chars P r end.
Inductive got := G_none | G_dict (d : dict) | G_raised.
Definition optimization_inputs (o : obj) : got :=
  match o_opt o with
  | O_none => G_none
  | O_bytes s | O_str s =>
    if forall_chars b85_char s then
      match deserialize decode s with Some d => G_dict (dset "verbose" (V_item (I_bool false)) d) | None => G_raised end
    else G_raised
  end.
End Object.
