(** utils.py:788-938, mapping_file_framenocameraindex(): the frame number and
    the camera of each image file, from the file names.  A name is a list of
    characters; a Python exception is [None]; the dict is an association list in
    which later entries win. *)
From Coq Require Import ZArith List Bool Ascii.
Import ListNotations.
Open Scope Z_scope.

Definition name := list ascii.
Definition newline : ascii := "010"%char.

(** utils.py:853-857, longest_leading_substring(a,b) *)
Fixpoint longest_leading (a b : name) : name :=
  match a, b with
  | x :: a, y :: b => if Ascii.eqb x y then x :: longest_leading a b else []
  | _, _ => []
  end.
(** utils.py:858-864, longest_trailing_substring(a,b): the same loop from the ends *)
Definition longest_trailing (a b : name) : name := rev (longest_leading (rev a) (rev b)).
(** utils.py:866-875; never called with an empty list *)
Definition leading_of (s : name) (strings : list name) : name := fold_left longest_leading strings s.
Definition trailing_of (s : name) (strings : list name) : name := fold_left longest_trailing strings s.

(** f[n:-m], or f[n:None] if m = 0 (utils.py:893-896) *)
Definition middle (n m : nat) (f : name) : name := firstn (length f - m - n) (skipn n f).

Definition is_digit (c : ascii) : bool := let k := Z.of_N (N_of_ascii c) in (48 <=? k) && (k <=? 57).
Definition digit_val (c : ascii) : Z := Z.of_N (N_of_ascii c) - 48.
Definition is_nl (c : ascii) : bool := Ascii.eqb c newline.
(** a '$' in a regex also matches just before a final newline *)
Definition chomp (s : name) : name :=
  match rev s with c :: r => if is_nl c then rev r else s | [] => s end.
(** re.match("^[0-9]+$", s) *)
Definition numeric (s : name) : bool :=
  let s := chomp s in match s with [] => false | _ => forallb is_digit s end.
(** the digits at the start of a string *)
Fixpoint digits_at_start (s : name) : name :=
  match s with c :: r => if is_digit c then c :: digits_at_start r else [] | [] => [] end.
(** group(2) of re.match("^(.*?)([0-9]*)$", leading), or '' (utils.py:907-911);
    a '.' doesn't match a newline *)
Definition pre_numeric (leading : name) : name :=
  let s := chomp leading in
  if existsb is_nl s then [] else rev (digits_at_start (rev s)).
(** group(1) of re.match("^([0-9]*)(.*?)$", trailing), or '' (utils.py:913-917) *)
Definition post_numeric (trailing : name) : name :=
  let s := chomp trailing in
  if existsb is_nl s then [] else digits_at_start s.
(** int(): whitespace at the ends is ignored (here: one newline at the end at most) *)
Definition py_int (s : name) : option Z :=
  let s := chomp s in
  match s with
  | [] => None
  | _ => if forallb is_digit s then Some (fold_left (fun v c => 10 * v + digit_val c) s 0) else None
  end.

Fixpoint all_some {A} (l : list (option A)) : option (list A) :=
  match l with
  | [] => Some []
  | x :: l => match x, all_some l with Some x, Some l => Some (x :: l) | _, _ => None end
  end.

(** utils.py:877-919, pull_framenumbers(files) *)
Definition pull_framenumbers (files : list name) : option (list Z) :=
  match files with
  | [] => None
  | [_] => Some [0]
  | s :: rest =>
      let leading := leading_of s rest in
      let trailing := trailing_of s rest in
      let mid := middle (length leading) (length trailing) in
      if forallb (fun f => numeric (mid f)) files
      then all_some (map (fun f => py_int (pre_numeric leading ++ mid f ++ post_numeric trailing)) files)
      else None
  end.

(** the dict *)
Definition dict := list (name * (Z * Z)).
Fixpoint name_eqb (a b : name) : bool :=
  match a, b with
  | [], [] => true
  | x :: a, y :: b => Ascii.eqb x y && name_eqb a b
  | _, _ => false
  end.
Fixpoint dict_get (d : dict) (f : name) : option (Z * Z) :=
  match d with
  | [] => None
  | (k, v) :: d => match dict_get d f with Some v => Some v | None => if name_eqb k f then Some v else None end
  end.

(** utils.py:924-938: one iteration; [Ncameras] in all *)
Definition camera (Ncameras : Z) (d : dict) (icamera : Z) (files : list name) : option dict :=
  match
    (match pull_framenumbers files with
     | Some fr => Some fr
     | None => if Ncameras =? 1 then Some (map Z.of_nat (seq 0 (length files))) else None
     end)
  with
  | Some framenumbers => Some (d ++ combine files (map (fun iframe => (iframe, icamera)) framenumbers))
  | None => None
  end.
Fixpoint cameras (Ncameras : Z) (d : dict) (icamera : Z) (cams : list (list name)) : option dict :=
  match cams with
  | [] => Some d
  | files :: cams =>
      match camera Ncameras d icamera files with
      | Some d => cameras Ncameras d (icamera + 1) cams
      | None => None
      end
  end.
(** utils.py:834-836, then the loop *)
Definition mapping (cams : list (list name)) : option dict :=
  if existsb (fun files => match files with [] => true | _ => false end) cams then None
  else cameras (Z.of_nat (length cams)) [] 0 cams.
