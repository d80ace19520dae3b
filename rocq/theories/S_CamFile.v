(** Specification vocabulary for .cameramodel files (C42, C43): a grammar of the
    texts, and what a list of entries says about the camera.  Declarative: no
    reference to the reader's functions.  From the model: character classes, the
    number format [lf_text] and the lens model names [denotes] of S_Names. *)
From Coq Require Import ZArith NArith List Bool QArith Qabs String Ascii.
From Verif Require Import M_Lens M_Names S_Names M_CamFile.
Import ListNotations.
Open Scope string_scope.
Open Scope Z_scope.

Definition not_nl (c : ascii) : bool := negb (Ascii.eqb c nl).
(** whitespace and complete comments *)
Inductive ignorable : string -> Prop :=
| ig_nil : ignorable ""
| ig_ws : forall c s, is_ws c = true -> ignorable s -> ignorable (String c s)
| ig_comment : forall b s, all_chars not_nl b -> ignorable s -> ignorable (String "#" (b ++ String nl s)).

(** the same with further characters *)
Inductive ignx (also : ascii -> bool) : string -> Prop :=
| ix_nil : ignx also ""
| ix_char : forall c s, is_ws c = true \/ also c = true -> ignx also s -> ignx also (String c s)
| ix_comment : forall b s, all_chars not_nl b -> ignx also s -> ignx also (String "#" (b ++ String nl s)).

Definition quoted (t v : string) : Prop :=
  exists b q1 q2, (b = "" \/ b = "b") /\ is_quote q1 = true /\ is_quote q2 = true /\
    all_chars (fun c => negb (is_quote c)) v /\ t = b ++ String q1 (v ++ String q2 "").

(** [-]digits[.digits][e[+-]digits]: every part but the last may be missing, or empty *)
Definition float_shape (t : string) : Prop :=
  exists a b p e, (a = "" \/ a = "-") /\ all_chars is_digit b /\
    (p = "" \/ exists d, all_chars is_digit d /\ p = String "." d) /\
    (e = "" \/ exists E g x, (E = "e" \/ E = "E") /\ (g = "" \/ g = "+" \/ g = "-") /\ all_chars is_digit x /\ x <> "" /\ e = E ++ g ++ x) /\
    t = a ++ b ++ p ++ e.

(** finite numbers *)
Definition double_text (rnd : Q -> Q) (t : string) (q : Q) : Prop :=
  float_shape t /\ lf_text rnd t q /\ (Qabs q <= DBL_MAX)%Q.
(** 0, or digits without a leading 0.  Values of 2^31 and more are what the C library makes of them
    (saturated to a long, then converted to an int) *)
Definition c_int (v : Z) : Z := (Z.min v (2^63 - 1) + 2^31) mod 2^32 - 2^31.
Definition uint_text (t : string) (n : Z) : Prop :=
  (t = "0" \/ exists c r, t = String c r /\ c <> "0"%char /\ all_chars is_digit t) /\
  n = c_int (dec_value t) /\ 0 <= n.

(** the inside of a list: elements with commas between them, and optionally after them *)
Inductive elements {A} (elem : string -> A -> Prop) : string -> list A -> Prop :=
| el_last : forall i t j x comma, ignorable i -> elem t x -> ignorable j -> (comma = "" \/ comma = ",") ->
    elements elem (i ++ t ++ j ++ comma) [x]
| el_more : forall i t j x s l, ignorable i -> elem t x -> ignorable j -> elements elem s l ->
    elements elem (i ++ t ++ j ++ "," ++ s) (x :: l).
Definition list_text {A} (elem : string -> A -> Prop) (t : string) (l : list A) : Prop :=
  exists i o s j c, ignorable i /\ is_open o = true /\ elements elem s l /\ ignorable j /\ is_close c = true /\
    t = i ++ String o (s ++ j ++ String c "").

(** the inside of nested lists *)
Inductive nested : string -> Prop :=
| ne_nil : nested ""
| ne_char : forall c s, is_ws c = true \/ is_junk c = true -> nested s -> nested (String c s)
| ne_comment : forall b s, all_chars not_nl b -> nested s -> nested (String "#" (b ++ String nl s))
| ne_list : forall o s c s', is_open o = true -> nested s -> is_close c = true -> nested s' ->
    nested (String o (s ++ String c s')).
(** the values of keys that are not used.  [lead]: what may precede a list *)
Definition other_text (lead : string -> Prop) (t : string) : Prop :=
  exists i v, ignorable i /\ t = i ++ v /\
    ((float_shape v /\ v <> "" /\ v <> ".") \/ (exists x, quoted v x) \/
     (exists j o s c, lead j /\ is_open o = true /\ nested s /\ is_close c = true /\ v = j ++ String o (s ++ String c ""))).

Inductive value := V_name (s : string) | V_doubles (l : list Q) | V_uints (l : list Z) | V_other.
Definition entry := (string * value)%type.
Definition is_ext (k : string) : Prop := k = "extrinsics" \/ k = "rt_cam_ref".

Section Grammar.
  Variable rnd : Q -> Q.
  Variable lead : string -> Prop.
  Inductive value_text : string -> value -> string -> Prop :=
  | vt_lens : forall i t s, ignorable i -> quoted t s -> value_text "lensmodel" (V_name s) (i ++ t)
  | vt_intrinsics : forall t l, list_text (double_text rnd) t l -> value_text "intrinsics" (V_doubles l) t
  | vt_ext : forall k t l, is_ext k -> list_text (double_text rnd) t l -> value_text k (V_doubles l) t
  | vt_size : forall t l, list_text uint_text t l -> value_text "imagersize" (V_uints l) t
  | vt_other : forall k t, k <> "lensmodel" -> k <> "intrinsics" -> ~ is_ext k -> k <> "imagersize" ->
      other_text lead t -> value_text k V_other t.
  Definition entry_text (e : entry) (t : string) : Prop :=
    exists i k j v, ignorable i /\ quoted k (fst e) /\ ignorable j /\ value_text (fst e) (snd e) v /\ t = i ++ k ++ j ++ ":" ++ v.
  (** entries separated by commas, an optional comma after the last, the closing brace *)
  Inductive body_text : list entry -> string -> Prop :=
  | bt_last : forall e t i comma, entry_text e t -> ignorable i -> (comma = "" \/ exists j, ignorable j /\ comma = "," ++ j) ->
      body_text [e] (t ++ i ++ comma ++ "}")
  | bt_more : forall e t i es s, entry_text e t -> ignorable i -> body_text es s -> body_text (e :: es) (t ++ i ++ "," ++ s).
  Definition file_text (es : list entry) (t : string) : Prop :=
    exists i j b k, ignorable i /\ ignorable j /\ body_text es b /\ ignorable k /\ t = i ++ "{" ++ j ++ b ++ k.
End Grammar.

(** *** what the entries say *)
Definition of_key (ks : list string) (es : list entry) : list value :=
  map snd (filter (fun e => existsb (String.eqb (fst e)) ks) es).
Definition within (tol : Q) (a b : list Q) : Prop :=
  List.length a = List.length b /\ Forall2 (fun x y => (Qabs (x - y) <= tol)%Q) a b.
Definition is_doubles (P : list Q -> Prop) (v : value) : Prop := exists l, v = V_doubles l /\ P l.

(** A usable description of the camera: the lens model named once; the intrinsics given once, after the
    lens model, as many as it needs; the pose given by six numbers, and equal where given again; the imager
    size given.  The file format takes a first extrinsics value of DBL_MAX, and a width of 0, as "not given". *)
Definition describes (rnd : Q -> Q) (es : list entry) (m : model) : Prop :=
  (exists name, of_key ["lensmodel"] es = [V_name name] /\ denotes rnd name (m_lens m)) /\
  (of_key ["intrinsics"] es = [V_doubles (m_intrinsics m)] /\ Z.of_nat (List.length (m_intrinsics m)) = num_params (m_lens m)) /\
  (forall es1 v es2, es = app es1 (("intrinsics", v) :: es2) -> exists w, In ("lensmodel", w) es1) /\
  (exists pre post, of_key ["extrinsics"; "rt_cam_ref"] es = app pre (V_doubles (m_rt_cam_ref m) :: post) /\
     List.length (m_rt_cam_ref m) = 6%nat /\
     Forall (is_doubles (fun l => List.length l = 6%nat /\ exists x r, l = x :: r /\ (x == DBL_MAX)%Q)) pre /\
     (exists x r, m_rt_cam_ref m = x :: r /\ ~ (x == DBL_MAX)%Q) /\
     Forall (is_doubles (fun l => within (1 # 1000000000) l (m_rt_cam_ref m))) post) /\
  (exists pre, of_key ["imagersize"] es = app pre [V_uints [fst (m_size m); snd (m_size m)]] /\
     Forall (fun v => exists h, v = V_uints [0; h]) pre /\ 0 < fst (m_size m) /\ 0 <= snd (m_size m)).
