(** C84: write_point_cloud_as_ply() writes what the header of the file announces *)
From Coq Require Import String List Arith Bool Lia Decimal DecimalString DecimalNat Ascii.
From Verif Require Import M_Ply.
Import ListNotations.
Open Scope string_scope.
Local Arguments String.append : simpl nomatch.

(** ** Specification: a reader of .ply headers *)
Fixpoint split (c : ascii) (s : string) : list string :=
  match s with
  | "" => [""]
  | String a s => if Ascii.eqb a c then "" :: split c s else match split c s with h :: t => String a h :: t | [] => [] end
  end.
Definition nl : ascii := ascii_of_nat 10.
Definition sp : ascii := ascii_of_nat 32.
(** the properties: type and name; and the text after the header *)
Fixpoint read_props (lines : list string) : option (list (string * string) * list string) :=
  match lines with
  | [] => None
  | l :: ls =>
      if String.eqb l "end_header" then Some ([], ls)
      else match split sp l with
           | [k; ty; name] => if String.eqb k "property" then match read_props ls with Some (ps, rest) => Some ((ty, name) :: ps, rest) | None => None end else None
           | _ => None
           end
  end.
(** format, number of vertices, properties *)
Definition read_header (s : string) : option (string * nat * list (string * string)) :=
  match split nl s with
  | m :: f :: e :: ls =>
      match split sp f, split sp e, read_props ls with
      | [kf; fmt; v], [ke; kv; n], Some (ps, [""]) =>
          if String.eqb m "ply" && String.eqb kf "format" && String.eqb v "1.0" && String.eqb ke "element" && String.eqb kv "vertex" then
            match NilZero.uint_of_string n with Some u => Some (fmt, Nat.of_uint u, ps) | None => None end
          else None
      | _, _, _ => None
      end
  | _ => None
  end.
(** the meaning of the properties, in terms of the arguments *)
Definition field {num} (points : array num) (color : option (array num)) (name : string) (i : nat) : num :=
  let channel k := match color with Some c => a_get c i k | None => a_get points i (3 + k) end in
  if String.eqb name "x" then a_get points i 0
  else if String.eqb name "y" then a_get points i 1
  else if String.eqb name "z" then a_get points i 2
  else if String.eqb name "red" then channel 2
  else if String.eqb name "green" then channel 1
  else channel 0. (* blue, or intensity *)
Definition size_of (ty : string) : nat := if String.eqb ty "float" then 4 else 1.
(** which arguments are accepted, and with which colors *)
Definition xyz : list (string * string) := [("float", "x"); ("float", "y"); ("float", "z")].
Definition gray : list (string * string) := [("uchar", "intensity")].
Definition rgb : list (string * string) := [("uchar", "red"); ("uchar", "green"); ("uchar", "blue")].
Inductive accepted {num} : array num -> option (array num) -> nat -> list (string * string) -> Prop :=
| A_plain : forall p N, a_shape p = [N; 3] -> accepted p None N []
| A_gray_in_points : forall p N, a_shape p = [N; 4] -> accepted p None N gray
| A_bgr_in_points : forall p N, a_shape p = [N; 6] -> accepted p None N rgb
| A_gray : forall p c N, a_shape p = [N; 3] -> a_shape c = [N] -> accepted p (Some c) N gray
| A_bgr : forall p c N, a_shape p = [N; 3] -> a_shape c = [N; 3] -> accepted p (Some c) N rgb.

(** ** Proofs *)
Fixpoint no_char (c : ascii) (s : string) : Prop := match s with "" => True | String a s => a <> c /\ no_char c s end.
Lemma split_no : forall c s, no_char c s -> split c s = [s].
Proof. induction s as [|a s IH]; intro H; [reflexivity|]. cbn [split]. destruct H as [H1 H2]. destruct (Ascii.eqb_spec a c); [contradiction|]. rewrite IH by exact H2. reflexivity. Qed.
Lemma split_app : forall c s t, no_char c s -> split c (s ++ String c t) = s :: split c t.
Proof.
  induction s as [|a s IH]; intros t H; cbn [append split].
  - rewrite Ascii.eqb_refl. reflexivity.
  - destruct H as [H1 H2]. destruct (Ascii.eqb_spec a c); [contradiction|]. rewrite IH by exact H2. reflexivity.
Qed.
Lemma no_app : forall c s t, no_char c s -> no_char c t -> no_char c (s ++ t).
Proof. induction s as [|a s IH]; intros t H1 H2; [exact H2|]. cbn. destruct H1. split; [assumption|]. now apply IH. Qed.
Lemma no_dec : forall c n, (forall d, c <> d \/ ~ In d ["0"%char; "1"%char; "2"%char; "3"%char; "4"%char; "5"%char; "6"%char; "7"%char; "8"%char; "9"%char]) -> no_char c (dec n).
Proof.
  intros c n H. assert (forall d, In d ["0"%char; "1"%char; "2"%char; "3"%char; "4"%char; "5"%char; "6"%char; "7"%char; "8"%char; "9"%char] -> d <> c) as D by (intros d I ->; destruct (H c); auto).
  unfold dec, NilZero.string_of_uint. assert (forall u, no_char c (NilEmpty.string_of_uint u)) as E.
  { induction u; cbn [NilEmpty.string_of_uint no_char]; try exact I; (split; [apply D; cbn; tauto|assumption]). }
  destruct (Nat.to_uint n) eqn:Q; try apply E. cbn. split; [apply D; cbn; tauto|exact I].
Qed.
Lemma dec_read : forall n, NilZero.uint_of_string (dec n) = Some (Nat.to_uint n).
Proof. intro n. unfold dec. apply NilZero.usu. intro H. destruct n; [discriminate|]. pose proof (DecimalNat.Unsigned.of_to (Datatypes.S n)) as Q. rewrite H in Q. discriminate. Qed.
Lemma header_read : forall num binary N (c : @colors num), read_header (header binary N c) =
  Some (if binary then "binary_little_endian" else "ascii", N, xyz ++ match c with No_color => [] | Gray _ => gray | Bgr _ _ _ => rgb end)%list.
Proof.
  intros num binary N c. unfold read_header.
  assert (split nl (header binary N c) = List.app ["ply"; "format " ++ (if binary then "binary_little_endian" else "ascii") ++ " 1.0"; "element vertex " ++ dec N;
    "property float x"; "property float y"; "property float z"] (split nl (header_color c ++ "end_header" ++ newline))) as E.
  { assert (header binary N c = "ply" ++ String nl (("format " ++ (if binary then "binary_little_endian" else "ascii") ++ " 1.0") ++ String nl (("element vertex " ++ dec N) ++ String nl
      ("property float x" ++ String nl ("property float y" ++ String nl ("property float z" ++ String nl (header_color c ++ "end_header" ++ newline)))))))
      as -> by (unfold header, newline; destruct binary; cbn; reflexivity).
    assert (forall d, nl <> d \/ ~ In d ["0"%char; "1"%char; "2"%char; "3"%char; "4"%char; "5"%char; "6"%char; "7"%char; "8"%char; "9"%char]) as D
      by (intro d; destruct (Ascii.ascii_dec nl d) as [<-|]; [right; cbn; intuition discriminate|left; assumption]).
    rewrite split_app by (cbn; repeat split; discriminate). rewrite split_app by (destruct binary; cbn; repeat split; discriminate).
    rewrite split_app by (apply no_app; [cbn; repeat split; discriminate|apply no_dec, D]).
    rewrite !split_app by (cbn; repeat split; discriminate). reflexivity. }
  rewrite E. cbn [List.app].
  assert (split sp ("format " ++ (if binary then "binary_little_endian" else "ascii") ++ " 1.0") = ["format"; if binary then "binary_little_endian" else "ascii"; "1.0"]) as -> by (destruct binary; reflexivity).
  assert (split sp ("element vertex " ++ dec N) = ["element"; "vertex"; dec N]) as ->.
  { change ("element vertex " ++ dec N) with ("element" ++ String sp ("vertex" ++ String sp (dec N))).
    rewrite !split_app by (cbn; repeat split; discriminate). rewrite split_no; [reflexivity|]. apply no_dec.
    intro d; destruct (Ascii.ascii_dec sp d) as [<-|]; [right; cbn; intuition discriminate|left; assumption]. }
  assert (read_props ("property float x" :: "property float y" :: "property float z" :: split nl (header_color c ++ "end_header" ++ newline)) =
     Some (List.app xyz match c with No_color => [] | Gray _ => gray | Bgr _ _ _ => rgb end, [""])) as -> by (destruct c; reflexivity).
  cbn [String.eqb Ascii.eqb Bool.eqb andb]. rewrite dec_read. now rewrite DecimalNat.Unsigned.of_to.
Qed.

Section ply.
Context {num byte : Type} (f32 u8 : num -> list byte) (fmt_f fmt_d : num -> string) (n255 : num).
Notation write := (write_ply f32 u8 fmt_f fmt_d n255).
(** a value in the file, by the type of the property *)
Definition encode (ty : string) (v : num) : list byte := if String.eqb ty "float" then f32 v else u8 v.
Definition text (ty : string) (v : num) : string := if String.eqb ty "float" then fmt_f v else fmt_d v.

Definition has_colors (p : array num) (color : option (array num)) (c : colors) (cs : list (string * string)) : Prop :=
  match c with
  | No_color => cs = []
  | Gray g => cs = gray /\ forall i, g i = field p color "intensity" i
  | Bgr b g r => cs = rgb /\ forall i, b i = field p color "blue" i /\ g i = field p color "green" i /\ r i = field p color "red" i
  end.
Lemma check_spec : forall (p : array num) color N c, check p color = Some (N, c) <-> exists cs, accepted p color N cs /\ check p color = Some (N, c) /\ has_colors p color c cs.
Proof.
  intros p color N c. split; [|intros (cs & _ & H & _); exact H]. intro H. pose proof H as H'. unfold check in H.
  destruct (a_shape p) as [|n [|k [|]]] eqn:Sp; try discriminate.
  destruct (Nat.eqb_spec k 3) as [->|K3].
  - cbn [Nat.eqb orb negb] in H. destruct color as [cl|].
    + destruct (a_shape cl) as [|m [|j [|]]] eqn:Sc; try discriminate.
      * destruct (Nat.eqb_spec m n) as [->|]; [|discriminate]. injection H as <- <-. exists gray. split; [constructor; assumption|]. split; [exact H'|]. split; [reflexivity|]. intro i. reflexivity.
      * destruct (Nat.eqb_spec m n) as [->|]; [|discriminate]. destruct (Nat.eqb_spec j 3) as [->|]; [|discriminate]. injection H as <- <-. exists rgb.
        split; [apply A_bgr; assumption|]. split; [exact H'|]. split; [reflexivity|]. intro i. repeat split; reflexivity.
    + injection H as <- <-. exists []. split; [constructor; assumption|]. split; [exact H'|reflexivity].
  - destruct color as [cl|]; [destruct (negb _); discriminate|]. destruct (Nat.eqb_spec k 4) as [->|K4].
    + injection H as <- <-. exists gray. split; [now apply A_gray_in_points|]. split; [exact H'|]. split; [reflexivity|]. intro i. reflexivity.
    + destruct (Nat.eqb_spec k 6) as [->|K6]; [|discriminate]. injection H as <- <-. exists rgb. split; [now apply A_bgr_in_points|]. split; [exact H'|]. split; [reflexivity|].
      intro i. repeat split; reflexivity.
Qed.
Lemma accepted_check : forall (p : array num) color N cs, accepted p color N cs -> exists c, check p color = Some (N, c).
Proof.
  intros p color N cs A. destruct A; unfold check; rewrite H; cbn [Nat.eqb orb negb]; try (eexists; reflexivity); rewrite H0, Nat.eqb_refl; cbn [Nat.eqb andb]; eexists; reflexivity.
Qed.
Lemma accepted_unique : forall (p : array num) color N cs N' cs', accepted p color N cs -> accepted p color N' cs' -> N' = N /\ cs' = cs.
Proof. intros p color N cs N' cs' A B. destruct A; inversion B; subst; split; congruence. Qed.

Lemma write_spec : forall p color binary N cs, accepted p color N cs -> exists c, has_colors p color c cs /\
  write p color binary = Some (header binary N c, if binary then Bytes (flat_map (record f32 u8 p c) (seq 0 N)) else Lines (map (line fmt_f fmt_d n255 p c) (seq 0 N))) /\
  read_header (header binary N c) = Some (if binary then "binary_little_endian" else "ascii", N, List.app xyz cs).
Proof.
  intros p color binary N cs A. destruct (accepted_check _ _ _ _ A) as (c & H). exists c. pose proof H as H2. apply check_spec in H2. destruct H2 as (cs' & A' & _ & Hc).
  destruct (accepted_unique _ _ _ _ _ _ A A') as (_ & ->). split; [exact Hc|]. unfold write_ply. rewrite H. split; [reflexivity|].
  rewrite header_read. destruct c; cbn in Hc; [subst; reflexivity| |]; destruct Hc as (-> & _); reflexivity.
Qed.

(** The binary file: the header announces N vertices, with x, y, z and the colors.  The data are the N records, with the announced values in the announced order.
    The size of the data is the announced one *)
Theorem C84_binary : forall p color N cs, accepted p color N cs -> exists h l, write p color true = Some (h, Bytes l) /\
  read_header h = Some ("binary_little_endian", N, List.app xyz cs) /\
  l = flat_map (fun i => flat_map (fun pr => encode (fst pr) (field p color (snd pr) i)) (List.app xyz cs)) (seq 0 N) /\
  ((forall x, List.length (f32 x) = 4) -> (forall x, List.length (u8 x) = 1) -> List.length l = N * list_sum (map (fun pr => size_of (fst pr)) (List.app xyz cs))).
Proof.
  intros p color N cs A. destruct (write_spec p color true N cs A) as (c & Hc & W & Rd). exists (header true N c). eexists. split; [exact W|]. split; [exact Rd|]. split.
  - apply flat_map_ext. intro i. unfold record. destruct c as [|g|b g r]; cbn in Hc.
    + subst cs. cbn. now rewrite !app_nil_r.
    + destruct Hc as (-> & E). rewrite E. cbn. now rewrite !app_nil_r.
    + destruct Hc as (-> & E). destruct (E i) as (-> & -> & ->). cbn. now rewrite !app_nil_r.
  - intros F U. assert (forall i, List.length (record f32 u8 p c i) = list_sum (map (fun pr => size_of (fst pr)) (List.app xyz cs))) as L.
    { intro i. unfold record. rewrite !app_length, !F. destruct c as [|g|b g r]; cbn in Hc; [subst cs; reflexivity| |]; destruct Hc as (-> & _); rewrite ?app_length, ?U; reflexivity. }
    generalize 0 as k. clear W Rd A. induction N as [|N IH]; intro k; [reflexivity|]. cbn [seq flat_map Nat.mul]. rewrite app_length, L, IH. reflexivity.
Qed.
(** The text file without colors, or with grayscale: N lines, with the announced values *)
Theorem C84_ascii_partial : forall p color N cs, accepted p color N cs -> cs <> rgb -> exists h, read_header h = Some ("ascii", N, List.app xyz cs) /\
  write p color false = Some (h, Lines (map (fun i => map (fun pr => text (fst pr) (field p color (snd pr) i)) (List.app xyz cs)) (seq 0 N))).
Proof.
  intros p color N cs A Ne. destruct (write_spec p color false N cs A) as (c & Hc & W & Rd). exists (header false N c). split; [exact Rd|]. rewrite W. do 3 f_equal.
  apply map_ext. intro i. unfold line. destruct c as [|g|b g r]; cbn in Hc; [subst cs; reflexivity| |]; destruct Hc as (-> & E); [|contradiction]. rewrite E. reflexivity.
Qed.
(** The text file with bgr colors has one value more in each line than the header announces *)
Theorem C84_ascii_colors_refuted : forall p color N, accepted p color N rgb -> exists h lines, read_header h = Some ("ascii", N, List.app xyz rgb) /\ write p color false = Some (h, Lines lines) /\
  List.length lines = N /\ forall l, In l lines -> List.length l = 1 + List.length (List.app xyz rgb).
Proof.
  intros p color N A. destruct (write_spec p color false N rgb A) as (c & Hc & W & Rd). exists (header false N c). eexists. split; [exact Rd|]. split; [exact W|].
  split; [now rewrite map_length, seq_length|]. intros l I. apply in_map_iff in I. destruct I as (i & <- & _).
  destruct c as [|g|b g r]; cbn in Hc; [discriminate|destruct Hc; discriminate|reflexivity].
Qed.
(** All other arguments are refused *)
Theorem C84_refuses : forall p color binary, write p color binary = None <-> forall N cs, ~ accepted p color N cs.
Proof.
  intros p color binary. split.
  - intros H N cs A. destruct (write_spec p color binary N cs A) as (c & _ & W & _). congruence.
  - intro H. unfold write_ply. destruct (check p color) as [[N c]|] eqn:E; [|reflexivity]. exfalso. apply check_spec in E. destruct E as (cs & A & _). exact (H N cs A).
Qed.
End ply.

(** 12 colored points *)
Example ex_C84 : accepted (Array [12; 6] (fun i j => i + j)) None 12 rgb /\ accepted (Array [12; 3] (fun i j => i + j)) (Some (Array [12] (fun i j => i))) 12 gray /\
  read_header (header true 12 (@No_color nat)) = Some ("binary_little_endian", 12, xyz).
Proof. split; [now apply A_bgr_in_points|]. split; [now apply A_gray|]. reflexivity. Qed.

Print Assumptions C84_binary.
Print Assumptions C84_ascii_partial.
Print Assumptions C84_ascii_colors_refuted.
Print Assumptions C84_refuses.
