(** Proofs: what the two writers produce is in the grammar of .cameramodel files. *)
From Coq Require Import ZArith NArith List Bool QArith Qabs String Ascii Lia.
From Coq Require Import ZifyBool ZifyNat.
From Verif Require Import M_Lens M_Names S_Names P_Names M_CamFile S_CamFile P_CamFile P_CamComplete.
Import ListNotations.
Open Scope string_scope.
Open Scope Z_scope.

Lemma skipped : forall s, skip s = "" -> ignorable s.
Proof. intros s E. destruct (skip_sound s) as (i & Ei & I). rewrite Ei, E, sapp_nil. exact I. Qed.
Definition no_nul (c : ascii) : bool := negb (Ascii.eqb c "000").
Lemma cstr_all : forall s, all_chars no_nul s -> cstr s = s.
Proof.
  induction s as [|c s IH]; [reflexivity|]. intros [C A]. unfold no_nul in C. cbn [cstr]. destruct (Ascii.eqb c "000"); [discriminate|]. now rewrite IH.
Qed.
Lemma all_impl : forall (P Q : ascii -> bool) s, (forall c, P c = true -> Q c = true) -> all_chars P s -> all_chars Q s.
Proof. induction s as [|c s IH]; cbn; [tauto|]. intros H [A B]. split; auto. Qed.

(** *** characters of names and numbers *)
Definition plain (c : ascii) : bool := negb (is_quote c) && no_nul c.
Lemma digits_plain : forall s, all_chars is_digit s -> all_chars plain s.
Proof. intros s. apply all_impl. dig. Qed.
Lemma space_plain : forall s, all_chars is_space s -> all_chars plain s.
Proof. intros s. apply all_impl. sub. Qed.
Lemma sign_plain : forall s n, sign_text s n -> all_chars plain s.
Proof. intros s n [[-> _]|[[-> _]|[-> _]]]; cbn; repeat split; reflexivity. Qed.
Lemma u16_plain : forall a v, u16_text a v -> all_chars plain a.
Proof.
  intros a v (sp & sg & neg & ds & -> & A & B & C & _). rewrite !all_app. split; [now apply space_plain|]. split; [eapply sign_plain; eassumption|now apply digits_plain].
Qed.
Lemma lf_plain : forall rnd a q, lf_text rnd a q -> all_chars plain a.
Proof.
  intros rnd a q (sp & sg & neg & ip & f & fr & A & B & C & D & E & _ & H). cbn zeta in H.
  assert (all_chars plain (sp ++ sg ++ ip ++ f)) as P.
  { rewrite !all_app. split; [now apply space_plain|]. split; [eapply sign_plain; eassumption|]. split; [now apply digits_plain|].
    destruct D as [[-> _]| ->]; [exact I|]. cbn. split; [reflexivity|now apply digits_plain]. }
  destruct H as [[-> _]|(ee & es & en & ed & He & Hs & Hd & _ & -> & _)]; [exact P|].
  rewrite !all_app in *. destruct P as (P1 & P2 & P3 & P4). split; [exact P1|]. split; [exact P2|]. split; [exact P3|]. split; [exact P4|].
  split; [destruct He as [->| ->]; cbn; repeat split; reflexivity|]. split; [eapply sign_plain; eassumption|now apply digits_plain].
Qed.
Lemma denotes_plain : forall rnd s m, denotes rnd s m -> all_chars plain s.
Proof.
  intros rnd s m (t & [(-> & _)|(c & -> & H)]).
  - destruct t; cbn; repeat split; reflexivity.
  - rewrite all_app. split; [destruct t; cbn; repeat split; reflexivity|]. destruct t; cbn [config_text] in H; try contradiction.
    + destruct H as (l & q & -> & L & _). rewrite all_app. split; [cbn; repeat split; reflexivity|eapply lf_plain; eassumption].
    + destruct H as (a & b & d & e & cfg & -> & A & B & D & E & _). rewrite !all_app.
      repeat match goal with |- _ /\ _ => split end; try (eapply u16_plain; eassumption); repeat split; reflexivity.
Qed.
Lemma plain_quote : forall s, all_chars plain s -> all_chars (fun c => negb (is_quote c)) s /\ all_chars no_nul s.
Proof. intros s H. split; (eapply all_impl; [|exact H]); intros c Q; apply andb_true_iff in Q; tauto. Qed.
Lemma float_chars : forall (P : ascii -> bool) t, (forall c, is_digit c = true -> P c = true) -> P "-"%char = true -> P "."%char = true -> P "e"%char = true -> P "E"%char = true ->
  (P "+"%char = true \/ all_chars (fun c => negb (Ascii.eqb c "+")) t) -> float_shape t -> all_chars P t.
Proof.
  intros P t D M Pt Pe PE Pp (a & b & p & e & A & B & Pp' & E & ->). rewrite !all_app in *.
  split; [destruct A as [->| ->]; cbn; tauto|]. split; [eapply all_impl; eassumption|].
  split; [destruct Pp' as [->|(d & Dd & ->)]; cbn; [exact I|]; split; [exact Pt|eapply all_impl; eassumption]|].
  destruct E as [->|(ee & g & x & He & G & X & _ & ->)]; [exact I|]. rewrite !all_app in *. split; [destruct He as [->| ->]; cbn; tauto|].
  split; [|eapply all_impl; eassumption]. destruct G as [->|[->| ->]]; cbn; try tauto.
  destruct Pp as [Q|(_ & _ & _ & _ & Q & _)]; [tauto|]. cbn in Q. destruct Q. discriminate.
Qed.
Lemma float_no_nul : forall t, float_shape t -> all_chars no_nul t.
Proof. intros t. apply float_chars; try reflexivity; [dig|now left]. Qed.
(** coordinates that the reader can skip over *)
Definition coord_text (t : string) : Prop := float_shape t /\ all_chars (fun c => negb (Ascii.eqb c "+")) t.
Lemma coord_junk : forall t, coord_text t -> all_chars is_junk t.
Proof. intros t [F N]. apply float_chars; try reflexivity; [|now right|exact F]. intros c H. unfold is_junk. now rewrite H. Qed.
Lemma nested_junk : forall a s, all_chars is_junk a -> nested s -> nested (a ++ s).
Proof. induction a as [|c a IH]; intros s A N; [exact N|]. destruct A as [C A]. cbn. apply ne_char; [now right|now apply IH]. Qed.

(** *** numerals *)
Lemma digits_fuel_lead : forall f n acc, (0 < n < 10 ^ N.of_nat (S f))%N -> exists c r, digits_fuel f n acc = String c r /\ c <> "0"%char.
Proof.
  assert (G : forall d, (0 < d < 10)%N -> digit d <> "0"%char).
  { intros d H E. assert (digit_val (digit d) = Z.of_N d) as V by (apply digit_ok; lia). rewrite E in V. cbn in V. lia. }
  induction f as [|f IH]; intros n acc H; cbn [digits_fuel].
  - eexists _, _. split; [reflexivity|]. change (10 ^ N.of_nat 1)%N with 10%N in H. rewrite N.mod_small by lia. apply G. lia.
  - destruct (N.ltb_spec n 10) as [L|L].
    + eexists _, _. split; [reflexivity|]. rewrite N.mod_small by lia. apply G. lia.
    + apply IH. split; [apply N.div_str_pos; lia|]. apply N.div_lt_upper_bound; [lia|].
      replace (10 * 10 ^ N.of_nat (S f))%N with (10 ^ N.of_nat (S (S f)))%N; [lia|]. rewrite (Nat2N.inj_succ (S f)), N.pow_succ_r'. reflexivity.
Qed.
Lemma fmt_u_uint : forall n, 0 <= n < 2^31 -> uint_text (fmt_u n) n.
Proof.
  intros n H. destruct (fmt_u_spec n) as (A & B & C); [lia|]. split; [|rewrite C, c_int_small by lia; lia].
  destruct (Z.eq_dec n 0) as [->|N]; [now left|right].
  destruct (digits_fuel_lead (N.size_nat (Z.to_N n)) (Z.to_N n) "") as (c & r & E & Nc); [split; [lia|apply size_bound]|].
  exists c, r. unfold fmt_u in *. rewrite E in *. tauto.
Qed.
Lemma fmt_d_float : forall n, float_shape (fmt_d n) /\ fmt_d n <> "" /\ fmt_d n <> ".".
Proof.
  intro n. unfold fmt_d. destruct (fmt_u_spec (Z.abs n)) as (A & B & _); [lia|].
  assert (float_shape ((if n <? 0 then "-" else "") ++ fmt_u (Z.abs n))) as F.
  { exists (if n <? 0 then "-" else ""), (fmt_u (Z.abs n)), "", "". rewrite !sapp_nil. split; [destruct (n <? 0); tauto|]. tauto. }
  split; [exact F|]. destruct (fmt_u (Z.abs n)) as [|c s]; [now elim B|]. destruct A as [A _]. destruct (n <? 0); cbn; (split; [discriminate|]); [discriminate|].
  intro E. inversion E; subst. discriminate A.
Qed.
Lemma fixed_digits_spec : forall n h acc, 0 <= h < 10 ^ Z.of_nat n -> exists ds, fixed_digits n h acc = ds ++ acc /\ all_chars is_digit ds /\
  String.length ds = n /\ dec_value ds = h.
Proof.
  induction n as [|n IH]; intros h acc H; cbn [fixed_digits].
  - exists "". cbn in *. repeat split; lia.
  - rewrite Nat2Z.inj_succ, Z.pow_succ_r in H by lia. destruct (IH (h / 10) (String (digit (Z.to_N (h mod 10))) acc)) as (ds & E & D & L & V).
    + split; [apply Z.div_pos; lia|apply Z.div_lt_upper_bound; lia].
    + pose proof (Z.mod_pos_bound h 10 ltac:(lia)). destruct (digit_ok (Z.to_N (h mod 10))) as (F1 & F2); [lia|].
      exists (ds ++ String (digit (Z.to_N (h mod 10))) ""). split; [rewrite E, sapp_assoc; reflexivity|]. split; [rewrite all_app; cbn; tauto|].
      split; [rewrite slen_app; cbn; lia|]. rewrite dec_value_app, V. cbn [String.length dec_value]. rewrite F2.
      change (10 ^ Z.of_nat 1) with 10. change (10 ^ Z.of_nat 0) with 1. pose proof (Z.div_mod h 10 ltac:(lia)). lia.
Qed.
(** the value of a %f text *)
Definition six_decimals (x : Q) : Q := (if (Qnum x <? 0)%Z then - rne (Qabs x * (1000000#1))%Q else rne (Qabs x * (1000000#1))%Q) # 1000000.
Lemma rne_half : forall q, (0 <= q)%Q -> 0 <= rne q /\ (Qabs (inject_Z (rne q) - q) <= 1 # 2)%Q.
Proof.
  intros [n d] H. unfold Qle in H. cbn in H. unfold rne. cbn [Qnum Qden].
  pose proof (Z.div_mod n (Z.pos d) ltac:(lia)) as DM. pose proof (Z.mod_pos_bound n (Z.pos d) ltac:(lia)) as MB.
  set (f := n / Z.pos d) in *. set (r := n mod Z.pos d) in *. assert (0 <= f) by (apply Z.div_pos; lia).
  assert (G : forall k, 0 <= k -> 2 * (k * Z.pos d - n) <= Z.pos d -> - Z.pos d <= 2 * (k * Z.pos d - n) -> 0 <= k /\ (Qabs (inject_Z k - (n # d)) <= 1 # 2)%Q).
  { intros k K L1 L2. split; [exact K|]. apply Qabs_Qle_condition. unfold Qle, Qminus, Qplus, Qopp, inject_Z. cbn [Qnum Qden]. rewrite ?Pos2Z.inj_mul. lia. }
  cbv zeta. destruct (Z.compare_spec (2 * r) (Z.pos d)); [destruct (Z.even f)| |]; apply G; lia.
Qed.
Lemma six_decimals_close : forall x, (Qabs (six_decimals x - x) <= 1 # 2000000)%Q.
Proof.
  intro x. destruct (rne_half (Qabs x * (1000000 # 1))) as [P H]; [apply Qmult_le_0_compat; [apply Qabs_nonneg|discriminate]|].
  unfold six_decimals. set (h := rne (Qabs x * (1000000 # 1))) in *. clearbody h.
  apply Qabs_Qle_condition in H. apply Qabs_Qle_condition. destruct x as [n d]. cbn [Qnum] in *.
  unfold Qle, Qminus, Qplus, Qopp, Qmult, inject_Z, Qabs in *. cbn [Qnum Qden] in *. rewrite ?Pos2Z.inj_mul in *.
  destruct (Z.ltb_spec n 0); [rewrite Z.abs_neq in H by lia|rewrite Z.abs_eq in H by lia]; lia.
Qed.
Lemma fmt_f_text : forall rnd x, (Qabs (rnd (six_decimals x)) <= DBL_MAX)%Q -> double_text rnd (fmt_f x) (rnd (six_decimals x)).
Proof.
  intros rnd x B. unfold fmt_f. destruct (rne_half (Qabs x * (1000000 # 1))) as [P _]; [apply Qmult_le_0_compat; [apply Qabs_nonneg|discriminate]|].
  unfold six_decimals in *. set (h := rne (Qabs x * (1000000 # 1))) in *. clearbody h.
  destruct (fmt_u_spec (h / 1000000)) as (A1 & A2 & A3); [apply Z.div_pos; lia|].
  destruct (fixed_digits_spec 6 (h mod 1000000) "") as (ds & E & D & L & V); [apply Z.mod_pos_bound; lia|]. rewrite sapp_nil in E. rewrite E.
  split; [|split; [|exact B]].
  - exists (if Qnum x <? 0 then "-" else ""), (fmt_u (h / 1000000)), (String "." ds), "". split; [destruct (Qnum x <? 0); tauto|]. split; [exact A1|].
    split; [right; now exists ds|]. split; [now left|]. rewrite sapp_nil. reflexivity.
  - exists "", (if Qnum x <? 0 then "-" else ""), (Qnum x <? 0), (fmt_u (h / 1000000)), (String "." ds), ds.
    split; [exact I|]. split; [destruct (Qnum x <? 0); unfold sign_text; tauto|]. split; [exact A1|]. split; [now right|]. split; [exact D|].
    split; [destruct (fmt_u (h / 1000000)); easy|]. cbn zeta. left. split; [reflexivity|].
    assert (dec_value (fmt_u (h / 1000000) ++ ds) = h) as ->. { rewrite dec_value_app, A3, V, L. pose proof (Z.div_mod h 1000000 ltac:(lia)). cbn. lia. }
    rewrite L. reflexivity.
Qed.

(** *** lists and entries *)
Section Write.
Variable rnd : Q -> Q.
Lemma elements_nums : forall (f : Q -> string) (back : Q -> Q) l, l <> [] -> (forall x, In x l -> double_text rnd (f x) (back x)) ->
  elements (double_text rnd) (concat_map (fun x => " " ++ f x ++ ",") l) (map back l).
Proof.
  induction l as [|x l IH]; intros Ne H; [now elim Ne|]. assert (ignorable " ") as S1 by (apply skipped; reflexivity).
  destruct l as [|y l].
  - cbn [concat_map map]. rewrite sapp_nil. apply (el_last _ " " (f x) "" (back x) ","); [exact S1|apply H; now left|constructor|now right].
  - change (concat_map (fun x => " " ++ f x ++ ",") (x :: y :: l)) with ((" " ++ f x ++ ",") ++ concat_map (fun x => " " ++ f x ++ ",") (y :: l)).
    rewrite !sapp_assoc. apply (el_more _ " " (f x) "" (back x)); [exact S1|apply H; now left|constructor|]. apply IH; [discriminate|]. intros z Hz. apply H. now right.
Qed.
Lemma elements_c : forall (f : Q -> string) (back : Q -> Q) l, l <> [] -> (forall x, In x l -> double_text rnd (f x) (back x)) ->
  exists s, elements (double_text rnd) s (map back l) /\ " " ++ concat_map (fun x => f x ++ ", ") l = s ++ " ".
Proof.
  induction l as [|x l IH]; intros Ne H; [now elim Ne|]. assert (ignorable " ") as S1 by (apply skipped; reflexivity).
  destruct l as [|y l].
  - exists (" " ++ f x ++ "" ++ ","). split; [apply el_last; [exact S1|apply H; now left|constructor|now right]|].
    cbn [concat_map]. rewrite sapp_nil. rewrite !sapp_assoc. reflexivity.
  - destruct IH as (s & E & Es); [discriminate|intros z Hz; apply H; now right|]. exists (" " ++ f x ++ "" ++ "," ++ s).
    split; [cbn [map]; apply el_more; [exact S1|apply H; now left|constructor|exact E]|].
    cbn [concat_map] in *. rewrite !sapp_assoc in *. cbn [append] in *. do 2 f_equal. f_equal. exact Es.
Qed.
Notation etext := (entry_text rnd (eq "")).
(** an entry as both writers lay it out *)
Lemma simple_entry : forall i key v vt, ignorable i -> all_chars (fun c => negb (is_quote c)) key -> value_text rnd (eq "") key v vt ->
  etext (key, v) (i ++ "'" ++ key ++ "':" ++ vt).
Proof.
  intros i key v vt I K V. exists i, (String "'" (key ++ "'")), "", vt. split; [exact I|]. split.
  - exists "", "'"%char, "'"%char. repeat split; try (now left); try reflexivity. exact K.
  - split; [constructor|]. split; [exact V|]. cbn. rewrite !sapp_assoc. reflexivity.
Qed.
Lemma entry_prefix : forall i e t, ignorable i -> etext e t -> etext e (i ++ t).
Proof. intros i e t I (i0 & k & j & v & I0 & K & J & V & ->). exists (i ++ i0), k, j, v. rewrite sapp_assoc. repeat split; try assumption. now apply ignorable_app. Qed.
Lemma body_prefix : forall i es b, ignorable i -> body_text rnd (eq "") es b -> body_text rnd (eq "") es (i ++ b).
Proof.
  intros i es b I [e t i0 comma E I0 C|e t i0 es' s E I0 B]; rewrite <- sapp_assoc; [apply bt_last|apply bt_more]; try assumption; now apply entry_prefix.
Qed.
(** what may follow a comma: further entries, or none *)
Definition rest_text (es : list entry) (s : string) : Prop :=
  exists j, ignorable j /\ ((es = [] /\ s = j ++ "}") \/ exists b, body_text rnd (eq "") es b /\ s = j ++ b).
Lemma rest_end : rest_text [] "}".
Proof. exists "". split; [constructor|now left]. Qed.
Lemma rest_ign : forall i es s, ignorable i -> rest_text es s -> rest_text es (i ++ s).
Proof.
  intros i es s I (j & J & H). exists (i ++ j). split; [now apply ignorable_app|]. rewrite sapp_assoc.
  destruct H as [[-> ->]|(b & B & ->)]; [now left|right]. exists b. split; [exact B|]. now rewrite sapp_assoc.
Qed.
Lemma rest_cons : forall e t es s, etext e t -> rest_text es s -> rest_text (e :: es) (t ++ "," ++ s).
Proof.
  intros e t es s E (j & J & H). exists "". split; [constructor|]. right. exists (t ++ "," ++ s). split; [|reflexivity]. destruct H as [[-> ->]|(b & B & ->)].
  - pose proof (bt_last rnd (eq "") e t "" ("," ++ j) E ig_nil) as Q. cbn [append] in *. apply Q. right. now exists j.
  - apply (bt_more rnd (eq "") e t "" es (j ++ b)); [exact E|constructor|now apply body_prefix].
Qed.
Lemma rest_item : forall i key v vt j es r s, ignorable i -> all_chars (fun c => negb (is_quote c)) key -> value_text rnd (eq "") key v vt -> ignorable j -> rest_text es r ->
  s = i ++ "'" ++ key ++ "':" ++ vt ++ "," ++ j ++ r -> rest_text ((key, v) :: es) s.
Proof.
  intros i key v vt j es r s I K V J H ->.
  replace (i ++ "'" ++ key ++ "':" ++ vt ++ "," ++ j ++ r) with ((i ++ "'" ++ key ++ "':" ++ vt) ++ "," ++ (j ++ r)) by (rewrite !sapp_assoc; reflexivity).
  apply rest_cons; [now apply simple_entry|now apply rest_ign].
Qed.
Lemma rest_body : forall es s, rest_text es s -> es <> [] -> exists j b, ignorable j /\ body_text rnd (eq "") es b /\ s = j ++ b.
Proof. intros es s (j & J & [[-> _]|(b & B & ->)]) N; [now elim N|]. exists j, b. tauto. Qed.
End Write.
