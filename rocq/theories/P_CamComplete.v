(** Proofs about the .cameramodel reader: every file in the grammar that describes a camera is accepted. *)
From Coq Require Import ZArith NArith List Bool QArith Qabs String Ascii Lia.
From Coq Require Import ZifyBool ZifyNat.
From Verif Require Import M_Lens M_Names S_Names P_Names M_CamFile S_CamFile P_CamFile.
Import ListNotations.
Open Scope string_scope.
Open Scope Z_scope.

(** *** skipping *)
Lemma skip_comment : forall also b s at_, all_chars not_nl b -> skip_from also (Some at_) (b ++ String nl s) = skip_from also None s.
Proof.
  intros also b s at_. induction b as [|c b IH]; intro B; [reflexivity|]. destruct B as [N B]. cbn [append skip_from].
  unfold not_nl in N. destruct (Ascii.eqb c nl); [discriminate|]. now apply IH.
Qed.
Lemma skip_from_app : forall also i s, ignx also i -> also "#"%char = false -> skip_from also None (i ++ s) = skip_from also None s.
Proof.
  intros also i s I Hh. induction I as [|c i H I IH|b i B I IH]; [reflexivity| |].
  - cbn [append skip_from]. apply orb_true_iff in H. now rewrite H.
  - cbn [append]. rewrite sapp_assoc. cbn [append skip_from]. change (is_ws "#") with false. rewrite Hh. cbn [orb Ascii.eqb].
    change (Ascii.eqb "#" "#") with true. cbv iota. now rewrite skip_comment.
Qed.
Lemma ignorable_ignx : forall also i, ignorable i -> ignx also i.
Proof. induction 1; [constructor|apply ix_char; auto|now apply ix_comment]. Qed.
Lemma skip_app : forall i s, ignorable i -> skip (i ++ s) = skip s.
Proof. intros i s I. apply skip_from_app; [now apply ignorable_ignx|reflexivity]. Qed.
Lemma skip_junk_app : forall i s, ignx is_junk i -> skip_junk (i ++ s) = skip_junk s.
Proof. intros i s I. now apply skip_from_app. Qed.
Lemma skip_ignorable : forall i, ignorable i -> skip i = "".
Proof. intros i I. rewrite <- (sapp_nil i). now rewrite skip_app. Qed.
Definition visible (c : ascii) : bool := negb (is_ws c) && negb (Ascii.eqb c "#").
Lemma skip_visible : forall c s, visible c = true -> skip (String c s) = String c s.
Proof.
  intros c s V. unfold visible in V. apply andb_true_iff in V as [A B]. unfold skip. cbn [skip_from]. destruct (is_ws c); [discriminate|].
  destruct (Ascii.eqb c "#"); [discriminate|]. reflexivity.
Qed.
Lemma skip_to : forall i c s, ignorable i -> visible c = true -> skip (i ++ String c s) = String c s.
Proof. intros. rewrite skip_app by assumption. now apply skip_visible. Qed.
Lemma skip_idem : forall s, skip (skip s) = skip s.
Proof. intro s. destruct (skip_sound s) as (i & E & I). rewrite E at 2. now rewrite skip_app. Qed.

Ltac ascii_case c := destruct c as [[] [] [] [] [] [] [] []].
Lemma quote_visible : forall c, is_quote c = true -> visible c = true.
Proof. intro c. ascii_case c; intro H; try discriminate H; reflexivity. Qed.
Lemma open_visible : forall c, is_open c = true -> visible c = true /\ is_junk c = false.
Proof. intro c. ascii_case c; intro H; try discriminate H; split; reflexivity. Qed.
Lemma close_visible : forall c, is_close c = true -> visible c = true /\ is_junk c = false /\ is_open c = false.
Proof. intro c. ascii_case c; intro H; try discriminate H; repeat split; reflexivity. Qed.

(** *** lexemes *)
Lemma take_app : forall P a r, all_chars P a -> starts P r = false -> take P (a ++ r) = (a, r).
Proof.
  intros P a r. induction a as [|c a IH]; intros A R.
  - destruct r as [|c r]; [reflexivity|]. cbn in *. now rewrite R.
  - destruct A as [C A]. cbn [append take]. rewrite C, IH by assumption. reflexivity.
Qed.
Definition numch (c : ascii) : bool := is_digit c || Ascii.eqb c "." || Ascii.eqb c "e" || Ascii.eqb c "E" || Ascii.eqb c "+" || Ascii.eqb c "-".
Definition stops (r : string) : Prop := starts numch r = false.
Lemma take1_no : forall P s, starts P s = false -> take1 P s = ("", s).
Proof. intros P [|c s] H; [reflexivity|]. cbn in *. now rewrite H. Qed.
Lemma starts_sub : forall P Q s, (forall c, P c = true -> Q c = true) -> starts Q s = false -> starts P s = false.
Proof. intros P Q [|c s] H S; [reflexivity|]. cbn in *. destruct (P c) eqn:E; [|reflexivity]. rewrite (H c E) in S. discriminate. Qed.
Lemma stops_sub : forall P s, (forall c, P c = true -> numch c = true) -> stops s -> starts P s = false.
Proof. intros. eapply starts_sub; eassumption. Qed.
Ltac sub := let c := fresh "c" in intro c; ascii_case c; let H := fresh in intro H; try discriminate H; reflexivity.
Lemma starts_digits : forall P b s, all_chars is_digit b -> (forall c, is_digit c = true -> P c = false) -> starts P s = false -> starts P (b ++ s) = false.
Proof. intros P [|c b] s B D S; [exact S|]. destruct B as [C _]. cbn. now apply D. Qed.
Ltac dig := let c := fresh "c" in let H := fresh in intros c H; apply digit_cases in H; cbn in H; intuition (subst; reflexivity).
Lemma float_lex_complete : forall t r, float_shape t -> t <> "" -> stops r -> float_lex (t ++ r) = (t, r).
Proof.
  intros t r (a & b & p & e & A & B & P & E & ->) Ne St.
  assert (Er : forall Q, (forall c, Q c = true -> numch c = true) -> Q "e"%char = false -> Q "E"%char = false -> starts Q (e ++ r) = false).
  { intros Q Hq Q1 Q2. destruct E as [->|(ee & g & x & Ee & G & X & Nx & ->)]; [now apply stops_sub|]. destruct Ee as [->| ->]; cbn; assumption. }
  assert (Pr : forall Q, (forall c, Q c = true -> numch c = true) -> Q "e"%char = false -> Q "E"%char = false -> Q "."%char = false -> starts Q (p ++ e ++ r) = false).
  { intros Q Hq Q1 Q2 Q3. destruct P as [->|(d & D & ->)]; [now apply Er|exact Q3]. }
  unfold float_lex. rewrite !sapp_assoc.
  assert (take1 (fun c => Ascii.eqb c "-") (a ++ b ++ p ++ e ++ r) = (a, b ++ p ++ e ++ r)) as ->.
  { destruct A as [->| ->]; [|reflexivity]. cbn [append]. apply take1_no. apply starts_digits; [exact B|dig|]. apply Pr; [sub|reflexivity..]. }
  rewrite take_app; [|exact B|apply Pr; [sub|reflexivity..]].
  assert (exists d, take1 (fun c => Ascii.eqb c ".") (p ++ e ++ r) = ((match p with "" => "" | _ => "." end), match p with "" => e ++ r | _ => d ++ e ++ r end)
     /\ all_chars is_digit d /\ (match p with "" => d = "" | _ => p = "." ++ d end)) as (d & -> & D & Ep).
  { destruct P as [->|(d & D & ->)]; [exists ""|exists d]; (split; [|cbn; tauto]); [|reflexivity]. cbn [append]. apply take1_no. apply Er; [sub|reflexivity..]. }
  assert ((match (match p with "" => "" | _ => "." end) with "" => ("", p ++ e ++ r) | _ => take is_digit (match p with "" => e ++ r | _ => d ++ e ++ r end) end)
     = (d, e ++ r)) as ->.
  { destruct p; [subst d; reflexivity|]. apply take_app; [exact D|]. apply Er; [sub|reflexivity..]. }
  assert (Epd : (match p with "" => "" | _ => "." end) ++ d = p). { destruct p; [now subst|]. now symmetry. }
  destruct E as [->|(ee & g & x & Ee & G & X & Nx & ->)].
  - cbn [append]. rewrite take1_no by (eapply stops_sub; [sub|exact St]). rewrite Epd, sapp_nil. reflexivity.
  - assert (take1 (fun c => Ascii.eqb c "e" || Ascii.eqb c "E")%bool ((ee ++ g ++ x) ++ r) = (ee, g ++ x ++ r)) as ->.
    { rewrite !sapp_assoc. destruct Ee as [->| ->]; reflexivity. }
    assert (take1 (fun c => Ascii.eqb c "+" || Ascii.eqb c "-")%bool (g ++ x ++ r) = (g, x ++ r)) as ->.
    { destruct G as [->|[->| ->]]; [|reflexivity..]. cbn [append]. apply take1_no. destruct x as [|c x]; [now elim Nx|]. cbn. destruct X as [C _].
      apply digit_not_sign in C as (C1 & C2 & _). destruct (Ascii.eqb_spec c "+"), (Ascii.eqb_spec c "-"); try contradiction. reflexivity. }
    rewrite take_app; [|exact X|eapply stops_sub; [sub|exact St]]. destruct x as [|c x]; [now elim Nx|].
    clear Ep Er Pr P Ne. set (dot := match p with "" => "" | _ => "." end) in *. clearbody dot. subst p. rewrite !sapp_assoc. destruct Ee as [->| ->]; reflexivity.
Qed.
Lemma float_first : forall t r, float_shape t -> t <> "" -> exists c s, t ++ r = String c s /\ visible c = true.
Proof.
  intros t r (a & b & p & e & A & B & P & E & ->) Ne.
  destruct A as [->| ->]; [|cbn; eauto]. destruct b as [|c b].
  2: { destruct B as [C _]. cbn. exists c. eexists. split; [reflexivity|]. apply digit_cases in C. cbn in C. intuition (subst; reflexivity). }
  destruct P as [->|(d & D & ->)]; [|cbn; eauto]. destruct E as [->|(ee & g & x & Ee & _ & _ & _ & ->)]; [now elim Ne|].
  destruct Ee as [->| ->]; cbn; eauto.
Qed.
Lemma skip_float : forall i t r, ignorable i -> float_shape t -> t <> "" -> skip (i ++ t ++ r) = t ++ r.
Proof. intros i t r I F N. rewrite skip_app by exact I. destruct (float_first t r F N) as (c & s & E & V). rewrite E. now apply skip_visible. Qed.
Lemma lf_nonempty : forall rnd t q, lf_text rnd t q -> t <> "".
Proof.
  intros rnd t q (sp & sg & neg & ip & f & fr & _ & _ & _ & Hf & _ & Ne & H). intros ->. cbn zeta in H.
  assert (app2 : forall a b : string, a ++ b = "" -> a = "" /\ b = "") by (intros [|? ?] b E; [tauto|discriminate]).
  assert (ip = "" /\ f = "") as [-> ->].
  { destruct H as [[E _]|(E0 & es & en & ed & _ & _ & _ & _ & E & _)]; symmetry in E; apply app2 in E as [_ E]; apply app2 in E as [_ E]; apply app2 in E as [Ei E];
      [tauto|]. apply app2 in E. tauto. }
  destruct Hf as [[_ ->]|E]; [now apply Ne|discriminate].
Qed.
Definition delim (r : string) : Prop := stops r.
Lemma ign_delim : forall j c s, ignorable j -> numch c = false -> stops (j ++ String c s).
Proof.
  intros j c s J C. destruct J as [|w j W J|b j B J]; [exact C| |]; cbn; [|reflexivity]. unfold stops. cbn.
  revert W. ascii_case w; intro W; try discriminate W; reflexivity.
Qed.

Section Complete.
Variable rnd : Q -> Q.
Lemma ingest_double_complete : forall i t q j c r, ignorable i -> double_text rnd t q -> ignorable j -> numch c = false -> visible c = true ->
  ingest_double rnd (i ++ t ++ j ++ String c r) = Some (q, String c r).
Proof.
  intros i t q j c r I (F & L & B) J C V. pose proof (lf_nonempty _ _ _ L) as N. unfold ingest_double. rewrite skip_float by assumption.
  rewrite float_lex_complete by (try assumption; now apply ign_delim). unfold strtod. rewrite (scan_lf_complete _ _ _ L).
  apply Qle_bool_iff in B. rewrite B. now rewrite skip_to.
Qed.
Lemma uint_first : forall t n, uint_text t n -> all_chars is_digit t /\ t <> "".
Proof. intros t n ([->|(c & r & -> & _ & D)] & _); [cbn; split; [tauto|discriminate]|]. split; [exact D|discriminate]. Qed.
Lemma ingest_uint_complete : forall i t q j c r, ignorable i -> uint_text t q -> ignorable j -> numch c = false -> visible c = true ->
  ingest_uint (i ++ t ++ j ++ String c r) = Some (q, String c r).
Proof.
  intros i t q j c r I U J C V. destruct (uint_first t q U) as [D Ne]. destruct U as (Sh & -> & Pos). unfold ingest_uint. rewrite skip_app by exact I.
  pose proof (ign_delim j c r J C) as St. destruct t as [|d t]; [now elim Ne|]. destruct D as [D0 D].
  assert (visible d = true) as Vd by (apply digit_cases in D0; cbn in D0; intuition (subst; reflexivity)).
  cbn [append]. rewrite skip_visible by exact Vd.
  assert (uint_lex (String d (t ++ j ++ String c r)) = Some (String d t, j ++ String c r)) as ->.
  { cbn [uint_lex]. destruct Sh as [E|(c' & r' & E & N & _)]; inversion E; subst; [reflexivity|]. destruct (Ascii.eqb_spec c' "0"); [contradiction|].
    rewrite D0. cbn [take]. rewrite D0. rewrite take_app; [reflexivity|exact D|]. eapply stops_sub; [sub|exact St]. }
  rewrite atoi_c_int by (split; assumption). destruct (Z.ltb_spec (c_int (dec_value (String d t))) 0); [lia|]. now rewrite skip_to.
Qed.
Section Lists.
  Context {A : Type}.
  Variable f : string -> option (A * string).
  Variable elem : string -> A -> Prop.
  Hypothesis f_complete : forall i t q j c r, ignorable i -> elem t q -> ignorable j -> numch c = false -> visible c = true ->
    f (i ++ t ++ j ++ String c r) = Some (q, String c r).
  Lemma read_values_complete : forall s l, elements elem s l -> forall j c r, ignorable j -> is_close c = true ->
    exists j', ignorable j' /\ read_values f (List.length l - 1) (s ++ j ++ String c r) = Some (l, j' ++ String c r).
  Proof.
    induction 1 as [i t j0 x comma I T J0 C|i t j0 x s l I T J0 El IH]; intros j c r J Cl.
    - cbn [List.length Nat.sub read_values]. destruct (close_visible c Cl) as (V & Jc & Oc).
      assert (numch c = false) as Nc by (revert Cl; clear; ascii_case c; intro H; try discriminate H; reflexivity).
      destruct C as [->| ->]; rewrite !sapp_assoc; cbn [append].
      + rewrite <- (sapp_assoc j0 j). rewrite (f_complete i t x (j0 ++ j) c r) by (try assumption; now apply ignorable_app).
        exists "". split; [constructor|]. unfold skip_comma. rewrite take1_no; [reflexivity|]. cbn. revert Cl; clear; ascii_case c; intro H; try discriminate H; reflexivity.
      + rewrite (f_complete i t x j0 "," (j ++ String c r)) by (try assumption; reflexivity). exists j. split; [exact J|reflexivity].
    - assert (List.length (x :: l) - 1 = S (List.length l - 1))%nat as -> by (inversion El; cbn; lia).
      destruct (IH j c r J Cl) as (j' & J' & E). exists j'. split; [exact J'|]. rewrite !sapp_assoc. cbn [append]. cbn [read_values].
      rewrite (f_complete i t x j0 "," (s ++ j ++ String c r)) by (try assumption; reflexivity).
      change (Ascii.eqb "," ",") with true. cbv iota. now rewrite E.
  Qed.
  Lemma read_list_complete : forall t l N r, list_text elem t l -> Z.of_nat (List.length l) = N -> read_list f N (t ++ r) = Some (l, r).
  Proof.
    intros t l N r (i & o & s & j & c & I & O & El & J & C & ->) <-. unfold read_list, expect. rewrite !sapp_assoc. cbn [append].
    destruct (open_visible o O) as (Vo & _). rewrite skip_to by assumption. rewrite O. rewrite !sapp_assoc. cbn [append].
    replace (Z.to_nat (Z.of_nat (List.length l) - 1)) with (List.length l - 1)%nat by lia.
    destruct (read_values_complete s l El j c r J C) as (j' & J' & ->). destruct (close_visible c C) as (Vc & _).
    rewrite skip_to by assumption. now rewrite C.
  Qed.
End Lists.
Lemma read_string_complete : forall i t v r, ignorable i -> quoted t v -> read_string (i ++ t ++ r) = Some (v, r).
Proof.
  intros i t v r I (b & q1 & q2 & B & Q1 & Q2 & V & ->). unfold read_string. rewrite skip_app by exact I.
  assert (exists c s, (b ++ String q1 (v ++ String q2 "")) ++ r = String c s /\ visible c = true) as (c & s & E & Vc).
  { destruct B as [->| ->]; cbn; [exists q1|exists "b"%char]; eexists; (split; [reflexivity|]); [now apply quote_visible|reflexivity]. }
  rewrite E, skip_visible by exact Vc. rewrite <- E. clear E.
  assert (take1 (fun c => Ascii.eqb c "b") ((b ++ String q1 (v ++ String q2 "")) ++ r) = (b, String q1 (v ++ String q2 r))) as ->.
  { destruct B as [->| ->]; cbn; rewrite sapp_assoc; [|reflexivity]. cbn. destruct (Ascii.eqb_spec q1 "b"); [subst; discriminate|reflexivity]. }
  rewrite Q1. rewrite take_app; [reflexivity|exact V|]. cbn. now rewrite Q2.
Qed.

(** *** lists that are not used *)
Lemma balanced_junk : forall i fuel level s, ignx is_junk i -> balanced fuel level (i ++ s) = balanced fuel level s.
Proof. intros i [|fuel] level s I; [reflexivity|]. cbn [balanced]. now rewrite skip_junk_app. Qed.
Lemma balanced_skip : forall fuel level s, balanced fuel level (skip_comma (skip s)) = balanced fuel level s.
Proof.
  intros fuel level s. destruct (skip_sound s) as (i & E & I). transitivity (balanced fuel level (skip s)).
  - unfold skip_comma. destruct (take1 (fun c => Ascii.eqb c ",") (skip s)) as [k s2] eqn:Ek. cbn [snd]. apply take1_sound in Ek as (-> & K).
    symmetry. apply balanced_junk. destruct K as [[-> _]|(x & -> & X)]; [constructor|]. apply ix_char; [|constructor]. right. now apply Ascii.eqb_eq in X as ->.
  - rewrite E at 2. symmetry. apply balanced_junk. now apply ignorable_ignx.
Qed.
Lemma nested_balanced : forall s, nested s -> forall fuel level x, 1 <= level -> (String.length (s ++ x) <= fuel)%nat ->
  exists fuel', (String.length x <= fuel')%nat /\ balanced fuel level (s ++ x) = balanced fuel' level x.
Proof.
  induction 1 as [|c s H N IH|b s B N IH|o s c s' O N IH C N' IH']; intros fuel level x L F.
  - exists fuel. split; [exact F|reflexivity].
  - cbn in F. destruct (IH fuel level x L) as (f' & F' & E); [lia|]. exists f'. split; [exact F'|]. rewrite <- E.
    apply (balanced_junk (String c "")). apply ix_char; [exact H|constructor].
  - cbn in F. rewrite sapp_assoc, slen_app in F. cbn in F. destruct (IH fuel level x L) as (f' & F' & E); [lia|]. exists f'. split; [exact F'|]. rewrite <- E.
    transitivity (balanced fuel level ((String "#" (b ++ String nl "")) ++ s ++ x)).
    + f_equal. cbn. rewrite !sapp_assoc. reflexivity.
    + apply balanced_junk. apply ix_comment; [exact B|constructor].
  - cbn [append] in *. rewrite sapp_assoc in *. cbn [append] in *. cbn [String.length] in F. destruct fuel as [|fuel]; [lia|].
    destruct (open_visible o O) as (Vo & Jo). destruct (close_visible c C) as (Vc & Jc & Oc).
    assert (sj : forall c r, visible c = true -> is_junk c = false -> skip_junk (String c r) = String c r).
    { intros c0 r V J. unfold visible in V. apply andb_true_iff in V as [V1 V2]. unfold skip_junk. cbn [skip_from].
      destruct (is_ws c0); [discriminate|]. rewrite J. destruct (Ascii.eqb c0 "#"); [discriminate|]. reflexivity. }
    cbn [balanced]. rewrite sj by assumption. rewrite O.
    destruct (IH fuel (level + 1) (String c (s' ++ x))) as (f' & F' & ->); [lia|lia|]. destruct f' as [|f']; [cbn in F'; lia|].
    cbn [balanced]. rewrite sj by assumption. rewrite Oc, C. destruct (Z.ltb_spec (level + 1 - 1) 0); [lia|]. destruct (Z.eqb_spec (level + 1 - 1) 0); [lia|].
    rewrite balanced_skip. replace (level + 1 - 1) with level by lia. apply IH'; [exact L|]. cbn in F'. lia.
Qed.
Lemma read_unknown_complete : forall t r, other_text (eq "") t -> stops r -> exists r', read_unknown (t ++ r) = Some r' /\ skip r' = skip r.
Proof.
  intros t r (i & v & I & -> & H) St. unfold read_unknown, read_value. rewrite !sapp_assoc.
  destruct H as [(F & N1 & N2)|[(x & Q)|(j & o & s & c & <- & O & N & C & ->)]].
  - rewrite skip_float, float_lex_complete by assumption. destruct (String.eqb_spec v ""); [contradiction|]. destruct (String.eqb_spec v "."); [contradiction|].
    exists r. split; reflexivity.
  - assert (float_lex (skip (i ++ v ++ r)) = ("", skip (i ++ v ++ r))) as ->.
    { rewrite skip_app by exact I. destruct Q as (b & q1 & q2 & B & Q1 & _ & _ & ->).
      destruct B as [->| ->]; cbn [append]; rewrite skip_visible; try reflexivity; [|now apply quote_visible].
      revert Q1; clear; ascii_case q1; intro H; try discriminate H; reflexivity. }
    cbn [String.eqb]. rewrite (read_string_complete i v x r I Q). exists r. split; reflexivity.
  - cbn [append]. destruct (open_visible o O) as (Vo & Jo). destruct (close_visible c C) as (Vc & Jc & Oc).
    rewrite skip_to by assumption.
    assert (float_lex (String o ((s ++ String c "") ++ r)) = ("", String o ((s ++ String c "") ++ r))) as ->.
    { revert O; clear; ascii_case o; intro H; try discriminate H; reflexivity. }
    cbn [String.eqb].
    assert (read_string (i ++ String o ((s ++ String c "") ++ r)) = None) as ->.
    { unfold read_string. rewrite skip_to by assumption. revert O; clear; ascii_case o; intro H; try discriminate H; reflexivity. }
    unfold read_balanced_list. rewrite balanced_junk by (now apply ignorable_ignx).
    rewrite slen_app. rewrite sapp_assoc. cbn [append String.length]. rewrite Nat.add_succ_r. cbn [balanced].
    assert (sj : forall c r, visible c = true -> is_junk c = false -> skip_junk (String c r) = String c r).
    { intros c0 r0 V J. unfold visible in V. apply andb_true_iff in V as [V1 V2]. unfold skip_junk. cbn [skip_from].
      destruct (is_ws c0); [discriminate|]. rewrite J. destruct (Ascii.eqb c0 "#"); [discriminate|]. reflexivity. }
    rewrite sj by assumption. rewrite O.
    match goal with |- context [balanced ?f _ _] => destruct (nested_balanced s N f (0 + 1) (String c r)) as (f' & F' & ->); [lia|lia|] end.
    destruct f' as [|f']; [cbn in F'; lia|]. cbn [balanced]. rewrite sj by assumption. rewrite Oc, C. cbn. exists (skip r). split; [reflexivity|apply skip_idem].
Qed.

(** *** entries *)
Definition fits (into : option Z) (m : lensmodel) : Prop := match into with Some max => num_params m <= max | None => True end.
Lemma within_close : forall a b, within (1 # 1000000000) a b -> close_lists a b = true.
Proof.
  intros a b [_ H]. induction H as [|x y a b H _ IH]; [reflexivity|]. cbn [close_lists]. apply Qle_bool_iff in H. rewrite H. exact IH.
Qed.
Lemma elements_nonneg : forall s l, elements uint_text s l -> Forall (fun n => 0 <= n) l.
Proof. induction 1 as [i t j x comma I (_ & _ & T) J C|i t j x s l I (_ & _ & T) J S IH]; constructor; try assumption; constructor. Qed.
Lemma read_entry_complete : forall into st k v t r st', value_text rnd (eq "") k v t -> apply_entry rnd st (k, v) st' -> stops r ->
  (k = "intrinsics" -> forall m, st_lens st = Some m -> fits into m) ->
  exists r', read_entry rnd into k st (t ++ r) = Step st' r' /\ skip r' = skip r.
Proof.
  intros into st k v t r st' V H St Fit. unfold apply_entry in H. cbn [fst snd] in H. unfold read_entry.
  destruct H as [(-> & n & m & -> & L & Dn & ->)|[(-> & l & m & -> & Li & L & Ln & ->)|[(X & l & -> & Ln & H)|[(-> & w & h & -> & Z0 & W & Hh & ->)|(N1 & N2 & N3 & N4 & -> & ->)]]]].
  - change (String.eqb "lensmodel" "lensmodel") with true. cbv iota. rewrite L. inversion V as [i t' s I Qd E1 E2 E3| | | |]; subst. rewrite sapp_assoc, (read_string_complete i t' n r I Qd).
    rewrite (fn_denotes rnd n m Dn). exists r. split; reflexivity.
  - change (String.eqb "intrinsics" "lensmodel") with false. change (String.eqb "intrinsics" "intrinsics") with true. cbv iota. rewrite Li, L. assert (Fm := Fit eq_refl m L). assert (match into with Some max => max <? num_params m | None => false end = false) as ->.
    { unfold fits in Fm. destruct into; [lia|reflexivity]. }
    assert (list_text (double_text rnd) t l) as Lt by (inversion V; subst; assumption).
    rewrite (read_list_complete _ _ ingest_double_complete t l (num_params m) r Lt Ln). exists r. split; reflexivity.
  - assert (list_text (double_text rnd) t l) as Lt by (inversion V; subst; assumption).
    assert ((String.eqb k "lensmodel") = false /\ (String.eqb k "intrinsics") = false /\ (String.eqb k "extrinsics" || String.eqb k "rt_cam_ref")%bool = true) as (-> & -> & ->)
      by (destruct X as [->| ->]; repeat split; reflexivity).
    rewrite (read_list_complete _ _ ingest_double_complete t l 6 r Lt) by lia.
    destruct H as [(U & ->)|(U & Cl & ->)]; rewrite U; [|rewrite Cl]; exists r; split; reflexivity.
  - change (String.eqb "imagersize" "lensmodel") with false. change (String.eqb "imagersize" "intrinsics") with false.
    change (String.eqb "imagersize" "extrinsics" || String.eqb "imagersize" "rt_cam_ref")%bool with false. change (String.eqb "imagersize" "imagersize") with true. cbv iota.
    destruct (Z.gtb_spec (fst (st_size st)) 0); [lia|]. inversion V as [| | ? ? ? X |? ? Lt| ]; subst.
    rewrite (read_list_complete _ _ ingest_uint_complete t [w; h] 2 r Lt) by reflexivity. exists r. split; reflexivity.
  - assert (other_text (eq "") t) as Ot by (inversion V; subst; assumption).
    destruct (String.eqb_spec k "lensmodel"); [contradiction|]. destruct (String.eqb_spec k "intrinsics"); [contradiction|].
    assert ((String.eqb k "extrinsics" || String.eqb k "rt_cam_ref")%bool = false) as ->.
    { apply orb_false_iff. split; apply String.eqb_neq; intro Q; apply N3; [now left|now right]. }
    destruct (String.eqb_spec k "imagersize"); [contradiction|]. destruct (read_unknown_complete t r Ot St) as (r' & -> & E). exists r'. tauto.
Qed.
Lemma apply_lens : forall st e st' m, apply_entry rnd st e st' -> st_lens st = Some m -> st_lens st' = Some m.
Proof.
  intros st e st' m H L. unfold apply_entry in H.
  destruct H as [(_ & n & m' & _ & L' & _)|[(_ & l & m' & _ & _ & _ & _ & ->)|[(_ & l & _ & _ & [(_ & ->)|(_ & _ & ->)])|[(_ & w & h & _ & _ & _ & _ & ->)|(_ & _ & _ & _ & _ & ->)]]]];
    cbn; congruence.
Qed.
Lemma run_lens : forall st es st' m, run rnd st es st' -> st_lens st = Some m -> st_lens st' = Some m.
Proof. induction 1 as [|st e st1 es st2 A _ IH]; intro L; [exact L|]. apply IH. eapply apply_lens; eassumption. Qed.
Lemma body_visible : forall es b r, body_text rnd (eq "") es b -> exists i q s, b ++ r = i ++ String q s /\ ignorable i /\ visible q = true /\ q <> "}"%char.
Proof.
  assert (G : forall e t r, entry_text rnd (eq "") e t -> exists i q s, t ++ r = i ++ String q s /\ ignorable i /\ visible q = true /\ q <> "}"%char).
  { intros e t r (i & k & j & v & I & (b & q1 & q2 & B & Q1 & _ & _ & ->) & _ & _ & ->).
    rewrite !sapp_assoc. destruct B as [->| ->]; cbn [append].
    - exists i, q1. eexists. split; [reflexivity|]. split; [exact I|]. split; [now apply quote_visible|]. intros ->. discriminate.
    - exists i, "b"%char. eexists. split; [reflexivity|]. split; [exact I|]. split; [reflexivity|discriminate]. }
  intros es b r [e t i comma E I C|e t i es' s E I B]; rewrite sapp_assoc; eapply G; exact E.
Qed.
Lemma entries_complete : forall into es b, body_text rnd (eq "") es b -> forall fuel st st' j k,
  run rnd st es st' -> ignorable j -> ignorable k -> (forall m, st_lens st' = Some m -> fits into m) -> (String.length (b ++ k) < fuel)%nat ->
  entries rnd fuel into st (j ++ b ++ k) = finalize st'.
Proof.
  intros into es b B. induction B as [e t i comma E I C|e t i es s E I B IH]; intros fuel st st' j k Rn J K Fit Fu;
    (destruct fuel as [|fuel]; [lia|]); cbn [entries]; destruct e as [key v]; destruct E as (i0 & kt & j0 & vt & I0 & Kt & J0 & Vt & ->); cbn [fst snd] in *;
    inversion Rn as [|st0 e0 st1 es0 st2 A Rn']; subst; clear Rn.
  - inversion Rn'; subst; clear Rn'. rewrite !sapp_assoc. rewrite <- (sapp_assoc j i0). rewrite (read_string_complete (j ++ i0) kt key _ (ignorable_app _ _ J I0) Kt).
    unfold expect at 1. cbn [append]. rewrite skip_to by (try assumption; reflexivity). change (Ascii.eqb ":" ":") with true. cbv iota.
    assert (exists c r, comma ++ "}" ++ k = String c r /\ numch c = false /\ visible c = true) as (c & r & Ec & Nc & Vc).
    { destruct C as [->|(j1 & J1 & ->)]; cbn; eauto 6. }
    destruct (read_entry_complete into st key v vt (i ++ comma ++ "}" ++ k) st' Vt A) as (r' & Er & Sr).
    { rewrite Ec. now apply ign_delim. } { intros _ m L. apply Fit. eapply apply_lens; eassumption. }
    cbn [append] in Er, Sr. rewrite Er. rewrite Sr. cbn [append] in Ec. rewrite Ec, skip_to by assumption.
    destruct C as [->|(j1 & J1 & ->)].
    + inversion Ec; subst. change (Ascii.eqb "}" "}") with true. cbv iota. now rewrite skip_ignorable.
    + cbn in Ec. inversion Ec; subst. change (Ascii.eqb "," "}") with false. change (Ascii.eqb "," ",") with true. cbv iota. unfold expect.
      cbn [append]. rewrite skip_to by (try assumption; reflexivity). change (Ascii.eqb "}" "}") with true. cbv iota. now rewrite skip_ignorable.
  - rewrite !sapp_assoc. rewrite <- (sapp_assoc j i0). rewrite (read_string_complete (j ++ i0) kt key _ (ignorable_app _ _ J I0) Kt).
    unfold expect at 1. cbn [append]. rewrite skip_to by (try assumption; reflexivity). change (Ascii.eqb ":" ":") with true. cbv iota.
    destruct (read_entry_complete into st key v vt (i ++ "," ++ s ++ k) st1 Vt A) as (r' & Er & Sr).
    { now apply ign_delim. } { intros _ m L. apply Fit. eapply run_lens; [exact Rn'|]. eapply apply_lens; eassumption. }
    cbn [append] in Er, Sr. rewrite Er. rewrite Sr. rewrite skip_to by (try assumption; reflexivity).
    change (Ascii.eqb "," "}") with false. change (Ascii.eqb "," ",") with true. cbv iota.
    assert (expect (fun c => Ascii.eqb c "}") (s ++ k) = None) as ->.
    { destruct (body_visible es s k B) as (i1 & q & s1 & Eq & I1 & Vq & Nq). unfold expect. rewrite Eq, skip_to by assumption.
      destruct (Ascii.eqb_spec q "}"); [contradiction|reflexivity]. }
    apply (IH fuel st1 st' "" k Rn' ig_nil K Fit).
    rewrite !slen_app in *. cbn in Fu. rewrite ?slen_app in Fu. lia.
Qed.

(** a buffer that is too small *)
Lemma apply_lens_back : forall st e st', apply_entry rnd st e st' -> fst e = "intrinsics" -> st_lens st' = st_lens st.
Proof.
  intros st e st' H K. unfold apply_entry in H. rewrite K in H.
  destruct H as [(Q & _)|[(_ & l & m' & _ & _ & L & _ & ->)|[([Q|Q] & _)|[(Q & _)|(_ & Q & _)]]]]; try discriminate Q; [reflexivity|]. now elim Q.
Qed.
Lemma entries_need : forall max m es b, body_text rnd (eq "") es b -> forall fuel st st' j k,
  run rnd st es st' -> ignorable j -> ignorable k -> st_intrinsics st = None -> st_intrinsics st' <> None -> st_lens st' = Some m -> max < num_params m ->
  (String.length (b ++ k) < fuel)%nat -> entries rnd fuel (Some max) st (j ++ b ++ k) = Read_need (num_params m).
Proof.
  intros max m es b B.
  assert (Here : forall st st1 v t, apply_entry rnd st ("intrinsics", v) st1 -> st_lens st1 = Some m -> max < num_params m ->
     read_entry rnd (Some max) "intrinsics" st t = Step_need (num_params m)).
  { intros st st1 v t A L Hm. unfold read_entry. change (String.eqb "intrinsics" "lensmodel") with false. change (String.eqb "intrinsics" "intrinsics") with true. cbv iota.
    pose proof (apply_lens_back _ _ _ A eq_refl) as Lb. rewrite L in Lb.
    destruct A as [(Q & _)|[(_ & l & m' & _ & Li & _)|[([Q|Q] & _)|[(Q & _)|(_ & Q & _)]]]]; try discriminate Q; [|now elim Q].
    rewrite Li, <- Lb. destruct (Z.ltb_spec max (num_params m)); [reflexivity|lia]. }
  assert (Keep : forall st e st1, apply_entry rnd st e st1 -> fst e <> "intrinsics" -> st_intrinsics st1 = st_intrinsics st).
  { intros st e st1 H Nk. destruct H as [(_ & n & m' & _ & _ & _ & ->)|[(Q & _)|[(_ & l & _ & _ & [(_ & ->)|(_ & _ & ->)])|[(_ & w & h & _ & _ & _ & _ & ->)|(_ & _ & _ & _ & _ & ->)]]]];
      try reflexivity. contradiction. }
  induction B as [e t i comma E I C|e t i es s E I B IH]; intros fuel st st' j k Rn J K Li Li' L Hm Fu;
    (destruct fuel as [|fuel]; [lia|]); cbn [entries]; destruct e as [key v]; destruct E as (i0 & kt & j0 & vt & I0 & Kt & J0 & Vt & ->); cbn [fst snd] in *;
    inversion Rn as [|st0 e0 st1 es0 st2 A Rn']; subst; clear Rn;
    rewrite !sapp_assoc; rewrite <- (sapp_assoc j i0); rewrite (read_string_complete (j ++ i0) kt key _ (ignorable_app _ _ J I0) Kt);
    unfold expect at 1; cbn [append]; rewrite skip_to by (try assumption; reflexivity); change (Ascii.eqb ":" ":") with true; cbv iota.
  - inversion Rn'; subst; clear Rn'. destruct (String.eqb_spec key "intrinsics") as [->|Nk].
    + now rewrite (Here _ _ _ _ A L Hm).
    + elim Li'. rewrite (Keep _ _ _ A Nk). exact Li.
  - destruct (String.eqb_spec key "intrinsics") as [->|Nk].
    + assert (st_lens st1 = Some m) as L1.
      { pose proof (apply_lens_back _ _ _ A eq_refl) as Lb. destruct (st_lens st1) as [m1|] eqn:E1.
        - pose proof (run_lens _ _ _ _ Rn' E1). congruence.
        - destruct A as [(Q & _)|[(_ & l & m' & _ & _ & L0 & _ & ->)|[([Q|Q] & _)|[(Q & _)|(_ & Q & _)]]]]; try discriminate Q; [|now elim Q]. cbn in E1. congruence. }
      now rewrite (Here _ _ _ _ A L1 Hm).
    + destruct (read_entry_complete (Some max) st key v vt (i ++ "," ++ s ++ k) st1 Vt A) as (r' & Er & Sr).
      { now apply ign_delim. } { intro Q. contradiction. }
      cbn [append] in Er, Sr. rewrite Er. rewrite Sr. rewrite skip_to by (try assumption; reflexivity).
      change (Ascii.eqb "," "}") with false. change (Ascii.eqb "," ",") with true. cbv iota.
      assert (expect (fun c => Ascii.eqb c "}") (s ++ k) = None) as ->.
      { destruct (body_visible es s k B) as (i1 & q & s1 & Eq & I1 & Vq & Nq). unfold expect. rewrite Eq, skip_to by assumption.
        destruct (Ascii.eqb_spec q "}"); [contradiction|reflexivity]. }
      apply (IH fuel st1 st' "" k Rn' ig_nil K); try assumption; [rewrite (Keep _ _ _ A Nk); exact Li|].
      rewrite !slen_app in *. cbn in Fu. rewrite ?slen_app in Fu. lia.
Qed.

(** a description can be followed by the reader *)
Lemma of_key_cons : forall ks e es, of_key ks (e :: es) = (of_key ks [e] ++ of_key ks es)%list.
Proof. intros. now rewrite <- of_key_app. Qed.
Definition typed (e : entry) : Prop := exists t, value_text rnd (eq "") (fst e) (snd e) t.
Lemma first_not_big : forall pre l post pre' l' post', app pre (V_doubles l :: post) = app pre' (V_doubles l' :: post') ->
  Forall (is_doubles big) pre -> Forall (is_doubles big) pre' -> unset l = false -> unset l' = false -> pre = pre' /\ l = l' /\ post = post'.
Proof.
  assert (G : forall l, is_doubles big (V_doubles l) -> unset l = true).
  { intros l (l' & E & _ & x & r & -> & X). inversion E; subst. cbn. now apply Qeq_bool_iff. }
  induction pre as [|v pre IH]; intros l post [|v' pre'] l' post' E P P' U U'; cbn in E.
  - inversion E. tauto.
  - inversion E; subst. inversion P' as [|? ? B _]; subst. apply G in B. congruence.
  - inversion E; subst. inversion P as [|? ? B _]; subst. apply G in B. congruence.
  - inversion E; subst. inversion P; inversion P'; subst. destruct (IH l post pre' l' post') as (-> & -> & ->); tauto.
Qed.
Lemma not_unset : forall l, (exists x r, l = x :: r /\ ~ (x == DBL_MAX)%Q) -> unset l = false.
Proof. intros l (x & r & -> & N). unfold unset. destruct (Qeq_bool x DBL_MAX) eqn:E; [|reflexivity]. now apply Qeq_bool_iff in E. Qed.
Lemma describes_step : forall m es0 e es1 st, describes rnd (es0 ++ e :: es1) m -> typed e -> said rnd es0 st -> exists st', apply_entry rnd st e st'.
Proof.
  intros m es0 [k v] es1 st (D1 & D2 & D3 & D4 & D5) (t & T) (A & B & B2 & C & D & E1 & E2 & E). unfold apply_entry. cbn [fst snd] in *.
  rewrite !of_key_app in *. rewrite of_key_cons in D1, D2, D4, D5. inversion T as [i t' s I Qd E3 E4 E5|t' l Lt|k' t' l X Lt|t' l Lt|k' t' N1 N2 N3 N4 Ot]; subst.
  - rewrite (of_key_in ["lensmodel"]) in D1 by now left. destruct D1 as (name & D1 & Dn). destruct (st_lens st) as [m'|] eqn:L.
    + destruct A as (n & A & _). rewrite A in D1. discriminate.
    + rewrite A in D1. inversion D1 as [[Hn Hr]]. subst s. eexists. left. split; [reflexivity|]. exists name, (m_lens m). repeat split; try assumption.
  - rewrite (of_key_in ["intrinsics"]) in D2 by now left. destruct D2 as [D2 Dl]. destruct (st_intrinsics st) as [l'|] eqn:Li.
    + destruct B as (B & _). rewrite B in D2. discriminate.
    + rewrite B in D2. inversion D2 as [[Hl Hr]]. subst l. destruct (D3 _ _ _ eq_refl) as (w & Hw).
      destruct (st_lens st) as [m'|] eqn:L.
      * destruct A as (n & A & Dn). destruct D1 as (name & D1 & Dn'). rewrite A in D1. inversion D1 as [[Hn Hr']]. subst n.
        assert (m' = m_lens m) as ->. { pose proof (fn_denotes _ _ _ Dn). pose proof (fn_denotes _ _ _ Dn'). congruence. }
        eexists. right; left. split; [reflexivity|]. exists (m_intrinsics m), (m_lens m). repeat split; assumption.
      * exfalso. assert (In w (of_key ["lensmodel"] es0)) as Q; [|rewrite A in Q; exact Q].
        unfold of_key. apply in_map_iff. exists ("lensmodel", w). split; [reflexivity|]. apply filter_In. split; [exact Hw|reflexivity].
  - assert (In k ["extrinsics"; "rt_cam_ref"]) as Ik by (destruct X as [->| ->]; [now left|right; now left]).
    rewrite (of_key_in ["extrinsics"; "rt_cam_ref"]) in D4 by exact Ik. destruct D4 as (pre & post & D4 & R6 & Pre & R1 & Post). apply not_unset in R1.
    assert (L6 : List.length l = 6%nat).
    { assert (In (V_doubles l) (app pre (V_doubles (m_rt_cam_ref m) :: post))) as Q by (rewrite <- D4; apply in_or_app; right; now left).
      apply in_app_or in Q as [Q|[Q|Q]].
      - rewrite Forall_forall in Pre. destruct (Pre _ Q) as (l' & El & Ll & _). now inversion El.
      - now inversion Q.
      - rewrite Forall_forall in Post. destruct (Post _ Q) as (l' & El & Ll & _). inversion El; subst. congruence. }
    destruct (unset (st_rt st)) eqn:U.
    + eexists. right; right; left. split; [exact X|]. exists l. split; [reflexivity|]. split; [exact L6|]. left. split; reflexivity.
    + exists st. right; right; left. split; [exact X|]. exists l. split; [reflexivity|]. split; [exact L6|]. right. split; [reflexivity|]. split; [|reflexivity].
      destruct D as (pre' & post' & D & Pre' & Post'). rewrite D in D4. rewrite <- app_assoc in D4. cbn [app] in D4.
      apply first_not_big in D4; try assumption. destruct D4 as (-> & -> & <-). apply within_close.
      rewrite Forall_forall in Post. destruct (Post (V_doubles l)) as (l' & El & Wl); [apply in_or_app; right; now left|]. now inversion El.
  - rewrite (of_key_in ["imagersize"]) in D5 by now left. destruct D5 as (pre & D5 & Pre & W & H).
    assert (L2 : exists w h, l = [w; h]).
    { assert (In (V_uints l) (app pre [V_uints [fst (m_size m); snd (m_size m)]])) as Q by (rewrite <- D5; apply in_or_app; right; now left).
      apply in_app_or in Q as [Q|[Q|[]]]; [|inversion Q; eauto]. rewrite Forall_forall in Pre. destruct (Pre _ Q) as (h & El). inversion El. eauto. }
    destruct L2 as (w & h & ->). destruct Lt as (? & ? & s0 & ? & ? & _ & _ & El & _). apply elements_nonneg in El.
    inversion El as [|? ? Ew El2]; subst. inversion El2 as [|? ? Eh _]; subst.
    eexists. right; right; right; left. split; [reflexivity|]. exists w, h. split; [reflexivity|]. split; [|split; [assumption|split; [assumption|reflexivity]]].
    destruct (Z.gtb_spec (fst (st_size st)) 0) as [G|G]; [|lia]. exfalso. destruct E as (pre' & E & _). rewrite E in D5.
    destruct pre as [|y pre _] using rev_ind.
    + apply (f_equal (@List.length value)) in D5. rewrite !app_length in D5. cbn in D5. lia.
    + assert (In (V_uints [fst (st_size st); snd (st_size st)]) (pre ++ [y])%list) as Q.
      { assert (forall (a b : list value) y0 r, (a ++ [y0]) ++ r = b ++ [V_uints [fst (m_size m); snd (m_size m)]] -> r <> [] -> In y0 b)%list as G2.
        { intros a b y0 r Eq Nr. destruct r as [|z r _] using rev_ind; [now elim Nr|]. rewrite app_assoc in Eq. apply app_inj_tail in Eq as [<- _].
          apply in_or_app. left. apply in_or_app. right. now left. }
        eapply G2; [exact D5|discriminate]. }
      rewrite Forall_forall in Pre. destruct (Pre _ Q) as (h' & Eq). inversion Eq. lia.
  - exists st. right; right; right; right. tauto.
Qed.
Lemma describes_run : forall m es, describes rnd es m -> Forall typed es -> exists st, run rnd state0 es st /\ finalize st = Read_ok m.
Proof.
  intros m es D T.
  assert (G : forall es1 es0 st, es = app es0 es1 -> said rnd es0 st -> exists st', run rnd st es1 st' /\ said rnd es st').
  { induction es1 as [|e es1 IH]; intros es0 st -> Sd.
    - exists st. split; [constructor|]. now rewrite app_nil_r.
    - assert (typed e) as Te by (rewrite Forall_app in T; destruct T as [_ T]; now inversion T).
      destruct (describes_step m es0 e es1 st D Te Sd) as (st1 & A1). destruct (IH (es0 ++ [e])%list st1) as (st' & Rn & Sd').
      + rewrite <- app_assoc. reflexivity.
      + eapply said_step; eassumption.
      + exists st'. split; [eapply run_cons; eassumption|exact Sd']. }
  destruct (G es [] state0 eq_refl (said_0 rnd)) as (st & Rn & A & B & B2 & C & Dx & E1 & E2 & E). exists st. split; [exact Rn|].
  destruct D as (D1 & D2 & D3 & D4 & D5). unfold finalize. destruct D1 as (name & D1 & Dn). destruct D2 as (D2 & _).
  destruct (st_lens st) as [ml|]; [|rewrite A in D1; discriminate]. destruct A as (n & A & Dn'). rewrite A in D1. inversion D1; subst n.
  assert (ml = m_lens m) as -> by (pose proof (fn_denotes _ _ _ Dn); pose proof (fn_denotes _ _ _ Dn'); congruence).
  destruct (st_intrinsics st) as [li|]; [|rewrite B in D2; discriminate]. destruct B as (B & _). rewrite B in D2. inversion D2; subst li.
  destruct D4 as (pre & post & D4 & R6 & Pre & R1 & Post). apply not_unset in R1. destruct (unset (st_rt st)) eqn:U.
  { exfalso. rewrite D4 in Dx. rewrite Forall_app in Dx. destruct Dx as [_ Dx]. apply Forall_inv in Dx. destruct Dx as (l & El & _ & x & r & -> & X).
    inversion El as [Em]. rewrite Em in R1. cbn in R1. apply Qeq_bool_iff in X. congruence. }
  destruct Dx as (pre' & post' & Dx & Pre' & Post'). rewrite Dx in D4. apply first_not_big in D4; try assumption. destruct D4 as (-> & -> & ->).
  destruct D5 as (p5 & D5 & P5 & W & H). destruct (Z.gtb_spec (fst (st_size st)) 0) as [G0|G0].
  - cbn. destruct E as (p6 & E & P6). rewrite E in D5. apply app_inj_tail in D5 as [_ D5]. inversion D5 as [[Hw Hh]].
    assert (st_size st = m_size m) as -> by (destruct (st_size st), (m_size m); cbn in *; congruence). destruct m; reflexivity.
  - exfalso. rewrite D5 in E. rewrite Forall_app in E. destruct E as [_ E]. apply Forall_inv in E. destruct E as (h & Q). inversion Q. lia.
Qed.
Lemma body_typed : forall es b, body_text rnd (eq "") es b -> Forall typed es.
Proof.
  induction 1 as [e t i comma (i0 & k & j0 & v & _ & _ & _ & Vt & _) I C|e t i es s (i0 & k & j0 & v & _ & _ & _ & Vt & _) I B IH].
  - constructor; [now exists v|constructor].
  - constructor; [now exists v|exact IH].
Qed.
Lemma entries_skip : forall fuel into st s, entries rnd fuel into st (skip s) = entries rnd fuel into st s.
Proof.
  intros [|fuel] into st s; [reflexivity|]. cbn [entries]. assert (read_string (skip s) = read_string s) as ->; [|reflexivity].
  unfold read_string. now rewrite skip_idem.
Qed.
Lemma read_complete : forall into text es m, file_text rnd (eq "") es (cstr text) -> describes rnd es m ->
  read_cameramodel rnd into text =
  match into with Some max => if max <? num_params (m_lens m) then Read_need (num_params (m_lens m)) else Read_ok m | None => Read_ok m end.
Proof.
  intros into text es m (i & j & b & k & I & J & B & K & E) D. destruct (describes_run m es D (body_typed _ _ B)) as (st & Rn & Fi).
  unfold read_cameramodel. rewrite E. unfold expect. cbn [append]. rewrite skip_to by (try assumption; reflexivity). change (Ascii.eqb "{" "{") with true. cbv iota.
  rewrite skip_app by exact J. rewrite entries_skip.
  assert (st_lens st = Some (m_lens m) /\ st_intrinsics st <> None) as [L Li].
  { unfold finalize in Fi. destruct (st_lens st); [|discriminate]. destruct (st_intrinsics st); [|discriminate].
    destruct (_ && _)%bool; [|discriminate]. inversion Fi. split; [reflexivity|discriminate]. }
  assert (Fit : fits into (m_lens m) -> entries rnd (S (String.length (j ++ b ++ k))) into state0 (b ++ k) = Read_ok m).
  { intro F. rewrite <- Fi. apply (entries_complete into es b B _ state0 st "" k Rn ig_nil K).
    - intros m' L'. rewrite L in L'. inversion L'; subst. exact F.
    - rewrite !slen_app. lia. }
  destruct into as [max|]; [|now apply Fit]. destruct (Z.ltb_spec max (num_params (m_lens m))) as [H|H]; [|now apply Fit].
  apply (entries_need max (m_lens m) es b B _ state0 st "" k Rn ig_nil K); try assumption; [reflexivity|]. rewrite !slen_app. lia.
Qed.
(** the fuel suffices *)
Lemma read_entry_shorter : forall into key st s st' r, state_ok st -> read_entry rnd into key st s = Step st' r -> (String.length r <= String.length s)%nat /\ state_ok st'.
Proof. intros into key st s st' r Ok H. apply read_entry_sound in H as (v & t & j & -> & _ & _ & _ & Ok'); [|exact Ok]. rewrite !slen_app. split; [lia|exact Ok']. Qed.
Lemma finalize_fuel : forall st, finalize st <> Out_of_fuel.
Proof. intros st. unfold finalize. destruct (st_lens st), (st_intrinsics st); try discriminate. destruct (_ && _)%bool; discriminate. Qed.
Lemma entries_fuel : forall fuel into st s, state_ok st -> (String.length s < fuel)%nat -> entries rnd fuel into st s <> Out_of_fuel.
Proof.
  induction fuel as [|fuel IH]; intros into st s Ok F; [lia|]. cbn [entries]. destruct (read_string s) as [[key s1]|] eqn:Q; [|discriminate].
  apply read_string_sound in Q as (i & k & -> & _ & (b & q1 & q2 & _ & _ & _ & _ & ->)). destruct (expect _ s1) as [s2|] eqn:E; [|discriminate].
  apply expect_sound in E as (j & c & -> & _). destruct (read_entry rnd into key st s2) as [st1 s3| |] eqn:En; try discriminate.
  apply read_entry_shorter in En as [L Ok1]; [|exact Ok]. destruct (skip_sound s3) as (j3 & E3 & _). destruct (skip s3) as [|c3 s4]; [discriminate|].
  assert (Fin : forall s, match skip s with EmptyString => finalize st1 | _ => Read_error end <> Out_of_fuel) by (intro x; destruct (skip x); [apply finalize_fuel|discriminate]).
  destruct (Ascii.eqb c3 "}"); [apply Fin|]. destruct (Ascii.eqb c3 ","); [|discriminate]. destruct (expect _ s4); [apply Fin|]. apply IH; [exact Ok1|].
  apply (f_equal String.length) in E3. rewrite !slen_app in *. cbn in *. rewrite !slen_app in F. cbn in F. lia.
Qed.
Lemma read_fuel : forall into text, read_cameramodel rnd into text <> Out_of_fuel.
Proof.
  intros into text. unfold read_cameramodel. destruct (expect _ (cstr text)) as [s|]; [|discriminate]. apply entries_fuel; [discriminate|].
  destruct (skip_sound s) as (i & E & _). apply (f_equal String.length) in E. rewrite slen_app in E. lia.
Qed.
Lemma balanced_fuel : forall f g level s, (String.length s <= f)%nat -> (f <= g)%nat -> balanced g level s = balanced f level s.
Proof.
  induction f as [|f IH]; intros g level s L G.
  - destruct s; [|cbn in L; lia]. destruct g; reflexivity.
  - destruct g as [|g]; [lia|]. cbn [balanced]. destruct (skip_junk_sound s) as (i & E & _). destruct (skip_junk s) as [|c r]; [reflexivity|].
    apply (f_equal String.length) in E. rewrite slen_app in E. cbn in E.
    destruct (is_open c); [apply IH; lia|]. destruct (is_close c); [|reflexivity]. destruct (level - 1 <? 0); [reflexivity|]. destruct (level - 1 =? 0); [reflexivity|].
    rewrite !balanced_skip. apply IH; lia.
Qed.
End Complete.
