(** Proofs about the .cameramodel reader: what it accepts is in the grammar. *)
From Coq Require Import ZArith NArith List Bool QArith Qabs String Ascii Lia.
From Coq Require Import ZifyBool ZifyNat.
From Verif Require Import M_Lens M_Names S_Names P_Names M_CamFile S_CamFile.
Import ListNotations.
Open Scope string_scope.
Open Scope Z_scope.

(** *** ignorable text *)
Lemma ignx_ignorable : forall s, ignx (fun _ => false) s -> ignorable s.
Proof. induction 1 as [|c s H _ IH|b s B _ IH]; [constructor| |now apply ig_comment]. destruct H; [now apply ig_ws|discriminate]. Qed.
Lemma ignx_nested : forall s t, ignx is_junk s -> nested t -> nested (s ++ t).
Proof.
  induction 1; intro N; [exact N| |].
  - cbn. apply ne_char; auto.
  - cbn. rewrite sapp_assoc. cbn. apply ne_comment; auto.
Qed.
Lemma skip_from_sound : forall also s c,
  match c with
  | None => exists i, s = i ++ skip_from also None s /\ ignx also i
  | Some at_ => skip_from also (Some at_) s = at_ \/
      exists b i, s = b ++ String nl i ++ skip_from also (Some at_) s /\ all_chars not_nl b /\ ignx also i
  end.
Proof.
  intros also s. induction s as [|c s IH]; intros [at_|].
  - left. reflexivity.
  - exists "". split; [reflexivity|constructor].
  - cbn [skip_from]. destruct (Ascii.eqb_spec c nl) as [->|N].
    + right. destruct (IH None) as (i & E & I). exists "", i. cbn. split; [now f_equal|]. split; [exact Logic.I|exact I].
    + destruct (IH (Some at_)) as [E|(b & i & E & B & I)]; [now left|right].
      exists (String c b), i. cbn. split; [now f_equal|]. split; [|exact I]. split; [|exact B].
      unfold not_nl. destruct (Ascii.eqb_spec c nl); [contradiction|reflexivity].
  - cbn [skip_from]. destruct (is_ws c || also c)%bool eqn:E.
    + destruct (IH None) as (i & Ei & I). exists (String c i). cbn. split; [now f_equal|]. constructor; [|exact I]. now apply orb_true_iff.
    + destruct (Ascii.eqb_spec c "#") as [->|N].
      * destruct (IH (Some (String "#" s))) as [Es|(b & i & Es & B & I)].
        -- exists "". rewrite Es. split; [reflexivity|constructor].
        -- exists (String "#" (b ++ String nl i)). split; [|now constructor]. cbn. f_equal. rewrite sapp_assoc. exact Es.
      * exists "". split; [reflexivity|constructor].
Qed.
Lemma skip_sound : forall s, exists i, s = i ++ skip s /\ ignorable i.
Proof. intro s. destruct (skip_from_sound (fun _ => false) s None) as (i & E & I). exists i. split; [exact E|now apply ignx_ignorable]. Qed.
Lemma skip_junk_sound : forall s, exists i, s = i ++ skip_junk s /\ ignx is_junk i.
Proof. intro s. exact (skip_from_sound is_junk s None). Qed.

Lemma ignorable_app : forall a b, ignorable a -> ignorable b -> ignorable (a ++ b).
Proof.
  induction 1; intro B; [exact B| |].
  - cbn. apply ig_ws; auto.
  - cbn. rewrite sapp_assoc. cbn. apply ig_comment; auto.
Qed.

(** *** lexemes *)
Lemma take_sound : forall P s a b, take P s = (a, b) -> s = a ++ b /\ all_chars P a /\ starts P b = false.
Proof.
  intros P s. induction s as [|c s IH]; intros a b H; cbn in H; [inversion H; cbn; tauto|].
  destruct (P c) eqn:E.
  - destruct (take P s) as [x y]. destruct (IH x y eq_refl) as (A & B & C). inversion H; subst. cbn. tauto.
  - inversion H; subst. cbn. tauto.
Qed.
Lemma take1_sound : forall P s a b, take1 P s = (a, b) ->
  s = a ++ b /\ ((a = "" /\ starts P s = false) \/ exists c, a = String c "" /\ P c = true).
Proof.
  intros P [|c s] a b H; cbn in H; [inversion H; cbn; tauto|]. destruct (P c) eqn:E; inversion H; subst; cbn; [|tauto].
  split; [reflexivity|]. right. exists c. tauto.
Qed.
Lemma float_lex_sound : forall s t r, float_lex s = (t, r) -> s = t ++ r /\ float_shape t.
Proof.
  intros s t r H. unfold float_lex in H.
  destruct (take1 _ s) as [a s1] eqn:E1. apply take1_sound in E1 as (-> & A).
  destruct (take is_digit s1) as [b s2] eqn:E2. apply take_sound in E2 as (-> & B & _).
  destruct (take1 _ s2) as [p s3] eqn:E3. apply take1_sound in E3 as (-> & P).
  assert (A' : a = "" \/ a = "-").
  { destruct A as [[-> _]|(c & -> & C)]; [now left|right]. now apply Ascii.eqb_eq in C as ->. }
  set (ds := match p with "" => ("", (p ++ s3)) | _ => take is_digit s3 end) in H.
  assert (exists d s4, ds = (d, s4) /\ p ++ s3 = (p ++ d) ++ s4 /\ (p ++ d = "" \/ exists d', all_chars is_digit d' /\ p ++ d = String "." d')) as (d & s4 & Ed & Es & Pd).
  { unfold ds. destruct P as [[-> _]|(c & -> & C)].
    - exists "", s3. cbn. tauto.
    - apply Ascii.eqb_eq in C as ->. destruct (take is_digit s3) as [d s4] eqn:E4. apply take_sound in E4 as (-> & D & _).
      exists d, s4. cbn. split; [reflexivity|]. split; [reflexivity|]. right. exists d. tauto. }
  rewrite Ed in H. clear Ed ds. destruct (take1 _ s4) as [e s5] eqn:E5. apply take1_sound in E5 as (Es4 & Ec).
  assert (Short : forall t r, t = a ++ b ++ p ++ d -> r = s4 -> a ++ b ++ p ++ s3 = t ++ r /\ float_shape t).
  { intros t' r' -> ->. split; [rewrite Es; rewrite !sapp_assoc; reflexivity|]. exists a, b, (p ++ d), "". rewrite sapp_nil. tauto. }
  destruct Ec as [[-> _]|(ec & -> & Ec)]; [inversion H; subst; apply Short; reflexivity|].
  destruct (take1 _ s5) as [g s6] eqn:E6. apply take1_sound in E6 as (-> & G).
  destruct (take is_digit s6) as [x s7] eqn:E7. apply take_sound in E7 as (-> & X & _).
  destruct x as [|x0 x]; [inversion H; subst; apply Short; reflexivity|].
  inversion H; subst. clear H Short. split; [rewrite Es; rewrite !sapp_assoc; cbn [append]; rewrite !sapp_assoc; reflexivity|].
  exists a, b, (p ++ d), (String ec "" ++ g ++ String x0 x). split; [exact A'|]. split; [exact B|]. split; [exact Pd|]. split.
  - right. exists (String ec ""), g, (String x0 x). split; [apply orb_true_iff in Ec as [Q|Q]; apply Ascii.eqb_eq in Q as ->; tauto|].
    split; [|split; [exact X|split; [discriminate|reflexivity]]].
    destruct G as [[-> _]|(gc & -> & G)]; [now left|right]. apply orb_true_iff in G as [Q|Q]; apply Ascii.eqb_eq in Q as ->; tauto.
  - rewrite !sapp_assoc. reflexivity.
Qed.
Lemma uint_lex_sound : forall s t r, uint_lex s = Some (t, r) ->
  s = t ++ r /\ all_chars is_digit t /\ (t = "0" \/ exists c x, t = String c x /\ c <> "0"%char).
Proof.
  intros [|c s] t r H; cbn in H; [discriminate|]. destruct (Ascii.eqb_spec c "0") as [->|N].
  - inversion H; subst. cbn. tauto.
  - destruct (is_digit c) eqn:D; [|discriminate]. destruct (take is_digit s) as [x y] eqn:E. apply take_sound in E as (-> & X & _).
    inversion H; subst. split; [reflexivity|]. split; [cbn; tauto|]. right. exists c, x. tauto.
Qed.
Lemma expect_sound : forall P s r, expect P s = Some r -> exists i c, s = i ++ String c r /\ ignorable i /\ P c = true.
Proof.
  intros P s r H. unfold expect in H. destruct (skip_sound s) as (i & E & I). destruct (skip s) as [|c s']; [discriminate|].
  destruct (P c) eqn:C; [|discriminate]. inversion H; subst. exists i, c. tauto.
Qed.
Lemma read_string_sound : forall s v r, read_string s = Some (v, r) -> exists i t, s = i ++ t ++ r /\ ignorable i /\ quoted t v.
Proof.
  intros s v r H. unfold read_string in H. destruct (skip_sound s) as (i & E & I).
  destruct (take1 _ (skip s)) as [b s1] eqn:E1. apply take1_sound in E1 as (Eb & B).
  destruct s1 as [|q s1]; [discriminate|]. destruct (is_quote q) eqn:Q; [|discriminate].
  destruct (take _ s1) as [v' s2] eqn:E2. apply take_sound in E2 as (-> & V & S2). destruct s2 as [|q2 s2]; [discriminate|].
  inversion H; subst v' s2. clear H. exists i, (b ++ String q (v ++ String q2 "")). split; [|split; [exact I|]].
  - rewrite E, Eb. f_equal. rewrite !sapp_assoc. f_equal. cbn. rewrite sapp_assoc. reflexivity.
  - exists b, q, q2. split; [destruct B as [[-> _]|(c & -> & C)]; [now left|right; now apply Ascii.eqb_eq in C as ->]|].
    split; [exact Q|]. split; [cbn in S2; now apply negb_false_iff in S2|]. split; [exact V|reflexivity].
Qed.
Lemma read_value_sound : forall s r, read_value s = Some r -> exists i v, s = i ++ v ++ r /\ ignorable i /\ float_shape v /\ v <> "" /\ v <> ".".
Proof.
  intros s r H. unfold read_value in H. destruct (skip_sound s) as (i & E & I). destruct (float_lex (skip s)) as [t s1] eqn:F.
  apply float_lex_sound in F as (Ef & Sh). destruct (String.eqb_spec t ""); [discriminate|]. destruct (String.eqb_spec t "."); [discriminate|].
  inversion H; subst s1. exists i, t. rewrite <- Ef. tauto.
Qed.

Section Sound.
Variable rnd : Q -> Q.
Lemma ingest_double_sound : forall s q r, ingest_double rnd s = Some (q, r) ->
  exists i t j, s = i ++ t ++ j ++ r /\ ignorable i /\ double_text rnd t q /\ ignorable j.
Proof.
  intros s q r H. unfold ingest_double in H. destruct (skip_sound s) as (i & E & I). destruct (float_lex (skip s)) as [t s1] eqn:F.
  apply float_lex_sound in F as (Ef & Sh). destruct (strtod rnd t) as [q'|] eqn:D; [|discriminate]. inversion H; subst. clear H.
  destruct (skip_sound s1) as (j & Ej & J). exists i, t, j. rewrite <- Ej, <- Ef. split; [exact E|]. split; [exact I|]. split; [|exact J].
  unfold strtod in D. destruct (scan_lf rnd t) as [[x [|? ?]]|] eqn:L; try discriminate.
  destruct (Qle_bool (Qabs x) DBL_MAX) eqn:B; [|discriminate]. inversion D; subst. split; [exact Sh|]. split; [now apply scan_lf_sound|now apply Qle_bool_iff].
Qed.
Lemma scan_digits_all : forall t, all_chars is_digit t -> scan_digits 0 0 t = (dec_value t, String.length t, "").
Proof. intros t H. pose proof (scan_digits_app t "" 0 0 H eq_refl) as E. rewrite sapp_nil in E. rewrite E. f_equal. Qed.
Lemma atoi_c_int : forall t, all_chars is_digit t -> atoi t = c_int (dec_value t).
Proof. intros t H. unfold atoi, c_int. now rewrite scan_digits_all by exact H. Qed.
Lemma c_int_small : forall v, 0 <= v < 2^31 -> c_int v = v.
Proof. intros v H. unfold c_int. rewrite Z.min_l by lia. rewrite Z.mod_small by lia. lia. Qed.
Lemma ingest_uint_sound : forall s q r, ingest_uint s = Some (q, r) ->
  exists i t j, s = i ++ t ++ j ++ r /\ ignorable i /\ uint_text t q /\ ignorable j.
Proof.
  intros s q r H. unfold ingest_uint in H. destruct (skip_sound s) as (i & E & I). destruct (uint_lex (skip s)) as [[t s1]|] eqn:F; [|discriminate].
  apply uint_lex_sound in F as (Ef & D & Sh). destruct (atoi t <? 0) eqn:A; [discriminate|]. inversion H; subst. clear H.
  destruct (skip_sound s1) as (j & Ej & J). exists i, t, j. rewrite <- Ej, <- Ef. split; [exact E|]. split; [exact I|]. split; [|exact J].
  split; [|split; [now apply atoi_c_int|lia]]. destruct Sh as [->|(c & x & -> & N)]; [now left|]. right. exists c, x. tauto.
Qed.
Section Lists.
  Context {A : Type}.
  Variable f : string -> option (A * string).
  Variable elem : string -> A -> Prop.
  Hypothesis f_sound : forall s x r, f s = Some (x, r) -> exists i t j, s = i ++ t ++ j ++ r /\ ignorable i /\ elem t x /\ ignorable j.
  Lemma read_values_sound : forall n s l r, read_values f n s = Some (l, r) ->
    exists t, s = t ++ r /\ elements elem t l /\ List.length l = S n.
  Proof.
    induction n as [|n IH]; intros s l r H; cbn [read_values] in H; destruct (f s) as [[x s1]|] eqn:F; try discriminate;
      apply f_sound in F as (i & t & j & -> & I & T & J).
    - inversion H; subst. unfold skip_comma. destruct (take1 _ s1) as [c s2] eqn:E. apply take1_sound in E as (-> & C). cbn [snd].
      exists (i ++ t ++ j ++ c). split; [rewrite !sapp_assoc; reflexivity|]. split; [|reflexivity]. apply el_last; try assumption.
      destruct C as [[-> _]|(k & -> & K)]; [now left|right; now apply Ascii.eqb_eq in K as ->].
    - destruct s1 as [|c s1]; [discriminate|]. destruct (Ascii.eqb_spec c ","); [subst c|discriminate].
      destruct (read_values f n s1) as [[l' s2]|] eqn:E; [|discriminate]. inversion H; subst.
      destruct (IH _ _ _ E) as (t' & -> & T' & L). exists (i ++ t ++ j ++ "," ++ t'). split; [|split].
      + rewrite !sapp_assoc. cbn [append]. rewrite ?sapp_assoc. reflexivity.
      + now apply el_more.
      + cbn. now f_equal.
  Qed.
  Lemma read_list_sound : forall N s l r, 1 <= N -> read_list f N s = Some (l, r) ->
    exists t, s = t ++ r /\ list_text elem t l /\ Z.of_nat (List.length l) = N.
  Proof.
    intros N s l r HN H. unfold read_list in H. destruct (expect is_open s) as [s1|] eqn:E1; [|discriminate].
    apply expect_sound in E1 as (i & o & -> & I & O).
    destruct (read_values f _ s1) as [[l' s2]|] eqn:E2; [|discriminate]. apply read_values_sound in E2 as (t & -> & T & L).
    destruct (expect is_close s2) as [s3|] eqn:E3; [|discriminate]. apply expect_sound in E3 as (j & c & -> & J & C).
    inversion H; subst. exists (i ++ String o (t ++ j ++ String c "")). split; [|split; [|lia]].
    - rewrite !sapp_assoc. f_equal. cbn. f_equal. rewrite !sapp_assoc. reflexivity.
    - exists i, o, t, j, c. tauto.
  Qed.
End Lists.

(** texts with [n] more closing brackets than opening ones *)
Inductive closes : nat -> string -> Prop :=
| cl_0 : closes 0 ""
| cl_S : forall n s c s', nested s -> is_close c = true -> closes n s' -> closes (S n) (s ++ String c s').
Lemma nested_app : forall a b, nested a -> nested b -> nested (a ++ b).
Proof.
  induction 1; intro B; [exact B| | |]; cbn.
  - apply ne_char; auto.
  - rewrite sapp_assoc. cbn. apply ne_comment; auto.
  - rewrite sapp_assoc. cbn. apply ne_list; auto.
Qed.
Lemma closes_prefix : forall n a s, nested a -> closes (S n) s -> closes (S n) (a ++ s).
Proof. intros n a s A C. inversion C; subst. rewrite <- sapp_assoc. apply cl_S; auto. now apply nested_app. Qed.
Lemma ignorable_nested : forall a, ignorable a -> nested a.
Proof. induction 1; [constructor|apply ne_char; auto|now apply ne_comment]. Qed.
Lemma balanced_sound : forall fuel level s r, 0 <= level -> balanced fuel level s = Some r ->
  exists t j, s = t ++ j ++ r /\ ignorable j /\
    (if level =? 0 then exists i o t', ignx is_junk i /\ is_open o = true /\ closes 1 t' /\ t = i ++ String o t'
     else closes (Z.to_nat level) t).
Proof.
  induction fuel as [|fuel IH]; intros level s r L H; [discriminate|]. cbn [balanced] in H.
  destruct (skip_junk_sound s) as (i & E & I). destruct (skip_junk s) as [|c s1]; [discriminate|].
  destruct (is_open c) eqn:O.
  - apply IH in H as (t & j & -> & J & T); [|lia]. destruct (Z.eqb_spec (level + 1) 0); [lia|].
    exists (i ++ String c t), j. split; [rewrite E, !sapp_assoc; reflexivity|]. split; [exact J|].
    destruct (Z.eqb_spec level 0) as [->|NZ].
    + exists i, c, t. tauto.
    + replace (Z.to_nat (level + 1)) with (S (S (Z.to_nat (level - 1)))) in T by lia. replace (Z.to_nat level) with (S (Z.to_nat (level - 1))) by lia.
      inversion T as [|n1 a k b A K B]; subst.
      inversion B as [|n2 a' k' b' A' K' B']; subst.
      replace (i ++ String c (a ++ String k (a' ++ String k' b'))) with ((i ++ String c (a ++ String k a')) ++ String k' b').
      2: { rewrite !sapp_assoc. cbn. rewrite !sapp_assoc. cbn. reflexivity. }
      apply cl_S; auto. apply ignx_nested; [exact I|]. now constructor.
  - destruct (is_close c) eqn:Cl; [|discriminate]. destruct (level - 1 <? 0) eqn:L0; [discriminate|].
    destruct (skip_sound s1) as (j & Ej & J). destruct (level - 1 =? 0) eqn:L1.
    + inversion H; subst r. exists (i ++ String c ""), j. split; [rewrite E, !sapp_assoc; cbn; now rewrite <- Ej|]. split; [exact J|].
      destruct (Z.eqb_spec level 0); [lia|]. replace (Z.to_nat level) with 1%nat by lia. apply cl_S; [|exact Cl|constructor].
      rewrite <- (sapp_nil i). apply ignx_nested; [exact I|constructor].
    + apply IH in H as (t & j' & Et & J' & T); [|lia]. destruct (Z.eqb_spec (level - 1) 0); [lia|]. destruct (Z.eqb_spec level 0); [lia|].
      unfold skip_comma in Et. destruct (take1 _ (skip s1)) as [k s2] eqn:Ek. cbn [snd] in Et. apply take1_sound in Ek as (Ek & K).
      exists (i ++ String c (j ++ k ++ t)), j'. split; [|split; [exact J'|]].
      * rewrite E. rewrite !sapp_assoc. f_equal. cbn. f_equal. rewrite Ej at 1. rewrite !sapp_assoc. f_equal. rewrite Ek, Et. reflexivity.
      * replace (Z.to_nat level) with (S (S (Z.to_nat (level - 2)))) by lia. apply cl_S; [|exact Cl|].
        -- rewrite <- (sapp_nil i). apply ignx_nested; [exact I|constructor].
        -- apply closes_prefix; [now apply ignorable_nested|]. replace (Z.to_nat (level - 1)) with (S (Z.to_nat (level - 2))) in T by lia.
           apply closes_prefix; [|exact T]. destruct K as [[-> _]|(x & -> & X)]; [constructor|]. constructor; [|constructor]. right.
           apply Ascii.eqb_eq in X as ->. reflexivity.
Qed.
Lemma read_unknown_sound : forall s r, read_unknown s = Some r -> exists t j, s = t ++ j ++ r /\ ignorable j /\ other_text (ignx is_junk) t.
Proof.
  intros s r H. unfold read_unknown in H. destruct (read_value s) as [s1|] eqn:V.
  - inversion H; subst. apply read_value_sound in V as (i & v & -> & I & F). exists (i ++ v), "". split; [now rewrite sapp_assoc|]. split; [constructor|].
    exists i, v. tauto.
  - destruct (read_string s) as [[v s1]|] eqn:Q.
    + inversion H; subst. apply read_string_sound in Q as (i & t & -> & I & F). exists (i ++ t), "". split; [now rewrite sapp_assoc|]. split; [constructor|].
      exists i, t. split; [exact I|]. split; [reflexivity|]. right; left. now exists v.
    + apply balanced_sound in H as (t & j & -> & J & T); [|lia]. cbn in T. destruct T as (i & o & t' & I & O & C & ->).
      exists (i ++ String o t'), j. split; [reflexivity|]. split; [exact J|]. inversion C as [|n a k b A K B]; subst. inversion B; subst.
      exists "", (i ++ String o (a ++ String k "")). split; [constructor|]. split; [reflexivity|]. right; right. exists i, o, a, k. tauto.
Qed.

(** *** entries *)
(** what one entry does to the state *)
Definition apply_entry (st : state) (e : entry) (st' : state) : Prop :=
  (fst e = "lensmodel" /\ exists n m, snd e = V_name n /\ st_lens st = None /\ denotes rnd n m /\
     st' = State (Some m) (st_intrinsics st) (st_rt st) (st_size st)) \/
  (fst e = "intrinsics" /\ exists l m, snd e = V_doubles l /\ st_intrinsics st = None /\ st_lens st = Some m /\ Z.of_nat (List.length l) = num_params m /\
     st' = State (st_lens st) (Some l) (st_rt st) (st_size st)) \/
  (is_ext (fst e) /\ exists l, snd e = V_doubles l /\ List.length l = 6%nat /\
     ((unset (st_rt st) = true /\ st' = State (st_lens st) (st_intrinsics st) l (st_size st)) \/
      (unset (st_rt st) = false /\ close_lists l (st_rt st) = true /\ st' = st))) \/
  (fst e = "imagersize" /\ exists w h, snd e = V_uints [w; h] /\ fst (st_size st) <= 0 /\ 0 <= w /\ 0 <= h /\
     st' = State (st_lens st) (st_intrinsics st) (st_rt st) (w, h)) \/
  (fst e <> "lensmodel" /\ fst e <> "intrinsics" /\ ~ is_ext (fst e) /\ fst e <> "imagersize" /\ snd e = V_other /\ st' = st).
Inductive run : state -> list entry -> state -> Prop :=
| run_nil : forall st, run st [] st
| run_cons : forall st e st1 es st2, apply_entry st e st1 -> run st1 es st2 -> run st (e :: es) st2.

Definition cfg_ok (m : lensmodel) : Prop := match m with SPLINED c => u16 (sp_Nx c) /\ u16 (sp_Ny c) | _ => True end.
Lemma num_params_pos : forall m, cfg_ok m -> 4 <= num_params m.
Proof. intros m H. destruct m; cbn in *; try lia. unfold u16 in H. nia. Qed.
Lemma denotes_ok : forall n m, denotes rnd n m -> cfg_ok m.
Proof.
  intros n m (t & [(_ & H)|(c & _ & H)]).
  - destruct t; cbn in H; inversion H; exact Logic.I.
  - destruct t; cbn in H; try contradiction.
    + destruct H as (l & q & _ & _ & ->). exact Logic.I.
    + destruct H as (a & b & d & e & cfg & _ & A & B & D & E & ->). cbn.
      assert (forall x v, u16_text x v -> u16 v) as G.
      { intros x v (sp & sg & neg & ds & _ & _ & _ & _ & _ & ->). unfold u16. destruct (_ <? _); [lia|]. apply Z.mod_pos_bound. lia. }
      eauto 6.
Qed.
Definition state_ok (st : state) : Prop := forall m, st_lens st = Some m -> cfg_ok m.

Lemma read_entry_sound : forall into key st s st' r, state_ok st -> read_entry rnd into key st s = Step st' r ->
  exists v t j, s = t ++ j ++ r /\ ignorable j /\ value_text rnd (ignx is_junk) key v t /\ apply_entry st (key, v) st' /\ state_ok st'.
Proof.
  intros into key st s st' r Ok H. unfold read_entry in H.
  destruct (String.eqb_spec key "lensmodel") as [->|N1].
  { destruct (st_lens st) eqn:Lm; [discriminate|]. destruct (read_string s) as [[n s1]|] eqn:Q; [|discriminate].
    destruct (from_name rnd (Some n)) as [m| | |] eqn:F; try discriminate. inversion H; subst. apply read_string_sound in Q as (i & t & -> & I & T).
    assert (denotes rnd n m) as D by (apply classification in F; exact F).
    exists (V_name n), (i ++ t), "". split; [now rewrite sapp_assoc|]. split; [constructor|]. split; [now constructor|]. split.
    - left. split; [reflexivity|]. exists n, m. cbn. tauto.
    - intros m' E. cbn in E. inversion E; subst. now apply denotes_ok in D. }
  destruct (String.eqb_spec key "intrinsics") as [->|N2].
  { destruct (st_intrinsics st) eqn:Li; [discriminate|]. destruct (st_lens st) as [m|] eqn:Lm; [|discriminate].
    destruct (match into with Some max => max <? num_params m | None => false end); [discriminate|].
    destruct (read_list _ _ _) as [[l s1]|] eqn:Q; [|discriminate]. inversion H; subst.
    pose proof (num_params_pos m (Ok m Lm)) as P.
    apply (read_list_sound _ _ ingest_double_sound) in Q as (t & -> & T & Ln); [|lia].
    exists (V_doubles l), t, "". split; [reflexivity|]. split; [constructor|]. split; [now apply vt_intrinsics|]. split.
    - right; left. split; [reflexivity|]. exists l, m. cbn. rewrite Lm. tauto.
    - intros m' E. apply Ok. now rewrite Lm. }
  destruct (String.eqb key "extrinsics" || String.eqb key "rt_cam_ref")%bool eqn:N3.
  { assert (is_ext key) as X by (apply orb_true_iff in N3 as [A|A]; apply String.eqb_eq in A; [now left|now right]).
    destruct (read_list _ _ _) as [[l s1]|] eqn:Q; [|discriminate].
    apply (read_list_sound _ _ ingest_double_sound) in Q as (t & -> & T & Ln); [|lia].
    exists (V_doubles l), t, "". destruct (unset (st_rt st)) eqn:U; [|destruct (close_lists l (st_rt st)) eqn:C; [|discriminate]]; inversion H; subst;
      (split; [reflexivity|]; split; [constructor|]; split; [now apply vt_ext|]; split; [|now intros m' E; apply Ok]);
      right; right; left; (split; [exact X|]); exists l; (split; [reflexivity|]); (split; [lia|]); tauto. }
  assert (~ is_ext key) as X. { intros [->| ->]; discriminate N3. }
  destruct (String.eqb_spec key "imagersize") as [->|N4].
  { destruct (fst (st_size st) >? 0) eqn:G; [discriminate|]. destruct (read_list _ _ _) as [[[|w [|h l]] s1]|] eqn:Q; try discriminate. inversion H; subst.
    assert (Uw : forall s x r, ingest_uint s = Some (x, r) -> exists i t j, s = i ++ t ++ j ++ r /\ ignorable i /\ (uint_text t x /\ 0 <= x) /\ ignorable j).
    { intros s0 x r0 Hu. destruct (ingest_uint_sound _ _ _ Hu) as (i & t & j & E & I & (A & B & C) & J). exists i, t, j. unfold uint_text. tauto. }
    pose proof Q as Q2. apply (read_list_sound _ _ ingest_uint_sound) in Q as (t & -> & T & Ln); [|lia].
    apply (read_list_sound _ _ Uw) in Q2 as (t2 & _ & (_ & _ & t3 & _ & _ & _ & _ & T3 & _) & _); [|lia].
    assert (Forall (fun x => 0 <= x) (w :: h :: l)) as P by (clear -T3; induction T3; constructor; try tauto; constructor).
    inversion P as [|? ? Pw P2]; subst. inversion P2 as [|? ? Ph _]; subst. destruct l; [|cbn in Ln; lia].
    exists (V_uints [w; h]), t, "". split; [reflexivity|]. split; [constructor|]. split; [now constructor|]. split; [|now intros m' E; apply Ok].
    right; right; right; left. split; [reflexivity|]. exists w, h. cbn. repeat split; try lia; reflexivity. }
  destruct (read_unknown s) as [s1|] eqn:Q; [|discriminate]. inversion H; subst. apply read_unknown_sound in Q as (t & j & -> & J & T).
  exists V_other, t, j. split; [reflexivity|]. split; [exact J|]. split; [now constructor|]. split; [|exact Ok].
  right; right; right; right. cbn. tauto.
Qed.

Lemma finish_sound : forall s st r m, match skip s with EmptyString => finalize st | _ => r end = Read_ok m -> (forall m, r <> Read_ok m) ->
  ignorable s /\ finalize st = Read_ok m.
Proof.
  intros s st r m H N. destruct (skip_sound s) as (i & E & I). destruct (skip s).
  - rewrite E, sapp_nil. tauto.
  - now elim (N m).
Qed.
Lemma entries_sound : forall fuel into st s m, state_ok st -> entries rnd fuel into st s = Read_ok m ->
  exists es b k st', s = b ++ k /\ body_text rnd (ignx is_junk) es b /\ ignorable k /\ run st es st' /\ finalize st' = Read_ok m.
Proof.
  induction fuel as [|fuel IH]; intros into st s m Ok H; [discriminate|]. cbn [entries] in H.
  destruct (read_string s) as [[key s1]|] eqn:Q; [|discriminate]. apply read_string_sound in Q as (i & k & -> & I & K).
  destruct (expect _ s1) as [s2|] eqn:E; [|discriminate]. apply expect_sound in E as (j & c & -> & J & C). apply Ascii.eqb_eq in C as ->.
  destruct (read_entry rnd into key st s2) as [st1 s3| |] eqn:En; try discriminate.
  apply read_entry_sound in En as (v & t & j2 & -> & J2 & V & A & Ok1); [|exact Ok].
  destruct (skip_sound s3) as (j3 & E3 & J3). destruct (skip s3) as [|c s4]; [discriminate|]. subst s3.
  assert (Et : entry_text rnd (ignx is_junk) (key, v) (i ++ k ++ j ++ ":" ++ t)).
  { exists i, k, j, t. tauto. }
  pose proof (ignorable_app _ _ J2 J3) as J4.
  destruct (Ascii.eqb_spec c "}") as [->|N1].
  { apply finish_sound in H as [I4 F]; [|discriminate]. exists [(key, v)], ((i ++ k ++ j ++ ":" ++ t) ++ (j2 ++ j3) ++ "" ++ "}"), s4, st1.
    split; [rewrite !sapp_assoc; cbn; rewrite ?sapp_assoc; reflexivity|]. split; [apply bt_last; [exact Et|exact J4|now left]|]. split; [exact I4|].
    split; [|exact F]. eapply run_cons; [exact A|constructor]. }
  destruct (Ascii.eqb_spec c ",") as [->|N2]; [|discriminate].
  destruct (expect _ s4) as [s5|] eqn:E5.
  - apply expect_sound in E5 as (j5 & c5 & -> & J5 & C5). apply Ascii.eqb_eq in C5 as ->.
    apply finish_sound in H as [I4 F]; [|discriminate]. exists [(key, v)], ((i ++ k ++ j ++ ":" ++ t) ++ (j2 ++ j3) ++ ("," ++ j5) ++ "}"), s5, st1.
    split; [rewrite !sapp_assoc; cbn; rewrite ?sapp_assoc; cbn; rewrite ?sapp_assoc; reflexivity|].
    split; [apply bt_last; [exact Et|exact J4|right; exists j5; tauto]|]. split; [exact I4|].
    split; [|exact F]. eapply run_cons; [exact A|constructor].
  - apply IH in H as (es & b & k' & st' & -> & B & K' & Rn & F); [|exact Ok1].
    exists ((key, v) :: es), ((i ++ k ++ j ++ ":" ++ t) ++ (j2 ++ j3) ++ "," ++ b), k', st'.
    split; [rewrite !sapp_assoc; cbn; rewrite ?sapp_assoc; cbn; rewrite ?sapp_assoc; reflexivity|].
    split; [apply bt_more; assumption|]. split; [exact K'|]. split; [|exact F]. eapply run_cons; eassumption.
Qed.
Lemma read_sound : forall into text m, read_cameramodel rnd into text = Read_ok m ->
  exists es st, file_text rnd (ignx is_junk) es (cstr text) /\ run state0 es st /\ finalize st = Read_ok m.
Proof.
  intros into text m H. unfold read_cameramodel in H. destruct (expect _ (cstr text)) as [s|] eqn:E; [|discriminate].
  apply expect_sound in E as (i & c & Ec & I & C). apply Ascii.eqb_eq in C as ->. destruct (skip_sound s) as (j & Ej & J).
  apply entries_sound in H as (es & b & k & st & Eb & B & K & Rn & F); [|discriminate].
  exists es, st. split; [|tauto]. exists i, j, b, k. rewrite <- Eb, <- Ej. cbn. tauto.
Qed.

(** *** what a run of entries says *)
Lemma run_snoc : forall st es st2, run st es st2 -> es = [] /\ st2 = st \/ exists es1 e st1, es = (es1 ++ [e])%list /\ run st es1 st1 /\ apply_entry st1 e st2.
Proof.
  induction 1 as [|st e st1 es st2 A Rn IH]; [now left|right]. destruct IH as [[-> ->]|(es1 & e' & st1' & -> & R1 & A1)].
  - exists [], e, st. split; [reflexivity|]. split; [constructor|exact A].
  - exists (e :: es1), e', st1'. split; [reflexivity|]. split; [eapply run_cons; eassumption|exact A1].
Qed.
Lemma of_key_app : forall ks a b, of_key ks (a ++ b) = (of_key ks a ++ of_key ks b)%list.
Proof. intros. unfold of_key. now rewrite filter_app, map_app. Qed.
Lemma of_key_in : forall ks k v, In k ks -> of_key ks [(k, v)] = [v].
Proof.
  intros ks k v H. unfold of_key. cbn. assert (existsb (String.eqb k) ks = true) as ->; [|reflexivity].
  apply existsb_exists. exists k. split; [exact H|apply String.eqb_refl].
Qed.
Lemma of_key_out : forall ks k v, ~ In k ks -> of_key ks [(k, v)] = [].
Proof.
  intros ks k v H. unfold of_key. cbn. destruct (existsb (String.eqb k) ks) eqn:E; [|reflexivity].
  apply existsb_exists in E as (x & I & X). apply String.eqb_eq in X as <-. contradiction.
Qed.
Definition big (l : list Q) : Prop := List.length l = 6%nat /\ exists x r, l = x :: r /\ (x == DBL_MAX)%Q.
Lemma unset_big : forall l, List.length l = 6%nat -> unset l = true -> big l.
Proof. intros [|x r] L H; [discriminate|]. split; [exact L|]. exists x, r. split; [reflexivity|now apply Qeq_bool_iff]. Qed.
Lemma close_lists_within : forall a b, List.length a = List.length b -> close_lists a b = true -> Forall2 (fun x y => (Qabs (x - y) <= 1 # 1000000000)%Q) a b.
Proof.
  induction a as [|x a IH]; intros [|y b] L H; try discriminate; [constructor|]. cbn in H. apply andb_true_iff in H as [H1 H2].
  constructor; [now apply Qle_bool_iff|]. apply IH; [now inversion L|exact H2].
Qed.
Definition said (es : list entry) (st : state) : Prop :=
  match st_lens st with
  | None => of_key ["lensmodel"] es = []
  | Some m => exists n, of_key ["lensmodel"] es = [V_name n] /\ denotes rnd n m
  end /\
  match st_intrinsics st with
  | None => of_key ["intrinsics"] es = []
  | Some l => of_key ["intrinsics"] es = [V_doubles l] /\ (exists m, st_lens st = Some m /\ Z.of_nat (List.length l) = num_params m)
  end /\
  (forall es1 v es2, es = app es1 (("intrinsics", v) :: es2) -> exists w, In ("lensmodel", w) es1) /\
  List.length (st_rt st) = 6%nat /\
  (if unset (st_rt st) then Forall (is_doubles big) (of_key ["extrinsics"; "rt_cam_ref"] es)
   else exists pre post, of_key ["extrinsics"; "rt_cam_ref"] es = app pre (V_doubles (st_rt st) :: post) /\
     Forall (is_doubles big) pre /\ Forall (is_doubles (fun l => within (1 # 1000000000) l (st_rt st))) post) /\
  0 <= fst (st_size st) /\ 0 <= snd (st_size st) /\
  (if fst (st_size st) >? 0
   then exists pre, of_key ["imagersize"] es = app pre [V_uints [fst (st_size st); snd (st_size st)]] /\ Forall (fun v => exists h, v = V_uints [0; h]) pre
   else Forall (fun v => exists h, v = V_uints [0; h]) (of_key ["imagersize"] es)).
Lemma in_of_key : forall k es v, In v (of_key [k] es) -> In (k, v) es.
Proof.
  intros k es v H. unfold of_key in H. apply in_map_iff in H as ((k', v') & <- & H). apply filter_In in H as [H E]. cbn in E.
  rewrite orb_false_r in E. apply String.eqb_eq in E as ->. exact H.
Qed.
Lemma said_step : forall es st e st', said es st -> apply_entry st e st' -> said (es ++ [e]) st'.
Proof.
  intros es st [k v] st' (A & B & B2 & C & D & E1 & E2 & E) H. unfold apply_entry in H. cbn [fst snd] in H. unfold said. rewrite !of_key_app.
  assert (Keep : k <> "intrinsics" -> forall es1 v' es2, app es [(k, v)] = app es1 (("intrinsics", v') :: es2) -> exists w, In ("lensmodel", w) es1).
  { intros Nk es1 v' es2 Q. destruct es2 as [|y es2 _] using rev_ind.
    - apply app_inj_tail in Q as [_ Q]. inversion Q. contradiction.
    - rewrite app_comm_cons, app_assoc in Q. apply app_inj_tail in Q as [Q _]. eapply B2; exact Q. }
  destruct H as [(-> & n & m & -> & L & Dn & ->)|[(-> & l & m & -> & Li & L & Ln & ->)|[(X & l & -> & Ln & H)|[(-> & w & h & -> & Z0 & W & Hh & ->)|(N1 & N2 & N3 & N4 & -> & ->)]]]];
    cbn [st_lens st_intrinsics st_rt st_size fst snd].
  - rewrite L in *. rewrite A. rewrite (of_key_in ["lensmodel"]) by (now left).
    rewrite (of_key_out ["extrinsics"; "rt_cam_ref"]), (of_key_out ["imagersize"]), (of_key_out ["intrinsics"]) by (cbn; intuition discriminate). rewrite !app_nil_r.
    split; [exists n; tauto|]. split; [|split; [apply Keep; discriminate|tauto]].
    destruct (st_intrinsics st); [|exact B]. destruct B as (_ & (m' & Q & _)). discriminate Q.
  - rewrite (of_key_out ["lensmodel"]), (of_key_out ["extrinsics"; "rt_cam_ref"]), (of_key_out ["imagersize"]) by (cbn; intuition discriminate). rewrite !app_nil_r.
    rewrite (of_key_in ["intrinsics"]) by (now left). rewrite Li in B. rewrite B. split; [exact A|]. split; [split; [reflexivity|exists m; tauto]|]. split; [|tauto].
    intros es1 v' es2 Q. destruct es2 as [|y es2 _] using rev_ind.
    + apply app_inj_tail in Q as [<- _]. rewrite L in A. destruct A as (n & A & _). exists (V_name n). apply in_of_key. rewrite A. now left.
    + rewrite app_comm_cons, app_assoc in Q. apply app_inj_tail in Q as [Q _]. eapply B2; exact Q.
  - assert (In k ["extrinsics"; "rt_cam_ref"]) as Ik by (destruct X as [->| ->]; [now left|right; now left]).
    assert (k <> "lensmodel" /\ k <> "intrinsics" /\ k <> "imagersize") as (K1 & K2 & K3) by (destruct X as [->| ->]; repeat split; discriminate).
    assert (K1' : ~ In k ["lensmodel"]) by (intros [Q|[]]; now apply K1). assert (K2' : ~ In k ["intrinsics"]) by (intros [Q|[]]; now apply K2). assert (K3' : ~ In k ["imagersize"]) by (intros [Q|[]]; now apply K3).
    rewrite (of_key_out ["lensmodel"]), (of_key_out ["imagersize"]), (of_key_out ["intrinsics"]) by assumption. rewrite (of_key_in ["extrinsics"; "rt_cam_ref"]) by exact Ik. rewrite !app_nil_r.
    specialize (Keep K2).
    destruct H as [(U & ->)|(U & Cl & ->)]; cbn [st_lens st_intrinsics st_rt st_size]; rewrite U in D.
    + split; [exact A|]. split; [exact B|]. split; [exact Keep|]. split; [exact Ln|]. split; [|tauto]. destruct (unset l) eqn:Ul.
      * apply Forall_app. split; [exact D|]. constructor; [|constructor]. exists l. split; [reflexivity|now apply unset_big].
      * exists (of_key ["extrinsics"; "rt_cam_ref"] es), []. split; [reflexivity|]. split; [exact D|constructor].
    + rewrite U. split; [exact A|]. split; [exact B|]. split; [exact Keep|]. split; [exact C|]. split; [|tauto]. destruct D as (pre & post & -> & D1 & D2).
      exists pre, (post ++ [V_doubles l])%list. rewrite <- app_assoc. split; [reflexivity|]. split; [exact D1|]. apply Forall_app. split; [exact D2|].
      constructor; [|constructor]. exists l. split; [reflexivity|]. split; [congruence|]. apply close_lists_within; congruence.
  - rewrite (of_key_out ["lensmodel"]), (of_key_out ["extrinsics"; "rt_cam_ref"]), (of_key_out ["intrinsics"]) by (cbn; intuition discriminate). rewrite !app_nil_r.
    rewrite (of_key_in ["imagersize"]) by (now left).
    assert (Kp : "imagersize" <> "intrinsics") by discriminate. specialize (Keep Kp).
    split; [exact A|]. split; [exact B|]. split; [exact Keep|]. split; [exact C|]. split; [exact D|]. split; [lia|]. split; [lia|].
    destruct (fst (st_size st) >? 0) eqn:Q; [lia|]. destruct (w >? 0) eqn:Qw.
    + exists (of_key ["imagersize"] es). tauto.
    + apply Forall_app. split; [exact E|]. constructor; [|constructor]. exists h. do 2 f_equal. lia.
  - assert (O1 : ~ In k ["lensmodel"]) by (intros [Q|[]]; now apply N1). assert (O2 : ~ In k ["intrinsics"]) by (intros [Q|[]]; now apply N2).
    assert (O3 : ~ In k ["imagersize"]) by (intros [Q|[]]; now apply N4). assert (O4 : ~ In k ["extrinsics"; "rt_cam_ref"]) by (intros [Q|[Q|[]]]; apply N3; [now left|now right]).
    rewrite (of_key_out ["lensmodel"]), (of_key_out ["imagersize"]), (of_key_out ["extrinsics"; "rt_cam_ref"]), (of_key_out ["intrinsics"]) by assumption. rewrite !app_nil_r.
    specialize (Keep N2). tauto.
Qed.
Lemma said_run : forall st es st', run st es st' -> forall es0, said es0 st -> said (es0 ++ es) st'.
Proof.
  induction 1 as [|st e st1 es st2 A Rn IH]; intros es0 S0; [now rewrite app_nil_r|].
  replace (es0 ++ e :: es)%list with ((es0 ++ [e]) ++ es)%list by (rewrite <- app_assoc; reflexivity). apply IH. eapply said_step; eassumption.
Qed.
Lemma said_0 : said [] state0.
Proof.
  unfold said, state0. cbn [st_lens st_intrinsics st_rt st_size fst snd]. split; [reflexivity|]. split; [reflexivity|].
  split; [intros [|? ?] ? ? Q; discriminate Q|]. split; [reflexivity|].
  split; [assert (unset [DBL_MAX; 0%Q; 0%Q; 0%Q; 0%Q; 0%Q] = true) as -> by (cbn [unset]; apply Qeq_bool_refl); constructor|].
  split; [lia|]. split; [lia|]. cbn. constructor.
Qed.
Lemma run_describes : forall es st m, run state0 es st -> finalize st = Read_ok m -> describes rnd es m.
Proof.
  intros es st m Rn F. destruct (said_run _ _ _ Rn [] said_0) as (A & B & B3 & C & D & E1 & E2 & E). cbn [app] in *. unfold finalize in F.
  destruct (st_lens st) as [ml|] eqn:L; [|discriminate]. destruct (st_intrinsics st) as [mi|] eqn:I; [|discriminate].
  destruct (unset (st_rt st)) eqn:U; [discriminate|]. destruct (fst (st_size st) >? 0) eqn:G; [|discriminate]. cbn in F. inversion F; subst m. clear F.
  unfold describes. cbn [m_lens m_intrinsics m_rt_cam_ref m_size]. split; [exact A|]. destruct B as (B1 & (m' & Bm & B2)). inversion Bm; subst m'.
  split; [tauto|]. split; [exact B3|]. split.
  - destruct D as (pre & post & D0 & D1 & D2). exists pre, post. split; [exact D0|]. split; [exact C|]. split; [exact D1|]. split; [|exact D2].
    destruct (st_rt st) as [|x r]; [discriminate C|]. exists x, r. split; [reflexivity|]. cbn in U. intro Q. apply Qeq_bool_iff in Q. congruence.
  - destruct E as (pre & E0 & E3). exists pre. split; [exact E0|]. split; [exact E3|]. lia.
Qed.
End Sound.
