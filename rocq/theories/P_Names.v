(** Proofs about lens model names. *)
From Coq Require Import ZArith NArith List Bool QArith Qabs String Ascii Lia ZifyBool ZifyN Psatz.
From Verif Require Import M_Lens M_Names S_Names.
Import ListNotations.
Open Scope string_scope.
Open Scope Z_scope.

Lemma sapp_assoc : forall a b c : string, (a ++ b) ++ c = a ++ (b ++ c).
Proof. induction a; cbn; intros; [easy | now rewrite IHa]. Qed.
Lemma sapp_nil : forall a : string, a ++ "" = a.
Proof. induction a; cbn; congruence. Qed.
Lemma slen_app : forall a b : string, (String.length (a ++ b) = String.length a + String.length b)%nat.
Proof. induction a; cbn; intros; [easy|now rewrite IHa]. Qed.
Lemma all_app : forall P a b, all_chars P (a ++ b) <-> all_chars P a /\ all_chars P b.
Proof. induction a; cbn; intros; [tauto|]. rewrite IHa. tauto. Qed.

Definition starts (P : ascii -> bool) (s : string) : bool :=
  match s with String c _ => P c | EmptyString => false end.

Lemma dec_value_app : forall a b,
  dec_value (a ++ b) = dec_value a * 10 ^ Z.of_nat (String.length b) + dec_value b.
Proof.
  induction a; cbn [append dec_value String.length]; intros; [lia|].
  rewrite IHa, slen_app, Nat2Z.inj_add, Z.pow_add_r by lia. ring.
Qed.

Lemma scan_digits_app : forall ds rest acc n,
  all_chars is_digit ds -> starts is_digit rest = false ->
  scan_digits acc n (ds ++ rest) =
  (acc * 10 ^ Z.of_nat (String.length ds) + dec_value ds, (n + String.length ds)%nat, rest).
Proof.
  induction ds as [|c ds IH]; cbn [append all_chars scan_digits String.length dec_value]; intros rest acc n H R.
  - rewrite Z.mul_1_r, !Z.add_0_r, Nat.add_0_r. destruct rest; cbn [scan_digits starts] in *; [easy|]. now rewrite R.
  - destruct H as (H & H'). rewrite H, IH by easy. f_equal. f_equal; [|lia].
    rewrite Nat2Z.inj_succ, Z.pow_succ_r by lia. ring.
Qed.
Lemma split_run : forall P s, exists ds rest, s = ds ++ rest /\ all_chars P ds /\ starts P rest = false.
Proof.
  induction s as [|c s (ds & rest & E & A & B)].
  - now exists "", "".
  - destruct (P c) eqn:H.
    + exists (String c ds), rest. subst. now cbn.
    + exists "", (String c s). now cbn.
Qed.

Lemma skip_space_app : forall sp x, all_chars is_space sp -> starts is_space x = false -> skip_space (sp ++ x) = x.
Proof.
  induction sp; cbn; intros x H R.
  - destruct x; cbn in *; [easy|]. now rewrite R.
  - destruct H as (-> & H). auto.
Qed.

Lemma digit_cases : forall c, is_digit c = true ->
  In c (["0"%char;"1"%char;"2"%char;"3"%char;"4"%char;"5"%char;"6"%char;"7"%char;"8"%char;"9"%char])%list.
Proof.
  intros c H. destruct c as [b0 b1 b2 b3 b4 b5 b6 b7].
  destruct b0, b1, b2, b3, b4, b5, b6, b7; try discriminate H; cbn; tauto.
Qed.
Lemma space_not_digit : forall c, is_digit c = true -> is_space c = false.
Proof. intros c H. apply digit_cases in H. cbn in H. intuition (subst; reflexivity). Qed.
Lemma digit_not_sign : forall c, is_digit c = true -> c <> "-"%char /\ c <> "+"%char /\ c <> "."%char /\ c <> "_"%char /\ c <> "e"%char /\ c <> "E"%char.
Proof. intros c H. apply digit_cases in H. cbn in H. intuition (subst; congruence). Qed.
Lemma digit_val_range : forall c, is_digit c = true -> 0 <= digit_val c <= 9.
Proof. intros c H. unfold is_digit, digit_val in *. lia. Qed.
Lemma dec_value_nonneg : forall s, all_chars is_digit s -> 0 <= dec_value s.
Proof.
  induction s; cbn [all_chars dec_value]; [lia|]. intros (H & H'). apply digit_val_range in H.
  specialize (IHs H'). pose proof (Z.pow_nonneg 10 (Z.of_nat (String.length s))). nia.
Qed.

Definition not_sign (s : string) : Prop := match s with String c _ => c <> "-"%char /\ c <> "+"%char | _ => True end.
Lemma scan_sign_none : forall s, not_sign s -> scan_sign s = (false, s).
Proof.
  intros [|c s]; cbn; [easy|]. intros (A & B).
  destruct c as [b0 b1 b2 b3 b4 b5 b6 b7].
  destruct b0, b1, b2, b3, b4, b5, b6, b7; cbn; try reflexivity; exfalso; [apply B|apply A]; reflexivity.
Qed.
Lemma scan_sign_app : forall sg neg x, sign_text sg neg -> not_sign x -> scan_sign (sg ++ x) = (neg, x).
Proof.
  intros sg neg x [(-> & ->) | [(-> & ->) | (-> & ->)]] H; [|reflexivity..]. cbn. now apply scan_sign_none.
Qed.
Lemma split_sign : forall s, exists sg neg x, s = sg ++ x /\ sign_text sg neg /\ scan_sign s = (neg, x).
Proof.
  intros [|c s]; [exists "", false, ""; cbn; unfold sign_text; tauto|].
  destruct (ascii_dec c "-") as [->|A]; [exists "-", true, s; cbn; unfold sign_text; tauto|].
  destruct (ascii_dec c "+") as [->|B]; [exists "+", false, s; cbn; unfold sign_text; tauto|].
  exists "", false, (String c s). rewrite scan_sign_none by now split. unfold sign_text; cbn; tauto.
Qed.
Lemma not_sign_digits : forall ds rest, all_chars is_digit ds -> ds <> "" -> not_sign (ds ++ rest).
Proof. intros [|c ds] rest H N; [easy|]. cbn in *. destruct H as (H & _). apply digit_not_sign in H. tauto. Qed.
Lemma starts_sign_digits : forall sg neg ds rest, sign_text sg neg -> all_chars is_digit ds -> ds <> "" ->
  starts is_space (sg ++ ds ++ rest) = false.
Proof.
  intros sg neg ds rest [(-> & _) | [(-> & _) | (-> & _)]] H N; [|reflexivity..].
  destruct ds; [easy|]. cbn in *. apply space_not_digit. tauto.
Qed.

Lemma mod_mod_64 : forall x, (x mod 2^64) mod 65536 = x mod 65536.
Proof.
  intros. change (2^64) with (65536 * 2^48). rewrite Z.rem_mul_r by lia.
  rewrite Z.mul_comm, Z_mod_plus_full, Z.mod_mod; lia.
Qed.

Lemma scan_hu_complete : forall a v rest, u16_text a v -> starts is_digit rest = false ->
  scan_hu (a ++ rest) = Some (v, rest).
Proof.
  intros a v rest (sp & sg & neg & ds & -> & Hsp & Hsg & Hds & Nds & ->) R.
  unfold scan_hu. rewrite !sapp_assoc, skip_space_app; [|easy|now apply (starts_sign_digits _ neg)].
  rewrite (scan_sign_app _ neg); [|easy|now apply not_sign_digits].
  rewrite scan_digits_app by easy. cbn [Nat.add Z.mul].
  destruct ds as [|c ds]; [easy|]. cbn [String.length]. do 2 f_equal.
  rewrite Z.gtb_ltb. change (0 * _ + dec_value (String c ds)) with (dec_value (String c ds)).
  destruct (_ <? _) eqn:L; [reflexivity|]. destruct neg; [now rewrite mod_mod_64|reflexivity].
Qed.
Lemma scan_hu_sound : forall s v rest, scan_hu s = Some (v, rest) ->
  exists a, s = a ++ rest /\ u16_text a v /\ starts is_digit rest = false.
Proof.
  intros s v rest. unfold scan_hu.
  destruct (split_run is_space s) as (sp & s0 & -> & Hsp & R0).
  rewrite skip_space_app by easy.
  destruct (split_sign s0) as (sg & neg & s1 & -> & Hsg & ->).
  destruct (split_run is_digit s1) as (ds & r & -> & Hds & R1).
  rewrite scan_digits_app by easy. cbn [Nat.add].
  destruct ds as [|c ds]; [discriminate|]. cbn [String.length].
  intro E. assert (r = rest) by congruence. subst r.
  exists (sp ++ sg ++ String c ds). rewrite !sapp_assoc. split; [easy|]. split; [|easy].
  exists sp, sg, neg, (String c ds). repeat (split; [easy|]).
  apply (f_equal (option_map fst)) in E. cbn [option_map fst] in E.
  assert (forall a b : Z, Some a = Some b -> b = a) as I by congruence. apply I in E. rewrite E.
  rewrite Z.gtb_ltb. change (0 * _ + dec_value (String c ds)) with (dec_value (String c ds)).
  destruct (_ <? _) eqn:L; [reflexivity|]. destruct neg; [now rewrite mod_mod_64|reflexivity].
Qed.

Lemma scan_lit_app : forall l s, scan_lit l (l ++ s) = Some s.
Proof. induction l; cbn; intros; [easy|]. now rewrite Ascii.eqb_refl. Qed.
Lemma scan_lit_sound : forall l s r, scan_lit l s = Some r -> s = l ++ r.
Proof.
  induction l; cbn; intros s r H; [congruence|]. destruct s; [discriminate|].
  destruct (Ascii.eqb_spec a a0); [|discriminate]. subst. f_equal. auto.
Qed.

Definition not_e (s : string) : Prop := match s with String c _ => c <> "e"%char /\ c <> "E"%char | _ => True end.

Section F.
Variable rnd : Q -> Q.

Lemma dot_case : forall (A : Type) c (r : string) (x : string -> A) (y : A),
  match String c r with String "." r' => x r' | _ => y end = if Ascii.eqb c "." then x r else y.
Proof.
  intros. destruct c as [b0 b1 b2 b3 b4 b5 b6 b7].
  destruct b0, b1, b2, b3, b4, b5, b6, b7; reflexivity.
Qed.

(** the mantissa part of scan_lf *)
Definition after_point (ip : Z) (s2 : string) : Z * nat * string :=
  match s2 with String "." r => scan_digits ip 0 r | _ => (ip, 0%nat, s2) end.

Lemma after_point_app : forall ip f fr rest, frac_text f fr -> all_chars is_digit fr ->
  (f = "" -> match rest with String c _ => c <> "."%char | _ => True end) -> (f <> "" -> starts is_digit rest = false) ->
  after_point (dec_value ip) (f ++ rest) = (dec_value (ip ++ fr), String.length fr, rest).
Proof.
  intros ip f fr rest [(-> & ->) | ->] Hfr H1 H2; unfold after_point; cbn [append].
  - specialize (H1 eq_refl). rewrite sapp_nil. destruct rest; [easy|].
    rewrite dot_case. destruct (Ascii.eqb_spec a "."); [easy|reflexivity].
  - rewrite scan_digits_app by (auto; apply H2; discriminate). now rewrite dec_value_app.
Qed.
Lemma after_point_split : forall ip s2, starts is_digit s2 = false -> exists f fr rest,
  s2 = f ++ rest /\ frac_text f fr /\ all_chars is_digit fr /\ starts is_digit rest = false /\
  after_point (dec_value ip) s2 = (dec_value (ip ++ fr), String.length fr, rest).
Proof.
  intros ip [|c s] H.
  - exists "", "", "". cbn. rewrite sapp_nil. unfold frac_text; tauto.
  - unfold after_point. rewrite dot_case. destruct (Ascii.eqb_spec c ".") as [->|N].
    + destruct (split_run is_digit s) as (fr & rest & -> & A & B).
      exists (String "." fr), fr, rest. repeat split; try easy; [now right|].
      rewrite scan_digits_app by easy. now rewrite dec_value_app.
    + exists "", "", (String c s). rewrite sapp_nil. unfold frac_text. cbn in *. tauto.
Qed.

Lemma scan_lf_eq : forall s, scan_lf rnd s =
  let '(neg, s1) := scan_sign (skip_space s) in
  let '(ip, ni, s2) := scan_digits 0 0 s1 in
  let '(m, nf, s3) := after_point ip s2 in
  if (ni + nf =? 0)%nat then None
  else
    let mant := (if neg then - m else m) # p10 nf in
    match s3 with
    | String c r =>
      if (Ascii.eqb c "e" || Ascii.eqb c "E")%bool then
        let '(eneg, s4) := scan_sign r in
        let '(e, ne, s5) := scan_digits 0 0 s4 in
        match ne with
        | O => None
        | S _ => Some (rnd (mant * q10 (if eneg then - e else e))%Q, s5)
        end
      else Some (rnd mant, s3)
    | EmptyString => Some (rnd mant, s3)
    end.
Proof. reflexivity. Qed.

Lemma scan_lf_sound : forall s q, scan_lf rnd s = Some (q, "") -> lf_text rnd s q.
Proof.
  intros s q. rewrite scan_lf_eq.
  destruct (split_run is_space s) as (sp & s0 & -> & Hsp & R0).
  rewrite skip_space_app by easy.
  destruct (split_sign s0) as (sg & neg & s1 & -> & Hsg & ->).
  destruct (split_run is_digit s1) as (ip & s2 & -> & Hip & R1).
  rewrite scan_digits_app by easy. cbn [Nat.add].
  change (0 * 10 ^ Z.of_nat (String.length ip) + dec_value ip) with (dec_value ip).
  destruct (after_point_split ip s2 R1) as (f & fr & s3 & -> & Hf & Hfr & R2 & ->).
  destruct (String.length ip + String.length fr =? 0)%nat eqn:Z0; [discriminate|].
  intro E. exists sp, sg, neg, ip, f, fr. repeat (split; [easy|]). split.
  { intro C. apply (f_equal String.length) in C. rewrite slen_app in C. cbn in C. apply Nat.eqb_neq in Z0. lia. }
  cbn zeta in *. destruct s3 as [|c r].
  - left. rewrite sapp_nil. split; [easy|congruence].
  - destruct (Ascii.eqb c "e" || Ascii.eqb c "E")%bool eqn:C.
    + destruct (split_sign r) as (es & eneg & s4 & -> & Hes & Es). rewrite Es in E.
      destruct (split_run is_digit s4) as (ed & s5 & -> & Hed & R3).
      rewrite scan_digits_app in E by easy. cbn [Nat.add] in E.
      change (0 * 10 ^ Z.of_nat (String.length ed) + dec_value ed) with (dec_value ed) in E.
      destruct ed as [|d ed]; [discriminate|]. cbn [String.length] in E.
      assert (s5 = "") by congruence. subst s5.
      right. exists (String c ""), es, eneg, (String d ed). split.
      { apply orb_true_iff in C. destruct C as [C|C]; apply Ascii.eqb_eq in C; subst; tauto. }
      repeat (split; [easy|]). rewrite sapp_nil. split; [easy|congruence].
    + congruence.
Qed.

Lemma scan_lf_complete : forall s q, lf_text rnd s q -> scan_lf rnd s = Some (q, "").
Proof.
  intros s q (sp & sg & neg & ip & f & fr & Hsp & Hsg & Hip & Hf & Hfr & Ne & H). cbn zeta in H.
  assert (exists tail, s = sp ++ sg ++ ip ++ f ++ tail /\
     ((tail = "" /\ q = rnd ((if neg then - dec_value (ip ++ fr) else dec_value (ip ++ fr)) # p10 (String.length fr))) \/
      exists E es eneg ed, (E = "e" \/ E = "E") /\ sign_text es eneg /\ all_chars is_digit ed /\ ed <> "" /\ tail = E ++ es ++ ed /\
       q = rnd (((if neg then - dec_value (ip ++ fr) else dec_value (ip ++ fr)) # p10 (String.length fr)) * q10 (if eneg then - dec_value ed else dec_value ed))%Q)) as (tail & Es & T).
  { destruct H as [(-> & ->) | (E & es & eneg & ed & HE & Hes & Hed & Ned & -> & ->)].
    - exists "". split; [now rewrite sapp_nil|left; tauto].
    - exists (E ++ es ++ ed). split; [easy|]. right. exists E, es, eneg, ed. tauto. }
  clear H. subst s.
  assert (starts is_digit tail = false /\ match tail with String c _ => c <> "."%char | _ => True end) as (T1 & T2).
  { destruct T as [(-> & _) | (E & es & eneg & ed & HE & _ & _ & _ & -> & _)]; [easy|].
    destruct HE; subst E; cbn; split; congruence. }
  assert (starts is_digit (f ++ tail) = false) as T3 by (destruct Hf as [(-> & ->) | ->]; [exact T1|reflexivity]).
  rewrite scan_lf_eq.
  rewrite skip_space_app; [|easy|].
  2:{ destruct Hsg as [(-> & _) | [(-> & _) | (-> & _)]]; [|reflexivity..].
      cbn [append]. destruct ip as [|c ip].
      - destruct Hf as [(-> & ->) | ->]; [easy|reflexivity].
      - cbn in *. apply space_not_digit. tauto. }
  rewrite (scan_sign_app _ neg); [|easy|].
  2:{ destruct ip as [|c ip].
      - destruct Hf as [(-> & ->) | ->]; [easy|]. cbn. split; congruence.
      - cbn in *. destruct Hip as (Hip & _). apply digit_not_sign in Hip. tauto. }
  rewrite scan_digits_app by easy. cbn [Nat.add].
  change (0 * 10 ^ Z.of_nat (String.length ip) + dec_value ip) with (dec_value ip).
  rewrite (after_point_app ip f fr tail) by easy.
  destruct (String.length ip + String.length fr =? 0)%nat eqn:Z0.
  { apply Nat.eqb_eq in Z0. rewrite <- slen_app in Z0. destruct (ip ++ fr); [easy|discriminate]. }
  cbn zeta. destruct T as [(-> & ->) | (E & es & eneg & ed & HE & Hes & Hed & Ned & -> & ->)]; [reflexivity|].
  assert (forall (A : Type) (x : ascii -> string -> A) (y : A), match E ++ es ++ ed with String c r => x c r | _ => y end = x (match E with String c _ => c | _ => "e"%char end) (es ++ ed)) as M.
  { intros. destruct HE; subst E; reflexivity. }
  assert (Ascii.eqb (match E with String c _ => c | _ => "e"%char end) "e" || Ascii.eqb (match E with String c _ => c | _ => "e"%char end) "E" = true)%bool as HE' by (destruct HE; subst E; reflexivity).
  replace (E ++ es ++ ed) with (String (match E with String c _ => c | _ => "e"%char end) (es ++ ed)) by (destruct HE; subst E; reflexivity).
  rewrite HE'.
  assert (ed ++ "" = ed) as Ee by apply sapp_nil. rewrite <- Ee at 1.
  rewrite (scan_sign_app es eneg); [|easy|now apply not_sign_digits].
  rewrite scan_digits_app by easy. cbn [Nat.add].
  change (0 * 10 ^ Z.of_nat (String.length ed) + dec_value ed) with (dec_value ed).
  destruct ed; [easy|reflexivity].
Qed.

Lemma scan_cahvore_iff : forall c q, scan_cahvore rnd c = Some q <-> exists l, c = "_linearity=" ++ l /\ lf_text rnd l q.
Proof.
  intros c q. unfold scan_cahvore, obind. split.
  - destruct (scan_lit "_linearity=" c) as [l|] eqn:E; [|discriminate]. apply scan_lit_sound in E.
    destruct (scan_lf rnd l) as [(q', r)|] eqn:F; [|discriminate]. cbn [fst snd].
    destruct r; [|discriminate]. intros [= ->]. exists l. split; [easy|now apply scan_lf_sound].
  - intros (l & -> & H). rewrite scan_lit_app. apply scan_lf_complete in H. now rewrite H.
Qed.

Lemma scan_splined_iff : forall c cfg, scan_splined c = Some cfg <-> exists a b d e,
  c = "_order=" ++ a ++ "_Nx=" ++ b ++ "_Ny=" ++ d ++ "_fov_x_deg=" ++ e /\
  u16_text a (sp_order cfg) /\ u16_text b (sp_Nx cfg) /\ u16_text d (sp_Ny cfg) /\ u16_text e (sp_fov cfg).
Proof.
  intros c cfg. unfold scan_splined, obind. split.
  - destruct (scan_lit "_order=" c) as [s1|] eqn:E1; [|discriminate]. apply scan_lit_sound in E1.
    destruct (scan_hu s1) as [(o, s2)|] eqn:F1; [|discriminate]. cbn [fst snd].
    apply scan_hu_sound in F1. destruct F1 as (a & F1 & A & _).
    destruct (scan_lit "_Nx=" s2) as [s3|] eqn:E2; [|discriminate]. apply scan_lit_sound in E2.
    destruct (scan_hu s3) as [(nx, s4)|] eqn:F2; [|discriminate]. cbn [fst snd].
    apply scan_hu_sound in F2. destruct F2 as (b & F2 & B & _).
    destruct (scan_lit "_Ny=" s4) as [s5|] eqn:E3; [|discriminate]. apply scan_lit_sound in E3.
    destruct (scan_hu s5) as [(ny, s6)|] eqn:F3; [|discriminate]. cbn [fst snd].
    apply scan_hu_sound in F3. destruct F3 as (d & F3 & D & _).
    destruct (scan_lit "_fov_x_deg=" s6) as [s7|] eqn:E4; [|discriminate]. apply scan_lit_sound in E4.
    destruct (scan_hu s7) as [(fv, s8)|] eqn:F4; [|discriminate]. cbn [fst snd].
    apply scan_hu_sound in F4. destruct F4 as (e & F4 & X & _).
    destruct s8; [|discriminate]. intro H. assert (cfg = {| sp_order := o; sp_Nx := nx; sp_Ny := ny; sp_fov := fv |}) by congruence.
    subst cfg. exists a, b, d, e. cbn [sp_order sp_Nx sp_Ny sp_fov]. subst. rewrite sapp_nil. tauto.
  - intros (a & b & d & e & -> & A & B & D & X).
    rewrite scan_lit_app, (scan_hu_complete a _ _ A) by reflexivity. cbn [fst snd].
    rewrite scan_lit_app, (scan_hu_complete b _ _ B) by reflexivity. cbn [fst snd].
    rewrite scan_lit_app, (scan_hu_complete d _ _ D) by reflexivity. cbn [fst snd].
    rewrite scan_lit_app. rewrite <- (sapp_nil e), (scan_hu_complete e _ "" X) by reflexivity. cbn [fst snd].
    now destruct cfg.
Qed.
End F.

(** ** printing numbers *)
Lemma digit_ok : forall d, (d < 10)%N -> is_digit (digit d) = true /\ digit_val (digit d) = Z.of_N d.
Proof.
  intros d H. unfold is_digit, digit_val, digit. rewrite N_ascii_embedding by lia. lia.
Qed.
Lemma digits_fuel_spec : forall f n acc, (n < 10 ^ N.of_nat (S f))%N ->
  exists ds, digits_fuel f n acc = ds ++ acc /\ all_chars is_digit ds /\ ds <> "" /\ dec_value ds = Z.of_N n.
Proof.
  induction f as [|f IH]; intros n acc H; cbn [digits_fuel].
  - exists (String (digit (n mod 10)) ""). change (10 ^ N.of_nat 1)%N with 10%N in H.
    rewrite N.mod_small by easy. destruct (digit_ok n H) as (A & B).
    repeat split; try easy. cbn [dec_value String.length]. rewrite B. change (10 ^ Z.of_nat 0) with 1. lia.
  - assert (n mod 10 < 10)%N as Hm by (apply N.mod_lt; lia). destruct (digit_ok _ Hm) as (A & B).
    destruct (n <? 10)%N eqn:L.
    + exists (String (digit (n mod 10)) ""). rewrite N.mod_small in * by lia.
      repeat split; try easy. cbn [dec_value String.length]. rewrite B. change (10 ^ Z.of_nat 0) with 1. lia.
    + destruct (IH (n / 10)%N (String (digit (n mod 10)) acc)) as (ds & E & D & N0 & V).
      { apply N.div_lt_upper_bound; [lia|]. rewrite Nat2N.inj_succ, N.pow_succ_r' in H. exact H. }
      exists (ds ++ String (digit (n mod 10)) ""). rewrite sapp_assoc. cbn [append].
      repeat split; try easy.
      * apply all_app. now cbn.
      * destruct ds; easy.
      * rewrite dec_value_app. cbn [dec_value String.length]. rewrite B, V.
        change (10 ^ Z.of_nat 1) with 10. change (10 ^ Z.of_nat 0) with 1.
        pose proof (N.div_mod' n 10). lia.
Qed.
Lemma size_bound : forall n, (n < 10 ^ N.of_nat (S (N.size_nat n)))%N.
Proof.
  intros n. apply N.lt_le_trans with (2 ^ N.size n)%N; [apply N.size_gt|].
  assert (N.of_nat (N.size_nat n) = N.size n) as E.
  { destruct n as [|p]; [reflexivity|]. cbn. induction p; cbn [Pos.size_nat Pos.size]; lia. }
  rewrite Nat2N.inj_succ, E. apply N.le_trans with (10 ^ N.size n)%N.
  - apply N.pow_le_mono_l. lia.
  - apply N.pow_le_mono_r; lia.
Qed.
Lemma fmt_u_spec : forall n, 0 <= n ->
  all_chars is_digit (fmt_u n) /\ fmt_u n <> "" /\ dec_value (fmt_u n) = n.
Proof.
  intros n H. unfold fmt_u. destruct (digits_fuel_spec _ _ "" (size_bound (Z.to_N n))) as (ds & E & A & B & C).
  rewrite E, sapp_nil. rewrite C, Z2N.id by easy. tauto.
Qed.
Lemma fmt_u_u16 : forall n, u16 n -> u16_text (fmt_u n) n.
Proof.
  intros n H. unfold u16 in H. destruct (fmt_u_spec n) as (A & B & C); [lia|].
  exists "", "", false, (fmt_u n). cbn [append]. rewrite C. repeat (split; [try easy; now left|]).
  destruct (_ <? _) eqn:L; [lia|]. now rewrite Z.mod_small.
Qed.

(** nearest integer *)
Lemma rne_close : forall q k, (Qabs (q - inject_Z k) < 1 # 2)%Q -> rne q = k.
Proof.
  intros [n d] k H. apply Qabs_Qlt_condition in H. unfold rne. cbn [Qnum Qden].
  assert (2 * (n - k * Zpos d) < Zpos d /\ - Zpos d < 2 * (n - k * Zpos d)) as (H1 & H2).
  { destruct H as (A & B). unfold Qlt, Qminus, Qplus, Qopp, inject_Z in *. cbn [Qnum Qden] in *.
    rewrite Pos.mul_1_r in *. nia. }
  pose proof (Z.div_mod n (Zpos d)). pose proof (Z.mod_pos_bound n (Zpos d)).
  set (fl := n / Zpos d) in *. set (r := n mod Zpos d) in *.
  assert (Zpos d * (2 * (fl - k)) + 2 * r < Zpos d) as K1 by nia.
  assert (- Zpos d < Zpos d * (2 * (fl - k)) + 2 * r) as K2 by nia.
  assert (0 < Zpos d) as K0 by lia. generalize dependent (Zpos d). intros D; intros.
  destruct (Z.compare_spec (2 * r) D).
  - exfalso. assert (2 * (fl - k) + 1 < 1) by nia. assert (-1 < 2 * (fl - k) + 1) by nia. lia.
  - assert (fl - k < 1) by nia. assert (-1 < fl - k) by nia. lia.
  - assert (fl - k < 0) by nia. assert (-2 < fl - k) by nia. lia.
Qed.

Lemma fmt_2f_text : forall rnd k, (Qabs (rnd (k # 100) - (k # 100)) < 1 # 200)%Q ->
  lf_text rnd (fmt_2f (rnd (k # 100))) (rnd (k # 100)).
Proof.
  intros rnd k H. set (x := rnd (k # 100)) in *.
  assert (rne (Qabs x * (100 # 1))%Q = Z.abs k) as E.
  { apply rne_close. 
    assert (Qabs (Qabs x - Qabs (k # 100)) < 1 # 200)%Q as H'.
    { eapply Qle_lt_trans; [|exact H].
      apply Qabs_case; intros _.
      - apply Qabs_triangle_reverse.
      - setoid_replace (- (Qabs x - Qabs (k#100)))%Q with (Qabs (k#100) - Qabs x)%Q by ring.
        setoid_replace (Qabs (x - (k#100)))%Q with (Qabs ((k#100) - x))%Q.
        + apply Qabs_triangle_reverse.
        + rewrite <- Qabs_opp. apply Qabs_wd. ring. }
    setoid_replace (Qabs x * (100#1) - inject_Z (Z.abs k))%Q with ((Qabs x - Qabs (k#100)) * (100#1))%Q.
    - rewrite Qabs_Qmult. setoid_replace (1 # 2)%Q with ((1#200) * Qabs (100#1))%Q by reflexivity.
      apply Qmult_lt_compat_r; [reflexivity|exact H'].
    - cbn [Qabs]. unfold Qeq, Qminus, Qplus, Qopp, Qmult, inject_Z. cbn [Qnum Qden].
      destruct (Qabs x) as [n d]; cbn [Qnum Qden]. rewrite ?Pos2Z.inj_mul. ring. }
  unfold fmt_2f. rewrite E.
  set (h := Z.abs k).
  assert (0 <= h) as Hh by (unfold h; lia).
  destruct (fmt_u_spec (h / 100)) as (A & B & C); [apply Z.div_pos; lia|].
  pose proof (Z.mod_pos_bound h 100). pose proof (Z.mod_pos_bound h 10).
  assert (0 <= h mod 100 / 10 < 10) as D1 by (split; [apply Z.div_pos; lia|apply Z.div_lt_upper_bound; lia]).
  destruct (digit_ok (Z.to_N (h mod 100 / 10))) as (F1 & F2); [lia|].
  destruct (digit_ok (Z.to_N (h mod 10))) as (G1 & G2); [lia|].
  set (d1 := digit (Z.to_N (h mod 100 / 10))) in *. set (d0 := digit (Z.to_N (h mod 10))) in *.
  set (fr := String d1 (String d0 "")).
  exists "", (if Qnum x <? 0 then "-" else ""), (Qnum x <? 0), (fmt_u (h / 100)), (String "." fr), fr.
  split; [easy|]. split; [destruct (Qnum x <? 0); unfold sign_text; tauto|]. split; [easy|].
  split; [now right|]. split; [now cbn|]. split; [destruct (fmt_u (h/100)); easy|].
  cbn zeta. left. split; [reflexivity|].
  assert (dec_value (fmt_u (h / 100) ++ fr) = h) as V.
  { rewrite dec_value_app, C. unfold fr. cbn [String.length dec_value]. rewrite F2, G2.
    change (10 ^ Z.of_nat 2) with 100. change (10 ^ Z.of_nat 1) with 10. change (10 ^ Z.of_nat 0) with 1.
    pose proof (Z.div_mod h 100). pose proof (Z.div_mod (h mod 100) 10).
    assert (h mod 10 = (h mod 100) mod 10). { rewrite (Z.div_mod h 100) at 1 by lia. 
      replace (100 * (h / 100) + h mod 100) with (h mod 100 + (10 * (h/100)) * 10) by ring. now rewrite Z_mod_plus_full. }
    lia. }
  rewrite V. change (p10 (String.length fr)) with 100%positive.
  unfold x. f_equal. f_equal. subst h.
  apply Qabs_Qlt_condition in H. destruct H as (L1 & L2).
  unfold Qlt, Qminus, Qplus, Qopp in L1, L2. cbn [Qnum Qden] in L1, L2. rewrite ?Pos2Z.inj_mul in L1, L2.
  fold x. destruct (Z.ltb_spec (Qnum x) 0); nia.
Qed.

(** ** classification *)
Section G.
Variable rnd : Q -> Q.
Ltac eval_name := cbv -[scan_cahvore scan_splined option_map append u16_text lf_text]; try reflexivity.

Lemma fn_noconfig : forall t m, noconfig_model t = Some m -> from_name rnd (Some (base_name t)) = Accept m.
Proof. intros [] m H; try discriminate H; injection H as <-; reflexivity. Qed.
Lemma fn_lacks : forall s, lacks_config s -> from_name rnd (Some s) = Missing_config.
Proof. intros s ([] & H & ->); try discriminate H; reflexivity. Qed.
Definition scan_of (t : ltype) (c : string) : option lensmodel :=
  match t with
  | T_CAHVORE => option_map CAHVORE (scan_cahvore rnd c)
  | T_SPLINED => option_map SPLINED (scan_splined c)
  | _ => None
  end.
Lemma fn_config : forall t c, needs_config t ->
  from_name rnd (Some (base_name t ++ String "_" c)) =
  match scan_of t (String "_" c) with Some m => Accept m | None => Bad_config end.
Proof. intros [] c H; try discriminate H; reflexivity. Qed.
Lemma scan_of_iff : forall t c m, scan_of t c = Some m <-> config_text rnd t c m.
Proof.
  intros t c m. destruct t; cbn [scan_of config_text]; try (split; [discriminate|easy]).
  - split.
    + destruct (scan_cahvore rnd c) as [q|] eqn:E; [|discriminate]. intros [= <-].
      apply scan_cahvore_iff in E. destruct E as (l & -> & H). eauto.
    + intros (l & q & -> & H & ->). assert (scan_cahvore rnd ("_linearity=" ++ l) = Some q) as -> by (apply scan_cahvore_iff; eauto). reflexivity.
  - split.
    + destruct (scan_splined c) as [q|] eqn:E; [|discriminate]. intros [= <-].
      apply scan_splined_iff in E. destruct E as (a & b & d & e & -> & H). exists a, b, d, e, q. tauto.
    + intros (a & b & d & e & q & -> & H1 & H2 & H3 & H4 & ->).
      assert (scan_splined ("_order=" ++ a ++ "_Nx=" ++ b ++ "_Ny=" ++ d ++ "_fov_x_deg=" ++ e) = Some q) as ->; [|reflexivity].
      apply scan_splined_iff. exists a, b, d, e. tauto.
Qed.
Lemma config_text_starts : forall t c m, config_text rnd t c m -> needs_config t /\ exists c', c = String "_" c'.
Proof.
  intros [] c m H; try easy; cbn [config_text] in H.
  - destruct H as (l & q & -> & _). split; [easy|]. eexists. reflexivity.
  - destruct H as (a & b & d & e & q & -> & _). split; [easy|]. eexists. reflexivity.
Qed.
Lemma fn_denotes : forall s m, denotes rnd s m -> from_name rnd (Some s) = Accept m.
Proof.
  intros s m (t & [(-> & H) | (c & -> & H)]); [now apply fn_noconfig|].
  destruct (config_text_starts _ _ _ H) as (Hn & c' & ->). rewrite fn_config by easy.
  apply scan_of_iff in H. now rewrite H.
Qed.
Lemma eqb_name : forall s t, String.eqb s (base_name t) = true -> s = base_name t.
Proof. intros. now apply String.eqb_eq. Qed.

(** where the code falls through *)
Lemma fn_cases : forall s,
  (exists t m, s = base_name t /\ noconfig_model t = Some m) \/ lacks_config s \/
  (exists t c, needs_config t /\ s = base_name t ++ String "_" c) \/ from_name rnd (Some s) = Invalid_type.
Proof.
  intro s. unfold from_name, check_noconfig, type_of.
  repeat match goal with |- context [String.eqb s (base_name ?t)] =>
    destruct (String.eqb s (base_name t)) eqn:?; [left; exists t; apply eqb_name in Heqb as ->; eauto; eexists; split; reflexivity|clear Heqb] end.
  unfold check_withconfig.
  destruct (scan_lit (base_name T_CAHVORE) s) as [[|c r]|] eqn:E1.
  - right; left. exists T_CAHVORE. apply scan_lit_sound in E1. rewrite sapp_nil in E1. now subst.
  - destruct (Ascii.eqb_spec c "_") as [->|N].
    + right; right; left. exists T_CAHVORE, r. apply scan_lit_sound in E1. now subst.
    + apply scan_lit_sound in E1. subst s. cbn. now right; right; right.
  - clear E1. destruct (scan_lit (base_name T_SPLINED) s) as [[|c r]|] eqn:E1.
    + right; left. exists T_SPLINED. apply scan_lit_sound in E1. rewrite sapp_nil in E1. now subst.
    + destruct (Ascii.eqb_spec c "_") as [->|N].
      * right; right; left. exists T_SPLINED, r. apply scan_lit_sound in E1. now subst.
      * now right; right; right.
    + now right; right; right.
Qed.

Lemma classification : forall s r, from_name rnd (Some s) = r <-> classified rnd s r.
Proof.
  assert (forall s, has_config_part s -> from_name rnd (Some s) <> Invalid_type) as HC.
  { intros s (t & c & H & ->). rewrite fn_config by easy. destruct (scan_of _ _); discriminate. }
  assert (forall s, classified rnd s (from_name rnd (Some s))) as A.
  { intro s. destruct (fn_cases s) as [(t & m & -> & H) | [H | [(t & c & H & ->) | H]]].
    - rewrite (fn_noconfig _ _ H). exists t. now left.
    - rewrite (fn_lacks _ H). exact H.
    - rewrite (fn_config _ _ H). destruct (scan_of t (String "_" c)) eqn:E.
      + exists t. right. eexists. split; [reflexivity|]. now apply scan_of_iff.
      + split; [exists t, c; tauto|]. intros m D. apply fn_denotes in D.
        rewrite (fn_config _ _ H), E in D. discriminate.
    - rewrite H. repeat split.
      + intro C. now apply HC in C.
      + intro C. apply fn_lacks in C. congruence.
      + intros m C. apply fn_denotes in C. congruence. }
  intros s r. split; [intros <-; apply A|].
  intro H. specialize (A s). destruct r; cbn [classified] in H.
  - now apply fn_denotes.
  - destruct H as (H1 & H2 & H3). destruct (from_name rnd (Some s)); cbn [classified] in A; try easy; exfalso; [now apply (H3 m)|try now destruct A..].
  - now apply fn_lacks.
  - destruct H as (H1 & H3). destruct (from_name rnd (Some s)) eqn:E; cbn [classified] in A; try easy.
    + now apply H3 in A.
    + destruct H1 as (t & c & Hn & ->). rewrite fn_config in E by easy. destruct (scan_of _ _); discriminate.
Qed.

Lemma tfn_config : forall t c, needs_config t -> type_from_name (Some (base_name t ++ String "_" c)) = Some t.
Proof. intros [] c H; try discriminate H; reflexivity. Qed.
Lemma tfn_base : forall t, type_from_name (Some (base_name t)) = Some t.
Proof. now intros []. Qed.
Lemma tfn_cases : forall s, 
  (exists t, s = base_name t) \/ (exists t c, needs_config t /\ s = base_name t ++ String "_" c) \/ type_from_name (Some s) = None.
Proof.
  intro s. unfold type_from_name, tcheck_noconfig.
  repeat match goal with |- context [String.eqb s (base_name ?t)] =>
    destruct (String.eqb s (base_name t)) eqn:?; [left; exists t; apply eqb_name in Heqb as ->; reflexivity|clear Heqb] end.
  unfold tcheck_withconfig.
  destruct (scan_lit (base_name T_CAHVORE) s) as [[|c r]|] eqn:E1.
  - left. exists T_CAHVORE. apply scan_lit_sound in E1. rewrite sapp_nil in E1. now subst.
  - destruct (Ascii.eqb_spec c "_") as [->|N].
    + right; left. exists T_CAHVORE, r. apply scan_lit_sound in E1. now subst.
    + apply scan_lit_sound in E1. subst s. cbn. now right; right.
  - clear E1. destruct (scan_lit (base_name T_SPLINED) s) as [[|c r]|] eqn:E1.
    + left. exists T_SPLINED. apply scan_lit_sound in E1. rewrite sapp_nil in E1. now subst.
    + destruct (Ascii.eqb_spec c "_") as [->|N].
      * right; left. exists T_SPLINED, r. apply scan_lit_sound in E1. now subst.
      * now right; right.
    + now right; right.
Qed.
Lemma type_classification : forall s t, type_from_name (Some s) = Some t <->
  s = base_name t \/ (needs_config t /\ exists c, s = base_name t ++ String "_" c).
Proof.
  intros s t. split.
  - intro H. destruct (tfn_cases s) as [(u & ->) | [(u & c & Hn & ->) | E]]; [| |congruence].
    + rewrite tfn_base in H. injection H as ->. now left.
    + rewrite tfn_config in H by easy. injection H as ->. right. eauto.
  - intros [-> | (Hn & c & ->)]; [apply tfn_base|now apply tfn_config].
Qed.

Lemma noconfig_type : forall t m, noconfig_model t = Some m -> type_of m = t.
Proof. intros [] m H; try discriminate H; now injection H as <-. Qed.
Lemma config_type : forall t c m, config_text rnd t c m -> type_of m = t.
Proof.
  intros [] c m H; try easy; cbn [config_text] in H.
  - now destruct H as (l & q & _ & _ & ->).
  - now destruct H as (a & b & d & e & q & _ & _ & _ & _ & _ & ->).
Qed.
Lemma type_agrees : forall s m, from_name rnd (Some s) = Accept m -> type_from_name (Some s) = Some (type_of m).
Proof.
  intros s m H. apply classification in H. destruct H as (t & [(-> & H) | (c & -> & H)]).
  - rewrite (noconfig_type _ _ H). apply tfn_base.
  - rewrite (config_type _ _ _ H). apply config_text_starts in H. destruct H as (Hn & c' & ->). now apply tfn_config.
Qed.
Lemma type_none_iff : forall s, type_from_name (Some s) = None <-> from_name rnd (Some s) = Invalid_type.
Proof.
  intros s. split; intro H.
  - destruct (fn_cases s) as [(t & m & -> & X) | [(t & X & ->) | [(t & c & X & ->) | X]]]; [| | |exact X].
    + now rewrite tfn_base in H.
    + now rewrite tfn_base in H.
    + now rewrite tfn_config in H.
  - destruct (tfn_cases s) as [(t & ->) | [(t & c & X & ->) | X]]; [| |exact X].
    + now destruct t.
    + rewrite fn_config in H by easy. destruct (scan_of _ _); discriminate.
Qed.

Lemma name_denotes : forall m, lens_ok m ->
  match m with CAHVORE l => lf_text rnd (fmt_2f l) l | _ => True end -> denotes rnd (name_text m) m.
Proof.
  intros m Hm Hc. exists (type_of m). unfold name_text.
  destruct m; try (left; split; reflexivity); right; (eexists; split; [reflexivity|]); cbn [type_of config_text config_str].
  - exists (fmt_2f linearity), linearity. easy.
  - destruct Hm as (A & B & C & D). exists (fmt_u (sp_order c)), (fmt_u (sp_Nx c)), (fmt_u (sp_Ny c)), (fmt_u (sp_fov c)), c.
    repeat split; now apply fmt_u_u16.
Qed.
End G.

(** ** bounded printing *)
Lemma sget_lt : forall (s : string) i, (i < String.length s)%nat <-> exists c, String.get i s = Some c.
Proof.
  induction s as [|a s IH]; intros [|i]; cbn [String.length String.get]; split; intro H; try lia; try (now destruct H).
  - eauto.
  - apply IH. lia.
  - apply IH in H. lia.
Qed.
Lemma snprintf_spec : forall out size text len out', 0 <= size -> snprintf out size text = (len, out') ->
  len = Z.of_nat (String.length text) /\
  (forall i, i < 0 \/ size <= i -> out' i = out i) /\
  (len < size -> holds out' text /\ out' len = "000"%char) /\
  (0 < size -> forall i c, Z.of_nat i < size - 1 -> String.get i text = Some c -> out' (Z.of_nat i) = c) /\
  (0 < size -> out' (Z.min len (size - 1)) = "000"%char).
Proof.
  intros out size text len out' Hs E. unfold snprintf in E.
  set (n := Z.min (Z.of_nat (String.length text)) (size - 1)) in E.
  assert (len = Z.of_nat (String.length text)) as EL by congruence.
  assert (forall i, out' i = if (0 <=? i) && (i <? n) && (0 <? size) then
                   match String.get (Z.to_nat i) text with Some c => c | None => out i end
                 else if (i =? n) && (0 <? size) then "000"%char else out i) as EO.
  { intro i. assert (out' = snd (len, out')) as -> by reflexivity. rewrite <- E. reflexivity. }
  clear E. split; [exact EL|]. 
  assert (0 < size -> forall i c, Z.of_nat i < size - 1 -> String.get i text = Some c -> out' (Z.of_nat i) = c) as W.
  { intros Hp i c Hi G. assert (i < String.length text)%nat by (apply sget_lt; eauto).
    rewrite EO. replace (_ && _ && _) with true by lia. now rewrite Nat2Z.id, G. }
  assert (0 < size -> out' (Z.min len (size - 1)) = "000"%char) as T.
  { intros Hp. rewrite EO. fold n. subst len. fold n. rewrite Z.ltb_irrefl, andb_false_r, Z.eqb_refl.
    now replace (0 <? size) with true by lia. }
  split; [|split; [|split; [exact W|exact T]]].
  - intros i Hi. rewrite EO. replace (_ && _ && _) with false by lia. now replace ((i =? n) && _) with false by lia.
  - intro L. split.
    + intros i c G. assert (i < String.length text)%nat by (apply sget_lt; eauto). apply W; [lia|lia|easy].
    + rewrite <- T by lia. f_equal. lia.
Qed.
