(** Properties C42 and C43: reading .cameramodel files. *)
From Coq Require Import ZArith NArith List Bool QArith Qabs String Ascii Lia.
From Coq Require Import ZifyBool ZifyNat.
From Verif Require Import M_Lens M_Names S_Names P_Names C_Names M_CamFile S_CamFile P_CamFile P_CamComplete P_CamWrite.
Import ListNotations.
Open Scope string_scope.
Open Scope Z_scope.

(** ** C43: what is accepted.  For every byte string and every rounding of the
    numbers: if the reader returns a model, then the text is a sequence of
    entries in the grammar of S_CamFile, and these describe that model: one lens
    model with a valid name, one list of intrinsics, after it, of the length
    this lens model needs, six extrinsics, repeated consistently, and the imager
    size.  [ignx is_junk]: before a list that is not used the reader also skips
    numbers and commas. *)
Theorem C43_accepted_describes : forall rnd into text m,
  read_cameramodel rnd into text = Read_ok m ->
  exists es, file_text rnd (ignx is_junk) es (cstr text) /\ describes rnd es m.
Proof.
  intros rnd into text m H. destruct (read_sound rnd into text m H) as (es & st & F & Rn & Fi).
  exists es. split; [exact F|]. eapply run_describes; eassumption.
Qed.
Print Assumptions C43_accepted_describes.

(** in particular: the model that is returned is complete *)
Theorem C43_accepted_complete : forall rnd into text m,
  read_cameramodel rnd into text = Read_ok m ->
  Z.of_nat (List.length (m_intrinsics m)) = num_params (m_lens m) /\ List.length (m_rt_cam_ref m) = 6%nat /\
  0 < fst (m_size m) /\ 0 <= snd (m_size m) /\
  Forall (fun q => (Qabs q <= DBL_MAX)%Q) (m_intrinsics m ++ m_rt_cam_ref m).
Proof.
  intros rnd into text m H. destruct (C43_accepted_describes rnd into text m H) as (es & F & (name & _) & (Di & D2) & _ & (pre & post & D4 & D5 & _) & (p6 & _ & _ & D6 & D7)).
  split; [exact D2|]. split; [exact D5|]. split; [exact D6|]. split; [exact D7|].
  assert (G : forall k l, In (k, V_doubles l) es -> Forall (fun q => (Qabs q <= DBL_MAX)%Q) l).
  { destruct F as (i & j & b & k0 & _ & _ & B & _). clear -B. intros k l.
    assert (El : forall s l, elements (double_text rnd) s l -> Forall (fun q => (Qabs q <= DBL_MAX)%Q) l).
    { induction 1 as [? ? ? x ? ? (_ & _ & T)|? ? ? x s l0 ? (_ & _ & T)]; constructor; try assumption; constructor. }
    assert (Et : forall t, entry_text rnd (ignx is_junk) (k, V_doubles l) t -> Forall (fun q => (Qabs q <= DBL_MAX)%Q) l).
    { intros t (? & ? & ? & v & _ & _ & _ & V & _). cbn in V. inversion V as [|? ? (? & ? & ? & ? & ? & _ & _ & E & _)|? ? ? _ (? & ? & ? & ? & ? & _ & _ & E & _)| |]; subst; eapply El; exact E. }
    induction B as [e t i0 comma E I C|e t i0 es s E I B IH]; intros [->|H]; eauto. destruct H. }
  apply Forall_app. split.
  - assert (In (V_doubles (m_intrinsics m)) (of_key ["intrinsics"] es)) as Q by (rewrite Di; now left). apply in_of_key in Q. eapply G; exact Q.
  - assert (In (V_doubles (m_rt_cam_ref m)) (of_key ["extrinsics"; "rt_cam_ref"] es)) as Q by (rewrite D4; apply in_or_app; right; now left).
    unfold of_key in Q. apply in_map_iff in Q as ((k & v) & Ev & Q). cbn in Ev. subst v. apply filter_In in Q as [Q _]. eapply G; exact Q.
Qed.
Print Assumptions C43_accepted_complete.

(** Nothing else happens: every run ends with a model, an error, or the request for a larger buffer *)
Theorem C43_always_answers : forall rnd into text,
  (exists m, read_cameramodel rnd into text = Read_ok m) \/ read_cameramodel rnd into text = Read_error \/
  (exists max N, into = Some max /\ max < N /\ read_cameramodel rnd into text = Read_need N).
Proof.
  intros rnd into text.
  assert (Nd : forall fuel st s N, entries rnd fuel into st s = Read_need N -> exists max, into = Some max /\ max < N).
  { induction fuel as [|fuel IH]; intros st s N H; [discriminate|]. cbn [entries] in H. destruct (read_string s) as [[key s1]|]; [|discriminate].
    destruct (expect _ s1) as [s2|]; [|discriminate]. destruct (read_entry rnd into key st s2) as [st1 s3| |N'] eqn:En; try discriminate.
    - assert (Fi : forall x, match skip x with EmptyString => finalize st1 | _ => Read_error end = Read_need N -> False).
      { intros x Q. destruct (skip x); [|discriminate]. unfold finalize in Q. destruct (st_lens st1), (st_intrinsics st1); try discriminate. destruct (_ && _)%bool; discriminate. }
      destruct (skip s3) as [|c s4]; [discriminate|]. destruct (Ascii.eqb c "}"); [now apply Fi in H|]. destruct (Ascii.eqb c ","); [|discriminate].
      destruct (expect _ s4); [now apply Fi in H|]. eapply IH; exact H.
    - inversion H; subst N'. clear H. unfold read_entry in En.
      destruct (String.eqb key "lensmodel").
      { destruct (st_lens st); [discriminate|]. destruct (read_string s2) as [[n s3]|]; [|discriminate]. destruct (from_name rnd (Some n)); discriminate. }
      destruct (String.eqb key "intrinsics").
      { destruct (st_intrinsics st); [discriminate|]. destruct (st_lens st) as [m|]; [|discriminate]. destruct into as [max|].
        - destruct (Z.ltb_spec max (num_params m)); [inversion En; subst; eauto|]. destruct (read_list _ _ _) as [[? ?]|]; discriminate.
        - destruct (read_list _ _ _) as [[? ?]|]; discriminate. }
      destruct (String.eqb key "extrinsics" || String.eqb key "rt_cam_ref")%bool.
      { destruct (read_list _ _ _) as [[? ?]|]; [|discriminate]. destruct (unset _); [discriminate|]. destruct (close_lists _ _); discriminate. }
      destruct (String.eqb key "imagersize").
      { destruct (_ >? _); [discriminate|]. destruct (read_list _ _ _) as [[[|? [|? ?]] ?]|]; discriminate. }
      destruct (read_unknown s2); discriminate. }
  pose proof (read_fuel rnd into text) as NF. destruct (read_cameramodel rnd into text) as [m| |N|] eqn:E; [left; eauto|tauto| |now elim NF].
  right; right. unfold read_cameramodel in E. destruct (expect _ (cstr text)); [|discriminate]. destruct (Nd _ _ _ _ E) as (max & -> & L). exists max, N. tauto.
Qed.
Print Assumptions C43_always_answers.
(** the fuel of the skipping of nested lists is not what makes it fail *)
Theorem C43_lists_of_any_depth : forall fuel s, (String.length s <= fuel)%nat -> balanced fuel 0 s = read_balanced_list s.
Proof. intros fuel s H. unfold read_balanced_list. apply balanced_fuel; [lia|exact H]. Qed.
Print Assumptions C43_lists_of_any_depth.

(** ** C42: what is accepted at least.  Every text in the grammar whose entries
    describe a model is read as this model, wherever the whitespace and comments,
    in whatever order the keys, and whatever keys are not used.  Into a buffer
    that is too small nothing is read: the needed size is reported. *)
Theorem C42_descriptions_accepted : forall rnd into text es m,
  file_text rnd (eq "") es (cstr text) -> describes rnd es m ->
  read_cameramodel rnd into text =
  match into with
  | Some max => if max <? num_params (m_lens m) then Read_need (num_params (m_lens m)) else Read_ok m
  | None => Read_ok m
  end.
Proof. exact read_complete. Qed.
Print Assumptions C42_descriptions_accepted.
(** ... so a text describes one model only *)
Theorem C42_unambiguous : forall rnd text es m es' m',
  file_text rnd (eq "") es (cstr text) -> describes rnd es m -> file_text rnd (eq "") es' (cstr text) -> describes rnd es' m' -> m = m'.
Proof.
  intros rnd text es m es' m' F D F' D'. pose proof (read_complete rnd None text es m F D) as A. pose proof (read_complete rnd None text es' m' F' D') as B. cbn in A, B. congruence.
Qed.
Print Assumptions C42_unambiguous.

(** *** The Python writer *)
Section Python.
Variable rnd : Q -> Q.
Variable fmt : Q -> string.      (* "{:.10g}".format *)
Variable back : Q -> Q.          (* the value of its text *)
Variable into : option Z.
Variable note : list string.
Variable m : pymodel.
Variable lens : lensmodel.
Hypothesis name_ok : denotes rnd (py_lens m) lens.
Hypothesis Nintrinsics : Z.of_nat (List.length (py_intrinsics m)) = num_params lens.
Hypothesis Nrt : List.length (py_rt m) = 6%nat.
Hypothesis fmt_ok : forall x, In x (py_intrinsics m ++ py_rt m) -> double_text rnd (fmt x) (back x).
Hypothesis rt_ok : match py_rt m with x :: _ => ~ (back x == DBL_MAX)%Q | [] => True end.
Hypothesis size_ok : 0 < fst (py_size m) < 2^31 /\ 0 <= snd (py_size m) < 2^31.
Hypothesis region_ok : forall reg, py_region m = Some reg -> Forall (fun p => coord_text (fmt (fst p)) /\ coord_text (fmt (snd p))) reg.
Hypothesis inputs_ok : forall b, py_optimization_inputs m = Some b -> all_chars no_nul b /\ exists x, quoted b x.
Hypothesis note_ok : Forall (fun l => all_chars (fun c => not_nl c && no_nul c) l) note.

Let four : num_params lens >= 4.
Proof. pose proof (num_params_pos rnd lens (denotes_ok rnd _ _ name_ok)). lia. Qed.
Lemma py_intr_list : list_text (double_text rnd) (" [" ++ nums fmt (py_intrinsics m) ++ "]") (map back (py_intrinsics m)).
Proof.
  exists " ", "["%char, (nums fmt (py_intrinsics m)), "", "]"%char. split; [now apply skipped|]. split; [reflexivity|]. split.
  - apply elements_nums; [intro E; rewrite E in Nintrinsics; cbn in Nintrinsics; lia|]. intros x H. apply fmt_ok. apply in_or_app. now left.
  - split; [constructor|]. split; reflexivity.
Qed.
Lemma py_rt_list : list_text (double_text rnd) (" [" ++ nums fmt (py_rt m) ++ "]") (map back (py_rt m)).
Proof.
  exists " ", "["%char, (nums fmt (py_rt m)), "", "]"%char. split; [now apply skipped|]. split; [reflexivity|]. split.
  - apply elements_nums; [intro E; rewrite E in Nrt; discriminate|]. intros x H. apply fmt_ok. apply in_or_app. now right.
  - split; [constructor|]. split; reflexivity.
Qed.
Lemma py_size_list : list_text uint_text (" [ " ++ fmt_d (fst (py_size m)) ++ ", " ++ fmt_d (snd (py_size m)) ++ ",]") [fst (py_size m); snd (py_size m)].
Proof.
  assert (D : forall n, 0 <= n < 2^31 -> uint_text (fmt_d n) n).
  { intros n H. unfold fmt_d. destruct (Z.ltb_spec n 0); [lia|]. rewrite Z.abs_eq by lia. cbn [append]. now apply fmt_u_uint. }
  exists " ", "["%char, (" " ++ fmt_d (fst (py_size m)) ++ "" ++ "," ++ (" " ++ fmt_d (snd (py_size m)) ++ "" ++ ",")), "", "]"%char.
  split; [now apply skipped|]. split; [reflexivity|]. split.
  - apply el_more; [now apply skipped|apply D; lia|constructor|]. apply el_last; [now apply skipped|apply D; lia|constructor|now right].
  - split; [constructor|]. split; [reflexivity|]. cbn [append]. rewrite !sapp_assoc. cbn [append]. rewrite !sapp_assoc. reflexivity.
Qed.
Definition region_lines (reg : list (Q * Q)) : string := concat_map (fun r => line ("    [ " ++ fmt (fst r) ++ ", " ++ fmt (snd r) ++ " ],")) reg.
Lemma region_nested : forall reg, Forall (fun p => coord_text (fmt (fst p)) /\ coord_text (fmt (snd p))) reg -> nested (region_lines reg).
Proof.
  assert (Ws : forall c s, is_ws c = true -> nested s -> nested (String c s)) by (intros; apply ne_char; auto).
  induction 1 as [|[x y] reg [X Y] _ IH]; [constructor|]. cbn [fst snd] in X, Y. apply coord_junk in X. apply coord_junk in Y.
  assert (region_lines ((x, y) :: reg) = String " " (String " " (String " " (String " " (String "[" ((" " ++ fmt x ++ ", " ++ fmt y ++ " ") ++ String "]" (String "," (String nl (region_lines reg))))))))) as ->.
  { unfold region_lines. cbn [concat_map fst snd]. unfold line. repeat (rewrite ?sapp_assoc; cbn [append]). reflexivity. }
  do 4 (apply Ws; [reflexivity|]).
  apply ne_list; [reflexivity| |reflexivity|].
  - cbn [append]. apply Ws; [reflexivity|]. apply nested_junk; [exact X|]. cbn [append]. apply ne_char; [now right|]. apply Ws; [reflexivity|]. apply nested_junk; [exact Y|].
    apply Ws; [reflexivity|constructor].
  - apply ne_char; [now right|]. apply Ws; [reflexivity|exact IH].
Qed.
(** the entries *)
Definition given {A} (o : option A) (e : entry) : list entry := match o with Some _ => [e] | None => [] end.
Definition py_entries : list entry :=
  [("lensmodel", V_name (py_lens m)); ("intrinsics", V_doubles (map back (py_intrinsics m)))] ++
  given (py_region m) ("valid_intrinsics_region", V_other) ++
  [("rt_cam_ref", V_doubles (map back (py_rt m))); ("extrinsics", V_doubles (map back (py_rt m))); ("imagersize", V_uints [fst (py_size m); snd (py_size m)])] ++
  given (py_icam_intrinsics m) ("icam_intrinsics", V_other) ++ given (py_icam_extrinsics m) ("icam_extrinsics", V_other) ++
  given (py_optimization_inputs m) ("optimization_inputs", V_other).
Notation rests := (rest_text rnd).
Lemma number_value : forall key i, key <> "lensmodel" -> key <> "intrinsics" -> ~ is_ext key -> key <> "imagersize" -> value_text rnd (eq "") key V_other (" " ++ fmt_d i).
Proof. intros key i K1 K2 K3 K4. apply vt_other; try assumption. exists " ", (fmt_d i). split; [now apply skipped|]. split; [reflexivity|]. left. apply fmt_d_float. Qed.
Lemma it_lens : forall es r, rests es r -> rests (("lensmodel", V_name (py_lens m)) :: es) (line ("    'lensmodel':  '" ++ py_lens m ++ "',") ++ r).
Proof.
  intros es r H. destruct (plain_quote _ (denotes_plain rnd _ _ name_ok)) as [Nq _].
  apply (rest_item rnd "    " "lensmodel" (V_name (py_lens m)) ("  '" ++ py_lens m ++ "'") (String nl "") es r); try (now apply skipped); try (cbn; repeat split; reflexivity); [|exact H|].
  - apply (vt_lens rnd (eq "") "  " (String "'" (py_lens m ++ "'")) (py_lens m)); [now apply skipped|]. exists "", "'"%char, "'"%char. repeat split; try (now left); try reflexivity. exact Nq.
  - unfold line. rewrite !sapp_assoc. reflexivity.
Qed.
Lemma it_intrinsics : forall es r, rests es r -> rests (("intrinsics", V_doubles (map back (py_intrinsics m))) :: es) (line ("    'intrinsics': [" ++ nums fmt (py_intrinsics m) ++ "],") ++ r).
Proof.
  intros es r H. apply (rest_item rnd "    " "intrinsics" (V_doubles (map back (py_intrinsics m))) (" [" ++ nums fmt (py_intrinsics m) ++ "]") (String nl "") es r);
    try (now apply skipped); try (cbn; repeat split; reflexivity); [|exact H|].
  - apply vt_intrinsics. exact py_intr_list.
  - unfold line. rewrite !sapp_assoc. reflexivity.
Qed.
Lemma it_region : forall es r, rests es r -> rests (given (py_region m) ("valid_intrinsics_region", V_other) ++ es)
  (opt_text (fun reg => line "    'valid_intrinsics_region': [" ++ region_lines reg ++ line "]," ++ line "") (py_region m) ++ r).
Proof.
  intros es r H. destruct (py_region m) as [reg|] eqn:E; [|exact H]. cbn [given opt_text app].
  apply (rest_item rnd "    " "valid_intrinsics_region" V_other (" [" ++ line "" ++ region_lines reg ++ "]") (line "" ++ line "") es r); try (now apply skipped); try (cbn; repeat split; reflexivity); [|exact H|].
  - apply vt_other; try discriminate; [intros [Q|Q]; discriminate Q|]. exists " ", ("[" ++ line "" ++ region_lines reg ++ "]"). split; [now apply skipped|]. split; [reflexivity|].
    right; right. exists "", "["%char, (line "" ++ region_lines reg), "]"%char. split; [reflexivity|]. split; [reflexivity|]. split; [|split; reflexivity].
    cbn. apply ne_char; [now left|]. apply region_nested. now apply region_ok.
  - unfold line. rewrite !sapp_assoc. reflexivity.
Qed.
Lemma it_rt : forall es r, rests es r -> rests (("rt_cam_ref", V_doubles (map back (py_rt m))) :: es) (line ("    'rt_cam_ref': [" ++ nums fmt (py_rt m) ++ "],") ++ r).
Proof.
  intros es r H. apply (rest_item rnd "    " "rt_cam_ref" (V_doubles (map back (py_rt m))) (" [" ++ nums fmt (py_rt m) ++ "]") (String nl "") es r);
    try (now apply skipped); try (cbn; repeat split; reflexivity); [|exact H|].
  - apply vt_ext; [now right|]. exact py_rt_list.
  - unfold line. rewrite !sapp_assoc. reflexivity.
Qed.
Lemma it_ext : forall es r, rests es r -> rests (("extrinsics", V_doubles (map back (py_rt m))) :: es) (line ("    'extrinsics': [" ++ nums fmt (py_rt m) ++ "], # for compatibility with mrcal < 2.5") ++ r).
Proof.
  intros es r H. apply (rest_item rnd "    " "extrinsics" (V_doubles (map back (py_rt m))) (" [" ++ nums fmt (py_rt m) ++ "]") (line " # for compatibility with mrcal < 2.5") es r);
    try (now apply skipped); try (cbn; repeat split; reflexivity); [|exact H|].
  - apply vt_ext; [now left|]. exact py_rt_list.
  - unfold line. rewrite !sapp_assoc. reflexivity.
Qed.
Lemma it_size : forall es r, rests es r -> rests (("imagersize", V_uints [fst (py_size m); snd (py_size m)]) :: es)
  (line ("    'imagersize': [ " ++ fmt_d (fst (py_size m)) ++ ", " ++ fmt_d (snd (py_size m)) ++ ",],") ++ r).
Proof.
  intros es r H. apply (rest_item rnd "    " "imagersize" (V_uints [fst (py_size m); snd (py_size m)]) (" [ " ++ fmt_d (fst (py_size m)) ++ ", " ++ fmt_d (snd (py_size m)) ++ ",]") (String nl "") es r);
    try (now apply skipped); try (cbn; repeat split; reflexivity); [|exact H|].
  - apply vt_size. exact py_size_list.
  - unfold line. rewrite !sapp_assoc. reflexivity.
Qed.
Lemma it_icam1 : forall es r, rests es r -> rests (given (py_icam_intrinsics m) ("icam_intrinsics", V_other) ++ es)
  (opt_text (fun i => line ("    'icam_intrinsics': " ++ fmt_d i ++ ",")) (py_icam_intrinsics m) ++ r).
Proof.
  intros es r H. destruct (py_icam_intrinsics m) as [i|]; [|exact H]. cbn [given opt_text app].
  apply (rest_item rnd "    " "icam_intrinsics" V_other (" " ++ fmt_d i) (String nl "") es r); try (now apply skipped); try (cbn; repeat split; reflexivity); [|exact H|].
  - apply number_value; try discriminate. intros [Q|Q]; discriminate Q.
  - unfold line. rewrite !sapp_assoc. reflexivity.
Qed.
Lemma it_icam2 : forall es r, rests es r -> rests (given (py_icam_extrinsics m) ("icam_extrinsics", V_other) ++ es)
  (opt_text (fun i => line ("    'icam_extrinsics': " ++ fmt_d i ++ ",")) (py_icam_extrinsics m) ++ r).
Proof.
  intros es r H. destruct (py_icam_extrinsics m) as [i|]; [|exact H]. cbn [given opt_text app].
  apply (rest_item rnd "    " "icam_extrinsics" V_other (" " ++ fmt_d i) (String nl "") es r); try (now apply skipped); try (cbn; repeat split; reflexivity); [|exact H|].
  - apply number_value; try discriminate. intros [Q|Q]; discriminate Q.
  - unfold line. rewrite !sapp_assoc. reflexivity.
Qed.
Lemma it_inputs : forall es r, rests es r -> rests (given (py_optimization_inputs m) ("optimization_inputs", V_other) ++ es)
  (opt_text (fun b => inputs_comment ++ line ("    'optimization_inputs': " ++ b ++ ",") ++ line "") (py_optimization_inputs m) ++ r).
Proof.
  intros es r H. destruct (py_optimization_inputs m) as [b|] eqn:E; [|exact H]. cbn [given opt_text app]. rewrite sapp_assoc. apply rest_ign; [now apply skipped|].
  apply (rest_item rnd "    " "optimization_inputs" V_other (" " ++ b) (line "" ++ line "") es r); try (now apply skipped); try (cbn; repeat split; reflexivity); [|exact H|].
  - apply vt_other; try discriminate; [intros [Q|Q]; discriminate Q|]. exists " ", b. split; [now apply skipped|]. split; [reflexivity|]. right; left. now apply inputs_ok.
  - unfold line. rewrite !sapp_assoc. reflexivity.
Qed.
Lemma py_rests : exists r, py_write fmt note m = concat_map (fun l => line ("# " ++ l)) note ++ "{" ++ r ++ line "" /\ rests py_entries r.
Proof.
  eexists. split.
  - unfold py_write. f_equal. change (line "{") with ("{" ++ line ""). change (line "}") with ("}" ++ line ""). rewrite (sapp_assoc "{" (line "")).
    apply (f_equal (append "{")). rewrite <- !sapp_assoc. f_equal.
  - rewrite !sapp_assoc. apply (rest_ign rnd (line "")); [now apply skipped|].
    apply it_lens. apply (rest_ign rnd (line "")); [now apply skipped|]. apply (rest_ign rnd (line "    # intrinsics are fx,fy,cx,cy,distortion0,distortion1,....")); [now apply skipped|].
    apply it_intrinsics. apply (rest_ign rnd (line "")); [now apply skipped|]. apply it_region. apply it_rt. apply it_ext. apply (rest_ign rnd (line "")); [now apply skipped|].
    apply it_size. apply (rest_ign rnd (line "")); [now apply skipped|]. apply it_icam1. apply it_icam2. apply (rest_ign rnd (line "")); [now apply skipped|].
    rewrite <- (app_nil_r (given (py_optimization_inputs m) _)). apply it_inputs. apply rest_end.
Qed.
Definition py_result : model := Model lens (map back (py_intrinsics m)) (map back (py_rt m)) (py_size m).
Lemma py_describes : describes rnd py_entries py_result.
Proof.
  assert (R1 : exists x r, map back (py_rt m) = x :: r /\ ~ (x == DBL_MAX)%Q).
  { destruct (py_rt m) as [|x r]; [discriminate Nrt|]. exists (back x), (map back r). split; [reflexivity|exact rt_ok]. }
  assert (W : within (1 # 1000000000) (map back (py_rt m)) (map back (py_rt m))).
  { split; [reflexivity|]. generalize (map back (py_rt m)) as l. induction l as [|x l IH]; constructor; [|exact IH]. unfold Qminus. rewrite Qplus_opp_r. discriminate. }
  unfold describes, py_result. cbn [m_lens m_intrinsics m_rt_cam_ref m_size].
  assert (Gv : forall A (o : option A) ks k, existsb (String.eqb k) ks = false -> of_key ks (given o (k, V_other)) = []).
  { intros A o ks k H. destruct o; [|reflexivity]. unfold of_key. cbn [given filter fst map]. now rewrite H. }
  split; [exists (py_lens m); split; [|exact name_ok]|split; [split; [|rewrite map_length; exact Nintrinsics]|split; [|split]]].
  1, 2: unfold py_entries; rewrite !of_key_app, !Gv by reflexivity; reflexivity.
  { intros es1 v es2 E. unfold py_entries in E. cbn [app] in E. destruct es1 as [|e es1]; [discriminate|]. exists (V_name (py_lens m)). left. now inversion E. }
  - exists [], [V_doubles (map back (py_rt m))]. split; [unfold py_entries; rewrite !of_key_app, !Gv by reflexivity; reflexivity|].
    split; [rewrite map_length; exact Nrt|]. split; [constructor|]. split; [exact R1|]. constructor; [|constructor]. eexists. split; [reflexivity|exact W].
  - exists []. split; [unfold py_entries; rewrite !of_key_app, !Gv by reflexivity; reflexivity|]. split; [constructor|]. lia.
Qed.
Lemma note_ignorable : ignorable (concat_map (fun l => line ("# " ++ l)) note).
Proof.
  assert (G : forall ns, Forall (fun l => all_chars (fun c => not_nl c && no_nul c) l) ns -> ignorable (concat_map (fun l => line ("# " ++ l)) ns)); [|now apply G].
  induction 1 as [|l n A _ IH]; [constructor|]. cbn [concat_map]. unfold line at 1. cbn [append]. rewrite sapp_assoc. cbn [append].
  apply (ig_comment (String " " l)); [|exact IH]. split; [reflexivity|]. eapply all_impl; [|exact A]. intros c H. apply andb_true_iff in H. tauto.
Qed.
Lemma concat_all : forall A P (f : A -> string) l, (forall x, In x l -> all_chars P (f x)) -> all_chars P (concat_map f l).
Proof. induction l as [|x l IH]; intro H; [exact I|]. cbn. rewrite all_app. split; [apply H; now left|apply IH; intros y Hy; apply H; now right]. Qed.
Lemma py_no_nul : all_chars no_nul (py_write fmt note m).
Proof.
  destruct (plain_quote _ (denotes_plain rnd _ _ name_ok)) as [_ Nn].
  assert (Nm : forall l, (forall x, In x l -> double_text rnd (fmt x) (back x)) -> all_chars no_nul (nums fmt l)).
  { intros l H. apply concat_all. intros x Hx. rewrite !all_app. repeat split; try reflexivity. apply float_no_nul. now apply H. }
  assert (Fd : forall i, all_chars no_nul (fmt_d i)) by (intro i; apply float_no_nul; apply fmt_d_float).
  assert (Lit : forall a b, all_chars no_nul a -> all_chars no_nul b -> all_chars no_nul (a ++ b)) by (intros; now apply all_app).
  assert (Ln : forall a, all_chars no_nul a -> all_chars no_nul (line a)) by (intros a H; apply Lit; [exact H|repeat split; reflexivity]).
  unfold py_write. repeat first [apply Fd|apply Ln|apply Lit]; try (repeat split; reflexivity); try assumption.
  - apply concat_all. intros l H. apply Ln. apply Lit; [repeat split; reflexivity|]. rewrite Forall_forall in note_ok. eapply all_impl; [|exact (note_ok l H)].
    intros c Q. apply andb_true_iff in Q. tauto.
  - apply Nm. intros x H. apply fmt_ok. apply in_or_app. now left.
  - destruct (py_region m) as [reg|] eqn:E; [|exact I]. cbn [opt_text]. repeat apply Lit; try (repeat split; reflexivity).
    apply concat_all. intros p H. pose proof (region_ok reg eq_refl) as Rg. rewrite Forall_forall in Rg. destruct (Rg p H) as [[X _] [Y _]].
    apply Ln. repeat apply Lit; try (repeat split; reflexivity); now apply float_no_nul.
  - apply Nm. intros x H. apply fmt_ok. apply in_or_app. now right.
  - apply Nm. intros x H. apply fmt_ok. apply in_or_app. now right.
  - destruct (py_icam_intrinsics m); [|exact I]. cbn [opt_text]. repeat first [apply Fd|apply Ln|apply Lit]; repeat split; reflexivity.
  - destruct (py_icam_extrinsics m); [|exact I]. cbn [opt_text]. repeat first [apply Fd|apply Ln|apply Lit]; repeat split; reflexivity.
  - destruct (py_optimization_inputs m) as [b|] eqn:E; [|exact I]. cbn [opt_text]. apply Lit; [repeat split; reflexivity|]. apply Lit; [|repeat split; reflexivity].
    apply Ln. repeat apply Lit; try (repeat split; reflexivity). now apply inputs_ok.
Qed.
Lemma py_file : file_text rnd (eq "") py_entries (cstr (py_write fmt note m)).
Proof.
  rewrite cstr_all by exact py_no_nul. destruct py_rests as (r & -> & H). apply rest_body in H as (j & b & J & B & ->); [|discriminate].
  exists (concat_map (fun l => line ("# " ++ l)) note), j, b, (line ""). rewrite sapp_assoc. repeat split; try assumption; [exact note_ignorable|now apply skipped].
Qed.
(** The reader accepts what the Python writer writes, for every lens model,
    number of parameters, note, and combination of the optional keys, and
    recovers the values of the texts of the numbers. *)
Theorem C42_python_writer :
  read_cameramodel rnd into (py_write fmt note m) =
  match into with
  | Some max => if max <? num_params lens then Read_need (num_params lens) else Read_ok py_result
  | None => Read_ok py_result
  end.
Proof. exact (C42_descriptions_accepted rnd into _ _ _ py_file py_describes). Qed.
End Python.
Print Assumptions C42_python_writer.

(** *** The C writer.  Its numbers have six decimals: the pose and the intrinsics
    come back rounded to 1e-6 *)
Section C_writer.
Variable rnd : Q -> Q.
Variable into : option Z.
Variable m : model.
Definition c_back (x : Q) : Q := rnd (six_decimals x).
Hypothesis name_ok : denotes rnd (name_text (m_lens m)) (m_lens m).
Hypothesis Nintrinsics : Z.of_nat (List.length (m_intrinsics m)) = num_params (m_lens m).
Hypothesis Nrt : List.length (m_rt_cam_ref m) = 6%nat.
Hypothesis finite : forall x, In x (m_intrinsics m ++ m_rt_cam_ref m) -> (Qabs (c_back x) <= DBL_MAX)%Q.
Hypothesis rt_ok : match m_rt_cam_ref m with x :: _ => ~ (c_back x == DBL_MAX)%Q | [] => True end.
Hypothesis size_ok : 0 < fst (m_size m) < 2^31 /\ 0 <= snd (m_size m) < 2^31.

Definition c_result : model := Model (m_lens m) (map c_back (m_intrinsics m)) (map c_back (m_rt_cam_ref m)) (m_size m).
Definition c_entries : list entry :=
  [("lensmodel", V_name (name_text (m_lens m))); ("intrinsics", V_doubles (map c_back (m_intrinsics m)));
   ("imagersize", V_uints [fst (m_size m); snd (m_size m)]); ("extrinsics", V_doubles (map c_back (m_rt_cam_ref m)))].
Lemma c_text : forall x, In x (m_intrinsics m ++ m_rt_cam_ref m) -> double_text rnd (fmt_f x) (c_back x).
Proof. intros x H. apply fmt_f_text. now apply finite. Qed.
Lemma c_describes : describes rnd c_entries c_result.
Proof.
  unfold describes, c_result, c_entries. cbn [m_lens m_intrinsics m_rt_cam_ref m_size].
  split; [exists (name_text (m_lens m)); split; [reflexivity|exact name_ok]|]. split; [split; [reflexivity|rewrite map_length; exact Nintrinsics]|].
  split; [intros [|e es1] v es2 E; [discriminate|]; exists (V_name (name_text (m_lens m))); left; now inversion E|]. split.
  - exists [], []. split; [reflexivity|]. split; [rewrite map_length; exact Nrt|]. split; [constructor|]. split; [|constructor].
    destruct (m_rt_cam_ref m) as [|x r]; [discriminate Nrt|]. exists (c_back x), (map c_back r). split; [reflexivity|exact rt_ok].
  - exists []. split; [reflexivity|]. split; [constructor|lia].
Qed.
Lemma c_body : exists b, c_write m = "{" ++ line "" ++ b ++ line "" /\ body_text rnd (eq "") c_entries b.
Proof.
  destruct (plain_quote _ (denotes_plain rnd _ _ name_ok)) as [Nq _].
  pose proof (num_params_pos rnd (m_lens m) (denotes_ok rnd _ _ name_ok)) as Four.
  destruct (elements_c rnd fmt_f c_back (m_intrinsics m)) as (s & El & Es).
  { intro E. rewrite E in Nintrinsics. cbn in Nintrinsics. lia. } { intros x H. apply c_text. apply in_or_app. now left. }
  assert (Sp : ignorable " ") by now apply skipped.
  assert (Rx : forall x, In x (m_rt_cam_ref m) -> double_text rnd (fmt_f x) (c_back x)) by (intros x H; apply c_text; apply in_or_app; now right).
  destruct (m_rt_cam_ref m) as [|r0 [|r1 [|r2 [|r3 [|r4 [|r5 [|]]]]]]] eqn:Rt; try discriminate Nrt.
  set (e1 := (("lensmodel", V_name (name_text (m_lens m))) : entry)). set (t1 := "  " ++ "'" ++ "lensmodel" ++ "':" ++ "  '" ++ name_text (m_lens m) ++ "'").
  set (e2 := (("intrinsics", V_doubles (map c_back (m_intrinsics m))) : entry)). set (t2 := (line "" ++ "  ") ++ "'" ++ "intrinsics" ++ "':" ++ " [" ++ s ++ " ]").
  set (e3 := (("imagersize", V_uints [fst (m_size m); snd (m_size m)]) : entry)).
  set (t3 := (line "" ++ "  ") ++ "'" ++ "imagersize" ++ "':" ++ " [ " ++ fmt_u (fst (m_size m)) ++ ", " ++ fmt_u (snd (m_size m)) ++ " ]").
  set (e4 := (("extrinsics", V_doubles (map c_back [r0; r1; r2; r3; r4; r5])) : entry)).
  set (xs := " " ++ fmt_f r0 ++ ", " ++ fmt_f r1 ++ ", " ++ fmt_f r2 ++ ", " ++ fmt_f r3 ++ ", " ++ fmt_f r4 ++ ", " ++ fmt_f r5).
  set (t4 := (line "" ++ "  ") ++ "'" ++ "extrinsics" ++ "':" ++ " [" ++ xs ++ " ]").
  assert (E1 : entry_text rnd (eq "") e1 t1).
  { apply simple_entry; [now apply skipped|cbn; repeat split; reflexivity|].
    apply (vt_lens rnd (eq "") "  " (String "'" (name_text (m_lens m) ++ "'")) (name_text (m_lens m))); [now apply skipped|]. exists "", "'"%char, "'"%char.
    split; [now left|]. split; [reflexivity|]. split; [reflexivity|]. split; [exact Nq|reflexivity]. }
  assert (E2 : entry_text rnd (eq "") e2 t2).
  { apply simple_entry; [now apply skipped|cbn; repeat split; reflexivity|]. apply vt_intrinsics. exists " ", "["%char, s, " ", "]"%char. repeat split; try assumption; reflexivity. }
  assert (E3 : entry_text rnd (eq "") e3 t3).
  { apply simple_entry; [now apply skipped|cbn; repeat split; reflexivity|]. apply vt_size.
    exists " ", "["%char, (" " ++ fmt_u (fst (m_size m)) ++ "" ++ "," ++ (" " ++ fmt_u (snd (m_size m)) ++ "" ++ "")), " ", "]"%char.
    split; [exact Sp|]. split; [reflexivity|]. split; [|split; [exact Sp|split; [reflexivity|]]].
    - apply el_more; [exact Sp|apply fmt_u_uint; lia|constructor|]. apply el_last; [exact Sp|apply fmt_u_uint; lia|constructor|now left].
    - cbn [append]. rewrite !sapp_nil. rewrite !sapp_assoc. reflexivity. }
  assert (E4 : entry_text rnd (eq "") e4 t4).
  { apply simple_entry; [now apply skipped|cbn; repeat split; reflexivity|]. apply vt_ext; [now left|]. exists " ", "["%char, xs, " ", "]"%char.
    split; [exact Sp|]. split; [reflexivity|]. split; [|split; [exact Sp|split; reflexivity]]. unfold xs. cbn [map].
    replace (" " ++ fmt_f r0 ++ ", " ++ fmt_f r1 ++ ", " ++ fmt_f r2 ++ ", " ++ fmt_f r3 ++ ", " ++ fmt_f r4 ++ ", " ++ fmt_f r5) with
      (" " ++ fmt_f r0 ++ "" ++ "," ++ (" " ++ fmt_f r1 ++ "" ++ "," ++ (" " ++ fmt_f r2 ++ "" ++ "," ++ (" " ++ fmt_f r3 ++ "" ++ "," ++ (" " ++ fmt_f r4 ++ "" ++ "," ++ (" " ++ fmt_f r5 ++ "" ++ ""))))))
      by (cbn [append]; rewrite sapp_nil; reflexivity).
    repeat (apply el_more; [exact Sp|apply Rx; cbn; tauto|constructor|]). apply el_last; [exact Sp|apply Rx; cbn; tauto|constructor|now left]. }
  exists (t1 ++ "" ++ "," ++ (t2 ++ "" ++ "," ++ (t3 ++ "" ++ "," ++ (t4 ++ line "" ++ "" ++ "}")))). split.
  - unfold c_write. rewrite Rt. unfold t1, t2, t3, t4, xs. 
    transitivity (line "{" ++ line ("  'lensmodel':  '" ++ name_text (m_lens m) ++ "',") ++ "  'intrinsics': [" ++ (s ++ " ") ++ line "]," ++
      line ("  'imagersize': [ " ++ fmt_u (fst (m_size m)) ++ ", " ++ fmt_u (snd (m_size m)) ++ " ],") ++
      line ("  'extrinsics': [ " ++ fmt_f r0 ++ ", " ++ fmt_f r1 ++ ", " ++ fmt_f r2 ++ ", " ++ fmt_f r3 ++ ", " ++ fmt_f r4 ++ ", " ++ fmt_f r5 ++ " ]") ++ line "}").
    + rewrite <- Es. rewrite !sapp_assoc. reflexivity.
    + unfold line. rewrite !sapp_assoc. reflexivity.
  - unfold c_entries. rewrite Rt. fold e1 e2 e3 e4. repeat (apply bt_more; [assumption|constructor|]). apply bt_last; [assumption|now apply skipped|now left].
Qed.
Lemma c_no_nul : all_chars no_nul (c_write m).
Proof.
  destruct (plain_quote _ (denotes_plain rnd _ _ name_ok)) as [_ Nn].
  assert (Lit : forall a b, all_chars no_nul a -> all_chars no_nul b -> all_chars no_nul (a ++ b)) by (intros; now apply all_app).
  assert (Ln : forall a, all_chars no_nul a -> all_chars no_nul (line a)) by (intros a H; apply Lit; [exact H|repeat split; reflexivity]).
  assert (Fu : forall n, 0 <= n -> all_chars no_nul (fmt_u n)) by (intros n H; eapply all_impl; [|apply fmt_u_spec; exact H]; dig).
  assert (Ff : forall x, In x (m_intrinsics m ++ m_rt_cam_ref m) -> all_chars no_nul (fmt_f x)) by (intros x H; apply float_no_nul; now apply c_text).
  unfold c_write. repeat first [assumption|apply Fu; lia|apply Ln|apply Lit]; try (repeat split; reflexivity); try assumption.
  - apply concat_all. intros x H. apply Lit; [|repeat split; reflexivity]. apply Ff. apply in_or_app. now left.
  - destruct (m_rt_cam_ref m) as [|r0 [|r1 [|r2 [|r3 [|r4 [|r5 [|]]]]]]]; try exact I.
    repeat first [apply Ff; apply in_or_app; right; cbn; tauto|apply Ln|apply Lit]; repeat split; reflexivity.
Qed.
(** The reader accepts what the C writer writes *)
Theorem C42_c_writer :
  read_cameramodel rnd into (c_write m) =
  match into with
  | Some max => if max <? num_params (m_lens m) then Read_need (num_params (m_lens m)) else Read_ok c_result
  | None => Read_ok c_result
  end.
Proof.
  apply (C42_descriptions_accepted rnd into _ c_entries c_result); [|exact c_describes]. rewrite cstr_all by exact c_no_nul.
  destruct c_body as (b & -> & B). exists "", (line ""), b, (line ""). split; [constructor|]. split; [now apply skipped|]. split; [exact B|]. split; [now apply skipped|reflexivity].
Qed.
End C_writer.
Print Assumptions C42_c_writer.
(** ... each number within 0.5e-6 of what was written, before it is rounded to a double *)
Theorem C42_c_writer_precision : forall x, (Qabs (six_decimals x - x) <= 1 # 2000000)%Q.
Proof. exact six_decimals_close. Qed.
Print Assumptions C42_c_writer_precision.
(** so small numbers are lost: a distortion coefficient of 4e-7 comes back as 0 *)
Theorem C42_c_writer_loses_refuted : exists x : Q, ~ (x == 0)%Q /\ (six_decimals x == 0)%Q.
Proof. exists (4 # 10000000). split; [discriminate|reflexivity]. Qed.
Print Assumptions C42_c_writer_loses_refuted.

(** *** Non-trivial instances *)
Definition ex_text : string :=
  line "# a comment" ++ line "{ 'lensmodel': 'LENSMODEL_PINHOLE', # another" ++ line " ""x"": [1, (2, -3.5e-1), []], 'intrinsics': [1, 2.5e3,3,-.5,]," ++
  line " b'imagersize' : [640,480], 'rt_cam_ref': [0,0.1,-2,3,4,5]," ++ line " 'extrinsics': [0,0.1,-2,3,4,5.0000000001] }".
Example ex_C43 : exists m, read_cameramodel (fun q => q) None ex_text = Read_ok m /\ m_lens m = PINHOLE /\ m_size m = (640, 480) /\
  Forall2 Qeq (m_intrinsics m) [1; 2500; 3; -(1#2)]%Q /\ Forall2 Qeq (m_rt_cam_ref m) [0; 1#10; -2; 3; 4; 5]%Q.
Proof. eexists. split; [vm_compute; reflexivity|]. repeat split; repeat constructor. Qed.
Example ex_C43_need : read_cameramodel (fun q => q) (Some 3) ex_text = Read_need 4.
Proof. vm_compute. reflexivity. Qed.
(** contradicting poses, missing and superfluous values are refused *)
Definition with_rt (rt : string) : string :=
  "{'lensmodel':'LENSMODEL_PINHOLE','intrinsics':[1,1,0,0],'imagersize':[6,4],'rt_cam_ref':[0,0,0,0,0,1]," ++ rt ++ "}".
Example ex_C43_reject :
  read_cameramodel (fun q => q) None (with_rt "'extrinsics':[0,0,0,0,0,1.1]") = Read_error /\
  read_cameramodel (fun q => q) None (with_rt "'extrinsics':[0,0,0,0,0]") = Read_error /\
  read_cameramodel (fun q => q) None (with_rt "'extrinsics':[0,0,0,0,0,1,2]") = Read_error /\
  read_cameramodel (fun q => q) None (with_rt "'imagersize':[6,4]") = Read_error /\
  read_cameramodel (fun q => q) None (with_rt "'lensmodel':'LENSMODEL_PINHOLE'") = Read_error.
Proof. repeat split; vm_compute; reflexivity. Qed.
(** the hypotheses of the writers' theorems *)
Definition ex_py : pymodel :=
  PyModel "LENSMODEL_OPENCV4" [1000; 1001; 500; 400; -(1#10); 1#8; 0; 1#1000]%Q (Some [(1, 2); (3, 2); (-(1#4), 8)]%Q) [0; 1#10; -2; 3; 4; 5]%Q (1000, 800)
    (Some 0) None (Some "b'LzH#{}'").
Definition ex_fmt : Q -> string := fmt_f.
Lemma ex_fmt_ok : forall x, (Qabs (six_decimals x) <= DBL_MAX)%Q -> double_text (fun q => q) (ex_fmt x) (six_decimals x).
Proof. intros x H. exact (fmt_f_text (fun q => q) x H). Qed.
Example ex_C42_python : forall note, Forall (fun l => all_chars (fun c => not_nl c && no_nul c) l) note ->
  exists m, read_cameramodel (fun q => q) None (py_write ex_fmt note ex_py) = Read_ok m /\ m_lens m = OPENCV4 /\ m_size m = (1000, 800).
Proof.
  intros note Hn. eexists. split.
  - apply (C42_python_writer (fun q => q) ex_fmt six_decimals None note ex_py OPENCV4); try exact Hn; try reflexivity.
    + exists T_OPENCV4. left. split; reflexivity.
    + intros x H. apply ex_fmt_ok. cbn in H. repeat destruct H as [<-|H]; try (now destruct H); apply Qle_bool_iff; vm_compute; reflexivity.
    + cbn. intro Q. apply Qeq_bool_iff in Q. vm_compute in Q. discriminate Q.
    + cbn. lia.
    + cbn. intros reg E. inversion E; subst. assert (S : forall x, (Qabs (six_decimals x) <= DBL_MAX)%Q -> all_chars (fun c => negb (Ascii.eqb c "+")) (ex_fmt x) -> coord_text (ex_fmt x)).
      { intros x H1 H2. split; [apply (ex_fmt_ok x H1)|exact H2]. }
      repeat constructor; try (apply S; [apply Qle_bool_iff; vm_compute; reflexivity|cbn; repeat split; reflexivity]).
    + cbn. intros b E. inversion E; subst. split; [cbn; repeat split; reflexivity|]. exists "LzH#{}". exists "b", "'"%char, "'"%char. cbn. repeat split; try reflexivity. now right.
  - split; reflexivity.
Qed.
Example ex_C42_c : exists m, read_cameramodel (fun q => q) None (c_write (Model PINHOLE [1000; 1001; 500; 400]%Q [0; 1#10; -2; 3; 4; 5]%Q (1000, 800))) = Read_ok m /\ m_lens m = PINHOLE.
Proof. eexists. split; [vm_compute; reflexivity|reflexivity]. Qed.

(** *** Where the claims do not hold *)
(** The imager size may be given more than once, with different values, as long
    as the widths before the last are 0 *)
Definition with_sizes (a b : string) : string :=
  "{'imagersize':[" ++ a ++ "],'imagersize':[" ++ b ++ "],'lensmodel':'LENSMODEL_PINHOLE','intrinsics':[1,1,0,0],'rt_cam_ref':[0,0,0,0,0,1]}".
Theorem C43_size_given_twice_refuted : exists m, read_cameramodel (fun q => q) None (with_sizes "0,7" "6,4") = Read_ok m /\ m_size m = (6, 4).
Proof. eexists. split; [vm_compute; reflexivity|reflexivity]. Qed.
Print Assumptions C43_size_given_twice_refuted.
(** A size of 2^32+1 is read as 1; a height of 0 is accepted *)
Theorem C43_size_wraps_refuted : exists m, read_cameramodel (fun q => q) None (with_sizes "0,0" "4294967297,0") = Read_ok m /\ m_size m = (1, 0).
Proof. eexists. split; [vm_compute; reflexivity|reflexivity]. Qed.
Print Assumptions C43_size_wraps_refuted.
(** The values of keys that are not used are skipped only if they have no +: with
    a coordinate that Python prints as 1e+10, the reader refuses a model that the
    Python writer wrote, and that is otherwise as above *)
Definition with_region (t : string) : string := with_rt ("'valid_intrinsics_region': [" ++ line "" ++ line ("    [ " ++ t ++ ", 1 ],") ++ line "],").
Theorem C42_region_exponent_refuted :
  read_cameramodel (fun q => q) None (with_region "1e+10") = Read_error /\
  exists m, read_cameramodel (fun q => q) None (with_region "10000000000") = Read_ok m.
Proof. split; [vm_compute; reflexivity|]. eexists. vm_compute. reflexivity. Qed.
Print Assumptions C42_region_exponent_refuted.
(** A comment that ends with the file instead of a newline *)
Theorem C42_last_comment_refuted : read_cameramodel (fun q => q) None (with_rt "" ++ "# end") = Read_error /\
  exists m, read_cameramodel (fun q => q) None (with_rt "" ++ line "# end") = Read_ok m.
Proof. split; [vm_compute; reflexivity|]. eexists. vm_compute. reflexivity. Qed.
Print Assumptions C42_last_comment_refuted.
(** An element that is not a finite number.  (Python writes "nan" and "inf") *)
Theorem C42_nonfinite_refuted : forall t, In t ["nan"; "inf"; "-inf"] ->
  read_cameramodel (fun q => q) None (with_rt ("'extrinsics':[0,0," ++ t ++ ",0,0,1]")) = Read_error.
Proof. intros t [<-|[<-|[<-|[]]]]; vm_compute; reflexivity. Qed.
Print Assumptions C42_nonfinite_refuted.
