(** C08, C09, C10: lens model names. *)
From Coq Require Import ZArith List Bool QArith Qabs String Ascii Lia.
From Verif Require Import M_Lens M_Names S_Names P_Names.
Open Scope string_scope.
Open Scope Z_scope.

(** C08 as claimed ("every configuration value") is true for all models but
    CAHVORE, whose configuration is printed with two decimals only. *)
Definition roundtrips (rnd : Q -> Q) (m : lensmodel) : Prop :=
  from_name rnd (Some (name_text m)) = Accept m.

Theorem C08_names_round_trip_partial :
  forall rnd m, lens_ok m -> (forall l, m <> CAHVORE l) -> roundtrips rnd m.
Proof.
  intros rnd m H N. unfold roundtrips. apply fn_denotes, name_denotes; [easy|].
  destruct m; try easy. now elim (N linearity).
Qed.
Print Assumptions C08_names_round_trip_partial.

(** CAHVORE: round trip for every value obtained by reading a two-decimal
    number, whenever reading is accurate to 0.005 *)
Theorem C08_cahvore_two_decimals :
  forall (rnd : Q -> Q) (k : Z), (Qabs (rnd (k # 100) - (k # 100)) < 1 # 200)%Q ->
  roundtrips rnd (CAHVORE (rnd (k # 100))).
Proof.
  intros rnd k H. apply fn_denotes, name_denotes; [easy|]. now apply fmt_2f_text.
Qed.
Print Assumptions C08_cahvore_two_decimals.

(** ... and not for others: a linearity of 1/8 does not survive *)
Theorem C08_cahvore_refuted :
  forall rnd : Q -> Q, (Qabs (rnd (12 # 100) - (12 # 100)) < 1 # 200)%Q ->
  exists m, lens_ok m /\ ~ roundtrips rnd m.
Proof.
  intros rnd H. exists (CAHVORE (1 # 8)). split; [easy|]. unfold roundtrips.
  assert (from_name rnd (Some (name_text (CAHVORE (1 # 8)))) = Accept (CAHVORE (rnd (12 # 100)))) as -> by reflexivity.
  intro E. assert (rnd (12 # 100) = 1 # 8) as Er by congruence. rewrite Er in H. discriminate H.
Qed.
Print Assumptions C08_cahvore_refuted.

Example ex_names :
  lens_ok (SPLINED {| sp_order := 3; sp_Nx := 30; sp_Ny := 20; sp_fov := 65535 |}) /\
  name_text (SPLINED {| sp_order := 3; sp_Nx := 30; sp_Ny := 20; sp_fov := 65535 |}) =
    "LENSMODEL_SPLINED_STEREOGRAPHIC_order=3_Nx=30_Ny=20_fov_x_deg=65535" /\
  name_text (CAHVORE (-1 # 4)) = "LENSMODEL_CAHVORE_linearity=-0.25" /\
  (Qabs ((fun q => q) (-25 # 100) - (-25 # 100)) < 1 # 200)%Q.
Proof. unfold lens_ok, u16; cbn [sp_order sp_Nx sp_Ny sp_fov]. repeat split; try lia. Qed.

(** C09.  The parser's answer is exactly the order-free classification
    [classified] of S_Names, so every string gets exactly one answer. *)
Theorem C09_parse_classifies :
  forall rnd s r, from_name rnd (Some s) = r <-> classified rnd s r.
Proof. exact classification. Qed.
Print Assumptions C09_parse_classifies.

Theorem C09_one_answer :
  forall rnd s, exists r, classified rnd s r /\ (forall r', classified rnd s r' -> r' = r).
Proof.
  intros rnd s. exists (from_name rnd (Some s)). split; [now apply classification|].
  intros r' H. apply classification in H. easy.
Qed.
Print Assumptions C09_one_answer.

Theorem C09_type_query_agrees :
  forall rnd s,
  (forall m, from_name rnd (Some s) = Accept m -> type_from_name (Some s) = Some (type_of m)) /\
  (type_from_name (Some s) = None <-> from_name rnd (Some s) = Invalid_type).
Proof. intros. split; [apply type_agrees|apply type_none_iff]. Qed.
Print Assumptions C09_type_query_agrees.

(** no name is shadowed: each type is found by its own name, with the exact
    meaning of the type query *)
Theorem C09_type_query_exact :
  forall s t, type_from_name (Some s) = Some t <->
  s = base_name t \/ (needs_config t /\ exists c, s = base_name t ++ String "_" c).
Proof. exact type_classification. Qed.
Print Assumptions C09_type_query_exact.

(** the placeholder names: usable for the type query, never as a full name *)
Theorem C09_unconfigured_names :
  forall rnd t, type_from_name (Some (name_unconfigured t)) = Some t /\
  (needs_config t -> from_name rnd (Some (name_unconfigured t)) = Bad_config).
Proof. intros rnd t. split; [now destruct t|]. intro H. destruct t; try discriminate H; reflexivity. Qed.

(** the classes are all inhabited *)
Example ex_classes : forall rnd,
  classified rnd "LENSMODEL_CAHVORE" Missing_config /\
  classified rnd "LENSMODEL_CAHVORE_linearity=0.3x" Bad_config /\
  classified rnd "LENSMODEL_CAHVOREX" Invalid_type /\
  classified rnd "LENSMODEL_OPENCV45" Invalid_type /\
  classified rnd "LENSMODEL_CAHVOR" (Accept CAHVOR) /\
  classified rnd "LENSMODEL_SPLINED_STEREOGRAPHIC_order=-3_Nx= 30_Ny=65557_fov_x_deg=150"
    (Accept (SPLINED {| sp_order := 65533; sp_Nx := 30; sp_Ny := 21; sp_fov := 150 |})).
Proof. intro rnd. repeat (split; [apply classification; reflexivity|]). apply classification; reflexivity. Qed.

(** C10 *)
Theorem C10_bounded_name_printing :
  forall out size m ok out', 0 <= size -> lensmodel_name out size m = (ok, out') ->
  let len := Z.of_nat (String.length (name_text m)) in
  (ok = true <-> len + 1 <= size) /\
  (ok = true -> holds out' (name_text m) /\ out' len = "000"%char) /\
  (forall i, i < 0 \/ size <= i -> out' i = out i) /\
  (0 < size -> exists n, 0 <= n < size /\ out' n = "000"%char).
Proof.
  intros out size m ok out' Hs E len. unfold lensmodel_name in E.
  destruct (snprintf out size (name_text m)) as (n & o) eqn:F.
  assert (o = out') by congruence. subst o. assert (ok = (size >? n)) as -> by congruence. clear E.
  apply snprintf_spec in F; [|easy]. destruct F as (En & A & B & _ & D). change (Z.of_nat (String.length (name_text m))) with len in En. subst n.
  repeat split.
  - lia.
  - lia.
  - apply B. lia.
  - apply B. lia.
  - exact A.
  - intro Hp. exists (Z.min len (size - 1)). split; [lia|auto].
Qed.
Print Assumptions C10_bounded_name_printing.

Example ex_print : fst (lensmodel_name (fun _ => "x"%char) 18 PINHOLE) = true /\
                   fst (lensmodel_name (fun _ => "x"%char) 17 PINHOLE) = false.
Proof. split; reflexivity. Qed.
Print Assumptions C09_unconfigured_names.
