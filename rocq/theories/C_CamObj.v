(** C45: a camera model object survives saving and loading, after any history. *)
From Coq Require Import String Ascii List Bool ZArith QArith Qabs Lia ZifyBool.
From Verif Require Import M_Lens M_Names S_Names P_Names M_OptInputs C_OptInputs M_CamObj.
Import ListNotations.
Open Scope string_scope.
Open Scope Z_scope.

(** ** Specification *)
(** the serialized optimization inputs that the object holds, as a bytes or as its text *)
Inductive holds : pyopt -> option string -> Prop :=
| H_none : holds O_none None
| H_bytes : forall b, holds (O_bytes b) (Some b)
| H_text : forall b, holds (O_str ("b'" ++ b ++ "'")) (Some b).
(** o' is o with every number replaced by the one that is printed *)
Definition print_num (print10 : Q -> Q) (x y : num) : Prop := exists q, x = Fin q /\ y = Fin (print10 q).
Definition print_point (print10 : Q -> Q) (p q : num * num) : Prop := print_num print10 (fst p) (fst q) /\ print_num print10 (snd p) (snd q).
Record saved_as (print10 : Q -> Q) (o o' : obj) : Prop := {
  sa_lens : o_lens o' = o_lens o;
  sa_intr : Forall2 (print_num print10) (o_intr o) (o_intr o');
  sa_size : o_size o' = o_size o;
  sa_rt : Forall2 (print_num print10) (o_rt o) (o_rt o');
  sa_region : match o_region o, o_region o' with
              | None, None => True
              | Some c, Some c' => Forall2 (print_point print10) c c'
              | _, _ => False
              end;
  sa_opt : forall b, holds (o_opt o) b -> holds (o_opt o') b;
  sa_icam_i : o_icam_i o' = o_icam_i o;
  sa_icam_e : o_icam_e o' = o_icam_e o }.
Definition finite (x : num) : Prop := exists q, x = Fin q.
(** the first and last point of the contour print alike *)
Definition prints_closed (print10 : Q -> Q) (c : list (num * num)) : Prop :=
  match c with [] => True | p :: _ => forall x y x' y', p = (Fin x, Fin y) -> List.last c p = (Fin x', Fin y') -> print10 x = print10 x' /\ print10 y = print10 y' end.
Definition one_line (s : string) : Prop := all_chars (fun c => negb (Ascii.eqb c "010" || Ascii.eqb c "013")) s.
(** the icam_... are there exactly if there are optimization inputs *)
Definition consistent (o : obj) : Prop :=
  match o_opt o with O_none => o_icam_i o = None /\ o_icam_e o = None | _ => o_icam_i o <> None end.
Record printable (print10 : Q -> Q) (o : obj) : Prop := {
  pr_intr : Forall finite (o_intr o);
  pr_rt : Forall finite (o_rt o) /\ List.length (o_rt o) = 6%nat;
  pr_region : forall c, o_region o = Some c -> Forall (fun p => finite (fst p) /\ finite (snd p)) c /\ prints_closed print10 c;
  pr_name : one_line (o_lens o) }.

(** ** The lens model names that are accepted contain nothing to be quoted or replaced *)
Definition tame_char (c : ascii) : bool := negb (Ascii.eqb c "'" || Ascii.eqb c "\" || Ascii.eqb c "D").
Lemma all_weaken : forall P Q s, (forall c, P c = true -> Q c = true) -> all_chars P s -> all_chars Q s.
Proof. induction s as [|c s IH]; cbn; intuition. Qed.
Lemma digit_tame : forall c, is_digit c = true -> tame_char c = true.
Proof. intros c H. destruct (digit_cases c H) as [|]; intuition; subst; reflexivity. Qed.
Lemma space_tame : forall c, is_space c = true -> tame_char c = true.
Proof. intros c H. destruct c as [[] [] [] [] [] [] [] []]; try reflexivity; discriminate. Qed.
Lemma sign_tame : forall s n, sign_text s n -> all_chars tame_char s.
Proof. intros s n [(-> & _)|[(-> & _)|(-> & _)]]; cbn; auto. Qed.
Lemma u16_tame : forall a v, u16_text a v -> all_chars tame_char a.
Proof.
  intros a v (sp & sg & ng & ds & -> & A & B & C & _). rewrite !all_app. repeat split.
  - eapply all_weaken; [apply space_tame|exact A].
  - eapply sign_tame; exact B.
  - eapply all_weaken; [apply digit_tame|exact C].
Qed.
Lemma frac_tame : forall f fr, frac_text f fr -> all_chars is_digit fr -> all_chars tame_char f.
Proof. intros f fr [(-> & _)| ->] H; cbn; [exact I|]. split; [reflexivity|]. eapply all_weaken; [apply digit_tame|exact H]. Qed.
Lemma lf_tame : forall rnd a q, lf_text rnd a q -> all_chars tame_char a.
Proof.
  intros rnd a q (sp & sg & ng & ip & f & fr & A & B & C & D & E & _ & [(-> & _)|(e & es & en & ed & F & G & H & _ & -> & _)]); rewrite !all_app; repeat split;
    try (eapply all_weaken; [apply space_tame|eassumption]); try (eapply all_weaken; [apply digit_tame|eassumption]); try (eapply sign_tame; eassumption); try (eapply frac_tame; eassumption).
  destruct F as [-> | ->]; cbn; auto.
Qed.
Lemma replace_tame : forall s, all_chars tame_char s -> replace "DISTORTION" "LENSMODEL" s = s.
Proof.
  unfold replace. induction s as [|c s IH]; intros H; [reflexivity|]. destruct H as (Hc & H). cbn [replace_from].
  assert (String.prefix "DISTORTION" (String c s) = false) as ->.
  { cbn [String.prefix]. destruct (ascii_dec "D" c) as [<-|]; [discriminate|reflexivity]. }
  now rewrite IH.
Qed.
Lemma accepted_replace : forall rnd s m, from_name rnd (Some s) = Accept m ->
  replace "DISTORTION" "LENSMODEL" s = s /\ all_chars (fun c => negb (Ascii.eqb c "'" || Ascii.eqb c "\")) s.
Proof.
  intros rnd s m H. apply classification in H. destruct H as (t & [(-> & H)|(c & -> & H)]).
  - destruct t; try discriminate; (split; [reflexivity|cbn; repeat split]).
  - assert (all_chars tame_char c) as T.
    { destruct t; try contradiction; unfold config_text in H.
      - destruct H as (l & q & -> & L & _). rewrite all_app. split; [cbn; repeat split|]. eapply lf_tame; exact L.
      - destruct H as (a & b & d & e & cfg & -> & A & B & D & E & _). rewrite !all_app.
        repeat split; try (eapply u16_tame; eassumption); cbn; repeat split. }
    split.
    + assert (forall t, replace "DISTORTION" "LENSMODEL" (base_name t ++ c) = base_name t ++ replace "DISTORTION" "LENSMODEL" c) as R.
      { unfold replace. intros []; cbn; reflexivity. }
      now rewrite R, replace_tame.
    + rewrite all_app. split; [destruct t; cbn; repeat split|]. eapply all_weaken; [|exact T]. intros x Hx. unfold tame_char in Hx. destruct (Ascii.eqb x "'"), (Ascii.eqb x "\"), (Ascii.eqb x "D"); easy.
Qed.
Lemma unquote_ok : forall s, all_chars quotable s -> unquote (s ++ "'") = Some s.
Proof.
  induction s as [|c s IH]; intro H; [reflexivity|]. destruct H as (Hc & H). cbn [append unquote].
  destruct (s ++ "'") as [|d r] eqn:E; [destruct s; discriminate|]. specialize (IH H). now rewrite Hc, IH.
Qed.
Lemma b85_quotable : forall c, b85_char c = true -> quotable c = true.
Proof. intros c H. destruct c as [[] [] [] [] [] [] [] []]; try reflexivity; vm_compute in H; discriminate. Qed.
Lemma forall_all : forall P s, forall_chars P s = true <-> all_chars P s.
Proof. intros P s. induction s as [|c s IH]; cbn; [easy|]. now rewrite andb_true_iff, IH. Qed.

Section History.
Variable rnd : Q -> Q.
Variable broadcast_same : val -> val -> bool.
Variable encode : npz -> string.
Hypothesis encode_b85 : forall z, forall_chars b85_char (encode z) = true.
Variable corresponding : dict -> Z -> option Z.
Variable print10 : Q -> Q.
Hypothesis print10_again : forall q, print10 (print10 q) = print10 q.
Notation valid_intrinsics := (valid_intrinsics rnd).
Notation step := (step rnd broadcast_same encode corresponding print10).
Notation run := (run rnd broadcast_same encode corresponding print10).
Notation write := (write rnd print10).
Notation read := (read rnd).
Notation printed := (printed print10).

(** ** What holds after any history *)
Definition opt_ok (o : pyopt) : Prop :=
  match o with
  | O_none => True
  | O_bytes b => forall_chars b85_char b = true
  | O_str s => exists b, s = repr_bytes b /\ forall_chars b85_char b = true
  end.
Record sound (o : obj) : Prop := {
  so_intr : valid_intrinsics (o_size o) (o_lens o) (o_intr o) = true;
  so_region : forall c, o_region o = Some c -> valid_region c = true;
  so_opt : opt_ok (o_opt o);
  so_icam : forall i, o_icam_i o = Some i -> 0 <= i }.
Lemma dist2_same : forall p q, dist2 p p = Some q -> (q == 0)%Q.
Proof. intros [[x|] [y|]] q; cbn; try discriminate. intros [= <-]. ring. Qed.
Lemma far_same : forall p, far p p = false.
Proof.
  intro p. unfold far. destruct (dist2 p p) as [q|] eqn:E; [|reflexivity]. apply dist2_same in E.
  rewrite negb_false_iff. apply Qle_bool_iff. rewrite E. discriminate.
Qed.
Lemma near_not_far : forall p q, near p q = true -> far p q = false.
Proof.
  intros p q. unfold near, far. destruct (dist2 p q) as [d|]; [|reflexivity]. intro H. rewrite negb_true_iff in H.
  rewrite negb_false_iff. apply Qle_bool_iff. assert (~ (1 # 1000000000000 <= d)%Q) as N by (rewrite <- Qle_bool_iff; congruence).
  apply Qnot_le_lt in N. apply Qlt_le_weak in N. eapply Qle_trans; [exact N|]. discriminate.
Qed.
Lemma last_app1 : forall A (l : list A) x d, List.last (l ++ [x]) d = x.
Proof. induction l as [|y l IH]; intros x d; [reflexivity|]. cbn [app List.last]. rewrite IH. now destruct (l ++ [x])%list eqn:E; [destruct l|]. Qed.
Lemma closed_valid : forall c, valid_region c = true -> valid_region (close_contour c) = true.
Proof.
  intros [|p c] H; [reflexivity|]. unfold close_contour. destruct (near p (List.last (p :: c) p)); [exact H|].
  unfold valid_region in *. cbn [app] in *. rewrite andb_true_iff in *. destruct H as (H & _).
  split. { cbn [List.length] in *. rewrite app_length. lia. }
  change (p :: (c ++ [p]))%list with ((p :: c) ++ [p])%list. rewrite last_app1, far_same. reflexivity.
Qed.
Lemma dget_renamed : forall o n ck d d', M_CamObj.renamed o n ck d = Some d' -> forall k, k <> o -> k <> n -> dget k d' = dget k d.
Proof.
  intros o n ck d d' H k K1 K2. apply String.eqb_neq in K1, K2. unfold M_CamObj.renamed in H.
  destruct (dget o d) as [v|]; [|now injection H as <-]. destruct (dget n d) as [w|].
  - destruct ck; [|now injection H as <-]. destruct v; try discriminate. destruct w; try discriminate. destruct (all_close _ _); [now injection H as <-|discriminate].
  - injection H as <-. now rewrite dget_ddel, dget_dset, K1, K2.
Qed.
Lemma eval_bytes_b85 : forall o f d b, opt_ok o ->
  (f = match o with O_none => [] | O_bytes b => [("optimization_inputs", T_raw (repr_bytes b))] | O_str s => [("optimization_inputs", T_raw s)] end) ->
  literal_eval f = Some d -> dget "optimization_inputs" d = Some (P_bytes b) -> forall_chars b85_char b = true.
Proof.
  intros o f d b O -> H B.
  assert (forall b', forall_chars b85_char b' = true -> literal_eval [("optimization_inputs", T_raw (repr_bytes b'))] = Some [("optimization_inputs", P_bytes b')]) as E.
  { intros b' Hb. cbn. rewrite unquote_ok; [reflexivity|]. apply forall_all in Hb. eapply all_weaken; [apply b85_quotable|exact Hb]. }
  destruct o as [|b'|s].
  - injection H as <-. discriminate.
  - cbn [opt_ok] in O. rewrite E in H by exact O. injection H as <-. cbn in B. injection B as <-. exact O.
  - destruct O as (b' & -> & O). rewrite E in H by exact O. injection H as <-. cbn in B. injection B as <-. exact O.
Qed.
Lemma literal_eval_app : forall f g, literal_eval (f ++ g)%list = match literal_eval f, literal_eval g with Some a, Some b => Some (a ++ b)%list | _, _ => None end.
Proof.
  induction f as [|[k t] f IH]; intro g; cbn [app literal_eval]; [now destruct (literal_eval g)|]. rewrite IH.
  destruct (eval_text t); [|reflexivity]. destruct (literal_eval f); [|reflexivity]. now destruct (literal_eval g).
Qed.
Lemma dget_app : forall A k (a b : list (string * A)), dget k (a ++ b)%list = match dget k a with Some v => Some v | None => dget k b end.
Proof. induction a as [|[k0 v0] a IH]; intro b; [reflexivity|]. cbn. destruct (String.eqb k k0); [reflexivity|apply IH]. Qed.

(** *** Reading what was written *)
Lemma all_fin_fin : forall l, Forall finite l -> exists qs, l = map Fin qs /\ all_fin (map printed l) = Some (map print10 qs).
Proof.
  intros l H. induction H as [|x l (q & ->) H (qs & -> & IH)]; [now exists []|]. exists (q :: qs). split; [reflexivity|]. cbn. now rewrite IH.
Qed.
Lemma all_fin_printed : forall l qs, all_fin (map printed l) = Some qs -> Forall finite l.
Proof.
  induction l as [|x l IH]; intros qs H; [constructor|]. cbn in H. destruct x as [q|]; cbn in H; [|discriminate].
  destruct (all_fin (map printed l)) as [r|] eqn:E; [|discriminate]. constructor; [now exists q|]. eapply IH. reflexivity.
Qed.
Definition pr_pt (p : Q * Q) : num * num := (Fin (print10 (fst p)), Fin (print10 (snd p))).
Lemma rows_fin : forall c, Forall (fun p => finite (fst p) /\ finite (snd p)) c ->
  exists ps, c = map (fun p => (Fin (fst p), Fin (snd p))) ps /\
    exists rows, all_rows (map (fun p => [printed (fst p); printed (snd p)]) c) = Some rows /\ pairs rows = Some (map pr_pt ps).
Proof.
  intros c H. induction H as [|[x y] c ((qx & Hx) & (qy & Hy)) H (ps & -> & rows & E1 & E2)].
  - exists []. split; [reflexivity|]. now exists [].
  - cbn in Hx, Hy. subst. exists ((qx, qy) :: ps). split; [reflexivity|]. eexists. cbn. rewrite E1. split; [reflexivity|]. cbn. now rewrite E2.
Qed.
Lemma all_close_refl : forall l, all_close l l = true.
Proof.
  induction l as [|x l IH]; [reflexivity|]. cbn [all_close]. rewrite IH, andb_true_r, negb_true_iff.
  destruct (Qle_bool (1 # 1000000000) (Qabs (x - x))) eqn:E; [|reflexivity]. apply Qle_bool_iff in E. exfalso.
  assert (Qabs (x - x) == 0)%Q as Z by (setoid_replace (x - x)%Q with 0%Q by ring; reflexivity). rewrite Z in E. now apply E.
Qed.
(** what the object's region is read as *)
Lemma region_read : forall c ps, c = map (fun p => (Fin (fst p), Fin (snd p))) ps -> valid_region c = true -> prints_closed print10 c ->
  valid_region (map pr_pt ps) = true /\ close_contour (map pr_pt ps) = map pr_pt ps.
Proof.
  intros c ps -> V P. destruct ps as [|[x y] ps]; [easy|].
  assert (List.last (map pr_pt ((x, y) :: ps)) (pr_pt (x, y)) = pr_pt (x, y)) as L.
  { assert (forall l (d : Q * Q), List.last (map pr_pt l) (pr_pt d) = pr_pt (List.last l d)) as A.
    { induction l as [|u l IH]; intro d; [reflexivity|]. cbn [map List.last]. destruct l; [reflexivity|]. exact (IH d). }
    assert (forall l (d : Q * Q), List.last (map (fun p => (Fin (fst p), Fin (snd p))) l) (Fin (fst d), Fin (snd d)) = (Fin (fst (List.last l d)), Fin (snd (List.last l d)))) as B.
    { induction l as [|u l IH]; intro d; [reflexivity|]. cbn [map List.last]. destruct l; [reflexivity|]. exact (IH d). }
    rewrite A. unfold prints_closed in P. cbn [map fst snd] in P.
    specialize (B ((x, y) :: ps) (x, y)). cbn [map fst snd] in B.
    destruct (List.last ((x, y) :: ps) (x, y)) as [x' y'] eqn:E. cbn [fst snd] in B.
    destruct (P x y x' y' eq_refl B) as (P1 & P2). unfold pr_pt. cbn [fst snd]. congruence. }
  assert (near (pr_pt (x, y)) (pr_pt (x, y)) = true) as Nr.
  { unfold near. destruct (dist2 (pr_pt (x, y)) (pr_pt (x, y))) as [d|] eqn:E; [|discriminate]. apply dist2_same in E.
    rewrite negb_true_iff. destruct (Qle_bool (1 # 1000000000000) d) eqn:F; [|reflexivity]. apply Qle_bool_iff in F. rewrite E in F. exfalso. now apply F. }
  cbn [map] in *. unfold valid_region, close_contour. rewrite L. rewrite Nr, far_same. split; [|reflexivity].
  unfold valid_region in V. rewrite andb_true_iff in V. destruct V as (V & _). cbn [List.length] in *. rewrite map_length in *. rewrite andb_true_r. exact V.
Qed.

(** *** The object that is read back *)
Definition raw_opt (o : pyopt) : pyopt :=
  match o with O_str (String _ (String _ s)) => match unquote s with Some b => O_bytes b | None => O_none end | _ => o end.
Definition reload (o : obj) : obj :=
  Obj (o_lens o) (map printed (o_intr o)) (o_size o) (map printed (o_rt o))
      (option_map (map (fun p => (printed (fst p), printed (snd p)))) (o_region o)) (raw_opt (o_opt o)) (o_icam_i o) (o_icam_e o).
Lemma raw_repr : forall b, forall_chars b85_char b = true -> raw_opt (O_str (repr_bytes b)) = O_bytes b.
Proof.
  intros b H. unfold repr_bytes. cbn [append raw_opt]. rewrite unquote_ok; [reflexivity|].
  apply forall_all in H. eapply all_weaken; [apply b85_quotable|exact H].
Qed.
Lemma eval_repr : forall b, forall_chars b85_char b = true -> eval_text (T_raw (repr_bytes b)) = Some (P_bytes b).
Proof.
  intros b H. unfold repr_bytes. cbn [append eval_text]. cbn [Ascii.eqb Bool.eqb andb]. rewrite unquote_ok; [reflexivity|].
  apply forall_all in H. eapply all_weaken; [apply b85_quotable|exact H].
Qed.
Lemma valid_length : forall z l a b, List.length a = List.length b -> valid_intrinsics z l a = valid_intrinsics z l b.
Proof. intros z l a b H. unfold M_CamObj.valid_intrinsics. now rewrite H. Qed.
Lemma name_unquote : forall s m, from_name rnd (Some s) = Accept m -> one_line s -> unquote (s ++ "'") = Some s.
Proof.
  intros s m H L. apply unquote_ok. destruct (accepted_replace _ _ _ H) as (_ & A). clear H. induction s as [|c s IH]; [exact I|].
  destruct A as (A & A'), L as (L & L'). split; [|now apply IH]. unfold quotable. destruct (Ascii.eqb c "'"), (Ascii.eqb c "\"), (Ascii.eqb c "010"), (Ascii.eqb c "013"); easy.
Qed.
Local Opaque replace M_CamObj.valid_intrinsics valid_region close_contour all_close unquote repr_bytes.
Lemma read_written : forall o, sound o -> printable print10 o -> consistent o -> read (write_ print10 o) = Some (reload o).
Proof.
  intros [lens intr size rt region opt ii ie] [S1 S2 S3 S4] [P1 (P2 & P2') P3 P4] C. unfold consistent in C. cbn [o_lens o_intr o_size o_rt o_region o_opt o_icam_i o_icam_e] in *.
  destruct (all_fin_fin _ P1) as (qi & -> & Ei). destruct (all_fin_fin _ P2) as (qr & -> & Er).
  assert (exists m, from_name rnd (Some lens) = Accept m) as (m & Hm).
  { Local Transparent M_CamObj.valid_intrinsics. unfold M_CamObj.valid_intrinsics, lens_params in S1. Local Opaque M_CamObj.valid_intrinsics. destruct (from_name rnd (Some lens)); [now eexists|now rewrite !andb_false_r in S1..]. }
  pose proof (name_unquote _ _ Hm P4) as U. destruct (accepted_replace _ _ _ Hm) as (Rp & _).
  assert (forall b, raw_opt opt = O_bytes b -> opt <> O_none) as No by (intros b Hb ->; discriminate).
  assert (opt = O_none \/ exists t b, (forall d, (match opt with O_none => d | O_bytes b => [("optimization_inputs", T_raw (repr_bytes b))] | O_str s => [("optimization_inputs", T_raw s)] end) = [("optimization_inputs", T_raw t)]) /\ eval_text (T_raw t) = Some (P_bytes b) /\ raw_opt opt = O_bytes b /\ ii <> None) as O.
  { destruct opt as [|b|s]; [now left|right|right].
    - exists (repr_bytes b), b. split; [reflexivity|]. split; [now apply eval_repr|]. split; [reflexivity|exact C].
    - destruct S3 as (b & -> & B). exists (repr_bytes b), b. split; [reflexivity|]. split; [now apply eval_repr|]. split; [now apply raw_repr|exact C]. }
  assert (valid_intrinsics size lens (map Fin (map print10 qi)) = true) as V.
  { rewrite <- S1. apply valid_length. now rewrite !map_length. }
  assert (forall l, map printed (map Fin l) = map Fin (map print10 l)) as PF by (intro l; rewrite !map_map; reflexivity).
  assert (Z.of_nat (List.length (map print10 qr)) =? 6 = true) as Lr. { rewrite map_length in *. rewrite P2'. reflexivity. }
  assert (exists rt' region', (match region with Some c => [("valid_intrinsics_region", T_rows (map (fun p => [printed (fst p); printed (snd p)]) c))] | None => [] end) = rt' /\ region' = option_map (map (fun p => (printed (fst p), printed (snd p)))) region /\
    (rt' = [] /\ region' = None \/ exists rows c, rt' = [("valid_intrinsics_region", T_rows rows)] /\ (exists r, all_rows rows = Some r /\ pairs r = Some c) /\ valid_region c = true /\ close_contour c = c /\ region' = Some c)) as (rg & region' & Hrg & Hre & RG).
  { destruct region as [c|]; do 2 eexists; (split; [reflexivity|]; split; [reflexivity|]); [right|now left].
    destruct (P3 c eq_refl) as (F & PC). destruct (rows_fin c F) as (ps & Hc & rows & E1 & E2).
    destruct (region_read c ps Hc (S2 c eq_refl) PC) as (V1 & V2). do 2 eexists. split; [reflexivity|]. split; [exists rows; split; [exact E1|exact E2]|].
    split; [exact V1|]. split; [exact V2|]. cbn [option_map]. f_equal. rewrite Hc, map_map. reflexivity. }
  unfold M_CamObj.read, write_, reload. cbn [o_lens o_intr o_size o_rt o_region o_opt o_icam_i o_icam_e].
  rewrite Hrg, <- Hre. clear Hrg Hre region P3 S2. rewrite !PF in *.
  destruct size as [w h].
  destruct RG as [(-> & ->)|(rows & c & -> & (r & E1 & E2) & V1 & V2 & ->)]; destruct O as [-> |(t & b & Et & Ev & -> & Ni)];
    try (cbn in C; destruct C as (-> & ->)); try rewrite (Et []); try (destruct ii as [i|]; try congruence; destruct ie as [e|]);
    cbn [app literal_eval fst snd]; try rewrite Ev; cbn; rewrite ?U, ?Ei, ?Er, ?E1; cbn; rewrite ?Rp; cbn; rewrite ?all_close_refl; cbn; unfold read_region; cbn;
    rewrite ?E2, ?V1, ?V2; cbn; rewrite ?V; cbn [negb]; rewrite ?Lr; cbn [negb]; try reflexivity;
    (assert (i <? 0 = false) as -> by (specialize (S4 i eq_refl); lia)); reflexivity.
Qed.

(** *** Whatever is read is sound *)
Lemma literal_eval_keys : forall f d k, literal_eval f = Some d -> dget k f = None -> dget k d = None.
Proof.
  induction f as [|[k0 t] f IH]; intros d k H N; cbn in H; [now injection H as <-|]. destruct (eval_text t); [|discriminate].
  destruct (literal_eval f) as [d'|]; [|discriminate]. injection H as <-. cbn in *. destruct (String.eqb k k0); [discriminate|]. now apply IH.
Qed.
Lemma read_sound : forall d o', read_into_self rnd d = Some o' ->
  (forall b, dget "optimization_inputs" d = Some (P_bytes b) -> forall_chars b85_char b = true) -> (sound o' /\ consistent o') /\
  o_opt o' = match dget "optimization_inputs" d with Some (P_bytes b) => O_bytes b | _ => O_none end.
Proof.
  intros d o' H B. unfold read_into_self, bind in H.
  destruct (M_CamObj.renamed "distortion_model" "lensmodel" false d) as [d1|] eqn:E1; [|discriminate].
  destruct (M_CamObj.renamed "lens_model" "lensmodel" false d1) as [d2|] eqn:E2; [|discriminate].
  destruct (M_CamObj.renamed "icam_intrinsics_optimization_inputs" "icam_intrinsics" false d2) as [d3|] eqn:E3; [|discriminate].
  destruct (dget "lensmodel" d3) as [[s0| | | | |]|]; try discriminate.
  destruct (M_CamObj.renamed "extrinsics" "rt_cam_ref" true _) as [d5|] eqn:E5; [|discriminate].
  assert (dget "optimization_inputs" d5 = dget "optimization_inputs" d) as K.
  { rewrite (dget_renamed _ _ _ _ _ E5) by discriminate.
    rewrite dget_dset. change (String.eqb "optimization_inputs" "lensmodel") with false. cbv iota.
    rewrite (dget_renamed _ _ _ _ _ E3) by discriminate.
    rewrite (dget_renamed _ _ _ _ _ E2) by discriminate.
    now rewrite (dget_renamed _ _ _ _ _ E1) by discriminate. }
  rewrite <- K in *. clear E1 E2 E3 E5 K.
  destruct (read_region d5) as [region|] eqn:R; [|discriminate].
  assert (forall c, region = Some c -> valid_region c = true) as RV.
  { unfold read_region in R. intros c ->. destruct (dget "valid_intrinsics_region" d5) as [[]|]; try discriminate.
    destruct (pairs _) as [c'|]; [|discriminate]. destruct (valid_region c') eqn:V; [|discriminate]. injection R as <-. now apply closed_valid. }
  clear R. destruct (dget "lensmodel" d5) as [[lens| | | | |]|]; try discriminate. destruct (dget "intrinsics" d5) as [[| |intr| | |]|]; try discriminate.
  destruct (dget "imagersize" d5) as [[| | | | |[|w [|h []]]]|]; try discriminate. destruct (dget "rt_cam_ref" d5) as [[| |rt| | |]|]; try discriminate.
  destruct (valid_intrinsics (w, h) lens (map Fin intr)) eqn:V; cbn [negb] in H; [|discriminate]. destruct (_ =? 6); cbn [negb] in H; [|discriminate].
  destruct (dget "optimization_inputs" d5) as [[|b| | | |]|]; try discriminate.
  - destruct (dget "icam_intrinsics" d5) as [[| | | |i|]|]; try discriminate. destruct (i <? 0) eqn:I0; [discriminate|].
    assert (forall j, Some i = Some j -> 0 <= j) as J by (intros j [= <-]; lia).
    destruct (dget "icam_extrinsics" d5) as [[| | | |e|]|]; try discriminate; injection H as <-; (split; [split; [split; [exact V|exact RV|exact (B b eq_refl)|exact J]|discriminate]|reflexivity]).
  - destruct (_ || _)%bool; [discriminate|]. injection H as <-. split; [split; [split; [exact V|exact RV|exact I|discriminate]|split; reflexivity]|reflexivity].
Qed.
Lemma reread_sound : forall o f o', sound o -> write o = Some f -> read f = Some o' -> (sound o' /\ consistent o') /\ o_opt o' = raw_opt (o_opt o).
Proof.
  intros o f o' So W H. unfold M_CamObj.write in W. destruct (_ && _)%bool; [|discriminate]. injection W as <-.
  unfold M_CamObj.read, bind in H. destruct (literal_eval _) as [d|] eqn:L; [|discriminate]. 
  unfold write_ in L. rewrite !app_assoc in L. set (pre := (_ ++ match o_icam_e o with Some _ => _ | None => _ end)%list) in L.
  assert (dget "optimization_inputs" pre = None) as Pn. { unfold pre. destruct (o_region o), (o_icam_i o), (o_icam_e o); reflexivity. }
  rewrite literal_eval_app in L. clearbody pre. destruct (literal_eval pre) as [dp|] eqn:Lp; [|discriminate].
  match type of L with context [literal_eval ?f] => destruct (literal_eval f) as [do|] eqn:Lo; [|discriminate] end. injection L as <-.
  assert (dget "optimization_inputs" (dp ++ do)%list = dget "optimization_inputs" do) as K by now rewrite dget_app, (literal_eval_keys _ _ _ Lp Pn).
  destruct (read_sound _ _ H) as (So' & Op).
  { intros b Hb. rewrite K in Hb. eapply eval_bytes_b85; [exact (so_opt _ So)|reflexivity|exact Lo|exact Hb]. }
  split; [exact So'|]. rewrite Op, K. clear - So Lo. pose proof (so_opt _ So) as O. cbn [literal_eval] in Lo. destruct (o_opt o) as [|b|s].
  - now injection Lo as <-.
  - cbn [literal_eval] in Lo. rewrite eval_repr in Lo by exact O. now injection Lo as <-.
  - destruct O as (b & -> & O). cbn [literal_eval] in Lo. rewrite eval_repr in Lo by exact O. rewrite raw_repr by exact O. now injection Lo as <-.
Qed.
Lemma step_sound : forall o c, sound o -> sound (fst (step o c)).
Proof.
  intros o c So. destruct So as [A B C D]. destruct c as [rt|lens intr size opt i e|c| | | |]; unfold M_CamObj.step.
  - split; assumption.
  - unfold set_intrinsics. set (sz := match size with Some s => s | None => o_size o end).
    destruct (valid_intrinsics sz lens intr) eqn:V; cbn [negb]; [|split; assumption].
    destruct opt as [d|], i as [i|]; try (split; assumption).
    + destruct (i <? 0) eqn:I0; [split; assumption|]. assert (forall j, Some i = Some j -> 0 <= j) as J by (intros j [= <-]; lia).
      destruct (serialize broadcast_same encode d) as [b|] eqn:Sb; [|split; assumption].
      assert (forall_chars b85_char b = true) as Bb.
      { unfold serialize in Sb. destruct (renamed_write_old_name _ _ _ _) in Sb; [|discriminate]. destruct (renamed_write_old_name _ _ _ _) in Sb; [|discriminate]. injection Sb as <-. apply encode_b85. }
      destruct e as [e|]; [split; try assumption; try discriminate; exact Bb|].
      destruct (corresponding d i); (split; try assumption; try discriminate; exact Bb).
    + destruct e; split; try assumption; try discriminate; exact I.
  - unfold set_region. destruct (valid_region (close_contour c)) eqn:V; split; try assumption. cbn. intros c' [= <-]. exact V.
  - split; try assumption; discriminate.
  - split; try assumption; exact I.
  - split; try assumption; cbn.
    + intros c Hc. destruct (o_region o) as [c'|]; [|discriminate]. injection Hc as <-. apply closed_valid. now apply B.
    + destruct (o_opt o) as [|b|s]; cbn in *; [exact I|now exists b|exact C].
  - unfold bind. destruct (write o) as [f|] eqn:W; [|split; assumption]. destruct (read f) as [o'|] eqn:R; [|split; assumption].
    apply (reread_sound o f o'); [split; assumption|exact W|exact R].
Qed.
Lemma new_sound : forall lens intr size rt region o, new_discrete rnd lens intr size rt region = Some o -> sound o /\ consistent o.
Proof.
  intros lens intr size rt region o H. unfold new_discrete in H. destruct (M_CamObj.valid_intrinsics rnd size lens intr) eqn:V; [|discriminate]. injection H as <-.
  destruct region as [c|]; [|split; [split; try discriminate; [exact V|exact I]|split; reflexivity]].
  unfold set_region. destruct (valid_region (close_contour c)) eqn:R; (split; [split; try discriminate; [exact V|try (cbn; intros c' [= <-]; exact R)|exact I]|split; reflexivity]) || (split; [split; try discriminate; [exact V|exact I]|split; reflexivity]).
Qed.
Lemma run_sound : forall l o, sound o -> sound (run o l).
Proof. induction l as [|c l IH]; intros o So; [exact So|]. unfold M_CamObj.run. cbn [fold_left]. apply IH. now apply step_sound. Qed.

(** *** Saving and loading once, and again *)
Lemma printed_again : forall x, printed (printed x) = printed x.
Proof. intros [q|]; [|reflexivity]. cbn. now rewrite print10_again. Qed.
Lemma F2_printed : forall l, Forall finite l -> Forall2 (print_num print10) l (map printed l).
Proof. intros l H. induction H as [|x l (q & ->) H IH]; constructor; [|exact IH]. exists q. split; reflexivity. Qed.
Lemma F2_points : forall c, Forall (fun p => finite (fst p) /\ finite (snd p)) c -> Forall2 (print_point print10) c (map (fun p => (printed (fst p), printed (snd p))) c).
Proof.
  intros c H. induction H as [|[x y] c ((q & Hx) & (q' & Hy)) H IH]; constructor; [|exact IH]. cbn in *. subst. split; eexists; (split; reflexivity).
Qed.
Lemma save_load : forall o, sound o -> printable print10 o -> consistent o ->
  write o = Some (write_ print10 o) /\ read (write_ print10 o) = Some (reload o) /\ saved_as print10 o (reload o) /\ write (reload o) = Some (write_ print10 o).
Proof.
  intros o So P C. pose proof (read_written o So P C) as R. destruct So as [S1 S2 S3 S4]. destruct P as [P1 (P2 & P2') P3 P4].
  assert (forall c, o_region o = Some c -> valid_region (map (fun p => (printed (fst p), printed (snd p))) c) = true) as VR.
  { intros c Hc. destruct (P3 c Hc) as (F & PC). destruct (rows_fin c F) as (ps & -> & _). rewrite map_map. exact (proj1 (region_read _ ps eq_refl (S2 _ Hc) PC)). }
  split; [|split; [exact R|split]].
  - unfold M_CamObj.write. rewrite S1, P2'. destruct (o_region o) as [c|]; [|reflexivity]. now rewrite (S2 c eq_refl).
  - split; try reflexivity.
    + now apply F2_printed.
    + now apply F2_printed.
    + cbn. destruct (o_region o) as [c|]; [|exact I]. apply F2_points. now destruct (P3 c eq_refl).
    + intros b Hb. inversion Hb as [E|b' E|b' E]; cbn; rewrite <- E; try constructor. rewrite <- E in S3. destruct S3 as (b2 & E2 & B2).
      change ("b'" ++ b' ++ "'") with (repr_bytes b') in *. rewrite E2, raw_repr by exact B2.
      Local Transparent repr_bytes. unfold repr_bytes in E2. injection E2 as E2.
      assert (forall u v, (u ++ "'") = (v ++ "'") -> u = v) as Inj.
      { induction u as [|x u IH]; intros [|y v] HH; try reflexivity; try (injection HH as -> HH; f_equal; now apply IH); exfalso.
        - destruct v; discriminate. - destruct u; discriminate. }
      apply Inj in E2. subst. constructor.
  - unfold M_CamObj.write. unfold reload at 1 2 3 4 5. cbn [o_lens o_intr o_size o_rt o_region o_opt o_icam_i o_icam_e].
    rewrite (valid_length _ _ _ (o_intr o)) by apply map_length. rewrite S1, map_length, P2'.
    assert (match option_map (map (fun p => (printed (fst p), printed (snd p)))) (o_region o) with Some c => valid_region c | None => true end = true) as ->.
    { destruct (o_region o) as [c|] eqn:E; [|reflexivity]. cbn. now apply VR. }
    change (Z.of_nat 6 =? 6) with true. cbn [andb]. f_equal. unfold write_, reload. cbn [o_lens o_intr o_size o_rt o_region o_opt o_icam_i o_icam_e].
    assert (forall l, map printed (map printed l) = map printed l) as PP. { intro l. rewrite map_map. apply map_ext. apply printed_again. }
    rewrite !PP. repeat f_equal.
    + destruct (o_region o) as [c|]; [|reflexivity]. cbn [option_map]. rewrite map_map. erewrite map_ext; [reflexivity|]. intro p. cbn [fst snd]. now rewrite !printed_again.
    + destruct (o_opt o) as [|b|s]; [reflexivity|reflexivity|]. destruct S3 as (b & -> & B). now rewrite raw_repr.
Qed.
Lemma step_consistent : forall o c, sound o -> consistent o -> (c = Reset_optimization_inputs -> o_icam_i o = None /\ o_icam_e o = None) -> consistent (fst (step o c)).
Proof.
  intros o c So C N. destruct c as [rt|lens intr size opt i e|c| | | |]; unfold M_CamObj.step; try exact C.
  - unfold set_intrinsics. destruct (negb _); [exact C|]. destruct opt as [d|], i as [i|]; try exact C.
    + destruct (i <? 0); [exact C|]. destruct (serialize _ _ _); [|exact C]. destruct e; [discriminate|]. destruct (corresponding d i); discriminate.
    + destruct e; [exact C|]. split; reflexivity.
  - unfold set_region. destruct (valid_region _); exact C.
  - apply N. reflexivity.
  - unfold consistent in *. cbn. destruct (o_opt o); exact C.
  - unfold bind. destruct (write o) as [f|] eqn:W; [|exact C]. destruct (read f) as [o'|] eqn:R; [|exact C].
    exact (proj2 (proj1 (reread_sound _ _ _ So W R))).
Qed.
(** a history in which the optimization inputs are never reset while there are some *)
Fixpoint keeps (o : obj) (l : list op) : Prop :=
  match l with
  | [] => True
  | c :: l => (c = Reset_optimization_inputs -> o_icam_i o = None /\ o_icam_e o = None) /\ keeps (fst (step o c)) l
  end.
Lemma run_consistent : forall l o, sound o -> consistent o -> keeps o l -> consistent (run o l).
Proof.
  induction l as [|c l IH]; intros o So C K; [exact C|]. destruct K as (K & K'). unfold M_CamObj.run. cbn [fold_left]. apply IH; [now apply step_sound|now apply step_consistent|exact K'].
Qed.
End History.

(** * The theorems *)
(** After any history of operations, including ones that raised, copies and
    saves: if the optimization inputs were not reset while there were some,
    and the object holds printable numbers and a name on one line, it can be
    written, and read back to the same object with the numbers as printed;
    and that one writes the same file.  Missing, and false (below): for the
    other objects. *)
Theorem C45_saves_partial : forall rnd broadcast_same encode corresponding print10,
  (forall z, forall_chars b85_char (encode z) = true) -> (forall q, print10 (print10 q) = print10 q) ->
  forall lens intr size rt region o0 history, new_discrete rnd lens intr size rt region = Some o0 ->
  keeps rnd broadcast_same encode corresponding print10 o0 history ->
  let o := run rnd broadcast_same encode corresponding print10 o0 history in
  printable print10 o ->
  exists f o', write rnd print10 o = Some f /\ read rnd f = Some o' /\ saved_as print10 o o' /\ write rnd print10 o' = Some f.
Proof.
  intros rnd bc enc cor p10 Henc Hp lens intr size rt region o0 l H0 K o P. destruct (new_sound rnd lens intr size rt region o0 H0) as (So & Co).
  pose proof (run_sound rnd bc enc Henc cor p10 l o0 So) as Sr. pose proof (run_consistent rnd bc enc Henc cor p10 l o0 So Co K) as Cr.
  destruct (save_load rnd cor p10 Hp o Sr P Cr) as (A & B & C & D). eauto 8.
Qed.
Print Assumptions C45_saves_partial.
(** Whatever the history: what is saved and then read holds the same optimization inputs *)
Theorem C45_inputs : forall rnd broadcast_same encode decode corresponding print10,
  (forall z, forall_chars b85_char (encode z) = true) ->
  forall lens intr size rt region o0 history f o', new_discrete rnd lens intr size rt region = Some o0 ->
  let o := run rnd broadcast_same encode corresponding print10 o0 history in
  write rnd print10 o = Some f -> read rnd f = Some o' ->
  (exists b, holds (o_opt o) b /\ holds (o_opt o') b) /\ (forall t, o_opt o' <> O_str t) /\
  ((forall t, o_opt o <> O_str t) -> optimization_inputs decode o' = optimization_inputs decode o).
Proof.
  intros rnd bc enc dec cor p10 Henc lens intr size rt region o0 l f o' H0 o W R. destruct (new_sound rnd lens intr size rt region o0 H0) as (So & _).
  pose proof (run_sound rnd bc enc Henc cor p10 l o0 So) as Sr. destruct (reread_sound rnd cor p10 o f o' Sr W R) as (_ & E). fold o in Sr.
  unfold optimization_inputs. rewrite E. pose proof (so_opt _ _ Sr) as O. destruct (o_opt o) as [|b|t].
  - split; [eexists; split; constructor|]. split; [discriminate|reflexivity].
  - split; [eexists; split; constructor|]. split; [discriminate|reflexivity].
  - destruct O as (b & -> & O). rewrite raw_repr by exact O. split; [eexists; split; [apply H_text|apply H_bytes]|]. split; [discriminate|]. intro N. now destruct (N _ eq_refl).
Qed.
Print Assumptions C45_inputs.
(** No copy of an object that holds optimization inputs can give them: optimization_inputs() raises ... *)
Theorem C45_copy_refuted : forall decode o b, o_opt o = O_bytes b -> optimization_inputs decode (copy o) = G_raised.
Proof.
  intros dec o b H. unfold optimization_inputs, copy. rewrite H. cbn [o_opt]. unfold repr_bytes.
  assert (forall_chars b85_char ("b'" ++ b ++ "'") = false) as ->; [|reflexivity]. cbn [append forall_chars]. reflexivity.
Qed.
Print Assumptions C45_copy_refuted.
(** ... though it writes the same file, if the region is closed (as it is if it was set) *)
Theorem C45_copy_writes : forall rnd print10 o,
  (forall c, o_region o = Some c -> close_contour c = c) -> write rnd print10 (copy o) = write rnd print10 o.
Proof.
  intros rnd p10 o R. unfold write, write_, copy. cbn [o_lens o_intr o_size o_rt o_region o_opt o_icam_i o_icam_e].
  assert (match o_region o with Some c => Some (close_contour c) | None => None end = o_region o) as ->.
  { destruct (o_region o) as [c|]; [|reflexivity]. now rewrite R. }
  now destruct (o_opt o).
Qed.
Print Assumptions C45_copy_writes.

(** ** What setting the intrinsics does *)
(** it stores what was given, keeps the pose and drops the valid-intrinsics region of the previous intrinsics; a refused
    one leaves at least the pose, and an invalid one everything *)
Theorem C45_set_intrinsics : forall rnd broadcast_same encode corresponding print10 o lens intr size opt i e o' failed,
  step rnd broadcast_same encode corresponding print10 o (Set_intrinsics lens intr size opt i e) = (o', failed) ->
  o_rt o' = o_rt o /\
  (failed = false ->
    o_lens o' = lens /\ o_intr o' = intr /\ o_size o' = match size with Some s => s | None => o_size o end /\ o_region o' = None /\
    match opt with
    | None => o_opt o' = O_none /\ o_icam_i o' = None /\ o_icam_e o' = None
    | Some d => (exists b, serialize broadcast_same encode d = Some b /\ o_opt o' = O_bytes b) /\ o_icam_i o' = i /\ i <> None /\
                (e <> None -> o_icam_e o' = e) /\ (e = None -> exists i', i = Some i' /\ o_icam_e o' = corresponding d i' /\ o_icam_e o' <> None)
    end) /\
  (valid_intrinsics rnd (match size with Some s => s | None => o_size o end) lens intr = false -> o' = o /\ failed = true).
Proof.
  intros rnd bc enc cor p10 o lens intr size opt i e o' failed H. cbn [step] in H. unfold set_intrinsics in H.
  set (sz := match size with Some s => s | None => o_size o end) in *. destruct (valid_intrinsics _ _ _ _); cbn [negb] in H.
  - split; [|split; [|discriminate]].
    + destruct opt as [d|], i as [i|]; try destruct (i <? 0); try destruct (serialize _ _ _); destruct e; try destruct (cor _ _); injection H as <- <-; reflexivity.
    + intros ->. destruct opt as [d|], i as [i|]; try discriminate.
      * destruct (i <? 0); [discriminate|]. destruct (serialize _ _ _) as [b|]; [|discriminate]. destruct e as [e|].
        -- injection H as <-. cbn. repeat split; try congruence. exists b. auto.
        -- destruct (cor d i) as [e|] eqn:E; [|discriminate]. injection H as <-. cbn. repeat split; try congruence; [exists b; auto|].
           intros _. exists i. repeat split; congruence.
      * destruct e; [discriminate|]. injection H as <-. cbn. repeat split.
  - injection H as <- <-. split; [reflexivity|]. split; [discriminate|]. auto.
Qed.
Print Assumptions C45_set_intrinsics.

(** ** Objects that cannot be read back *)
Definition pinhole : string := "LENSMODEL_PINHOLE".
Definition ones : list num := [Fin 1; Fin 1; Fin 1; Fin 1].
(** optimization_inputs_reset() leaves icam_intrinsics and icam_extrinsics *)
Theorem C45_reset_refuted : forall rnd broadcast_same encode corresponding print10, exists o0 history f,
  new_discrete rnd pinhole ones (100, 100) None None = Some o0 /\
  write rnd print10 (run rnd broadcast_same encode corresponding print10 o0 history) = Some f /\ read rnd f = None.
Proof.
  intros rnd bc enc cor p10. do 2 eexists. exists (write_ p10 (Obj pinhole ones (100, 100) (repeat (Fin 0) 6) None O_none (Some 0) (Some 0))). split; [reflexivity|].
  instantiate (1 := [Set_intrinsics pinhole ones None (Some []) (Some 0) (Some 0); Reset_optimization_inputs]). split.
  - vm_compute. reflexivity.
  - cbn -[all_close]. rewrite !all_close_refl. reflexivity.
Qed.
Print Assumptions C45_reset_refuted.
(** a nan *)
Theorem C45_nan_refuted : forall rnd print10, exists o0 f,
  new_discrete rnd pinhole [NonFin; Fin 1; Fin 1; Fin 1] (100, 100) None None = Some o0 /\ write rnd print10 o0 = Some f /\ read rnd f = None.
Proof. intros rnd p10. do 2 eexists. split; [reflexivity|]. split; [reflexivity|]. reflexivity. Qed.
Print Assumptions C45_nan_refuted.
(** a lens model name with a newline before a number *)
Theorem C45_newline_refuted : forall rnd print10, exists lens intr o0 f,
  new_discrete rnd lens intr (100, 100) None None = Some o0 /\ write rnd print10 o0 = Some f /\ read rnd f = None.
Proof.
  intros rnd p10. exists ("LENSMODEL_CAHVORE_linearity=" ++ String "010" "0.5"), (repeat (Fin 1) 12). do 2 eexists. split; [reflexivity|]. split; [reflexivity|]. reflexivity.
Qed.
Print Assumptions C45_newline_refuted.
(** a pose that is not 6 numbers is accepted; then nothing can be written *)
Theorem C45_pose_refuted : forall rnd broadcast_same encode corresponding print10 o rt, List.length rt <> 6%nat ->
  snd (step rnd broadcast_same encode corresponding print10 o (Set_rt rt)) = false /\
  write rnd print10 (run rnd broadcast_same encode corresponding print10 o [Set_rt rt]) = None.
Proof.
  intros rnd bc enc cor p10 o rt H. split; [reflexivity|]. unfold write, run, step, done. cbn [fold_left fst o_lens o_intr o_size o_rt o_region].
  assert (Z.of_nat (List.length rt) =? 6 = false) as -> by lia. now rewrite andb_false_r.
Qed.
Print Assumptions C45_pose_refuted.
(** an exception leaves the intrinsics of one model with the optimization inputs of another *)
Theorem C45_exception_refuted : forall rnd broadcast_same encode corresponding print10 d, corresponding d 0 = None -> serialize broadcast_same encode d <> None ->
  exists o0 o1 o2, new_discrete rnd pinhole ones (100, 100) None None = Some o0 /\
  step rnd broadcast_same encode corresponding print10 o0 (Set_intrinsics pinhole ones None (Some []) (Some 7) (Some 9)) = (o1, false) /\
  step rnd broadcast_same encode corresponding print10 o1 (Set_intrinsics pinhole ones None (Some d) (Some 0) None) = (o2, true) /\
  o_icam_i o2 = Some 0 /\ o_icam_e o2 = Some 9 /\ exists b, serialize broadcast_same encode d = Some b /\ o_opt o2 = O_bytes b.
Proof.
  intros rnd bc enc cor p10 d H N. destruct (serialize bc enc d) as [b|] eqn:E; [|congruence]. do 3 eexists. split; [reflexivity|]. split; [reflexivity|].
  cbn [step]. unfold set_intrinsics. change (valid_intrinsics _ _ _ _) with true. cbn [negb]. change (0 <? 0) with false. rewrite E, H. split; [reflexivity|]. repeat split. now exists b.
Qed.
Print Assumptions C45_exception_refuted.
(** a contour whose two ends are within 1e-6, but are printed differently, gains a point *)
Definition near_ends : list (num * num) := [(Fin (12345678914999 # 1000000000), Fin 1); (Fin 1, Fin 2); (Fin 2, Fin 1); (Fin (12345678915001 # 1000000000), Fin 1)].
Theorem C45_region_refuted : forall rnd print10, print10 (12345678914999 # 1000000000) = 1234567891 # 100000 -> print10 (12345678915001 # 1000000000) = 1234567892 # 100000 ->
  print10 1%Q = 1%Q -> print10 2%Q = 2%Q -> print10 0%Q = 0%Q ->
  exists o0 f o' c, new_discrete rnd pinhole ones (100, 100) None (Some near_ends) = Some o0 /\ o_region o0 = Some near_ends /\
  write rnd print10 o0 = Some f /\ read rnd f = Some o' /\ o_region o' = Some c /\ List.length c = S (List.length near_ends).
Proof.
  intros rnd p10 A B H1 H2 H0. exists (Obj pinhole ones (100, 100) (repeat (Fin 0) 6) (Some near_ends) O_none None None). do 3 eexists. split; [reflexivity|]. split; [reflexivity|]. split; [reflexivity|].
  cbn -[valid_region close_contour all_close]. rewrite A, B, H1, H2, H0. rewrite !all_close_refl. cbn -[valid_region close_contour all_close].
  split; [reflexivity|]. split; reflexivity.
Qed.
Print Assumptions C45_region_refuted.

(** ** A concrete case: a history with all the operations, to which C45_saves_partial applies *)
Example ex_C45 : let id (q : Q) := q in let bc := fun _ _ : val => true in let enc := fun _ : npz => "A0~" in let cor := fun (_ : dict) (_ : Z) => Some (-1) in
  let square := [(Fin 1, Fin 1); (Fin 9, Fin 1); (Fin 9, Fin 9); (Fin 1, Fin 9)] in
  exists o0, new_discrete id "LENSMODEL_OPENCV4" (repeat (Fin 3) 8) (640, 480) None (Some square) = Some o0 /\
  let history := [Reset_optimization_inputs; Set_intrinsics pinhole ones (Some (100, 50)) (Some []) (Some 2) None; Set_region square; Copy; Set_rt (repeat (Fin (1 # 2)) 6);
                  Save_and_load; Reset_region; Set_region square; Set_intrinsics pinhole [] None None None None; Copy] in
  keeps id bc enc cor id o0 history /\
  exists o, run id bc enc cor id o0 history = o /\ printable id o /\ o_opt o = O_str "b'A0~'" /\ o_icam_i o = Some 2 /\ o_icam_e o = Some (-1).
Proof.
  intros. eexists. split; [vm_compute; reflexivity|]. split.
  - vm_compute. repeat split; discriminate.
  - eexists. split; [vm_compute; reflexivity|]. split; [|repeat split].
    split.
    + repeat constructor; eexists; reflexivity.
    + split; [repeat constructor; eexists; reflexivity|reflexivity].
    + intros c [= <-]. split; [repeat constructor; eexists; reflexivity|]. cbn. intros x y x' y' [= <- <-] [= <- <-]. split; reflexivity.
    + cbn. repeat split.
Qed.
