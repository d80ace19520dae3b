(** C46: optimization inputs survive serialization, and any number of cycles of it. *)
From Coq Require Import String List Bool ZArith QArith Lia.
From Verif Require Import M_OptInputs.
Import ListNotations.
Open Scope string_scope.

(** ** Specification *)
(** What an entry means to its reader: missing, None and '' all mean "not given";
    a 0-dimensional array means its element *)
Definition means_item (i : item) : val := match i with I_str "" => V_none | _ => V_item i end.
Definition means (v : option val) : val :=
  match v with
  | None | Some V_none => V_none
  | Some (V_item i) | Some (V_array [] [i]) => means_item i
  | Some v => v
  end.
(** the text that was put in place of a renamed entry is not a value *)
Definition starts_with_ERROR (v : option val) : Prop := exists s, v = Some (V_item (I_str ("ERROR:" ++ s))).
Definition given (v : option val) : Prop := means v <> V_none /\ ~ starts_with_ERROR v.
(** entries with an old and a new name *)
Definition both_names : list (string * string) :=
  [("frames_rt_toref", "rt_ref_frame"); ("extrinsics_rt_fromref", "rt_cam_ref")].
(** entries whose old name is only ever read *)
Definition old_spellings : list (string * string) :=
  [("do_optimize_intrinsic_core", "do_optimize_intrinsics_core"); ("do_optimize_intrinsic_distortions", "do_optimize_intrinsics_distortions")].
(** entries that mean the same when they are left out *)
Definition false_or_empty (v : option val) : Prop :=
  match v with
  | None | Some V_none => True
  | Some (V_item i) => In i [I_bool false; I_str ""] \/ i = I_int 0 \/ exists q, i = I_float q /\ (q == 0)%Q
  | Some (V_array shape _) => In 0%nat shape
  end.
Definition dropped : list string := ["calibration_object_width_n"; "calibration_object_height_n"].

(** numbers without nan and inf *)
Definition numeric (v : option val) : Prop :=
  match v with
  | Some (V_item i) => exists z q, i = I_int z \/ i = I_float q
  | Some (V_array _ x) => Forall (fun i => exists z q, i = I_int z \/ i = I_float q) x
  | _ => False
  end.
(** an array has as many elements as its shape says.  (A 0-dimensional one is
    written V_item) *)
Definition wf_val (v : val) : Prop :=
  match v with V_array shape x => List.length x = size shape /\ shape <> [] | _ => True end.
Definition wf (d : dict) : Prop := NoDup (map fst d) /\ Forall (fun kv => wf_val (snd kv)) d.
(** The two names do not contradict each other *)
Definition clean (names : string * string) (d : dict) : Prop :=
  let old := dget (fst names) d in let new := dget (snd names) d in
  (given old -> new = None \/ (new = old /\ numeric old)) /\
  (starts_with_ERROR old -> means new = V_none \/ numeric new).
(** What the reader of [d] is entitled to find under the key [k] *)
Inductive expected (d : dict) : string -> val -> Prop :=
| E_old_name : forall o n, In (o, n) both_names -> given (dget o d) -> expected d n (means (dget o d))
| E_new_name : forall o n, In (o, n) both_names -> ~ given (dget o d) -> (n = "rt_cam_ref" -> means (dget n d) <> V_none) -> expected d n (means (dget n d))
| E_no_cameras : ~ given (dget "extrinsics_rt_fromref" d) -> means (dget "rt_cam_ref" d) = V_none -> expected d "rt_cam_ref" (V_array [0; 6]%nat [])
| E_new_spelling : forall o n, In (o, n) old_spellings -> dget n d <> None -> expected d n (means (dget n d))
| E_old_spelling : forall o n, In (o, n) old_spellings -> dget n d = None -> expected d n (means (dget o d))
| E_left_out : forall k, In k ignorable_keys -> false_or_empty (dget k d) -> expected d k V_none
| E_kept : forall k, In k ignorable_keys -> ~ false_or_empty (dget k d) -> expected d k (means (dget k d))
| E_plain : forall k, ~ In k ignorable_keys -> (forall p, In p (both_names ++ old_spellings) -> k <> fst p /\ k <> snd p) -> ~ In k dropped ->
    expected d k (means (dget k d)).

(** ** Dicts *)
Lemma dget_dset : forall A k k' (v : A) d, dget k (dset k' v d) = if String.eqb k k' then Some v else dget k d.
Proof.
  intros A k k' v. induction d as [|[k0 v0] d IH]; cbn; [now destruct (String.eqb k k')|].
  destruct (String.eqb_spec k' k0) as [-> |N]; cbn.
  - now destruct (String.eqb_spec k k0).
  - destruct (String.eqb_spec k k0) as [-> |N']; [|exact IH]. destruct (String.eqb_spec k0 k'); [congruence|reflexivity].
Qed.
Lemma dget_ddel : forall A k k' (d : list (string * A)), dget k (ddel k' d) = if String.eqb k k' then None else dget k d.
Proof.
  intros A k k'. induction d as [|[k0 v0] d IH]; cbn; [now destruct (String.eqb k k')|].
  destruct (String.eqb_spec k' k0) as [-> |N]; cbn.
  - rewrite IH. now destruct (String.eqb_spec k k0).
  - destruct (String.eqb_spec k k0) as [-> |N']; [|exact IH]. destruct (String.eqb_spec k0 k'); [congruence|reflexivity].
Qed.
Lemma dget_map : forall A B (f : A -> B) k d, dget k (map (fun kv => (fst kv, f (snd kv))) d) = option_map f (dget k d).
Proof. intros A B f k. induction d as [|[k0 v0] d IH]; [reflexivity|]. cbn. now destruct (String.eqb k k0). Qed.
Lemma dget_in : forall A k (v : A) d, dget k d = Some v -> In (k, v) d.
Proof.
  intros A k v. induction d as [|[k0 v0] d IH]; cbn; [discriminate|]. destruct (String.eqb_spec k k0) as [-> |N]; [intros [= ->]; now left|right; auto].
Qed.
Lemma dget_none : forall A k (d : list (string * A)), ~ In k (map fst d) -> dget k d = None.
Proof.
  intros A k. induction d as [|[k0 v0] d IH]; cbn; [reflexivity|]. intro H. destruct (String.eqb_spec k k0) as [-> |N]; [exfalso; auto|apply IH; auto].
Qed.
Definition no_none (v : val) : val := match v with V_none => V_empty | _ => v end.
Lemma keys_normalized : forall d k, In k (map fst (normalized d)) -> In k (map fst d).
Proof.
  induction d as [|[k0 v0] d IH]; intros k H; [exact H|]. cbn [normalized] in H. cbv zeta in H.
  destruct (_ && _)%bool; [right; now apply IH|]. destruct H as [H|H]; [now left|right; now apply IH].
Qed.
Lemma dget_normalized : forall d k, NoDup (map fst d) -> dget k (normalized d) =
  match dget k d with
  | None => None
  | Some v => if (ignorable_key k && is_default (no_none v))%bool then None else Some (no_none v)
  end.
Proof.
  induction d as [|[k0 v0] d IH]; intros k H; [reflexivity|]. inversion H as [|? ? N H']; subst. cbn [map fst] in N.
  cbn [normalized dget]. cbv zeta. fold (no_none v0).
  destruct (String.eqb_spec k k0) as [-> |Nk].
  - destruct (_ && _)%bool; cbn [dget]; [|now rewrite String.eqb_refl].
    apply dget_none. intro J. apply N, keys_normalized, J.
  - destruct (_ && _)%bool; cbn [dget]; [|rewrite (proj2 (String.eqb_neq _ _) Nk)]; now apply IH.
Qed.
Lemma nodup_normalized : forall d, NoDup (map fst d) -> NoDup (map fst (normalized d)).
Proof.
  induction d as [|[k0 v0] d IH]; intro H; [exact H|]. inversion H as [|? ? N H']; subst. cbn [normalized]. cbv zeta.
  destruct (_ && _)%bool; [now apply IH|]. cbn. constructor; [|now apply IH]. intro J. apply N. now apply keys_normalized.
Qed.

(** ** Values *)
Lemma means_no_none : forall v, means (Some (no_none v)) = means (Some v).
Proof. now intros [| |]. Qed.
Lemma loaded_to_array : forall v, wf_val v -> means (Some (loaded (to_array v))) = means (Some v) /\ (loaded (to_array v) = V_none <-> means (Some v) = V_none).
Proof.
  intros [|i|s x] H; cbn [to_array].
  - now cbn.
  - cbn [loaded]. destruct i as [b|z|q| |s]; cbn; try (split; [reflexivity|split; discriminate]).
    destruct s as [|a s]; cbn; [easy|]. split; [reflexivity|split; discriminate].
  - destruct H as (H & N). destruct s as [|n s]; [easy|]. cbn [loaded]. cbn. split; [reflexivity|split; discriminate].
Qed.
Lemma is_empty_means : forall v, wf_val v -> v <> V_none -> is_empty v = true <-> means (Some v) = V_none.
Proof.
  intros [|i|s x] H N; [easy| |].
  - destruct i as [b|z|q| |[|a s]]; cbn; split; congruence.
  - destruct H as (H & K). destruct s as [|n s]; [easy|cbn; split; congruence].
Qed.
Lemma prefix_app : forall p s, String.prefix p (p ++ s) = true.
Proof. induction p as [|a p IH]; intro s; [now destruct s|]. cbn. destruct (Ascii.ascii_dec a a); [apply IH|congruence]. Qed.
Lemma prefix_split : forall p s, String.prefix p s = true -> exists r, s = p ++ r.
Proof.
  induction p as [|a p IH]; intros s H; [now exists s|]. destruct s as [|b s]; [discriminate|]. cbn in H.
  destruct (Ascii.ascii_dec a b) as [<-|]; [|discriminate]. destruct (IH s H) as (r & ->). now exists r.
Qed.
Lemma is_poison_spec : forall v, is_poison v = true <-> starts_with_ERROR v.
Proof.
  intro v. unfold starts_with_ERROR. split.
  - destruct v as [[|[b|z|q| |s]|]|]; cbn [is_poison]; try discriminate. intro H. destruct (prefix_split _ _ H) as (r & ->). now exists r.
  - intros (s & ->). cbn [is_poison]. apply prefix_app.
Qed.
Lemma same_refl : forall i, (exists z q, i = I_int z \/ i = I_float q) -> same_item i i = true.
Proof. intros i (z & q & [-> | ->]); cbn; [apply Z.eqb_refl|apply Qeq_bool_iff; reflexivity]. Qed.
Lemma np_same_refl : forall bc v, numeric (Some v) -> np_same bc v v = true.
Proof.
  intros bc [|i|s x] H; cbn in H; [contradiction|now apply same_refl|]. cbn. unfold shape_eqb.
  destruct (list_eq_dec Nat.eq_dec s s); [|congruence]. induction H as [|i x Hi Hx IH]; [reflexivity|]. cbn. now rewrite same_refl, IH.
Qed.
Lemma size_zero : forall s, Nat.eqb (size s) 0 = true <-> In 0%nat s.
Proof.
  intro s. rewrite Nat.eqb_eq. induction s as [|n s IH]; cbn; [lia|]. rewrite Nat.eq_mul_0. split; intros [H|H]; auto; right; now apply IH.
Qed.
Lemma is_default_spec : forall v, is_default (no_none v) = true <-> false_or_empty (Some v).
Proof.
  intros [|i|s x]; cbn [no_none is_default false_or_empty].
  - now cbn.
  - destruct i as [b|z|q| |s]; cbn [falsy_item].
    + destruct b; cbn; split; try easy; [|now left; left].
      intros [[H|[H|[]]]|[H|(q & H & _)]]; discriminate.
    + rewrite Z.eqb_eq. split; [intros ->; right; now left|]. intros [[H|[H|[]]]|[H|(q & H & _)]]; try discriminate. congruence.
    + rewrite Qeq_bool_iff. split; [intro H; right; right; now exists q|]. intros [[H|[H|[]]]|[H|(q' & H & E)]]; try discriminate. injection H as ->. exact E.
    + split; [discriminate|]. intros [[H|[H|[]]]|[H|(q & H & _)]]; discriminate.
    + rewrite String.eqb_eq. split; [intros ->; left; right; now left|]. intros [[H|[H|[]]]|[H|(q & H & _)]]; try discriminate. congruence.
  - apply size_zero.
Qed.
Lemma ignorable_spec : forall k, ignorable_key k = true <-> In k ignorable_keys.
Proof.
  intro k. unfold ignorable_key. rewrite existsb_exists. split.
  - intros (x & H & E). apply String.eqb_eq in E. now subst.
  - intro H. exists k. split; [exact H|apply String.eqb_refl].
Qed.
Lemma given_dec : forall v, given v \/ ~ given v.
Proof.
  intro v. unfold given. destruct (is_poison v) eqn:P.
  - right. intros (_ & N). apply N. now apply is_poison_spec.
  - assert (~ starts_with_ERROR v) by (rewrite <- is_poison_spec; congruence).
    destruct (means v) eqn:M; [right; now intros (N & _)|left; split; [discriminate|assumption]..].
Qed.

Section Cycle.
Variable broadcast_same : val -> val -> bool.
Variable encode : npz -> string.
Variable decode : string -> option npz.
Hypothesis codec : forall z, NoDup (map fst z) -> decode (encode z) = Some z.

(** *** One pair of names, on the normalized dict *)
Definition chosen (o n : string) (d : dict) (v : val) : Prop :=
  (given (dget o d) /\ v = means (dget o d)) \/ (~ given (dget o d) /\ v = means (dget n d)).
Definition wf1 (d : dict) : Prop := wf d /\ Forall (fun kv => snd kv <> V_none) d.
Lemma wf1_get : forall d k v, wf1 d -> dget k d = Some v -> wf_val v /\ v <> V_none.
Proof.
  intros d k v ((_ & A) & B) H. apply dget_in in H. rewrite Forall_forall in A, B. split; [exact (A _ H)|exact (B _ H)].
Qed.
Lemma keys_dset : forall A k (v : A) d x, In x (map fst (dset k v d)) -> x = k \/ In x (map fst d).
Proof.
  intros A k v. induction d as [|[k0 v0] d IH]; cbn; intros x H; [intuition|]. destruct (String.eqb k k0); cbn in H; [now right|].
  destruct H as [H|H]; [auto|]. destruct (IH x H); auto.
Qed.
Lemma forall_dset : forall (P : string * val -> Prop) k v d, P (k, v) -> Forall P d -> Forall P (dset k v d).
Proof.
  intros P k v d Pk H. induction H as [|[k0 v0] d H0 H IH]; cbn; [repeat constructor; exact Pk|].
  destruct (String.eqb_spec k k0) as [-> |]; constructor; auto.
Qed.
Lemma forall_ddel : forall (P : string * val -> Prop) k d, Forall P d -> Forall P (ddel k d).
Proof. intros P k d H. induction H as [|[k0 v0] d H0 H IH]; cbn; [constructor|]. destruct (String.eqb k k0); [exact IH|constructor; auto]. Qed.
Lemma wf_dset : forall d k v, wf d -> wf_val v -> wf (dset k v d).
Proof.
  intros d k v (A & B) Hv. split; [|now apply forall_dset].
  clear B. induction d as [|[k0 v0] d IH]; [cbn; constructor; [easy|constructor]|].
  inversion A as [|? ? N A']; subst. cbn [dset]. destruct (String.eqb_spec k k0) as [-> |Nk]; [exact A|].
  cbn. constructor; [|now apply IH]. intro J. apply keys_dset in J. destruct J as [J|J]; [congruence|now apply N].
Qed.
Lemma wf_ddel : forall d k, wf d -> wf (ddel k d).
Proof.
  intros d k (A & B). split; [|now apply forall_ddel]. clear B.
  induction d as [|[k0 v0] d IH]; [constructor|]. inversion A as [|? ? N A']; subst. cbn. destruct (String.eqb k k0); [now apply IH|].
  cbn. constructor; [|now apply IH]. intro J. apply N. clear - J. induction d as [|[k1 v1] d IH]; cbn in *; [easy|]. destruct (String.eqb k k1); cbn in *; intuition.
Qed.
Lemma wf1_dset : forall d k v, wf1 d -> wf_val v -> v <> V_none -> wf1 (dset k v d).
Proof. intros d k v (A & B) Hv Nv. split; [now apply wf_dset|now apply forall_dset]. Qed.
Lemma wf1_ddel : forall d k, wf1 d -> wf1 (ddel k d).
Proof. intros d k (A & B). split; [now apply wf_ddel|now apply forall_ddel]. Qed.
Lemma wf_get : forall d k v, wf d -> dget k d = Some v -> wf_val v.
Proof. intros d k v (_ & B) H. apply dget_in in H. rewrite Forall_forall in B. exact (B _ H). Qed.
Lemma wf_renamed : forall o n p d, wf d -> wf (renamed o n p d).
Proof.
  intros o n p d W. unfold renamed. cbv zeta.
  assert (forall f, wf f -> wf (if p then dset o (poison o n) f else f)) as A by (intros f F; destruct p; [now apply wf_dset|exact F]).
  apply A. destruct (dget o d) eqn:E; [|exact W]. destruct (din n d); [exact W|]. apply wf_ddel, wf_dset; [exact W|]. exact (wf_get _ _ _ W E).
Qed.
Lemma wf_loaded : forall v, wf_val v -> wf_val (loaded (to_array v)).
Proof.
  intros [|i|s x] H; cbn [to_array loaded]; [exact I| |].
  - now destruct (is_empty (V_item i)).
  - destruct s as [|n s]; [now destruct H|exact H].
Qed.

Lemma one_pair : forall o n d, o <> n -> wf1 d -> clean (o, n) d -> exists d1 v,
  renamed_write_old_name broadcast_same o n d = Some d1 /\ wf1 d1 /\ dget n d1 = None /\
  (forall k, k <> o -> k <> n -> dget k d1 = dget k d) /\ chosen o n d v /\ means (dget o d1) = v.
Proof.
  intros o n d Non W (C1 & C2). cbn [fst snd] in C1, C2. unfold renamed_write_old_name. cbv zeta.
  assert (String.eqb o n = false) as Eon by now apply String.eqb_neq. assert (String.eqb n o = false) as Eno by (rewrite String.eqb_sym; exact Eon).
  assert (wf_val V_empty /\ V_empty <> V_none) as (We & Ne) by (split; [exact I|discriminate]).
  set (v_to := match dget n d with Some v => v | None => V_empty end).
  assert (wf_val v_to /\ v_to <> V_none /\ (means (Some v_to) = means (dget n d))) as (Wt & Nt & Mt).
  { unfold v_to. destruct (dget n d) as [v|] eqn:E; [|easy]. destruct (wf1_get _ _ _ W E). easy. }
  assert (is_empty v_to = true <-> means (dget n d) = V_none) as Et by (rewrite <- Mt; exact (is_empty_means _ Wt Nt)).
  destruct (is_poison (dget o d)) eqn:P.
  - (* the old name has been poisoned *)
    pose proof (proj1 (is_poison_spec _) P) as P'. specialize (C2 P').
    assert (~ given (dget o d)) as NG by (intros (_ & G); now apply G).
    rewrite dget_dset, String.eqb_refl. destruct (is_empty v_to) eqn:E; cbn [negb].
    + pose proof (proj1 Et eq_refl) as M. eexists (ddel n (dset o v_to d)), V_none.
      split; [reflexivity|]. split; [now apply wf1_ddel, wf1_dset|].
      split; [now rewrite dget_ddel, String.eqb_refl|]. split.
      { intros k K1 K2. rewrite dget_ddel, dget_dset. apply String.eqb_neq in K1, K2. now rewrite K1, K2. }
      split; [right; now rewrite M|]. rewrite dget_ddel, dget_dset, Eon, String.eqb_refl. now rewrite Mt.
    + assert (means (dget n d) <> V_none) as NM by (intro M; apply Et in M; congruence).
      destruct C2 as [C2|C2]; [easy|].
      assert (dget n d = Some v_to) as En. { unfold v_to. destruct (dget n d); [reflexivity|]. now cbn in NM. }
      rewrite np_same_refl by (rewrite <- En; exact C2).
      eexists (ddel n (dset o v_to d)), (means (dget n d)).
      split; [reflexivity|]. split; [now apply wf1_ddel, wf1_dset|].
      split; [now rewrite dget_ddel, String.eqb_refl|]. split.
      { intros k K1 K2. rewrite dget_ddel, dget_dset. apply String.eqb_neq in K1, K2. now rewrite K1, K2. }
      split; [right; easy|]. rewrite dget_ddel, dget_dset, Eon, String.eqb_refl. exact Mt.
  - assert (~ starts_with_ERROR (dget o d)) as NP by (rewrite <- is_poison_spec; congruence).
    set (v_from := match dget o d with Some v => v | None => V_empty end).
    assert (wf_val v_from /\ v_from <> V_none /\ (means (Some v_from) = means (dget o d))) as (Wf & Nf & Mf).
    { unfold v_from. destruct (dget o d) as [v|] eqn:E; [|easy]. destruct (wf1_get _ _ _ W E). easy. }
    assert (is_empty v_from = true <-> means (dget o d) = V_none) as Ef by (rewrite <- Mf; exact (is_empty_means _ Wf Nf)).
    destruct (is_empty v_from) eqn:E; cbn [negb].
    + pose proof (proj1 Ef eq_refl) as M. assert (~ given (dget o d)) as NG by (intros (G & _); now apply G).
      destruct (is_empty v_to) eqn:E'; cbn [negb].
      * pose proof (proj1 Et eq_refl) as M'. eexists (ddel n d), V_none. split; [reflexivity|]. split; [now apply wf1_ddel|].
        split; [now rewrite dget_ddel, String.eqb_refl|]. split. { intros k K1 K2. rewrite dget_ddel. apply String.eqb_neq in K2. now rewrite K2. }
        split; [right; now rewrite M'|]. now rewrite dget_ddel, Eon.
      * eexists (ddel n (dset o v_to d)), (means (dget n d)).
        split; [reflexivity|]. split; [now apply wf1_ddel, wf1_dset|].
        split; [now rewrite dget_ddel, String.eqb_refl|]. split.
        { intros k K1 K2. rewrite dget_ddel, dget_dset. apply String.eqb_neq in K1, K2. now rewrite K1, K2. }
        split; [right; easy|]. rewrite dget_ddel, dget_dset, Eon, String.eqb_refl. exact Mt.
    + assert (given (dget o d)) as G. { split; [|exact NP]. intro M. apply Ef in M. congruence. }
      destruct (C1 G) as [C|(C & Cn)].
      * assert (v_to = V_empty) as Ev by (unfold v_to; now rewrite C). rewrite Ev. cbn [is_empty V_empty String.eqb].
        eexists d, (means (dget o d)). split; [reflexivity|]. split; [exact W|]. split; [exact C|]. split; [easy|]. split; [now left|reflexivity].
      * assert (v_to = v_from) as Ev by (unfold v_to, v_from; now rewrite C). rewrite Ev, E.
        assert (dget o d = Some v_from) as Eo. { unfold v_from. destruct (dget o d); [reflexivity|]. now destruct G. }
        rewrite np_same_refl by (rewrite <- Eo; exact Cn).
        eexists (ddel n d), (means (dget o d)). split; [reflexivity|]. split; [now apply wf1_ddel|].
        split; [now rewrite dget_ddel, String.eqb_refl|]. split. { intros k K1 K2. rewrite dget_ddel. apply String.eqb_neq in K2. now rewrite K2. }
        split; [now left|]. now rewrite dget_ddel, Eon.
Qed.
Lemma wf1_normalized : forall d, wf d -> wf1 (normalized d).
Proof.
  intros d (A & B). split; [split; [now apply nodup_normalized|]|].
  - clear A. induction B as [|[k v] d H B IH]; [constructor|]. cbn [normalized]. cbv zeta. destruct (_ && _)%bool; [exact IH|]. constructor; [|exact IH]. now destruct v.
  - clear. induction d as [|[k v] d IH]; [constructor|]. cbn [normalized]. cbv zeta. destruct (_ && _)%bool; [exact IH|]. constructor; [|exact IH]. now destruct v.
Qed.
Lemma not_ignorable_get : forall d k, wf d -> ignorable_key k = false -> dget k (normalized d) = option_map no_none (dget k d).
Proof. intros d k (W & _) H. rewrite dget_normalized, H by exact W. now destruct (dget k d). Qed.
Lemma poison_no_none : forall v, starts_with_ERROR (option_map no_none v) <-> starts_with_ERROR v.
Proof.
  intros [[|i|s x]|]; cbn; try easy. split; intros (s & H); [|discriminate]. unfold V_empty in H. destruct s; discriminate.
Qed.
Lemma means_opt : forall v, means (option_map no_none v) = means v.
Proof. intros [v|]; [apply means_no_none|reflexivity]. Qed.
Lemma given_no_none : forall v, given (option_map no_none v) <-> given v.
Proof. intro v. unfold given. now rewrite means_opt, poison_no_none. Qed.
Lemma numeric_no_none : forall v, numeric v -> numeric (option_map no_none v).
Proof. intros [[| |]|]; easy. Qed.
Lemma clean_normalized : forall o n d, wf d -> ignorable_key o = false -> ignorable_key n = false -> clean (o, n) d -> clean (o, n) (normalized d).
Proof.
  intros o n d W Ho Hn (A & B). unfold clean. cbn [fst snd] in *. rewrite !not_ignorable_get by easy.
  rewrite given_no_none, poison_no_none, means_opt. split.
  - intro G. destruct (A G) as [->|(-> & N)]; [now left|right]. split; [reflexivity|now apply numeric_no_none].
  - intro P. destruct (B P) as [M|N]; [now left|right; now apply numeric_no_none].
Qed.
Lemma chosen_normalized : forall o n d v, wf d -> ignorable_key o = false -> ignorable_key n = false -> chosen o n (normalized d) v -> chosen o n d v.
Proof.
  intros o n d v W Ho Hn. unfold chosen. rewrite !not_ignorable_get by easy. rewrite given_no_none, !means_opt. easy.
Qed.

(** *** All of it: the lookups in the result *)
Definition lo (v : option val) : option val := option_map (fun v => loaded (to_array v)) v.
Lemma means_lo : forall d k, wf1 d -> means (lo (dget k d)) = means (dget k d).
Proof. intros d k W. destruct (dget k d) as [v|] eqn:E; [|reflexivity]. cbn. apply loaded_to_array. exact (proj1 (wf1_get _ _ _ W E)). Qed.
Lemma cycle_lookups : forall d, wf d -> (forall p, In p both_names -> clean p d) ->
  exists text d' vf ve, serialize broadcast_same encode d = Some text /\ deserialize decode text = Some d' /\
    chosen "frames_rt_toref" "rt_ref_frame" d vf /\ chosen "extrinsics_rt_fromref" "rt_cam_ref" d ve /\
    means (dget "rt_ref_frame" d') = vf /\
    means (dget "rt_cam_ref" d') = (match ve with V_none => zeros06 | _ => ve end) /\
    dget "frames_rt_toref" d' = Some (poison "frames_rt_toref" "rt_ref_frame") /\
    dget "extrinsics_rt_fromref" d' = Some (poison "extrinsics_rt_fromref" "rt_cam_ref") /\
    (forall o n, In (o, n) old_spellings -> means (dget n d') = match dget n d with Some v => means (Some v) | None => means (dget o d) end) /\
    (forall o n, In (o, n) old_spellings -> dget n d' = None -> dget o d' = None) /\
    (forall k, In k dropped -> dget k d' = None) /\
    (forall k, In k ignorable_keys -> false_or_empty (dget k d') <-> false_or_empty (dget k (normalized d))) /\
    (forall k, (forall p, In p (both_names ++ old_spellings) -> k <> fst p /\ k <> snd p) -> ~ In k dropped -> means (dget k d') = means (dget k (normalized d))) /\
    wf d'.
Proof.
  intros d W C. pose proof (wf1_normalized d W) as W1.
  assert (clean ("frames_rt_toref", "rt_ref_frame") (normalized d)) as Cf by (apply clean_normalized; try easy; apply C; now left).
  assert (clean ("extrinsics_rt_fromref", "rt_cam_ref") (normalized d)) as Ce by (apply clean_normalized; try easy; apply C; right; now left).
  destruct (one_pair "frames_rt_toref" "rt_ref_frame" (normalized d) ltac:(discriminate) W1 Cf) as (d1 & vf & S1 & W2 & N1 & K1 & Ch1 & M1).
  assert (clean ("extrinsics_rt_fromref", "rt_cam_ref") d1) as Ce'.
  { unfold clean in *. cbn [fst snd] in *. rewrite !K1 by discriminate. exact Ce. }
  destruct (one_pair "extrinsics_rt_fromref" "rt_cam_ref" d1 ltac:(discriminate) W2 Ce') as (d2 & ve & S2 & W3 & N2 & K2 & Ch2 & M2).
  set (L := fun k => lo (dget k d2)).
  assert (NoDup (map fst (savez d2))) as ND.
  { unfold savez. rewrite map_map. cbn [fst]. exact (proj1 (proj1 W3)). }
  exists (encode (savez d2)). eexists. exists vf, ve.
  split. { unfold serialize. rewrite S1, S2. reflexivity. }
  split. { unfold deserialize. rewrite codec by exact ND. reflexivity. }
  split. { apply chosen_normalized; easy. }
  split. { apply chosen_normalized; try easy. unfold chosen in *. rewrite !K1 in Ch2 by discriminate. exact Ch2. }
  set (dl := map (fun kv => (fst kv, loaded (snd kv))) (savez d2)).
  assert (forall k, dget k dl = L k) as EL.
  { intro k. unfold dl, L. rewrite dget_map. unfold savez. rewrite dget_map. now destruct (dget k d2). }
  (* one renaming at a time, as a function of the lookups *)
  assert (forall o n p f, o <> n -> forall k, dget k (renamed o n p f) =
     if (p && String.eqb k o)%bool then Some (poison o n) else
     if String.eqb k n then (match dget n f with Some v => Some v | None => dget o f end) else
     if String.eqb k o then (match dget n f with Some _ => dget o f | None => None end) else dget k f) as RN.
  { intros o n p f Non k. unfold renamed. cbv zeta.
    assert (forall f, dget k (if p then dset o (poison o n) f else f) = if (p && String.eqb k o)%bool then Some (poison o n) else dget k f) as A.
    { intro f'. destruct p; cbn [andb]; [apply dget_dset|reflexivity]. }
    rewrite A. destruct (p && String.eqb k o)%bool; [reflexivity|]. unfold din.
    destruct (dget o f) as [v|] eqn:Eo, (dget n f) as [w|] eqn:En.
    - destruct (String.eqb_spec k n) as [-> |]; [exact En|]. destruct (String.eqb_spec k o) as [-> |]; [exact Eo|reflexivity].
    - rewrite dget_ddel, dget_dset. destruct (String.eqb_spec k n) as [-> |].
      + destruct (String.eqb_spec n o); [congruence|]. reflexivity.
      + destruct (String.eqb_spec k o) as [-> |]; reflexivity.
    - destruct (String.eqb_spec k n) as [-> |]; [exact En|]. destruct (String.eqb_spec k o) as [-> |]; [exact Eo|reflexivity].
    - destruct (String.eqb_spec k n) as [-> |]; [exact En|]. destruct (String.eqb_spec k o) as [-> |]; [exact Eo|reflexivity]. }
  set (d3 := renamed "do_optimize_intrinsic_core" "do_optimize_intrinsics_core" false dl).
  set (d4 := renamed "do_optimize_intrinsic_distortions" "do_optimize_intrinsics_distortions" false d3).
  set (d5 := renamed "frames_rt_toref" "rt_ref_frame" true d4).
  set (d6 := renamed "extrinsics_rt_fromref" "rt_cam_ref" true d5).
  set (d7 := ddel "calibration_object_width_n" d6).
  set (d8 := ddel "calibration_object_height_n" d7).
  assert (forall k, dget k d3 = _) as E3 by (intro k; unfold d3; apply RN; discriminate).
  assert (forall k, dget k d4 = _) as E4 by (intro k; unfold d4; apply RN; discriminate).
  assert (forall k, dget k d5 = _) as E5 by (intro k; unfold d5; apply RN; discriminate).
  assert (forall k, dget k d6 = _) as E6 by (intro k; unfold d6; apply RN; discriminate).
  assert (forall k, dget k d7 = _) as E7 by (intro k; unfold d7; apply dget_ddel).
  assert (forall k, dget k d8 = _) as E8 by (intro k; unfold d8; apply dget_ddel).
  set (d9 := match dget "rt_cam_ref" d8 with None | Some V_none => dset "rt_cam_ref" zeros06 d8 | Some _ => d8 end).
  assert (L "rt_ref_frame" = None) as L1 by (unfold L; rewrite K2 by discriminate; now rewrite N1).
  assert (L "rt_cam_ref" = None) as L2 by (unfold L; now rewrite N2).
  assert (means (L "frames_rt_toref") = vf) as L3. { unfold L. rewrite means_lo by easy. rewrite K2 by discriminate. exact M1. }
  assert (means (L "extrinsics_rt_fromref") = ve) as L4. { unfold L. rewrite means_lo by easy. exact M2. }
  assert (dget "rt_cam_ref" d8 = L "extrinsics_rt_fromref") as G8.
  { rewrite E8. cbn [String.eqb Ascii.eqb Bool.eqb]. rewrite E7. cbn [String.eqb Ascii.eqb Bool.eqb]. rewrite E6. cbn [String.eqb Ascii.eqb Bool.eqb andb].
    rewrite !E5. cbn [String.eqb Ascii.eqb Bool.eqb andb]. rewrite !E4. cbn [String.eqb Ascii.eqb Bool.eqb andb]. rewrite !E3. cbn [String.eqb Ascii.eqb Bool.eqb andb].
    rewrite !EL, L2. reflexivity. }
  assert (forall k, k <> "rt_cam_ref" -> dget k d9 = dget k d8) as E9.
  { intros k K. unfold d9. destruct (dget "rt_cam_ref" d8) as [[| |]|]; try reflexivity; rewrite dget_dset; apply String.eqb_neq in K; now rewrite K. }
  assert (forall k v, L k = Some v -> v = V_none <-> means (L k) = V_none) as LV.
  { intros k v. unfold L. destruct (dget k d2) as [w|] eqn:E; [|discriminate]. cbn [lo option_map]. intros [= <-].
    destruct (loaded_to_array w (proj1 (wf1_get _ _ _ W3 E))) as (A & B). rewrite A. exact B. }
  repeat match goal with |- _ /\ _ => split end.
  - rewrite E9 by discriminate. rewrite E8. cbn [String.eqb Ascii.eqb Bool.eqb]. rewrite E7. cbn [String.eqb Ascii.eqb Bool.eqb]. rewrite E6. cbn [String.eqb Ascii.eqb Bool.eqb andb].
    rewrite !E5. cbn [String.eqb Ascii.eqb Bool.eqb andb]. rewrite !E4. cbn [String.eqb Ascii.eqb Bool.eqb andb]. rewrite !E3. cbn [String.eqb Ascii.eqb Bool.eqb andb].
    rewrite !EL, L1. exact L3.
  - unfold d9. rewrite G8. destruct (L "extrinsics_rt_fromref") as [v|] eqn:Ev.
    + pose proof (LV _ _ Ev) as LV'. rewrite Ev, L4 in LV'. destruct v as [|i|s x].
      * rewrite dget_dset. cbn [String.eqb Ascii.eqb Bool.eqb]. now rewrite (proj1 LV' eq_refl).
      * rewrite G8. destruct ve; [destruct LV' as (_ & X); discriminate (X eq_refl)|exact L4|exact L4].
      * rewrite G8. destruct ve; [destruct LV' as (_ & X); discriminate (X eq_refl)|exact L4|exact L4].
    + rewrite dget_dset. cbn [String.eqb Ascii.eqb Bool.eqb]. rewrite <- L4. reflexivity.
  - rewrite E9 by discriminate. rewrite E8. cbn [String.eqb Ascii.eqb Bool.eqb]. rewrite E7. cbn [String.eqb Ascii.eqb Bool.eqb]. rewrite E6. cbn [String.eqb Ascii.eqb Bool.eqb andb].
    rewrite !E5. reflexivity.
  - rewrite E9 by discriminate. rewrite E8. cbn [String.eqb Ascii.eqb Bool.eqb]. rewrite E7. cbn [String.eqb Ascii.eqb Bool.eqb]. rewrite E6. reflexivity.
  - intros o n H.
    assert (forall k, In k ["do_optimize_intrinsic_core"; "do_optimize_intrinsics_core"; "do_optimize_intrinsic_distortions"; "do_optimize_intrinsics_distortions"] ->
      dget k d2 = option_map no_none (dget k d)) as Kd.
    { intros k [<-|[<-|[<-|[<-|[]]]]]; rewrite K2, K1 by discriminate; now apply not_ignorable_get. }
    assert (forall k, dget k d2 = option_map no_none (dget k d) -> L k = None <-> dget k d = None) as KN.
    { intros k E. unfold L. rewrite E. now destruct (dget k d). }
    assert (forall k, dget k d2 = option_map no_none (dget k d) -> means (L k) = means (dget k d)) as KM.
    { intros k E. unfold L. rewrite means_lo by easy. rewrite E. apply means_opt. }
    assert (means (dget n d9) = means (match L n with Some v => Some v | None => L o end)) as G.
    { destruct H as [H|[H|[]]]; injection H as <- <-; rewrite E9 by discriminate; rewrite E8; cbn [String.eqb Ascii.eqb Bool.eqb]; rewrite E7; cbn [String.eqb Ascii.eqb Bool.eqb]; rewrite E6; cbn [String.eqb Ascii.eqb Bool.eqb andb];
      rewrite !E5; cbn [String.eqb Ascii.eqb Bool.eqb andb]; rewrite !E4; cbn [String.eqb Ascii.eqb Bool.eqb andb]; rewrite ?E3; cbn [String.eqb Ascii.eqb Bool.eqb andb]; now rewrite !EL. }
    rewrite G.
    assert (dget o d2 = option_map no_none (dget o d) /\ dget n d2 = option_map no_none (dget n d)) as (Ko & Kn).
    { destruct H as [H|[H|[]]]; injection H as <- <-; split; apply Kd; cbn; auto. }
    pose proof (KN n Kn) as Q. pose proof (KM n Kn) as Qm. destruct (L n) as [v|] eqn:Ev, (dget n d) as [w|] eqn:Ew; try (destruct Q as (Q1 & Q2); discriminate (Q1 eq_refl) || discriminate (Q2 eq_refl)).
    + exact Qm.
    + now apply KM.
  - intros o n [H|[H|[]]]; injection H as <- <-; rewrite !E9 by discriminate; rewrite !E8; cbn [String.eqb Ascii.eqb Bool.eqb]; rewrite !E7; cbn [String.eqb Ascii.eqb Bool.eqb]; rewrite !E6; cbn [String.eqb Ascii.eqb Bool.eqb andb];
      rewrite !E5; cbn [String.eqb Ascii.eqb Bool.eqb andb]; rewrite !E4; cbn [String.eqb Ascii.eqb Bool.eqb andb]; rewrite ?E3; cbn [String.eqb Ascii.eqb Bool.eqb andb]; rewrite !EL;
      [destruct (L "do_optimize_intrinsics_core")|destruct (L "do_optimize_intrinsics_distortions")]; easy.
  - intros k [<-|[<-|[]]]; rewrite E9 by discriminate; rewrite E8; [|reflexivity]. cbn [String.eqb Ascii.eqb Bool.eqb]. rewrite E7. reflexivity.
  - intros k H.
    assert (dget k d9 = L k) as ->.
    { destruct H as [<-|[<-|[<-|[]]]]; rewrite E9 by discriminate; rewrite E8; cbn [String.eqb Ascii.eqb Bool.eqb]; rewrite E7; cbn [String.eqb Ascii.eqb Bool.eqb]; rewrite E6; cbn [String.eqb Ascii.eqb Bool.eqb andb];
      rewrite E5; cbn [String.eqb Ascii.eqb Bool.eqb andb]; rewrite E4; cbn [String.eqb Ascii.eqb Bool.eqb andb]; rewrite E3; cbn [String.eqb Ascii.eqb Bool.eqb andb]; apply EL. }
    assert (dget k d2 = dget k (normalized d)) as <- by (destruct H as [<-|[<-|[<-|[]]]]; rewrite K2, K1 by discriminate; reflexivity).
    unfold L. destruct (dget k d2) as [v|] eqn:E; [|easy]. destruct (wf1_get _ _ _ W3 E) as (Wv & Nv). cbn [lo option_map].
    destruct v as [|i|s x]; [easy| |].
    + cbn [to_array loaded]. destruct (is_empty (V_item i)) eqn:Ei; [|easy]. destruct i as [| | | |t]; try discriminate. cbn in Ei. apply String.eqb_eq in Ei. subst t. cbn. split; auto.
    + destruct s as [|n s]; [now destruct Wv|]. easy.
  - intros k Hk Nk.
    assert (k <> "frames_rt_toref" /\ k <> "rt_ref_frame" /\ k <> "extrinsics_rt_fromref" /\ k <> "rt_cam_ref") as (Q1 & Q2 & Q3 & Q4).
    { pose proof (Hk _ (or_introl eq_refl)) as (A & B). pose proof (Hk _ (or_intror (or_introl eq_refl))) as (A' & B'). now repeat split. }
    pose proof (Hk _ (or_intror (or_intror (or_introl eq_refl)))) as (Q5 & Q6). pose proof (Hk _ (or_intror (or_intror (or_intror (or_introl eq_refl))))) as (Q7 & Q8). cbn [fst snd] in Q5, Q6, Q7, Q8.
    assert (k <> "calibration_object_width_n" /\ k <> "calibration_object_height_n") as (Q9 & Q10) by (split; intros ->; apply Nk; cbn; auto).
    rewrite E9 by exact Q4. rewrite E8, (proj2 (String.eqb_neq _ _) Q10). rewrite E7, (proj2 (String.eqb_neq _ _) Q9).
    rewrite E6, (proj2 (String.eqb_neq _ _) Q3), (proj2 (String.eqb_neq _ _) Q4). cbn [andb].
    rewrite E5, (proj2 (String.eqb_neq _ _) Q1), (proj2 (String.eqb_neq _ _) Q2). cbn [andb].
    rewrite E4, (proj2 (String.eqb_neq _ _) Q7), (proj2 (String.eqb_neq _ _) Q8). cbn [andb].
    rewrite E3, (proj2 (String.eqb_neq _ _) Q5), (proj2 (String.eqb_neq _ _) Q6). cbn [andb].
    rewrite EL. unfold L. rewrite means_lo by easy. now rewrite K2, K1 by assumption.
  - assert (wf d8) as W8.
    { unfold d8, d7, d6, d5, d4, d3. do 2 apply wf_ddel. do 4 apply wf_renamed. unfold dl, savez. rewrite map_map. cbn [fst snd].
      destruct W3 as ((A & B) & _). split; [rewrite map_map; exact A|]. clear - B. induction B as [|[k v] f H B IH]; [constructor|]. constructor; [now apply wf_loaded|exact IH]. }
    unfold d9. destruct (dget "rt_cam_ref" d8) as [[| |]|]; try exact W8; apply wf_dset; try exact W8; (split; [reflexivity|discriminate]).
Qed.
Definition cycle (d : dict) : option dict :=
  match serialize broadcast_same encode d with Some text => deserialize decode text | None => None end.

Lemma plain_lookup : forall d k, wf d -> ~ In k ignorable_keys -> means (dget k (normalized d)) = means (dget k d).
Proof.
  intros d k W H. rewrite not_ignorable_get; [apply means_opt|exact W|]. destruct (ignorable_key k) eqn:E; [|reflexivity]. apply ignorable_spec in E. contradiction.
Qed.
Lemma poison_not_given : forall o n, ~ given (Some (poison o n)).
Proof. intros o n (_ & H). apply H. unfold starts_with_ERROR, poison. eexists. reflexivity. Qed.

Lemma ignorable_disjoint : forall k, In k ignorable_keys ->
  (forall p, In p (both_names ++ old_spellings) -> k <> fst p /\ k <> snd p) /\ ~ In k dropped.
Proof.
  intros k H. split; [intros p P|intro P]; destruct H as [<-|[<-|[<-|[]]]]; cbn in P; intuition subst; discriminate.
Qed.
Lemma means_array : forall d k, wf d -> numeric (Some (means (dget k d))) -> numeric (dget k d).
Proof.
  intros d k W. destruct (dget k d) as [[|i|s x]|] eqn:E; try easy.
  - destruct i as [| | | |[|]]; easy.
  - pose proof (wf_get _ _ _ W E) as (_ & N). now destruct s.
Qed.

Lemma pair_expected : forall p d, In p both_names -> exists v, expected d (snd p) v.
Proof.
  intros p d H. destruct (given_dec (dget (fst p) d)) as [G|G].
  - exists (means (dget (fst p) d)). destruct p. now apply E_old_name.
  - destruct H as [<-|[<-|[]]]; cbn [fst snd] in *.
    + exists (means (dget "rt_ref_frame" d)). apply (E_new_name d "frames_rt_toref"); [now left|exact G|discriminate].
    + destruct (means (dget "rt_cam_ref" d)) eqn:E; [eexists; now apply E_no_cameras| |];
        (exists (means (dget "rt_cam_ref" d)); apply (E_new_name d "extrinsics_rt_fromref"); [right; now left|exact G|]; intros _; rewrite E; discriminate).
Qed.

(** One cycle: what is read is what is expected of what was written, again
    without contradictions, again with the same expectations *)
Lemma one_cycle : forall d, wf d -> (forall p, In p both_names -> clean p d) ->
  exists d', cycle d = Some d' /\ wf d' /\
    (forall k v, expected d k v -> means (dget k d') = v /\ expected d' k v) /\
    (forall p, In p both_names -> starts_with_ERROR (dget (fst p) d')) /\
    ((forall p v, In p both_names -> expected d (snd p) v -> v = V_none \/ numeric (Some v)) -> forall p, In p both_names -> clean p d').
Proof.
  intros d W C. destruct (cycle_lookups d W C) as (text & d' & vf & ve & S & D & Cf & Ce & Mf & Me & Pf & Pe & Sp & Sn & Dr & Ig & Pl & W').
  exists d'. unfold cycle. rewrite S. split; [exact D|]. split; [exact W'|].
  assert (forall p, In p both_names -> starts_with_ERROR (dget (fst p) d')) as PE.
  { intros p [<-|[<-|[]]]; cbn [fst]; rewrite ?Pf, ?Pe; eexists; reflexivity. }
  assert (forall p, In p both_names -> ~ given (dget (fst p) d')) as PN by (intros p H (_ & N); now apply N, PE).
  assert (forall k, ~ In k ignorable_keys -> (forall p, In p (both_names ++ old_spellings) -> k <> fst p /\ k <> snd p) -> ~ In k dropped -> means (dget k d') = means (dget k d)) as Pl'.
  { intros k A B E. rewrite Pl by easy. now apply plain_lookup. }
  assert (forall k v, expected d k v -> means (dget k d') = v /\ expected d' k v) as X.
  { intros k v H. destruct H as [o n H G|o n H G E|G E|o n H E|o n H E|k H E|k H E|k H H' H''].
    - destruct H as [H|[H|[]]]; injection H as <- <-.
      + destruct Cf as [(_ & Cf)|(N & _)]; [|contradiction]. rewrite Mf, Cf. split; [reflexivity|].
        rewrite <- Cf, <- Mf. apply (E_new_name d' "frames_rt_toref"); [now left|apply (PN ("frames_rt_toref", "rt_ref_frame")); now left|discriminate].
      + destruct Ce as [(_ & Ce)|(N & _)]; [|contradiction]. rewrite Ce in Me.
        assert (means (dget "rt_cam_ref" d') = means (dget "extrinsics_rt_fromref" d)) as E.
        { rewrite Me. destruct G as (G & _). now destruct (means (dget "extrinsics_rt_fromref" d)). }
        split; [exact E|]. rewrite <- E. apply (E_new_name d' "extrinsics_rt_fromref"); [right; now left|apply (PN ("extrinsics_rt_fromref", "rt_cam_ref")); right; now left|]. intros _. rewrite E. apply G.
    - destruct H as [H|[H|[]]]; injection H as <- <-.
      + destruct Cf as [(N & _)|(_ & Cf)]; [contradiction|]. rewrite Mf, Cf. split; [reflexivity|].
        rewrite <- Cf, <- Mf. apply (E_new_name d' "frames_rt_toref"); [now left|apply (PN ("frames_rt_toref", "rt_ref_frame")); now left|discriminate].
      + destruct Ce as [(N & _)|(_ & Ce)]; [contradiction|]. rewrite Ce in Me. specialize (E eq_refl).
        assert (means (dget "rt_cam_ref" d') = means (dget "rt_cam_ref" d)) as E'.
        { rewrite Me. now destruct (means (dget "rt_cam_ref" d)). }
        split; [exact E'|]. rewrite <- E'. apply (E_new_name d' "extrinsics_rt_fromref"); [right; now left|apply (PN ("extrinsics_rt_fromref", "rt_cam_ref")); right; now left|]. intros _. now rewrite E'.
    - destruct Ce as [(N & _)|(_ & Ce)]; [contradiction|]. rewrite E in Ce. subst ve. split; [exact Me|].
      replace (V_array [0%nat; 6%nat] []) with (means (dget "rt_cam_ref" d')).
      apply (E_new_name d' "extrinsics_rt_fromref"); [right; now left|apply (PN ("extrinsics_rt_fromref", "rt_cam_ref")); right; now left|]. intros _. now rewrite Me.
    - pose proof (Sp o n H) as M. destruct (dget n d) as [w|]; [|easy]. split; [exact M|]. rewrite <- M.
      destruct (dget n d') as [w'|] eqn:E'; [rewrite <- E'; apply (E_new_spelling d' o); [exact H|congruence]|].
      rewrite <- (Sn o n H E'). now apply E_old_spelling.
    - pose proof (Sp o n H) as M. rewrite E in M. split; [exact M|]. rewrite <- M.
      destruct (dget n d') as [w'|] eqn:E'; [rewrite <- E'; apply (E_new_spelling d' o); [exact H|congruence]|].
      rewrite <- (Sn o n H E'). now apply E_old_spelling.
    - destruct (ignorable_disjoint k H) as (A & B).
      assert (dget k (normalized d) = None) as N.
      { rewrite dget_normalized by apply W. destruct (dget k d) as [v|] eqn:Ev; [|reflexivity].
        rewrite (proj2 (ignorable_spec k) H), (proj2 (is_default_spec v) E). reflexivity. }
      split; [rewrite Pl by easy; now rewrite N|]. apply E_left_out; [exact H|]. apply Ig; [exact H|]. now rewrite N.
    - destruct (ignorable_disjoint k H) as (A & B).
      assert (dget k (normalized d) = option_map no_none (dget k d)) as N.
      { rewrite dget_normalized by apply W. destruct (dget k d) as [v|] eqn:Ev; [|reflexivity].
        destruct (is_default (no_none v)) eqn:F; [apply is_default_spec in F; contradiction|]. now rewrite andb_false_r. }
      assert (means (dget k d') = means (dget k d)) as M. { rewrite Pl by easy. rewrite N. apply means_opt. }
      split; [exact M|]. rewrite <- M. apply E_kept; [exact H|]. intro F. apply E. apply Ig in F; [|exact H]. rewrite N in F.
      destruct (dget k d) as [[| |]|]; try exact F; exact I.
    - pose proof (Pl' k H H' H'') as M. split; [exact M|]. rewrite <- M. now apply E_plain. }
  split; [exact X|]. split; [exact PE|].
  intros F p H. split.
  - intro G. exfalso. now apply (PN p H).
  - intros _. assert (exists v, expected d (snd p) v) as (v & Ev).
    { now apply pair_expected. }
    destruct (X _ _ Ev) as (M & _). destruct (F p v H Ev) as [-> |N]; [left; exact M|right]. apply means_array; [exact W'|]. now rewrite M.
Qed.

Fixpoint cycles (n : nat) (d : dict) : option dict :=
  match n with O => Some d | S n => match cycle d with Some d => cycles n d | None => None end end.
Lemma many_cycles : forall n d, wf d -> (forall p, In p both_names -> clean p d) ->
  (forall p v, In p both_names -> expected d (snd p) v -> v = V_none \/ numeric (Some v)) ->
  exists d', cycles (S n) d = Some d' /\ forall k v, expected d k v -> means (dget k d') = v.
Proof.
  induction n as [|n IH]; intros d W C F.
  - destruct (one_cycle d W C) as (d' & E & _ & X & _). exists d'. cbn. rewrite E. split; [reflexivity|]. intros k v H. now apply X.
  - destruct (one_cycle d W C) as (d' & E & W' & X & _ & C').
    assert (forall p v, In p both_names -> expected d' (snd p) v -> v = V_none \/ numeric (Some v)) as F'.
    { intros p v H Ev.
      assert (means (dget (snd p) d') = v \/ v = V_array [0%nat; 6%nat] []) as [M|M].
      { destruct (one_cycle d' W' (C' F)) as (d'' & _ & _ & X' & _).
        assert (exists w, expected d (snd p) w) as (w & Ew).
        { now apply pair_expected. }
        destruct (X _ _ Ew) as (M1 & Ew'). destruct (X' _ _ Ew') as (M2 & _). destruct (X' _ _ Ev) as (M3 & _). left. congruence. }
      - assert (exists w, expected d (snd p) w) as (w & Ew).
        { now apply pair_expected. }
        destruct (X _ _ Ew) as (M1 & _). rewrite M in M1. subst w. now apply (F p).
      - right. subst v. constructor. }
    destruct (IH d' W' (C' F) F') as (d'' & E' & X'). exists d''. split. { cbn [cycles]. rewrite E. exact E'. }
    intros k v H. apply X'. now apply X.
Qed.
End Cycle.

(** Any dict, with any subset of the keys: it is written, read back, and every
    entry is what it was: under the new name if it has one, whichever name it
    came with; the defaults that are left out, and the rt_cam_ref of no cameras,
    come back as such.  [encode], [decode]: numpy's and base85's exact codec.
    Missing from the full claim: dicts where the old and the new name are both
    present, which are lost or refused (below). *)
Theorem C46_roundtrip_partial : forall broadcast_same encode decode,
  (forall z, NoDup (map fst z) -> decode (encode z) = Some z) ->
  forall d, wf d -> (forall p, In p both_names -> clean p d) ->
  exists text d', serialize broadcast_same encode d = Some text /\ deserialize decode text = Some d' /\
    (forall k v, expected d k v -> means (dget k d') = v) /\
    (forall p, In p both_names -> starts_with_ERROR (dget (fst p) d')).
Proof.
  intros bc enc dec codec d W C. destruct (one_cycle bc enc dec codec d W C) as (d' & E & _ & X & P & _).
  unfold cycle in E. destruct (serialize bc enc d) as [text|]; [|discriminate]. exists text, d'.
  split; [reflexivity|]. split; [exact E|]. split; [|exact P]. intros k v H. now apply X.
Qed.
Print Assumptions C46_roundtrip_partial.
(** ... and after any number of such cycles *)
Theorem C46_cycles_partial : forall broadcast_same encode decode,
  (forall z, NoDup (map fst z) -> decode (encode z) = Some z) ->
  forall n d, wf d -> (forall p, In p both_names -> clean p d) ->
  (forall p v, In p both_names -> expected d (snd p) v -> v = V_none \/ numeric (Some v)) ->
  exists d', cycles broadcast_same encode decode (S n) d = Some d' /\ forall k v, expected d k v -> means (dget k d') = v.
Proof. exact many_cycles. Qed.
Print Assumptions C46_cycles_partial.
(** ... for every key that has a meaning *)
Theorem C46_every_key : forall d k, (forall p, In p (both_names ++ old_spellings) -> k <> fst p) -> ~ In k dropped -> exists v, expected d k v.
Proof.
  intros d k H N.
  destruct (in_dec string_dec k ignorable_keys) as [I|I].
  - destruct (is_default (no_none (match dget k d with Some v => v | None => V_none end))) eqn:E.
    + exists V_none. apply E_left_out; [exact I|]. apply is_default_spec in E. now destruct (dget k d).
    + exists (means (dget k d)). apply E_kept; [exact I|]. intro F. destruct (dget k d) as [v|]; [apply is_default_spec in F; congruence|discriminate].
  - destruct (in_dec string_dec k (map snd (both_names ++ old_spellings))) as [J|J].
    + apply in_map_iff in J. destruct J as ((o & n) & <- & J). cbn [snd]. apply in_app_or in J. destruct J as [J|J].
      * destruct (given_dec (dget o d)) as [G|G]; [eexists; now apply (E_old_name d o)|].
        destruct (String.string_dec n "rt_cam_ref") as [-> |Nn]; [|eexists; apply (E_new_name d o); [exact J|exact G|contradiction]].
        assert (o = "extrinsics_rt_fromref") as -> by (destruct J as [J|[J|[]]]; congruence).
        destruct (means (dget "rt_cam_ref" d)) eqn:E; [eexists; now apply E_no_cameras| |];
          (eexists; apply (E_new_name d "extrinsics_rt_fromref"); [exact J|exact G|]; intros _; rewrite E; discriminate).
      * destruct (dget n d) eqn:E; eexists; [apply (E_new_spelling d o)|apply (E_old_spelling d o)]; try exact J; congruence.
    + exists (means (dget k d)). apply E_plain; [exact I| |exact N]. intros p P. split; [now apply H|]. intro E. apply J, in_map_iff. now exists p.
Qed.
Print Assumptions C46_every_key.

(** Contradictory values under the two names are refused *)
Theorem C46_conflict_refused : forall broadcast_same encode d o n s x y i a b, NoDup (map fst d) -> In (o, n) both_names ->
  dget o d = Some (V_array s x) -> dget n d = Some (V_array s y) ->
  nth_error x i = Some (I_float a) -> nth_error y i = Some (I_float b) -> ~ (a == b)%Q ->
  serialize broadcast_same encode d = None.
Proof.
  intros bc enc d o n s x y i a b ND H Ho Hn Hx Hy Nab.
  assert (same_items x y = false) as Sf.
  { clear Ho Hn. revert i y Hx Hy. induction x as [|u x IH]; intros [|i] [|v y] Hx Hy; try discriminate; cbn in *.
    - injection Hx as ->. injection Hy as ->. cbn. destruct (Qeq_bool a b) eqn:E; [apply Qeq_bool_iff in E; contradiction|reflexivity].
    - rewrite (IH i y Hx Hy). apply andb_false_r. }
  assert (forall d', dget o d' = Some (V_array s x) -> dget n d' = Some (V_array s y) -> renamed_write_old_name bc o n d' = None) as RW.
  { intros d' A B. unfold renamed_write_old_name. rewrite A, B. cbn [is_poison]. rewrite A. cbn [is_empty negb np_same]. unfold shape_eqb.
    destruct (list_eq_dec Nat.eq_dec s s); [|congruence]. now rewrite Sf. }
  assert (forall k v, In k ["frames_rt_toref"; "rt_ref_frame"; "extrinsics_rt_fromref"; "rt_cam_ref"] -> dget k d = Some (V_array s v) -> dget k (normalized d) = Some (V_array s v)) as NG.
  { intros k v K E. rewrite dget_normalized by exact ND. rewrite E. now destruct K as [<-|[<-|[<-|[<-|[]]]]]. }
  unfold serialize. destruct H as [H|[H|[]]]; injection H as <- <-.
  - rewrite RW; [reflexivity| |]; apply NG; cbn; auto.
  - destruct (renamed_write_old_name bc "frames_rt_toref" "rt_ref_frame" (normalized d)) as [d1|] eqn:E1; [|reflexivity].
    assert (forall k, k <> "frames_rt_toref" -> k <> "rt_ref_frame" -> dget k d1 = dget k (normalized d)) as K.
    { intros k K1 K2. apply String.eqb_neq in K1, K2. unfold renamed_write_old_name in E1. cbv zeta in E1.
      repeat match type of E1 with context [if ?c then _ else _] => destruct c end; try discriminate; injection E1 as <-; rewrite ?dget_ddel, ?dget_dset, ?K1, ?K2; reflexivity. }
    rewrite RW; [reflexivity| |]; rewrite K by discriminate; apply NG; cbn; auto.
Qed.
Print Assumptions C46_conflict_refused.

(** The old name with a value, beside the new one with None: the value is lost *)
Theorem C46_old_name_lost_refuted : forall broadcast_same encode decode,
  (forall z, NoDup (map fst z) -> decode (encode z) = Some z) ->
  exists d text d', wf d /\ given (dget "frames_rt_toref" d) /\ means (dget "rt_ref_frame" d) = V_none /\
    serialize broadcast_same encode d = Some text /\ deserialize decode text = Some d' /\
    means (dget "rt_ref_frame" d') = V_none /\ ~ given (dget "frames_rt_toref" d').
Proof.
  intros bc enc dec codec.
  set (d := [("frames_rt_toref", V_array [1%nat; 1%nat] [I_float 1]); ("rt_ref_frame", V_none)]).
  exists d. eexists. eexists. split; [|split; [|split; [reflexivity|split; [reflexivity|split]]]].
  - split; [repeat constructor; cbn; intuition discriminate|]. repeat constructor; discriminate.
  - split; [discriminate|]. intros (s & H). discriminate.
  - unfold deserialize. rewrite codec; [reflexivity|]. repeat constructor; cbn; intuition discriminate.
  - split; [reflexivity|]. apply poison_not_given.
Qed.
Print Assumptions C46_old_name_lost_refuted.

(** A nan in the frame poses: the model can be saved and loaded, once *)
Theorem C46_nan_refuted : forall broadcast_same encode decode,
  (forall z, NoDup (map fst z) -> decode (encode z) = Some z) ->
  exists d d', wf d /\ (forall p, In p both_names -> clean p d) /\ cycle broadcast_same encode decode d = Some d' /\
    cycle broadcast_same encode decode d' = None.
Proof.
  intros bc enc dec codec.
  set (d := [("rt_ref_frame", V_array [1%nat; 1%nat] [I_nonfinite])]).
  exists d. eexists. split; [|split; [|split]].
  - split; repeat constructor; try discriminate. cbn. intuition.
  - intros p [<-|[<-|[]]]; (split; [intros (G & _)|intros (s & G)]); cbn in G; try discriminate; now destruct G.
  - unfold cycle. change (serialize bc enc d) with (Some (enc [("frames_rt_toref", ([1%nat; 1%nat], [I_nonfinite]))])). unfold deserialize. rewrite codec; [reflexivity|]. repeat constructor; cbn; intuition discriminate.
  - reflexivity.
Qed.
Print Assumptions C46_nan_refuted.

(** *** A non-trivial case *)
Definition ex_d : dict :=
  [("lensmodel", V_item (I_str "LENSMODEL_PINHOLE")); ("intrinsics", V_array [1%nat; 2%nat] [I_float 1; I_float 2]); ("point_min_range", V_none);
   ("extrinsics_rt_fromref", V_array [1%nat; 1%nat] [I_float 3]); ("do_optimize_intrinsic_core", V_item (I_bool true));
   ("observations_point_triangulated", V_array [0%nat; 3%nat] [])].
Example ex_C46 : wf ex_d /\ (forall p, In p both_names -> clean p ex_d) /\
  (forall p v, In p both_names -> expected ex_d (snd p) v -> v = V_none \/ numeric (Some v)) /\
  expected ex_d "rt_cam_ref" (V_array [1%nat; 1%nat] [I_float 3]) /\ expected ex_d "do_optimize_intrinsics_core" (V_item (I_bool true)) /\
  expected ex_d "observations_point_triangulated" V_none /\ expected ex_d "rt_ref_frame" V_none.
Proof.
  split; [|split; [|split; [|split; [|split; [|split]]]]].
  - split; [|repeat constructor; discriminate]. cbn. repeat constructor; cbn; intuition discriminate.
  - intros p [<-|[<-|[]]]; (split; [intro G|intros (s & G)]); cbn in *; try discriminate; now left.
  - intros p v [<-|[<-|[]]]; cbn [fst snd]; intro E.
    + left. inversion E as [o n H G| o n H G| |o n H|o n H|k H|k H|k _ H]; subst; try (exfalso; cbn in H; intuition congruence); try reflexivity.
      * destruct H as [H|[H|[]]]; injection H as <-; try discriminate. reflexivity.
    + right. inversion E as [o n H G| o n H G| G|o n H|o n H|k H|k H|k _ H]; subst; try (exfalso; cbn in H; intuition congruence).
      * destruct H as [H|[H|[]]]; injection H as <-; try discriminate. cbn. repeat constructor. exists 0%Z, 3%Q. now right.
      * exfalso. apply G. split; [discriminate|]. intros (s & F). discriminate.
      * exfalso. destruct (H ("extrinsics_rt_fromref", "rt_cam_ref")); [right; now left|]. now apply H2.
  - apply (E_old_name ex_d "extrinsics_rt_fromref"); [right; now left|]. split; [discriminate|]. intros (s & F). discriminate.
  - apply (E_old_spelling ex_d "do_optimize_intrinsic_core"); [now left|reflexivity].
  - apply E_left_out; [right; now left|]. cbn. now left.
  - apply (E_new_name ex_d "frames_rt_toref"); [now left| |discriminate]. intros (G & _). now apply G.
Qed.
