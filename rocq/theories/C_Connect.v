(** C54: the camera connectivity matrix. *)
From Coq Require Import ZArith List Bool Lia ZifyBool Permutation Sorted.
From Verif Require Import M_Connect.
Import ListNotations.
Open Scope Z_scope.

(** ** specification *)
(** camera [a] and camera [b] both have an observation in exactly these frames *)
Definition common_frames (l : list (Z * Z)) (a b : Z) (fs : list Z) : Prop :=
  NoDup fs /\ forall f, In f fs <-> In (f, a) l /\ In (f, b) l.
(** frame indices count up, never down *)
Definition frames_sorted (l : list (Z * Z)) : Prop :=
  forall i j p q, (i <= j)%nat -> nth_error l i = Some p -> nth_error l j = Some q -> fst p <= fst q.
Definition in_range (N : Z) (l : list (Z * Z)) : Prop :=
  forall p, In p l -> 0 <= fst p /\ 0 <= snd p < N.

(** ** loops *)
Lemma foldo_app : forall A B (f : A -> B -> option A) l1 l2 a,
  foldo f (l1 ++ l2) a = match foldo f l1 a with Some a => foldo f l2 a | None => None end.
Proof. induction l1 as [|x l1 IH]; intros; cbn; [easy|]. destruct (f a x); [apply IH|easy]. Qed.
Lemma zrange_nil : forall a b, b <= a -> zrange a b = [].
Proof. intros. unfold zrange. now replace (Z.to_nat (b - a)) with 0%nat by lia. Qed.
Lemma zrange_cons : forall a b, a < b -> zrange a b = a :: zrange (a + 1) b.
Proof.
  intros. unfold zrange. replace (Z.to_nat (b - a)) with (S (Z.to_nat (b - (a + 1)))) by lia.
  cbn [seq map]. f_equal; [lia|]. rewrite <- seq_shift, map_map. apply map_ext. intro. lia.
Qed.
Lemma py_get_nat : forall A (l : list A) k, py_get l (Z.of_nat k) = nth_error l k.
Proof.
  intros. unfold py_get, py_index. destruct (Z.ltb_spec (Z.of_nat k) (Z.of_nat (length l))).
  - replace (0 <=? Z.of_nat k) with true by lia. cbn. now rewrite Nat2Z.id.
  - replace ((0 <=? Z.of_nat k) && false) with false by lia.
    replace ((- Z.of_nat (length l) <=? Z.of_nat k) && (Z.of_nat k <? 0)) with false by lia.
    symmetry. apply nth_error_None. lia.
Qed.

(** ** what each pair of rows contributes to the entry (a,b) *)
Definition one (b : bool) : Z := if b then 1 else 0.
Definition w (a b : Z) (p q : Z * Z) : Z :=
  one ((a =? snd p) && (b =? snd q)) + one ((a =? snd q) && (b =? snd p)).
Definition zsum (l : list Z) : Z := fold_right Z.add 0 l.
Definition against (a b : Z) (p : Z * Z) (r : list (Z * Z)) : Z := zsum (map (w a b p) r).
(** over all pairs; over all pairs within a frame *)
Fixpoint allpairs (a b : Z) (l : list (Z * Z)) : Z :=
  match l with [] => 0 | x :: r => against a b x r + allpairs a b r end.
Fixpoint framepairs (a b : Z) (l : list (Z * Z)) : Z :=
  match l with [] => 0 | x :: r => against a b x (filter (fun y => fst y =? fst x) r) + framepairs a b r end.

Definition adds (m m' : mat) (d : Z -> Z -> Z) : Prop := forall a b, m' a b mod 65536 = (m a b + d a b) mod 65536.
Definition u16mat (m : mat) : Prop := forall a b, 0 <= m a b < 65536.

Section Proofs.
Variable N : Z.
Variable l : list (Z * Z).
Hypothesis Hr : in_range N l.

Lemma bump_ok : forall m a b, 0 <= a < N -> 0 <= b < N -> u16mat m ->
  exists m', bump N m a b = Some m' /\ u16mat m' /\ adds m m' (fun x y => one ((x =? a) && (y =? b))).
Proof.
  intros m a b Ha Hb U. unfold bump, py_index.
  replace ((0 <=? a) && (a <? N)) with true by lia. replace ((0 <=? b) && (b <? N)) with true by lia.
  eexists. split; [reflexivity|]. split.
  - intros x y. destruct ((x =? a) && (y =? b)); [apply Z.mod_pos_bound; lia|apply U].
  - intros x y. destruct ((x =? a) && (y =? b)); cbn [one]; [now rewrite Z.mod_mod by lia|f_equal; lia].
Qed.

Lemma adds_trans : forall m m' m'' d d', adds m m' d -> adds m' m'' d' -> adds m m'' (fun a b => d a b + d' a b).
Proof.
  intros m m' m'' d d' H H' a b. rewrite H'. rewrite Z.add_mod by lia. rewrite H. rewrite <- Z.add_mod by lia. f_equal. lia.
Qed.
Lemma adds_ext : forall m m' d d', (forall a b, d a b = d' a b) -> adds m m' d -> adds m m' d'.
Proof. intros m m' d d' E H a b. rewrite <- E. apply H. Qed.

Lemma link_ok : forall m i j p q, nth_error l i = Some p -> nth_error l j = Some q -> u16mat m ->
  exists m', link N l m (Z.of_nat i) (Z.of_nat j) = Some m' /\ u16mat m' /\ adds m m' (fun a b => w a b p q).
Proof.
  intros m i j p q Hi Hj U. unfold link. rewrite !py_get_nat, Hi, Hj.
  pose proof (Hr p (nth_error_In _ _ Hi)) as Rp. pose proof (Hr q (nth_error_In _ _ Hj)) as Rq.
  destruct (bump_ok m (snd p) (snd q) ltac:(lia) ltac:(lia) U) as (m1 & -> & U1 & A1).
  destruct (bump_ok m1 (snd q) (snd p) ltac:(lia) ltac:(lia) U1) as (m2 & -> & U2 & A2).
  exists m2. split; [easy|]. split; [easy|]. eapply adds_ext; [|exact (adds_trans _ _ _ _ _ A1 A2)]. reflexivity.
Qed.

(** inner loop: row [i] against the rows from [j] on *)
Lemma inner_ok : forall r m i p j rest, nth_error l i = Some p -> skipn j l = r ++ rest -> u16mat m ->
  exists m', foldo (fun m ic1 => link N l m (Z.of_nat i) ic1) (zrange (Z.of_nat j) (Z.of_nat (j + length r))) m = Some m' /\
    u16mat m' /\ adds m m' (fun a b => against a b p r).
Proof.
  induction r as [|q r IH]; intros m i p j rest Hi Hs U.
  - rewrite zrange_nil by (cbn; lia). exists m. split; [easy|]. split; [easy|]. intros a b. cbn. f_equal. lia.
  - rewrite zrange_cons by (cbn; lia). cbn [foldo].
    assert (Hj : nth_error l j = Some q).
    { rewrite <- (Nat.add_0_r j). rewrite <- (firstn_skipn j l), nth_error_app2; rewrite firstn_length_le; try lia.
      - replace (j + 0 - j)%nat with 0%nat by lia. now rewrite Hs.
      - assert (length (skipn j l) = length (q :: r ++ rest)) by now rewrite Hs. rewrite skipn_length in H. cbn in H. lia.
      - assert (length (skipn j l) = length (q :: r ++ rest)) by now rewrite Hs. rewrite skipn_length in H. cbn in H. lia. }
    destruct (link_ok m i j p q Hi Hj U) as (m1 & -> & U1 & A1).
    replace (Z.of_nat j + 1) with (Z.of_nat (S j)) by lia.
    replace (Z.of_nat (j + length (q :: r))) with (Z.of_nat (S j + length r)) by (cbn; lia).
    assert (Hs' : skipn (S j) l = r ++ rest).
    { clear -Hs. revert j Hs. induction l as [|y l' IHl]; intros j Hs; destruct j as [|j]; cbn in *; try discriminate; [congruence|].
      now apply IHl. }
    destruct (IH m1 i p (S j) rest Hi Hs' U1) as (m2 & -> & U2 & A2).
    exists m2. split; [easy|]. split; [easy|]. eapply adds_ext; [|exact (adds_trans _ _ _ _ _ A1 A2)]. intros. reflexivity.
Qed.

Lemma skip_cons : forall j q r, skipn j l = q :: r -> nth_error l j = Some q /\ skipn (S j) l = r.
Proof.
  clear. induction l as [|y l' IH]; intros j q r H; destruct j as [|j]; cbn in *; try discriminate.
  - now inversion H.
  - apply IH in H. exact H.
Qed.

(** both loops over one frame *)
Lemma finish_ok : forall seg j rest m, skipn j l = seg ++ rest -> seg <> [] -> u16mat m ->
  exists m', finish_frame N l m (Z.of_nat j) (Z.of_nat (j + length seg) - 1) = Some m' /\
    u16mat m' /\ adds m m' (fun a b => allpairs a b seg).
Proof.
  induction seg as [|p seg IH]; intros j rest m Hs Ne U; [easy|]. unfold finish_frame in *.
  destruct (skip_cons j p (seg ++ rest) Hs) as (Hj & Hs').
  destruct seg as [|q seg].
  - rewrite zrange_nil by (cbn; lia). exists m. split; [easy|]. split; [easy|]. intros a b. cbn. f_equal. lia.
  - rewrite zrange_cons by (cbn [length]; lia). cbn [foldo].
    replace (Z.of_nat j + 1) with (Z.of_nat (S j)) by lia.
    replace (Z.of_nat (j + length (p :: q :: seg)) - 1 + 1) with (Z.of_nat (S j + length (q :: seg))) by (cbn [length]; lia).
    destruct (inner_ok (q :: seg) m j p (S j) rest Hj Hs' U) as (m1 & -> & U1 & A1).
    destruct (IH (S j) rest m1 Hs' ltac:(discriminate) U1) as (m2 & E2 & U2 & A2).
    replace (Z.of_nat (j + length (p :: q :: seg)) - 1) with (Z.of_nat (S j + length (q :: seg)) - 1) by (cbn [length]; lia).
    replace (Z.of_nat (S j + length (q :: seg)) - 1 + 1) with (Z.of_nat (S j + length (q :: seg))) in E2 by lia.
    exists m2. split.
    + exact E2.
    + split; [easy|]. eapply adds_ext; [|exact (adds_trans _ _ _ _ _ A1 A2)]. intros. reflexivity.
Qed.

(** ** splitting the sum by frame *)
Lemma framepairs_app : forall a b u v, (forall p q, In p u -> In q v -> fst p <> fst q) ->
  framepairs a b (u ++ v) = framepairs a b u + framepairs a b v.
Proof.
  induction u as [|x u IH]; intros v H; cbn; [easy|]. rewrite IH by (intros; apply H; [now right|easy]).
  rewrite filter_app.
  assert (filter (fun y => fst y =? fst x) v = []) as ->.
  { clear IH. induction v as [|y v IHv]; cbn; [easy|]. pose proof (H x y (or_introl eq_refl) (or_introl eq_refl)).
    replace (fst y =? fst x) with false by lia. apply IHv. intros. apply H; [easy|now right]. }
  rewrite app_nil_r. lia.
Qed.
Lemma framepairs_same : forall a b f seg, (forall p, In p seg -> fst p = f) -> framepairs a b seg = allpairs a b seg.
Proof.
  induction seg as [|x seg IH]; intro H; cbn; [easy|]. rewrite IH by (intros; apply H; now right). f_equal. f_equal.
  clear IH. pose proof (H x (or_introl eq_refl)) as Ex. 
  assert (G : forall p, In p seg -> fst p = f) by (intros; apply H; now right). clear H.
  induction seg as [|y seg IH]; cbn; [easy|]. replace (fst y =? fst x) with true by (rewrite (G y (or_introl eq_refl)); lia).
  f_equal. apply IH. intros. apply G. now right.
Qed.

(** ** the outer loop *)
(** before iteration [k]: the rows so far are finished frames, then the current one *)
Definition sorted_to (k : nat) : Prop :=
  forall i j p q, (i <= j < k)%nat -> nth_error l i = Some p -> nth_error l j = Some q -> fst p <= fst q.
Definition inv (k : nat) (s : st) : Prop :=
  (u16mat (s_m s) /\ sorted_to k) /\
  ((k = 0%nat /\ s_f s = -1 /\ s_start s = -1 /\ adds mat0 (s_m s) (fun _ _ => 0)) \/
   exists done cur rest, l = done ++ cur ++ rest /\ k = (length done + length cur)%nat /\ cur <> [] /\
     s_start s = Z.of_nat (length done) /\
     (forall p, In p cur -> fst p = s_f s) /\ (forall p, In p done -> fst p < s_f s) /\
     adds mat0 (s_m s) (fun a b => framepairs a b done)).

Lemma skipn_exact : forall A (u v : list A), skipn (length u) (u ++ v) = v.
Proof. induction u; cbn; auto. Qed.
Lemma nth_mid : forall A (u v : list A) x, nth_error (u ++ x :: v) (length u) = Some x.
Proof. induction u; cbn; auto. Qed.

Lemma step_ok : forall k s p, inv k s -> nth_error l k = Some p ->
  (fst p < s_f s /\ step N l s (Z.of_nat k) = None) \/
  (s_f s <= fst p /\ exists s', step N l s (Z.of_nat k) = Some s' /\ inv (S k) s').
Proof.
  intros k s p ((U & So) & I) Hk.
  assert (So' : s_f s <= fst p -> sorted_to (S k)).
  { intros L i j p' q' Hij Hi Hj. destruct (Nat.eq_dec j k) as [->|Nj]; [|apply (So i j); auto; lia].
    assert (q' = p) by congruence. subst q'. destruct (Nat.eq_dec i k) as [->|Ni]; [assert (p' = p) by congruence; subst; lia|].
    destruct I as [(-> & _)|(done & cur & rest & El & Ek & Nc & Es & Hc & Hd & A)]; [lia|].
    assert (In p' (done ++ cur)).
    { rewrite El, app_assoc in Hi. rewrite nth_error_app1 in Hi by (rewrite app_length; lia). eapply nth_error_In; eauto. }
    apply in_app_iff in H. destruct H as [H|H]; [specialize (Hd _ H)|specialize (Hc _ H)]; lia. }
  unfold step. rewrite py_get_nat, Hk. destruct p as [f c]. cbn [fst].
  cbn [fst] in So'. destruct (Z.ltb_spec f (s_f s)); [now left|]. right. split; [easy|]. specialize (So' H).
  destruct I as [(-> & Ef & Es & A)|(done & cur & rest & El & Ek & Nc & Es & Hc & Hd & A)].
  - pose proof (Hr (f, c) (nth_error_In _ _ Hk)) as Rf. cbn in Rf.
    replace (f >? s_f s) with true by lia. replace (s_start s >=? 0) with false by lia.
    eexists. split; [reflexivity|]. split; [easy|]. right.
    destruct l as [|p r]; [discriminate|]. cbn in Hk. inversion Hk; subst p.
    exists [], [(f, c)], r. cbn. repeat split; try easy. intros q [<-|[]]; easy.
  - assert (Hk' : exists rest', rest = (f, c) :: rest').
    { rewrite El, app_assoc in Hk. rewrite nth_error_app2 in Hk by (rewrite app_length; lia).
      replace (k - length (done ++ cur))%nat with 0%nat in Hk by (rewrite app_length; lia).
      destruct rest as [|y rest']; [discriminate|]. exists rest'. cbn in Hk. congruence. }
    destruct Hk' as (rest' & ->).
    destruct (Z.gtb_spec f (s_f s)) as [G|G].
    + replace (s_start s >=? 0) with true by lia. rewrite Es.
      destruct (finish_ok cur (length done) ((f, c) :: rest') (s_m s)) as (m' & E & U' & A'); try easy.
      { rewrite El. apply skipn_exact. }
      replace (Z.of_nat k - 1) with (Z.of_nat (length done + length cur) - 1) by lia. rewrite E.
      eexists. split; [reflexivity|]. split; [easy|]. right. exists (done ++ cur), [(f, c)], rest'. cbn [s_f s_start s_m].
      split; [rewrite El, <- !app_assoc; reflexivity|]. rewrite app_length. split; [cbn; lia|]. split; [easy|].
      split; [f_equal; lia|]. split; [intros q [<-|[]]; easy|]. split.
      * intros q Hq. apply in_app_iff in Hq. destruct Hq as [Hq|Hq]; [specialize (Hd q Hq); lia|specialize (Hc q Hq); lia].
      * eapply adds_ext; [|exact (adds_trans _ _ _ _ _ A A')]. intros a b. cbn.
        rewrite framepairs_app; [|intros p q Hp Hq; specialize (Hd p Hp); specialize (Hc q Hq); lia].
        now rewrite (framepairs_same a b (s_f s) cur Hc).
    + exists s. split; [easy|]. split; [easy|]. right. exists done, (cur ++ [(f, c)]), rest'.
      split; [rewrite El, <- !app_assoc; reflexivity|]. rewrite app_length. split; [cbn; lia|].
      split; [destruct cur; discriminate|]. split; [easy|]. split; [|easy].
      intros q Hq. apply in_app_iff in Hq. destruct Hq as [Hq|[<-|[]]]; [auto|cbn; lia].
Qed.

Lemma loop_ok : forall n k s, (k + n = length l)%nat -> inv k s ->
  (exists i j p q, (i <= j)%nat /\ nth_error l i = Some p /\ nth_error l j = Some q /\ fst q < fst p /\
     foldo (step N l) (zrange (Z.of_nat k) (Z.of_nat (length l))) s = None) \/
  (exists s', foldo (step N l) (zrange (Z.of_nat k) (Z.of_nat (length l))) s = Some s' /\ inv (length l) s').
Proof.
  induction n as [|n IH]; intros k s E I.
  - right. rewrite zrange_nil by lia. exists s. split; [easy|]. now replace (length l) with k by lia.
  - rewrite zrange_cons by lia. cbn [foldo]. destruct (nth_error l k) as [p|] eqn:Hk; [|apply nth_error_None in Hk; lia].
    destruct (step_ok k s p I Hk) as [(L & Es)|(L & s' & Es & I')]; rewrite Es.
    + left. destruct I as (_ & [(-> & Ef & _)|(done & cur & rest & El & Ek & Nc & _ & Hc & _ & _)]).
      * pose proof (Hr p (nth_error_In _ _ Hk)). lia.
      * destruct cur as [|q cur]; [easy|]. exists (length done), k, q, p. split; [lia|].
        split; [rewrite El; cbn; apply nth_mid|]. split; [easy|]. rewrite (Hc q (or_introl eq_refl)). easy.
    + replace (Z.of_nat k + 1) with (Z.of_nat (S k)) by lia. apply IH; [lia|easy].
Qed.

Lemma compute_ok :
  (exists i j p q, (i <= j)%nat /\ nth_error l i = Some p /\ nth_error l j = Some q /\ fst q < fst p /\
     compute_connectivity_matrix N l = None) \/
  (frames_sorted l /\ exists m, compute_connectivity_matrix N l = Some m /\ forall a b, m a b = framepairs a b l mod 65536).
Proof.
  unfold compute_connectivity_matrix.
  destruct (loop_ok (length l) 0 {| s_f := -1; s_start := -1; s_m := mat0 |} ltac:(lia)) as [(i & j & p & q & H1 & H2 & H3 & H4 & H5)|(s & E & ((U & So) & I))].
  { split; [split; [intros a b; cbn; unfold mat0; lia|intros i j p q Hij; lia]|]. left. repeat split; try easy. }
  { left. exists i, j, p, q. change (Z.of_nat 0) with 0 in H5. rewrite H5. auto. }
  right. split.
  { intros i j p q Hij Hi Hj. apply (So i j); auto. split; [easy|]. apply nth_error_Some. congruence. }
  change (Z.of_nat 0) with 0 in E. rewrite E. destruct I as [(E0 & Ef & Es & A)|(done & cur & rest & El & Ek & Nc & Es & Hc & Hd & A)].
  - unfold finish_frame. rewrite zrange_nil by lia. exists (s_m s). split; [easy|]. intros a b.
    specialize (A a b). cbn in A. rewrite Z.mod_small in A by apply U. rewrite A. now destruct l.
  - assert (rest = []) as -> by (destruct rest; [easy|]; exfalso; apply (f_equal (@length _)) in El; rewrite !app_length in El; cbn in El; lia).
    rewrite app_nil_r in El.
    destruct (finish_ok cur (length done) [] (s_m s)) as (m' & E' & U' & A'); try easy.
    { rewrite El, app_nil_r. apply skipn_exact. }
    rewrite Es. replace (Z.of_nat (length l)) with (Z.of_nat (length done + length cur)) by (rewrite Ek; easy). rewrite E'.
    exists m'. split; [easy|]. intros a b. pose proof (adds_trans _ _ _ _ _ A A' a b) as X. cbn in X.
    rewrite Z.mod_small in X by apply U'. rewrite X. f_equal. rewrite El.
    rewrite framepairs_app; [|intros p q Hp Hq; specialize (Hd p Hp); specialize (Hc q Hq); lia].
    now rewrite (framepairs_same a b (s_f s) cur Hc).
Qed.
End Proofs.

Lemma against_zero : forall a b p r, (forall q, In q r -> w a b p q = 0) -> against a b p r = 0.
Proof. intros a b p r H. unfold against. induction r as [|q r IH]; [easy|]. change (w a b p q + zsum (map (w a b p) r) = 0). rewrite (H q) by now left. rewrite IH; [easy|]. intros; apply H; now right. Qed.

(** with each camera listed once per frame, the pairs are the common frames *)
Lemma against_count : forall a b f c r, a <> b -> NoDup ((f, c) :: r) ->
  against a b (f, c) (filter (fun y => fst y =? f) r) =
  if a =? c then one (existsb (fun y => (fst y =? f) && (snd y =? b)) r)
  else if b =? c then one (existsb (fun y => (fst y =? f) && (snd y =? a)) r) else 0.
Proof.
  intros a b f c r Nab. induction r as [|[g d] r IH]; intro ND.
  - cbn. now destruct (a =? c), (b =? c).
  - assert (ND' : NoDup ((f, c) :: r)).
    { inversion ND as [|? ? N1 N2]; subst. inversion N2; subst. constructor; [|easy]. intro. apply N1. now right. }
    specialize (IH ND'). cbn [filter existsb fst snd].
    destruct (Z.eqb_spec g f) as [->|Hg]; cbn [andb orb]; [|exact IH].
    unfold against in *. cbn [map zsum fold_right]. fold (zsum (map (w a b (f, c)) (filter (fun y => fst y =? f) r))).
    rewrite IH. unfold w. cbn [fst snd].
    assert (Hin : forall e, d = e -> existsb (fun y : Z * Z => (fst y =? f) && (snd y =? e)) r = false).
    { intros e <-. apply not_true_is_false. intro X. apply existsb_exists in X. destruct X as ([g' d'] & I & X). cbn in X.
      assert (g' = f /\ d' = d) as (-> & ->) by lia. inversion ND as [|? ? N1 N2]; subst. inversion N2; easy. }
    destruct (Z.eqb_spec a c) as [->|Hac].
    + replace (b =? c) with false by lia. rewrite (andb_false_r). cbn [one].
      destruct (Z.eqb_spec b d) as [->|Hbd].
      * rewrite Z.eqb_refl. rewrite (Hin d eq_refl). cbn. lia.
      * replace (d =? b) with false by lia. cbn. lia.
    + cbn [andb one]. destruct (Z.eqb_spec b c) as [->|Hbc].
      * rewrite andb_true_r. destruct (Z.eqb_spec a d) as [->|Had].
        -- rewrite Z.eqb_refl, (Hin d eq_refl). cbn. lia.
        -- replace (d =? a) with false by lia. cbn. lia.
      * rewrite andb_false_r. cbn. lia.
Qed.
Lemma framepairs_common : forall l a b, a <> b -> NoDup l ->
  exists fs, common_frames l a b fs /\ framepairs a b l = Z.of_nat (length fs).
Proof.
  intros l a b Nab. induction l as [|[f c] r IH]; intro ND.
  - exists []. split; [split; [constructor|intros; split; [easy|intros ([] & _)]]|reflexivity].
  - pose proof ND as ND0. inversion ND as [|? ? N1 N2]; subst. destruct (IH N2) as (fs & (D & F) & E).
    cbn [framepairs fst]. rewrite E, (against_count a b f c r Nab ND0).
    assert (Ex : forall e, existsb (fun y : Z * Z => (fst y =? f) && (snd y =? e)) r = true <-> In (f, e) r).
    { intro e. rewrite existsb_exists. split.
      - intros ([g d] & I & X). cbn in X. assert (g = f /\ d = e) as (-> & ->) by lia. easy.
      - intro I. exists (f, e). split; [easy|]. cbn. rewrite !Z.eqb_refl. easy. }
    assert (NF : forall e, (e = a \/ e = b) -> c = e -> ~ In f fs).
    { intros e He -> X. apply F in X. destruct He as [->| ->]; tauto. }
    assert (Keep : (forall e, e <> c -> ~ ((e = a \/ e = b) /\ (c = a \/ c = b) /\ In (f, e) r)) -> common_frames ((f, c) :: r) a b fs).
    { intro K. split; [easy|]. intro g. rewrite F. cbn [In]. split; [tauto|].
      intros ([Xa|Xa] & [Xb|Xb]).
      - congruence.
      - inversion Xa; subst g c. exfalso. apply (K b); [congruence|]. tauto.
      - inversion Xb; subst g c. exfalso. apply (K a); [congruence|]. tauto.
      - tauto. }
    destruct (Z.eqb_spec a c) as [->|Hac].
    + destruct (existsb _ r) eqn:X; [apply Ex in X|].
      * exists (f :: fs). split.
        -- split; [constructor; [apply (NF c); auto|easy]|]. intro g. cbn [In]. rewrite F. split.
           ++ intros [<-|(A & B)]; [split; [now left|now right]|tauto].
           ++ intros ([A|A] & [B|B]); [congruence| | |right; tauto].
              ** inversion A; subst. now left.
              ** inversion B; congruence.
        -- cbn [one length]. lia.
      * exists fs. split; [|cbn; lia]. apply Keep. intros e He ([->| ->] & _ & I); [easy|].
        apply Ex in I. congruence.
    + destruct (Z.eqb_spec b c) as [->|Hbc].
      * destruct (existsb _ r) eqn:X; [apply Ex in X|].
        -- exists (f :: fs). split.
           ++ split; [constructor; [apply (NF c); auto|easy]|]. intro g. cbn [In]. rewrite F. split.
              ** intros [<-|(A & B)]; [split; [now right|now left]|tauto].
              ** intros ([A|A] & [B|B]); [congruence| | |right; tauto].
                 --- inversion A; congruence.
                 --- inversion B; subst. now left.
           ++ cbn [one length]. lia.
        -- exists fs. split; [|cbn; lia]. apply Keep. intros e He ([->| ->] & _ & I); [|easy].
           apply Ex in I. congruence.
      * exists fs. split; [|lia]. apply Keep. intros e He (_ & [H|H] & _); congruence.
Qed.
Lemma framepairs_sym : forall l a b, framepairs a b l = framepairs b a l.
Proof.
  induction l as [|x r IH]; intros; cbn; [easy|]. rewrite IH. f_equal. unfold against. f_equal. apply map_ext.
  intro q. unfold w. rewrite Z.add_comm. f_equal; f_equal; apply andb_comm.
Qed.
Lemma framepairs_diag : forall l a, NoDup l -> framepairs a a l = 0.
Proof.
  induction l as [|x r IH]; intros a ND; cbn; [easy|]. inversion ND; subst. rewrite IH by easy.
  rewrite against_zero; [easy|]. intros q Hq. apply filter_In in Hq. destruct Hq as (I & E).
  unfold w. destruct (Z.eqb_spec a (snd x)), (Z.eqb_spec a (snd q)); cbn; try easy.
  exfalso. apply H1. destruct x as [f c], q as [g d]. cbn in *. assert (g = f) by lia. congruence.
Qed.

(** *** C54.  For any list of (frame, camera) rows sorted by frame, with each
    camera at most once per frame: the matrix is symmetric with a zero diagonal,
    and each other entry is the number of frames seen by both cameras, reduced
    modulo 2^16 *)
Theorem C54_counts_mod_2_16 : forall N l,
  in_range N l -> frames_sorted l -> NoDup l ->
  exists m, compute_connectivity_matrix N l = Some m /\
    (forall a b, m a b = m b a) /\ (forall a, m a a = 0) /\
    (forall a b, a <> b -> exists fs, common_frames l a b fs /\ m a b = Z.of_nat (length fs) mod 65536).
Proof.
  intros N l Hr Hs ND. destruct (compute_ok N l Hr) as [(i & j & p & q & H1 & H2 & H3 & H4 & _)|(Sr & m & E & M)].
  - specialize (Hs i j p q H1 H2 H3). lia.
  - exists m. split; [easy|]. split; [intros; rewrite !M; now rewrite framepairs_sym|].
    split; [intro; now rewrite M, framepairs_diag by easy|].
    intros a b Nab. destruct (framepairs_common l a b Nab ND) as (fs & F & Ef). exists fs. now rewrite M, Ef.
Qed.

(** so the counts are exact with fewer than 65536 frames *)
Theorem C54_counts : forall N l,
  in_range N l -> frames_sorted l -> NoDup l -> Z.of_nat (length l) < 65536 ->
  exists m, compute_connectivity_matrix N l = Some m /\
    (forall a b, m a b = m b a) /\ (forall a, m a a = 0) /\
    (forall a b, a <> b -> exists fs, common_frames l a b fs /\ m a b = Z.of_nat (length fs)).
Proof.
  intros N l Hr Hs ND L. destruct (C54_counts_mod_2_16 N l Hr Hs ND) as (m & E & S1 & D & C). exists m.
  split; [easy|]. split; [easy|]. split; [easy|]. intros a b Nab. destruct (C a b Nab) as (fs & F & Ef). exists fs. split; [easy|].
  rewrite Ef. apply Z.mod_small. destruct F as (DF & F).
  assert (length fs <= length l)%nat; [|lia].
  rewrite <- (map_length (fun f => (f, a)) fs). apply NoDup_incl_length.
  - clear -DF. induction DF as [|f fs I D IH]; cbn; constructor; [|easy].
    intro X. apply in_map_iff in X. destruct X as (g & X & Y). inversion X; subst. easy.
  - intros x Hx. apply in_map_iff in Hx. destruct Hx as (f & <- & I). now apply F.
Qed.

(** frames that go backwards are refused, and only those *)
Theorem C54_refused : forall N l, in_range N l -> (compute_connectivity_matrix N l = None <-> ~ frames_sorted l).
Proof.
  intros N l Hr. destruct (compute_ok N l Hr) as [(i & j & p & q & H1 & H2 & H3 & H4 & E)|(Sr & m & E & M)].
  - split; [intros _ Hs; specialize (Hs i j p q H1 H2 H3); lia|easy].
  - split; [congruence|easy].
Qed.

(** 65536 common frames count as none *)
Definition pairs_of (n : nat) : list (Z * Z) := flat_map (fun k => [(Z.of_nat k, 0); (Z.of_nat k, 1)]) (seq 0 n).
Lemma pairs_in : forall n f c, In (f, c) (pairs_of n) <-> (0 <= f < Z.of_nat n /\ (c = 0 \/ c = 1)).
Proof.
  intros n f c. unfold pairs_of. rewrite in_flat_map. split.
  - intros (k & K & [H|[H|[]]]); inversion H; subst; apply in_seq in K; lia.
  - intros (F & C). exists (Z.to_nat f). rewrite in_seq. split; [lia|]. cbn. rewrite Z2Nat.id by lia.
    destruct C as [->| ->]; auto.
Qed.
Lemma pairs_snoc : forall n, pairs_of (S n) = pairs_of n ++ [(Z.of_nat n, 0); (Z.of_nat n, 1)].
Proof. intro n. unfold pairs_of. rewrite seq_S, flat_map_app. reflexivity. Qed.
Lemma pairs_ok : forall n, NoDup (pairs_of n) /\ frames_sorted (pairs_of n).
Proof.
  induction n as [|n (ND & So)].
  - split; [constructor|]. intros [|i] j p q _ H; discriminate.
  - rewrite pairs_snoc. split.
    + assert (D2 : NoDup [(Z.of_nat n, 0); (Z.of_nat n, 1)]).
      { constructor; [intros [H|[]]; discriminate|constructor; [easy|constructor]]. }
      assert (G : forall x, In x (pairs_of n) -> ~ In x [(Z.of_nat n, 0); (Z.of_nat n, 1)]).
      { intros [f c] I [H|[H|[]]]; inversion H; subst; apply pairs_in in I; lia. }
      clear So. induction ND as [|x u Hx ND IH]; [easy|]. cbn [app]. constructor.
      * rewrite in_app_iff. intros [H|H]; [easy|]. apply (G x (or_introl eq_refl) H).
      * apply IH. intros y Hy. apply G. now right.
    + assert (Last : forall k q, nth_error (pairs_of n ++ [(Z.of_nat n, 0); (Z.of_nat n, 1)]) k = Some q -> (length (pairs_of n) <= k)%nat -> fst q = Z.of_nat n).
      { intros k q H L. rewrite nth_error_app2 in H by easy. destruct (k - length (pairs_of n))%nat as [|[|m]]; cbn in H; try (inversion H; reflexivity). destruct m; discriminate. }
      intros i j p q Hij Hi Hj. destruct (Nat.lt_ge_cases j (length (pairs_of n))) as [L|L].
      * rewrite nth_error_app1 in Hi, Hj by lia. exact (So i j p q Hij Hi Hj).
      * rewrite (Last j q Hj L). destruct (Nat.lt_ge_cases i (length (pairs_of n))) as [L'|L'].
        -- rewrite nth_error_app1 in Hi by lia. apply nth_error_In in Hi. destruct p as [f c]. apply pairs_in in Hi. cbn. lia.
        -- rewrite (Last i p Hi L'). lia.
Qed.
Lemma pairs_common : forall n fs, common_frames (pairs_of n) 0 1 fs -> length fs = n.
Proof.
  intros n fs (D & F).
  assert (E : Permutation fs (map Z.of_nat (seq 0 n))).
  { apply NoDup_Permutation; [easy| |].
    - apply FinFun.Injective_map_NoDup; [intros x y; apply Nat2Z.inj|apply seq_NoDup].
    - intro f. rewrite F, !pairs_in, in_map_iff. split.
      + intros (H & _). exists (Z.to_nat f). rewrite in_seq. lia.
      + intros (k & <- & K). apply in_seq in K. split; lia. }
  apply Permutation_length in E. rewrite E, map_length, seq_length. reflexivity.
Qed.
Theorem C54_wraps_refuted : exists l m,
  in_range 2 l /\ frames_sorted l /\ NoDup l /\
  compute_connectivity_matrix 2 l = Some m /\ m 0 1 = 0 /\
  (forall fs, common_frames l 0 1 fs -> length fs = Z.to_nat 65536).
Proof.
  exists (pairs_of (Z.to_nat 65536)). destruct (pairs_ok (Z.to_nat 65536)) as (ND & So).
  assert (Rg : in_range 2 (pairs_of (Z.to_nat 65536))).
  { intros [f c] I. apply pairs_in in I. cbn [fst snd]. lia. }
  destruct (C54_counts_mod_2_16 2 _ Rg So ND) as (m & E & _ & _ & C).
  exists m. split; [easy|]. split; [easy|]. split; [easy|]. split; [easy|]. split; [|intros fs F; now apply pairs_common].
  destruct (C 0 1 ltac:(lia)) as (fs & F & ->). rewrite (pairs_common _ _ F). rewrite Z2Nat.id by lia. reflexivity.
Qed.

(** a camera listed twice in one frame counts twice *)
Theorem C54_repeated_refuted : exists l m,
  in_range 2 l /\ frames_sorted l /\ compute_connectivity_matrix 2 l = Some m /\
  common_frames l 0 1 [0] /\ m 0 1 = 2.
Proof.
  set (l := [(0, 0); (0, 0); (0, 1)]). exists l.
  assert (Rg : in_range 2 l) by (intros p [<-|[<-|[<-|[]]]]; cbn; lia).
  assert (So : frames_sorted l).
  { intros i j p q _ Hi Hj. apply nth_error_In in Hi, Hj.
    assert (Z0 : forall x, In x l -> fst x = 0) by (intros x [<-|[<-|[<-|[]]]]; easy). rewrite (Z0 p Hi), (Z0 q Hj). lia. }
  destruct (compute_ok 2 l Rg) as [(i & j & p & q & H1 & H2 & H3 & H4 & E)|(_ & m & E & M)].
  { specialize (So i j p q H1 H2 H3). lia. }
  exists m. split; [easy|]. split; [easy|]. split; [easy|]. split.
  - split; [constructor; [easy|constructor]|]. intro f. cbn. split.
    + intros [<-|[]]. auto.
    + intros ([H|[H|[H|[]]]] & _); inversion H; auto.
  - rewrite M. reflexivity.
Qed.

(** the thresholding keeps exactly the pairs with at least two common frames *)
Theorem C54_links_kept : forall N l m,
  in_range N l -> frames_sorted l -> NoDup l -> Z.of_nat (length l) < 65536 ->
  compute_connectivity_matrix N l = Some m ->
  forall a b, a <> b -> (drop_sparse m a b <> 0 <-> exists fs, common_frames l a b fs /\ (2 <= length fs)%nat).
Proof.
  intros N l m Hr Hs ND L E a b Nab. destruct (C54_counts N l Hr Hs ND L) as (m' & E' & _ & _ & C).
  rewrite E in E'. inversion E'; subst m'. destruct (C a b Nab) as (fs & F & Ef). unfold drop_sparse. rewrite Ef.
  destruct (Z.ltb_spec (Z.of_nat (length fs)) 2); split; try easy.
  - intros (gs & G & L2). exfalso. assert (length gs = length fs); [|lia].
    apply Permutation_length, NoDup_Permutation; [apply G|apply F|]. intro f. destruct G as (_ & G), F as (_ & F). now rewrite G, F.
  - intros _. exists fs. split; [easy|lia].
  - intros _. lia.
Qed.

(** the hypotheses are met *)
Example ex_C54 : let l := [(0, 0); (0, 1); (0, 2); (1, 1); (3, 0); (3, 2)] in
  in_range 3 l /\ frames_sorted l /\ NoDup l /\ common_frames l 0 2 [0; 3] /\
  option_map (fun m => (m 0 1, m 0 2, m 2 0)) (compute_connectivity_matrix 3 l) = Some (1, 2, 2).
Proof.
  cbv zeta. split; [intros p H; cbn in H; repeat (destruct H as [<-|H]; [cbn; lia|]); destruct H|].
  split.
  { intros i j p q Hij Hi Hj.
    do 6 (destruct i as [|i]; [cbn in Hi; inversion Hi; subst; clear Hi; do 6 (destruct j as [|j]; [cbn in Hj; inversion Hj; subst; cbn; lia|]); destruct j; discriminate|]).
    destruct i; discriminate. }
  split; [repeat (constructor; [cbn; intros H; repeat (destruct H as [H|H]; [discriminate|]); destruct H|]); constructor|].
  split; [|reflexivity]. split; [repeat (constructor; [cbn; lia|]); constructor|].
  intro f. cbn. split.
  - intros [<-|[<-|[]]]; auto 10.
  - intros (H & G). repeat (destruct H as [H|H]; [inversion H; subst; auto|]). destruct H.
Qed.

Print Assumptions C54_counts_mod_2_16.
Print Assumptions C54_counts.
Print Assumptions C54_refused.
Print Assumptions C54_wraps_refuted.
Print Assumptions C54_repeated_refuted.
Print Assumptions C54_links_kept.
