(** C56: the culling of synthetic tracks. *)
From Coq Require Import ZArith List Bool Lia ZifyBool Sorted.
From Verif Require Import M_Tracks.
Import ListNotations.
Open Scope Z_scope.

(** ** specification *)
(** part of a list, in order *)
Inductive subseq {A} : list A -> list A -> Prop :=
| ss_nil : subseq [] []
| ss_drop : forall x s l, subseq s l -> subseq s (x :: l)
| ss_keep : forall x s l, subseq s l -> subseq (x :: s) (x :: l).

(** how many of the rows have the value [v] *)
Fixpoint times {A} (f : A -> Z) (v : Z) (l : list A) : Z :=
  match l with [] => 0 | x :: l => (if f x =? v then 1 else 0) + times f v l end.

Section Spec.
Context {Ob : Type}.
Let ipo (z : row * Ob) := ip (fst z).
Let ceo (z : row * Ob) := ce (fst z).
(** each point is observed at least [np] times, each camera pose observes at least [nc] points *)
Definition consistent (np nc : Z) (s : list (row * Ob)) : Prop :=
  forall z, In z s -> np <= times ipo (ipo z) s /\ nc <= times ceo (ceo z) s.
Definition largest_consistent (np nc : Z) (l s : list (row * Ob)) : Prop :=
  subseq s l /\ consistent np nc s /\ forall s', subseq s' l -> consistent np nc s' -> subseq s' s.

(** the index [f] was renumbered to be consecutive from 0, consistently with the
    table it indexes, and preserving order *)
Definition renumbered {T} (f : row -> Z) (kept : list (row * Ob)) (I : list row) (table' table : list T) : Prop :=
  length I = length kept /\
  (forall k r o r', nth_error kept k = Some (r, o) -> nth_error I k = Some r' ->
     0 <= f r' < Z.of_nat (length table') /\
     nth_error table' (Z.to_nat (f r')) = nth_error table (Z.to_nat (f r)) /\
     nth_error table (Z.to_nat (f r)) <> None) /\
  (forall j, 0 <= j < Z.of_nat (length table') -> exists r', In r' I /\ f r' = j) /\
  (forall k1 k2 r1 o1 r2 o2 r1' r2', nth_error kept k1 = Some (r1, o1) -> nth_error kept k2 = Some (r2, o2) ->
     nth_error I k1 = Some r1' -> nth_error I k2 = Some r2' -> (f r1' < f r2' <-> f r1 < f r2)).
End Spec.

(** ** lists *)
Lemma subseq_refl : forall A (l : list A), subseq l l.
Proof. induction l; [constructor|now apply ss_keep]. Qed.
Lemma subseq_filter : forall A (h : A -> bool) l, subseq (filter h l) l.
Proof. induction l as [|x l IH]; cbn; [constructor|]. destruct (h x); [apply ss_keep|apply ss_drop]; auto. Qed.
Lemma subseq_in : forall A (s l : list A) x, subseq s l -> In x s -> In x l.
Proof. induction 1; cbn; intuition. Qed.
Lemma subseq_len : forall A (s l : list A), subseq s l -> (length s <= length l)%nat.
Proof. induction 1; cbn; lia. Qed.
Lemma subseq_into_filter : forall A (h : A -> bool) s l, subseq s l -> (forall x, In x s -> h x = true) -> subseq s (filter h l).
Proof.
  induction 1 as [|x s l H IH|x s l H IH]; intro P; cbn; [constructor| |].
  - destruct (h x); [apply ss_drop|]; auto.
  - rewrite (P x) by now left. apply ss_keep. apply IH. intros; apply P; now right.
Qed.
Lemma times_subseq : forall A (f : A -> Z) v s l, subseq s l -> times f v s <= times f v l.
Proof. induction 1 as [|x s l H IH|x s l H IH]; cbn; [lia| |]; destruct (f x =? v); lia. Qed.
Lemma count_times : forall A (f : A -> Z) v l, count v (map f l) = times f v l.
Proof.
  intros A f v. unfold count. induction l as [|x l IH]; cbn; [easy|]. rewrite (Z.eqb_sym (f x) v).
  destruct (v =? f x); cbn [length]; lia.
Qed.

Lemma insert_in : forall x l y, In y (insert x l) <-> y = x \/ In y l.
Proof.
  induction l as [|z l IH]; intro y; cbn; [intuition|]. destruct (Z.ltb_spec x z); cbn; [intuition|].
  destruct (Z.eqb_spec x z); cbn; [subst; intuition|]. rewrite IH. intuition.
Qed.
Lemma unique_in : forall l y, In y (unique l) <-> In y l.
Proof. induction l as [|x l IH]; intro y; cbn; [easy|]. rewrite insert_in, IH. intuition. Qed.
Lemma insert_sorted : forall x l, StronglySorted Z.lt l -> StronglySorted Z.lt (insert x l).
Proof.
  induction l as [|z l IH]; intro H; cbn; [repeat constructor|]. inversion H as [|? ? S1 F]; subst.
  destruct (Z.ltb_spec x z).
  - constructor; [easy|]. constructor; [lia|]. rewrite Forall_forall in *. intros y Hy. specialize (F y Hy). lia.
  - destruct (Z.eqb_spec x z); [easy|]. constructor; [now apply IH|]. rewrite Forall_forall in *. intros y Hy.
    apply insert_in in Hy. destruct Hy as [->|Hy]; [lia|auto].
Qed.
Lemma unique_sorted : forall l, StronglySorted Z.lt (unique l).
Proof. induction l; cbn; [constructor|]. now apply insert_sorted. Qed.
Lemma frequent_in : forall n v x, In x v -> existsb (Z.eqb x) (frequent n v) = (n <=? count x v).
Proof.
  intros n v x H. unfold frequent. destruct (n <=? count x v) eqn:E.
  - apply existsb_exists. exists x. rewrite filter_In, unique_in. split; [auto|lia].
  - apply not_true_is_false. intro X. apply existsb_exists in X. destruct X as (y & I & Y). apply filter_In in I.
    assert (y = x) by lia. subst. destruct I as (_ & I). congruence.
Qed.

Lemma position_at : forall x l, In x l -> 0 <= position x l < Z.of_nat (length l) /\ nth_error l (Z.to_nat (position x l)) = Some x.
Proof.
  induction l as [|y l IH]; intro H; [easy|]. cbn [position]. destruct (Z.eqb_spec x y) as [->|N].
  - cbn. split; [lia|easy].
  - destruct H as [H|H]; [congruence|]. destruct (IH H) as (A & B). cbn [length]. split; [lia|].
    replace (Z.to_nat (1 + position x l)) with (S (Z.to_nat (position x l))) by lia. exact B.
Qed.
Lemma position_lt : forall l x y, StronglySorted Z.lt l -> In x l -> In y l -> (position x l < position y l <-> x < y).
Proof.
  induction l as [|z l IH]; intros x y H Hx Hy; [easy|]. inversion H as [|? ? S1 F]; subst. rewrite Forall_forall in F.
  cbn [position]. destruct (Z.eqb_spec x z) as [->|Nx]; destruct (Z.eqb_spec y z) as [->|Ny].
  - lia.
  - destruct Hy as [Hy|Hy]; [congruence|]. pose proof (position_at y l Hy). specialize (F y Hy). lia.
  - destruct Hx as [Hx|Hx]; [congruence|]. pose proof (position_at x l Hx). specialize (F x Hx). lia.
  - destruct Hx as [Hx|Hx]; [congruence|]. destruct Hy as [Hy|Hy]; [congruence|]. rewrite <- (IH x y S1 Hx Hy). lia.
Qed.
Lemma position_onto : forall l j, StronglySorted Z.lt l -> 0 <= j < Z.of_nat (length l) -> exists x, In x l /\ position x l = j.
Proof.
  intros l j H Hj. destruct (nth_error l (Z.to_nat j)) as [x|] eqn:E; [|apply nth_error_None in E; lia].
  exists x. pose proof (nth_error_In _ _ E) as I. split; [easy|]. destruct (position_at x l I) as (A & B).
  enough (Z.to_nat (position x l) = Z.to_nat j) by lia.
  apply (proj1 (NoDup_nth_error l)); [|lia|congruence].
  clear -H. induction H as [|x l S1 IH F]; constructor; [|easy]. intro I. rewrite Forall_forall in F. specialize (F x I). lia.
Qed.
Lemma take_nth : forall A (l : list A) idx r, take l idx = Some r ->
  length r = length idx /\ forall k i, nth_error idx k = Some i -> nth_error r k = nth_error l (Z.to_nat i) /\ nth_error l (Z.to_nat i) <> None.
Proof.
  induction idx as [|i idx IH]; intros r H; cbn in H.
  - inversion H. split; [easy|]. intros [|k] j; discriminate.
  - destruct (nth_error l (Z.to_nat i)) as [x|] eqn:E; [|discriminate]. destruct (take l idx) as [q|]; [|discriminate].
    inversion H; subst. destruct (IH q eq_refl) as (L & N). split; [cbn; lia|].
    intros [|k] j Hj; cbn in *; [inversion Hj; subst; rewrite E; split; easy|auto].
Qed.
Lemma take_ok : forall A (l : list A) idx, (forall i, In i idx -> nth_error l (Z.to_nat i) <> None) -> take l idx <> None.
Proof.
  induction idx as [|i idx IH]; intro H; cbn; [easy|]. pose proof (H i (or_introl eq_refl)).
  destruct (nth_error l (Z.to_nat i)); [|easy]. specialize (IH (fun j Hj => H j (or_intror Hj))).
  destruct (take l idx); easy.
Qed.

(** ** the loop *)
Section Loop.
Context {Ob : Type}.
Variables np nc no : Z.
Let ipo (z : row * Ob) := ip (fst z).
Let ceo (z : row * Ob) := ce (fst z).

Lemma select_map : forall A B (f : A -> B) m l, select m (map f l) = map f (select m l).
Proof. induction m as [|b m IH]; intros [|x l]; cbn; try easy. destruct b; cbn; now rewrite IH. Qed.
Lemma select_filter : forall A (g : A -> bool) l, select (map g l) l = filter g l.
Proof. induction l as [|x l IH]; cbn; [easy|]. destruct (g x); now rewrite IH. Qed.
Lemma all_true_filter : forall A (g : A -> bool) l,
  (all_true (map g l) = true /\ filter g l = l /\ forall x, In x l -> g x = true) \/
  (all_true (map g l) = false /\ (length (filter g l) < length l)%nat).
Proof.
  unfold all_true. induction l as [|x l IH]; cbn; [now left|]. destruct (g x) eqn:E; cbn.
  - destruct IH as [(A1 & A2 & A3)|(A1 & A2)]; [left|right; cbn; split; [easy|lia]].
    split; [easy|]. split; [now rewrite A2|]. intros y [<-|Hy]; auto.
  - right. split; [easy|]. pose proof (subseq_len _ _ _ (subseq_filter _ g l)). lia.
Qed.

(** one mask, as a filter *)
Definition often (f : row -> Z) (n : Z) (l : list (row * Ob)) (z : row * Ob) : bool :=
  n <=? times (fun z => f (fst z)) (f (fst z)) l.
Lemma isin_often : forall f n (l : list (row * Ob)),
  isin (map f (map fst l)) (frequent n (map f (map fst l))) = map (often f n l) l.
Proof.
  intros f n l. unfold isin. rewrite (map_map fst f l). rewrite map_map. apply map_ext_in. intros z Hz.
  rewrite frequent_in by (exact (in_map (fun x : row * Ob => f (fst x)) l z Hz)).
  unfold often. f_equal. apply (count_times _ (fun z => f (fst z))).
Qed.

Definition below (h : row * Ob -> bool) (z : list (row * Ob)) : Prop :=
  forall s, subseq s z -> consistent np nc s -> forall x, In x s -> h x = true.

Lemma cull_ok : forall fuel z h, (length (filter h z) < fuel)%nat -> below h z ->
  match cull np nc no fuel (map fst (filter h z)) (map snd (filter h z)) with
  | None => False
  | Some None => forall s, subseq s z -> consistent np nc s -> Z.of_nat (length s) < no
  | Some (Some (rows, obs)) =>
      exists h', rows = map fst (filter h' z) /\ obs = map snd (filter h' z) /\ below h' z /\
        consistent np nc (filter h' z) /\ no <= Z.of_nat (length (filter h' z))
  end.
Proof.
  induction fuel as [|fuel IH]; intros z h L B; [lia|].
  cbn [cull]. set (cur := filter h z) in *.
  rewrite isin_often. rewrite !select_map, select_filter.
  set (cur1 := filter (often ip np cur) cur).
  rewrite isin_often, select_filter.
  set (cur2 := filter (often ce nc cur1) cur1).
  assert (FF : forall (g1 g2 : row * Ob -> bool) l, filter g2 (filter g1 l) = filter (fun x => g1 x && g2 x) l).
  { intros g1 g2. induction l as [|x l IHl]; cbn; [easy|]. destruct (g1 x); cbn; [destruct (g2 x)|]; now rewrite IHl. }
  set (h1 := fun x => h x && often ip np cur x).
  assert (E1 : cur1 = filter h1 z) by apply FF.
  set (h2 := fun x => h1 x && often ce nc cur1 x).
  assert (E2 : cur2 = filter h2 z) by (unfold cur2; rewrite E1 at 2; apply FF).
  assert (B1 : below h1 z).
  { intros s Hs Hc x Hx. unfold h1. rewrite (B s Hs Hc x Hx). cbn.
    assert (subseq s cur) by (apply subseq_into_filter; [easy|now apply (B s)]).
    destruct (Hc x Hx) as (Hp & _). unfold often. pose proof (times_subseq _ (fun z => ip (fst z)) (ip (fst x)) s cur H). lia. }
  assert (B2 : below h2 z).
  { intros s Hs Hc x Hx. unfold h2. rewrite (B1 s Hs Hc x Hx). cbn.
    assert (subseq s cur1) by (rewrite E1; apply subseq_into_filter; [easy|now apply (B1 s)]).
    destruct (Hc x Hx) as (_ & Hp). unfold often. pose proof (times_subseq _ (fun z => ce (fst z)) (ce (fst x)) s cur1 H). lia. }
  assert (Few : forall g, below g z -> forall s, subseq s z -> consistent np nc s -> (length s <= length (filter g z))%nat).
  { intros g Bg s Hs Hc. apply subseq_len. apply subseq_into_filter; [easy|now apply (Bg s)]. }
  unfold llen. rewrite !map_length.
  destruct (Z.ltb_spec (Z.of_nat (length cur1)) no) as [L1|L1].
  { intros s Hs Hc. pose proof (Few h1 B1 s Hs Hc). rewrite <- E1 in H. lia. }
  destruct (Z.ltb_spec (Z.of_nat (length cur2)) no) as [L2|L2].
  { intros s Hs Hc. pose proof (Few h2 B2 s Hs Hc). rewrite <- E2 in H. lia. }
  assert (S1 : (length cur1 <= length cur)%nat) by apply subseq_len, subseq_filter.
  assert (S2 : (length cur2 <= length cur1)%nat) by apply subseq_len, subseq_filter.
  destruct (all_true_filter _ (often ip np cur) cur) as [(A1 & A2 & A3)|(A1 & A2)]; rewrite A1; cbn [negb orb].
  - destruct (all_true_filter _ (often ce nc cur1) cur1) as [(C1 & C2 & C3)|(C1 & C2)]; rewrite C1; cbn [negb].
    + exists h2. rewrite <- E2. split; [easy|]. split; [easy|]. split; [easy|]. split; [|lia].
      fold cur1 in A2. fold cur2 in C2. rewrite C2, A2. intros x Hx. rewrite A2 in C3.
      specialize (A3 x Hx). specialize (C3 x Hx). unfold often in A3, C3. split; lia.
    + fold cur2 in C2. specialize (IH z h2). rewrite <- E2 in IH. apply IH; [lia|easy].
  - fold cur1 in A2. specialize (IH z h2). rewrite <- E2 in IH. apply IH; [lia|easy].
Qed.
End Loop.

Lemma inverse_nth : forall l k, nth_error (inverse l) k = option_map (fun x => position x (unique l)) (nth_error l k).
Proof. intros. unfold inverse. apply nth_error_map. Qed.

Lemma combine3_nth : forall A B D E (g : A * B * D -> E) (a : list A) (b : list B) (d : list D) k,
  nth_error (map g (combine (combine a b) d)) k =
  match nth_error a k, nth_error b k, nth_error d k with Some x, Some y, Some w => Some (g (x, y, w)) | _, _, _ => None end.
Proof.
  induction a as [|x a IH]; intros b d k; [destruct k; easy|].
  destruct b as [|y b]; [destruct k; cbn; [easy|now destruct (nth_error a k)]|].
  destruct d as [|w d]; [destruct k; cbn; [easy|now destruct (nth_error a k), (nth_error b k)]|].
  destruct k as [|k]; [easy|]. cbn [combine map nth_error]. apply IH.
Qed.
Lemma map_fst_combine : forall A B (a : list A) (b : list B), length a = length b -> map fst (combine a b) = a /\ map snd (combine a b) = b.
Proof. induction a; intros [|y b] H; cbn in *; try easy. destruct (IHa b) as (-> & ->); [lia|easy]. Qed.

(** renumbering with np.unique() *)
Lemma renumber_ok : forall Ob T (f : row -> Z) (kept : list (row * Ob)) (I : list row) (table table' : list T),
  length I = length kept ->
  (forall k, option_map f (nth_error I k) = nth_error (inverse (map f (map fst kept))) k) ->
  take table (unique (map f (map fst kept))) = Some table' ->
  renumbered f kept I table' table.
Proof.
  intros Ob T f kept I table table' L N Tk. set (v := map f (map fst kept)) in *.
  destruct (take_nth _ _ _ _ Tk) as (Lt & Ht).
  assert (V : forall k r o, nth_error kept k = Some (r, o) -> nth_error v k = Some (f r)).
  { intros k r o H. unfold v. rewrite !nth_error_map, H. reflexivity. }
  assert (X : forall k r o r', nth_error kept k = Some (r, o) -> nth_error I k = Some r' -> f r' = position (f r) (unique v) /\ In (f r) (unique v)).
  { intros k r o r' H H'. specialize (N k). rewrite H', inverse_nth, (V k r o H) in N. cbn in N. split; [congruence|].
    apply unique_in. eapply nth_error_In. eauto. }
  split; [easy|]. split; [|split].
  - intros k r o r' H H'. destruct (X k r o r' H H') as (-> & J). destruct (position_at _ _ J) as (A & B).
    rewrite Lt. split; [easy|]. destruct (Ht _ _ B) as (C & D). split; easy.
  - intros j Hj. rewrite Lt in Hj. destruct (position_onto (unique v) j (unique_sorted v) Hj) as (x & Hx & E).
    apply (unique_in v x) in Hx.
    apply (In_nth_error v x) in Hx. destruct Hx as (k & Hk).
    specialize (N k). rewrite inverse_nth, Hk in N. cbn in N. destruct (nth_error I k) as [r'|] eqn:E'; [|discriminate].
    exists r'. split; [eapply nth_error_In; eauto|]. cbn in N. congruence.
  - intros k1 k2 r1 o1 r2 o2 r1' r2' H1 H2 H1' H2'. destruct (X _ _ _ _ H1 H1') as (-> & J1). destruct (X _ _ _ _ H2 H2') as (-> & J2).
    apply position_lt; auto using unique_sorted.
Qed.

Section Main.
Context {P C Ob : Type}.
Variables np nc no : Z.
Variables (rows : list row) (points : list P) (rts : list C) (obs : list Ob).
Hypothesis Hlen : length obs = length rows.
Let res := normalize_indices np nc no (S (length rows)) rows points rts obs.

Lemma cull_all :
  match cull np nc no (S (length rows)) rows obs with
  | None => False
  | Some None => forall s, subseq s (combine rows obs) -> consistent np nc s -> Z.of_nat (length s) < no
  | Some (Some (rows', obs')) =>
      exists kept, rows' = map fst kept /\ obs' = map snd kept /\
        largest_consistent np nc (combine rows obs) kept /\ no <= Z.of_nat (length kept)
  end.
Proof.
  destruct (map_fst_combine _ _ rows obs ltac:(lia)) as (E1 & E2).
  pose proof (cull_ok np nc no (S (length rows)) (combine rows obs) (fun _ => true)) as K.
  assert (T : filter (fun _ : row * Ob => true) (combine rows obs) = combine rows obs).
  { clear. induction (combine rows obs); cbn; congruence. }
  rewrite T, E1, E2 in K. rewrite combine_length, Hlen, Nat.min_id in K. specialize (K ltac:(lia)).
  assert (B : below np nc (fun _ => true) (combine rows obs)) by (intros ? ? ? ? ?; reflexivity). specialize (K B).
  destruct (cull np nc no (S (length rows)) rows obs) as [[[r o]|]|]; [|exact K|exact K].
  destruct K as (h & A1 & A2 & A3 & A4 & A5). exists (filter h (combine rows obs)).
  split; [easy|]. split; [easy|]. split; [|easy]. split; [apply subseq_filter|]. split; [easy|].
  intros s Hs Hc. apply subseq_into_filter; [easy|]. now apply (A3 s).
Qed.

(** *** C56: it always finishes ... *)
Theorem C56_terminates : res <> OutOfFuel.
Proof.
  unfold res, normalize_indices. destruct (_ <? no); [discriminate|]. destruct (existsb _ rows); [discriminate|].
  pose proof cull_all as K. destruct (cull _ _ _ _ _ _) as [[[r o]|]|]; [|discriminate|easy].
  destruct (take points _); [|discriminate]. destruct (unique (map ci r)) as [|[| |] [|]]; try discriminate.
  now destruct (take rts _).
Qed.

(** ... with the largest part of the observations that is consistent, renumbered *)
Theorem C56_tracks : forall I points' rts' obs',
  res = Done I points' rts' obs' ->
  exists kept,
    largest_consistent np nc (combine rows obs) kept /\ no <= Z.of_nat (length kept) /\
    obs' = map snd kept /\
    renumbered ip kept I points' points /\ renumbered ce kept I rts' rts /\
    (forall r, In r I -> ci r = 0) /\ (forall z, In z kept -> ci (fst z) = 0).
Proof.
  intros I points' rts' obs'. unfold res, normalize_indices.
  destruct (_ <? no); [discriminate|]. destruct (existsb _ rows); [discriminate|].
  pose proof cull_all as K. destruct (cull _ _ _ _ _ _) as [[[r o]|]|]; [|discriminate|easy].
  destruct K as (kept & -> & -> & A3 & A4).
  destruct (take points _) as [pts|] eqn:T1; [|discriminate].
  destruct (unique (map ci (map fst kept))) as [|x q] eqn:Ec; [discriminate|].
  assert (X0 : x = 0 /\ q = [] \/ match x :: q with [0] => False | _ => True end) by (destruct x, q; auto).
  destruct X0 as [(-> & ->)|X0]; [|destruct x, q; try discriminate; easy].
  destruct (take rts _) as [rs|] eqn:T2; [|discriminate]. intro H. inversion H; subst. clear H.
  assert (C0 : forall y, In y (map ci (map fst kept)) -> y = 0).
  { intros y Hy. apply (proj2 (unique_in _ _)) in Hy. rewrite Ec in Hy. destruct Hy as [<-|[]]. easy. }
  exists kept. split; [easy|]. split; [easy|]. split; [easy|].
  assert (LI : forall f : row -> Z, length (inverse (map f (map fst kept))) = length kept) by (intro f; unfold inverse; now rewrite !map_length).
  assert (NE : forall f k, nth_error (inverse (map f (map fst kept))) k = None <-> (length kept <= k)%nat) by (intros f k; rewrite nth_error_None, LI; easy).
  split; [|split; [|split]].
  - apply renumber_ok; [rewrite map_length, !combine_length, !LI; lia| |easy].
    intro k. rewrite combine3_nth.
    destruct (nth_error (inverse (map ip (map fst kept))) k) as [a|] eqn:Ea; [|easy].
    destruct (nth_error (inverse (map ci (map fst kept))) k) as [b|] eqn:Eb;
      [|exfalso; apply NE in Eb; assert (X : nth_error (inverse (map ip (map fst kept))) k = None) by (apply NE; easy); congruence].
    destruct (nth_error (inverse (map ce (map fst kept))) k) as [c|] eqn:Ex;
      [easy|exfalso; apply NE in Ex; assert (X : nth_error (inverse (map ip (map fst kept))) k = None) by (apply NE; easy); congruence].
  - apply renumber_ok; [rewrite map_length, !combine_length, !LI; lia| |easy].
    intro k. rewrite combine3_nth.
    destruct (nth_error (inverse (map ce (map fst kept))) k) as [a|] eqn:Ea.
    + destruct (nth_error (inverse (map ci (map fst kept))) k) as [b|] eqn:Eb;
        [|exfalso; apply NE in Eb; assert (X : nth_error (inverse (map ce (map fst kept))) k = None) by (apply NE; easy); congruence].
      destruct (nth_error (inverse (map ip (map fst kept))) k) as [c|] eqn:Ex;
        [easy|exfalso; apply NE in Ex; assert (X : nth_error (inverse (map ce (map fst kept))) k = None) by (apply NE; easy); congruence].
    + destruct (nth_error (inverse (map ip (map fst kept))) k); [|easy]. now destruct (nth_error (inverse (map ci (map fst kept))) k).
  - intros r Hr. apply In_nth_error in Hr. destruct Hr as (k & Hk). rewrite combine3_nth in Hk.
    destruct (nth_error (inverse (map ip _)) k); [|discriminate]. destruct (nth_error (inverse (map ci _)) k) as [b|] eqn:Eb; [|discriminate].
    destruct (nth_error (inverse (map ce _)) k); [|discriminate]. inversion Hk; subst. cbn.
    rewrite inverse_nth in Eb. destruct (nth_error (map ci (map fst kept)) k) as [y|] eqn:Ey; [|discriminate].
    pose proof (C0 y (nth_error_In _ _ Ey)). subst y. rewrite Ec in Eb. cbn in Eb. congruence.
  - intros z Hz. apply C0. apply in_map, in_map, Hz.
Qed.

(** and it doesn't refuse when there is such a part *)
Theorem C56_not_refused : forall kept,
  largest_consistent np nc (combine rows obs) kept -> kept <> [] -> no <= Z.of_nat (length kept) ->
  (forall r, In r rows -> 0 <= ip r < Z.of_nat (length points) /\ ci r = 0 /\ 0 <= ce r < Z.of_nat (length rts)) ->
  exists I points' rts' obs', res = Done I points' rts' obs'.
Proof.
  intros kept (Ks & Kc & Kl) Kn Kno Hr. unfold res, normalize_indices.
  assert (L : (length kept <= length rows)%nat).
  { apply subseq_len in Ks. rewrite combine_length in Ks. lia. }
  replace (llen rows <? no) with false by (unfold llen; lia).
  assert (existsb (fun r => (ip r <? 0) || (ci r <? 0) || (ce r <? 0)) rows = false) as ->.
  { apply not_true_is_false. intro X. apply existsb_exists in X. destruct X as (r & I & X). specialize (Hr r I). lia. }
  pose proof cull_all as K. destruct (cull _ _ _ _ _ _) as [[[r o]|]|]; [|specialize (K kept Ks Kc); lia|easy].
  destruct K as (kept' & -> & -> & (As & Ac & Al) & A4).
  assert (In' : forall z, In z kept' -> In (fst z) rows).
  { intros z Hz. apply (subseq_in _ _ _ _ As) in Hz. destruct z. now apply in_combine_l in Hz. }
  assert (Rr : forall f : row -> Z, forall i, In i (unique (map f (map fst kept'))) -> exists r, In r rows /\ f r = i).
  { intros f i Hi. apply (proj1 (unique_in _ _)) in Hi. apply in_map_iff in Hi. destruct Hi as (r & <- & Hi). apply in_map_iff in Hi.
    destruct Hi as (z & <- & Hz). eauto. }
  assert (T1 : take points (unique (map ip (map fst kept'))) <> None).
  { apply take_ok. intros i Hi. destruct (Rr ip i Hi) as (r & I & <-). apply nth_error_Some. specialize (Hr r I). lia. }
  destruct (take points _) as [pts|]; [|easy].
  assert (T2 : take rts (unique (map ce (map fst kept'))) <> None).
  { apply take_ok. intros i Hi. destruct (Rr ce i Hi) as (r & I & <-). apply nth_error_Some. specialize (Hr r I). lia. }
  assert (N' : kept' <> []).
  { specialize (Al kept Ks Kc). apply subseq_len in Al. destruct kept; [easy|]. intros ->. cbn in Al. lia. }
  assert (U : unique (map ci (map fst kept')) = [0]).
  { pose proof (unique_sorted (map ci (map fst kept'))) as So. pose proof (Rr ci) as R0.
    destruct kept' as [|z kept'']; [easy|].
    assert (Z1 : In (ci (fst z)) (unique (map ci (map fst (z :: kept''))))) by (apply unique_in; now left).
    destruct (unique (map ci (map fst (z :: kept'')))) as [|a [|b q]]; [destruct Z1| |].
    - destruct (R0 a (or_introl eq_refl)) as (r & I & E). specialize (Hr r I). f_equal. lia.
    - destruct (R0 a (or_introl eq_refl)) as (r & I & E). destruct (R0 b (or_intror (or_introl eq_refl))) as (r' & I' & E').
      pose proof (Hr r I). pose proof (Hr r' I'). inversion So as [|? ? _ F]; subst. inversion F; subst. lia. }
  rewrite U. destruct (take rts _) as [rs|]; [|easy]. eauto.
Qed.
End Main.

(** the hypotheses are met: point 7 and then pose 4 have to go *)
Example ex_C56 :
  let r p e := {| ip := p; ci := 0; ce := e |} in
  normalize_indices 2 2 1 10
    [r 2 0; r 2 3; r 5 0; r 5 3; r 7 4; r 5 4]
    [100; 101; 102; 103; 104; 105; 106; 107] [0; 1; 2; 3; 4]
    [1; 2; 3; 4; 5; 6]
  = Done [r 0 0; r 0 1; r 1 0; r 1 1] [102; 105] [0; 3] [1; 2; 3; 4].
Proof. reflexivity. Qed.

Print Assumptions C56_terminates.
Print Assumptions C56_tracks.
Print Assumptions C56_not_refused.
