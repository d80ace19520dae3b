(** C47: frame numbers from file names. *)
From Coq Require Import String Ascii ZArith List Bool Lia ZifyBool.
From Verif Require Import M_FrameNo.
Import ListNotations.
Open Scope list_scope.
Open Scope Z_scope.

(** ** specification *)
Definition digit (c : ascii) : Prop := (48 <= nat_of_ascii c <= 57)%nat.
(** the value of a string of digits *)
Inductive decimal : name -> Z -> Prop :=
| dec_nil : decimal [] 0
| dec_snoc : forall s v c, decimal s v -> digit c -> decimal (s ++ [c]) (10 * v + (Z.of_nat (nat_of_ascii c) - 48)).
Definition ends_in_digit (s : name) : Prop := exists p c, s = p ++ [c] /\ digit c.
Definition starts_with_digit (s : name) : Prop := exists c p, s = c :: p /\ digit c.
(** all of the camera's files are named P ... Q with only digits between; [d] is
    that part of the name of [f] *)
Definition number_part (files : list name) (f : name) (d : name) : Prop :=
  exists P Q, ~ ends_in_digit P /\ ~ starts_with_digit Q /\ f = P ++ d ++ Q /\ d <> [] /\ Forall digit d /\
    forall g, In g files -> exists e, g = P ++ e ++ Q /\ e <> [] /\ Forall digit e.

(** ** characters *)
Lemma digit_iff : forall c, is_digit c = true <-> digit c.
Proof.
  intro c. unfold is_digit, digit, nat_of_ascii. rewrite andb_true_iff, !Z.leb_le. rewrite <- N_nat_Z. lia.
Qed.
Lemma digits_iff : forall s, forallb is_digit s = true <-> Forall digit s.
Proof. intro s. rewrite forallb_forall, Forall_forall. split; intros H x Hx; apply digit_iff; auto. Qed.
Lemma newline_not_digit : ~ digit newline.
Proof. unfold digit. cbn. lia. Qed.
Definition plain (s : name) : Prop := ~ In newline s.
Lemma is_nl_iff : forall c, is_nl c = true <-> c = newline.
Proof. intro c. unfold is_nl. apply Ascii.eqb_eq. Qed.
Lemma chomp_plain : forall s, plain s -> chomp s = s.
Proof.
  intros s H. unfold chomp. destruct (rev s) as [|c r] eqn:E; [easy|].
  destruct (is_nl c) eqn:N; [|easy]. apply is_nl_iff in N. exfalso. apply H. rewrite <- (rev_involutive s), E. apply -> in_rev. now left.
Qed.
Lemma plain_no_nl : forall s, plain s -> existsb is_nl s = false.
Proof. intros s H. apply not_true_is_false. intro X. apply existsb_exists in X. destruct X as (c & I & C). apply is_nl_iff in C. subst. easy. Qed.
Lemma plain_app : forall a b, plain (a ++ b) <-> plain a /\ plain b.
Proof. intros. unfold plain. rewrite in_app_iff. tauto. Qed.
Lemma digits_plain : forall s, Forall digit s -> plain s.
Proof. intros s H I. rewrite Forall_forall in H. apply newline_not_digit. auto. Qed.

Lemma decimal_value : forall s, Forall digit s -> decimal s (fold_left (fun v c => 10 * v + digit_val c) s 0).
Proof.
  intro s. induction s as [|c s IH] using rev_ind; intro H; [constructor|].
  apply Forall_app in H. destruct H as (H1 & H2). rewrite fold_left_app. cbn [fold_left].
  inversion H2; subst.
  replace (digit_val c) with (Z.of_nat (nat_of_ascii c) - 48) by (unfold digit_val, nat_of_ascii; now rewrite N_nat_Z).
  apply dec_snoc; auto.
Qed.
Lemma decimal_fun : forall s v v', decimal s v -> decimal s v' -> v = v'.
Proof.
  intros s v v' H. revert v'. induction H as [|s v c H IH D]; intros v' H'.
  - inversion H'; [easy|]. destruct s; discriminate.
  - inversion H' as [|s' w c' H2 D2 E]; [destruct s; discriminate|]. apply app_inj_tail in E. destruct E as (-> & ->).
    rewrite (IH w H2). easy.
Qed.

(** ** common prefixes and suffixes *)
Definition prefix (p s : name) : Prop := exists t, s = p ++ t.
Definition suffix (p s : name) : Prop := exists t, s = t ++ p.
Lemma ll_spec : forall a b, prefix (longest_leading a b) a /\ prefix (longest_leading a b) b.
Proof.
  induction a as [|x a IH]; intros [|y b]; cbn; try (split; eexists; reflexivity).
  destruct (Ascii.eqb_spec x y) as [->|]; [|split; eexists; reflexivity].
  destruct (IH b) as ((t & Ht) & (u & Hu)). split; [exists t|exists u]; cbn; congruence.
Qed.
Lemma ll_max : forall p a b, prefix p a -> prefix p b -> prefix p (longest_leading a b).
Proof.
  induction p as [|x p IH]; intros a b (t & ->) (u & ->); [now eexists|].
  cbn. rewrite Ascii.eqb_refl. destruct (IH (p ++ t) (p ++ u)) as (w & E); [now eexists..|]. exists w. cbn. congruence.
Qed.
Lemma prefix_trans : forall a b c, prefix a b -> prefix b c -> prefix a c.
Proof. intros a b c (t & ->) (u & ->). exists (t ++ u). now rewrite app_assoc. Qed.
Lemma suffix_rev : forall a b, suffix a b <-> prefix (rev a) (rev b).
Proof.
  intros. split; intros (t & E).
  - exists (rev t). now rewrite E, rev_app_distr.
  - exists (rev t). rewrite <- (rev_involutive b), E, rev_app_distr, rev_involutive. easy.
Qed.
Lemma lt_spec : forall a b, suffix (longest_trailing a b) a /\ suffix (longest_trailing a b) b.
Proof. intros. rewrite !suffix_rev. unfold longest_trailing. rewrite rev_involutive. apply ll_spec. Qed.
Lemma lt_max : forall p a b, suffix p a -> suffix p b -> suffix p (longest_trailing a b).
Proof. intros p a b. rewrite !suffix_rev. unfold longest_trailing. rewrite rev_involutive. apply ll_max. Qed.
Lemma suffix_trans : forall a b c, suffix a b -> suffix b c -> suffix a c.
Proof. intros a b c. rewrite !suffix_rev. apply prefix_trans. Qed.

Lemma leading_spec : forall rest s, prefix (leading_of s rest) s /\ forall g, In g rest -> prefix (leading_of s rest) g.
Proof.
  induction rest as [|f rest IH]; intro s; cbn; [split; [now exists []; rewrite app_nil_r|easy]|].
  destruct (IH (longest_leading s f)) as (A & B). destruct (ll_spec s f) as (C & D). fold (leading_of (longest_leading s f) rest).
  split; [eapply prefix_trans; eauto|]. intros g [<-|Hg]; [eapply prefix_trans; eauto|auto].
Qed.
Lemma leading_max : forall p rest s, prefix p s -> (forall g, In g rest -> prefix p g) -> prefix p (leading_of s rest).
Proof.
  induction rest as [|f rest IH]; intros s Hs H; cbn; [easy|]. apply IH; [|intros; apply H; now right].
  apply ll_max; [easy|apply H; now left].
Qed.
Lemma trailing_spec : forall rest s, suffix (trailing_of s rest) s /\ forall g, In g rest -> suffix (trailing_of s rest) g.
Proof.
  induction rest as [|f rest IH]; intro s; cbn; [split; [now exists []|easy]|].
  destruct (IH (longest_trailing s f)) as (A & B). destruct (lt_spec s f) as (C & D). fold (trailing_of (longest_trailing s f) rest).
  split; [eapply suffix_trans; eauto|]. intros g [<-|Hg]; [eapply suffix_trans; eauto|auto].
Qed.
Lemma trailing_max : forall p rest s, suffix p s -> (forall g, In g rest -> suffix p g) -> suffix p (trailing_of s rest).
Proof.
  induction rest as [|f rest IH]; intros s Hs H; cbn; [easy|]. apply IH; [|intros; apply H; now right].
  apply lt_max; [easy|apply H; now left].
Qed.

Lemma skipn_skipn : forall A (l : list A) a b, skipn a (skipn b l) = skipn (a + b) l.
Proof.
  intros A l a b. revert l. induction b as [|b IH]; intro l; [now rewrite Nat.add_0_r|].
  destruct l as [|x l]; [now rewrite !skipn_nil|]. rewrite Nat.add_succ_r. cbn. apply IH.
Qed.
(** the middle, if there is any *)
Lemma middle_split : forall l t f, prefix l f -> suffix t f -> middle (length l) (length t) f <> [] ->
  f = l ++ middle (length l) (length t) f ++ t.
Proof.
  intros l t f (u & E) (v & E') N. unfold middle in *.
  assert (L1 : length f = (length l + length u)%nat) by (rewrite E, app_length; easy).
  assert (L2 : length f = (length v + length t)%nat) by (rewrite E', app_length; easy).
  assert (Sk : skipn (length l) f = u) by (rewrite E, skipn_app, skipn_all, Nat.sub_diag; easy).
  rewrite Sk in *. set (k := (length f - length t - length l)%nat) in *.
  assert (K : (0 < k)%nat) by (destruct k; [now cbn in N|lia]).
  rewrite E at 1. f_equal. rewrite <- (firstn_skipn k u) at 1. f_equal.
  assert (Sv : skipn (length v) f = t) by (rewrite E', skipn_app, skipn_all, Nat.sub_diag; easy).
  rewrite <- Sv. rewrite <- Sk. rewrite skipn_skipn. f_equal. unfold k. lia.
Qed.
Lemma middle_at : forall l t d, middle (length l) (length t) (l ++ d ++ t) = d.
Proof.
  intros. unfold middle. rewrite skipn_app, skipn_all, Nat.sub_diag. cbn [skipn app].
  rewrite !app_length. replace (length l + (length d + length t) - length t - length l)%nat with (length d) by lia.
  rewrite firstn_app, firstn_all, Nat.sub_diag. cbn. apply app_nil_r.
Qed.

(** ** digits around the middle *)
Lemma das_split : forall s, exists r, s = digits_at_start s ++ r /\ Forall digit (digits_at_start s) /\ ~ starts_with_digit r.
Proof.
  induction s as [|c s IH]; cbn; [exists []; repeat split; [constructor|intros (c & p & H & _); discriminate]|].
  destruct (is_digit c) eqn:D.
  - destruct IH as (r & E & F & N). exists r. split; [cbn; congruence|]. split; [constructor; [now apply digit_iff|easy]|easy].
  - exists (c :: s). split; [easy|]. split; [constructor|]. intros (c' & p & H & H'). inversion H; subst. apply digit_iff in H'. congruence.
Qed.
Lemma pre_split : forall s, plain s -> exists p, s = p ++ pre_numeric s /\ Forall digit (pre_numeric s) /\ ~ ends_in_digit p.
Proof.
  intros s H. unfold pre_numeric. rewrite (chomp_plain s H), (plain_no_nl s H).
  destruct (das_split (rev s)) as (r & E & F & N). exists (rev r). split.
  - rewrite <- (rev_involutive s) at 1. rewrite E at 1. apply rev_app_distr.
  - split; [now apply Forall_rev|]. intros (p & c & E' & D). apply N. exists c, (rev p). split; [|easy].
    rewrite <- (rev_involutive r), E', rev_app_distr. reflexivity.
Qed.
Lemma post_split : forall s, plain s -> exists q, s = post_numeric s ++ q /\ Forall digit (post_numeric s) /\ ~ starts_with_digit q.
Proof. intros s H. unfold post_numeric. rewrite (chomp_plain s H), (plain_no_nl s H). apply das_split. Qed.

Lemma all_some_map : forall A B (g : A -> option B) l r, all_some (map g l) = Some r ->
  length r = length l /\ forall k x, nth_error l k = Some x -> exists y, g x = Some y /\ nth_error r k = Some y.
Proof.
  induction l as [|x l IH]; intros r H; cbn in H.
  - inversion H. split; [easy|]. intros [|k]; discriminate.
  - destruct (g x) as [y|] eqn:E; [|discriminate]. destruct (all_some (map g l)) as [q|]; [|discriminate]. inversion H; subst.
    destruct (IH q eq_refl) as (L & N). split; [cbn; lia|]. intros [|k] z Hz; cbn in *; [inversion Hz; subst; eauto|auto].
Qed.
Lemma all_some_ok : forall A B (g : A -> option B) l, (forall x, In x l -> g x <> None) -> all_some (map g l) <> None.
Proof.
  induction l as [|x l IH]; intro H; cbn; [easy|]. pose proof (H x (or_introl eq_refl)). destruct (g x); [|easy].
  specialize (IH (fun y Hy => H y (or_intror Hy))). now destruct (all_some (map g l)).
Qed.

(** the frame numbers of one camera with several files *)
Lemma pull_sound : forall files fr, (2 <= length files)%nat -> (forall f, In f files -> plain f) ->
  pull_framenumbers files = Some fr ->
  length fr = length files /\
  forall k f, nth_error files k = Some f -> exists d n, number_part files f d /\ decimal d n /\ nth_error fr k = Some n.
Proof.
  intros files fr L2 Pl H. destruct files as [|s [|s' rest0]]; [cbn in L2; lia..|].
  unfold pull_framenumbers in H. set (rest := s' :: rest0) in *. set (files := s :: rest) in *.
  set (ld := leading_of s rest) in *. set (tr := trailing_of s rest) in *.
  destruct (forallb _ files) eqn:Nm; [|discriminate]. rewrite forallb_forall in Nm.
  assert (Lp : forall g, In g files -> prefix ld g) by (intros g [<-|Hg]; [exact (proj1 (leading_spec rest s))|exact (proj2 (leading_spec rest s) g Hg)]).
  assert (Ts : forall g, In g files -> suffix tr g) by (intros g [<-|Hg]; [exact (proj1 (trailing_spec rest s))|exact (proj2 (trailing_spec rest s) g Hg)]).
  assert (Spl : forall g, In g files -> let m := middle (length ld) (length tr) g in
     g = ld ++ m ++ tr /\ m <> [] /\ Forall digit m /\ plain ld /\ plain tr).
  { intros g Hg m. specialize (Nm g Hg). unfold numeric in Nm. fold m in Nm.
    assert (M0 : m <> []) by (intro E; rewrite E in Nm; discriminate).
    pose proof (middle_split ld tr g (Lp g Hg) (Ts g Hg) M0) as E. fold m in E.
    pose proof (Pl g Hg) as Pg. rewrite E in Pg. apply plain_app in Pg. destruct Pg as (P1 & Pg). apply plain_app in Pg. destruct Pg as (P2 & P3).
    rewrite (chomp_plain m P2) in Nm. assert (Md : Forall digit m) by (apply digits_iff; destruct m; easy). auto. }
  destruct (Spl s (or_introl eq_refl)) as (_ & _ & _ & Pld & Ptr).
  destruct (pre_split ld Pld) as (P & EP & DP & NP). destruct (post_split tr Ptr) as (Q & EQ & DQ & NQ).
  set (a := pre_numeric ld) in *. set (b := post_numeric tr) in *.
  destruct (all_some_map _ _ _ _ _ H) as (Lr & Nr). split; [easy|]. intros k f Hk.
  pose proof (nth_error_In _ _ Hk) as Hf. destruct (Spl f Hf) as (Ef & M0 & Md & _).
  destruct (Nr k f Hk) as (n & Hn & Hnth). set (m := middle (length ld) (length tr) f) in *.
  assert (D : Forall digit (a ++ m ++ b)) by (apply Forall_app; split; [easy|apply Forall_app; easy]).
  exists (a ++ m ++ b), n. split; [|split; [|easy]].
  - exists P, Q. split; [easy|]. split; [easy|]. split; [rewrite Ef, EP, EQ, <- !app_assoc; easy|].
    split; [intro X; apply app_eq_nil in X; destruct X as (_ & X); apply app_eq_nil in X; easy|]. split; [easy|].
    intros g Hg. destruct (Spl g Hg) as (Eg & G0 & Gd & _). set (mg := middle (length ld) (length tr) g) in *.
    exists (a ++ mg ++ b). split; [rewrite Eg, EP, EQ, <- !app_assoc; easy|].
    split; [intro X; apply app_eq_nil in X; destruct X as (_ & X); apply app_eq_nil in X; easy|].
    apply Forall_app; split; [easy|apply Forall_app; easy].
  - unfold py_int in Hn. rewrite (chomp_plain _ (digits_plain _ D)) in Hn.
    destruct (a ++ m ++ b) as [|c r]; [discriminate|]. rewrite (proj2 (digits_iff _) D) in Hn. inversion Hn.
    now apply decimal_value.
Qed.

(** ** [number_part] picks out one part of the name *)
Lemma cut_unique : forall d Q d' Q', d ++ Q = d' ++ Q' -> Forall digit d -> Forall digit d' -> ~ starts_with_digit Q -> ~ starts_with_digit Q' -> d = d' /\ Q = Q'.
Proof.
  induction d as [|c d IH]; intros Q d' Q' E D D' N N'; destruct d' as [|c' d']; cbn in E.
  - easy.
  - exfalso. apply N. inversion D'; subst. eexists; eauto.
  - exfalso. apply N'. inversion D; subst. eexists; eauto.
  - inversion E; subst. inversion D; inversion D'; subst. destruct (IH Q d' Q') as (-> & ->); auto.
Qed.
Lemma app_compare : forall (P x P' x' : name), P ++ x = P' ++ x' -> (exists y, P' = P ++ y /\ x = y ++ x') \/ (exists y, P = P' ++ y /\ x' = y ++ x).
Proof.
  induction P as [|c P IH]; intros x P' x' E; [left; exists P'; easy|]. destruct P' as [|c' P']; [right; exists (c :: P); easy|].
  inversion E; subst. destruct (IH x P' x' H1) as [(y & -> & ->)|(y & -> & ->)]; [left|right]; exists y; easy.
Qed.
Theorem C47_part_unique : forall files f g d d',
  In f files -> In g files -> f <> g -> number_part files f d -> number_part files f d' -> d = d'.
Proof.
  intros files f g d d' Hf Hg Nfg (P & Q & NP & NQ & Ef & D0 & Dd & Hall) (P' & Q' & NP' & NQ' & Ef' & D0' & Dd' & Hall').
  destruct (Hall g Hg) as (e & Eg & E0 & De). destruct (Hall' g Hg) as (e' & Eg' & E0' & De').
  assert (Key : forall P Q d e P' Q' d' e' y, ~ ends_in_digit P' -> ~ starts_with_digit Q -> ~ starts_with_digit Q' ->
    Forall digit d -> Forall digit e -> Forall digit d' -> Forall digit e' ->
    P' = P ++ y -> d ++ Q = y ++ d' ++ Q' -> e ++ Q = y ++ e' ++ Q' -> P ++ d ++ Q <> P ++ e ++ Q -> d = d').
  { clear. intros P Q d e P' Q' d' e' y NP' NQ NQ' Dd De Dd' De' -> E1 E2 Ne.
    destruct y as [|c y].
    - cbn in *. now destruct (cut_unique _ _ _ _ E1 Dd Dd' NQ NQ').
    - exfalso. (* the prefix ends in a non-digit, so it covers all of the digits of both *)
      set (z := c :: y) in *.
      assert (Z : exists y0 c0, z = y0 ++ [c0] /\ ~ digit c0).
      { destruct (@exists_last _ z) as (y0 & c0 & Ez); [easy|]. exists y0, c0. split; [easy|]. intro Dc. apply NP'.
        exists (P ++ y0), c0. rewrite Ez, app_assoc. easy. }
      destruct Z as (y0 & c0 & Ez & Nc).
      assert (Cov : forall d d', Forall digit d -> d ++ Q = z ++ d' ++ Q' -> exists u, z = d ++ u).
      { intros d0 d0' D E. destruct (app_compare _ _ _ _ E) as [(u & -> & _)|(u & Eu & _)]; [eauto|].
        exfalso. apply Nc. rewrite Eu, Ez in D. rewrite Forall_forall in D. apply D. rewrite !in_app_iff. left. right. now left. }
      destruct (Cov d d' Dd E1) as (u & Eu). destruct (Cov e e' De E2) as (v & Ev).
      assert (Q = u ++ d' ++ Q') by (rewrite Eu, <- app_assoc in E1; now apply app_inv_head in E1).
      assert (Q = v ++ e' ++ Q') by (rewrite Ev, <- app_assoc in E2; now apply app_inv_head in E2).
      assert (d = e); [|congruence]. rewrite Eu in Ev.
      assert (NU : forall u w, Q = u ++ w -> ~ starts_with_digit u).
      { intros u0 w0 EQ (c1 & p1 & -> & D1). apply NQ. rewrite EQ. exists c1, (p1 ++ w0). easy. }
      destruct (cut_unique d u e v Ev Dd De) as (-> & _); [eapply NU; eauto..|easy]. }
  assert (E1 : P ++ d ++ Q = P' ++ d' ++ Q') by congruence.
  assert (E2 : P ++ e ++ Q = P' ++ e' ++ Q') by congruence.
  destruct (app_compare _ _ _ _ E1) as [(y & Ey & E1')|(y & Ey & E1')].
  - apply (Key P Q d e P' Q' d' e' y); auto; [|congruence].
    rewrite Ey, <- app_assoc in E2. now apply app_inv_head in E2.
  - symmetry. apply (Key P' Q' d' e' P Q d e y); auto; [|congruence].
    symmetry in E2. rewrite Ey, <- app_assoc in E2. now apply app_inv_head in E2.
Qed.

(** ** the dict *)
Lemma name_eqb_iff : forall a b, name_eqb a b = true <-> a = b.
Proof.
  induction a as [|x a IH]; intros [|y b]; cbn; try easy. rewrite andb_true_iff, IH, Ascii.eqb_eq. split; [intros (-> & ->); easy|].
  intro H. now inversion H.
Qed.
Lemma dict_app : forall d d' f, dict_get (d ++ d') f = match dict_get d' f with Some v => Some v | None => dict_get d f end.
Proof.
  induction d as [|(k, v) d IH]; intros d' f; cbn; [now destruct (dict_get d' f)|]. rewrite IH.
  destruct (dict_get d' f); [easy|]. easy.
Qed.
Lemma dict_none : forall d f, dict_get d f = None <-> ~ In f (map fst d).
Proof.
  induction d as [|(k, v) d IH]; intro f; cbn; [easy|]. specialize (IH f). destruct (dict_get d f).
  - split; [discriminate|]. intro H. exfalso. assert (~ In f (map fst d)) by tauto. apply IH in H0. discriminate.
  - destruct (name_eqb k f) eqn:E.
    + apply name_eqb_iff in E. split; [discriminate|tauto].
    + assert (k <> f) by (intro X; apply name_eqb_iff in X; congruence). tauto.
Qed.
Lemma dict_some : forall d f v, dict_get d f = Some v -> exists k, nth_error d k = Some (f, v) /\ forall j w, (k < j)%nat -> nth_error d j <> Some (f, w).
Proof.
  induction d as [|(x, y) d IH]; intros f v H; cbn in H; [discriminate|].
  destruct (dict_get d f) as [u|] eqn:E.
  - inversion H; subst. destruct (IH f v E) as (k & Hk & Hl). exists (S k). split; [easy|].
    intros [|j] w Hj; [lia|]. cbn. apply Hl. lia.
  - destruct (name_eqb x f) eqn:X; [|discriminate]. apply name_eqb_iff in X. inversion H; subst. exists 0%nat. split; [easy|].
    intros [|j] w Hj; [lia|]. cbn. intro Hn. apply dict_none in E. apply E. apply nth_error_In in Hn. now apply (in_map fst) in Hn.
Qed.
Lemma combine_nth_error : forall A B (a : list A) (b : list B) k x y, nth_error (combine a b) k = Some (x, y) <-> nth_error a k = Some x /\ nth_error b k = Some y.
Proof.
  induction a as [|u a IH]; intros b k x y; [destruct k; cbn; split; [easy|intros (H & _); easy|easy|intros (H & _); easy]|].
  destruct b as [|w b]; [destruct k; cbn; split; try easy; intros (_ & H); discriminate|].
  destruct k as [|k]; cbn; [|apply IH]. split; [intro H; inversion H; easy|intros (H & H'); congruence].
Qed.

(** what each camera adds *)
Definition numbers (N : Z) (files : list name) (fr : list Z) : Prop :=
  pull_framenumbers files = Some fr \/
  (pull_framenumbers files = None /\ N = 1 /\ fr = map Z.of_nat (seq 0 (length files))).
Lemma pull_length : forall files fr, pull_framenumbers files = Some fr -> length fr = length files.
Proof.
  intros files fr H. unfold pull_framenumbers in H. destruct files as [|s [|s' rest]]; [discriminate|inversion H; easy|].
  destruct (forallb _ _); [|discriminate]. now apply all_some_map in H.
Qed.
Lemma numbers_length : forall N files fr, numbers N files fr -> length fr = length files.
Proof. intros N files fr [H|(_ & _ & ->)]; [now apply pull_length|]. now rewrite map_length, seq_length. Qed.
Lemma camera_spec : forall N d i files d', camera N d i files = Some d' ->
  exists fr, numbers N files fr /\ d' = d ++ combine files (map (fun k => (k, i)) fr).
Proof.
  intros N d i files d' H. unfold camera in H. destruct (pull_framenumbers files) as [fr|] eqn:E.
  - inversion H. exists fr. split; [now left|easy].
  - destruct (Z.eqb_spec N 1); [|discriminate]. inversion H. eexists. split; [right; repeat split; auto|easy].
Qed.
Lemma map_fst_comb : forall A B (a : list A) (b : list B), length a = length b -> map fst (combine a b) = a.
Proof. induction a; intros [|y b] H; cbn in *; try easy. rewrite IHa; [easy|lia]. Qed.

(** entries of the final dict: from the last camera that lists the file *)
Lemma cameras_spec : forall cams N d i d', cameras N d i cams = Some d' -> forall f,
  (exists k files fr m n, nth_error cams k = Some files /\ numbers N files fr /\ nth_error files m = Some f /\ nth_error fr m = Some n /\
     dict_get d' f = Some (n, i + Z.of_nat k) /\
     (forall k' files', (k < k')%nat -> nth_error cams k' = Some files' -> ~ In f files') /\
     (forall m', (m < m')%nat -> nth_error files m' <> Some f)) \/
  ((forall k' files', nth_error cams k' = Some files' -> ~ In f files') /\ dict_get d' f = dict_get d f).
Proof.
  induction cams as [|files cams IH]; intros N d i d' H f; cbn in H.
  - inversion H; subst. right. split; [intros [|k]; discriminate|easy].
  - destruct (camera N d i files) as [d1|] eqn:E; [|discriminate].
    destruct (camera_spec _ _ _ _ _ E) as (fr & Nu & ->). pose proof (numbers_length _ _ _ Nu) as Ln.
    destruct (IH N _ (i + 1) d' H f) as [(k & fs & fr' & m & n & A1 & A2 & A3 & A4 & A5 & A6 & A7)|(A1 & A2)].
    + left. exists (S k), fs, fr', m, n. split; [easy|]. split; [easy|]. split; [easy|]. split; [easy|]. split; [rewrite A5; f_equal; f_equal; lia|].
      split; [|easy]. intros [|k'] fs' Hk Hn; [lia|]. cbn in Hn. apply (A6 k'); [lia|easy].
    + rewrite dict_app in A2. destruct (dict_get (combine files (map (fun k => (k, i)) fr)) f) as [v|] eqn:G.
      * left. destruct (dict_some _ _ _ G) as (m & Hm & Hl). destruct v as [n j]. apply combine_nth_error in Hm. destruct Hm as (Hm & Hm').
        rewrite nth_error_map in Hm'. destruct (nth_error fr m) as [n'|] eqn:En; [|discriminate]. inversion Hm'; subst n' j.
        exists 0%nat, files, fr, m, n. split; [easy|]. split; [easy|]. split; [easy|]. split; [easy|]. split; [rewrite A2; f_equal; f_equal; cbn; lia|].
        split.
        -- intros [|k'] fs' Hk Hn; [lia|]. exact (A1 k' fs' Hn).
        -- intros m' Hmm Hf. assert (Hlen : (m' < length fr)%nat) by (rewrite Ln; apply nth_error_Some; congruence).
           apply nth_error_Some in Hlen. destruct (nth_error fr m') as [n'|] eqn:En'; [|easy].
           apply (Hl m' (n', i) Hmm). apply combine_nth_error. split; [easy|]. rewrite nth_error_map, En'. easy.
      * right. split; [|easy]. intros [|k'] fs' Hn; cbn in Hn; [|exact (A1 k' fs' Hn)]. inversion Hn; subst fs'.
        apply dict_none in G. now rewrite map_fst_comb in G by (rewrite map_length; lia).
Qed.

(** *** C47: every file gets a mapping, to a camera that lists it *)
Theorem C47_every_file : forall cams d f, mapping cams = Some d ->
  (exists files, In files cams /\ In f files) ->
  exists n k files, dict_get d f = Some (n, Z.of_nat k) /\ nth_error cams k = Some files /\ In f files /\
    forall k' files', (k < k')%nat -> nth_error cams k' = Some files' -> ~ In f files'.
Proof.
  intros cams d f H (files & I & J). unfold mapping in H. destruct (existsb _ cams); [discriminate|].
  destruct (cameras_spec _ _ _ _ _ H f) as [(k & fs & fr & m & n & A1 & A2 & A3 & A4 & A5 & A6 & A7)|(A1 & A2)].
  - exists n, k, fs. rewrite Z.add_0_l in A5. split; [easy|]. split; [easy|]. split; [eapply nth_error_In; eauto|easy].
  - exfalso. apply In_nth_error in I. destruct I as (k & Hk). exact (A1 k files Hk J).
Qed.
(** and only those files *)
Theorem C47_no_others : forall cams d f, mapping cams = Some d ->
  (forall files, In files cams -> ~ In f files) -> dict_get d f = None.
Proof.
  intros cams d f H Nf. unfold mapping in H. destruct (existsb _ cams); [discriminate|].
  destruct (cameras_spec _ _ _ _ _ H f) as [(k & fs & fr & m & n & A1 & A2 & A3 & A4 & A5 & A6 & A7)|(A1 & A2)].
  - exfalso. apply (Nf fs); eauto using nth_error_In.
  - exact A2.
Qed.

(** with several cameras, each with several files: the frame number is the
    number in the varying part of the name *)
Theorem C47_frame_number : forall cams d k files f,
  (2 <= length cams)%nat -> mapping cams = Some d ->
  nth_error cams k = Some files -> In f files -> (2 <= length files)%nat -> (forall g, In g files -> plain g) ->
  (forall k' files', (k < k')%nat -> nth_error cams k' = Some files' -> ~ In f files') ->
  exists p n, number_part files f p /\ decimal p n /\ dict_get d f = Some (n, Z.of_nat k).
Proof.
  intros cams d k files f Lc H Hk Hf L2 Pl Last. unfold mapping in H. destruct (existsb _ cams); [discriminate|].
  destruct (cameras_spec _ _ _ _ _ H f) as [(k1 & fs & fr & m & n & A1 & A2 & A3 & A4 & A5 & A6 & A7)|(A1 & A2)].
  - assert (k1 = k).
    { destruct (Nat.lt_trichotomy k1 k) as [X|[X|X]]; [|easy|].
      - exfalso. exact (A6 k files X Hk Hf).
      - exfalso. apply (Last k1 fs X A1). eauto using nth_error_In. }
    subst k1. rewrite Hk in A1. inversion A1; subst fs. rewrite Z.add_0_l in A5.
    destruct A2 as [A2|(_ & X & _)]; [|lia].
    destruct (pull_sound files fr L2 Pl A2) as (_ & Hs). destruct (Hs m f A3) as (p & n' & B1 & B2 & B3).
    exists p, n'. split; [easy|]. split; [easy|]. congruence.
  - exfalso. exact (A1 k files Hk Hf).
Qed.

(** a camera with a single file has its frame numbered 0 *)
Theorem C47_single_file : forall cams d k f, mapping cams = Some d -> nth_error cams k = Some [f] ->
  (forall k' files', (k < k')%nat -> nth_error cams k' = Some files' -> ~ In f files') ->
  dict_get d f = Some (0, Z.of_nat k).
Proof.
  intros cams d k f H Hk Last. unfold mapping in H. destruct (existsb _ cams); [discriminate|].
  destruct (cameras_spec _ _ _ _ _ H f) as [(k1 & fs & fr & m & n & A1 & A2 & A3 & A4 & A5 & A6 & A7)|(A1 & A2)].
  - assert (k1 = k).
    { destruct (Nat.lt_trichotomy k1 k) as [X|[X|X]]; [|easy|].
      - exfalso. apply (A6 k [f] X Hk). now left.
      - exfalso. apply (Last k1 fs X A1). eauto using nth_error_In. }
    subst k1. rewrite Hk in A1. inversion A1; subst fs. rewrite Z.add_0_l in A5.
    destruct A2 as [A2|(A2 & _)]; [|discriminate]. inversion A2; subst. destruct m as [|m]; [|destruct m; discriminate].
    inversion A4; subst. exact A5.
  - exfalso. apply (A1 k [f] Hk). now left.
Qed.

(** two files have the same frame number exactly if the numbers in their names agree *)
Theorem C47_same_frame : forall cams d k files f k' files' f',
  (2 <= length cams)%nat -> mapping cams = Some d ->
  nth_error cams k = Some files -> In f files -> (2 <= length files)%nat ->
  nth_error cams k' = Some files' -> In f' files' -> (2 <= length files')%nat ->
  (forall fs g, In fs cams -> In g fs -> plain g) ->
  (forall i j fs gs g, nth_error cams i = Some fs -> nth_error cams j = Some gs -> In g fs -> In g gs -> i = j) ->
  exists n n' p p', dict_get d f = Some (n, Z.of_nat k) /\ dict_get d f' = Some (n', Z.of_nat k') /\
    number_part files f p /\ number_part files' f' p' /\
    (n = n' <-> exists v, decimal p v /\ decimal p' v).
Proof.
  intros cams d k files f k' files' f' Lc H Hk Hf L2 Hk' Hf' L2' Pl Uq.
  destruct (C47_frame_number cams d k files f) as (p & n & B1 & B2 & B3); auto.
  { intros g Hg. apply (Pl files g); eauto using nth_error_In. }
  { intros j gs Lt Hj Hg. specialize (Uq k j files gs f Hk Hj Hf Hg). lia. }
  destruct (C47_frame_number cams d k' files' f') as (p' & n' & B1' & B2' & B3'); auto.
  { intros g Hg. apply (Pl files' g); eauto using nth_error_In. }
  { intros j gs Lt Hj Hg. specialize (Uq k' j files' gs f' Hk' Hj Hf' Hg). lia. }
  exists n, n', p, p'. repeat (split; [assumption|]). split.
  - intros <-. eauto.
  - intros (v & V & V'). rewrite (decimal_fun _ _ _ B2 V), (decimal_fun _ _ _ B2' V'). easy.
Qed.

(** *** names numbered with the same number of digits are always understood *)
Lemma pull_complete : forall files P Q w, (2 <= length files)%nat -> plain P -> plain Q ->
  (exists f g, In f files /\ In g files /\ f <> g) ->
  (forall f, In f files -> exists e, f = P ++ e ++ Q /\ length e = w /\ Forall digit e) ->
  pull_framenumbers files <> None.
Proof.
  intros files P Q w L2 PP PQ (f & g & Hf & Hg & Nfg) Hall. destruct files as [|s [|s' rest0]]; [cbn in L2; lia..|].
  unfold pull_framenumbers. set (rest := s' :: rest0) in *. set (files := s :: rest) in *.
  set (ld := leading_of s rest). set (tr := trailing_of s rest).
  assert (Lp : forall g, In g files -> prefix ld g) by (intros h [<-|Hh]; [exact (proj1 (leading_spec rest s))|exact (proj2 (leading_spec rest s) h Hh)]).
  assert (Ts : forall g, In g files -> suffix tr g) by (intros h [<-|Hh]; [exact (proj1 (trailing_spec rest s))|exact (proj2 (trailing_spec rest s) h Hh)]).
  assert (LP : prefix P ld).
  { apply leading_max; [destruct (Hall s (or_introl eq_refl)) as (e & -> & _)|intros h Hh; destruct (Hall h (or_intror Hh)) as (e & -> & _)]; now eexists. }
  assert (LQ : suffix Q tr).
  { apply trailing_max; [destruct (Hall s (or_introl eq_refl)) as (e & -> & _)|intros h Hh; destruct (Hall h (or_intror Hh)) as (e & -> & _)];
      eexists; rewrite app_assoc; reflexivity. }
  assert (Len : forall h, In h files -> length h = (length P + w + length Q)%nat).
  { intros h Hh. destruct (Hall h Hh) as (e & -> & <- & _). rewrite !app_length. lia. }
  (* the common prefix and suffix don't meet *)
  assert (Short : (length ld + length tr < length P + w + length Q)%nat).
  { destruct (Nat.lt_ge_cases (length ld + length tr) (length P + w + length Q)) as [X|X]; [easy|]. exfalso. apply Nfg.
    destruct (Lp f Hf) as (u & Ef). destruct (Lp g Hg) as (u' & Eg). destruct (Ts f Hf) as (v & Ef'). destruct (Ts g Hg) as (v' & Eg').
    assert (Lu : length u = length u').
    { pose proof (Len f Hf) as A. pose proof (Len g Hg) as B. rewrite Ef, app_length in A. rewrite Eg, app_length in B. lia. }
    assert (Sk : forall h v x, h = v ++ tr -> h = ld ++ x -> (length x <= length tr)%nat -> x = skipn (length tr - length x) tr).
    { intros h v0 x E1 E2 Lx. assert (Ll : (length ld + length x = length v0 + length tr)%nat) by (rewrite <- !app_length; congruence).
      transitivity (skipn (length ld) h); [rewrite E2, skipn_app, skipn_all, Nat.sub_diag; easy|].
      rewrite E1, skipn_app, (skipn_all2 v0) by lia. cbn [app]. replace (length ld - length v0)%nat with (length tr - length x)%nat by lia. reflexivity. }
    pose proof (Len f Hf) as A. rewrite Ef, app_length in A.
    assert (u = u').
    { pose proof (Sk f v u Ef' Ef ltac:(lia)) as S1. pose proof (Sk g v' u' Eg' Eg ltac:(lia)) as S2. rewrite Lu in S1. congruence. }
    congruence. }
  assert (Mid : forall h, In h files -> let m := middle (length ld) (length tr) h in m <> [] /\ Forall digit m).
  { intros h Hh m. destruct (Hall h Hh) as (e & Eh & Le & De).
    assert (M0 : m <> []).
    { unfold m, middle. intro X. apply (f_equal (@length ascii)) in X. rewrite firstn_length, skipn_length, (Len h Hh) in X. cbn [length] in X. lia. }
    split; [easy|]. pose proof (middle_split ld tr h (Lp h Hh) (Ts h Hh) M0) as E. fold m in E.
    destruct LP as (a & EP). destruct LQ as (b & EQ).
    rewrite Eh, EP, EQ in E. rewrite <- !app_assoc in E. apply app_inv_head in E.
    rewrite !app_assoc in E. apply app_inv_tail in E. rewrite E in De. apply Forall_app in De. destruct De as (De & _). now apply Forall_app in De. }
  assert (forallb (fun f0 => numeric (middle (length ld) (length tr) f0)) files = true) as ->.
  { apply forallb_forall. intros h Hh. destruct (Mid h Hh) as (M0 & Md). unfold numeric. rewrite (chomp_plain _ (digits_plain _ Md)).
    destruct (middle _ _ h); [easy|]. now apply digits_iff. }
  apply all_some_ok. intros h Hh. destruct (Mid h Hh) as (M0 & Md). destruct (Hall h Hh) as (e & Eh & Le & De).
  assert (Pld : plain ld /\ plain tr).
  { pose proof (middle_split ld tr h (Lp h Hh) (Ts h Hh) M0) as E.
    assert (Ph : plain h) by (rewrite Eh; apply plain_app; split; [easy|]; apply plain_app; split; [now apply digits_plain|easy]).
    rewrite E in Ph. apply plain_app in Ph. destruct Ph as (A & B). apply plain_app in B. easy. }
  destruct (pre_split ld (proj1 Pld)) as (P1 & _ & DP & _). destruct (post_split tr (proj2 Pld)) as (Q1 & _ & DQ & _).
  assert (D : Forall digit (pre_numeric ld ++ middle (length ld) (length tr) h ++ post_numeric tr)) by (apply Forall_app; split; [easy|apply Forall_app; easy]).
  unfold py_int. rewrite (chomp_plain _ (digits_plain _ D)).
  destruct (pre_numeric ld ++ middle (length ld) (length tr) h ++ post_numeric tr) eqn:E0.
  - apply app_eq_nil in E0. destruct E0 as (_ & E0). apply app_eq_nil in E0. easy.
  - rewrite (proj2 (digits_iff _) D). easy.
Qed.
Theorem C47_understood : forall cams,
  (forall files, In files cams -> length files = 1%nat \/
     ((2 <= length files)%nat /\ (exists f g, In f files /\ In g files /\ f <> g) /\
      exists P Q w, plain P /\ plain Q /\ forall f, In f files -> exists e, f = P ++ e ++ Q /\ length e = w /\ Forall digit e)) ->
  exists d, mapping cams = Some d.
Proof.
  intros cams H. unfold mapping.
  assert (existsb (fun files : list name => match files with [] => true | _ => false end) cams = false) as ->.
  { apply not_true_is_false. intro X. apply existsb_exists in X. destruct X as (files & I & X). destruct files; [|easy].
    destruct (H [] I) as [A|(A & _)]; cbn in A; lia. }
  generalize (Z.of_nat (@Datatypes.length (list name) cams)) as N. intro N. generalize (@nil (name * (Z * Z))) as d. generalize 0 as i.
  induction cams as [|files cams IH]; intros i d; cbn [cameras]; [eauto|].
  assert (E : exists d', camera N d i files = Some d').
  { unfold camera. assert (P : pull_framenumbers files <> None).
    { destruct (H files (or_introl eq_refl)) as [A|(A & B & P & Q & w & C1 & C2 & C3)].
      - destruct files as [|f [|g r]]; cbn in A; try lia. easy.
      - now apply (pull_complete files P Q w). }
    destruct (pull_framenumbers files); [eauto|easy]. }
  destruct E as (d' & E).
  change (exists d0, match camera N d i files with Some d1 => cameras N d1 (i + 1) cams | None => None end = Some d0).
  rewrite E. apply IH. intros. apply H. now right.
Qed.

(** *** where names of different lengths go wrong *)
Definition nm (s : string) : name := list_ascii_of_string s.
(** perfectly numbered names can be refused *)
Theorem C47_needless_refusal_refuted : mapping [[nm "a1.png"; nm "a11.png"]; [nm "b1.png"; nm "b2.png"]] = None.
Proof. vm_compute. reflexivity. Qed.
(** two images of one camera can get the same frame number *)
Theorem C47_collision_refuted : exists d, mapping [[nm "a1.png"; nm "a01.png"; nm "a2.png"]; [nm "b1.png"; nm "b2.png"]] = Some d /\
  dict_get d (nm "a1.png") = Some (1, 0) /\ dict_get d (nm "a01.png") = Some (1, 0).
Proof. eexists. split; [vm_compute; reflexivity|]. split; vm_compute; reflexivity. Qed.
(** a lone file is frame 0 whatever its name says *)
Theorem C47_lone_file_refuted : exists d, mapping [[nm "a5.png"]; [nm "b0.png"; nm "b5.png"]] = Some d /\
  dict_get d (nm "a5.png") = Some (0, 0) /\ dict_get d (nm "b0.png") = Some (0, 1) /\ dict_get d (nm "b5.png") = Some (5, 1).
Proof. eexists. split; [vm_compute; reflexivity|]. repeat split; vm_compute; reflexivity. Qed.

(** the hypotheses are met: the documented example *)
Example ex_C47 :
  let c0 := [nm "img5-cam2.jpg"; nm "img6-cam2.jpg"] in
  let c1 := [nm "img6-cam3.jpg"; nm "img7-cam3.jpg"] in
  exists d, mapping [c0; c1] = Some d /\
    dict_get d (nm "img6-cam2.jpg") = Some (6, 0) /\ dict_get d (nm "img6-cam3.jpg") = Some (6, 1) /\
    (forall fs g, In fs [c0; c1] -> In g fs -> plain g) /\
    number_part c0 (nm "img6-cam2.jpg") (nm "6").
Proof.
  cbv zeta. eexists. split; [vm_compute; reflexivity|]. split; [vm_compute; reflexivity|]. split; [vm_compute; reflexivity|]. split.
  - intros fs g Hfs Hg. assert (E : existsb is_nl g = false).
    { destruct Hfs as [<-|[<-|[]]]; destruct Hg as [<-|[<-|[]]]; reflexivity. }
    intro I. assert (X : existsb is_nl g = true) by (apply existsb_exists; exists newline; split; [easy|reflexivity]). congruence.
  - exists (nm "img"), (nm "-cam2.jpg").
    assert (D : Forall digit (nm "6") /\ Forall digit (nm "5")) by (split; (constructor; [unfold digit; cbn; lia|constructor])).
    split; [intros (p & c & E & Dc); apply (f_equal (@rev ascii)) in E; rewrite rev_app_distr in E; cbn in E; inversion E; subst c; unfold digit in Dc; cbn in Dc; lia|].
    split; [intros (c & p & E & Dc); cbn in E; inversion E; subst c; unfold digit in Dc; cbn in Dc; lia|].
    split; [reflexivity|]. split; [discriminate|]. split; [apply D|].
    intros g [<-|[<-|[]]]; [exists (nm "5")|exists (nm "6")]; (split; [reflexivity|split; [discriminate|apply D]]).
Qed.

Print Assumptions C47_part_unique.
Print Assumptions C47_every_file.
Print Assumptions C47_no_others.
Print Assumptions C47_frame_number.
Print Assumptions C47_single_file.
Print Assumptions C47_same_frame.
Print Assumptions C47_understood.
Print Assumptions C47_needless_refusal_refuted.
Print Assumptions C47_collision_refuted.
Print Assumptions C47_lone_file_refuted.
