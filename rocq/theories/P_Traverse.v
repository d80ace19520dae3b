(** Proofs about pairwise_index() and the sensor-link traversal. *)
From Coq Require Import ZArith List Bool Lia Permutation ZifyBool ZifyNat.
From Verif Require Import M_Traverse S_Traverse.
Import ListNotations.
Open Scope Z_scope.

(** ** pairwise_index *)
Lemma tri_even : forall b, 2 * ((b + 1) * (b + 2) / 2) = (b + 1) * (b + 2).
Proof.
  intro b. assert ((b + 1) * (b + 2) mod 2 = 0) as E.
  { rewrite Z.mul_mod, !(Z.add_mod b) by lia. pose proof (Z.mod_pos_bound b 2).
    assert (b mod 2 = 0 \/ b mod 2 = 1) as [-> | ->] by lia; reflexivity. }
  pose proof (Z.div_mod ((b + 1) * (b + 2)) 2). lia.
Qed.
Lemma pairwise_sym : forall a b N, a <> b -> pairwise_index a b N = pairwise_index b a N.
Proof.
  intros a b N H. unfold pairwise_index. destruct (Z.gtb_spec a b), (Z.gtb_spec b a); try lia.
Qed.
(** index of (a,b), a<b *)
Lemma pairwise_lt : forall a b N, a < b -> 2 * pairwise_index a b N = 2 * b + 2 * a * N - (a + 1) * (a + 2).
Proof.
  intros a b N H. unfold pairwise_index. replace (a >? b) with false by lia. pose proof (tri_even a). lia.
Qed.
Lemma pairwise_range : forall a b N, 0 <= a < b -> b < N -> 0 <= pairwise_index a b N < N * (N - 1) / 2.
Proof.
  intros a b N H1 H2. pose proof (pairwise_lt a b N ltac:(lia)) as E.
  assert (2 * (N * (N - 1) / 2) = N * (N - 1)) as T.
  { pose proof (tri_even (N - 2)) as T. replace (N - 2 + 1) with (N - 1) in T by lia. replace (N - 2 + 2) with N in T by lia.
    rewrite (Z.mul_comm N). lia. }
  assert (0 <= 2 * pairwise_index a b N) by nia.
  assert (2 * pairwise_index a b N < N * (N - 1)) by nia. lia.
Qed.
(** row-major order *)
Lemma pairwise_mono_row : forall a b a' b' N, 0 <= a < b -> b < N -> 0 <= a' < b' -> b' < N -> a < a' ->
  pairwise_index a b N < pairwise_index a' b' N.
Proof.
  intros a b a' b' N H1 H2 H3 H4 L.
  pose proof (pairwise_lt a b N ltac:(lia)). pose proof (pairwise_lt a' b' N ltac:(lia)).
  assert (2 * pairwise_index a b N < 2 * pairwise_index a' b' N); [|lia].
  assert (2 * b + 2 * a * N - (a + 1) * (a + 2) <= 2 * (N - 1) + 2 * a * N - (a + 1) * (a + 2)) by lia.
  assert (2 * (a' + 1) + 2 * a' * N - (a' + 1) * (a' + 2) <= 2 * b' + 2 * a' * N - (a' + 1) * (a' + 2)) by lia.
  assert (2 * (N - 1) + 2 * a * N - (a + 1) * (a + 2) < 2 * (a' + 1) + 2 * a' * N - (a' + 1) * (a' + 2)); [|lia].
  (* difference: 2N(a'-a) - ... *)
  assert (0 <= (a' - a - 1) * (2 * N - (a + a' + 2))) by nia. nia.
Qed.
Lemma pairwise_inj : forall a b a' b' N, 0 <= a < b -> b < N -> 0 <= a' < b' -> b' < N ->
  pairwise_index a b N = pairwise_index a' b' N -> a = a' /\ b = b'.
Proof.
  intros a b a' b' N H1 H2 H3 H4 E.
  destruct (Z.lt_trichotomy a a') as [L | [-> | L]].
  - pose proof (pairwise_mono_row a b a' b' N). lia.
  - split; [easy|]. pose proof (pairwise_lt a' b N ltac:(lia)). pose proof (pairwise_lt a' b' N ltac:(lia)). lia.
  - pose proof (pairwise_mono_row a' b' a b N). lia.
Qed.
Lemma pairwise_onto : forall N k, 0 <= N -> 0 <= k < N * (N - 1) / 2 -> exists a b, 0 <= a < b /\ b < N /\ pairwise_index a b N = k.
Proof.
  intros N k HN H.
  (* rows of decreasing length; walk them *)
  assert (forall n a, Z.of_nat n = N - 1 - a -> 0 <= a -> pairwise_index a (a + 1) N <= k -> exists a b, 0 <= a < b /\ b < N /\ pairwise_index a b N = k) as W.
  { assert (2 * (N * (N - 1) / 2) = N * (N - 1)) as T.
    { pose proof (tri_even (N - 2)) as T. replace (N - 2 + 1) with (N - 1) in T by lia. replace (N - 2 + 2) with N in T by lia.
      rewrite (Z.mul_comm N). lia. }
    induction n; intros a En Ha Hk.
    - pose proof (pairwise_lt a (a + 1) N ltac:(lia)). assert (a = N - 1) by lia. subst a. nia.
    - pose proof (pairwise_lt a (a + 1) N ltac:(lia)) as E0.
      destruct (Z_lt_le_dec k (pairwise_index (a + 1) (a + 1 + 1) N)) as [L|L].
      + pose proof (pairwise_lt (a + 1) (a + 1 + 1) N ltac:(lia)) as E1.
        set (b := a + 1 + (k - pairwise_index a (a + 1) N)).
        pose proof (pairwise_lt a b N ltac:(lia)) as E2.
        exists a, b. repeat split; try lia; nia.
      + apply (IHn (a + 1)); lia. }
  destruct (Z_le_gt_dec N 1) as [L|L].
  - exfalso. assert (N = 0 \/ N = 1) as [-> | ->] by lia; cbn in H; lia.
  - apply (W (Z.to_nat (N - 1)) 0); try lia.
    pose proof (pairwise_lt 0 (0 + 1) N ltac:(lia)). lia.
Qed.
Lemma pairwise_fits : forall a b N t, 0 <= a < N -> 0 <= b < N -> a <> b -> N <= 46341 ->
  In t (pairwise_terms a b N) -> - 2^31 <= t < 2^31.
Proof.
  assert (forall a b N t, 0 <= a < b -> b < N -> N <= 46341 ->
    In t [a * N; b + a * N; a + 1; a + 2; (a + 1) * (a + 2); (a + 1) * (a + 2) / 2; b + a * N - (a + 1) * (a + 2) / 2] -> - 2^31 <= t < 2^31) as W.
  { intros a b N t H1 H2 H3 H. pose proof (tri_even a).
    assert (0 <= a * N <= 46339 * 46341) by nia.
    assert (0 <= (a + 1) * (a + 2) <= 46340 * 46341) by nia.
    change (2^31) with 2147483648.
    cbn [In] in H. destruct H as [<- | [<- | [<- | [<- | [<- | [<- | [<- | []]]]]]]]; lia. }
  intros a b N t Ha Hb Hn HN. unfold pairwise_terms, pairwise_index.
  destruct (a >? b) eqn:E; intro H; [apply (W b a N)|apply (W a b N)]; auto; lia.
Qed.

(** ** heaps *)
Lemma heap_front_min : forall cost x b y, is_heap cost (x :: b) -> In y (x :: b) -> cost x <= cost y.
Proof.
  intros cost x b y H Hy. apply In_nth_error in Hy. destruct Hy as (n & Hn). revert y Hn.
  induction n as [n IH] using lt_wf_ind. intros y Hn. destruct n as [|n].
  - cbn in Hn. injection Hn as ->. lia.
  - assert ((S n - 1) / 2 < S n)%nat as L by (apply Nat.div_lt_upper_bound; lia).
    destruct (nth_error (x :: b) ((S n - 1) / 2)) as [z|] eqn:E.
    + specialize (IH _ L z E). specialize (H (S n) y z ltac:(lia) Hn E). lia.
    + apply nth_error_None in E. assert (S n < length (x :: b))%nat by (apply nth_error_Some; congruence). lia.
Qed.
Lemma heap_nil : forall cost, is_heap cost [].
Proof. intros cost i x y _ H. now destruct i. Qed.
Lemma heap_ext : forall c c' b, (forall x, In x b -> c x = c' x) -> is_heap c b -> is_heap c' b.
Proof.
  intros c c' b E H i x y Hi Hx Hy. rewrite <- !E by (eapply nth_error_In; eassumption). eapply H; eassumption.
Qed.

Section T.
Variables push_heap pop_heap make_heap : (nat -> Z) -> list nat -> list nat.
Hypothesis Hpush : push_heap_ok push_heap.
Hypothesis Hpop : pop_heap_ok pop_heap.
Hypothesis Hmake : make_heap_ok make_heap.
Variable cb : list (nat * nat) -> nat -> nat -> bool.
Variable N : nat.
Variable cm : Z -> Z.
Hypothesis HN : (0 < N)%nat.
Hypothesis Hcm : forall k, 0 <= cm k < 65536.

Notation sh := (shared N cm).
Notation link := (linked N sh).
Notation lcost := (link_cost sh).
Notation chn := (chain N sh).
Notation best := (best_cost N sh).
Notation vn := (visit_neighbor push_heap make_heap N cm).
Notation vis := (visit push_heap make_heap N cm).

Lemma sh_sym : forall a b, a <> b -> sh a b = sh b a.
Proof. intros a b H. unfold shared. rewrite pairwise_sym by lia. reflexivity. Qed.
Lemma lcost_pos : forall a b, 1 <= lcost a b.
Proof. intros. unfold link_cost, shared. pose proof (Hcm (pairwise_index (Z.of_nat a) (Z.of_nat b) (Z.of_nat N))). lia. Qed.
Lemma link_sym : forall a b, link a b -> link b a /\ lcost a b = lcost b a.
Proof.
  intros a b (A & B & C & D). unfold linked, link_cost. rewrite (sh_sym b a) by auto. rewrite (sh_sym a b) in * by auto. repeat split; auto.
Qed.
Lemma chain_nonneg : forall i c, chn i c -> 0 <= c.
Proof. induction 1; [lia|]. pose proof (lcost_pos i j). lia. Qed.
Lemma chain_range : forall i c, chn i c -> (i < N)%nat.
Proof. destruct 1; [exact HN|]. now destruct H0 as (_ & ? & _). Qed.
Lemma best_unique : forall i c c', best i c -> best i c' -> c = c'.
Proof. intros i c c' (A & B) (C & D). specialize (B _ C). specialize (D _ A). lia. Qed.

(** invariant; [cov u v]: the link u-v was considered from u's side *)
Record inv (cov : nat -> nat -> Prop) (ns : nodes_t) (buf : list nat) : Prop := {
  i_root : n_done (ns 0%nat) = true;
  i_done : forall u, n_done (ns u) = true -> best u (n_cost (ns u));
  i_nonneg : forall v, 0 <= n_cost (ns v);
  i_buf : forall v, In v buf <-> n_done (ns v) = false /\ n_cost (ns v) <> 0;
  i_unseen : forall u v, n_done (ns v) = false -> n_cost (ns v) = 0 -> cov u v -> link u v -> False;
  i_parent : forall v, In v buf -> let p := n_parent (ns v) in
      n_done (ns p) = true /\ link p v /\ n_cost (ns v) = n_cost (ns p) + lcost p v;
  i_cov : forall u v, In v buf -> cov u v -> link u v -> n_cost (ns v) <= n_cost (ns u) + lcost u v;
  i_nodup : NoDup buf;
  i_heap : is_heap (costs ns) buf;
  i_mono : forall u v, n_done (ns u) = true -> In v buf -> n_cost (ns u) <= n_cost (ns v)
}.

Lemma set_same : forall ns i n, set_node ns i n i = n.
Proof. intros. unfold set_node. now rewrite Nat.eqb_refl. Qed.
Lemma set_other : forall ns i j n, j <> i -> set_node ns i n j = ns j.
Proof. intros. unfold set_node. destruct (Nat.eqb_spec j i); [easy|reflexivity]. Qed.

(** one neighbor *)
Lemma vn_inv : forall idx nb ns buf (cov : nat -> nat -> Prop), (idx < N)%nat -> (nb < N)%nat ->
  n_done (ns idx) = true -> (forall u, n_done (ns u) = true -> n_cost (ns u) <= n_cost (ns idx)) ->
  (forall u v, cov u v -> n_done (ns u) = true) ->
  inv cov ns buf -> forall ns' buf', vn idx (ns, buf) nb = (ns', buf') ->
  inv (fun u v => cov u v \/ (u = idx /\ v = nb)) ns' buf' /\ (forall u, n_done (ns u) = true -> ns' u = ns u) /\
  (forall u, n_done (ns' u) = n_done (ns u)).
Proof.
  intros idx nb ns buf cov Hi Hnb Di Mx Cd I ns' buf' E. unfold visit_neighbor in E.
  assert (forall P : Prop, (link idx nb -> P) -> (~ link idx nb -> P) -> P) as EM.
  { intros P A B. destruct (Nat.eq_dec idx nb); [apply B; intros (_ & _ & ? & _); auto|].
    destruct (Z.eq_dec (sh idx nb) 0); [apply B; intros (_ & _ & _ & ?); auto|]. apply A. repeat split; auto. }
  assert ((n_done (ns nb) = true \/ ~ link idx nb \/ (In nb buf /\ n_cost (ns nb) <= n_cost (ns idx) + lcost idx nb)) ->
     inv (fun u v => cov u v \/ (u = idx /\ v = nb)) ns buf) as Same.
  { intro H. destruct I. split; auto.
    - intros u v Hd Hc [C | (-> & ->)] L; [eauto|]. destruct H as [H | [H | (H & _)]]; [congruence|auto|]. apply i_buf0 in H. lia.
    - intros u v Hb [C | (-> & ->)] L; [eauto|]. destruct H as [H | [H | (_ & H)]]; [|easy|easy]. apply i_buf0 in Hb. destruct Hb. congruence. }
  destruct (Nat.eqb_spec nb idx) as [->|Ne].
  { injection E as <- <-. split; [|auto]. apply Same. auto. }
  destruct (Z.eqb_spec (sh nb idx) 0) as [E0|E0].
  { injection E as <- <-. split; [|auto]. apply Same. right; left. intros (_ & _ & _ & L). rewrite sh_sym in L by auto. easy. }
  destruct (n_done (ns nb)) eqn:Dn.
  { injection E as <- <-. split; [|auto]. apply Same. auto. }
  assert (link idx nb) as L. { repeat split; auto. rewrite sh_sym by auto. exact E0. }
  assert (lcost idx nb = cost_edge N cm nb idx) as EC.
  { unfold link_cost, cost_edge. now rewrite sh_sym by auto. }
  rewrite <- EC in E. pose proof (lcost_pos idx nb) as LP.
  set (c := n_cost (ns idx) + lcost idx nb) in *.
  pose proof (i_nonneg _ _ _ I idx) as NNi.
  set (nd := {| n_cost := c; n_parent := idx; n_done := false |}) in E.
  assert (forall u, n_done (ns u) = true -> set_node ns nb nd u = ns u) as Kd.
  { intros u Hu. apply set_other. intros ->. congruence. }
  assert (forall u, n_done (set_node ns nb nd u) = n_done (ns u)) as Kdd.
  { intros u. destruct (Nat.eq_dec u nb) as [->|X]; [now rewrite set_same|now rewrite set_other]. }
  (* the updated state, whichever way the buffer was rearranged *)
  assert (forall buf2, Permutation buf2 (if in_dec Nat.eq_dec nb buf then buf else buf ++ [nb]) ->
            is_heap (costs (set_node ns nb nd)) buf2 ->
            (In nb buf -> c < n_cost (ns nb)) ->
            (~ In nb buf -> n_cost (ns nb) = 0) ->
            inv (fun u v => cov u v \/ (u = idx /\ v = nb)) (set_node ns nb nd) buf2) as Upd.
  { intros buf2 P H Clt Cz.
    assert (forall v, In v buf2 <-> In v buf \/ v = nb) as Hin.
    { intro v. destruct (in_dec Nat.eq_dec nb buf) as [Q|Q].
      - rewrite (Permutation_in' eq_refl P). split; [auto|]. now intros [?| ->].
      - rewrite (Permutation_in' eq_refl P), in_app_iff. cbn. intuition congruence. }
    destruct I. split.
    - now rewrite Kd.
    - intros u Hu. rewrite Kdd in Hu. rewrite Kd by easy. auto.
    - intros v. destruct (Nat.eq_dec v nb) as [->|X]; [rewrite set_same; cbn; lia|now rewrite set_other].
    - intros v. rewrite Hin. destruct (Nat.eq_dec v nb) as [->|X].
      + rewrite set_same. cbn. split; [|tauto]. intros _. split; [easy|lia].
      + rewrite set_other, i_buf0 by easy. tauto.
    - intros u v Hd Hc Hcov Hl. rewrite Kdd in Hd. destruct (Nat.eq_dec v nb) as [->|X].
      + rewrite set_same in Hc. change (n_cost nd) with c in Hc. lia.
      + rewrite set_other in Hc by easy. destruct Hcov as [Hcov | (_ & ?)]; [eauto|easy].
    - intros v Hv. cbn zeta. destruct (Nat.eq_dec v nb) as [->|X].
      + rewrite set_same. change (n_cost nd) with c. change (n_parent nd) with idx. rewrite Kd by easy. auto.
      + rewrite !(set_other ns nb v nd X). apply Hin in Hv. destruct Hv as [Hv| ->]; [|easy].
        destruct (i_parent0 v Hv) as (A & B & C). rewrite Kd by easy. auto.
    - intros u v Hv Hcov Hl. destruct (Nat.eq_dec v nb) as [->|X].
      + rewrite set_same. change (n_cost nd) with c. destruct Hcov as [Hcov | (-> & _)].
        * pose proof (Cd _ _ Hcov) as Du. rewrite Kd by easy.
          destruct (in_dec Nat.eq_dec nb buf) as [Q|Q].
          -- specialize (i_cov0 u nb Q Hcov Hl). specialize (Clt Q). lia.
          -- exfalso. apply (i_unseen0 u nb); auto.
        * rewrite Kd by easy. unfold c. lia.
      + rewrite (set_other ns nb v nd X). apply Hin in Hv. destruct Hv as [Hv| ->]; [|easy].
        destruct Hcov as [Hcov | (_ & ?)]; [|easy]. pose proof (Cd _ _ Hcov). rewrite Kd by easy. auto.
    - apply (Permutation_NoDup (Permutation_sym P)). destruct (in_dec Nat.eq_dec nb buf) as [Q|Q]; [easy|].
      apply (Permutation_NoDup (Permutation_cons_append buf nb)). now constructor.
    - exact H.
    - intros u v Du Hv. rewrite Kdd in Du. rewrite Kd by easy. destruct (Nat.eq_dec v nb) as [->|X].
      + rewrite set_same. change (n_cost nd) with c. specialize (Mx u Du). unfold c. lia.
      + rewrite (set_other ns nb v nd X). apply Hin in Hv. destruct Hv as [Hv| ->]; [|easy]. auto. }
  destruct (Z.eqb_spec (n_cost (ns nb)) 0) as [Z0|Z0].
  { assert (~ In nb buf) as Q by (rewrite (i_buf _ _ _ I); lia).
    injection E as <- <-. split; [|auto]. unfold heap_push.
    destruct (Hpush (costs (set_node ns nb nd)) buf nb) as (P & H).
    { apply (heap_ext (costs ns)); [|apply I]. intros x Hx. unfold costs. rewrite set_other; [easy|]. intros ->. easy. }
    apply Upd; auto; [|tauto]. destruct (in_dec Nat.eq_dec nb buf); [easy|exact P]. }
  assert (In nb buf) as Q by (apply (i_buf _ _ _ I); auto).
  destruct (Z.ltb_spec c (n_cost (ns nb))) as [Lt|Ge].
  - injection E as <- <-. split; [|auto]. unfold heap_resort.
    destruct (Hmake (costs (set_node ns nb nd)) buf) as (P & H).
    apply Upd; auto; [|tauto]. destruct (in_dec Nat.eq_dec nb buf); [exact P|easy].
  - injection E as <- <-. split; [|auto]. apply Same. right; right. auto.
Qed.

Lemma inv_ext : forall (cov cov' : nat -> nat -> Prop) ns buf, (forall u v, link u v -> cov' u v -> cov u v) -> inv cov ns buf -> inv cov' ns buf.
Proof. intros cov cov' ns buf H []. split; eauto. Qed.

Lemma fold_inv : forall idx l ns buf (cov : nat -> nat -> Prop), (idx < N)%nat -> (forall x, In x l -> (x < N)%nat) ->
  n_done (ns idx) = true -> (forall u, n_done (ns u) = true -> n_cost (ns u) <= n_cost (ns idx)) ->
  (forall u v, cov u v -> n_done (ns u) = true) ->
  inv cov ns buf -> forall ns' buf', fold_left (vn idx) l (ns, buf) = (ns', buf') ->
  inv (fun u v => cov u v \/ (u = idx /\ In v l)) ns' buf' /\ (forall u, n_done (ns u) = true -> ns' u = ns u) /\
  (forall u, n_done (ns' u) = n_done (ns u)).
Proof.
  intros idx. induction l as [|x l IH]; intros ns buf cov Hi Hl Di Mx Cd I ns' buf' E; cbn [fold_left] in E.
  - injection E as <- <-. split; [|auto]. apply (inv_ext cov); [|easy]. intros u v _ [?|(_ & [])]; easy.
  - destruct (vn idx (ns, buf) x) as (ns1, buf1) eqn:E1.
    apply (vn_inv idx x ns buf cov) in E1; auto; [|apply Hl; now left].
    destruct E1 as (I1 & K1 & D1).
    apply (IH ns1 buf1 (fun u v => cov u v \/ (u = idx /\ v = x))) in E; auto.
    + destruct E as (I2 & K2 & D2). split; [|split].
      * eapply inv_ext; [|exact I2]. cbn. intros u v _ [?|(-> & [?|?])]; auto.
      * intros u Hu. rewrite K2 by now rewrite D1. auto.
      * intros u. now rewrite D2.
    + intros y Hy. apply Hl. now right.
    + now rewrite D1.
    + intros u Hu. rewrite D1 in Hu. rewrite !K1 by easy. auto.
    + intros u v [C | (-> & _)]; rewrite D1; eauto.
Qed.

Definition covd (ns : nodes_t) (u v : nat) : Prop := n_done (ns u) = true.

(** the shortest chain to a just-popped node *)
Lemma frontier : forall ns buf, inv (covd ns) ns buf -> forall t c, chn t c ->
  (n_done (ns t) = true /\ n_cost (ns t) <= c) \/ (exists y, In y buf /\ n_cost (ns y) <= c).
Proof.
  intros ns buf I t c H. induction H as [|i j c H IH L].
  - left. split; [apply I|]. destruct (i_done _ _ _ I 0%nat (i_root _ _ _ I)) as (_ & B). apply B. constructor.
  - pose proof (lcost_pos i j). destruct IH as [(D & C) | (y & Y & C)]; [|right; exists y; split; [easy|lia]].
    destruct (n_done (ns j)) eqn:Dj.
    + left. split; [easy|]. destruct (i_done _ _ _ I j Dj) as (_ & B). apply B. now constructor.
    + right. destruct (Z.eq_dec (n_cost (ns j)) 0) as [Z0|Z0].
      * exfalso. apply (i_unseen _ _ _ I i j); auto.
      * assert (In j buf) as Q by (apply (i_buf _ _ _ I); auto). exists j. split; [easy|].
        pose proof (i_cov _ _ _ I i j Q D L). lia.
Qed.

Lemma visit_inv : forall ns x b b', inv (covd ns) ns (x :: b) -> Permutation b' b -> is_heap (costs ns) b' ->
  forall ns' buf', vis x (ns, b') = (ns', buf') ->
  inv (covd ns') ns' buf' /\ (forall u, n_done (ns' u) = true <-> n_done (ns u) = true \/ u = x) /\
  (forall u, n_done (ns' u) = true -> n_cost (ns' u) = n_cost (ns u) /\ n_parent (ns' u) = n_parent (ns u)) /\
  best x (n_cost (ns x)).
Proof.
  intros ns x b b' I P H ns' buf' E. unfold visit in E.
  assert (In x (x :: b)) as Ix by now left.
  destruct (i_parent _ _ _ I x Ix) as (Dp & Lp & Cp). cbn zeta in *.
  assert (x < N)%nat as Hx by now destruct Lp as (_ & ? & _).
  assert (n_done (ns x) = false) as Nx by (apply (i_buf _ _ _ I) in Ix; tauto).
  assert (forall y, In y (x :: b) -> n_cost (ns x) <= n_cost (ns y)) as Min.
  { intros y Hy. apply (heap_front_min (costs ns) x b y); [apply I|easy]. }
  assert (best x (n_cost (ns x))) as Bx.
  { split.
    - rewrite Cp. constructor; [|easy]. now apply (i_done _ _ _ I).
    - intros c' Hc. destruct (frontier _ _ I x c' Hc) as [(D & _) | (y & Y & C)]; [congruence|]. specialize (Min y Y). lia. }
  set (ns1 := set_node ns x _) in E.
  assert (n_done (ns1 x) = true /\ n_cost (ns1 x) = n_cost (ns x) /\ n_parent (ns1 x) = n_parent (ns x)) as (D1 & C1 & P1).
  { unfold ns1. rewrite set_same. easy. }
  assert (forall u, u <> x -> ns1 u = ns u) as O1 by (intros; unfold ns1; now apply set_other).
  assert (forall u, n_cost (ns1 u) = n_cost (ns u)) as CC.
  { intro u. destruct (Nat.eq_dec u x) as [->|]; [easy|now rewrite O1]. }
  assert (forall u, n_parent (ns1 u) = n_parent (ns u)) as PP.
  { intro u. destruct (Nat.eq_dec u x) as [->|]; [easy|now rewrite O1]. }
  assert (forall u, n_done (ns1 u) = true <-> n_done (ns u) = true \/ u = x) as DD.
  { intro u. destruct (Nat.eq_dec u x) as [->|X]; [tauto|]. rewrite O1 by easy. tauto. }
  assert (~ In x b) as Nxb by (pose proof (i_nodup _ _ _ I) as Z; now inversion Z).
  assert (forall v, In v b' <-> In v b) as PB by (intro v; apply (Permutation_in' eq_refl P)).
  assert (inv (covd ns) ns1 b') as I1.
  { destruct I. split.
    - apply DD. auto.
    - intros u Hu. rewrite CC. apply DD in Hu. destruct Hu as [Hu| ->]; auto.
    - intro v. now rewrite CC.
    - intro v. rewrite PB, CC. destruct (Nat.eq_dec v x) as [->|X].
      + rewrite D1. split; [easy|]. now intros (? & _).
      + rewrite O1 by easy. rewrite <- i_buf0. cbn. split; [auto|]. now intros [<-|?].
    - intros u v Hd Hc Hcov Hl. rewrite CC in Hc. destruct (Nat.eq_dec v x) as [->|X]; [congruence|].
      rewrite O1 in Hd by easy. eauto.
    - intros v Hv. apply PB in Hv. cbn zeta. rewrite !CC, PP. destruct (i_parent0 v) as (A & B & C); [now right|].
      repeat split; auto; [apply DD; auto|apply B..].
    - intros u v Hv Hcov Hl. apply PB in Hv. rewrite !CC. apply i_cov0; auto. now right.
    - apply (Permutation_NoDup (Permutation_sym P)). now inversion i_nodup0.
    - apply (heap_ext (costs ns)); [|easy]. intros y Hy. unfold costs. now rewrite CC.
    - intros u v Hu Hv. apply PB in Hv. rewrite !CC. apply DD in Hu. destruct Hu as [Hu| ->].
      + apply i_mono0; [easy|now right].
      + apply Min. now right. }
  apply (fold_inv x (seq 0 N) ns1 b' (covd ns)) in E; auto.
  - destruct E as (I2 & K2 & D2). split; [|split; [|split]].
    + eapply inv_ext; [|exact I2]. cbn. intros u v L Hc. unfold covd in Hc. rewrite D2 in Hc. apply DD in Hc.
      destruct Hc as [Hc| ->]; [now left|]. right. split; [easy|]. apply in_seq. destruct L as (_ & ? & _). lia.
    + intro u. rewrite D2. apply DD.
    + intros u Hu. rewrite D2 in Hu. rewrite K2 by easy. rewrite CC, PP. auto.
    + easy.
  - intros y Hy. apply in_seq in Hy. lia.
  - intros u Hu. rewrite !CC. apply DD in Hu. destruct Hu as [Hu| ->]; [|lia]. now apply (i_mono _ _ _ I).
  - intros u v Hu. apply DD. now left.
Qed.

Lemma init_inv : forall ns' buf', vis 0 ((fun _ => node0), []) = (ns', buf') ->
  inv (covd ns') ns' buf' /\ (forall u, n_done (ns' u) = true <-> u = 0%nat) /\ n_cost (ns' 0%nat) = 0.
Proof.
  intros ns' buf' E. unfold visit in E. set (ns1 := set_node _ _ _) in E.
  assert (ns1 0%nat = {| n_cost := 0; n_parent := 0; n_done := true |}) as N0 by reflexivity.
  assert (forall u, u <> 0%nat -> ns1 u = node0) as N1 by (intros; unfold ns1; now rewrite set_other).
  assert (forall u, n_cost (ns1 u) = 0) as C0.
  { intros [|u]; [now rewrite N0|now rewrite N1]. }
  assert (forall u, n_done (ns1 u) = true <-> u = 0%nat) as D0.
  { intros [|u]; [now rewrite N0|rewrite N1 by easy; cbn; split; [discriminate|lia]]. }
  assert (inv (fun _ _ => False) ns1 []) as I0.
  { split; try easy.
    - intros u Hu. apply D0 in Hu. subst u. rewrite C0. split; [constructor|]. intros c Hc. now apply chain_nonneg in Hc.
    - intro v. rewrite C0. lia.
    - intro v. rewrite C0. easy.
    - constructor.
    - apply heap_nil. }
  apply (fold_inv 0 (seq 0 N) ns1 [] (fun _ _ => False)) in E; auto.
  - destruct E as (I2 & K2 & D2). split; [|split].
    + eapply inv_ext; [|exact I2]. cbn. intros u v L Hc. unfold covd in Hc. rewrite D2 in Hc. apply D0 in Hc. subst u.
      right. split; [easy|]. apply in_seq. destruct L as (_ & ? & _). lia.
    + intro u. rewrite D2. apply D0.
    + now rewrite K2.
  - intros y Hy. apply in_seq in Hy. lia.
  - intros u Hu. rewrite !C0. lia.
Qed.

(** ** the reported log (latest first) *)
Inductive log_ok : list (nat * nat) -> Prop :=
| lo_nil : log_ok []
| lo_cons : forall i p l ci, log_ok l -> i <> 0%nat -> ~ In i (map fst l) -> (p = 0%nat \/ In p (map fst l)) ->
    link p i -> best i ci -> (exists cp, best p cp /\ ci = cp + lcost p i) ->
    (forall j cj, In j (map fst l) -> best j cj -> cj <= ci) -> log_ok ((i, p) :: l).

Lemma log_nodup : forall l, log_ok l -> NoDup (map fst l) /\ ~ In 0%nat (map fst l) /\ (forall i, In i (map fst l) -> (i < N)%nat).
Proof.
  induction 1; cbn [map fst].
  - repeat split; [constructor|easy|easy].
  - destruct IHlog_ok as (A & B & C). repeat split.
    + now constructor.
    + intros [?|?]; auto.
    + intros j [<-|?]; auto. destruct H3 as (_ & ? & _). easy.
Qed.
Lemma log_bound : forall l, log_ok l -> (length l < N)%nat.
Proof.
  intros l H. destruct (log_nodup l H) as (A & B & C).
  assert (NoDup (0%nat :: map fst l)) as A' by now constructor.
  assert (length (0%nat :: map fst l) <= length (seq 0 N))%nat as L.
  { apply NoDup_incl_length; [easy|]. intros x [<-|Hx]; apply in_seq; [lia|]. apply C in Hx. lia. }
  rewrite seq_length in L. cbn [length] in L. rewrite map_length in L. lia.
Qed.

Definition cb_trace (l : list (nat * nat)) : Prop := forall l1 i p l2, l = l1 ++ (i, p) :: l2 -> cb l2 i p = true.

Lemma loop_ok : forall fuel ns buf log, (N <= fuel + length log)%nat ->
  inv (covd ns) ns buf -> log_ok log -> cb_trace log ->
  (forall u, n_done (ns u) = true <-> u = 0%nat \/ In u (map fst log)) ->
  exists r log', main_loop push_heap pop_heap make_heap cb N cm fuel (ns, buf) log = Some (r, log') /\ log_ok log' /\
    (r = true -> cb_trace log' /\ forall i c, chn i c -> i = 0%nat \/ In i (map fst log')) /\
    (r = false -> exists i p l, log' = (i, p) :: l /\ cb l i p = false /\ cb_trace l).
Proof.
  induction fuel as [|fuel IH]; intros ns buf log Hf I HL HT HD; cbn [main_loop fst snd]; unfold heap_pop.
  - destruct buf as [|x b].
    + exists true, log. split; [easy|]. split; [easy|]. split; [|easy]. intros _. split; [easy|].
      intros i c Hc. apply HD. destruct (frontier _ _ I i c Hc) as [(D & _) | (y & [] & _)]; easy.
    + exfalso. pose proof (log_bound _ HL). lia.
  - destruct buf as [|x b].
    + exists true, log. split; [easy|]. split; [easy|]. split; [|easy]. intros _. split; [easy|].
      intros i c Hc. apply HD. destruct (frontier _ _ I i c Hc) as [(D & _) | (y & [] & _)]; easy.
    + assert (In x (x :: b)) as Ix by now left.
      destruct (Hpop (costs ns) x b (i_heap _ _ _ I)) as (b' & Eb & P & Hh).
      rewrite Eb, removelast_last.
      destruct (vis x (ns, b')) as (ns', buf') eqn:Ev.
      pose proof (visit_inv ns x b b' I P Hh ns' buf' Ev) as (I' & DD & KK & Bx).
      destruct (i_parent _ _ _ I x Ix) as (Dp & Lp & Cp). cbn zeta in *.
      set (p := n_parent (ns x)) in *.
      assert (log_ok ((x, p) :: log)) as HL'.
      { apply (lo_cons x p log (n_cost (ns x))); auto.
        - intros ->. apply (i_buf _ _ _ I) in Ix. pose proof (i_root _ _ _ I). destruct Ix. congruence.
        - intro Hx. assert (n_done (ns x) = true) as Dx by (apply HD; now right).
          apply (i_buf _ _ _ I) in Ix. destruct Ix. congruence.
        - now apply HD.
        - exists (n_cost (ns p)). split; [now apply (i_done _ _ _ I)|easy].
        - intros j cj Hj Bj. assert (n_done (ns j) = true) as Dj by (apply HD; now right).
          pose proof (i_done _ _ _ I j Dj) as Bj'. rewrite (best_unique _ _ _ Bj Bj'). now apply (i_mono _ _ _ I). }
      destruct (cb log x p) eqn:Ec.
      * apply IH; auto.
        { cbn [length]. lia. }
        { intros l1 i q l2 E. destruct l1 as [|a l1]; cbn in E; [injection E as <- <- <-; easy|].
          injection E as _ E. now apply (HT l1 i q l2). }
        intro u. rewrite DD, HD. cbn [map fst In]. intuition congruence.
      * exists false, ((x, p) :: log). split; [easy|]. split; [easy|]. split; [easy|].
        intros _. exists x, p, log. auto.
Qed.

Lemma traverse_ok : exists r log, traverse push_heap pop_heap make_heap cb N cm N = Some (r, rev log) /\ log_ok log /\
    (r = true -> cb_trace log /\ forall i c, chn i c -> i = 0%nat \/ In i (map fst log)) /\
    (r = false -> exists i p l, log = (i, p) :: l /\ cb l i p = false /\ cb_trace l).
Proof.
  unfold traverse. destruct (vis 0 ((fun _ => node0), [])) as (ns, buf) eqn:E.
  destruct (init_inv _ _ E) as (I & D & _).
  destruct (loop_ok N ns buf []) as (r & log & El & A & B & C); auto.
  - cbn [length]. lia.
  - constructor.
  - intros l1 i p l2 H. now destruct l1.
  - intro u. rewrite D. cbn. tauto.
  - rewrite El. exists r, log. auto.
Qed.

Lemma pc_mono : forall l l' i c, (forall x, In x l -> In x l') -> parent_chain N sh l i c -> parent_chain N sh l' i c.
Proof. intros l l' i c H P. induction P; [constructor|]. eapply pc_step; eauto. Qed.
Lemma best_root : best 0 0.
Proof. split; [constructor|]. intros c' H. now apply chain_nonneg in H. Qed.
Lemma log_chain : forall l, log_ok l -> forall i, In i (map fst l) -> exists c, parent_chain N sh l i c /\ best i c.
Proof.
  induction 1 as [|i p l ci H IH Ni Nin Hp L B (cp & Bp & E) _]; [easy|].
  intros j [<-|Hj]; cbn [fst] in *.
  - exists ci. split; [|easy]. rewrite E. apply pc_step; [now left| |easy].
    apply (pc_mono l); [intros; now right|].
    destruct Hp as [->|Hp].
    + rewrite (best_unique _ _ _ Bp best_root). constructor.
    + destruct (IH p Hp) as (c & P & B'). now rewrite (best_unique _ _ _ Bp B').
  - destruct (IH j Hj) as (c & P & B'). exists c. split; [|easy]. apply (pc_mono l); [intros; now right|easy].
Qed.
Lemma log_split : forall l, log_ok l -> forall l1 i p l2, l = l1 ++ (i, p) :: l2 ->
  (p = 0%nat \/ In p (map fst l2)) /\ link p i /\ (forall j cj ci, In j (map fst l2) -> best j cj -> best i ci -> cj <= ci).
Proof.
  intros l H. induction H as [|i p l ci H IH Ni Nin Hp L B Ex M]; intros l1 i' p' l2 E.
  - now destruct l1.
  - destruct l1 as [|a l1]; cbn in E.
    + injection E as <- <- <-. repeat split; auto; try apply L.
      intros j cj ci' Hj Bj Bi. rewrite (best_unique _ _ _ Bi B). eauto.
    + injection E as _ E. eauto.
Qed.
End T.

(** an implementation of the heap functions meeting the standard: sorting *)
Fixpoint ins (cost : nat -> Z) (x : nat) (l : list nat) : list nat :=
  match l with
  | [] => [x]
  | y :: r => if cost x <=? cost y then x :: l else y :: ins cost x r
  end.
Fixpoint isort (cost : nat -> Z) (l : list nat) : list nat :=
  match l with [] => [] | x :: r => ins cost x (isort cost r) end.
Definition pop_by_sort (cost : nat -> Z) (l : list nat) : list nat :=
  match l with [] => [] | x :: r => isort cost r ++ [x] end.

Definition sortedb (cost : nat -> Z) (l : list nat) : Prop :=
  forall i j x y, (i <= j)%nat -> nth_error l i = Some x -> nth_error l j = Some y -> cost x <= cost y.
Lemma sorted_cons : forall cost x l, (forall y, In y l -> cost x <= cost y) -> sortedb cost l -> sortedb cost (x :: l).
Proof.
  intros cost x l H S [|i] [|j] a b L A B; cbn in A, B.
  - injection A as <-. injection B as <-. lia.
  - injection A as <-. apply H. now apply nth_error_In in B.
  - lia.
  - apply (S i j); [lia|easy|easy].
Qed.
Lemma sorted_inv : forall cost x l, sortedb cost (x :: l) -> (forall y, In y l -> cost x <= cost y) /\ sortedb cost l.
Proof.
  intros cost x l S. split.
  - intros y Hy. apply In_nth_error in Hy. destruct Hy as (n & Hn). apply (S 0%nat (Datatypes.S n)); [lia|easy|easy].
  - intros i j a b L A B. apply (S (Datatypes.S i) (Datatypes.S j)); [lia|easy|easy].
Qed.
Lemma ins_perm : forall cost x l, Permutation (ins cost x l) (x :: l).
Proof.
  induction l as [|y r IH]; cbn; [easy|]. destruct (_ <=? _); [easy|].
  rewrite IH. apply perm_swap.
Qed.
Lemma isort_perm : forall cost l, Permutation (isort cost l) l.
Proof. induction l; cbn; [easy|]. rewrite ins_perm. now constructor. Qed.
Lemma ins_sorted : forall cost x l, sortedb cost l -> sortedb cost (ins cost x l).
Proof.
  induction l as [|y r IH]; cbn; intro S.
  - apply sorted_cons; easy.
  - apply sorted_inv in S as (A & B). destruct (Z.leb_spec (cost x) (cost y)).
    + apply sorted_cons; [|now apply sorted_cons]. intros z [<-|Hz]; [easy|]. specialize (A z Hz). lia.
    + apply sorted_cons; [|auto]. intros z Hz. apply (Permutation_in _ (ins_perm cost x r)) in Hz.
      destruct Hz as [<-|Hz]; [lia|auto].
Qed.
Lemma isort_sorted : forall cost l, sortedb cost (isort cost l).
Proof. induction l; cbn; [intros [] ? ? ? ?; discriminate|]. now apply ins_sorted. Qed.
Lemma sorted_heap : forall cost l, sortedb cost l -> is_heap cost l.
Proof.
  intros cost l S i x y Hi Hx Hy. apply (S ((i - 1) / 2)%nat i); auto.
  apply Nat.div_le_upper_bound; lia.
Qed.
Lemma stl_exists : push_heap_ok isort /\ pop_heap_ok pop_by_sort /\ make_heap_ok isort.
Proof.
  repeat split; intros.
  - apply isort_perm.
  - apply sorted_heap, isort_sorted.
  - intros cost x b _. exists (isort cost b). repeat split; [apply isort_perm|apply sorted_heap, isort_sorted].
  - apply isort_perm.
  - apply sorted_heap, isort_sorted.
Qed.
