(** C14, C15: sensor-link traversal and pair indexing. *)
From Coq Require Import ZArith List Bool Lia Permutation.
From Verif Require Import M_Traverse S_Traverse P_Traverse.
Import ListNotations.
Open Scope Z_scope.

(** C15.  Unordered pairs of distinct sensors are represented by a < b. *)
Theorem C15_pairwise_index_bijection :
  forall N, 0 <= N ->
  (forall a b, a <> b -> pairwise_index a b N = pairwise_index b a N) /\
  (forall a b, 0 <= a < b -> b < N -> 0 <= pairwise_index a b N < N * (N - 1) / 2) /\
  (forall a b a' b', 0 <= a < b -> b < N -> 0 <= a' < b' -> b' < N ->
     pairwise_index a b N = pairwise_index a' b' N -> a = a' /\ b = b') /\
  (forall k, 0 <= k < N * (N - 1) / 2 -> exists a b, 0 <= a < b /\ b < N /\ pairwise_index a b N = k).
Proof.
  intros N HN. repeat split.
  - intros. now apply pairwise_sym.
  - now apply pairwise_range.
  - now apply pairwise_range.
  - eapply (pairwise_inj a b a' b' N); eauto.
  - eapply (pairwise_inj a b a' b' N); eauto.
  - intros k Hk. now apply pairwise_onto.
Qed.
Print Assumptions C15_pairwise_index_bijection.

(** The code computes in [int]: exact up to 46341 sensors ... *)
Theorem C15_no_int_overflow :
  forall a b N t, 0 <= a < N -> 0 <= b < N -> a <> b -> N <= 46341 ->
  In t (pairwise_terms a b N) -> - 2^31 <= t < 2^31.
Proof. exact pairwise_fits. Qed.
Print Assumptions C15_no_int_overflow.

(** ... and not for all uint16_t sensor counts *)
Theorem C15_int_overflow_refuted :
  exists a b N t, 0 <= a < N /\ 0 <= b < N /\ a <> b /\ N < 65536 /\ In t (pairwise_terms a b N) /\ 2^31 <= t.
Proof.
  exists 46340, 46341, 46342, (46341 * 46342). repeat split; try lia.
  unfold pairwise_terms. cbn [Z.gtb Z.compare In]. right; right; right; right; left. reflexivity.
Qed.

Example ex_pairwise : 0 <= 3 < 5 /\ 5 < 7 /\ pairwise_index 3 5 7 = 16 /\ In (5 + 21) (pairwise_terms 3 5 7).
Proof. repeat split; try lia; cbn; tauto. Qed.

Section C14.
(** any STL conforming to the C++ standard, any callback, any connectivity *)
Variables push_heap pop_heap make_heap : (nat -> Z) -> list nat -> list nat.
Hypothesis Hpush : push_heap_ok push_heap.
Hypothesis Hpop : pop_heap_ok pop_heap.
Hypothesis Hmake : make_heap_ok make_heap.
Variable cb : list (nat * nat) -> nat -> nat -> bool.
Variable N : nat.
Variable cm : Z -> Z.
Hypothesis HN : (0 < N)%nat.
Hypothesis Hcm : forall k, 0 <= cm k < 65536.

Let w := shared N cm.

(** [log]: the (sensor, parent) callbacks in order.  The traversal always
    finishes (within N rounds). *)
Theorem C14_traversal :
  exists ok log, traverse push_heap pop_heap make_heap cb N cm N = Some (ok, log) /\
  (* reported at most once, never the root, only connected sensors *)
  NoDup (map fst log) /\ ~ In 0%nat (map fst log) /\
  (forall i, In i (map fst log) -> (i < N)%nat /\ reachable N w i) /\
  (* unless the callback stopped it: exactly the connected sensors *)
  (ok = true -> forall i, reachable N w i -> i = 0%nat \/ In i (map fst log)) /\
  (* parents come earlier and are direct links; costs never decrease *)
  (forall l1 i p l2, log = l1 ++ (i, p) :: l2 ->
     (p = 0%nat \/ In p (map fst l1)) /\ linked N w p i /\
     (forall j ci cj, In j (map fst l1) -> best_cost N w i ci -> best_cost N w j cj -> cj <= ci)) /\
  (* following the parents to the root is a cheapest chain *)
  (forall i, In i (map fst log) -> exists c, parent_chain N w log i c /\ best_cost N w i c) /\
  (* stopped iff the callback said so, right then *)
  (ok = true -> forall l1 i p l2, log = l1 ++ (i, p) :: l2 -> cb (rev l1) i p = true) /\
  (ok = false -> exists l1 i p, log = l1 ++ [(i, p)] /\ cb (rev l1) i p = false).
Proof.
  destruct (traverse_ok push_heap pop_heap make_heap Hpush Hpop Hmake cb N cm HN Hcm) as (r & log & E & L & T & F).
  exists r, (rev log).
  assert (forall i, In i (map fst (rev log)) <-> In i (map fst log)) as IR by (intro i; rewrite map_rev; symmetry; apply in_rev).
  destruct (log_nodup N cm log L) as (A & B & C).
  assert (forall l1 i p l2, rev log = l1 ++ (i, p) :: l2 -> log = rev l2 ++ (i, p) :: rev l1) as RV.
  { intros l1 i p l2 H. rewrite <- (rev_involutive log), H, rev_app_distr. cbn [rev]. now rewrite <- app_assoc. }
  split; [exact E|]. repeat split.
  - rewrite map_rev. now apply NoDup_rev.
  - now rewrite IR.
  - apply C. now apply IR.
  - apply IR in H. destruct (log_chain cb N cm HN Hcm log L i H) as (c & _ & Bc & _). now exists c.
  - intros Hr i (c & Hc). rewrite IR. destruct (T Hr) as (_ & T'). eauto.
  - apply RV in H. destruct (log_split cb N cm HN Hcm log L _ _ _ _ H) as (P & _).
    rewrite map_rev in P. destruct P as [P|P]; [now left|right; now apply in_rev].
  - apply RV in H. now destruct (log_split cb N cm HN Hcm log L _ _ _ _ H) as (_ & (? & _) & _).
  - apply RV in H. now destruct (log_split cb N cm HN Hcm log L _ _ _ _ H) as (_ & (_ & ? & _) & _).
  - apply RV in H. now destruct (log_split cb N cm HN Hcm log L _ _ _ _ H) as (_ & (_ & _ & ? & _) & _).
  - apply RV in H. now destruct (log_split cb N cm HN Hcm log L _ _ _ _ H) as (_ & (_ & _ & _ & ?) & _).
  - intros j ci cj Hj Bi Bj. apply RV in H. destruct (log_split cb N cm HN Hcm log L _ _ _ _ H) as (_ & _ & M).
    apply (M j cj ci); auto. rewrite map_rev. now apply in_rev in Hj.
  - intros i Hi. apply IR in Hi. destruct (log_chain cb N cm HN Hcm log L i Hi) as (c & P & Bc). exists c. split; [|easy].
    apply (pc_mono N cm log); [|easy]. intros x. apply in_rev.
  - intros Hr l1 i p l2 H. apply RV in H. destruct (T Hr) as (T' & _). eapply T'. exact H.
  - intros Hr. destruct (F Hr) as (i & p & l & -> & X & _). exists (rev l), i, p. cbn [rev]. rewrite rev_involutive. auto.
Qed.
End C14.
Print Assumptions C14_traversal.

(** Non-vacuity: a conforming heap exists, and a concrete graph of 4 sensors
    where the best route to 3 is not the direct link first seen... *)
Example ex_stl : push_heap_ok isort /\ pop_heap_ok pop_by_sort /\ make_heap_ok isort.
Proof. exact stl_exists. Qed.
Definition ex_cm (k : Z) : Z := nth (Z.to_nat k) [1; 60000; 0; 0; 0;  50000; 0; 0; 0;  7; 0; 0;  65535; 0;  0] 0.
Example ex_traverse : (* 6 sensors; sensor 5 is disconnected *)
  traverse isort pop_by_sort isort (fun _ _ _ => true) 6 ex_cm 6 =
  Some (true, [(2, 0); (1, 2); (3, 2); (4, 3)])%nat.
Proof. reflexivity. Qed.
Print Assumptions C15_int_overflow_refuted.
