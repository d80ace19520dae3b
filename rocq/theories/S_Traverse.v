(** Specification vocabulary for C14, C15. *)
From Coq Require Import ZArith List Bool Permutation.
From Verif Require Import M_Traverse.
Import ListNotations.
Open Scope Z_scope.

(** ** what the C++ standard promises about the heap functions
    ([alg.heap.operations]), for a "greater" comparator on [cost] *)
Definition is_heap (cost : nat -> Z) (b : list nat) : Prop :=
  forall i x y, (0 < i)%nat -> nth_error b i = Some x -> nth_error b ((i - 1) / 2) = Some y -> cost y <= cost x.
Definition push_heap_ok (push : (nat -> Z) -> list nat -> list nat) : Prop :=
  forall cost b x, is_heap cost b -> Permutation (push cost (b ++ [x])) (b ++ [x]) /\ is_heap cost (push cost (b ++ [x])).
Definition pop_heap_ok (pop : (nat -> Z) -> list nat -> list nat) : Prop :=
  forall cost x b, is_heap cost (x :: b) ->
  exists b', pop cost (x :: b) = b' ++ [x] /\ Permutation b' b /\ is_heap cost b'.
Definition make_heap_ok (mk : (nat -> Z) -> list nat -> list nat) : Prop :=
  forall cost b, Permutation (mk cost b) b /\ is_heap cost (mk cost b).

(** ** the graph *)
Section Graph.
Variable N : nat.
Variable w : nat -> nat -> Z.      (* shared observation count of a pair *)

(** directly linked *)
Definition linked (a b : nat) : Prop := (a < N)%nat /\ (b < N)%nat /\ a <> b /\ w a b <> 0.
Definition link_cost (a b : nat) : Z := 65536 - w a b.

(** a chain of links from sensor 0, with its total cost *)
Inductive chain : nat -> Z -> Prop :=
| chain_root : chain 0 0
| chain_step : forall i j c, chain i c -> linked i j -> chain j (c + link_cost i j).

Definition reachable (i : nat) : Prop := exists c, chain i c.
Definition best_cost (i : nat) (c : Z) : Prop := chain i c /\ (forall c', chain i c' -> c <= c').

(** the chain obtained by following the reported parents *)
Inductive parent_chain (log : list (nat * nat)) : nat -> Z -> Prop :=
| pc_root : parent_chain log 0 0
| pc_step : forall i p c, In (i, p) log -> parent_chain log p c -> linked p i -> parent_chain log i (c + link_cost p i).
End Graph.
