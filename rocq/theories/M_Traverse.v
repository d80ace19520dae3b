(** Model: traversal of sensor links (traverse-sensor-links.c, heap.cc). *)
From Coq Require Import ZArith List Bool Lia.
Import ListNotations.
Open Scope Z_scope.

(** traverse-sensor-links.c:24-36 pairwise_index(), over unbounded integers.
    [pairwise_terms] lists the intermediate [int] values of the branch taken
    (for the overflow question). *)
Definition pairwise_index (a b N : Z) : Z :=
  if a >? b then a + b * N - (b + 1) * (b + 2) / 2
  else b + a * N - (a + 1) * (a + 2) / 2.
Definition pairwise_terms (a b N : Z) : list Z :=
  if a >? b then [b * N; a + b * N; b + 1; b + 2; (b + 1) * (b + 2); (b + 1) * (b + 2) / 2; pairwise_index a b N]
  else [a * N; b + a * N; a + 1; a + 2; (a + 1) * (a + 2); (a + 1) * (a + 2) / 2; pairwise_index a b N].

(** heap.h: mrcal_heap_node_t *)
Record node := { n_cost : Z; n_parent : nat; n_done : bool }.
Definition nodes_t := nat -> node.
Definition set_node (ns : nodes_t) (i : nat) (n : node) : nodes_t :=
  fun j => if Nat.eqb j i then n else ns j.

Section Traverse.
(** heap.cc:31-62 wraps std::push_heap, std::pop_heap, std::make_heap with a
    comparator on the costs.  The STL is external: oracles taking the current
    costs and the buffer contents. *)
Variable push_heap : (nat -> Z) -> list nat -> list nat.
Variable pop_heap : (nat -> Z) -> list nat -> list nat.
Variable make_heap : (nat -> Z) -> list nat -> list nat.
(** the callback; may depend on anything seen so far; false = stop *)
Variable cb : list (nat * nat) -> nat -> nat -> bool.

Variable Nsensors : nat.
Variable cm : Z -> Z.       (* connectivity_matrix[]: uint16_t *)

Definition shared (a b : nat) : Z := cm (pairwise_index (Z.of_nat a) (Z.of_nat b) (Z.of_nat Nsensors)).

(** traverse-sensor-links.c:38-49.  uint64_t arithmetic, no wrap-around since
    entries are uint16_t *)
Definition cost_edge (a b : nat) : Z := 65536 - shared a b.

Definition costs (ns : nodes_t) : nat -> Z := fun i => n_cost (ns i).

(** heap.cc:38-44 *)
Definition heap_push (ns : nodes_t) (buf : list nat) (x : nat) : list nat := push_heap (costs ns) (buf ++ [x]).
(** heap.cc:46-55: the front, and the rest after pop_heap() moves the front to
    the back and size is decremented *)
Definition heap_pop (ns : nodes_t) (buf : list nat) : option (nat * list nat) :=
  match buf with
  | [] => None
  | x :: _ => Some (x, removelast (pop_heap (costs ns) buf))
  end.
(** heap.cc:57-63 *)
Definition heap_resort (ns : nodes_t) (buf : list nat) : list nat := make_heap (costs ns) buf.

(** body of the loop of visit(), traverse-sensor-links.c:62-97 *)
Definition visit_neighbor (idx : nat) (st : nodes_t * list nat) (nb : nat) : nodes_t * list nat :=
  let '(ns, buf) := st in
  if Nat.eqb nb idx then st
  else if shared nb idx =? 0 then st
  else if n_done (ns nb) then st
  else
    let c := n_cost (ns idx) + cost_edge nb idx in
    if n_cost (ns nb) =? 0 then
      let ns' := set_node ns nb {| n_cost := c; n_parent := idx; n_done := n_done (ns nb) |} in
      (ns', heap_push ns' buf nb)
    else if c <? n_cost (ns nb) then
      let ns' := set_node ns nb {| n_cost := c; n_parent := idx; n_done := n_done (ns nb) |} in
      (ns', heap_resort ns' buf)
    else st.
(** traverse-sensor-links.c:52-98 visit() *)
Definition visit (idx : nat) (st : nodes_t * list nat) : nodes_t * list nat :=
  let '(ns, buf) := st in
  let ns1 := set_node ns idx {| n_cost := n_cost (ns idx); n_parent := n_parent (ns idx); n_done := true |} in
  fold_left (visit_neighbor idx) (seq 0 Nsensors) (ns1, buf).

(** the while loop, traverse-sensor-links.c:146-158.  [log]: the callbacks made
    so far, latest first.  None = fuel ran out (shown not to happen). *)
Fixpoint main_loop (fuel : nat) (st : nodes_t * list nat) (log : list (nat * nat)) : option (bool * list (nat * nat)) :=
  match heap_pop (fst st) (snd st) with
  | None => Some (true, log)
  | Some (top, buf') =>
    match fuel with
    | O => None
    | S f =>
      let ns := fst st in
      let parent := n_parent (ns top) in
      if cb log top parent then main_loop f (visit top (ns, buf')) ((top, parent) :: log)
      else Some (false, (top, parent) :: log)
    end
  end.

Definition node0 : node := {| n_cost := 0; n_parent := 0; n_done := false |}.
(** traverse-sensor-links.c:101-161 mrcal_traverse_sensor_links().  Result and
    the callbacks made, first one first. *)
Definition traverse (fuel : nat) : option (bool * list (nat * nat)) :=
  match main_loop fuel (visit 0 ((fun _ => node0), [])) [] with
  | Some (r, log) => Some (r, rev log)
  | None => None
  end.
End Traverse.
