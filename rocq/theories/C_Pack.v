(** Property theorems C06 and C07: packing of the state. *)
From Coq Require Import ZArith List Bool Reals Lia.
From Verif Require Import M_Lens M_Layout S_Layout M_Pack S_Pack P_Pack C_Layout.
Import ListNotations.
Open Scope Z_scope.

(** C06. [b] is an array: cells outside [0,num_states) are those beyond the state vector. *)
Theorem C06_pack_unpack_vector_inverse :
  forall p b k, problem_ok p ->
  unpack_vec p (pack_vec p b) k = b k /\ pack_vec p (unpack_vec p b) k = b k.
Proof. intros. now apply vec_roundtrip. Qed.
Print Assumptions C06_pack_unpack_vector_inverse.

Theorem C06_pack_unpack_structures_inverse :
  forall p, problem_ok p ->
  (forall b s b0 k, 0 <= k < num_states p -> pack_struct p (unpack_struct p b s) b0 k = b k) /\
  (forall s b0 l, unpack_struct p (pack_struct p s b0) s l = s l).
Proof. intros p H. split; intros; [now apply struct_roundtrip_vec | now apply struct_roundtrip]. Qed.
Print Assumptions C06_pack_unpack_structures_inverse.

(** Only what is optimized is touched; nothing beyond the state vector is written. *)
Theorem C06_locked_untouched :
  forall p, problem_ok p ->
  (forall b s l, locked p l -> unpack_struct p b s l = s l) /\
  (forall s b k, ~ (0 <= k < num_states p) -> pack_struct p s b k = b k) /\
  (forall b k, ~ (0 <= k < num_states p) -> pack_vec p b k = b k /\ unpack_vec p b k = b k).
Proof. intros p H. split; [|split]; intros; [now apply unpack_struct_locked | now apply pack_struct_untouched | now apply vec_untouched]. Qed.
Print Assumptions C06_locked_untouched.

(** Each optimized scalar is stored at the reported index, divided by its
    documented scale. *)
Theorem C07_structure_packing_positions :
  forall p s b it j, problem_ok p -> optimized p it -> 0 <= j < item_size p it ->
  pack_struct p s b (state_index p it + j) = (s (item_loc p it j) / scale (scale_of p (item_loc p it j)))%R.
Proof. intros. now apply pack_struct_val. Qed.
Print Assumptions C07_structure_packing_positions.

Theorem C07_structure_and_vector_packing_agree :
  forall p s b b0, problem_ok p ->
  (forall it j, optimized p it -> 0 <= j < item_size p it -> b (state_index p it + j) = s (item_loc p it j)) ->
  forall k, 0 <= k < num_states p -> pack_vec p b k = pack_struct p s b0 k.
Proof. intros. eapply two_packers; eauto. Qed.
Print Assumptions C07_structure_and_vector_packing_agree.

(** Non-vacuity: in [ex_problem] of C_Layout (see there) the hypotheses hold
    and some quantities are optimized while others are locked. *)
Example ex_pack_locked : locked ex_problem (LPoint 9) /\ ~ locked ex_problem (LPoint 8) /\ ~ locked ex_problem (LIntr 13).
Proof. cbn. repeat split; try (left; lia); intros [H|H]; try lia; try congruence. Qed.
Example ex_pack_layout : forall s : loc -> R, exists b : Z -> R, forall it j, optimized ex_problem it -> 0 <= j < item_size ex_problem it ->
  b (state_index ex_problem it + j) = s (item_loc ex_problem it j).
Proof.
  (* the unpacked vector obtained by unpacking what was packed *)
  intro s. exists (unpack_vec ex_problem (pack_struct ex_problem s (fun _ => 0%R))).
  intros it j Ho Hj. pose proof (P_Layout.state_in_range ex_problem it ex_problem_ok Ho) as (R1 & R2).
  assert (0 <= state_index ex_problem it + j < num_states ex_problem) as Hk by lia.
  destruct (pack_vec_val ex_problem ex_problem_ok (pack_struct ex_problem s (fun _ => 0%R)) _ Hk) as (sc & E & _ & U).
  rewrite U, (pack_struct_val ex_problem ex_problem_ok s _ it j Ho Hj).
  rewrite nth_error_map, (prog_position ex_problem ex_problem_ok it j Ho Hj) in E. cbn in E. injection E as <-.
  pose proof (scale_pos (scale_of ex_problem (item_loc ex_problem it j))). field. apply Rgt_not_eq. auto.
Qed.
