(** Claims C01, C02, C11: layout of the state and measurement vectors. *)
From Coq Require Import ZArith List Bool Lia.
From Verif Require Import M_Lens M_Layout S_Layout P_Layout P_TriDecode.
Import ListNotations.
Open Scope Z_scope.

(** C01. Every query answers -1 exactly for the things that are not optimized;
    every other block lies in range; each state index belongs to exactly one block. *)
Theorem C01_state_layout_partition : forall p, problem_ok p ->
  (forall it, state_index p it = -1 <-> ~ optimized p it) /\
  (forall it, optimized p it -> 0 < item_size p it /\
      0 <= state_index p it /\ state_index p it + item_size p it <= num_states p) /\
  (forall k, 0 <= k < num_states p ->
      exists! it, optimized p it /\ state_index p it <= k < state_index p it + item_size p it).
Proof. exact state_partition. Qed.
Print Assumptions C01_state_layout_partition.

(** C02. Same for the measurements: boards, points, triangulated features, regularization. *)
Theorem C02_measurement_layout_partition : forall p fs, problem_ok p -> tri_features (p_tri p) fs ->
  exists n, num_measurements p = Some n /\
  (forall it, ~ mkind_present p fs it -> measurement_index p it = Some (-1)) /\
  (forall it, mpresent p fs it -> exists s, measurement_index p it = Some s /\
      0 <= s /\ s + mitem_size p fs it <= n) /\
  (forall k, 0 <= k < n ->
     exists! it, mpresent p fs it /\ exists s, measurement_index p it = Some s /\ s <= k < s + mitem_size p fs it).
Proof. exact measurement_partition. Qed.
Print Assumptions C02_measurement_layout_partition.

(** C02, order of the blocks. *)
Theorem C02_measurement_layout_order : forall p fs a b sa sb, problem_ok p -> tri_features (p_tri p) fs ->
  mpresent p fs a -> mpresent p fs b ->
  measurement_index p a = Some sa -> measurement_index p b = Some sb ->
  (match a, b with
   | MI_board i, MI_board j => i < j
   | MI_board _, _ => True
   | MI_point i, MI_point j => i < j
   | MI_point _, MI_tri _ | MI_point _, MI_reg => True
   | MI_tri i, MI_tri j => i < j
   | MI_tri _, MI_reg => True
   | _, _ => False end) ->
  sa + mitem_size p fs a <= sb.
Proof. exact measurement_order. Qed.
Print Assumptions C02_measurement_layout_order.

(** C11. Triangulated measurements number the pairs of observations one-to-one
    and the decoder inverts the numbering (square root evaluated exactly; see
    C11_decode_double for the double-precision evaluation). *)
Theorem C11_triangulated_numbering_bijection : forall obs fs, tri_features obs fs ->
  exists n, num_measurements_tri obs = Some n /\ n = Z.of_nat (length (all_pairs 0 0 fs)) /\
  NoDup (map snd (all_pairs 0 0 fs)) /\
  (forall k f o0 o1, nth_error fs k = Some f ->
     let f0 := length (concat (firstn k fs)) in
     (f0 <= o0 < o1 /\ o1 < f0 + length f)%nat -> In (k, f0, length f, (o0, o1)) (all_pairs 0 0 fs)) /\
  (forall m, 0 <= m < n -> exists ifeat first f o0 o1,
     nth_error (all_pairs 0 0 fs) (Z.to_nat m) = Some (ifeat, first, length f, (o0, o1)) /\
     nth_error fs ifeat = Some f /\ first = length (concat (firstn ifeat fs)) /\
     (first <= o0 < o1 /\ o1 < first + length f)%nat /\
     decode_tri obs m = Some (Some {| d_o0 := Z.of_nat o0; d_o1 := Z.of_nat o1; d_first := Z.of_nat first;
        d_No := Z.of_nat (length f); d_Nm := Z.of_nat (length f) * (Z.of_nat (length f) - 1) / 2;
        d_ipoint := Z.of_nat ifeat |})) /\
  (forall m, n <= m -> decode_tri obs m = Some None).
Proof. exact tri_numbering. Qed.
Print Assumptions C11_triangulated_numbering_bijection.

(** *** The hypotheses can be met. *)
Definition ex_sel := {| do_core := true; do_dist := true; do_ext := true; do_frames := true;
                        do_warp := true; do_reg := true; do_unity := true |}.
Definition ex_tri (l : bool) := {| to_icam_i := 0; to_icam_e := 0; to_last := l; to_outlier := false |}.
Definition ex_fs := [[ex_tri false; ex_tri false; ex_tri true]; [ex_tri true]; [ex_tri false; ex_tri true]].
Definition ex_problem := {| p_lens := OPENCV8; p_sel := ex_sel; p_Nci := 2; p_Nce := 1; p_Nframes := 3;
  p_Npoints := 4; p_Npoints_fixed := 1;
  p_boards := [ {| bo_icam_i := 0; bo_icam_e := -1; bo_iframe := 0 |}; {| bo_icam_i := 1; bo_icam_e := 0; bo_iframe := 2 |} ];
  p_points := [ {| po_icam_i := 1; po_icam_e := 0; po_ipoint := 3 |} ];
  p_tri := concat ex_fs; p_w := 3; p_h := 2 |}.
Example ex_problem_ok : problem_ok ex_problem.
Proof. unfold problem_ok; simpl; lia. Qed.
Example ex_features_ok : tri_features (p_tri ex_problem) ex_fs.
Proof.
  split; [reflexivity|]. repeat constructor.
  - exists [ex_tri false; ex_tri false], (ex_tri true). repeat constructor.
  - exists [], (ex_tri true). repeat constructor.
  - exists [ex_tri false], (ex_tri true). repeat constructor.
Qed.
Example ex_layout :
  num_states ex_problem = 24 + 6 + 18 + 9 + 2 /\ num_measurements ex_problem = Some (24 + 2 + 4 + 21) /\
  state_index ex_problem (SI_point 3) = -1 /\ state_index ex_problem (SI_point 2) = 54 /\
  measurement_index ex_problem (MI_tri 2) = Some 29.
Proof. vm_compute. repeat split. Qed.
