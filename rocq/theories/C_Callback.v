(** Property theorems C03, C04, C05, C12: structure of one evaluation of the
    cost function, and which control points a splined model uses. *)
From Coq Require Import ZArith List Bool Lia Sorted ZifyBool.
From Verif Require Import M_Lens M_Layout S_Layout P_Layout M_SplineIdx M_Callback S_Callback P_Callback P_CallbackRows P_Outliers.
Import ListNotations.
Open Scope Z_scope.

(** C03. *)
Theorem C03_callback_fills_arrays :
  forall (V : Type) (vzero : V) ge0 le0 ovx ovj osb osp p bw pw fs,
  problem_ok p -> tri_supported p -> tri_features (p_tri p) fs ->
  exists rows n nnz,
    callback_rows vzero ge0 le0 ovx ovj osb osp p bw pw = Some rows /\
    num_measurements p = Some n /\ num_j_nonzero p = Some nnz /\
    (forall jt, fills n (map fst (w_x (write_all jt rows))) /\
                iM (write_all jt rows) = n /\ iJ (write_all jt rows) = nnz) /\
    let s := write_all true rows in
    fills (n + 1) (map fst (w_rowptr s)) /\
    StronglySorted Z.le (map snd (w_rowptr s)) /\
    hd (-1) (map snd (w_rowptr s)) = 0 /\ last (map snd (w_rowptr s)) (-1) = nnz /\
    fills nnz (map fst (w_colidx s)) /\ fills nnz (map fst (w_val s)) /\
    (w_rowptr (write_all false rows) = [] /\ w_colidx (write_all false rows) = [] /\ w_val (write_all false rows) = []).
Proof.
  intros V vzero ge0 le0 ovx ovj osb osp p bw pw fs Hok Ht Hf.
  destruct (callback_counts vzero ge0 le0 ovx ovj osb osp p bw pw Hok fs Ht Hf) as (rows & E & En & Ez).
  exists rows, (lenZ rows), (tot rows). pose proof (tot_nonneg rows). assert (0 <= lenZ rows) by (unfold lenZ; lia).
  split; [exact E|]. split; [exact En|]. split; [exact Ez|]. split; [|cbv zeta].
  - intro jt. destruct (write_all_effect jt rows) as (A1 & A2 & A3 & _). rewrite A3. split; [now apply zrange_fills|auto].
  - destruct (write_all_effect true rows) as (A1 & A2 & A3 & A4 & A5 & A6 & A7 & A8 & A9 & A10).
    destruct (write_all_effect false rows) as (_ & _ & _ & _ & B5 & _ & B7 & _ & B9 & _).
    rewrite A5, A6, A7, A9. destruct (rowptr_full rows) as (R1 & R2 & R3).
    split; [apply zrange_fills; lia|]. split; [exact R1|]. split; [exact R2|]. split; [exact R3|].
    split; [now apply zrange_fills|]. split; [now apply zrange_fills|].
    split; [|split]; eapply map_eq_nil; eassumption.
Qed.
Print Assumptions C03_callback_fills_arrays.

(** C04. *)
Theorem C04_jacobian_columns :
  forall (V : Type) (vzero : V) ge0 le0 ovx ovj osb osp p bw pw rows r,
  problem_ok p -> lens_legal (p_lens p) -> obs_ok p ->
  callback_rows vzero ge0 le0 ovx ovj osb osp p bw pw = Some rows -> In r rows ->
  Forall (fun c => 0 <= c < num_states p) (cols r) /\
  (lens_narrow (p_lens p) -> is_tri_row (r_id r) = false -> StronglySorted Z.lt (cols r)).
Proof.
  intros V vzero ge0 le0 ovx ovj osb osp p bw pw rows r Hok HL Ho E Hr.
  pose proof (callback_good vzero ge0 le0 ovx ovj osb osp p bw pw Hok HL Ho rows E) as G.
  rewrite Forall_forall in G. exact (G r Hr).
Qed.
Print Assumptions C04_jacobian_columns.

(** the write log stores exactly these columns, row by row *)
Theorem C04_columns_written :
  forall (V : Type) (rows : list (@row V)),
  map snd (w_colidx (write_all true rows)) = concat (map cols rows) /\
  map snd (w_x (write_all true rows)) = map r_x rows /\
  map snd (w_val (write_all true rows)) = concat (map vals rows).
Proof.
  intros V rows. destruct (write_all_effect true rows) as (_ & _ & _ & A4 & _ & _ & _ & A8 & _ & A10).
  rewrite A4, A8, A10, !flat_map_concat_map. auto.
Qed.
Print Assumptions C04_columns_written.

(** With 32768 or more control points in a row the 16-bit stride wraps around
    and the same column is written twice. *)
Definition wide_lens : lensmodel := SPLINED {| sp_order := 2; sp_Nx := 32768; sp_Ny := 3; sp_fov := 90 |}.
Definition wide_problem : problem :=
  {| p_lens := wide_lens;
     p_sel := {| do_core := false; do_dist := true; do_ext := false; do_frames := false; do_warp := false; do_reg := false; do_unity := false |};
     p_Nci := 1; p_Nce := 0; p_Nframes := 0; p_Npoints := 1; p_Npoints_fixed := 0;
     p_boards := []; p_points := [{| po_icam_i := 0; po_icam_e := -1; po_ipoint := 0 |}]; p_tri := []; p_w := 0; p_h := 0 |}.
Theorem C04_wide_spline_refuted :
  exists (p : problem) (rows : list (@row Z)) r,
    problem_ok p /\ lens_legal (p_lens p) /\ obs_ok p /\
    callback_rows 0 (fun z => 0 <=? z) (fun z => z <=? 0) (fun _ => 1) (fun _ _ => 1)
       (fun _ _ => (5,5)) (fun _ => (5,5)) p (fun _ => 1) (fun _ => 1) = Some rows /\
    In r rows /\ is_tri_row (r_id r) = false /\ ~ NoDup (cols r).
Proof.
  exists wide_problem. do 2 eexists. split; [|split; [|split; [|split; [vm_compute; reflexivity|split; [left; reflexivity|split; [reflexivity|]]]]]].
  - repeat split; vm_compute; congruence.
  - repeat split; vm_compute; auto.
  - repeat split; repeat constructor; vm_compute; congruence.
  - vm_compute. intro H. inversion H as [|? ? Hx Hy]; subst. apply Hx. right. right. left. reflexivity.
Qed.
Print Assumptions C04_wide_spline_refuted.

(** C05.  What does hold: no row appears, disappears, moves or changes its
    length; the columns stay the same except possibly in the rows of discrete
    points when the model is splined. *)
Theorem C05_outliers_keep_shape_partial :
  forall (V : Type) (vzero : V) ge0 le0 ovx ovx' ovj ovj' osb osp p bw pw bw' pw' tri',
  problem_ok p -> Forall2 same_tri (p_tri p) tri' ->
  match callback_rows vzero ge0 le0 ovx ovj osb osp p bw pw,
        callback_rows vzero ge0 le0 ovx' ovj' osb osp (with_tri p tri') bw' pw' with
  | Some rows, Some rows' =>
    Forall2 (fun r r' => r_id r = r_id r' /\ length (cols r) = length (cols r') /\
               (splined (p_lens p) = true /\ is_point_row (r_id r) = true \/ cols r = cols r')) rows rows' /\
    map snd (w_rowptr (write_all true rows)) = map snd (w_rowptr (write_all true rows'))
  | None, None => True
  | _, _ => False
  end.
Proof.
  intros V vzero ge0 le0 ovx ovx' ovj ovj' osb osp p bw pw bw' pw' tri' Hok Ht.
  pose proof (callback_shape vzero ge0 le0 ovx ovx' ovj ovj' osb osp p bw pw bw' pw' Hok tri' Ht) as S.
  unfold opt2 in S.
  destruct (callback_rows vzero ge0 le0 ovx ovj osb osp p bw pw) as [rows|],
    (callback_rows vzero ge0 le0 ovx' ovj' osb osp (with_tri p tri') bw' pw') as [rows'|]; auto.
  split.
  - clear Ht. induction S as [|r r' rows rows' (A & B & C) _ IH]; constructor; auto.
    unfold cols in *. rewrite !map_length. auto.
  - destruct (write_all_effect true rows) as (_ & _ & _ & _ & _ & A6 & _).
    destruct (write_all_effect true rows') as (_ & _ & _ & _ & _ & B6 & _). rewrite A6, B6.
    destruct (shape_rowptrs rows rows' _ S 0) as (-> & -> & _). reflexivity.
Qed.
Print Assumptions C05_outliers_keep_shape_partial.

Theorem C05_outlier_rows_zero :
  forall (V : Type) (vzero : V) ge0 le0 ovx ovj osb osp p bw pw rows r,
  callback_rows vzero ge0 le0 ovx ovj osb osp p bw pw = Some rows -> In r rows ->
  (row_is_outlier ge0 le0 p bw pw (r_id r) -> r_x r = vzero /\ Forall (fun v => v = vzero) (vals r)) /\
  (~ row_is_outlier ge0 le0 p bw pw (r_id r) ->
     r_x r = ovx (r_id r) /\ forall k, (k < length (vals r))%nat -> nth k (vals r) vzero = ovj (r_id r) (Z.of_nat k)).
Proof.
  intros V vzero ge0 le0 ovx ovj osb osp p bw pw rows r E Hr.
  pose proof (callback_right vzero ge0 le0 ovx ovj osb osp p bw pw rows E) as G. rewrite Forall_forall in G.
  destruct (G r Hr) as (G1 & G2). split; [exact G1|]. intro Hn. destruct (G2 Hn) as (X & Y). split; [exact X|].
  intros k Hk. rewrite Y in *. rewrite map_length, zrange_length in Hk.
  rewrite (nth_indep _ vzero (ovj (r_id r) (-1))) by (rewrite map_length, zrange_length; auto).
  rewrite map_nth. destruct (zrange_fills (lenZ (r_j r)) ltac:(unfold lenZ; lia)) as (_ & _ & F). rewrite F; [reflexivity|].
  rewrite zrange_length. auto.
Qed.
Print Assumptions C05_outlier_rows_zero.

(** What does not hold: a discrete point seen by a splined camera reports
    other columns once it becomes an outlier. *)
Definition spl_problem : problem :=
  {| p_lens := SPLINED {| sp_order := 3; sp_Nx := 10; sp_Ny := 8; sp_fov := 90 |};
     p_sel := {| do_core := true; do_dist := true; do_ext := true; do_frames := true; do_warp := true; do_reg := true; do_unity := true |};
     p_Nci := 2; p_Nce := 1; p_Nframes := 1; p_Npoints := 2; p_Npoints_fixed := 1;
     p_boards := [{| bo_icam_i := 0; bo_icam_e := -1; bo_iframe := 0 |}; {| bo_icam_i := 1; bo_icam_e := 0; bo_iframe := 0 |}];
     p_points := [{| po_icam_i := 0; po_icam_e := -1; po_ipoint := 0 |}; {| po_icam_i := 1; po_icam_e := 0; po_ipoint := 1 |}];
     p_tri := []; p_w := 3; p_h := 2 |}.
Lemma spl_problem_ok : problem_ok spl_problem /\ lens_legal (p_lens spl_problem) /\ lens_narrow (p_lens spl_problem) /\
  obs_ok spl_problem /\ tri_supported spl_problem /\ tri_features (p_tri spl_problem) [].
Proof.
  split; [repeat split; vm_compute; congruence|]. split; [repeat split; vm_compute; auto|]. split; [vm_compute; auto|].
  split; [repeat split; repeat constructor; vm_compute; congruence|]. split; [left; reflexivity|]. split; [reflexivity|constructor].
Qed.
Definition spl_rows (pw : Z -> Z) :=
  callback_rows 0 (fun z => 0 <=? z) (fun z => z <=? 0) (fun _ => 1) (fun _ k => 10 + k)
       (fun _ i => (3 * i - 4, i)) (fun i => (4, 3)) spl_problem (fun _ => 1) pw.
Theorem C05_splined_point_columns_refuted :
  exists (pw pw' : Z -> Z) rows rows',
    spl_rows pw = Some rows /\ spl_rows pw' = Some rows' /\ map cols rows <> map cols rows'.
Proof.
  exists (fun _ => 1), (fun _ => -1). do 2 eexists. split; [vm_compute; reflexivity|]. split; [vm_compute; reflexivity|].
  vm_compute. discriminate.
Qed.
Print Assumptions C05_splined_point_columns_refuted.

(** the hypotheses of C03-C05 hold of this problem, which has 24 board, 4 point
    and 2*2*10*8+4+1 regularization rows *)
Example spl_counts : num_measurements spl_problem = Some 353 /\ num_j_nonzero spl_problem = Some 1433.
Proof. vm_compute. auto. Qed.
(** a problem with triangulated features *)
Definition tri_problem : problem :=
  {| p_lens := OPENCV8;
     p_sel := {| do_core := false; do_dist := false; do_ext := true; do_frames := false; do_warp := false; do_reg := false; do_unity := true |};
     p_Nci := 3; p_Nce := 2; p_Nframes := 0; p_Npoints := 0; p_Npoints_fixed := 0; p_boards := []; p_points := [];
     p_tri := [{| to_icam_i := 0; to_icam_e := -1; to_last := false; to_outlier := false |};
               {| to_icam_i := 2; to_icam_e := 1; to_last := false; to_outlier := false |};
               {| to_icam_i := 1; to_icam_e := 0; to_last := true; to_outlier := true |}];
     p_w := 0; p_h := 0 |}.
Example tri_problem_ok : problem_ok tri_problem /\ obs_ok tri_problem /\ tri_supported tri_problem /\
  tri_features (p_tri tri_problem) [p_tri tri_problem] /\ num_measurements tri_problem = Some 4 /\ num_j_nonzero tri_problem = Some 27.
Proof.
  split; [repeat split; vm_compute; congruence|]. split; [repeat split; repeat constructor; vm_compute; congruence|].
  split; [right; auto|]. split; [|vm_compute; auto]. split; [reflexivity|]. constructor; [|constructor].
  do 2 eexists. split; [|split; [|]].
  - change (p_tri tri_problem) with ([{| to_icam_i := 0; to_icam_e := -1; to_last := false; to_outlier := false |};
               {| to_icam_i := 2; to_icam_e := 1; to_last := false; to_outlier := false |}] ++
               [{| to_icam_i := 1; to_icam_e := 0; to_last := true; to_outlier := true |}]). reflexivity.
  - reflexivity. - repeat constructor.
Qed.
(** columns of a triangulated row need not be sorted: the second pair of this
    feature touches camera 1 first, then camera 0 *)
Example tri_unsorted : option_map (fun rows => map cols rows)
  (callback_rows 0 (fun z => 0 <=? z) (fun z => z <=? 0) (fun _ => 1) (fun _ _ => 1) (fun _ _ => (0,0)) (fun _ => (0,0))
     tri_problem (fun _ => 1) (fun _ => 1)) =
  Some [[6;7;8;9;10;11]; [0;1;2;3;4;5]; [6;7;8;9;10;11;0;1;2;3;4;5]; [3;4;5]].
Proof. vm_compute. reflexivity. Qed.

(** C12. *)
Lemma legal_iff c : spline_legal c = true <-> lens_legal (SPLINED c).
Proof. unfold spline_legal, lens_legal. lia. Qed.
Theorem C12_control_points_in_grid :
  forall c tx ty, spline_legal c = true ->
  (forall k, In k (sample_reads c tx ty) ->
     exists iy ix ixy, 0 <= ix < sp_Nx c /\ 0 <= iy < sp_Ny c /\ 0 <= ixy <= 1 /\
       k = 4 + 2 * (iy * sp_Nx c + ix) + ixy /\ 4 <= k < num_params (SPLINED c)) /\
  (forall ixy k, 0 <= ixy <= 1 -> In k (grad_cols c tx ty ixy) -> 4 <= k < num_params (SPLINED c)) /\
  (sp_Nx c < 32768 -> forall ixy k, 0 <= ixy <= 1 -> In k (grad_cols c tx ty ixy) -> In k (sample_reads c tx ty)).
Proof.
  intros c tx ty HL. apply legal_iff in HL. split; [|split].
  - intros k Hk. destruct (sample_reads_in c tx ty k HL Hk) as (iy & ix & ixy & H1 & H2 & H3 & H4).
    exists iy, ix, ixy. pose proof (cell_in_grid c ix iy H1 H2). unfold num_params. repeat split; try lia.
  - intros ixy k Hi Hk. apply grad_cols_in in Hk; auto. unfold num_params. lia.
  - intros Hn ixy k Hi Hk. unfold grad_cols in Hk. apply in_flat_map in Hk. destruct Hk as (iy & Hiy & Hk).
    apply in_map_iff in Hk. destruct Hk as (ix & <- & Hix).
    unfold sample_reads. apply in_flat_map. exists iy. split; [auto|]. apply in_flat_map. exists ix. split; [auto|].
    apply in_map_iff. exists (Z.to_nat ixy). destruct HL as (Ho & Hx & Hy). split.
    + unfold ivar_stridey. rewrite Z.mod_small by lia. lia.
    + assert (ixy = 0 \/ ixy = 1) as [-> | ->] by lia; simpl; auto.
Qed.
Print Assumptions C12_control_points_in_grid.
Example C12_example : spline_legal {| sp_order := 3; sp_Nx := 11; sp_Ny := 8; sp_fov := 200 |} = true /\
  length (sample_reads {| sp_order := 3; sp_Nx := 11; sp_Ny := 8; sp_fov := 200 |} (-5) 100) = 32%nat.
Proof. vm_compute. auto. Qed.
