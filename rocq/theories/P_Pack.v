From Coq Require Import ZArith List Bool Lia ZifyBool Reals Lra.
From Verif Require Import M_Lens M_Layout S_Layout P_Layout M_Callback P_Callback M_Pack S_Pack.
Import ListNotations.
Open Scope Z_scope.

Lemma scale_pos k : (0 < scale k)%R.
Proof. pose proof PI_RGT_0. destruct k; unfold scale; lra. Qed.

(** ** the interpreter *)
Lemma nth_error_cons_S {A} (a : A) l k : 0 < k -> nth_error (a :: l) (Z.to_nat k) = nth_error l (Z.to_nat (k - 1)).
Proof. intro. replace (Z.to_nat k) with (S (Z.to_nat (k - 1))) by lia. reflexivity. Qed.

Lemma exec_pack_struct_out s prog : forall i b j, ~ (i <= j < i + lenZ prog) -> exec_pack_struct i prog s b j = b j.
Proof. induction prog as [|(l, k) prog IH]; intros i b j H; [reflexivity|]. cbn [exec_pack_struct].
  unfold lenZ in *. cbn [length] in H. rewrite IH by lia. unfold updZ. destruct (Z.eq_dec j i); [lia|reflexivity]. Qed.
Lemma exec_pack_struct_in s prog : forall i b j l k, i <= j -> nth_error prog (Z.to_nat (j - i)) = Some (l, k) ->
  exec_pack_struct i prog s b j = (s l / scale k)%R.
Proof. induction prog as [|(l0, k0) prog IH]; intros i b j l k Hj E.
  - destruct (Z.to_nat (j - i)); discriminate.
  - cbn [exec_pack_struct]. destruct (Z.eq_dec j i) as [->|n].
    + rewrite Z.sub_diag in E. injection E as -> ->. rewrite exec_pack_struct_out by lia. unfold updZ.
      destruct (Z.eq_dec i i); congruence.
    + rewrite nth_error_cons_S in E by lia. apply IH; [lia|]. rewrite <- E. do 2 f_equal; lia. Qed.

Lemma exec_unpack_struct_out b prog : forall i s l, ~ In l (map fst prog) -> exec_unpack_struct i prog b s l = s l.
Proof. induction prog as [|(l0, k) prog IH]; intros i s l H; [reflexivity|]. cbn [exec_unpack_struct].
  cbn [map fst In] in H. rewrite IH by tauto. unfold updL. destruct (loc_eq_dec l l0); [subst; tauto|reflexivity]. Qed.
Lemma exec_unpack_struct_in b prog : NoDup (map fst prog) -> forall i s l k n, nth_error prog n = Some (l, k) ->
  exec_unpack_struct i prog b s l = (b (i + Z.of_nat n)%Z * scale k)%R.
Proof. induction prog as [|(l0, k0) prog IH]; intros Hd i s l k n E; [destruct n; discriminate|].
  cbn [map fst] in Hd. inversion Hd as [|? ? Hn Hd']; subst. cbn [exec_unpack_struct]. destruct n as [|n].
  - injection E as -> ->. rewrite exec_unpack_struct_out by auto. unfold updL. destruct (loc_eq_dec l l); [|congruence].
    do 2 f_equal. lia.
  - cbn [nth_error] in E. rewrite (IH Hd' _ _ _ _ _ E). do 2 f_equal. lia. Qed.

Definition aligned (prog : list (Z * skind)) (i : Z) : Prop := map fst prog = zrange i (lenZ prog).
Lemma zrange_cons a n : 0 <= n -> zrange a (n + 1) = a :: zrange (a + 1) n.
Proof. intros Hn. unfold zrange. replace (Z.to_nat (n + 1)) with (S (Z.to_nat n)) by lia. cbn [seq map].
  f_equal; [lia|]. rewrite <- seq_shift, map_map. apply map_ext. intro; lia. Qed.
Lemma zrange_app a n k : 0 <= n -> 0 <= k -> zrange a (n + k) = zrange a n ++ zrange (a + n) k.
Proof. intros Hn Hk. pattern n. revert a. pattern n. apply natlike_ind; auto.
  - intro a. cbn. f_equal. lia.
  - intros m Hm IH a. replace (Z.succ m + k) with ((m + k) + 1) by lia. rewrite zrange_cons by lia.
    replace (Z.succ m) with (m + 1) by lia. rewrite (zrange_cons a m) by lia. rewrite IH. cbn [app]. do 2 f_equal. f_equal. lia. Qed.
Lemma aligned_cons x k prog i : aligned ((x, k) :: prog) i -> x = i /\ aligned prog (i + 1).
Proof. unfold aligned. intro H. assert (lenZ ((x, k) :: prog) = lenZ prog + 1) as E by (unfold lenZ; cbn [length]; lia).
  rewrite E, zrange_cons in H by (unfold lenZ; lia). cbn [map fst] in H. injection H as -> H. auto. Qed.
Lemma exec_pack_vec_out prog : forall i b j, ~ (i <= j < i + lenZ prog) -> exec_pack_vec i prog b j = b j.
Proof. induction prog as [|(l, k) prog IH]; intros i b j H; [reflexivity|]. cbn [exec_pack_vec].
  unfold lenZ in *. cbn [length] in H. rewrite IH by lia. unfold updZ. destruct (Z.eq_dec j i); [lia|reflexivity]. Qed.
Lemma exec_pack_vec_in prog : forall i b j x k, aligned prog i -> i <= j -> nth_error prog (Z.to_nat (j - i)) = Some (x, k) ->
  exec_pack_vec i prog b j = (b j / scale k)%R.
Proof. induction prog as [|(l0, k0) prog IH]; intros i b j x k Ha Hj E.
  - destruct (Z.to_nat (j - i)); discriminate.
  - apply aligned_cons in Ha. destruct Ha as (Hx & Ha). subst l0. cbn [exec_pack_vec]. destruct (Z.eq_dec j i) as [->|n].
    + rewrite Z.sub_diag in E. injection E as <- <-. rewrite exec_pack_vec_out by lia. unfold updZ.
      destruct (Z.eq_dec i i); congruence.
    + rewrite nth_error_cons_S in E by lia. rewrite (IH _ _ _ x k Ha); [|lia|].
      * unfold updZ. destruct (Z.eq_dec j i); [lia|reflexivity].
      * rewrite <- E. do 2 f_equal; lia. Qed.
Lemma exec_unpack_vec_out prog : forall i b j, aligned prog i -> ~ (i <= j < i + lenZ prog) -> exec_unpack_vec i prog b j = b j.
Proof. induction prog as [|(l, k) prog IH]; intros i b j Ha H; [reflexivity|]. apply aligned_cons in Ha. destruct Ha as (Hx & Ha). subst l. cbn [exec_unpack_vec].
  unfold lenZ in *. cbn [length] in H. rewrite IH by (auto; lia). unfold updZ. destruct (Z.eq_dec j i); [lia|reflexivity]. Qed.
Lemma exec_unpack_vec_in prog : forall i b j x k, aligned prog i -> i <= j -> nth_error prog (Z.to_nat (j - i)) = Some (x, k) ->
  exec_unpack_vec i prog b j = (b j * scale k)%R.
Proof. induction prog as [|(l0, k0) prog IH]; intros i b j x k Ha Hj E.
  - destruct (Z.to_nat (j - i)); discriminate.
  - apply aligned_cons in Ha. destruct Ha as (Hx & Ha). subst l0. cbn [exec_unpack_vec]. destruct (Z.eq_dec j i) as [->|n].
    + rewrite Z.sub_diag in E. injection E as <- <-. rewrite exec_unpack_vec_out by (auto; lia). unfold updZ.
      destruct (Z.eq_dec i i); congruence.
    + rewrite nth_error_cons_S in E by lia. rewrite (IH _ _ _ x k Ha); [|lia|].
      * unfold updZ. destruct (Z.eq_dec j i); [lia|reflexivity].
      * rewrite <- E. do 2 f_equal; lia. Qed.

(** ** the programs *)
Lemma unpack_pack_prog p : unpack_struct_prog p = pack_struct_prog p.
Proof.
  unfold unpack_struct_prog, pack_struct_prog. f_equal.
  unfold unpack_intr_prog, pack_intr_prog.
  destruct (do_core (p_sel p)), (do_dist (p_sel p)); cbn [negb andb]; unfold has_core;
    try (apply flat_map_ext; intro; f_equal; apply map_ext; intro; do 2 f_equal; ring).
  all: first [reflexivity | induction (zrange 0 (p_Nci p)); simpl; auto].
Qed.

Lemma combine_fst {A B} (l : list B) : forall a : list A, length a = length l -> map fst (combine a l) = a.
Proof. induction l; intros [|x a']; simpl; intros; try discriminate; auto. f_equal. auto. Qed.
Lemma idx_scales_fst l : map fst (idx_scales l) = zrange 0 (lenZ l).
Proof. unfold idx_scales, zrange, lenZ. rewrite map_map. cbn [fst]. rewrite <- (map_map fst Z.of_nat), combine_fst by apply seq_length.
  rewrite Nat2Z.id. apply map_ext. intro; lia. Qed.
Lemma idx_scales_snd l : map snd (idx_scales l) = l.
Proof. unfold idx_scales. rewrite map_map. cbn [snd]. apply combine_snd. apply seq_length. Qed.
Lemma fields_fst i fields : map fst (map (fun k : nat * skind => (i + Z.of_nat (fst k), snd k)) (combine (seq 0 (length fields)) fields)) = zrange i (lenZ fields).
Proof. rewrite map_map. cbn [fst]. rewrite <- (map_map fst (fun k => i + Z.of_nat k)), combine_fst by apply seq_length.
  unfold zrange, lenZ. now rewrite Nat2Z.id. Qed.
Lemma fields_snd i fields : map snd (map (fun k : nat * skind => (i + Z.of_nat (fst k), snd k)) (combine (seq 0 (length fields)) fields)) = fields.
Proof. rewrite map_map. cbn [snd]. apply combine_snd. apply seq_length. Qed.
Lemma ptr_loop_fst fields n : forall i, map fst (ptr_loop n i fields) = zrange i (Z.of_nat n * lenZ fields).
Proof. induction n as [|n IH]; intro i; [reflexivity|]. cbn [ptr_loop]. rewrite map_app, fields_fst, IH.
  replace (Z.of_nat (S n) * lenZ fields) with (lenZ fields + Z.of_nat n * lenZ fields) by lia.
  rewrite zrange_app by (unfold lenZ; lia). reflexivity. Qed.
Lemma flat_const {A B} (f : B) (l : list A) : True. Proof. exact I. Qed.
Lemma ptr_loop_snd fields n : forall i, map snd (ptr_loop n i fields) = flat_map (fun _ : Z => fields) (zrange 0 (Z.of_nat n)).
Proof. induction n as [|n IH]; intro i; [reflexivity|]. cbn [ptr_loop]. rewrite map_app, fields_snd, IH.
  rewrite Nat2Z.inj_succ. unfold Z.succ. rewrite zrange_cons by lia. cbn [flat_map]. f_equal.
  rewrite !flat_map_concat_map. f_equal. unfold zrange. rewrite !map_map. reflexivity. Qed.
Lemma base_loop_eq n base fields : 0 <= n -> base_loop n base fields = ptr_loop (Z.to_nat n) base fields.
Proof.
  intro Hn. unfold base_loop.
  assert (forall m s, flat_map (fun i => map (fun k : nat * skind => (base + i * Z.of_nat (length fields) + Z.of_nat (fst k), snd k))
                           (combine (seq 0 (length fields)) fields)) (zrange s (Z.of_nat m)) = ptr_loop m (base + s * lenZ fields) fields) as H.
  { induction m as [|m IH]; intro s; [reflexivity|]. rewrite Nat2Z.inj_succ. unfold Z.succ. rewrite zrange_cons by lia.
    cbn [flat_map ptr_loop]. rewrite IH. unfold lenZ. f_equal. f_equal. ring. }
  rewrite <- (Z2Nat.id n) at 1 by auto. rewrite H. f_equal. lia.
Qed.

Section Prog.
  Context (p : problem).
  Hypothesis Hok : problem_ok p.

  Lemma unpack_vec_eq : unpack_vec_prog p = pack_vec_prog p.
  Proof.
    destruct Hok as (_ & _ & H1 & H2 & H3 & _).
    unfold unpack_vec_prog, pack_vec_prog. rewrite !base_loop_eq by lia. reflexivity.
  Qed.

  Lemma aligned_app a b i : aligned a i -> aligned b (i + lenZ a) -> aligned (a ++ b) i.
  Proof. unfold aligned. intros A B. rewrite map_app, A, B, lenZ_app, zrange_app by (unfold lenZ; lia). reflexivity. Qed.
  Lemma ptr_loop_aligned n i f : aligned (ptr_loop n i f) i.
  Proof. unfold aligned. rewrite ptr_loop_fst. f_equal.
    rewrite <- (lenZ_map fst (ptr_loop n i f)), ptr_loop_fst, lenZ_zrange; [reflexivity|]. unfold lenZ; lia. Qed.
  Lemma aligned_nil i : aligned [] i. Proof. reflexivity. Qed.
  Lemma pack_vec_aligned : aligned (pack_vec_prog p) 0.
  Proof.
    unfold pack_vec_prog.
    repeat (apply aligned_app; [|rewrite Z.add_0_l;
      match goal with |- aligned (if ?c then _ else _) _ => destruct c; [apply ptr_loop_aligned|apply aligned_nil] end]).
    unfold aligned. rewrite idx_scales_fst. f_equal.
    rewrite <- (lenZ_map snd (idx_scales (subset_scales p))), idx_scales_snd. reflexivity.
  Qed.

  Lemma map_flat {A B C} (g : B -> C) (f : A -> list B) l : map g (flat_map f l) = flat_map (fun a => map g (f a)) l.
  Proof. induction l; simpl; auto. now rewrite map_app, IHl. Qed.

  Lemma subset_scales_eq : subset_scales p = map snd (pack_intr_prog p).
  Proof.
    unfold subset_scales, pack_intr_prog. rewrite map_flat.
    destruct (do_core (p_sel p)), (do_dist (p_sel p)); cbn [negb andb]; unfold has_core;
    try (apply flat_map_ext; intro; cbn [map snd app]; rewrite ?map_map; reflexivity).
    induction (zrange 0 (p_Nci p)); simpl; auto.
  Qed.
  Lemma pack_vec_scales : map snd (pack_vec_prog p) = map snd (pack_struct_prog p).
  Proof.
    destruct Hok as (_ & _ & H1 & H2 & H3 & _).
    unfold pack_vec_prog, pack_struct_prog. rewrite !map_app, idx_scales_snd, subset_scales_eq, <- !app_assoc.
    f_equal. f_equal; [|destruct (do_frames (p_sel p)); rewrite ?map_app, <- ?app_assoc; cbn [app]; f_equal; [|f_equal|]].
    - destruct (do_ext (p_sel p)); [|reflexivity]. rewrite ptr_loop_snd, map_flat, Z2Nat.id by lia. reflexivity.
    - rewrite ptr_loop_snd, map_flat, Z2Nat.id by lia. reflexivity.
    - rewrite ptr_loop_snd, map_flat, Z2Nat.id by lia. reflexivity.
    - destruct (has_warp p); reflexivity.
    - destruct (has_warp p); reflexivity.
  Qed.

  (** ** positions *)
  Lemma nth_error_flat {B} (f : Z -> list B) n k : 0 <= k -> (forall i, lenZ (f i) = k) ->
    forall s i j, 0 <= i < n -> 0 <= j < k ->
    nth_error (flat_map f (zrange s n)) (Z.to_nat (i * k + j)) = nth_error (f (s + i)) (Z.to_nat j).
  Proof.
    intros Hk Hf. destruct (Z.le_gt_cases 0 n) as [Hn|Hn]; [|intros; lia].
    pattern n. apply natlike_ind; auto; [intros; lia|].
    intros m Hm IH s i j Hi Hj. unfold Z.succ. rewrite zrange_cons by lia. cbn [flat_map].
    pose proof (Hf s) as Hl. unfold lenZ in Hl.
    destruct (Z.eq_dec i 0) as [->|Hi0].
    - rewrite nth_error_app1 by lia. rewrite Z.add_0_r. do 2 f_equal; lia.
    - rewrite nth_error_app2 by nia.
      replace (Z.to_nat (i * k + j) - length (f s))%nat with (Z.to_nat ((i - 1) * k + j)) by nia.
      rewrite IH by lia. do 2 f_equal. lia.
  Qed.
  Lemma lenZ_flat {B} (f : Z -> list B) n k : 0 <= n -> (forall i, lenZ (f i) = k) -> lenZ (flat_map f (zrange 0 n)) = n * k.
  Proof. intros. rewrite (lenZ_flat_map_const _ _ k) by auto. now rewrite lenZ_zrange. Qed.
  Lemma nth_error_map_zrange {B} (f : Z -> B) n j : 0 <= j < n -> nth_error (map f (zrange 0 n)) (Z.to_nat j) = Some (f j).
  Proof. intro H. unfold zrange. rewrite map_map. rewrite nth_error_map.
    rewrite (nth_error_nth' _ 0%nat) by (rewrite seq_length; lia). rewrite seq_nth by lia. cbn. f_equal. f_equal. lia. Qed.

  Let blk (icam : Z) : list (loc * skind) :=
      (if do_core (p_sel p) && has_core (p_lens p) then
         [(LIntr (icam * num_params (p_lens p) + 0), S_focal); (LIntr (icam * num_params (p_lens p) + 1), S_focal);
          (LIntr (icam * num_params (p_lens p) + 2), S_center); (LIntr (icam * num_params (p_lens p) + 3), S_center)] else []) ++
      (if do_dist (p_sel p) then map (fun i => (LIntr (icam * num_params (p_lens p) + ((if has_core (p_lens p) then 4 else 0) + i)), S_dist))
             (zrange 0 (num_params (p_lens p) - (if has_core (p_lens p) then 4 else 0))) else []).
  Lemma blk_len i : lenZ (blk i) = item_size p (SI_intr 0).
  Proof. pose proof (num_params_ge4 _ (proj1 Hok)). unfold blk, item_size, has_core.
    rewrite lenZ_app. destruct (do_core (p_sel p)), (do_dist (p_sel p)); cbn [andb];
    rewrite ?lenZ_map, ?lenZ_zrange by lia; unfold lenZ; cbn [length]; lia. Qed.
  Lemma intr_prog_len : lenZ (pack_intr_prog p) = num_states_intrinsics p.
  Proof. rewrite nsi_eq. unfold pack_intr_prog. apply (lenZ_flat blk); [apply Hok|apply blk_len]. Qed.

  Lemma mod_lin i N j : 0 < N -> 0 <= j < N -> (i * N + j) mod N = j.
  Proof. intros. rewrite Z.add_comm, Z.mod_add by lia. apply Z.mod_small; auto. Qed.
  Lemma blk_nth i j : 0 <= i < p_Nci p -> 0 <= j < item_size p (SI_intr 0) ->
    nth_error (blk i) (Z.to_nat j) = Some (item_loc p (SI_intr i) j, scale_of p (item_loc p (SI_intr i) j)).
  Proof.
    pose proof (num_params_ge4 _ (proj1 Hok)) as G. intros Hi Hj.
    unfold blk, item_loc, scale_of, item_size, has_core in *.
    destruct (do_core (p_sel p)) eqn:Ec; cbn [andb].
    - destruct (Z.lt_ge_cases j 4) as [H4|H4].
      + rewrite nth_error_app1 by (cbn [length]; lia). rewrite mod_lin by lia.
        assert (j = 0 \/ j = 1 \/ j = 2 \/ j = 3) as [->|[->|[->| ->]]] by lia; reflexivity.
      + rewrite nth_error_app2 by (cbn [length]; lia). cbn [length].
        replace (Z.to_nat j - 4)%nat with (Z.to_nat (j - 4)) by lia.
        destruct (do_dist (p_sel p)) eqn:Ed; [|lia]. rewrite nth_error_map_zrange by lia. rewrite mod_lin by lia.
        destruct (j <? 2) eqn:E2; [lia|]. destruct (j <? 4) eqn:E4; [lia|]. do 4 f_equal. lia.
    - destruct (do_dist (p_sel p)) eqn:Ed; [|lia]. cbn [app]. rewrite nth_error_map_zrange by lia.
      rewrite mod_lin by lia. destruct (j + 4 <? 2) eqn:E2; [lia|]. destruct (j + 4 <? 4) eqn:E4; [lia|]. do 4 f_equal. lia.
  Qed.

  Let xblk i := [(LExt (6*i+0), S_rot_cam); (LExt (6*i+1), S_rot_cam); (LExt (6*i+2), S_rot_cam);
                           (LExt (6*i+3), S_trans_cam); (LExt (6*i+4), S_trans_cam); (LExt (6*i+5), S_trans_cam)].
  Let fblk i := [(LFrame (6*i+0), S_rot_frame); (LFrame (6*i+1), S_rot_frame); (LFrame (6*i+2), S_rot_frame);
                           (LFrame (6*i+3), S_trans_frame); (LFrame (6*i+4), S_trans_frame); (LFrame (6*i+5), S_trans_frame)].
  Let pblk i := [(LPoint (3*i+0), S_point); (LPoint (3*i+1), S_point); (LPoint (3*i+2), S_point)].
  Let xprog := if do_ext (p_sel p) then flat_map xblk (zrange 0 (p_Nce p)) else [].
  Let fprog := if do_frames (p_sel p) then flat_map fblk (zrange 0 (p_Nframes p)) else [].
  Let pprog := if do_frames (p_sel p) then flat_map pblk (zrange 0 (p_Npoints p - p_Npoints_fixed p)) else [].
  Let wprog := if has_warp p then [(LWarp 0, S_warp); (LWarp 1, S_warp)] else [].
  Lemma prog_split : pack_struct_prog p = pack_intr_prog p ++ xprog ++ fprog ++ pprog ++ wprog.
  Proof. unfold pack_struct_prog, fprog, pprog. destruct (do_frames (p_sel p)); [rewrite <- app_assoc; reflexivity|reflexivity]. Qed.
  Lemma xlen : lenZ xprog = num_states_extrinsics p.
  Proof. unfold xprog, num_states_extrinsics. destruct (do_ext (p_sel p)); [|reflexivity].
    rewrite (lenZ_flat xblk _ 6); [ring|apply Hok|reflexivity]. Qed.
  Lemma flen : lenZ fprog = num_states_frames p.
  Proof. unfold fprog, num_states_frames. destruct (do_frames (p_sel p)); [|reflexivity].
    rewrite (lenZ_flat fblk _ 6); [ring|apply Hok|reflexivity]. Qed.
  Lemma plen' : lenZ pprog = num_states_points p.
  Proof. unfold pprog, num_states_points. destruct (do_frames (p_sel p)); [|reflexivity].
    rewrite (lenZ_flat pblk _ 3); [ring| |reflexivity]. destruct Hok as (_ & _ & _ & _ & H & _). lia. Qed.
  Lemma wlen : lenZ wprog = num_states_warp p.
  Proof. unfold wprog, num_states_warp. destruct (has_warp p); reflexivity. Qed.
  Lemma prog_len : lenZ (pack_struct_prog p) = num_states p.
  Proof. rewrite prog_split, !lenZ_app, intr_prog_len, xlen, flen, plen', wlen. unfold num_states. ring. Qed.

  Lemma nth_app_r {B} (a b : list B) j : 0 <= j -> nth_error (a ++ b) (Z.to_nat (lenZ a + j)) = nth_error b (Z.to_nat j).
  Proof. intro. rewrite nth_error_app2 by (unfold lenZ; lia). f_equal. unfold lenZ. lia. Qed.
  Lemma nth_app_l {B} (a b : list B) j r : nth_error a (Z.to_nat j) = Some r -> nth_error (a ++ b) (Z.to_nat j) = Some r.
  Proof. intro E. rewrite nth_error_app1; auto. apply nth_error_Some. congruence. Qed.

  Lemma six_cases j : 0 <= j < 6 -> j = 0 \/ j = 1 \/ j = 2 \/ j = 3 \/ j = 4 \/ j = 5.
  Proof. lia. Qed.

  Lemma prog_position it j : optimized p it -> 0 <= j < item_size p it ->
    nth_error (pack_struct_prog p) (Z.to_nat (state_index p it + j)) = Some (item_loc p it j, scale_of p (item_loc p it j)).
  Proof.
    intros Ho Hj. pose proof (regions_ordered p Hok) as HR. rewrite (state_index_closed p it Hok Ho), prog_split.
    rewrite <- intr_prog_len, <- xlen, <- flen, <- plen' in *.
    destruct it as [i|i|i|i|]; cbn [optimized] in Ho; cbn [item_size] in Hj.
    - apply nth_app_l. unfold pack_intr_prog.
      pose proof (nth_error_flat blk (p_Nci p) (item_size p (SI_intr 0)) (intr_size_nonneg p 0 Hok) blk_len 0 i j (proj1 Ho) Hj) as E.
      etransitivity; [exact E|]. rewrite Z.add_0_l. apply blk_nth; [tauto|exact Hj].
    - rewrite <- Z.add_assoc, nth_app_r by lia. apply nth_app_l. unfold xprog. rewrite (proj2 Ho).
      rewrite (nth_error_flat xblk _ 6 ltac:(lia) ltac:(reflexivity) 0 i j (proj1 Ho) Hj). unfold xblk, item_loc, scale_of.
      replace (6 * i + j) with (i * 6 + j) by ring. rewrite mod_lin by lia. rewrite Z.add_0_l.
      apply six_cases in Hj. destruct Hj as [->|[->|[->|[->|[->| ->]]]]]; rewrite ?(Z.mul_comm i 6); reflexivity.
    - rewrite <- !Z.add_assoc, nth_app_r by lia. rewrite nth_app_r by lia. apply nth_app_l. unfold fprog. rewrite (proj2 Ho).
      rewrite (nth_error_flat fblk _ 6 ltac:(lia) ltac:(reflexivity) 0 i j (proj1 Ho) Hj). unfold fblk, item_loc, scale_of.
      replace (6 * i + j) with (i * 6 + j) by ring. rewrite mod_lin by lia. rewrite Z.add_0_l.
      apply six_cases in Hj. destruct Hj as [->|[->|[->|[->|[->| ->]]]]]; rewrite ?(Z.mul_comm i 6); reflexivity.
    - rewrite <- !Z.add_assoc, nth_app_r by lia. rewrite nth_app_r by lia. rewrite nth_app_r by lia. apply nth_app_l. unfold pprog. rewrite (proj2 Ho).
      rewrite (nth_error_flat pblk _ 3 ltac:(lia) ltac:(reflexivity) 0 i j (proj1 Ho) Hj). unfold pblk, item_loc, scale_of.
      rewrite Z.add_0_l. assert (j = 0 \/ j = 1 \/ j = 2) as [->|[->| ->]] by lia; rewrite ?(Z.mul_comm i 6); reflexivity.
    - rewrite <- !Z.add_assoc, nth_app_r by lia. rewrite nth_app_r by lia. rewrite nth_app_r by lia. rewrite nth_app_r by lia.
      unfold wprog. rewrite (proj2 (has_warp_iff p) Ho).
      assert (j = 0 \/ j = 1) as [->| ->] by lia; reflexivity.
  Qed.

  Lemma item_loc_inj it it' j j' : optimized p it -> optimized p it' -> 0 <= j < item_size p it -> 0 <= j' < item_size p it' ->
    item_loc p it j = item_loc p it' j' -> it = it' /\ j = j'.
  Proof.
    pose proof (num_params_ge4 _ (proj1 Hok)) as G. intros Ho Ho' Hj Hj' E.
    destruct it as [i|i|i|i|], it' as [i'|i'|i'|i'|]; cbn [item_loc] in E; try discriminate E; cbn [item_size] in Hj, Hj'.
    - set (o := if do_core (p_sel p) then 0 else 4).
      assert (0 <= j + o < num_params (p_lens p) /\ 0 <= j' + o < num_params (p_lens p)) as (B & B')
       by (unfold o; destruct (do_core (p_sel p)), (do_dist (p_sel p)); lia).
      assert (i * num_params (p_lens p) + (j + o) = i' * num_params (p_lens p) + (j' + o)) as E'
       by (unfold o; destruct (do_core (p_sel p)); [assert (i * num_params (p_lens p) + j = i' * num_params (p_lens p) + j') by congruence | assert (i * num_params (p_lens p) + (j + 4) = i' * num_params (p_lens p) + (j' + 4)) by congruence]; lia).
      assert (i = i') by (apply (div_unique i i' (num_params (p_lens p)) (i * num_params (p_lens p) + (j + o))); lia).
      subst i'. split; [reflexivity|lia].
    - assert (6 * i + j = 6 * i' + j') as E0 by congruence. assert (i = i') by lia. subst. split; [reflexivity|lia].
    - assert (6 * i + j = 6 * i' + j') as E0 by congruence. assert (i = i') by lia. subst. split; [reflexivity|lia].
    - assert (3 * i + j = 3 * i' + j') as E0 by congruence. assert (i = i') by lia. subst. split; [reflexivity|lia].
    - injection E as E. auto.
  Qed.

  Lemma prog_entry k l s : nth_error (pack_struct_prog p) k = Some (l, s) ->
    exists it j, optimized p it /\ 0 <= j < item_size p it /\ Z.of_nat k = state_index p it + j /\ l = item_loc p it j /\ s = scale_of p l.
  Proof.
    intro E. assert (0 <= Z.of_nat k < num_states p) as Hk.
    { rewrite <- prog_len. unfold lenZ. assert (k < length (pack_struct_prog p))%nat by (apply nth_error_Some; congruence). lia. }
    destruct (state_cover p (Z.of_nat k) Hok Hk) as (it & Ho & Hr).
    exists it, (Z.of_nat k - state_index p it).
    pose proof (prog_position it (Z.of_nat k - state_index p it) Ho ltac:(lia)) as P.
    replace (Z.to_nat (state_index p it + (Z.of_nat k - state_index p it))) with k in P by lia.
    rewrite P in E. injection E as <- <-. repeat split; auto; lia.
  Qed.

  Lemma prog_nodup : NoDup (map fst (pack_struct_prog p)).
  Proof.
    apply NoDup_nth_error. intros a b Ha E. rewrite map_length in Ha. rewrite !nth_error_map in E.
    destruct (nth_error (pack_struct_prog p) a) as [(la, sa)|] eqn:Ea; [|apply nth_error_None in Ea; lia].
    destruct (nth_error (pack_struct_prog p) b) as [(lb, sb)|] eqn:Eb; [|discriminate].
    cbn in E. injection E as ->. apply prog_entry in Ea, Eb.
    destruct Ea as (it & j & O1 & R1 & P1 & -> & _), Eb as (it' & j' & O2 & R2 & P2 & E2 & _).
    destruct (item_loc_inj it it' j j') as (-> & ->); auto. lia.
  Qed.

  Lemma locked_iff l : locked p l <-> ~ In l (map fst (pack_struct_prog p)).
  Proof.
    pose proof (num_params_ge4 _ (proj1 Hok)) as G.
    assert (In l (map fst (pack_struct_prog p)) <-> exists it j, optimized p it /\ 0 <= j < item_size p it /\ l = item_loc p it j) as H.
    { split.
      - intro Hin. apply in_map_iff in Hin. destruct Hin as ((l', s) & <- & Hin). apply In_nth_error in Hin. destruct Hin as (k & E).
        apply prog_entry in E. destruct E as (it & j & O & R & _ & -> & _). exists it, j. auto.
      - intros (it & j & O & R & ->). pose proof (prog_position it j O R) as P. apply nth_error_In in P.
        apply (in_map fst) in P. exact P. }
    rewrite H. clear H. split.
    - intros HL (it & j & O & R & ->). destruct it as [i|i|i|i|]; cbn [item_loc locked optimized item_size] in *.
      + destruct O as (Oi & O).
        set (o := if do_core (p_sel p) then 0 else 4).
        assert (0 <= j + o < num_params (p_lens p)) as B by (unfold o; destruct (do_core (p_sel p)), (do_dist (p_sel p)); lia).
        assert ((if do_core (p_sel p) then j else j + 4) = j + o) as E by (unfold o; destruct (do_core (p_sel p)); lia).
        rewrite E in HL. rewrite mod_lin in HL by lia.
        destruct HL as [HL|[(H1 & H2)|(H1 & H2)]].
        * apply HL. destruct (mul_fits i (num_params (p_lens p)) (p_Nci p)); lia.
        * unfold o in H1. rewrite H2 in H1. lia.
        * rewrite H2 in R. unfold o in H1. destruct (do_core (p_sel p)); lia.
      + destruct O as (Oi & O). destruct HL as [HL|HL]; [lia|congruence].
      + destruct O as (Oi & O). destruct HL as [HL|HL]; [lia|congruence].
      + destruct O as (Oi & O). destruct HL as [HL|HL]; [lia|congruence].
      + destruct O as (O1 & O2). destruct HL as [HL|[HL|HL]]; [lia|congruence|congruence].
    - intro HN. destruct l as [i|i|i|i|i]; cbn [locked].
      + destruct (Z_le_dec 0 i) as [H0|]; [|left; lia]. destruct (Z_lt_dec i (p_Nci p * num_params (p_lens p))) as [H1|]; [|left; lia]. right.
        destruct (div_exists (num_params (p_lens p)) i (p_Nci p) ltac:(lia) ltac:(lia)) as (c & Hc & Hi).
        assert (exists m, i = c * num_params (p_lens p) + m /\ 0 <= m < num_params (p_lens p)) as (m & Ei & Hmr)
          by (exists (i - c * num_params (p_lens p)); lia).
        rewrite Ei, mod_lin by lia. destruct (Z_lt_dec m 4) as [Hm|Hm].
        * left. split; [auto|]. destruct (do_core (p_sel p)) eqn:Ec; [|reflexivity]. exfalso. apply HN.
          exists (SI_intr c), m. cbn [optimized item_size item_loc]. rewrite Ec.
          split; [split; [exact Hc|left; reflexivity]|]. split; [destruct (do_dist (p_sel p)); lia|congruence].
        * right. split; [lia|]. destruct (do_dist (p_sel p)) eqn:Ed; [|reflexivity]. exfalso. apply HN.
          exists (SI_intr c), (if do_core (p_sel p) then m else m - 4). cbn [optimized item_size item_loc]. rewrite Ed.
          split; [split; [exact Hc|right; split; [reflexivity|lia]]|].
          destruct (do_core (p_sel p)); (split; [lia|f_equal; lia]).
      + destruct (do_ext (p_sel p)) eqn:E; [|right; reflexivity]. left. intro Hi. apply HN.
        destruct (div_exists 6 i (p_Nce p) ltac:(lia) Hi) as (c & Hc & Hi'). exists (SI_ext c), (i - c * 6).
        cbn [optimized item_size item_loc]. repeat split; try lia; auto. f_equal. lia.
      + destruct (do_frames (p_sel p)) eqn:E; [|right; reflexivity]. left. intro Hi. apply HN.
        destruct (div_exists 6 i (p_Nframes p) ltac:(lia) Hi) as (c & Hc & Hi'). exists (SI_frame c), (i - c * 6).
        cbn [optimized item_size item_loc]. repeat split; try lia; auto. f_equal. lia.
      + destruct (do_frames (p_sel p)) eqn:E; [|right; reflexivity]. left. intro Hi. apply HN.
        destruct (div_exists 3 i (p_Npoints p - p_Npoints_fixed p) ltac:(lia) Hi) as (c & Hc & Hi'). exists (SI_point c), (i - c * 3).
        cbn [optimized item_size item_loc]. repeat split; try lia; auto. f_equal. lia.
      + destruct (Z_le_dec 0 i) as [H0|]; [|left; lia]. destruct (Z_lt_dec i 2) as [H1|]; [|left; lia]. right.
        destruct (do_warp (p_sel p)) eqn:E; [|left; reflexivity]. right.
        destruct (p_boards p) eqn:Eb; [reflexivity|]. exfalso. apply HN. exists SI_warp, i.
        cbn [optimized item_size item_loc]. rewrite Eb. repeat split; auto; try lia; congruence.
  Qed.

  (** ** the routines *)
  Lemma vec_entry k : 0 <= k < num_states p -> exists x l s,
    nth_error (pack_vec_prog p) (Z.to_nat k) = Some (x, s) /\ nth_error (pack_struct_prog p) (Z.to_nat k) = Some (l, s).
  Proof.
    intro Hk. assert (length (pack_vec_prog p) = length (pack_struct_prog p)) as El
      by (rewrite <- (map_length snd (pack_vec_prog p)), pack_vec_scales; apply map_length).
    pose proof prog_len as PL. unfold lenZ in PL.
    destruct (nth_error (pack_struct_prog p) (Z.to_nat k)) as [(l, s)|] eqn:E1; [|apply nth_error_None in E1; lia].
    destruct (nth_error (pack_vec_prog p) (Z.to_nat k)) as [(x, s')|] eqn:E2; [|apply nth_error_None in E2; lia].
    pose proof (f_equal (fun l => nth_error l (Z.to_nat k)) pack_vec_scales) as E. cbv beta in E. rewrite !nth_error_map, E1, E2 in E.
    cbn in E. injection E as ->. exists x, l, s. auto.
  Qed.
  Lemma vec_len : lenZ (pack_vec_prog p) = num_states p.
  Proof. rewrite <- prog_len, <- (lenZ_map snd (pack_vec_prog p)), pack_vec_scales, lenZ_map. reflexivity. Qed.

  Lemma pack_vec_val b k : 0 <= k < num_states p -> exists s, nth_error (map snd (pack_struct_prog p)) (Z.to_nat k) = Some s /\
    pack_vec p b k = (b k / scale s)%R /\ unpack_vec p b k = (b k * scale s)%R.
  Proof.
    intro Hk. destruct (vec_entry k Hk) as (x & l & s & E1 & E2). exists s. rewrite nth_error_map, E2. split; [reflexivity|].
    unfold pack_vec, unpack_vec. rewrite unpack_vec_eq. split.
    - apply (exec_pack_vec_in _ _ _ _ x); [apply pack_vec_aligned|lia|]. now rewrite Z.sub_0_r.
    - apply (exec_unpack_vec_in _ _ _ _ x); [apply pack_vec_aligned|lia|]. now rewrite Z.sub_0_r.
  Qed.
  Lemma vec_untouched b k : ~ (0 <= k < num_states p) -> pack_vec p b k = b k /\ unpack_vec p b k = b k.
  Proof. intro Hk. unfold pack_vec, unpack_vec. rewrite unpack_vec_eq. split.
    - apply exec_pack_vec_out. rewrite vec_len. lia.
    - apply exec_unpack_vec_out; [apply pack_vec_aligned|]. rewrite vec_len. lia. Qed.

  Lemma pack_struct_val s b it j : optimized p it -> 0 <= j < item_size p it ->
    pack_struct p s b (state_index p it + j) = (s (item_loc p it j) / scale (scale_of p (item_loc p it j)))%R.
  Proof. intros Ho Hj. unfold pack_struct. destruct (state_in_range p it Hok Ho). apply exec_pack_struct_in; [lia|]. rewrite Z.sub_0_r.
    now apply prog_position. Qed.
  Lemma pack_struct_untouched s b k : ~ (0 <= k < num_states p) -> pack_struct p s b k = b k.
  Proof. intro. apply exec_pack_struct_out. rewrite prog_len. lia. Qed.
  Lemma unpack_struct_val b s it j : optimized p it -> 0 <= j < item_size p it ->
    unpack_struct p b s (item_loc p it j) = (b (state_index p it + j)%Z * scale (scale_of p (item_loc p it j)))%R.
  Proof. intros Ho Hj. unfold unpack_struct. rewrite unpack_pack_prog. destruct (state_in_range p it Hok Ho).
    rewrite (exec_unpack_struct_in _ _ prog_nodup 0 s _ _ _ (prog_position it j Ho Hj)). do 2 f_equal. lia. Qed.
  Lemma unpack_struct_locked b s l : locked p l -> unpack_struct p b s l = s l.
  Proof. intro H. unfold unpack_struct. rewrite unpack_pack_prog. apply exec_unpack_struct_out. now apply locked_iff. Qed.

  Lemma vec_roundtrip b k : unpack_vec p (pack_vec p b) k = b k /\ pack_vec p (unpack_vec p b) k = b k.
  Proof.
    destruct (Z_le_dec 0 k) as [H0|H0]; [destruct (Z_lt_dec k (num_states p)) as [H1|H1]|].
    - assert (0 <= k < num_states p) as Hk by lia.
      destruct (pack_vec_val b k Hk) as (s & E & P1 & U1).
      destruct (pack_vec_val (pack_vec p b) k Hk) as (s2 & E2 & _ & U2).
      destruct (pack_vec_val (unpack_vec p b) k Hk) as (s3 & E3 & P3 & _).
      rewrite E in E2, E3. injection E2 as <-. injection E3 as <-. pose proof (scale_pos s).
      rewrite U2, P1, P3, U1. split; field; lra.
    - destruct (vec_untouched b k ltac:(lia)) as (A & B).
      rewrite (proj2 (vec_untouched (pack_vec p b) k ltac:(lia))), (proj1 (vec_untouched (unpack_vec p b) k ltac:(lia))). auto.
    - destruct (vec_untouched b k ltac:(lia)) as (A & B).
      rewrite (proj2 (vec_untouched (pack_vec p b) k ltac:(lia))), (proj1 (vec_untouched (unpack_vec p b) k ltac:(lia))). auto.
  Qed.

  Lemma struct_roundtrip_vec b s b0 k : 0 <= k < num_states p -> pack_struct p (unpack_struct p b s) b0 k = b k.
  Proof.
    intro Hk. destruct (state_cover p k Hok Hk) as (it & Ho & Hr).
    replace k with (state_index p it + (k - state_index p it)) by lia.
    rewrite pack_struct_val by (auto; lia). rewrite unpack_struct_val by (auto; lia).
    pose proof (scale_pos (scale_of p (item_loc p it (k - state_index p it)))). field. lra.
  Qed.
  Lemma struct_roundtrip s b0 l : unpack_struct p (pack_struct p s b0) s l = s l.
  Proof.
    destruct (in_dec loc_eq_dec l (map fst (pack_struct_prog p))) as [Hin|Hn].
    - apply in_map_iff in Hin. destruct Hin as ((l', k) & E & Hin). cbn in E. subst l'. apply In_nth_error in Hin. destruct Hin as (n & E).
      apply prog_entry in E. destruct E as (it & j & O & R & _ & -> & _).
      rewrite unpack_struct_val, pack_struct_val by auto. pose proof (scale_pos (scale_of p (item_loc p it j))). field. lra.
    - apply unpack_struct_locked. now apply locked_iff.
  Qed.
  Lemma two_packers s b b0 : (forall it j, optimized p it -> 0 <= j < item_size p it -> b (state_index p it + j) = s (item_loc p it j)) ->
    forall k, 0 <= k < num_states p -> pack_vec p b k = pack_struct p s b0 k.
  Proof.
    intros Hb k Hk. destruct (state_cover p k Hok Hk) as (it & Ho & Hr).
    destruct (pack_vec_val b k Hk) as (sc & E & P1 & _). rewrite P1.
    replace k with (state_index p it + (k - state_index p it)) in * by lia.
    rewrite pack_struct_val, Hb by (auto; lia). rewrite nth_error_map, (prog_position it _ Ho) in E by lia. cbn in E. injection E as <-. reflexivity.
  Qed.
End Prog.
