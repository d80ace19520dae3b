(** Proofs for the cross-reprojection accumulation: algebra of one chunk. *)
From Coq Require Import ZArith List Bool Reals Lra Lia Arith.
From Verif Require Import M_Lens M_Layout M_Pack M_Callback S_Layout P_Layout S_Vec M_Pose S_Cross M_Cross.
Import ListNotations.
Open Scope R_scope.

Ltac six i H := destruct i as [|[|[|[|[|[|i]]]]]]; [| | | | | |exfalso; clear - H; lia].
Ltac three i H := destruct i as [|[|[|i]]]; [| | |exfalso; clear - H; lia].

Lemma idx_lt : forall i j, (i <= j < 6)%nat -> (index_sym66_assume_upper i j < 21)%nat.
Proof. intros i j H. assert (i < 6)%nat as Hi by lia. assert (j < 6)%nat as Hj by lia. six i Hi; six j Hj; cbn; lia. Qed.

(** the packed upper triangle *)
Lemma add_upper6 : forall S x i j, (i < 6)%nat -> (j < 6)%nat ->
  add_upper 6 S x (index_sym66 i j) = S (index_sym66 i j) + x i * x j.
Proof.
  intros S x i j Hi Hj. six i Hi; six j Hj; cbn -[Rplus Rmult]; ring.
Qed.
Lemma add_upper3 : forall S x i j, (i < 3)%nat -> (j < 3)%nat ->
  add_upper 3 S x (index_sym33 i j) = S (index_sym33 i j) + x i * x j.
Proof.
  intros S x i j Hi Hj. three i Hi; three j Hj; cbn -[Rplus Rmult]; ring.
Qed.

Section RtAlgebra.
  Context (b : Z -> R) (c : Z) (sr st : R).
  Let dr := compose_r_tinyr0_gradientr0.
  Let jc (x : nat -> R) := cross_pose dr b c sr st x.

  Lemma jc_expand : forall x k, (k < 6)%nat -> jc x k =
    let D := dr (vec_at b c sr) in let t := vec_at b (c + 3)%Z st in
    if (k <? 3)%nat then x 0%nat * / sr * mget D 0 k + x 1%nat * / sr * mget D 1 k + x 2%nat * / sr * mget D 2 k
                         - (x 3%nat * / st * mget (skew t) 0 k + x 4%nat * / st * mget (skew t) 1 k + x 5%nat * / st * mget (skew t) 2 k)
    else x k * / st.
  Proof.
    intros x k H. unfold jc, cross_pose, Rdiv. cbv zeta. generalize (dr (vec_at b c sr)) as D. intro D. generalize (vec_at b (c + 3)%Z st) as t. intro t.
    six k H; unfold sum_n, G_pose, delta; cbn -[Rplus Rmult Rinv Ropp mget]; ring.
  Qed.

  Lemma t_eq : V3 (b (c + 3)%Z * st) (b (c + 4)%Z * st) (b (c + 5)%Z * st) = vec_at b (c + 3) st.
  Proof. unfold vec_at. repeat (f_equal; try lia). Qed.

  Ltac expand := rewrite ?jc_expand by lia; cbv zeta; generalize (dr (vec_at b c sr)) as D; intro D; generalize (vec_at b (c + 3)%Z st) as t; intro t.
  Ltac open := unfold rt_this, rt_A, rt_B, mul_gen33_gen33insym66, set_gen33_from_gen33insym66, skew_times; rewrite t_eq;
    change (V3 (b c * sr) (b (c + 1)%Z * sr) (b (c + 2)%Z * sr)) with (vec_at b c sr); change compose_r_tinyr0_gradientr0 with dr.

  Lemma rt_this_add : forall Sm x i j, (i < 6)%nat -> (j < 6)%nat ->
    rt_this (add_upper 6 Sm x) b c sr st i j = rt_this Sm b c sr st i j + jc x i * x j.
  Proof.
    intros Sm x i j Hi Hj. open. expand.
    six i Hi; six j Hj; cbn -[Rplus Rmult Rinv Ropp Rdiv add_upper index_sym66 mget]; rewrite !add_upper6 by lia; unfold skew, mget, mrow, vget; cbn -[Rplus Rmult Rinv Ropp Rdiv add_upper index_sym66 ]; unfold Rdiv; ring.
  Qed.
  Lemma rt_this_zero : forall i j, rt_this z1 b c sr st i j = 0.
  Proof.
    intros i j. unfold rt_this, rt_A, rt_B, mul_gen33_gen33insym66, set_gen33_from_gen33insym66, skew_times, z1, Rdiv.
    destruct (i <? 3)%nat, (j <? 3)%nat; try ring; destruct i as [|[|i]]; ring.
  Qed.
  Definition thing Sm i j := Jcross_t__Jpackedthing (vec_at b (c + 3)%Z st) (dr (vec_at b c sr)) sr st Sm i j.
  Lemma thing_add : forall Sm x y i j, (i < 6)%nat ->
    thing (add_dense Sm x y) i j = thing Sm i j + jc x i * y j.
  Proof.
    intros Sm x y i j Hi. unfold thing, Jcross_t__Jpackedthing, skew_times, add_dense. expand.
    six i Hi; unfold skew, mget, mrow, vget; cbn -[Rplus Rmult Rinv Ropp Rdiv]; unfold Rdiv; ring.
  Qed.
  Lemma thing_zero : forall i j, thing z2 i j = 0.
  Proof. intros i j. unfold thing, Jcross_t__Jpackedthing, skew_times, z2, Rdiv. destruct (i <? 3)%nat; [|ring]. destruct i as [|[|i]]; ring. Qed.

  Definition JtJ_inc (Sm : nat -> R) (i j : nat) : R :=
    let A := rt_A Sm b c sr st in let B := rt_B Sm b c sr st in let D := dr (vec_at b c sr) in let t := vec_at b (c + 3)%Z st in
    if (j <? 3)%nat then (A i 0%nat * mget D 0 j + A i 1%nat * mget D 1 j + A i 2%nat * mget D 2 j) * / sr - times_skew B t i j * / st
    else if (i <? 3)%nat then B i (j - 3)%nat * / st else Sm (index_sym66 i j) * / (st * st).
  Lemma rt_JtJ_inc : forall Sm J i j, (i <= j < 6)%nat ->
    rt_JtJ Sm b c sr st J (index_sym66_assume_upper i j) = J (index_sym66_assume_upper i j) + JtJ_inc Sm i j.
  Proof.
    intros Sm J i j H. assert (i < 6)%nat as Hi by lia. assert (j < 6)%nat as Hj by lia.
    unfold rt_JtJ, JtJ_inc. rewrite t_eq. change (V3 (b c * sr) (b (c + 1)%Z * sr) (b (c + 2)%Z * sr)) with (vec_at b c sr). change compose_r_tinyr0_gradientr0 with dr.
    generalize (rt_A Sm b c sr st) as A. generalize (rt_B Sm b c sr st) as B. intros B A. cbv zeta.
    generalize (dr (vec_at b c sr)) as D. intro D. generalize (vec_at b (c + 3)%Z st) as t. intro t.
    six i Hi; six j Hj; try (exfalso; clear - H; lia); unfold mul_gen33_gen33_into33insym66_accum, set_33insym66_from_gen33_accum, acc_all;
      cbn -[Rplus Rmult Rinv Ropp Rdiv mget times_skew vx vy vz]; unfold Rdiv; ring.
  Qed.
  Lemma JtJ_add : forall Sm x i j, (i <= j < 6)%nat ->
    JtJ_inc (add_upper 6 Sm x) i j = JtJ_inc Sm i j + jc x i * jc x j.
  Proof.
    intros Sm x i j H. assert (i < 6)%nat as Hi by lia. assert (j < 6)%nat as Hj by lia.
    unfold JtJ_inc. cbv zeta. unfold times_skew. open. expand.
    six i Hi; six j Hj; try (exfalso; clear - H; lia); cbn -[Rplus Rmult Rinv Ropp Rdiv add_upper index_sym66 mget]; rewrite !add_upper6 by lia; unfold skew, mget, mrow, vget; cbn -[Rplus Rmult Rinv Ropp Rdiv add_upper index_sym66 ]; unfold Rdiv; rewrite ?Rinv_mult; ring.
  Qed.
  Lemma JtJ_zero : forall i j, JtJ_inc z1 i j = 0.
  Proof.
    intros i j. unfold JtJ_inc, times_skew, rt_A, rt_B, mul_gen33_gen33insym66, skew_times, z1, Rdiv. cbv zeta.
    destruct (j <? 3)%nat. { destruct j as [|[|j]]; destruct i as [|[|i]]; ring. } destruct (i <? 3)%nat; [destruct i as [|[|i]]|]; ring.
  Qed.
End RtAlgebra.

Section PointAlgebra.
  Context (b : Z -> R) (c : Z).
  Let jc (x : nat -> R) := cross_point b c x.
  Let pp := vec_at b c 1.
  Lemma jcp_expand : forall x k, (k < 6)%nat -> jc x k =
    if (k <? 3)%nat then - (x 0%nat * mget (skew pp) 0 k + x 1%nat * mget (skew pp) 1 k + x 2%nat * mget (skew pp) 2 k)
    else x (k - 3)%nat.
  Proof.
    intros x k H. unfold jc, cross_point. cbn [scale]. fold pp. generalize pp as v. intro v. unfold Rdiv. rewrite Rinv_1.
    six k H; unfold sum_n, G_point, delta; cbn -[Rplus Rmult Rinv Ropp mget]; ring.
  Qed.
  Lemma pp_eq : V3 (b c) (b (c + 1)%Z) (b (c + 2)%Z) = pp.
  Proof. unfold pp, vec_at. now rewrite !Rmult_1_r. Qed.
  Lemma pt_this_add : forall Sm x i j, (i < 6)%nat -> (j < 3)%nat ->
    pt_this (add_upper 3 Sm x) b c i j = pt_this Sm b c i j + jc x i * x j.
  Proof.
    intros Sm x i j Hi Hj. unfold pt_this, pt_A, pt_B, skew_times. rewrite pp_eq, jcp_expand by lia. cbn [scale]. unfold Rdiv. rewrite Rinv_1. generalize pp as v. intro v.
    six i Hi; three j Hj; cbn -[Rplus Rmult Rinv Ropp Rdiv add_upper index_sym33 mget]; rewrite !add_upper3 by lia; unfold skew, mget, mrow, vget; cbn -[Rplus Rmult Rinv Ropp Rdiv add_upper index_sym33 ]; ring.
  Qed.
  Lemma pt_this_zero : forall i j, pt_this z1 b c i j = 0.
  Proof. intros i j. unfold pt_this, pt_A, pt_B, skew_times, z1, Rdiv. destruct (i <? 3)%nat; [|ring]. destruct i as [|[|i]]; ring. Qed.
  Definition JtJp_inc (Sm : nat -> R) (i j : nat) : R :=
    let A := pt_A Sm b c in
    if (j <? 3)%nat then - times_skew A pp i j
    else if (i <? 3)%nat then A i (j - 3)%nat else Sm (index_sym33 (i - 3) (j - 3)).
  Lemma pt_JtJ_inc : forall Sm J i j, (i <= j < 6)%nat ->
    pt_JtJ Sm b c J (index_sym66_assume_upper i j) = J (index_sym66_assume_upper i j) + JtJp_inc Sm i j.
  Proof.
    intros Sm J i j H. assert (i < 6)%nat as Hi by lia. assert (j < 6)%nat as Hj by lia.
    unfold pt_JtJ, JtJp_inc. rewrite pp_eq. generalize (pt_A Sm b c) as A. intros A. cbv zeta. cbn [scale]. generalize pp as t. intro t.
    six i Hi; six j Hj; try (exfalso; clear - H; lia); unfold set_33insym66_from_gen33_accum, acc_all;
      cbn -[Rplus Rmult Rinv Ropp Rdiv mget times_skew vx vy vz]; field.
  Qed.
  Lemma JtJp_add : forall Sm x i j, (i <= j < 6)%nat ->
    JtJp_inc (add_upper 3 Sm x) i j = JtJp_inc Sm i j + jc x i * jc x j.
  Proof.
    intros Sm x i j H. assert (i < 6)%nat as Hi by lia. assert (j < 6)%nat as Hj by lia.
    unfold JtJp_inc. cbv zeta. unfold times_skew, pt_A, skew_times. rewrite pp_eq, !jcp_expand by lia. generalize pp as v. intro v.
    six i Hi; six j Hj; try (exfalso; clear - H; lia); cbn -[Rplus Rmult Rinv Ropp Rdiv add_upper index_sym33 mget]; rewrite !add_upper3 by lia; unfold skew, mget, mrow, vget; cbn -[Rplus Rmult Rinv Ropp Rdiv add_upper index_sym33 ]; ring.
  Qed.
  Lemma JtJp_zero : forall i j, JtJp_inc z1 i j = 0.
  Proof.
    intros i j. unfold JtJp_inc, times_skew, pt_A, skew_times, z1. cbv zeta.
    destruct (j <? 3)%nat. { destruct j as [|[|j]]; destruct i as [|[|i]]; ring. } destruct (i <? 3)%nat; [destruct i as [|[|i]]|]; ring.
  Qed.
End PointAlgebra.

(** ** columns *)
Definition cterm (col n : Z) (inc : nat -> nat -> R) (i : nat) (c : Z) : R :=
  if in_block col n c then inc i (Z.to_nat (c - col)) else 0.
Lemma acc_cols_eq : forall K col n inc i c, acc_cols K col n inc i c = K i c + cterm col n inc i c.
Proof. intros. unfold acc_cols, cterm, in_block. destruct ((col <=? c) && (c <? col + n))%Z; ring. Qed.
Definition bterm (col n : Z) (x : nat -> R) (c : Z) : R := if in_block col n c then x (Z.to_nat (c - col)) else 0.
Lemma cterm_add : forall col n inc inc' (u : nat -> R) x i c, (0 <= n)%Z ->
  (forall j, (Z.of_nat j < n)%Z -> inc' i j = inc i j + u i * x j) ->
  cterm col n inc' i c = cterm col n inc i c + u i * bterm col n x c.
Proof.
  intros col n inc inc' u x i c Hn H. unfold cterm, bterm. destruct (in_block col n c) eqn:E; [|ring]. apply H.
  unfold in_block in E. apply andb_prop in E. lia.
Qed.
Lemma cterm_zero : forall col n inc i c, (forall j, inc i j = 0) -> cterm col n inc i c = 0.
Proof. intros. unfold cterm. destruct (in_block _ _ _); auto. Qed.

Lemma neg_none : forall o : option jrow, is_some o = false -> (col_of o < 0)%Z.
Proof. intros [l|] H; [discriminate|reflexivity]. Qed.

(** ** the chunks *)
Section Chunks.
  Context (p : problem) (b : Z -> R) (icam : Z).
  Let cc := ccp icam.
  Let cwc := cw_col p.
  Notation src := (scale S_rot_cam). Notation stc := (scale S_trans_cam).
  Notation srf := (scale S_rot_frame). Notation stf := (scale S_trans_frame).
  Notation DR := compose_r_tinyr0_gradientr0.

  Definition oterm (o : option Z) (n : Z) (inc : nat -> nat -> R) (i : nat) (c : Z) : R :=
    match o with Some col => cterm col n inc i c | None => 0 end.
  Definition camT (s : state) (i : nat) (c : Z) : R :=
    cterm (a_cam s) 6 (rt_this (s_ee (sm s)) b (a_cam s) src stc) i c
    + oterm (opt_col (a_frame_for_cam s)) 6 (thing b (a_cam s) src stc (s_ef (sm s))) i c
    + oterm (opt_col (a_point_for_cam s)) 3 (thing b (a_cam s) src stc (s_ep (sm s))) i c
    + oterm cwc 2 (thing b (a_cam s) src stc (s_ecw (sm s))) i c.
  Definition frT (s : state) (i : nat) (c : Z) : R :=
    cterm (a_frame s) 6 (rt_this (s_ff (sm s)) b (a_frame s) srf stf) i c
    + oterm cwc 2 (thing b (a_frame s) srf stf (s_fcw (sm s))) i c.
  Definition ptT (s : state) (i : nat) (c : Z) : R := cterm (a_point s) 3 (pt_this (s_pp (sm s)) b (a_point s)) i c.
  Definition camJ s i j := JtJ_inc b (a_cam s) src stc (s_ee (sm s)) i j.
  Definition frJ s i j := JtJ_inc b (a_frame s) srf stf (s_ff (sm s)) i j.
  Definition ptJ s i j := JtJp_inc b (a_point s) (s_pp (sm s)) i j.
  Definition when (a : Z) (x : R) : R := if (0 <=? a)%Z then x else 0.
  Definition tot (s : state) (i : nat) (c : Z) : R :=
    fst (out s) i c + when (a_cam s) (camT s i c) + when (a_frame s) (frT s i c) + when (a_point s) (ptT s i c).
  Definition totJ (s : state) (i j : nat) : R :=
    snd (out s) (index_sym66_assume_upper i j) + when (a_cam s) (camJ s i j) + when (a_frame s) (frJ s i j) + when (a_point s) (ptJ s i j).

  Lemma block_fst : forall S1 S2 S3 S4 col sr st f q w KJ i c,
    fst (accumulate_rt_block S1 S2 S3 S4 b col sr st f q w KJ) i c =
    fst KJ i c + (cterm col 6 (rt_this S1 b col sr st) i c + oterm f 6 (thing b col sr st S2) i c
                  + oterm q 3 (thing b col sr st S3) i c + oterm w 2 (thing b col sr st S4) i c).
  Proof.
    intros. unfold accumulate_rt_block. cbn [fst]. rewrite t_eq.
    change (V3 (b col * sr) (b (col + 1)%Z * sr) (b (col + 2)%Z * sr)) with (vec_at b col sr).
    change (Jcross_t__Jpackedthing (vec_at b (col + 3) st) (DR (vec_at b col sr)) sr st) with (thing b col sr st).
    destruct f, q, w; rewrite ?acc_cols_eq; cbn [oterm]; ring.
  Qed.
  Lemma flush_cam_K : forall s i c, fst (flush_cam p b s) i c = fst (out s) i c + camT s i c.
  Proof. intros. unfold flush_cam. rewrite block_fst. reflexivity. Qed.
  Lemma flush_frame_K : forall s i c, fst (flush_frame p b s) i c = fst (out s) i c + frT s i c.
  Proof. intros. unfold flush_frame. rewrite block_fst. unfold frT. cbn [oterm]. fold cwc. ring. Qed.
  Lemma flush_point_K : forall s i c, fst (flush_point b s) i c = fst (out s) i c + ptT s i c.
  Proof. intros. unfold flush_point, accumulate_point. cbn [fst]. apply acc_cols_eq. Qed.
  Lemma flush_cam_J : forall s i j, (i <= j < 6)%nat ->
    snd (flush_cam p b s) (index_sym66_assume_upper i j) = snd (out s) (index_sym66_assume_upper i j) + camJ s i j.
  Proof. intros. unfold flush_cam, accumulate_rt_block. cbn [snd]. now apply rt_JtJ_inc. Qed.
  Lemma flush_frame_J : forall s i j, (i <= j < 6)%nat ->
    snd (flush_frame p b s) (index_sym66_assume_upper i j) = snd (out s) (index_sym66_assume_upper i j) + frJ s i j.
  Proof. intros. unfold flush_frame, accumulate_rt_block. cbn [snd]. now apply rt_JtJ_inc. Qed.
  Lemma flush_point_J : forall s i j, (i <= j < 6)%nat ->
    snd (flush_point b s) (index_sym66_assume_upper i j) = snd (out s) (index_sym66_assume_upper i j) + ptJ s i j.
  Proof. intros. unfold flush_point, accumulate_point. cbn [snd]. now apply pt_JtJ_inc. Qed.

  Lemma finish_K : forall s i c, fst (finish p b s) i c = tot s i c.
  Proof.
    intros s i c. unfold finish, tot, when.
    destruct (0 <=? a_cam s)%Z eqn:E1; cbn [a_cam a_frame a_point set_out];
      (destruct (0 <=? a_frame s)%Z eqn:E2; cbn [a_cam a_frame a_point set_out]);
      (destruct (0 <=? a_point s)%Z eqn:E3); cbn [out set_out]; rewrite ?flush_point_K; cbn [out set_out]; rewrite ?flush_frame_K; cbn [out set_out]; rewrite ?flush_cam_K;
      unfold frT, ptT; cbn [sm a_frame a_point set_out]; ring.
  Qed.
  Lemma finish_J : forall s i j, (i <= j < 6)%nat -> snd (finish p b s) (index_sym66_assume_upper i j) = totJ s i j.
  Proof.
    intros s i j H. unfold finish, totJ, when.
    destruct (0 <=? a_cam s)%Z eqn:E1; cbn [a_cam a_frame a_point set_out];
      (destruct (0 <=? a_frame s)%Z eqn:E2; cbn [a_cam a_frame a_point set_out]);
      (destruct (0 <=? a_point s)%Z eqn:E3); cbn [out set_out]; rewrite ?flush_point_J by easy; cbn [out set_out]; rewrite ?flush_frame_J by easy; cbn [out set_out]; rewrite ?flush_cam_J by easy;
      unfold frJ, ptJ; cbn [sm a_frame a_point set_out]; ring.
  Qed.

  Lemma oterm_zero : forall o n inc i c, (forall j, inc i j = 0) -> oterm o n inc i c = 0.
  Proof. intros [col|] n inc i c H; [|easy]. now apply cterm_zero. Qed.
  Definition cam_clear (s : state) := s_ee (sm s) = z1 /\ s_ef (sm s) = z2 /\ s_ep (sm s) = z2 /\ s_ecw (sm s) = z2.
  Definition frame_clear (s : state) := s_ff (sm s) = z1 /\ s_fcw (sm s) = z2.
  Definition point_clear (s : state) := s_pp (sm s) = z1.
  Lemma camT_clear : forall s i c, cam_clear s -> camT s i c = 0.
  Proof.
    intros s i c (E1 & E2 & E3 & E4). unfold camT. rewrite E1, E2, E3, E4.
    rewrite cterm_zero by (intro; apply rt_this_zero). rewrite !oterm_zero by (intro; apply thing_zero). ring.
  Qed.
  Lemma frT_clear : forall s i c, frame_clear s -> frT s i c = 0.
  Proof. intros s i c (E1 & E2). unfold frT. rewrite E1, E2. rewrite cterm_zero by (intro; apply rt_this_zero). rewrite !oterm_zero by (intro; apply thing_zero). ring. Qed.
  Lemma ptT_clear : forall s i c, point_clear s -> ptT s i c = 0.
  Proof. intros s i c E1. unfold ptT. rewrite E1. now rewrite cterm_zero by (intro; apply pt_this_zero). Qed.
  Lemma camJ_clear : forall s i j, cam_clear s -> camJ s i j = 0.
  Proof. intros s i j (E1 & _). unfold camJ. rewrite E1. apply JtJ_zero. Qed.
  Lemma frJ_clear : forall s i j, frame_clear s -> frJ s i j = 0.
  Proof. intros s i j (E1 & _). unfold frJ. rewrite E1. apply JtJ_zero. Qed.
  Lemma ptJ_clear : forall s i j, point_clear s -> ptJ s i j = 0.
  Proof. intros s i j E1. unfold ptJ. rewrite E1. apply JtJp_zero. Qed.

  (** two states that will produce the same output *)
  Definition same (s s' : state) : Prop :=
    (forall i c, tot s' i c = tot s i c) /\ (forall i j, (i <= j < 6)%nat -> totJ s' i j = totJ s i j).
  Definition inv (s : state) : Prop :=
    ((a_cam s < 0)%Z -> cam_clear s) /\ ((a_frame s < 0)%Z -> frame_clear s) /\ ((a_point s < 0)%Z -> point_clear s) /\
    (cc = false -> (a_cam s < 0)%Z).
  Lemma same_trans : forall a d e, same a d -> same d e -> same a e.
  Proof. intros a d e [A1 A2] [B1 B2]. split; intros; [rewrite B1; apply A1 | rewrite B2 by easy; now apply A2]. Qed.

  Section OneStep.
    Context (m : mapped).
    Let ce := col_of (m_e m). Let cf := col_of (m_f m). Let cp := col_of (m_p m).

    Lemma flush1 : forall s, inv s -> let s' := maybe_flush_cam p b m s in same s s' /\ inv s' /\
      a_cam s' = a_cam s /\ a_frame s' = a_frame s /\ a_point s' = a_point s /\
      (cam_clear s' \/ (a_cam s' = ce /\ a_frame_for_cam s' = cf /\ a_point_for_cam s' = cp)).
    Proof.
      intros s (I1 & I2 & I3 & I4). cbv zeta. unfold maybe_flush_cam. fold ce cf cp.
      destruct (_ && _)%bool eqn:E.
      - assert (cam_clear (set_out s (clear_cam (sm s)) (flush_cam p b s))) as C by (repeat split).
        split; [|split; [|tauto]].
        + split; intros.
          * unfold tot. rewrite (camT_clear _ _ _ C). cbn [set_out out a_cam a_frame a_point]. rewrite flush_cam_K. unfold when.
            apply andb_prop in E. destruct E as [-> _]. change (frT (set_out s (clear_cam (sm s)) (flush_cam p b s)) i c) with (frT s i c).
            change (ptT (set_out s (clear_cam (sm s)) (flush_cam p b s)) i c) with (ptT s i c). ring.
          * unfold totJ. rewrite (camJ_clear _ _ _ C). cbn [set_out out a_cam a_frame a_point]. rewrite flush_cam_J by easy. unfold when.
            apply andb_prop in E. destruct E as [-> _]. change (frJ (set_out s (clear_cam (sm s)) (flush_cam p b s)) i j) with (frJ s i j).
            change (ptJ (set_out s (clear_cam (sm s)) (flush_cam p b s)) i j) with (ptJ s i j). ring.
        + repeat split; cbn; auto; apply I2; auto.
      - split; [split; intros; reflexivity|]. split; [exact (conj I1 (conj I2 (conj I3 I4)))|]. repeat split; [reflexivity..|].
        destruct (Z.leb_spec 0 (a_cam s)); [|left; apply I1; lia]. right. cbn [andb] in E.
        apply orb_false_elim in E. destruct E as [E E3]. apply orb_false_elim in E. destruct E as [E1 E2].
        rewrite negb_false_iff in E1, E2, E3. apply Z.eqb_eq in E1, E2, E3. auto.
    Qed.
    Lemma flush2 : forall s, inv s -> let s' := maybe_flush_frame p b icam m s in same s s' /\ inv s' /\
      a_cam s' = a_cam s /\ a_frame s' = a_frame s /\ a_point s' = a_point s /\ a_frame_for_cam s' = a_frame_for_cam s /\
      a_point_for_cam s' = a_point_for_cam s /\ (cam_clear s -> cam_clear s') /\
      (frame_clear s' \/ (a_frame s' = cf /\ (cc = false \/ m_e m = None))).
    Proof.
      intros s (I1 & I2 & I3 & I4). cbv zeta. unfold maybe_flush_frame. fold cf cc.
      destruct (_ && _)%bool eqn:E.
      - assert (frame_clear (set_out s (clear_frame (sm s)) (flush_frame p b s))) as C by (repeat split).
        split; [|split; [|tauto]].
        + split; intros.
          * unfold tot. rewrite (frT_clear _ _ _ C). cbn [set_out out a_cam a_frame a_point]. rewrite flush_frame_K. unfold when.
            apply andb_prop in E. destruct E as [-> _]. change (camT (set_out s (clear_frame (sm s)) (flush_frame p b s)) i c) with (camT s i c).
            change (ptT (set_out s (clear_frame (sm s)) (flush_frame p b s)) i c) with (ptT s i c). ring.
          * unfold totJ. rewrite (frJ_clear _ _ _ C). cbn [set_out out a_cam a_frame a_point]. rewrite flush_frame_J by easy. unfold when.
            apply andb_prop in E. destruct E as [-> _]. change (camJ (set_out s (clear_frame (sm s)) (flush_frame p b s)) i j) with (camJ s i j).
            change (ptJ (set_out s (clear_frame (sm s)) (flush_frame p b s)) i j) with (ptJ s i j). ring.
        + repeat split; cbn; auto; apply I1; auto.
      - split; [split; intros; reflexivity|]. split; [exact (conj I1 (conj I2 (conj I3 I4)))|]. do 5 (split; [reflexivity|]). split; [tauto|].
        destruct (Z.leb_spec 0 (a_frame s)); [|left; apply I2; lia]. right. cbn [andb] in E.
        apply orb_false_elim in E. destruct E as [E E3]. rewrite negb_false_iff in E. apply Z.eqb_eq in E. split; [easy|].
        apply andb_false_iff in E3. destruct E3; [now left|]. right. now destruct (m_e m).
    Qed.
    Lemma flush3 : forall s, inv s -> let s' := maybe_flush_point b icam m s in same s s' /\ inv s' /\
      a_cam s' = a_cam s /\ a_frame s' = a_frame s /\ a_point s' = a_point s /\ a_frame_for_cam s' = a_frame_for_cam s /\
      a_point_for_cam s' = a_point_for_cam s /\ (cam_clear s -> cam_clear s') /\ (frame_clear s -> frame_clear s') /\
      (point_clear s' \/ (a_point s' = cp /\ (cc = false \/ m_e m = None))).
    Proof.
      intros s (I1 & I2 & I3 & I4). cbv zeta. unfold maybe_flush_point. fold cp cc.
      destruct (_ && _)%bool eqn:E.
      - assert (point_clear (set_out s (clear_point (sm s)) (flush_point b s))) as C by reflexivity.
        split; [|split; [|tauto]].
        + split; intros.
          * unfold tot. rewrite (ptT_clear _ _ _ C). cbn [set_out out a_cam a_frame a_point]. rewrite flush_point_K. unfold when.
            apply andb_prop in E. destruct E as [-> _]. change (camT (set_out s (clear_point (sm s)) (flush_point b s)) i c) with (camT s i c).
            change (frT (set_out s (clear_point (sm s)) (flush_point b s)) i c) with (frT s i c). ring.
          * unfold totJ. rewrite (ptJ_clear _ _ _ C). cbn [set_out out a_cam a_frame a_point]. rewrite flush_point_J by easy. unfold when.
            apply andb_prop in E. destruct E as [-> _]. change (camJ (set_out s (clear_point (sm s)) (flush_point b s)) i j) with (camJ s i j).
            change (frJ (set_out s (clear_point (sm s)) (flush_point b s)) i j) with (frJ s i j). ring.
        + repeat split; cbn; auto; (apply I1; auto) || (apply I2; auto).
      - split; [split; intros; reflexivity|]. split; [exact (conj I1 (conj I2 (conj I3 I4)))|]. do 5 (split; [reflexivity|]). split; [tauto|]. split; [tauto|].
        destruct (Z.leb_spec 0 (a_point s)); [|left; apply I3; lia]. right. cbn [andb] in E.
        apply orb_false_elim in E. destruct E as [E E3]. rewrite negb_false_iff in E. apply Z.eqb_eq in E. split; [easy|].
        apply andb_false_iff in E3. destruct E3; [now left|]. right. now destruct (m_e m).
    Qed.

    (** what the measurement contributes *)
    Definition obt (o : option jrow) (n : Z) (c : Z) : R := if is_some o then bterm (col_of o) n (val_of o) c else 0.
    Definition jm : nat -> R :=
      if cc && is_some (m_e m) then cross_pose DR b ce src stc (val_of (m_e m))
      else if is_some (m_f m) then cross_pose DR b cf srf stf (val_of (m_f m))
      else if is_some (m_p m) then cross_point b cp (val_of (m_p m))
      else fun _ => 0.
    Definition wterm (c : Z) : R := match cwc with Some w => bterm w 2 (val_of (m_w m)) c | None => 0 end.
    Definition dm (c : Z) : R :=
      (if cc then obt (m_e m) 6 c else 0) + obt (m_f m) 6 c + obt (m_p m) 3 c + wterm c.
    Context (He : is_some (m_e m) = (0 <=? ce)%Z) (Hf : is_some (m_f m) = (0 <=? cf)%Z) (Hp : is_some (m_p m) = (0 <=? cp)%Z)
            (Hfp : is_some (m_f m) && is_some (m_p m) = false) (Hw : is_some (m_w m) = is_some cwc)
            (Hwp : is_some (m_w m) && is_some (m_p m) = false).


    Lemma when_clear : forall a x, x = 0 -> when a x = 0.
    Proof. intros a x ->. unfold when. now destruct (0 <=? a)%Z. Qed.
    Lemma when_neg : forall x, when (-1) x = 0.
    Proof. reflexivity. Qed.

    Lemma keep_same : forall s s', sm s' = sm s -> out s' = out s ->
      (cam_clear s \/ (a_cam s' = a_cam s /\ a_frame_for_cam s' = a_frame_for_cam s /\ a_point_for_cam s' = a_point_for_cam s)) ->
      (frame_clear s \/ a_frame s' = a_frame s) -> (point_clear s \/ a_point s' = a_point s) -> same s s'.
    Proof.
      intros s s' Es Eo C1 C2 C3.
      assert (forall i c, when (a_cam s') (camT s' i c) = when (a_cam s) (camT s i c)) as T1.
      { intros. destruct C1 as [C|(A1 & A2 & A3)].
        - rewrite !camT_clear by (unfold cam_clear in *; now rewrite ?Es). now rewrite !when_clear.
        - unfold camT. now rewrite Es, A1, A2, A3. }
      assert (forall i c, when (a_frame s') (frT s' i c) = when (a_frame s) (frT s i c)) as T2.
      { intros. destruct C2 as [C|A].
        - rewrite !frT_clear by (unfold frame_clear in *; now rewrite ?Es). now rewrite !when_clear.
        - unfold frT. now rewrite Es, A. }
      assert (forall i c, when (a_point s') (ptT s' i c) = when (a_point s) (ptT s i c)) as T3.
      { intros. destruct C3 as [C|A].
        - rewrite !ptT_clear by (unfold point_clear in *; now rewrite ?Es). now rewrite !when_clear.
        - unfold ptT. now rewrite Es, A. }
      assert (forall i c, when (a_cam s') (camJ s' i c) = when (a_cam s) (camJ s i c)) as J1.
      { intros. destruct C1 as [C|(A1 & A2 & A3)].
        - rewrite !camJ_clear by (unfold cam_clear in *; now rewrite ?Es). now rewrite !when_clear.
        - unfold camJ. now rewrite Es, A1. }
      assert (forall i c, when (a_frame s') (frJ s' i c) = when (a_frame s) (frJ s i c)) as J2.
      { intros. destruct C2 as [C|A].
        - rewrite !frJ_clear by (unfold frame_clear in *; now rewrite ?Es). now rewrite !when_clear.
        - unfold frJ. now rewrite Es, A. }
      assert (forall i c, when (a_point s') (ptJ s' i c) = when (a_point s) (ptJ s i c)) as J3.
      { intros. destruct C3 as [C|A].
        - rewrite !ptJ_clear by (unfold point_clear in *; now rewrite ?Es). now rewrite !when_clear.
        - unfold ptJ. now rewrite Es, A. }
      split; intros; unfold tot, totJ; rewrite Eo; [now rewrite T1, T2, T3|now rewrite J1, J2, J3].
    Qed.

    (** the chunk after selection; sums of the chunks not selected are clear *)
    Definition ready (s : state) : Prop :=
      (cc && is_some (m_e m) = true -> a_cam s = ce /\ a_frame s = (-1)%Z /\ a_point s = (-1)%Z /\ a_frame_for_cam s = cf /\ a_point_for_cam s = cp /\
         frame_clear s /\ point_clear s) /\
      (cc && is_some (m_e m) = false -> (a_cam s < 0)%Z /\ a_frame s = cf /\ a_point s = cp /\ cam_clear s /\
         (is_some (m_f m) = false -> frame_clear s) /\ (is_some (m_p m) = false -> point_clear s)).
    Lemma select_ok : forall s, inv s ->
      (cam_clear s \/ (a_cam s = ce /\ a_frame_for_cam s = cf /\ a_point_for_cam s = cp)) ->
      (frame_clear s \/ (a_frame s = cf /\ (cc = false \/ m_e m = None))) ->
      (point_clear s \/ (a_point s = cp /\ (cc = false \/ m_e m = None))) ->
      let s' := select icam m s in same s s' /\ ready s'.
    Proof.
      intros s (I1 & I2 & I3 & I4) C1 C2 C3. cbv zeta. unfold select, ready. fold ce cf cp cc.
      destruct cc eqn:Ec; [destruct (is_some (m_e m)) eqn:Ee|]; cbn [andb].
      - (* camera chunk *)
        assert (frame_clear s) as F. { destruct C2 as [|[_ [D|D]]]; [easy|discriminate|]. now rewrite D in Ee. }
        assert (point_clear s) as P. { destruct C3 as [|[_ [D|D]]]; [easy|discriminate|]. now rewrite D in Ee. }
        split; [apply keep_same; cbn; auto; destruct C1 as [|(A1 & A2 & A3)]; auto|].
        split; [|discriminate]. intros _. cbn. repeat split; try easy; apply F.
      - (* no extrinsics *)
        assert (m_e m = None) as En by (destruct (m_e m); [discriminate|easy]).
        assert (cam_clear s) as C. { destruct C1 as [|(A1 & _)]; [easy|]. apply I1. rewrite A1. unfold ce. rewrite En. reflexivity. }
        split; [apply keep_same; cbn; auto; [destruct C2 as [|[A _]]|destruct C3 as [|[A _]]]; auto|].
        split; [discriminate|]. intros _. cbn. split; [lia|]. do 2 (split; [reflexivity|]). split; [exact C|].
        split; intro N; [destruct C2 as [|[A _]]|destruct C3 as [|[A _]]]; try easy; [apply I2|apply I3]; rewrite A; now apply neg_none.
      - (* rrp *)
        assert (cam_clear s) as C by (apply I1, I4; reflexivity).
        split; [apply keep_same; cbn; auto; [destruct C2 as [|[A _]]|destruct C3 as [|[A _]]]; auto|].
        split; [discriminate|]. intros _. cbn. split; [now apply I4|]. do 2 (split; [reflexivity|]). split; [exact C|].
        split; intro N; [destruct C2 as [|[A _]]|destruct C3 as [|[A _]]]; try easy; [apply I2|apply I3]; rewrite A; now apply neg_none.
    Qed.

    Lemma oterm_add : forall o n inc inc' (u : nat -> R) x i c, (0 <= n)%Z ->
      (forall j, (Z.of_nat j < n)%Z -> inc' i j = inc i j + u i * x j) ->
      oterm o n inc' i c = oterm o n inc i c + u i * match o with Some col => bterm col n x c | None => 0 end.
    Proof. intros [col|] n inc inc' u x i c Hn H; cbn [oterm]; [now apply cterm_add|ring]. Qed.

    Lemma add_ok : forall s, ready s -> let s' := add_measurement m s in inv s' /\
      (forall i c, (i < 6)%nat -> tot s' i c = tot s i c + jm i * dm c) /\
      (forall i j, (i <= j < 6)%nat -> totJ s' i j = totJ s i j + jm i * jm j).
    Proof.
      intros s (R1 & R2). cbv zeta. unfold jm, dm. destruct (cc && is_some (m_e m)) eqn:E.
      - clear R2. destruct (R1 eq_refl) as (A1 & A2 & A3 & A4 & A5 & F & P). apply andb_prop in E. destruct E as [Ec Ee]. rewrite Ec.
        assert (0 <=? ce = true)%Z as Hce by (now rewrite <- He).
        unfold add_measurement. rewrite A1, Hce.
        split; [|split].
        + split; [|split; [|split]]; cbn; try easy; intros; [rewrite A1 in *; lia|congruence].
        + intros i c Hi. unfold tot, camT, frT, ptT. cbn [set_out sm out a_cam a_frame a_point a_frame_for_cam a_point_for_cam s_ee s_ef s_ep s_ecw s_ff s_fcw s_pp].
          rewrite A1, A2, A3, A4, A5. unfold when. rewrite Hce. cbv iota. change (0 <=? -1)%Z with false. cbv iota.
          rewrite (cterm_add ce 6 (rt_this (s_ee (sm s)) b ce src stc) _ (cross_pose DR b ce src stc (val_of (m_e m))) (val_of (m_e m))) by (lia || (intros; apply rt_this_add; lia)).
          unfold obt, wterm. rewrite Ee. unfold opt_col. rewrite <- Hf, <- Hp.
          assert (oterm (if is_some (m_f m) then Some cf else None) 6 (thing b ce src stc (if is_some (m_f m) then add_dense (s_ef (sm s)) (val_of (m_e m)) (val_of (m_f m)) else s_ef (sm s))) i c =
                  oterm (if is_some (m_f m) then Some cf else None) 6 (thing b ce src stc (s_ef (sm s))) i c
                  + cross_pose DR b ce src stc (val_of (m_e m)) i * (if is_some (m_f m) then bterm cf 6 (val_of (m_f m)) c else 0)) as ->.
          { destruct (is_some (m_f m)); [|cbn [oterm]; ring]. apply (oterm_add (Some cf)); [lia|]. intros. now apply thing_add. }
          assert (oterm (if is_some (m_p m) then Some cp else None) 3 (thing b ce src stc (if is_some (m_p m) then add_dense (s_ep (sm s)) (val_of (m_e m)) (val_of (m_p m)) else s_ep (sm s))) i c =
                  oterm (if is_some (m_p m) then Some cp else None) 3 (thing b ce src stc (s_ep (sm s))) i c
                  + cross_pose DR b ce src stc (val_of (m_e m)) i * (if is_some (m_p m) then bterm cp 3 (val_of (m_p m)) c else 0)) as ->.
          { destruct (is_some (m_p m)); [|cbn [oterm]; ring]. apply (oterm_add (Some cp)); [lia|]. intros. now apply thing_add. }
          assert (oterm cwc 2 (thing b ce src stc (if is_some (m_w m) then add_dense (s_ecw (sm s)) (val_of (m_e m)) (val_of (m_w m)) else s_ecw (sm s))) i c =
                  oterm cwc 2 (thing b ce src stc (s_ecw (sm s))) i c
                  + cross_pose DR b ce src stc (val_of (m_e m)) i * (match cwc with Some w => bterm w 2 (val_of (m_w m)) c | None => 0 end)) as ->.
          { rewrite Hw. destruct cwc as [w|]; [|cbn [oterm]; ring]. cbn [is_some]. apply (oterm_add (Some w)); [lia|]. intros. now apply thing_add. }
          fold ce cf cp. ring.
        + intros i j Hij. unfold totJ, camJ, frJ, ptJ. cbn [set_out sm out a_cam a_frame a_point s_ee s_ff s_pp]. rewrite A1, A2, A3. unfold when. rewrite Hce. cbv iota.
          change (0 <=? -1)%Z with false. cbv iota. rewrite JtJ_add by easy. ring.
      - clear R1. destruct (R2 eq_refl) as (A1 & A2 & A3 & C & F & P).
        unfold add_measurement. replace (0 <=? a_cam s)%Z with false by lia. rewrite A2, A3, <- Hf, <- Hp.
        assert ((if cc then obt (m_e m) 6 else fun _ => 0) = fun _ => 0) as Eobt.
        { destruct cc; [|easy]. cbn [andb] in E. unfold obt. now rewrite E. }
        assert (forall c, (if cc then obt (m_e m) 6 c else 0) = 0) as Eo.
        { intro c. change 0 with ((fun _ : Z => 0) c) at 2. rewrite <- Eobt. now destruct cc. }
        clear Eobt. unfold obt at 2 3. destruct (is_some (m_f m)) eqn:Ef.
        + (* frame chunk *)
          cbn [andb] in Hfp. specialize (P Hfp). rewrite Hfp.
          match goal with |- context [set_out s ?x (out s)] => set (x1 := x) end.
          replace (if true && negb (is_some (m_w m)) then set_out s x1 (out s) else set_out s x1 (out s)) with (set_out s x1 (out s)) by (destruct (is_some (m_w m)); reflexivity).
          split; [|split].
          * unfold inv. unfold set_out, cam_clear, frame_clear, point_clear. cbn. split; [intros _; exact C|]. split; [intro N; rewrite A2 in N; lia|].
            split; [intros _; exact P|]. intros; lia.
          * intros i c Hi. unfold tot, camT, frT, ptT, x1. cbn [set_out sm out a_cam a_frame a_point a_frame_for_cam a_point_for_cam s_ee s_ef s_ep s_ecw s_ff s_fcw s_pp].
            rewrite A2, A3. unfold when. replace (0 <=? a_cam s)%Z with false by lia. rewrite <- Hf, <- Hp, Hfp. cbv iota.
            rewrite (cterm_add cf 6 (rt_this (s_ff (sm s)) b cf srf stf) _ (cross_pose DR b cf srf stf (val_of (m_f m))) (val_of (m_f m))) by (lia || (intros; apply rt_this_add; lia)).
            assert (oterm cwc 2 (thing b cf srf stf (if is_some (m_w m) then add_dense (s_fcw (sm s)) (val_of (m_f m)) (val_of (m_w m)) else s_fcw (sm s))) i c =
                  oterm cwc 2 (thing b cf srf stf (s_fcw (sm s))) i c
                  + cross_pose DR b cf srf stf (val_of (m_f m)) i * (match cwc with Some w => bterm w 2 (val_of (m_w m)) c | None => 0 end)) as ->.
            { rewrite Hw. destruct cwc as [w|]; [|cbn [oterm]; ring]. cbn [is_some]. apply (oterm_add (Some w)); [lia|]. intros. now apply thing_add. }
            rewrite Eo. unfold wterm. fold cf. ring.
          * intros i j Hij. unfold totJ, camJ, frJ, ptJ, x1. cbn [set_out sm out a_cam a_frame a_point s_ee s_ff s_pp]. rewrite A2, A3. unfold when.
            replace (0 <=? a_cam s)%Z with false by lia. rewrite <- Hf, <- Hp, Hfp. cbv iota. rewrite JtJ_add by easy. ring.
        + specialize (F eq_refl). cbn [andb]. destruct (is_some (m_p m)) eqn:Ep.
          * (* point chunk *)
            split; [|split].
            -- unfold inv. unfold set_out, cam_clear, frame_clear, point_clear. cbn. split; [intros _; exact C|]. split; [intros _; exact F|].
               split; [intro N; rewrite A3 in N; lia|]. intros; lia.
            -- intros i c Hi. unfold tot, camT, frT, ptT. cbn [set_out sm out a_cam a_frame a_point a_frame_for_cam a_point_for_cam s_ee s_ef s_ep s_ecw s_ff s_fcw s_pp].
               rewrite A2, A3. unfold when. replace (0 <=? a_cam s)%Z with false by lia. rewrite <- Hf, <- Hp. cbv iota.
               rewrite (cterm_add cp 3 (pt_this (s_pp (sm s)) b cp) _ (cross_point b cp (val_of (m_p m))) (val_of (m_p m))) by (lia || (intros; apply pt_this_add; lia)).
               rewrite Eo. unfold wterm. rewrite andb_true_r in Hwp. rewrite Hwp in Hw. destruct cwc; [discriminate|]. fold cp. ring.
            -- intros i j Hij. unfold totJ, camJ, frJ, ptJ. cbn [set_out sm out a_cam a_frame a_point s_ee s_ff s_pp]. rewrite A2, A3. unfold when.
               replace (0 <=? a_cam s)%Z with false by lia. rewrite <- Hf, <- Hp. cbv iota. rewrite JtJp_add by easy. ring.
          * specialize (P eq_refl). split; [|split; intros].
            -- unfold inv. unfold set_out, cam_clear, frame_clear, point_clear. cbn. split; [intros _; exact C|]. split; [intros _; exact F|].
               split; [intros _; exact P|]. intros; lia.
            -- change (tot (set_out s (sm s) (out s)) i c) with (tot s i c). ring.
            -- change (totJ (set_out s (sm s) (out s)) i j) with (totJ s i j). ring.
    Qed.

    Lemma step_ok : forall s, inv s -> let s' := step p b icam m s in inv s' /\
      (forall i c, (i < 6)%nat -> tot s' i c = tot s i c + jm i * dm c) /\
      (forall i j, (i <= j < 6)%nat -> totJ s' i j = totJ s i j + jm i * jm j).
    Proof.
      intros s I. cbv zeta. unfold step.
      destruct (flush1 s I) as (S1 & I1 & A1 & A2 & A3 & C1). set (s1 := maybe_flush_cam p b m s) in *.
      destruct (flush2 s1 I1) as (S2 & I2 & B1 & B2 & B3 & B4 & B5 & K2 & C2). set (s2 := maybe_flush_frame p b icam m s1) in *.
      destruct (flush3 s2 I2) as (S3 & I3 & D1 & D2 & D3 & D4 & D5 & K3 & L3 & C3). set (s3 := maybe_flush_point b icam m s2) in *.
      destruct (select_ok s3 I3) as (S4 & R4).
      - destruct C1 as [|(E1 & E2 & E3)]; [left; auto|right]. rewrite D1, D4, D5, B1, B4, B5. auto.
      - destruct C2 as [|(E1 & E2)]; [left; auto|right]. rewrite D2. auto.
      - exact C3.
      - destruct (add_ok _ R4) as (I5 & T5 & J5). split; [exact I5|].
        destruct (same_trans _ _ _ (same_trans _ _ _ (same_trans _ _ _ S1 S2) S3) S4) as [T J].
        split; intros; [rewrite T5, T by easy|rewrite J5, J by easy]; reflexivity.
    Qed.
  End OneStep.
End Chunks.
