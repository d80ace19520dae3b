(** C41: the center pixel chosen for the pinhole rectification spans the
    requested field of view.  C38 for the pinhole model. *)
From Coq Require Import Reals ZArith List Bool Lia Lra Psatz.
From Verif Require Import S_Vec M_Pose M_Project M_Stereo C_Rectified.
Import ListNotations.
Open Scope R_scope.

(** *** Specification: complex roots of x^4 + c3 x^3 + c2 x^2 + c1 x + c0 *)
Definition cplx := (R * R)%type.
Definition cadd (a b : cplx) : cplx := (fst a + fst b, snd a + snd b).
Definition cmul (a b : cplx) : cplx := (fst a * fst b - snd a * snd b, fst a * snd b + snd a * fst b).
Definition creal (x : R) : cplx := (x, 0).
Definition quartic (c0 c1 c2 c3 : R) (z : cplx) : cplx :=
  cadd (creal c0) (cmul z (cadd (creal c1) (cmul z (cadd (creal c2) (cmul z (cadd (creal c3) z)))))).
(** what is assumed of dgeev_(): eigenvalues of the companion matrix are roots of the polynomial, and none is missing *)
Definition eig_exact_at (eig : R -> R -> R -> R -> option (list cplx)) (c0 c1 c2 c3 : R) : Prop :=
  forall w, eig c0 c1 c2 c3 = Some w ->
    (forall z, In z w -> quartic c0 c1 c2 c3 z = (0, 0)) /\ (forall z, quartic c0 c1 c2 c3 z = (0, 0) -> In z w).
Definition coef0 (K c : R) := K * K + 1 + K * K / (c - 1).
Definition coef1 (K c : R) := 2 * K + K * 4 / (c - 1).
Definition coef2 (K c : R) := K * K + 2 + 4 / (c - 1).
Definition coef3 (K : R) := 2 * K.
Definition eig_exact_for eig (K fov_deg : R) : Prop :=
  let c := cos (deg fov_deg) * cos (deg fov_deg) in eig_exact_at eig (coef0 K c) (coef1 K c) (coef2 K c) (coef3 K).

(** *** the candidate loops *)
Lemma in_last_removelast : forall (l : list R) x d, l <> [] -> (In x l <-> x = last l d \/ In x (removelast l)).
Proof.
  intros l x d H. rewrite (app_removelast_last d H) at 1. rewrite in_app_iff. cbn. split; intros [A|A]; try tauto; try (right; tauto).
  - destruct A as [A|[]]. left. now symmetry.
  - right. left. now symmetry.
Qed.
Lemma removelast_length : forall (l : list R), length (removelast l) = (length l - 1)%nat.
Proof.
  induction l as [|a l IH]; [reflexivity|]. destruct l as [|b l]; [reflexivity|]. cbn [removelast length] in *. rewrite IH. cbn. lia.
Qed.
Lemma discard_spec : forall ok n l x, (length l <= n)%nat -> (In x (discard ok n l) <-> In x l /\ ok x = true).
Proof.
  intros ok n. induction n as [|n IH]; intros l x L.
  - destruct l; [cbn; tauto|cbn in L; lia].
  - destruct l as [|a t]; [cbn; tauto|]. cbn [discard]. cbn [length] in L. destruct (ok a) eqn:E.
    + cbn [In]. rewrite IH by lia. split.
      * intros [<-|[A B]]; [split; [now left|exact E]|split; [now right|exact B]].
      * intros [[<-|A] B]; [now left|right; split; assumption].
    + destruct t as [|b t].
      * cbn. split; [tauto|]. intros [[<-|[]] B]. congruence.
      * rewrite IH by (cbn [length]; rewrite removelast_length; cbn [length] in *; lia).
        assert (In x (b :: t) <-> In x (last (b :: t) 0 :: removelast (b :: t))) as Q.
        { rewrite (in_last_removelast (b :: t) x 0) by discriminate. cbn [In]. split; intros [A|A]; auto. }
        rewrite <- Q. cbn [In]. split; [intros [A B]; split; [now right|exact B]|].
        intros [[<-|A] B]; [congruence|split; assumption].
Qed.
Lemma pick_spec : forall val l best x, pick val best l = Some x ->
  (best = Some x \/ In x l) /\ (forall y, In y l \/ best = Some y -> val y <= val x).
Proof.
  intros val l. induction l as [|c t IH]; intros best x H.
  - cbn in H. split; [now left|]. intros y [[]|E]. rewrite E in H. inversion H. lra.
  - cbn [pick] in H. destruct (IH _ _ H) as [A B]. destruct best as [b|].
    + destruct (Rgt_dec (val c) (val b)) as [G|G].
      * split; [right; destruct A as [A|A]; [inversion A; now left|now right]|].
        intros y [[<-|Y]|Y]; [apply B; now right|apply B; now left|]. inversion Y. subst y. pose proof (B c (or_intror eq_refl)). lra.
      * split; [destruct A as [A|A]; [now left|right; now right]|].
        intros y [[<-|Y]|Y]; [pose proof (B b (or_intror eq_refl)); lra|apply B; now left|apply B; now right].
    + split; [right; destruct A as [A|A]; [inversion A; now left|now right]|].
      intros y [[<-|Y]|Y]; [apply B; now right|apply B; now left|discriminate].
Qed.
Lemma pick_some : forall val l best, (best <> None \/ l <> []) -> pick val best l <> None.
Proof.
  intros val l. induction l as [|c t IH]; intros best [H|H]; cbn; try congruence.
  - apply IH. left. destruct best; [|congruence]. destruct (Rgt_dec _ _); discriminate.
  - apply IH. left. destruct best; [destruct (Rgt_dec _ _)|]; discriminate.
Qed.

(** *** algebra of the quartic: with p = C(K+C), D = 1-p, N = (1+C^2)(1+(K+C)^2) it says D^2 = cos^2(fov) N *)
Definition NN (K C : R) : R := (1 + C * C) * (1 + (K + C) * (K + C)).
Definition DD (K C : R) : R := 1 - K * C - C * C.
Lemma NN_pos : forall K C, 0 < NN K C.
Proof.
  intros. unfold NN. pose proof (Rle_0_sqr C) as A. pose proof (Rle_0_sqr (K + C)) as B. unfold Rsqr in A, B.
  apply Rmult_lt_0_compat; lra.
Qed.
Lemma NN_DD : forall K C, (K + 2 * C) * (K + 2 * C) + DD K C * DD K C = NN K C.
Proof. intros. unfold NN, DD. ring. Qed.

Lemma quartic_split : forall K c a b, c <> 1 ->
  let pr := a * a - b * b + K * a in let pi := 2 * a * b + K * b in
  let A := 2 * (c + 1) / (c - 1) in let B := (c * (1 + K * K) - 1) / (c - 1) in
  quartic (coef0 K c) (coef1 K c) (coef2 K c) (coef3 K) (a, b) = (pr * pr - pi * pi + A * pr + B, pi * (2 * pr + A)).
Proof.
  intros K c a b H pr pi A B. unfold quartic, cadd, cmul, creal, coef0, coef1, coef2, coef3, A, B, pr, pi. cbn [fst snd].
  f_equal; field; lra.
Qed.
Lemma quartic_roots : forall K c a b, 0 <= c < 1 -> quartic (coef0 K c) (coef1 K c) (coef2 K c) (coef3 K) (a, b) = (0, 0) ->
  (b = 0 /\ DD K a * DD K a = c * NN K a) \/
  (b <> 0 /\ a = - K / 2 /\ let p := - (K * K) / 4 - b * b in (1 - p) * (1 - p) = c * ((1 + p) * (1 + p) + K * K)).
Proof.
  intros K c a b Hc H. rewrite quartic_split in H by lra. cbv zeta in H.
  set (pr := a * a - b * b + K * a) in *. set (pi := 2 * a * b + K * b) in *.
  set (A := 2 * (c + 1) / (c - 1)) in *. set (B := (c * (1 + K * K) - 1) / (c - 1)) in *.
  injection H as H1 H2.
  assert (AA : A * (c - 1) = 2 * (c + 1)) by (unfold A; field; lra).
  assert (BB : B * (c - 1) = c * (1 + K * K) - 1) by (unfold B; field; lra).
  assert (pi = 0) as Pi.
  { destruct (Req_dec pi 0) as [E|E]; [exact E|exfalso].
    apply Rmult_integral in H2 as [H2|H2]; [contradiction|].
    assert (pr = - A / 2) as Ep by lra. rewrite Ep in H1.
    assert (pi * pi = B - A * A / 4) as Q by lra.
    assert ((B - A * A / 4) * ((c - 1) * (c - 1)) = - (c * (4 + (1 - c) * (K * K)))) as Q2.
    { transitivity ((B * (c - 1)) * (c - 1) - (A * (c - 1)) * (A * (c - 1)) / 4); [field|]. rewrite AA, BB. field. }
    assert (0 <= c * (4 + (1 - c) * (K * K))) as Q3 by (apply Rmult_le_pos; [lra|]; assert (0 <= (1 - c) * (K * K)) by (apply Rmult_le_pos; nra); lra).
    assert (0 < pi * pi) by nra. assert (0 < (c - 1) * (c - 1)) by nra.
    assert (0 < pi * pi * ((c - 1) * (c - 1))) by (apply Rmult_lt_0_compat; assumption). rewrite Q in *. lra. }
  rewrite Pi in H1.
  assert (E : (1 - pr) * (1 - pr) = c * ((1 + pr) * (1 + pr) + K * K)).
  { assert (pr * pr * (c - 1) + A * (c - 1) * pr + B * (c - 1) = 0) as Q.
    { transitivity ((pr * pr - 0 * 0 + A * pr + B) * (c - 1)); [ring|]. rewrite H1. ring. }
    rewrite AA, BB in Q. lra. }
  unfold pi in Pi. destruct (Req_dec b 0) as [Eb|Eb].
  - left. split; [exact Eb|]. unfold pr in E. rewrite Eb in E. unfold DD, NN. lra.
  - right. split; [exact Eb|]. assert (2 * a + K = 0) as Ea.
    { apply Rmult_eq_reg_r with b; [|exact Eb]. lra. }
    split; [lra|]. cbv zeta. assert (pr = - (K * K) / 4 - b * b) as Ep.
    { unfold pr. replace a with (- K / 2) by lra. field. }
    rewrite <- Ep. exact E.
Qed.
Lemma quartic_real : forall K c x, c <> 1 -> DD K x * DD K x = c * NN K x ->
  quartic (coef0 K c) (coef1 K c) (coef2 K c) (coef3 K) (x, 0) = (0, 0).
Proof.
  intros K c x Hc E. rewrite quartic_split by exact Hc. cbv zeta. f_equal; [|ring].
  unfold DD, NN in E. apply Rmult_eq_reg_r with (c - 1); [|lra].
  replace (((x * x - 0 * 0 + K * x) * (x * x - 0 * 0 + K * x) - (2 * x * 0 + K * 0) * (2 * x * 0 + K * 0) +
    2 * (c + 1) / (c - 1) * (x * x - 0 * 0 + K * x) + (c * (1 + K * K) - 1) / (c - 1)) * (c - 1)) with
    (c * ((1 + x * x) * (1 + (K + x) * (K + x))) - (1 - K * x - x * x) * (1 - K * x - x * x)) by (field; lra).
  lra.
Qed.

(** the solution in closed form *)
Section Solve.
  Variables K co si : R.
  Hypothesis unit : si * si + co * co = 1.
  Hypothesis spos : 0 < si.
  Definition width_of : R := 2 * (- co + sqrt (co * co + si * si * (1 + K * K / 4))) / si.
  Lemma width_pos : 0 < width_of.
  Proof.
    unfold width_of. set (q := co * co + si * si * (1 + K * K / 4)).
    assert (co * co < q) as Q by (unfold q; assert (0 < si * si) by nra; assert (0 < si * si * (1 + K * K / 4)) by (apply Rmult_lt_0_compat; nra); lra).
    assert (Rabs co < sqrt q) as L.
    { rewrite <- sqrt_Rsqr_abs. apply sqrt_lt_1; [apply Rle_0_sqr|nra|unfold Rsqr; exact Q]. }
    pose proof (Rle_abs co). apply Rdiv_lt_0_compat; lra.
  Qed.
  Lemma width_eq : co * width_of = si * (1 + (K * K - width_of * width_of) / 4).
  Proof.
    unfold width_of. set (q := sqrt (co * co + si * si * (1 + K * K / 4))).
    assert (q * q = co * co + si * si * (1 + K * K / 4)) as Q.
    { unfold q. apply sqrt_sqrt. assert (0 <= K * K) by nra. assert (0 <= si * si * (1 + K * K / 4)) by (apply Rmult_le_pos; nra). nra. }
    apply Rmult_eq_reg_r with si; [|lra].
    transitivity (2 * co * (q - co)); [field; lra|].
    replace (si * (1 + (K * K - 2 * (- co + q) / si * (2 * (- co + q) / si)) / 4) * si) with (si * si * (1 + K * K / 4) - (q - co) * (q - co)) by (field; lra).
    replace (si * si * (1 + K * K / 4)) with (q * q - co * co) by lra. ring.
  Qed.
  Definition sol : R := (width_of - K) / 2.
  Lemma sol_D : co * width_of = si * DD K sol.
  Proof. rewrite width_eq. unfold DD, sol. field. Qed.
  Lemma sol_root : DD K sol * DD K sol = co * co * NN K sol.
  Proof.
    rewrite <- NN_DD. replace (K + 2 * sol) with width_of by (unfold sol; field).
    transitivity (co * width_of * (co * width_of) + co * co * (DD K sol * DD K sol)); [|ring].
    rewrite sol_D. transitivity ((si * si + co * co) * (DD K sol * DD K sol)); [rewrite unit; ring|ring].
  Qed.
  Lemma sol_val : co * DD K sol = co * co * width_of / si.
  Proof. replace (DD K sol) with (co * width_of / si); [field; lra|]. rewrite sol_D. field. lra. Qed.
End Solve.

Lemma deg_range : forall f, 0 < f < 180 -> 0 < deg f < PI.
Proof. intros f F. unfold deg. pose proof PI_RGT_0. split; [|]; nra. Qed.

(** *** C41 *)
Definition angle_between (t0 t1 : R) : R := atan t1 - atan t0.

Section C41.
  Variable eig : R -> R -> R -> R -> option (list cplx).
  Variables f t fov : R.
  Hypothesis F : 0 < f.
  Hypothesis V : 0 < fov < 180.
  Let K := 2 * t.
  Hypothesis EX : eig_exact_for eig K fov.

  Lemma c_range : 0 <= cos (deg fov) * cos (deg fov) < 1.
  Proof.
    pose proof (deg_range fov V) as D. pose proof (sin_gt_0 (deg fov) (proj1 D) (proj2 D)) as S. pose proof (sin2_cos2 (deg fov)) as T. unfold Rsqr in T. nra.
  Qed.

  Lemma candidates : forall x l, roots_real eig (coef0 K (cos (deg fov) * cos (deg fov))) (coef1 K (cos (deg fov) * cos (deg fov))) (coef2 K (cos (deg fov) * cos (deg fov))) (coef3 K) = Some l ->
    (In x l -> DD K x * DD K x = cos (deg fov) * cos (deg fov) * NN K x \/
      (x = - K / 2 /\ exists b, b <> 0 /\ let p := - (K * K) / 4 - b * b in (1 - p) * (1 - p) = cos (deg fov) * cos (deg fov) * ((1 + p) * (1 + p) + K * K))) /\
    (DD K x * DD K x = cos (deg fov) * cos (deg fov) * NN K x -> In x l).
  Proof.
    intros x l H. unfold roots_real in H. pose proof (EX) as X. unfold eig_exact_for, eig_exact_at in X. cbv zeta in X.
    destruct (eig _ _ _ _) as [w|]; [|discriminate]. inversion H as [Hl]. clear H. destruct (X w eq_refl) as [X1 X2]. pose proof c_range as C. split.
    - intro I. apply in_map_iff in I as ((a, b) & <- & I). apply filter_In in I as [I _]. cbn [fst].
      destruct (quartic_roots _ _ _ _ C (X1 _ I)) as [(B0 & R0)|(B0 & R0 & P)]; [now left|right]. split; [exact R0|]. exists b. split; [exact B0|exact P].
    - intro E. apply in_map_iff. exists (x, 0). split; [reflexivity|]. apply filter_In. split; [apply X2; apply quartic_real; [lra|exact E]|].
      cbn [snd]. rewrite Rabs_R0. destruct (Rle_dec _ _); [reflexivity|exfalso; lra].
  Qed.

  Lemma cxy_picks : forall cxy, pinhole_cxy eig f t fov = Some cxy ->
    exists C, cxy = C * f /\ 0 < (K + 2 * C) * f + 1 /\ DD K C = cos (deg fov) * sqrt (NN K C).
  Proof.
    intros cxy H. unfold pinhole_cxy in H. fold K in H. change (fov * PI / 180) with (deg fov) in H.
    change (K * K + 1 + K * K / (cos (deg fov) * cos (deg fov) - 1)) with (coef0 K (cos (deg fov) * cos (deg fov))) in H.
    change (2 * K + K * 4 / (cos (deg fov) * cos (deg fov) - 1)) with (coef1 K (cos (deg fov) * cos (deg fov))) in H.
    change (K * K + 2 + 4 / (cos (deg fov) * cos (deg fov) - 1)) with (coef2 K (cos (deg fov) * cos (deg fov))) in H.
    change (2 * K) with (coef3 K) in H.
    destruct (roots_real _ _ _ _ _) as [l|] eqn:El; [|discriminate].
    set (co := cos (deg fov)) in *. set (si := sin (deg fov)).
    set (ok1 := fun c => if Rge_dec (co * (1 - K * c - c * c)) (- (1 / 1000000000)) then true else false) in *.
    set (ok2 := fun c => if Rgt_dec ((t * f + c * f) * 2 + 1) 0 then true else false) in *.
    set (l1 := discard ok1 (length l) l) in *. set (l2 := discard ok2 (length l1) l1) in *.
    destruct (pick (fun c => co * (1 - K * c - c * c)) None l2) as [C|] eqn:Ep; [|discriminate]. inversion H. clear H.
    destruct (pick_spec _ _ _ _ Ep) as [Pi Pm]. destruct Pi as [Pi|Pi]; [discriminate|].
    assert (In2 : forall x, In x l2 <-> In x l /\ ok1 x = true /\ ok2 x = true).
    { intro x. unfold l2. rewrite discard_spec by lia. unfold l1. rewrite discard_spec by lia. tauto. }
    apply In2 in Pi as (Pi & _ & O2). unfold ok2 in O2. destruct (Rgt_dec _ _) as [O2'|]; [clear O2|discriminate].
    exists C. split; [reflexivity|]. split; [unfold K; lra|].
    (* the true solution is among the candidates *)
    pose proof (deg_range fov V) as D. pose proof (sin_gt_0 (deg fov) (proj1 D) (proj2 D)) as Sp. fold si in Sp.
    assert (U : si * si + co * co = 1) by (pose proof (sin2_cos2 (deg fov)) as T; unfold Rsqr in T; exact T).
    pose proof (width_pos K co si Sp) as Wp. pose proof (sol_root K co si U Sp) as Sr. pose proof (sol_val K co si Sp) as Sv. pose proof (sol_D K co si Sp) as Sd.
    set (s := width_of K co si) in *. set (C' := sol K co si) in *.
    assert (Es : K + 2 * C' = s) by (unfold C', sol; fold s; field).
    assert (V0 : 0 <= co * co * s / si) by (apply Rmult_le_pos; [apply Rmult_le_pos; nra|apply Rlt_le, Rinv_0_lt_compat; exact Sp]).
    assert (In C' l2) as I'.
    { apply In2. split; [apply (proj2 (candidates C' l El)); exact Sr|]. split.
      - unfold ok1. change (1 - K * C' - C' * C') with (DD K C'). destruct (Rge_dec _ _) as [|N]; [reflexivity|exfalso; rewrite Sv in N; lra].
      - unfold ok2. destruct (Rgt_dec _ _) as [|N]; [reflexivity|exfalso]. apply N. replace (t * f + C' * f) with ((K + 2 * C') * f / 2) by (unfold K; field).
        rewrite Es. assert (0 < s * f) by (apply Rmult_lt_0_compat; assumption). lra. }
    pose proof (Pm C' (or_introl I')) as M. cbv beta in M. change (1 - K * C' - C' * C') with (DD K C') in M. change (1 - K * C - C * C) with (DD K C) in M.
    rewrite Sv in M. pose proof c_range as Cr. fold co in Cr.
    destruct (proj1 (candidates C l El) Pi) as [R0|(R0 & b & B0 & P0)].
    - fold co in R0. pose proof (NN_pos K C) as Np. pose proof (sqrt_lt_R0 _ Np) as Sq. pose proof (sqrt_sqrt (NN K C) ltac:(lra)) as Ss.
      set (q := sqrt (NN K C)) in *. assert ((DD K C - co * q) * (DD K C + co * q) = 0) as Z.
      { transitivity (DD K C * DD K C - co * co * (q * q)); [ring|]. rewrite Ss, R0. ring. }
      apply Rmult_integral in Z as [Z|Z]; [lra|].
      assert (co * DD K C = - (co * co * q)) as Q by (replace (DD K C) with (- (co * q)) by lra; ring).
      assert (0 <= co * co * q) by (apply Rmult_le_pos; nra). assert (co * co * q = 0) as Z2 by lra.
      apply Rmult_integral in Z2 as [Z2|Z2]; [|lra]. assert (co = 0) as Z3 by nra. rewrite Z3 in *. lra.
    - exfalso. fold co in P0. cbv zeta in P0. set (p := - (K * K) / 4 - b * b) in *.
      assert (DD K C = 1 + K * K / 4) as Dc by (rewrite R0; unfold DD; field).
      assert (0 < b * b) as Bp by nra. assert (0 <= K * K) as Kp by nra.
      destruct (Rtotal_order co 0) as [L|[L|L]].
      + assert (co * DD K C < 0) by (rewrite Dc; nra). lra.
      + rewrite L in P0. assert ((1 - p) = 0) by nra. unfold p in *. lra.
      + assert (0 < DD K C') as Dp.
        { assert (0 < si * DD K C') by (rewrite <- Sd; apply Rmult_lt_0_compat; lra). apply Rmult_lt_reg_l with si; lra. }
        set (Dq := 1 - p). assert (0 < Dq) by (unfold Dq, p; lra).
        assert (DD K C' < Dq) as Lt.
        { unfold Dq, p. assert (DD K C' = 1 + (K * K - s * s) / 4) as E by (rewrite <- Es; unfold DD; field). rewrite E. assert (0 < s * s) by nra. lra. }
        assert (E1 : (1 - co * co) * (Dq * Dq) + 4 * (co * co) * Dq - co * co * (4 + K * K) = 0).
        { unfold Dq. transitivity ((1 - p) * (1 - p) - co * co * ((1 + p) * (1 + p) + K * K)); [ring|lra]. }
        assert (E2 : (1 - co * co) * (DD K C' * DD K C') + 4 * (co * co) * DD K C' - co * co * (4 + K * K) = 0).
        { transitivity (DD K C' * DD K C' - co * co * NN K C'); [unfold NN, DD; ring|lra]. }
        assert ((Dq - DD K C') * ((1 - co * co) * (Dq + DD K C') + 4 * (co * co)) = 0) as Z by lra.
        apply Rmult_integral in Z as [Z|Z]; [lra|].
        assert (0 <= (1 - co * co) * (Dq + DD K C')) by (apply Rmult_le_pos; lra). assert (0 < co * co) by nra. lra.
  Qed.

  (** The returned center makes the two edge directions (x = 0 and x = N-1 before rounding) span exactly the
      requested angle, whenever the image has any width; the center of the image is at the requested azimuth. *)
  Theorem C41_fov : forall cxy, pinhole_cxy eig f t fov = Some cxy ->
    let last := (t * f + cxy) * 2 in            (* N-1, before rounding *)
    let tan_at x := (x - cxy) / f in
    tan_at (last / 2) = t /\ -1 < last /\
    1 + tan_at 0 * tan_at last = cos (deg fov) * (sqrt (1 + tan_at 0 * tan_at 0) * sqrt (1 + tan_at last * tan_at last)) /\
    (0 < last -> angle_between (tan_at 0) (tan_at last) = deg fov).
  Proof.
    intros cxy H last tan_at. destruct (cxy_picks cxy H) as (C & Ec & Sz & Dn).
    assert (T0 : tan_at 0 = - C) by (unfold tan_at; rewrite Ec; field; lra).
    assert (T1 : tan_at last = K + C) by (unfold tan_at, last, K; rewrite Ec; field; lra).
    assert (N2 : sqrt (1 + tan_at 0 * tan_at 0) * sqrt (1 + tan_at last * tan_at last) = sqrt (NN K C)).
    { rewrite <- sqrt_mult by nra. rewrite T0, T1. f_equal. unfold NN. ring. }
    assert (D2 : 1 + tan_at 0 * tan_at last = DD K C) by (rewrite T0, T1; unfold DD; ring).
    assert (L2 : last = (K + 2 * C) * f) by (unfold last, K; rewrite Ec; ring).
    split; [unfold tan_at, last; field; lra|]. split; [lra|]. split; [rewrite N2, D2; exact Dn|].
    intro Lp. rewrite T0, T1. unfold angle_between.
    assert (0 < K + 2 * C) as Wp. { apply Rmult_lt_reg_r with f; [exact F|]. rewrite <- L2. lra. }
    assert (- C < K + C) as Lt by lra. pose proof (atan_increasing _ _ Lt) as Ai.
    pose proof (atan_bound (- C)) as B1. pose proof (atan_bound (K + C)) as B2. pose proof (deg_range fov V) as D.
    assert (cos (atan (K + C) - atan (- C)) = cos (deg fov)) as E.
    { rewrite cos_minus, !cos_atan, !sin_atan. unfold Rsqr.
      pose proof (NN_pos K C) as Np. pose proof (sqrt_lt_R0 _ Np) as Sq.
      assert (Es : sqrt (NN K C) = sqrt (1 + (K + C) * (K + C)) * sqrt (1 + - C * - C)).
      { rewrite <- sqrt_mult by nra. f_equal. unfold NN. ring. }
      assert (0 < sqrt (1 + (K + C) * (K + C))) by (apply sqrt_lt_R0; nra). assert (0 < sqrt (1 + - C * - C)) by (apply sqrt_lt_R0; nra).
      apply Rmult_eq_reg_r with (sqrt (NN K C)); [|lra]. rewrite <- Dn. rewrite Es. unfold DD. field. split; lra. }
    rewrite <- (acos_cos (atan (K + C) - atan (- C))) by lra. rewrite E. apply acos_cos. lra.
  Qed.

  (** a center is found whenever the eigenvalue solver succeeds *)
  Theorem C41_found : (forall c0 c1 c2 c3, eig c0 c1 c2 c3 <> None) -> pinhole_cxy eig f t fov <> None.
  Proof.
    intros Ok H. unfold pinhole_cxy in H. fold K in H. change (fov * PI / 180) with (deg fov) in H.
    change (K * K + 1 + K * K / (cos (deg fov) * cos (deg fov) - 1)) with (coef0 K (cos (deg fov) * cos (deg fov))) in H.
    change (2 * K + K * 4 / (cos (deg fov) * cos (deg fov) - 1)) with (coef1 K (cos (deg fov) * cos (deg fov))) in H.
    change (K * K + 2 + 4 / (cos (deg fov) * cos (deg fov) - 1)) with (coef2 K (cos (deg fov) * cos (deg fov))) in H.
    change (2 * K) with (coef3 K) in H.
    destruct (roots_real _ _ _ _ _) as [l|] eqn:El.
    2: { unfold roots_real in El. destruct (eig _ _ _ _) eqn:Q; [discriminate|]. exact (Ok _ _ _ _ Q). }
    set (co := cos (deg fov)) in *. set (si := sin (deg fov)).
    match type of H with match pick ?v None ?l2 with _ => _ end = None => destruct (pick v None l2) eqn:Ep; [discriminate|]; revert Ep; apply pick_some; right; set (l2' := l2) end.
    pose proof (deg_range fov V) as D. pose proof (sin_gt_0 (deg fov) (proj1 D) (proj2 D)) as Sp. fold si in Sp.
    assert (U : si * si + co * co = 1) by (pose proof (sin2_cos2 (deg fov)) as T; unfold Rsqr in T; exact T).
    pose proof (width_pos K co si Sp) as Wp. pose proof (sol_root K co si U Sp) as Sr. pose proof (sol_val K co si Sp) as Sv.
    set (s := width_of K co si) in *. set (C' := sol K co si) in *.
    assert (Es : K + 2 * C' = s) by (unfold C', sol; fold s; field).
    assert (V0 : 0 <= co * co * s / si) by (apply Rmult_le_pos; [apply Rmult_le_pos; nra|apply Rlt_le, Rinv_0_lt_compat; exact Sp]).
    assert (In C' l2') as I'.
    { unfold l2'. apply discard_spec; [lia|]. split; [apply discard_spec; [lia|]; split|].
      - apply (proj2 (candidates C' l El)); exact Sr.
      - change (1 - K * C' - C' * C') with (DD K C'). destruct (Rge_dec _ _) as [|N]; [reflexivity|exfalso; rewrite Sv in N; lra].
      - destruct (Rgt_dec _ _) as [|N]; [reflexivity|exfalso]. apply N. replace (t * f + C' * f) with ((K + 2 * C') * f / 2) by (unfold K; field).
        rewrite Es. assert (0 < s * f) by (apply Rmult_lt_0_compat; assumption). lra. }
    intro Q. rewrite Q in I'. exact I'.
  Qed.
End C41.
Print Assumptions C41_fov.

(** *** the whole image *)
Lemma atan_tan_in : forall x, - (PI / 2) < x < PI / 2 -> atan (tan x) = x.
Proof. intros x H. apply atan_tan. lra. Qed.
(** the middle of the view is between the direction perpendicular to the baseline and the requested center *)
Lemma middle_nonneg : forall a al be, - (PI / 2) < al -> al < be -> be < PI / 2 -> 0 <= a < PI / 2 ->
  tan al + tan be = 2 * tan a -> 0 <= (al + be) / 2 <= a.
Proof.
  intros a al be L1 L2 L3 Ha E. set (m := (al + be) / 2). set (h := (be - al) / 2).
  assert (al = m - h) as Ea by (unfold m, h; field). assert (be = m + h) as Eb by (unfold m, h; field).
  assert (Hm : - (PI / 2) < m < PI / 2) by (unfold m; lra). assert (Hh : 0 < h < PI / 2) by (unfold h; lra).
  pose proof (cos_gt_0 al ltac:(lra) ltac:(lra)) as Ca. pose proof (cos_gt_0 be ltac:(lra) ltac:(lra)) as Cb.
  pose proof (cos_gt_0 m ltac:(lra) ltac:(lra)) as Cm. pose proof (cos_gt_0 a ltac:(lra) ltac:(lra)) as Ca0.
  assert (E1 : tan al + tan be = 2 * (sin m * cos m) / (cos al * cos be)).
  { unfold tan. transitivity ((sin al * cos be + cos al * sin be) / (cos al * cos be)); [field; split; lra|].
    rewrite <- sin_plus. replace (al + be) with (2 * m) by (unfold m; field). rewrite sin_2a. f_equal. ring. }
  assert (E2 : cos al * cos be = cos m * cos m - sin h * sin h).
  { rewrite Ea, Eb, cos_minus, cos_plus. pose proof (sin2_cos2 m) as T1. pose proof (sin2_cos2 h) as T2. unfold Rsqr in *.
    transitivity (cos m * cos m * (cos h * cos h) - sin m * sin m * (sin h * sin h)); [ring|].
    replace (cos h * cos h) with (1 - sin h * sin h) by lra. replace (sin m * sin m) with (1 - cos m * cos m) by lra. ring. }
  assert (Ta : 0 <= tan a).
  { unfold tan. apply Rmult_le_pos; [apply sin_ge_0; lra|apply Rlt_le, Rinv_0_lt_compat; exact Ca0]. }
  assert (P0 : 0 < cos al * cos be) by (apply Rmult_lt_0_compat; assumption).
  assert (E3 : sin m * cos m = tan a * (cos al * cos be)).
  { rewrite E1 in E. apply Rmult_eq_reg_l with 2; [|lra]. transitivity (2 * (sin m * cos m) / (cos al * cos be) * (cos al * cos be)); [field; split; lra|]. rewrite E. ring. }
  assert (S0 : 0 <= sin m).
  { apply Rmult_le_reg_r with (cos m); [exact Cm|]. rewrite Rmult_0_l, E3. apply Rmult_le_pos; lra. }
  assert (M0 : 0 <= m).
  { destruct (Rle_dec 0 m) as [|N]; [assumption|exfalso]. pose proof (sin_lt_0_var m ltac:(lra) ltac:(lra)). lra. }
  split; [exact M0|]. destruct (Rle_dec m a) as [|N]; [assumption|exfalso].
  assert (tan a < tan m) as Lt by (apply tan_increasing; lra).
  assert (tan m * (cos m * cos m) = sin m * cos m) as Tm by (unfold tan; field; lra).
  rewrite E3 in Tm. assert (0 <= sin h * sin h) by nra.
  assert (tan a * (cos al * cos be) <= tan a * (cos m * cos m)) by (apply Rmult_le_compat_l; lra).
  assert (tan a * (cos m * cos m) < tan m * (cos m * cos m)) by (apply Rmult_lt_compat_r; nra). lra.
Qed.
Lemma edges_clear : forall a al be b, - (PI / 2) < al -> al < be -> be < PI / 2 -> - (PI / 2) < a < PI / 2 ->
  tan al + tan be = 2 * tan a -> - b < a - (be - al) / 2 -> a + (be - al) / 2 < b -> - b < al /\ be < b.
Proof.
  intros a al be b L1 L2 L3 Ha E B1 B2. destruct (Rle_dec 0 a) as [P|P].
  - pose proof (middle_nonneg a al be L1 L2 L3 ltac:(lra) E). lra.
  - pose proof (middle_nonneg (- a) (- be) (- al) ltac:(lra) ltac:(lra) ltac:(lra) ltac:(lra)) as M.
    rewrite !tan_neg in M. specialize (M ltac:(lra)). lra.
Qed.

Definition pixel_elevation_deg (c : core) (y : R) : R := atan ((y - cy c) / fy c) * 180 / PI.

Section C41_image.
  Variable eig : R -> R -> R -> R -> option (list cplx).
  Variable dq_dv : v3 -> j23.

  (** one axis.  [last]: the coordinate of the last pixel before rounding to whole pixels *)
  Lemma one_axis : forall f a fov x, 0 < f -> -90 < a < 90 -> 0 < fov < 180 -> eig_exact_for eig (2 * tan (a * PI / 180)) fov ->
    pinhole_cxy eig f (tan (a * PI / 180)) fov = Some x ->
    let last := (tan (a * PI / 180) * f + x) * 2 in let at_ p := atan ((p - x) / f) * 180 / PI in
    at_ (last / 2) = a /\ -1 < last /\
    (0 < last -> at_ last - at_ 0 = fov /\
      forall b, - b < a - fov / 2 -> a + fov / 2 < b -> - b < at_ 0 /\ at_ last < b).
  Proof.
    intros f a fov x F A V EX H last at_. pose proof PI_RGT_0 as P.
    pose proof (C41_fov eig f (tan (a * PI / 180)) fov F V EX x H) as (T0 & T1 & _ & T3). fold last in T0, T1, T3.
    assert (Ar : - (PI / 2) < a * PI / 180 < PI / 2) by (split; nra).
    split; [unfold at_; rewrite T0, atan_tan_in by exact Ar; field; lra|]. split; [exact T1|].
    intro L. specialize (T3 L). unfold angle_between in T3. unfold deg in T3. split.
    - unfold at_. replace fov with ((fov * PI / 180) * 180 / PI) by (field; lra). rewrite <- T3. field. lra.
    - intros b B1 B2. set (al := atan ((0 - x) / f)) in *. set (be := atan ((last - x) / f)) in *.
      pose proof (atan_bound ((0 - x) / f)) as Q1. pose proof (atan_bound ((last - x) / f)) as Q2. fold al in Q1. fold be in Q2.
      assert (Fr : 0 < fov * PI / 180) by nra.
      assert (Te : tan al + tan be = 2 * tan (a * PI / 180)).
      { unfold al, be. rewrite !tan_atan. unfold last. field. lra. }
      destruct (edges_clear (a * PI / 180) al be (b * PI / 180)) as [E1 E2]; try lra; try assumption.
      + rewrite T3. replace (a * PI / 180 - fov * PI / 180 / 2) with ((a - fov / 2) * (PI / 180)) by field.
        replace (- (b * PI / 180)) with (- b * (PI / 180)) by field. apply Rmult_lt_compat_r; lra.
      + rewrite T3. replace (a * PI / 180 + fov * PI / 180 / 2) with ((a + fov / 2) * (PI / 180)) by field.
        replace (b * PI / 180) with (b * (PI / 180)) by field. apply Rmult_lt_compat_r; lra.
      + unfold at_. fold al be. split.
        * replace (- b) with (- (b * PI / 180) * (180 / PI)) by (field; lra). replace (al * 180 / PI) with (al * (180 / PI)) by (field; lra).
          apply Rmult_lt_compat_r; [apply Rdiv_lt_0_compat; lra|exact E1].
        * replace b with ((b * PI / 180) * (180 / PI)) by (field; lra). replace (be * 180 / PI) with (be * (180 / PI)) by (field; lra).
          apply Rmult_lt_compat_r; [apply Rdiv_lt_0_compat; lra|exact E2].
  Qed.

  (** A successful pinhole rectification: [last] is the last column, up to the rounding to a whole number of
      pixels.  The image is centered at the requested azimuth, spans the requested field of view, and its edges
      keep the margin. *)
  Theorem C41_image_azimuth : forall auto ppa ppe fa fe a0 e0 mg rt0 rt1 r,
    rectified_system eig dq_dv PINHOLE auto ppa ppe fa fe a0 e0 mg rt0 rt1 = Rect_ok r ->
    1 / 1000 <= mg -> 0 < fx (r_core r) -> eig_exact_for eig (2 * tan (r_az0_deg r * PI / 180)) fa ->
    exists last, Rabs (IZR (r_Naz r) - 1 - last) <= 1 / 2 /\ -1 < last /\
      pixel_azimuth_deg PINHOLE (r_core r) (last / 2) = r_az0_deg r /\
      (0 < last ->
        pixel_azimuth_deg PINHOLE (r_core r) last - pixel_azimuth_deg PINHOLE (r_core r) 0 = fa /\
        -90 + mg - 1 / 1000 < pixel_azimuth_deg PINHOLE (r_core r) 0 /\
        pixel_azimuth_deg PINHOLE (r_core r) last < 90 - mg + 1 / 1000).
  Proof.
    intros auto ppa ppe fa fe a0 e0 mg rt0 rt1 r H Mg F EX.
    destruct (rectified_system_inv _ _ _ _ _ _ _ _ _ _ _ _ _ _ H) as (ax & az0 & _ & Ca & _ & _ & _ & _ & Fa & _ & HH).
    pose proof (choose_az0_rad _ _ _ _ _ _ _ _ Ca) as Ra. pose proof (choose_az0_margin _ _ _ _ _ _ _ _ Ca) as Cl. unfold clear_of_baseline in Cl.
    destruct (rectified_resolution _ _ _ _ _ _ _ _ _) as [pa pe]. cbv zeta in HH.
    destruct HH as (x & y & Ec & Ex & _ & En & _). rewrite Ec in F. cbn [fx] in F.
    unfold pixel_azimuth_deg. rewrite Ec. cbn [fx cx]. rewrite Ra in *.
    set (f := pa / PI * 180 * (cos (r_az0_deg r * PI / 180) * cos (r_az0_deg r * PI / 180))) in *.
    destruct (one_axis f (r_az0_deg r) fa x F ltac:(lra) ltac:(lra) EX Ex) as (A1 & A2 & A3). cbv zeta in A1, A2, A3.
    exists ((tan (r_az0_deg r * PI / 180) * f + x) * 2). split; [|split; [exact A2|split; [exact A1|]]].
    - rewrite En, plus_IZR. match goal with |- context [IZR (round_away ?z)] => pose proof (round_away_error z) as Q end.
      match type of Q with Rabs ?u <= _ => match goal with |- Rabs ?v <= _ => replace v with u by ring end end. exact Q.
    - intro L. destruct (A3 L) as [B1 B2]. split; [exact B1|]. destruct (B2 (90 - mg + 1 / 1000)) as [B3 B4]; [lra|lra|]. split; [lra|exact B4].
  Qed.
  (** with two columns or more, there is a width *)
  Theorem C41_width : forall (N : Z) last, Rabs (IZR N - 1 - last) <= 1 / 2 -> (2 <= N)%Z -> 0 < last.
  Proof. intros N last H L. apply IZR_le in L. revert H. unfold Rabs. destruct (Rcase_abs _); lra. Qed.

  Theorem C41_image_elevation : forall auto ppa ppe fa fe a0 e0 mg rt0 rt1 r,
    rectified_system eig dq_dv PINHOLE auto ppa ppe fa fe a0 e0 mg rt0 rt1 = Rect_ok r ->
    -90 < e0 < 90 -> fe < 180 -> 0 < fy (r_core r) -> eig_exact_for eig (2 * tan (e0 * PI / 180)) fe ->
    exists last, Rabs (IZR (r_Nel r) - 1 - last) <= 1 / 2 /\ -1 < last /\
      pixel_elevation_deg (r_core r) (last / 2) = e0 /\
      (0 < last -> pixel_elevation_deg (r_core r) last - pixel_elevation_deg (r_core r) 0 = fe).
  Proof.
    intros auto ppa ppe fa fe a0 e0 mg rt0 rt1 r H E0 Fe2 F EX.
    destruct (rectified_system_inv _ _ _ _ _ _ _ _ _ _ _ _ _ _ H) as (ax & az0 & _ & Ca & _ & _ & _ & _ & _ & Fe & HH).
    destruct (rectified_resolution _ _ _ _ _ _ _ _ _) as [pa pe]. cbv zeta in HH.
    destruct HH as (x & y & Ec & _ & Ey & _ & En). rewrite Ec in F. cbn [fy] in F.
    unfold pixel_elevation_deg. rewrite Ec. cbn [fy cy].
    set (f := pe / PI * 180 * (cos (e0 * PI / 180) * cos (e0 * PI / 180))) in *.
    destruct (one_axis f e0 fe y F E0 ltac:(lra) EX Ey) as (A1 & A2 & A3). cbv zeta in A1, A2, A3.
    exists ((tan (e0 * PI / 180) * f + y) * 2). split; [|split; [exact A2|split; [exact A1|]]].
    - rewrite En, plus_IZR. match goal with |- context [IZR (round_away ?z)] => pose proof (round_away_error z) as Q end.
      match type of Q with Rabs ?u <= _ => match goal with |- Rabs ?v <= _ => replace v with u by ring end end. exact Q.
    - intro L. exact (proj1 (A3 L)).
  Qed.
End C41_image.
Print Assumptions C41_image_azimuth.
Print Assumptions C41_image_elevation.

(** *** an example; and a field of view beyond 180 degrees.  The polynomial only knows cos^2 of the field of
    view, so 240 and 120 degrees have the same candidates. *)
Definition ex_eig (c0 c1 c2 c3 : R) : option (list cplx) :=
  Some [(sqrt 3, 0); (- sqrt 3, 0); (/ sqrt 3, 0); (- / sqrt 3, 0)].
Lemma sqrt3 : 1 < sqrt 3 < 2 /\ sqrt 3 * sqrt 3 = 3.
Proof.
  split; [|apply sqrt_sqrt; lra]. split.
  - rewrite <- sqrt_1 at 1. apply sqrt_lt_1; lra.
  - replace 2 with (sqrt (2 * 2)) by (apply sqrt_square; lra). apply sqrt_lt_1; lra.
Qed.
Lemma cos_120 : cos (deg 120) = - (1 / 2).
Proof. unfold deg. replace (120 * PI / 180) with (- (PI / 3) + PI) by field. rewrite neg_cos, cos_neg, cos_PI3. ring. Qed.
Lemma cos_240 : cos (deg 240) = - (1 / 2).
Proof. unfold deg. replace (240 * PI / 180) with (PI / 3 + PI) by field. rewrite neg_cos, cos_PI3. ring. Qed.
Lemma ex_eig_exact : forall fov, cos (deg fov) = - (1 / 2) -> eig_exact_for ex_eig 0 fov.
Proof.
  intros fov E. unfold eig_exact_for. rewrite E. cbv zeta. intros w Hw. unfold ex_eig in Hw. inversion Hw as [Hw']. clear Hw Hw'.
  pose proof sqrt3 as [S1 S2]. assert (I3' : / sqrt 3 * / sqrt 3 = / 3) by (rewrite <- Rinv_mult_distr by lra; rewrite S2; reflexivity).
  split.
  - assert (forall x, x * x = 3 \/ x * x = / 3 -> quartic (coef0 0 (- (1 / 2) * - (1 / 2))) (coef1 0 (- (1 / 2) * - (1 / 2))) (coef2 0 (- (1 / 2) * - (1 / 2))) (coef3 0) (x, 0) = (0, 0)) as G.
    { intros x X. apply quartic_real; [lra|]. unfold DD, NN. transitivity ((1 - x * x) * (1 - x * x)); [ring|].
      transitivity (- (1 / 2) * - (1 / 2) * ((1 + x * x) * (1 + x * x))); [|ring]. destruct X as [-> | ->]; field. }
    intros z [<-|[<-|[<-|[<-|[]]]]]; apply G; [left; lra|left; lra|right; lra|right; lra].
  - intros [a b] Q. apply quartic_roots in Q; [|lra]. destruct Q as [(-> & D)|(B0 & A0 & D)].
    + unfold DD, NN in D. assert ((a * a - 3) * (a * a - / 3) = 0) as Z.
      { transitivity (4 / 3 * ((1 - 0 * a - a * a) * (1 - 0 * a - a * a) - - (1 / 2) * - (1 / 2) * ((1 + a * a) * (1 + (0 + a) * (0 + a))))); [field|]. rewrite D. ring. }
      apply Rmult_integral in Z as [Z|Z].
      * assert ((a - sqrt 3) * (a + sqrt 3) = 0) as Y by lra. apply Rmult_integral in Y as [Y|Y].
        -- replace a with (sqrt 3) by lra. now left.
        -- replace a with (- sqrt 3) by lra. right; now left.
      * assert ((a - / sqrt 3) * (a + / sqrt 3) = 0) as Y by lra. apply Rmult_integral in Y as [Y|Y].
        -- replace a with (/ sqrt 3) by lra. right; right; now left.
        -- replace a with (- / sqrt 3) by lra. right; right; right; now left.
    + exfalso. cbv zeta in D. assert (0 < b * b) by nra. replace (- (0 * 0) / 4 - b * b) with (- (b * b)) in D by field. nra.
Qed.
(** whatever the solver, if exact, and for either field of view *)
Lemma ex_cxy : forall fov, cos (deg fov) = - (1 / 2) -> pinhole_cxy ex_eig 1 0 fov = Some (sqrt 3).
Proof.
  intros fov E. pose proof sqrt3 as [S1 S2]. assert (S3 : / sqrt 3 * / sqrt 3 = / 3) by (rewrite <- Rinv_mult_distr by lra; rewrite S2; reflexivity).
  unfold pinhole_cxy. change (fov * PI / 180) with (deg fov). rewrite E. unfold roots_real, ex_eig. cbn [filter snd].
  destruct (Rle_dec (Rabs 0) (1 / 10000000)) as [L|L]; [|exfalso; rewrite Rabs_R0 in L; lra]. cbn [map fst length].
  set (r := sqrt 3) in *. set (s := / r) in *.
  cbn [discard].
  destruct (Rge_dec (- (1 / 2) * (1 - 2 * 0 * r - r * r)) (- (1 / 1000000000))) as [A|A]; [|exfalso; apply A; nra].
  destruct (Rge_dec (- (1 / 2) * (1 - 2 * 0 * - r - - r * - r)) (- (1 / 1000000000))) as [B|B]; [|exfalso; apply B; nra].
  destruct (Rge_dec (- (1 / 2) * (1 - 2 * 0 * s - s * s)) (- (1 / 1000000000))) as [C|C]; [exfalso; nra|].
  cbn [last removelast discard].
  destruct (Rge_dec (- (1 / 2) * (1 - 2 * 0 * - s - - s * - s)) (- (1 / 1000000000))) as [D|D]; [exfalso; nra|].
  cbn [length discard].
  destruct (Rgt_dec ((0 * 1 + r * 1) * 2 + 1) 0) as [F|F]; [|exfalso; apply F; lra].
  destruct (Rgt_dec ((0 * 1 + - r * 1) * 2 + 1) 0) as [G|G]; [exfalso; lra|].
  cbn [pick]. f_equal. ring.
Qed.
Lemma pinhole_example : forall fe, 0 < fe -> cos (deg fe) = - (1 / 2) ->
  exists r, rectified_system ex_eig (fun _ => J23 v0 v0) PINHOLE false (PI / 180) (PI / 180) 120 fe 0 0 10 (mkrt v0 v0) (mkrt v0 (V3 (-1) 0 0)) = Rect_ok r /\
    r_Naz r = 4%Z /\ r_Nel r = 4%Z /\ r_az0_deg r = 0 /\ r_core r = Core 1 1 (sqrt 3) (sqrt 3).
Proof.
  intros fe Fe Ef. pose proof PI_RGT_0 as P. pose proof sqrt3 as [S1 S2]. unfold rectified_system.
  destruct (Req_EM_T (PI / 180) 0); [exfalso; lra|].
  destruct (Rle_dec 120 0); [exfalso; lra|]. destruct (Rle_dec fe 0); [exfalso; lra|].
  rewrite axes_example. cbn [ax_proj ax_forward01 ax_R ax_baseline].
  assert (Ec : choose_az0 false 10 0 120 0 (V3 0 0 2) = Some (0, 0)).
  { unfold choose_az0. destruct (Rgt_dec _ _); [|exfalso; lra]. destruct (Rlt_dec _ _); [f_equal; f_equal; field|exfalso; lra]. }
  rewrite Ec. unfold rectified_resolution. destruct (center_vector _ _ _) as [v J].
  destruct (Rlt_dec (PI / 180) 0); [exfalso; lra|].
  replace (0 * PI / 180) with 0 by field. rewrite cos_0, tan_0.
  replace (PI / 180 / PI * 180 * (1 * 1)) with 1 by (field; lra).
  rewrite (ex_cxy 120 cos_120), (ex_cxy fe Ef).
  assert (round_away ((0 * 1 + sqrt 3) * 2) = 3%Z) as En.
  { assert (7 / 4 > sqrt 3 /\ 17 / 10 < sqrt 3) as [Q1 Q2].
    { split; [apply Rnot_le_lt; intro; nra|apply Rnot_le_lt; intro; nra]. }
    unfold round_away. destruct (Rle_dec _ _); [|exfalso; lra]. pose proof (base_Int_part ((0 * 1 + sqrt 3) * 2 + 1 / 2)) as [A B].
    set (k := Int_part _) in *. assert (IZR k < IZR 4) as L1 by lra. assert (IZR 2 < IZR k) as L2 by lra. apply lt_IZR in L1, L2. lia. }
  rewrite En. cbn [Z.add Z.eqb Pos.add Pos.succ]. eexists. split; [reflexivity|]. cbn. auto.
Qed.
Lemma atan_sqrt3 : atan (sqrt 3) = PI / 3.
Proof. rewrite <- tan_PI3. apply atan_tan. pose proof PI_RGT_0. lra. Qed.
Lemma span_example : forall r, r_core r = Core 1 1 (sqrt 3) (sqrt 3) ->
  pixel_elevation_deg (r_core r) (2 * sqrt 3) - pixel_elevation_deg (r_core r) 0 = 120.
Proof.
  intros r ->. unfold pixel_elevation_deg. cbn [cy fy]. replace ((2 * sqrt 3 - sqrt 3) / 1) with (sqrt 3) by field.
  replace ((0 - sqrt 3) / 1) with (- sqrt 3) by field. rewrite atan_opp, atan_sqrt3. field. pose proof PI_RGT_0. lra.
Qed.
(** the hypotheses of the theorems above can be met: a 120-degree view, 4 pixels wide *)
Example ex_C41 : exists r,
  rectified_system ex_eig (fun _ => J23 v0 v0) PINHOLE false (PI / 180) (PI / 180) 120 120 0 0 10 (mkrt v0 v0) (mkrt v0 (V3 (-1) 0 0)) = Rect_ok r /\
  0 < fx (r_core r) /\ 0 < fy (r_core r) /\ r_Naz r = 4%Z /\
  eig_exact_for ex_eig (2 * tan (r_az0_deg r * PI / 180)) 120 /\ eig_exact_for ex_eig (2 * tan (0 * PI / 180)) 120.
Proof.
  destruct (pinhole_example 120 ltac:(lra) cos_120) as (r & H & N & _ & A & C). exists r. split; [exact H|]. rewrite C, A. cbn [fx fy].
  replace (2 * tan (0 * PI / 180)) with 0 by (replace (0 * PI / 180) with 0 by field; rewrite tan_0; ring).
  pose proof (ex_eig_exact 120 cos_120). split; [lra|split; [lra|split; [exact N|split; assumption]]].
Qed.
(** Nothing bounds the elevation field of view.  Asked for 240 degrees with an exact solver, the function
    reports success with an image that spans 120. *)
Theorem C41_wide_elevation_refuted : exists eig auto ppa ppe fa fe a0 e0 mg rt0 rt1 r last,
  rectified_system eig (fun _ => J23 v0 v0) PINHOLE auto ppa ppe fa fe a0 e0 mg rt0 rt1 = Rect_ok r /\
  eig_exact_for eig (2 * tan (e0 * PI / 180)) fe /\ 0 < fy (r_core r) /\ fe = 240 /\
  Rabs (IZR (r_Nel r) - 1 - last) <= 1 / 2 /\ pixel_elevation_deg (r_core r) (last / 2) = e0 /\
  pixel_elevation_deg (r_core r) last - pixel_elevation_deg (r_core r) 0 = 120.
Proof.
  destruct (pinhole_example 240 ltac:(lra) cos_240) as (r & H & _ & N & _ & C). pose proof sqrt3 as [S1 S2].
  exists ex_eig, false, (PI / 180), (PI / 180), 120, 240, 0, 0, 10, (mkrt v0 v0), (mkrt v0 (V3 (-1) 0 0)), r, (2 * sqrt 3).
  split; [exact H|]. split; [replace (2 * tan (0 * PI / 180)) with 0 by (replace (0 * PI / 180) with 0 by field; rewrite tan_0; ring); apply ex_eig_exact, cos_240|].
  split; [rewrite C; cbn; lra|]. split; [reflexivity|]. split; [|split; [|exact (span_example r C)]].
  - rewrite N. assert (7 / 4 > sqrt 3 /\ 17 / 10 < sqrt 3) as [Q1 Q2] by (split; apply Rnot_le_lt; intro; nra).
    apply Rabs_le. lra.
  - rewrite C. unfold pixel_elevation_deg. cbn [cy fy]. replace ((2 * sqrt 3 / 2 - sqrt 3) / 1) with 0 by field. rewrite atan_0. field. apply PI_neq0.
Qed.
Print Assumptions C41_wide_elevation_refuted.
Print Assumptions C41_found.
Print Assumptions C41_width.
