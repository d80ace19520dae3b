(** C89: the ellipses plotted for a covariance are those of one standard deviation. *)
From Coq Require Import Reals Lra Lia List Permutation Sorted Bool.
From Verif Require Import M_Project P_Atan2 M_Ellipse.
Import ListNotations.
Open Scope R_scope.

(** ** Specification *)
Fixpoint inner (x y : list R) : R := match x, y with a :: x', b :: y' => a * b + inner x' y' | _, _ => 0 end.
Definition column (k : nat) (v : matrix) : list R := map (fun row => nth k row 0) v.
Definition eigenpair (M : matrix) (l : R) (x : list R) : Prop := map (fun row => inner row x) M = map (Rmult l) x /\ inner x x = 1.
(** contract of np.linalg.eig(): normalized eigenvectors in the columns *)
Definition eig_ok (n : nat) (M : matrix) (lv : list R * matrix) : Prop :=
  length (fst lv) = n /\ length (snd lv) = n /\ (forall row, In row (snd lv) -> length row = n) /\
  forall k, (k < n)%nat -> eigenpair M (nth k (fst lv) 0) (column k (snd lv)).
(** for a symmetric (2,2) matrix the two eigenvectors aren't parallel *)
Definition independent2 (v : matrix) : Prop := forall p r s t, column 0 v = [p; r] -> column 1 v = [s; t] -> p * t - r * s <> 0.
(** contract of np.argsort(): the indices, in an order that sorts the values *)
Definition argsort_ok (l : list R) (i : list nat) : Prop := Permutation i (seq 0 (length l)) /\ StronglySorted Rle (map (fun k => nth k l 0) i).

(** the points of the ellipse that gnuplot draws *)
Definition drawn (e : ellipse) (q : R * R) : Prop :=
  exists phi, let x := e_major e / 2 * cos phi in let y := e_minor e / 2 * sin phi in let th := e_angle e * PI / 180 in
  q = (e_x e + cos th * x - sin th * y, e_y e + sin th * x + cos th * y).
(** the variance of n0*x + n1*y *)
Definition variance (a b c n0 n1 : R) : R := n0 * n0 * a + 2 * n0 * n1 * b + n1 * n1 * c.

(** ** sorted_eig() *)
Lemma column_take : forall i v k, (k < length i)%nat -> column k (map (take i) v) = column (nth k i 0%nat) v.
Proof.
  intros i v k H. unfold column. rewrite map_map. apply map_ext. intro row. unfold take.
  rewrite (nth_indep _ 0 (nth 0%nat row 0)) by (now rewrite map_length). now rewrite (map_nth (fun k => nth k row 0)).
Qed.
Lemma nth_take : forall i l k, (k < length i)%nat -> nth k (take i l) 0 = nth (nth k i 0%nat) l 0.
Proof.
  intros i l k H. unfold take. rewrite (nth_indep _ 0 (nth 0%nat l 0)) by (now rewrite map_length). now rewrite (map_nth (fun k => nth k l 0)).
Qed.
Lemma map_nth_seq : forall {A} (d : A) l, map (fun k => nth k l d) (seq 0 (length l)) = l.
Proof.
  intros A d. induction l as [|x l IH]; [reflexivity|]. cbn [length seq map nth]. f_equal. rewrite <- seq_shift, map_map. exact IH.
Qed.

Theorem C89_sorted_eig : forall eig argsort M n, eig_ok n M (eig M) -> argsort_ok (fst (eig M)) (argsort (fst (eig M))) ->
  let r := sorted_eig eig argsort M in
  StronglySorted Rle (fst r) /\ Permutation (fst r) (fst (eig M)) /\ eig_ok n M r /\
  Permutation (map (fun k => (nth k (fst r) 0, column k (snd r))) (seq 0 n)) (map (fun k => (nth k (fst (eig M)) 0, column k (snd (eig M)))) (seq 0 n)).
Proof.
  intros eig argsort M n (L & LV & LR & E) [P S0] r. unfold r, sorted_eig. cbn [fst snd]. set (l := fst (eig M)) in *. set (v := snd (eig M)) in *. set (i := argsort l) in *.
  assert (LI : length i = n) by (rewrite (Permutation_length P), seq_length; exact L).
  assert (B : forall k, (k < n)%nat -> (nth k i 0 < n)%nat).
  { intros k K. assert (In (nth k i 0%nat) (seq 0 (length l))) as I0 by (eapply Permutation_in; [exact P|apply nth_In; lia]). apply in_seq in I0. lia. }
  split; [exact S0|]. split; [|split; [split; [|split; [|split]]|]].
  - transitivity (map (fun k => nth k l 0) (seq 0 (length l))); [now apply Permutation_map|]. now rewrite map_nth_seq.
  - cbn [fst]. unfold take. now rewrite map_length.
  - cbn [snd]. now rewrite map_length.
  - cbn [snd]. intros row H. apply in_map_iff in H. destruct H as (row' & <- & _). unfold take. now rewrite map_length.
  - cbn [fst snd]. intros k K. rewrite nth_take, column_take by lia. apply E. now apply B.
  - rewrite (map_ext_in _ (fun k => (fun j => (nth j l 0, column j v)) (nth k i 0%nat))).
    + rewrite <- (map_map (fun k => nth k i 0%nat) (fun j => (nth j l 0, column j v))). rewrite <- LI at 1. rewrite map_nth_seq.
      apply Permutation_map. rewrite <- L. exact P.
    + intros k K. apply in_seq in K. rewrite nth_take, column_take by lia. reflexivity.
Qed.
Print Assumptions C89_sorted_eig.

(** ** symmetric (2,2) matrices *)
Lemma spectral : forall a b c l0 l1 p r s t,
  a * p + b * r = l0 * p -> b * p + c * r = l0 * r -> a * s + b * t = l1 * s -> b * s + c * t = l1 * t ->
  p * p + r * r = 1 -> s * s + t * t = 1 -> p * t - r * s <> 0 ->
  a = l0 * p * p + l1 * r * r /\ b = (l0 - l1) * p * r /\ c = l0 * r * r + l1 * p * p.
Proof.
  intros a b c l0 l1 p r s t E1 E2 E3 E4 U V D. destruct (Req_dec l0 l1) as [L | L].
  - subst l1.
    assert (A0 : (a - l0) * (p * t - r * s) = 0). { replace ((a - l0) * (p * t - r * s)) with (t * (a * p + b * r - l0 * p) - r * (a * s + b * t - l0 * s)) by ring. rewrite E1, E3. ring. }
    assert (B0 : b * (p * t - r * s) = 0). { replace (b * (p * t - r * s)) with (p * (a * s + b * t - l0 * s) - s * (a * p + b * r - l0 * p)) by ring. rewrite E1, E3. ring. }
    assert (C0 : (c - l0) * (p * t - r * s) = 0). { replace ((c - l0) * (p * t - r * s)) with (p * (b * s + c * t - l0 * t) - s * (b * p + c * r - l0 * r)) by ring. rewrite E2, E4. ring. }
    apply Rmult_integral in A0, B0, C0.
    assert (a = l0) by (destruct A0; [lra|contradiction]). assert (b = 0) by (destruct B0; [lra|contradiction]). assert (c = l0) by (destruct C0; [lra|contradiction]).
    repeat split.
    + replace (l0 * p * p + l0 * r * r) with (l0 * (p * p + r * r)) by ring. rewrite U. lra.
    + replace ((l0 - l0) * p * r) with 0 by ring. lra.
    + replace (l0 * r * r + l0 * p * p) with (l0 * (p * p + r * r)) by ring. rewrite U. lra.
  - assert (OR : p * s + r * t = 0).
    { assert (Z0 : (l0 - l1) * (p * s + r * t) = 0).
      { replace ((l0 - l1) * (p * s + r * t)) with ((l0 * p) * s + (l0 * r) * t - (l1 * s) * p - (l1 * t) * r) by ring. rewrite <- E1, <- E2, <- E3, <- E4. ring. }
      apply Rmult_integral in Z0. destruct Z0; [lra|assumption]. }
    set (d := p * t - r * s) in *.
    assert (Es : s = - d * r). { replace (- d * r) with (s * (p * p + r * r) - p * (p * s + r * t)) by (unfold d; ring). rewrite U, OR. ring. }
    assert (Et : t = d * p). { replace (d * p) with (t * (p * p + r * r) - r * (p * s + r * t)) by (unfold d; ring). rewrite U, OR. ring. }
    clearbody d. subst s t.
    assert (F1 : - a * r + b * p = - l1 * r). { apply (Rmult_eq_reg_l d); [|exact D]. lra. }
    assert (F2 : - b * r + c * p = l1 * p). { apply (Rmult_eq_reg_l d); [|exact D]. lra. }
    repeat split.
    + transitivity (a * (p * p + r * r)); [rewrite U; ring|].
      replace (a * (p * p + r * r)) with (p * (a * p + b * r) - r * (- a * r + b * p)) by ring. rewrite E1, F1. ring.
    + transitivity (b * (p * p + r * r)); [rewrite U; ring|].
      replace (b * (p * p + r * r)) with (r * (a * p + b * r) + p * (- a * r + b * p)) by ring. rewrite E1, F1. ring.
    + transitivity (c * (p * p + r * r)); [rewrite U; ring|].
      replace (c * (p * p + r * r)) with (r * (b * p + c * r) + p * (- b * r + c * p)) by ring. rewrite E2, F2. ring.
Qed.

Lemma psd : forall a b c x y, 0 <= a -> 0 <= c -> b * b <= a * c -> 0 <= a * x * x + 2 * b * x * y + c * y * y.
Proof.
  intros a b c x y A C D. destruct (Req_dec a 0) as [Z | Z].
  - subst a. assert (b = 0) by nra. subst b. replace (0 * x * x + 2 * 0 * x * y + c * y * y) with (c * (y * y)) by ring. apply Rmult_le_pos; [exact C|apply Rle_0_sqr].
  - apply (Rmult_le_reg_l a); [lra|]. rewrite Rmult_0_r.
    replace (a * (a * x * x + 2 * b * x * y + c * y * y)) with ((a * x + b * y) * (a * x + b * y) + (a * c - b * b) * (y * y)) by ring.
    apply Rplus_le_le_0_compat; [apply Rle_0_sqr|apply Rmult_le_pos; [lra|apply Rle_0_sqr]].
Qed.

Lemma pair_lists : forall v k, length v = 2%nat -> exists x y, column k v = [x; y].
Proof. intros [|r0 [|r1 [|? ?]]] k H; try discriminate H. eexists; eexists; reflexivity. Qed.

(** what sorted_eig() gives for a (2,2) matrix *)
Lemma eig2 : forall eig argsort a b c, let M := [[a; b]; [b; c]] in eig_ok 2 M (eig M) -> independent2 (snd (eig M)) -> argsort_ok (fst (eig M)) (argsort (fst (eig M))) ->
  0 <= a -> 0 <= c -> b * b <= a * c ->
  exists l0 l1 p r, 0 <= l0 <= l1 /\ p * p + r * r = 1 /\ a = l0 * p * p + l1 * r * r /\ b = (l0 - l1) * p * r /\ c = l0 * r * r + l1 * p * p /\
    let s := sorted_eig eig argsort M in nth 0 (fst s) 0 = l0 /\ nth 1 (fst s) 0 = l1 /\ column 0 (snd s) = [p; r].
Proof.
  intros eig argsort a b c M EO IN AO A C D. pose proof (C89_sorted_eig eig argsort M 2 EO AO) as (SO & _ & EO' & _).
  destruct AO as [P S0]. assert (L := proj1 EO). rewrite L in P. cbn [seq] in P. apply Permutation_sym, Permutation_length_2_inv in P.
  set (s := sorted_eig eig argsort M) in *.
  destruct EO' as (L1 & L2 & L3 & E). destruct (pair_lists (snd s) 0 L2) as (p & r & E0). destruct (pair_lists (snd s) 1 L2) as (x & t & E1).
  assert (ID : p * t - r * x <> 0).
  { assert (EC : forall k, (k < 2)%nat -> column k (snd s) = column (nth k (argsort (fst (eig M))) 0%nat) (snd (eig M))).
    { intros k K. unfold s, sorted_eig. cbn [snd]. apply column_take. destruct P as [-> | ->]; cbn; lia. }
    pose proof (EC 0%nat ltac:(lia)) as Q0. pose proof (EC 1%nat ltac:(lia)) as Q1. rewrite E0 in Q0. rewrite E1 in Q1.
    destruct P as [P | P]; rewrite P in Q0, Q1; cbn [nth] in Q0, Q1.
    - apply IN; now symmetry.
    - intro Z0. apply (IN x t p r); [now symmetry|now symmetry|]. lra. }
  destruct (E 0%nat ltac:(lia)) as [V0 U0]. destruct (E 1%nat ltac:(lia)) as [V1 U1]. rewrite E0 in V0, U0. rewrite E1 in V1, U1.
  set (l0 := nth 0 (fst s) 0) in *. set (l1 := nth 1 (fst s) 0) in *. unfold M in V0, V1. cbn [map inner] in V0, V1, U0, U1.
  pose proof (f_equal (fun l => nth 0 l 0) V0) as V00. pose proof (f_equal (fun l => nth 1 l 0) V0) as V01.
  pose proof (f_equal (fun l => nth 0 l 0) V1) as V10. pose proof (f_equal (fun l => nth 1 l 0) V1) as V11. cbn [nth] in V00, V01, V10, V11.
  destruct (spectral a b c l0 l1 p r x t) as (SA & SB & SC); try lra.
  assert (U : p * p + r * r = 1) by lra.
  exists l0, l1, p, r. split; [split|repeat split; auto].
  - assert (Q : l0 = a * p * p + 2 * b * p * r + c * r * r).
    { rewrite SA, SB, SC. replace ((l0 * p * p + l1 * r * r) * p * p + 2 * ((l0 - l1) * p * r) * p * r + (l0 * r * r + l1 * p * p) * r * r) with (l0 * ((p * p + r * r) * (p * p + r * r))) by ring. rewrite U. ring. }
    rewrite Q. now apply psd.
  - unfold l0, l1. destruct (fst s) as [|y0 [|y1 ?]]; try discriminate L1. cbn [nth]. inversion SO as [|? ? _ F]. inversion F. assumption.
Qed.

Lemma all_zero_false : forall a b c, ~ (a = 0 /\ b = 0 /\ c = 0) -> all_zero [[a; b]; [b; c]] = false.
Proof.
  intros a b c H. unfold all_zero. cbn [forallb]. destruct (Req_EM_T a 0), (Req_EM_T b 0), (Req_EM_T c 0); try reflexivity. exfalso. apply H. auto.
Qed.

Definition is_one_sigma (e : ellipse) (x y a b c : R) : Prop :=
  (** in each direction, it extends as far as the standard deviation in that direction *)
  (forall n0 n1, (forall q, drawn e q -> n0 * (fst q - x) + n1 * (snd q - y) <= sqrt (variance a b c n0 n1)) /\
    exists q, drawn e q /\ n0 * (fst q - x) + n1 * (snd q - y) = sqrt (variance a b c n0 n1)) /\
  (** if the matrix can be inverted, it is where d^T Var^-1 d = 1 *)
  (b * b < a * c -> forall q, let dx := fst q - x in let dy := snd q - y in let det := a * c - b * b in
    drawn e q <-> (c / det) * dx * dx + 2 * (- b / det) * dx * dy + (a / det) * dy * dy = 1).

Theorem C89_ellipse : forall eig argsort x y a b c, let M := [[a; b]; [b; c]] in eig_ok 2 M (eig M) -> independent2 (snd (eig M)) -> argsort_ok (fst (eig M)) (argsort (fst (eig M))) ->
  0 <= a -> 0 <= c -> b * b <= a * c -> ~ (a = 0 /\ b = 0 /\ c = 0) ->
  exists e, covariance_ellipse eig argsort (x, y) M = Some e /\ is_one_sigma e x y a b c.
Proof.
  intros eig argsort x y a b c M EO IN AO A C D NZ. destruct (eig2 eig argsort a b c EO IN AO A C D) as (l0 & l1 & p & r & [P0 P01] & U & SA & SB & SC & T). fold M in T.
  unfold covariance_ellipse. fold (column 0 (snd (sorted_eig eig argsort M))). cbv zeta in T |- *. destruct T as (-> & -> & ->). unfold M. rewrite all_zero_false by exact NZ.
  eexists. split; [reflexivity|]. cbn [nth fst snd].
  destruct (atan2_spec p r) as (TC & TS & _); [lra|]. rewrite U, sqrt_1, !Rmult_1_l in TC, TS.
  assert (DR : forall q, drawn (Ellipse x y (2 * sqrt l0) (2 * sqrt l1) (180 / PI * atan2 r p)) q <->
    exists phi, q = (x + p * (sqrt l0 * cos phi) - r * (sqrt l1 * sin phi), y + r * (sqrt l0 * cos phi) + p * (sqrt l1 * sin phi))).
  { intro q. unfold drawn. cbn [e_x e_y e_major e_minor e_angle]. replace (180 / PI * atan2 r p * PI / 180) with (atan2 r p) by (field; apply PI_neq0). rewrite TC, TS.
    replace (2 * sqrt l0 / 2) with (sqrt l0) by field. replace (2 * sqrt l1 / 2) with (sqrt l1) by field. reflexivity. }
  pose proof (sqrt_sqrt l0 P0) as Q0. assert (P1 : 0 <= l1) by lra. pose proof (sqrt_sqrt l1 P1) as Q1.
  set (k0 := sqrt l0) in *. set (k1 := sqrt l1) in *. split.
  - intros n0 n1.
    set (u := k0 * (n0 * p + n1 * r)). set (w := k1 * (n1 * p - n0 * r)).
    assert (EV : variance a b c n0 n1 = u * u + w * w).
    { unfold variance, u, w. rewrite SA, SB, SC, <- Q0, <- Q1. ring. }
    rewrite EV. assert (NN : 0 <= u * u + w * w) by (pose proof (Rle_0_sqr u); pose proof (Rle_0_sqr w); unfold Rsqr in *; lra). split.
    + intros q Hq. apply DR in Hq. destruct Hq as (phi & ->). cbn [fst snd].
      replace (n0 * (x + p * (k0 * cos phi) - r * (k1 * sin phi) - x) + n1 * (y + r * (k0 * cos phi) + p * (k1 * sin phi) - y)) with (u * cos phi + w * sin phi) by (unfold u, w; ring).
      apply Rsqr_incr_0_var; [|apply sqrt_pos]. unfold Rsqr. rewrite sqrt_sqrt by exact NN.
      pose proof (sin2_cos2 phi) as SC2. unfold Rsqr in SC2. pose proof (Rle_0_sqr (u * sin phi - w * cos phi)) as G. unfold Rsqr in G.
      replace (u * u + w * w) with ((u * u + w * w) * (sin phi * sin phi + cos phi * cos phi)) by (rewrite SC2; ring). lra.
    + destruct (Req_dec (u * u + w * w) 0) as [Z | Z].
      * exists (x + p * (k0 * cos 0) - r * (k1 * sin 0), y + r * (k0 * cos 0) + p * (k1 * sin 0)). split; [apply DR; now exists 0|].
        cbn [fst snd]. rewrite cos_0, sin_0, Z, sqrt_0. assert (u = 0) by nra. unfold u in *. lra.
      * destruct (atan2_spec u w Z) as (AC & AS & _). set (phi := atan2 w u) in *. set (m := sqrt (u * u + w * w)) in *.
        exists (x + p * (k0 * cos phi) - r * (k1 * sin phi), y + r * (k0 * cos phi) + p * (k1 * sin phi)). split; [apply DR; now exists phi|]. cbn [fst snd].
        replace (n0 * (x + p * (k0 * cos phi) - r * (k1 * sin phi) - x) + n1 * (y + r * (k0 * cos phi) + p * (k1 * sin phi) - y)) with (u * cos phi + w * sin phi) by (unfold u, w; ring).
        rewrite <- AC, <- AS. pose proof (sin2_cos2 phi) as SC2. unfold Rsqr in SC2. replace (m * cos phi * cos phi + m * sin phi * sin phi) with (m * (sin phi * sin phi + cos phi * cos phi)) by ring. rewrite SC2. ring.
  - intros DP q dx dy det.
    assert (ED : det = l0 * l1).
    { unfold det. rewrite SA, SB, SC. replace ((l0 * p * p + l1 * r * r) * (l0 * r * r + l1 * p * p) - (l0 - l1) * p * r * ((l0 - l1) * p * r)) with (l0 * l1 * ((p * p + r * r) * (p * p + r * r))) by ring. rewrite U. ring. }
    assert (DP' : 0 < det) by (unfold det; lra).
    assert (L0 : 0 < l0) by (destruct (Rle_lt_or_eq_dec _ _ P0) as [|Z]; [assumption|rewrite <- Z in ED; lra]). assert (L1 : 0 < l1) by lra.
    assert (K0 : 0 < k0) by (now apply sqrt_lt_R0). assert (K1 : 0 < k1) by (now apply sqrt_lt_R0).
    set (al := p * dx + r * dy). set (be := p * dy - r * dx).
    assert (EM : (c / det) * dx * dx + 2 * (- b / det) * dx * dy + (a / det) * dy * dy = (al / k0) * (al / k0) + (be / k1) * (be / k1)).
    { rewrite ED, SA, SB, SC. unfold al, be. rewrite <- Q0, <- Q1. field. lra. }
    rewrite EM, DR.
    assert (IX : dx = p * al - r * be). { unfold al, be. transitivity ((p * p + r * r) * dx); [rewrite U; ring|ring]. }
    assert (IY : dy = r * al + p * be). { unfold al, be. transitivity ((p * p + r * r) * dy); [rewrite U; ring|ring]. }
    split.
    + intros (phi & ->). unfold dx, dy in *. cbn [fst snd] in *.
      replace (al / k0) with (cos phi). 2: { unfold al. transitivity (cos phi * (p * p + r * r)); [rewrite U; ring|field; lra]. }
      replace (be / k1) with (sin phi). 2: { unfold be. transitivity (sin phi * (p * p + r * r)); [rewrite U; ring|field; lra]. }
      pose proof (sin2_cos2 phi) as SC2. unfold Rsqr in SC2. lra.
    + intro H1. destruct (atan2_spec (al / k0) (be / k1)) as (AC & AS & _); [lra|]. rewrite H1, sqrt_1, !Rmult_1_l in AC, AS.
      exists (atan2 (be / k1) (al / k0)). rewrite AC, AS. replace (k0 * (al / k0)) with al by (field; lra). replace (k1 * (be / k1)) with be by (field; lra).
      destruct q as [qx qy]. unfold dx, dy in *. cbn [fst snd] in *. f_equal; lra.
Qed.
Print Assumptions C89_ellipse.

(** no ellipse if and only if the covariance is 0 *)
Theorem C89_none : forall eig argsort q a b c, covariance_ellipse eig argsort q [[a; b]; [b; c]] = None <-> a = 0 /\ b = 0 /\ c = 0.
Proof.
  intros eig argsort q a b c. unfold covariance_ellipse. split.
  - intro H. destruct (Req_dec a 0) as [A | A], (Req_dec b 0) as [B | B], (Req_dec c 0) as [C | C]; auto; rewrite all_zero_false in H by tauto; discriminate H.
  - intros (-> & -> & ->). unfold all_zero. cbn [forallb]. destruct (Req_EM_T 0 0); [reflexivity|lra].
Qed.
Print Assumptions C89_none.

(** ** of points *)
Fixpoint sum_over (f : R * R -> R) (q : list (R * R)) : R := match q with [] => 0 | p :: q' => f p + sum_over f q' end.
Definition average (f : R * R -> R) (q : list (R * R)) : R := sum_over f q / INR (length q).
Lemma mean_average : forall (f : R * R -> R) q, mean (map f q) = average f q.
Proof.
  intros f q. unfold mean, average. rewrite map_length. f_equal. unfold total. induction q as [|p q IH]; [reflexivity|]. cbn [map fold_right sum_over]. now rewrite IH.
Qed.
Lemma average_lin : forall f g h a b q, (forall p, h p = a * f p + b * g p) -> average h q = a * average f q + b * average g q.
Proof.
  intros f g h a b q H. unfold average. assert (E : sum_over h q = a * sum_over f q + b * sum_over g q).
  { induction q as [|p q IH]; cbn [sum_over]; [ring|]. rewrite IH, H. ring. }
  rewrite E. unfold Rdiv. ring.
Qed.
Lemma average_nonneg : forall f q, (forall p, 0 <= f p) -> 0 <= average f q.
Proof.
  intros f q H. unfold average. destruct q as [|p0 q]; [cbn; unfold Rdiv; rewrite Rmult_0_l; lra|].
  apply Rmult_le_pos; [|apply Rlt_le, Rinv_0_lt_compat, lt_0_INR; cbn; lia].
  induction (p0 :: q) as [|p l IH]; cbn [sum_over]; [lra|]. specialize (H p). lra.
Qed.

Lemma cauchy : forall a b c, (forall n0 n1, 0 <= variance a b c n0 n1) -> b * b <= a * c.
Proof.
  intros a b c PV. pose proof (PV b (- a)) as H. pose proof (PV (- c) b) as H2. pose proof (PV 1 0) as A. pose proof (PV 0 1) as C. pose proof (PV 1 1) as G1. pose proof (PV 1 (-1)) as G2.
  unfold variance in *. replace (b * b * a + 2 * b * - a * b + - a * - a * c) with (a * (a * c - b * b)) in H by ring.
  replace (- c * - c * a + 2 * - c * b * b + b * b * c) with (c * (a * c - b * b)) in H2 by ring.
  set (d := a * c - b * b) in *. destruct (Rle_dec 0 d) as [|N]; [unfold d in *; lra|].
  assert (a = 0) by nra. assert (c = 0) by nra. assert (b = 0) by lra. subst. unfold d in N. lra.
Qed.
Theorem C89_points : forall eig argsort q, let X := average fst q in let Y := average snd q in
  let a := average (fun p => (fst p - X) * (fst p - X)) q in let b := average (fun p => (fst p - X) * (snd p - Y)) q in let c := average (fun p => (snd p - Y) * (snd p - Y)) q in
  let M := [[a; b]; [b; c]] in eig_ok 2 M (eig M) -> independent2 (snd (eig M)) -> argsort_ok (fst (eig M)) (argsort (fst (eig M))) ->
  (forall n0 n1, variance a b c n0 n1 = average (fun p => (n0 * (fst p - X) + n1 * (snd p - Y)) ^ 2) q) /\
  (points_and_ellipse eig argsort q = None \/ exists e, points_and_ellipse eig argsort q = Some e /\ is_one_sigma e X Y a b c).
Proof.
  intros eig argsort q X Y a b c M EO IN AO.
  assert (EV : forall n0 n1, variance a b c n0 n1 = average (fun p => (n0 * (fst p - X) + n1 * (snd p - Y)) ^ 2) q).
  { intros n0 n1. unfold variance. symmetry.
    rewrite (average_lin (fun p => n0 * n0 * ((fst p - X) * (fst p - X)) + 2 * n0 * n1 * ((fst p - X) * (snd p - Y))) (fun p => (snd p - Y) * (snd p - Y)) _ 1 (n1 * n1)) by (intro; ring).
    rewrite (average_lin (fun p => (fst p - X) * (fst p - X)) (fun p => (fst p - X) * (snd p - Y)) _ (n0 * n0) (2 * n0 * n1)) by (intro; ring). fold a b c. ring. }
  split; [exact EV|].
  assert (PV : forall n0 n1, 0 <= variance a b c n0 n1) by (intros; rewrite EV; apply average_nonneg; intro; apply pow2_ge_0).
  assert (A : 0 <= a) by (pose proof (PV 1 0) as H; unfold variance in H; lra).
  assert (C : 0 <= c) by (pose proof (PV 0 1) as H; unfold variance in H; lra).
  assert (D : b * b <= a * c) by (now apply cauchy).
  assert (ET : points_and_ellipse eig argsort q = covariance_ellipse eig argsort (X, Y) M).
  { unfold points_and_ellipse. cbn [fst snd]. rewrite !map_map. rewrite !mean_average. fold X Y. unfold M, a, b, c. cbn [fst snd].
    replace (average (fun p => (snd p - Y) * (fst p - X)) q) with (average (fun p => (fst p - X) * (snd p - Y)) q); [reflexivity|].
    rewrite (average_lin (fun p => (snd p - Y) * (fst p - X)) fst (fun p => (fst p - X) * (snd p - Y)) 1 0) by (intro; ring). ring. }
  rewrite ET. destruct (Req_dec a 0) as [ZA | ZA].
  - destruct (Req_dec c 0) as [ZC | ZC].
    + left. apply C89_none. rewrite ZA, ZC in *. repeat split. nra.
    + right. apply C89_ellipse; try assumption. intros (_ & _ & ?). contradiction.
  - right. apply C89_ellipse; try assumption. intros (? & _). contradiction.
Qed.
Print Assumptions C89_points.

(** ** an example: the covariance diag(4,1), eig() returning (4,1) and the identity, argsort() exchanging them *)
Definition ex_eig (M : matrix) : list R * matrix := ([4; 1], [[1; 0]; [0; 1]]).
Definition ex_argsort (l : list R) : list nat := [1; 0]%nat.
Example C89_ex : let M := [[4; 0]; [0; 1]] in eig_ok 2 M (ex_eig M) /\ independent2 (snd (ex_eig M)) /\ argsort_ok (fst (ex_eig M)) (ex_argsort (fst (ex_eig M))) /\
  0 * 0 < 4 * 1.
Proof.
  cbv zeta. cbn [ex_eig fst snd]. repeat split.
  - intros row [<- | [<- | []]]; reflexivity.
  - destruct k as [|[|k]]; [..|lia]; unfold column; cbn [ex_eig fst snd map nth inner]; (apply (f_equal2 cons); [ring|apply (f_equal2 cons); [ring|reflexivity]]).
  - destruct k as [|[|k]]; [..|lia]; unfold column; cbn [ex_eig fst snd map nth inner]; ring.
  - intros p r s t H0 H1. unfold column in *. cbn [map nth] in *. injection H0 as <- <-. injection H1 as <- <-. lra.
  - cbn. apply perm_swap.
  - cbn. repeat constructor. lra.
  - lra.
Qed.
