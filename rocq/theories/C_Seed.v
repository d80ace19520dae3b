(** C78: with exact data the seed of a calibration is exact: calibration.py _estimate_camera_poses(), estimate_joint_frame_poses(). *)
From Coq Require Import Reals ZArith List Bool Lra Lia Psatz.
From Coq Require Import Sorted ZifyBool ZifyNat.
From Verif Require Import S_Vec M_Pose M_Align P_Trig P_Pose P_Euler C_Align P_Fit C_Rt M_Traverse S_Traverse P_Traverse C_Traverse M_Connect M_Perfect C_Perfect C_Connect M_Seed P_Seed P_Svd.
Import ListNotations.
Open Scope R_scope.

(** *** the upper triangle *)
Lemma zrange_snoc : forall n, (0 <= n)%Z -> zrange 0 (n + 1) = (zrange 0 n ++ [n])%list.
Proof.
  intros n H. unfold zrange. replace (Z.to_nat (n + 1 - 0)) with (S (Z.to_nat (n - 0))) by lia. rewrite seq_S, map_app. cbn [map]. do 2 f_equal. lia.
Qed.
Lemma zrange_split : forall a b c, (a <= b <= c)%Z -> zrange a c = (zrange a b ++ zrange b c)%list.
Proof.
  intros a b c H. unfold zrange. replace (Z.to_nat (c - a)) with (Z.to_nat (b - a) + Z.to_nat (c - b))%nat by lia. rewrite seq_app, map_app. f_equal.
  rewrite Nat.add_0_l. generalize (Z.to_nat (c - b)). intro n. assert (Z.of_nat (Z.to_nat (b - a)) = b - a)%Z as E by lia. revert E. generalize (Z.to_nat (b - a)). intros k E.
  replace (seq k n) with (map (fun j => (k + j)%nat) (seq 0 n)).
  - rewrite map_map. apply map_ext. intro j. lia.
  - clear. induction n as [|n IH]; [reflexivity|]. rewrite !seq_S, map_app, IH. cbn [map]. now rewrite Nat.add_0_l.
Qed.
Lemma zrange_length : forall a b, length (zrange a b) = Z.to_nat (b - a).
Proof. intros. unfold zrange. now rewrite map_length, seq_length. Qed.
Lemma zrange_nth : forall a b (k : nat), (Z.of_nat k < b - a)%Z -> nth_error (zrange a b) k = Some (a + Z.of_nat k)%Z.
Proof.
  intros a b k H. unfold zrange. rewrite nth_error_map. rewrite (nth_error_nth' _ 0%nat) by (rewrite seq_length; lia). rewrite seq_nth by lia. reflexivity.
Qed.
Lemma zrange_in : forall a b x, In x (zrange a b) <-> (a <= x < b)%Z.
Proof.
  intros a b x. unfold zrange. rewrite in_map_iff. split.
  - intros (k & <- & I). apply in_seq in I. lia.
  - intro H. exists (Z.to_nat (x - a)). rewrite in_seq. lia.
Qed.
Definition rows (N : Z) (m : mat) (i : Z) : list Z := map (fun j => m i j) (zrange (i + 1) N).
Lemma rows_length : forall N m (i : nat), (Z.of_nat i <= N)%Z ->
  (2 * Z.of_nat (length (flat_map (rows N m) (zrange 0 (Z.of_nat i)))) = Z.of_nat i * (2 * N - Z.of_nat i - 1))%Z.
Proof.
  intros N m. induction i as [|i IH]; intro H; [reflexivity|].
  replace (Z.of_nat (S i)) with (Z.of_nat i + 1)%Z by lia. rewrite zrange_snoc by lia. rewrite flat_map_app, app_length. cbn [flat_map]. rewrite app_nil_r.
  unfold rows at 2. rewrite map_length, zrange_length. rewrite Nat2Z.inj_add, Z.mul_add_distr_l, IH by lia. rewrite Z2Nat.id by lia. ring.
Qed.
Lemma upper_at : forall N m i j, (0 <= i < j)%Z -> (j < N)%Z -> cm_of N m (pairwise_index i j N) = m i j.
Proof.
  intros N m i j Hij Hj. unfold cm_of, upper. change (fun i0 : Z => map (fun j0 : Z => m i0 j0) (zrange (i0 + 1) N)) with (rows N m).
  rewrite (zrange_split 0 i N) by lia. rewrite flat_map_app, (zrange_S i N) by lia. cbn [flat_map].
  pose proof (rows_length N m (Z.to_nat i) ltac:(lia)) as L. rewrite Z2Nat.id in L by lia.
  assert (Z.to_nat (pairwise_index i j N) = length (flat_map (rows N m) (zrange 0 i)) + Z.to_nat (j - i - 1))%nat as ->.
  { unfold pairwise_index. destruct (Z.gtb_spec i j); [lia|].
    assert (exists q, (i + 1) * (i + 2) = 2 * q)%Z as (q & Q).
    { destruct (Z.Even_or_Odd i) as [(k & ->)|(k & ->)]; [exists ((2 * k + 1) * (k + 1))%Z|exists ((k + 1) * (2 * k + 3))%Z]; ring. }
    rewrite Q, (Z.mul_comm 2 q), Z.div_mul by lia. nia. }
  rewrite app_nth2_plus. rewrite app_nth1 by (unfold rows; rewrite map_length, zrange_length; lia).
  apply nth_error_nth. unfold rows. rewrite nth_error_map, zrange_nth by lia. cbn [option_map]. do 2 f_equal. lia.
Qed.
Lemma pairwise_sym : forall a b N, pairwise_index a b N = pairwise_index b a N.
Proof. intros a b N. unfold pairwise_index. destruct (Z.gtb_spec a b), (Z.gtb_spec b a); try lia; try reflexivity. assert (a = b) by lia. now subst. Qed.
Lemma shared_at : forall N m (a b : nat), (forall x y, m x y = m y x) -> a <> b -> (Z.of_nat a < N)%Z -> (Z.of_nat b < N)%Z ->
  shared (Z.to_nat N) (cm_of N m) a b = m (Z.of_nat a) (Z.of_nat b).
Proof.
  intros N m a b S H A B. unfold shared. rewrite Z2Nat.id by lia. destruct (Z.lt_trichotomy (Z.of_nat a) (Z.of_nat b)) as [L|[L|L]].
  - apply upper_at; lia.
  - lia.
  - rewrite pairwise_sym, S. apply upper_at; lia.
Qed.
Lemma cm_of_range : forall N m k, (forall x y, 0 <= m x y < 65536)%Z -> (0 <= cm_of N m k < 65536)%Z.
Proof.
  intros N m k H. unfold cm_of. destruct (nth_in_or_default (Z.to_nat k) (upper N m) 0%Z) as [I|E]; [|cbv zeta in E; rewrite E; lia].
  unfold upper in *. apply in_flat_map in I. destruct I as (i & _ & I). apply in_map_iff in I. destruct I as (j & <- & _). apply H.
Qed.

(** *** from ordered rows *)
Lemma ordered_sorted : forall l, ordered l -> frames_sorted l.
Proof. intros l H i j p q Hij Hi Hj. destruct (Nat.eq_dec i j) as [->|N]; [rewrite Hi in Hj; injection Hj as ->; lia|]. specialize (H i j p q ltac:(lia) Hi Hj). lia. Qed.
Lemma ordered_nodup : forall l, ordered l -> NoDup l.
Proof.
  intros l H. apply NoDup_nth_error. intros i j Hi E. destruct (nth_error l i) as [p|] eqn:Ei; [|apply nth_error_None in Ei; lia]. symmetry in E.
  destruct (lt_eq_lt_dec i j) as [[L|L]|L]; [|exact L|].
  - pose proof (H i j p p L Ei E). lia.
  - pose proof (H j i p p L E Ei). lia.
Qed.

Section Cameras.
Variable svd : m33 -> option (m33 * v3 * m33).
Hypothesis Hsvd : forall A U d V, svd A = Some (U, d, V) -> is_svd A U d V.
Hypothesis Htot : forall A, svd A <> None.
Variables push_heap pop_heap make_heap : (nat -> Z) -> list nat -> list nat.
Hypothesis Hpush : push_heap_ok push_heap.
Hypothesis Hpop : pop_heap_ok pop_heap.
Hypothesis Hmake : make_heap_ok make_heap.
Variables (w h : Z) (spacing : R).
Hypothesis Hw : (2 <= w)%Z.
Hypothesis Hh : (2 <= h)%Z.
Hypothesis Hspacing : 3 / 1000000000000 <= spacing * spacing.
Variable obs : list ((Z * Z) * Rt).
Variables T F : Z -> Rt.
Hypothesis HT : forall c, proper (T c).
Hypothesis HF : forall f, proper (F f).
Hypothesis HT0 : T 0%Z = identity_Rt.
Hypothesis Hexact : exact T F obs.
Hypothesis Hord : ordered (map fst obs).
Variable N : Z.
Hypothesis Hrange : in_range N (map fst obs).
Hypothesis Hlast : exists f, In (f, N - 1)%Z (map fst obs).
Hypothesis Hlen : (Z.of_nat (length obs) < 65536)%Z.

Let l := map fst obs.
Lemma Hframe : forall f c, In (f, c) l -> (0 <= f)%Z.
Proof. intros f c I. exact (proj1 (Hrange _ I)). Qed.
Lemma num_cameras_ok : num_cameras obs = Some N.
Proof.
  unfold num_cameras. destruct Hlast as (f0 & I). fold l in I. pose proof Hrange as Rg. fold l in Rg. unfold l in *. clear -I Rg. destruct obs as [|o r]; [destruct I|]. f_equal.
  assert (forall (r : list ((Z * Z) * Rt)) m, (m <= N - 1)%Z -> (forall p, In p (map fst r) -> snd p <= N - 1)%Z -> (m = N - 1 \/ In (N - 1) (map snd (map fst r)))%Z ->
    fold_left (fun m o => Z.max m (snd (fst o))) r m = N - 1)%Z as G.
  { clear. induction r as [|o r IH]; intros m Hm Hr Hx; cbn [fold_left]; [destruct Hx as [Hx|[]]; exact Hx|].
    assert (snd (fst o) <= N - 1)%Z by (apply Hr; now left).
    apply IH; [lia|intros p Hp; apply Hr; now right|]. destruct Hx as [Hx|[Hx|Hx]]; [left; lia|left; cbn in *; lia|now right]. }
  rewrite G; [lia| | |].
  - pose proof (Rg (fst o) ltac:(now left)). lia.
  - intros p Hp. pose proof (Rg p ltac:(now right)). lia.
  - destruct I as [I|I]; [left; rewrite I; reflexivity|right]. apply in_map_iff. exists (f0, N - 1)%Z. auto.
Qed.
Lemma comp_id_l : forall p, comp (invert_Rt (T 0%Z)) p = p.
Proof.
  intro p. apply act_inj_R. intro x. rewrite comp_act. rewrite HT0. unfold act, invert_Rt, identity_Rt. cbn. apply v3_eq; vunfold; cbn; ring.
Qed.
Lemma foldo_snoc : forall A B (f : A -> B -> option A) l1 b a, foldo f (l1 ++ [b]) a = match foldo f l1 a with Some a => f a b | None => None end.
Proof. intros. rewrite foldo_app. destruct (foldo f l1 a); [|reflexivity]. cbn [foldo]. destruct (f a0 b); reflexivity. Qed.
Definition common (a b : Z) : Prop := exists f, In (f, a) l /\ In (f, b) l.
Lemma callbacks_ok : forall log, ~ In 0%nat (map fst log) ->
  (forall l1 i p l2, log = (l1 ++ (i, p) :: l2)%list -> (p = 0%nat \/ In p (map fst l1)) /\ p <> i /\ common (Z.of_nat p) (Z.of_nat i)) ->
  exists ps, callbacks svd w h spacing obs log = Some ps /\
    (forall i, In i (map fst log) -> ps (Z.of_nat i) = Some (T (Z.of_nat i))) /\ (forall z, (forall i, In i (map fst log) -> z <> Z.of_nat i) -> ps z = None).
Proof.
  induction log as [|[i p] log IH] using rev_ind; intros Z0 H.
  - exists (fun _ => None). split; [reflexivity|]. split; [intros i []|reflexivity].
  - destruct IH as (ps & E & P1 & P2).
    { intro X. apply Z0. rewrite map_app. apply in_or_app. now left. }
    { intros l1 j q l2 ->. apply (H l1 j q (l2 ++ [(i, p)])%list). now rewrite <- app_assoc. }
    destruct (H log i p [] eq_refl) as (Hp & Npi & Hc).
    assert (i <> 0%nat) as I0 by (intro X; apply Z0; rewrite map_app; apply in_or_app; right; now left).
    unfold callbacks in *. rewrite foldo_snoc, E. unfold found_best_path_to_node. cbn [fst snd].
    destruct (Z.eqb_spec (Z.of_nat i) 0) as [X|X]; [lia|].
    rewrite (pairwise_exact svd Hsvd Htot w h spacing Hw Hh Hspacing obs T F HT HF Hexact Hord Hframe) by (try lia; exact Hc).
    assert (forall q, (exists ps', (Some (fun j => if (j =? Z.of_nat i)%Z then Some q else ps j)) = Some ps' /\
       (q = T (Z.of_nat i) -> (forall i0, In i0 (map fst (log ++ [(i, p)])) -> ps' (Z.of_nat i0) = Some (T (Z.of_nat i0))) /\ (forall z, (forall i0, In i0 (map fst (log ++ [(i, p)])) -> z <> Z.of_nat i0) -> ps' z = None)))) as G.
    { intro q. eexists. split; [reflexivity|]. intros ->. split.
      - intros j Hj. destruct (Z.eqb_spec (Z.of_nat j) (Z.of_nat i)) as [Y|Y]; [now rewrite Y|]. apply P1. rewrite map_app in Hj. apply in_app_or in Hj. destruct Hj as [Hj|[Hj|[]]]; [exact Hj|cbn in Hj; lia].
      - intros z Hz. destruct (Z.eqb_spec z (Z.of_nat i)) as [Y|Y]; [exfalso; apply (Hz i); [rewrite map_app; apply in_or_app; right; now left|exact Y]|].
        apply P2. intros j Hj. apply Hz. rewrite map_app. apply in_or_app. now left. }
    destruct (Z.eqb_spec (Z.of_nat p) 0) as [Y|Y].
    + destruct (G (comp (invert_Rt (T (Z.of_nat p))) (T (Z.of_nat i)))) as (ps' & E' & G'). exists ps'. split; [exact E'|]. apply G'. rewrite Y. apply comp_id_l.
    + destruct Hp as [Hp|Hp]; [lia|]. rewrite (P1 p Hp). destruct (G (compose_Rt2 (T (Z.of_nat p)) (comp (invert_Rt (T (Z.of_nat p))) (T (Z.of_nat i))) false false)) as (ps' & E' & G').
      exists ps'. split; [exact E'|]. apply G'. fold (comp (T (Z.of_nat p)) (comp (invert_Rt (T (Z.of_nat p))) (T (Z.of_nat i)))).
      apply act_inj_R. intro x. rewrite !comp_act. now apply inv_act.
Qed.

Lemma two_in : forall (fs : list Z), NoDup fs -> (2 <= length fs)%nat -> exists f g, f <> g /\ In f fs /\ In g fs.
Proof.
  intros [|f [|g fs]] D L; cbn in L; try lia. exists f, g. inversion D as [|? ? H]. subst. split; [intros ->; apply H; now left|]. split; [now left|right; now left].
Qed.
Lemma in_two : forall (fs : list Z) f g, f <> g -> In f fs -> In g fs -> (2 <= length fs)%nat.
Proof. intros [|x [|y fs]] f g H I J; cbn in *; try tauto; [|lia]. destruct I as [I|[]], J as [J|[]]. congruence. Qed.
Lemma N_pos : (0 < N)%Z.
Proof. destruct Hlast as (f & I). apply Hrange in I. cbn in I. lia. Qed.
Lemma connected_range : forall c, connected l c -> (0 <= c < N)%Z.
Proof. pose proof N_pos. intros c [|a b Ha (f & g & _ & _ & I & _)]; [lia|]. apply Hrange in I. exact (proj2 I). Qed.
Lemma all_some_map : forall (p : Z -> option Rt) zs, (forall z, In z zs -> p z = Some (T z)) -> all_some (map p zs) = Some (map T zs).
Proof. induction zs as [|z zs IH]; intro H; [reflexivity|]. cbn [map all_some]. rewrite (H z) by (now left). rewrite IH by (intros; apply H; now right). reflexivity. Qed.
Lemma all_some_none : forall (p : Z -> option Rt) zs z, In z zs -> p z = None -> all_some (map p zs) = None.
Proof.
  induction zs as [|y zs IH]; intros z I E; [destruct I|]. cbn [map all_some]. destruct I as [->|I]; [now rewrite E|]. destruct (p y); [|reflexivity]. now rewrite (IH z I E).
Qed.
Theorem C78_cameras :
  ((forall c, (0 <= c < N)%Z -> connected l c) -> estimate_camera_poses svd push_heap pop_heap make_heap w h spacing obs = Some (map T (zrange 1 N))) /\
  ((exists c, (0 <= c < N)%Z /\ ~ connected l c) -> estimate_camera_poses svd push_heap pop_heap make_heap w h spacing obs = None).
Proof.
  pose proof N_pos as NP. pose proof (ordered_sorted _ Hord) as Hs. pose proof (ordered_nodup _ Hord) as ND.
  assert (Z.of_nat (length l) < 65536)%Z as L by (unfold l; now rewrite map_length).
  destruct (C54_counts N l Hrange Hs ND L) as (m & E & Sy & Dg & Cn).
  pose proof (C54_links_kept N l m Hrange Hs ND L E) as K.
  assert (forall x y, (0 <= m x y < 65536)%Z) as Mr.
  { intros x y. destruct (Z.eq_dec x y) as [->|Nxy]; [rewrite Dg; lia|]. destruct (Cn x y Nxy) as (fs & (DF & Fi) & ->).
    assert (length fs <= length l)%nat; [|lia]. rewrite <- (map_length (fun f => (f, x)) fs). apply NoDup_incl_length.
    - clear -DF. induction DF as [|f fs I D IH]; cbn; constructor; [|easy]. intro X. apply in_map_iff in X. destruct X as (g & X & Y). inversion X; subst. easy.
    - intros z Hz. apply in_map_iff in Hz. destruct Hz as (f & <- & I). now apply Fi. }
  assert (forall x y, drop_sparse m x y = drop_sparse m y x) as Sy' by (intros; unfold drop_sparse; now rewrite Sy).
  assert (forall x y, (0 <= drop_sparse m x y < 65536)%Z) as Mr' by (intros x y; unfold drop_sparse; pose proof (Mr x y); destruct (Z.ltb_spec (m x y) 2); lia).
  assert (forall a b, a <> b -> (drop_sparse m a b <> 0%Z <-> linked2 l a b)) as K2.
  { intros a b Nab. rewrite (K a b Nab). split.
    - intros (fs & (DF & Fi) & L2). destruct (two_in fs DF L2) as (f & g & Nfg & If & Ig). apply Fi in If, Ig. exists f, g. tauto.
    - intros (f & g & Nfg & I1 & I2 & I3 & I4). destruct (Cn a b Nab) as (fs & Fi & _). exists fs. split; [exact Fi|]. apply (in_two fs f g Nfg); apply Fi; auto. }
  unfold estimate_camera_poses. rewrite num_cameras_ok. unfold l in E. rewrite E. unfold traverse_links.
  set (cb := fun log i p => match callbacks svd w h spacing obs (rev ((i, p) :: log)) with Some _ => true | None => false end).
  destruct (C14_traversal push_heap pop_heap make_heap Hpush Hpop Hmake cb (Z.to_nat N) (cm_of N (drop_sparse m)) ltac:(lia) (fun k => cm_of_range N _ k Mr'))
    as (ok & log & Et & _ & Z0 & Lr & Lall & Ll & _ & _ & Lf).
  rewrite Et.
  assert (forall p i, linked (Z.to_nat N) (shared (Z.to_nat N) (cm_of N (drop_sparse m))) p i <-> (p < Z.to_nat N)%nat /\ (i < Z.to_nat N)%nat /\ p <> i /\ linked2 l (Z.of_nat p) (Z.of_nat i)) as Lk.
  { intros p i. unfold linked. split; intros (A & B & C & D); (split; [exact A|]; split; [exact B|]; split; [exact C|]); rewrite shared_at in * by (try exact Sy'; lia); apply K2; auto; lia. }
  destruct (callbacks_ok log Z0) as (ps & Ec & P1 & P2).
  { intros l1 i p l2 El. destruct (Ll l1 i p l2 El) as (A & B & _). split; [exact A|]. apply Lk in B. destruct B as (_ & _ & B & (f & _ & _ & I1 & I2 & _)). split; [exact B|]. now exists f. }
  assert (ok = true) as ->.
  { destruct ok; [reflexivity|]. destruct (Lf eq_refl) as (l1 & i & p & El & X). unfold cb in X. cbn [rev] in X. rewrite rev_involutive, <- El, Ec in X. discriminate. }
  rewrite Ec.
  assert (forall i, reachable (Z.to_nat N) (shared (Z.to_nat N) (cm_of N (drop_sparse m))) i <-> (connected l (Z.of_nat i))) as Rc.
  { intro i. split.
    - intros (c & H). induction H as [|i j c H IH Hl]; [constructor|]. apply Lk in Hl. eapply conn_step; [exact IH|tauto].
    - intro H. remember (Z.of_nat i) as z eqn:Ez. revert i Ez. induction H as [|a b Ha IH Hl]; intros i Ez.
      + assert (i = 0)%nat as -> by lia. exists 0%Z. constructor.
      + pose proof (connected_range a Ha) as Ra. pose proof (connected_range b (conn_step _ a b Ha Hl)) as Rb.
        destruct (IH (Z.to_nat a) ltac:(lia)) as (c & Hc). destruct (Nat.eq_dec (Z.to_nat a) i) as [<-|Nai]; [now exists c|].
        eexists. eapply chain_step; [exact Hc|]. apply Lk. split; [lia|]. split; [lia|]. split; [exact Nai|]. now replace (Z.of_nat (Z.to_nat a)) with a by lia; replace (Z.of_nat i) with b by lia. }
  split.
  - intro H. apply all_some_map. intros z Hz. apply zrange_in in Hz. replace z with (Z.of_nat (Z.to_nat z)) by lia. apply P1.
    destruct (Lall eq_refl (Z.to_nat z)) as [X|X]; [apply Rc; rewrite Z2Nat.id by lia; apply H; lia|lia|exact X].
  - intros (c & Hc & Nc). apply (all_some_none ps _ c).
    + apply zrange_in. destruct (Z.eq_dec c 0) as [->|X]; [exfalso; apply Nc; constructor|lia].
    + apply P2. intros i Hi X. apply Nc. rewrite X. apply Rc. exact (proj2 (Lr i Hi)).
Qed.
End Cameras.

(** *** the poses of the frames *)
Lemma nth_error_firstn_lt : forall A (l : list A) n j, (j < n)%nat -> nth_error (firstn n l) j = nth_error l j.
Proof. induction l as [|x l IH]; intros [|n] [|j] H; try lia; try reflexivity. cbn. apply IH. lia. Qed.
Lemma nth_error_skipn_add : forall A (l : list A) k j, nth_error (skipn k l) j = nth_error l (k + j).
Proof. induction l as [|x l IH]; intros [|k] j; try reflexivity; [now destruct j|]. cbn. apply IH. Qed.
Lemma inv_inv : forall p, proper p -> invert_Rt (invert_Rt p) = p.
Proof. intros p H. apply act_inj_R. intro x. rewrite <- (proj1 (inv_act p x H)) at 1. now apply inv_act, inv_proper. Qed.

Section Frames.
Variable svd : m33 -> option (m33 * v3 * m33).
Hypothesis Hsvd : forall A U d V, svd A = Some (U, d, V) -> is_svd A U d V.
Hypothesis Htot : forall A, svd A <> None.
Variables (w h : Z) (spacing : R).
Hypothesis Hw : (2 <= w)%Z.
Hypothesis Hh : (2 <= h)%Z.
Hypothesis Hspacing : 3 / 1000000000000 <= spacing * spacing.
Variable obs : list ((Z * Z) * Rt).
Variables T F : Z -> Rt.
Hypothesis HT : forall c, proper (T c).
Hypothesis HF : forall f, proper (F f).
Hypothesis HT0 : T 0%Z = identity_Rt.
Hypothesis Hexact : exact T F obs.
Variable N : Z.
Hypothesis Hrange : in_range N (map fst obs).
Hypothesis Hsorted : frames_sorted (map fst obs).
Hypothesis Hne : obs <> [].

Let cams := map (fun c => invert_Rt (T c)) (zrange 1 N).
Lemma act_T0 : forall x, act (T 0%Z) x = x.
Proof. intro x. rewrite HT0. unfold act, identity_Rt. cbn. apply v3_eq; vunfold; cbn; ring. Qed.
Lemma single_exact : forall f c p, In ((f, c), p) obs -> Rt_ref_frame__single cams ((f, c), p) = Some (F f).
Proof.
  intros f c p I. pose proof (Hexact f c p) as X.
  assert (0 <= f /\ 0 <= c < N)%Z as (_ & Rc) by (apply (Hrange (f, c)); apply in_map_iff; now exists ((f, c), p)).
  cbn [Rt_ref_frame__single]. destruct (Z.eqb_spec c 0) as [->|C].
  - f_equal. apply act_inj_R. intro x. now rewrite <- (X x I), act_T0.
  - replace (c - 1)%Z with (Z.of_nat (Z.to_nat (c - 1))) by lia. rewrite py_get_nat. unfold cams. rewrite map_map, nth_error_map, zrange_nth by lia. cbn [option_map].
    rewrite inv_inv by apply HT. f_equal. replace (1 + Z.of_nat (Z.to_nat (c - 1)))%Z with c by lia. fold (comp (T c) p). apply act_inj_R. intro x. now rewrite comp_act, X.
Qed.
Lemma sum_exact : forall f obj sl, (forall o, In o sl -> exists c p, o = ((f, c), p) /\ In o obs) -> forall k : R,
  foldo (add_transformed cams obj) sl (map (fun x => vscale k (act (F f) x)) obj) = Some (map (fun x => vscale (k + INR (length sl)) (act (F f) x)) obj).
Proof.
  induction sl as [|o sl IH]; intros H k.
  - cbn [foldo length INR]. now rewrite Rplus_0_r.
  - destruct (H o ltac:(now left)) as (c & p & -> & I). cbn [foldo]. unfold add_transformed at 1. rewrite (single_exact f c p I).
    replace (map (fun sx : v3 * v3 => vadd (fst sx) (transform_point_Rt (F f) (snd sx) false)) (combine (map (fun x : v3 => vscale k (act (F f) x)) obj) obj))
      with (map (fun x => vscale (k + 1) (act (F f) x)) obj).
    + rewrite IH by (intros; apply H; now right). f_equal. apply map_ext. intro x. f_equal. cbn [length]. rewrite S_INR. ring.
    + clear. induction obj as [|x obj IH]; [reflexivity|]. cbn [map combine fst snd]. rewrite <- IH. f_equal. rewrite C22_transform_is_action. apply v3_eq; unfold vscale, vadd; cbn [vx vy vz]; ring.
Qed.
Lemma combine_id : forall (g : v3 -> v3) obj, combine (map g obj) obj = map (fun x => (g x, x)) obj.
Proof. induction obj as [|x obj IH]; [reflexivity|]. cbn. now rewrite IH. Qed.
Lemma frame_exact : forall f (k n : nat), (k < n <= length obs)%nat -> (forall j, (k <= j < n)%nat -> exists c p, nth_error obs j = Some ((f, c), p)) ->
  Rt_ref_frame svd w h spacing obs cams (Z.of_nat k) (Z.of_nat n) = Some (F f).
Proof.
  intros f k n Hkn H. unfold Rt_ref_frame. destruct (Z.eqb_spec (Z.of_nat n - Z.of_nat k) 1) as [X|X].
  - rewrite py_get_nat. destruct (H k ltac:(lia)) as (c & p & E). rewrite E. apply single_exact. eapply nth_error_In. exact E.
  - set (sl := slice obs (Z.of_nat k) (Z.of_nat n)).
    assert (length sl = n - k)%nat as Ls.
    { unfold sl, slice. rewrite firstn_length, skipn_length. lia. }
    replace (map (fun x => vscale 0 x) (board w h spacing)) with (map (fun x => vscale 0 (act (F f) x)) (board w h spacing)) by (apply map_ext; intro; apply v3_eq; unfold vscale; cbn; ring).
    rewrite (sum_exact f).
    + rewrite Rplus_0_l, map_map, Ls.
      replace (map (fun x => vscale (/ IZR (Z.of_nat n - Z.of_nat k)) (vscale (INR (n - k)) (act (F f) x))) (board w h spacing)) with (map (act (F f)) (board w h spacing)).
      2:{ apply map_ext. intro x. rewrite minus_INR, !INR_IZR_INZ, <- minus_IZR by lia. assert (IZR (Z.of_nat n - Z.of_nat k) <> 0) by (apply not_0_IZR; lia). apply v3_eq; unfold vscale; cbn [vx vy vz]; field; assumption. }
      rewrite combine_id. apply (fit_D svd Hsvd Htot spacing Hspacing _ (F f) (T 0%Z)); [apply HF|apply HT| |].
      * intros a b I. apply in_map_iff in I. destruct I as (x & E & _). now inversion E.
      * rewrite map_map. cbn [snd]. rewrite map_id, !act_T0. now apply board_three.
    + intros o Io. unfold sl, slice in Io. apply In_nth_error in Io. destruct Io as (j & Ej).
      assert (j < n - k)%nat as Lj by (rewrite <- Ls; unfold sl, slice; apply nth_error_Some; congruence).
      rewrite nth_error_firstn_lt in Ej by lia. rewrite nth_error_skipn_add in Ej. rewrite Nat2Z.id in Ej.
      destruct (H (k + j)%nat ltac:(lia)) as (c & p & E). exists c, p. rewrite E in Ej. injection Ej as <-. split; [reflexivity|]. eapply nth_error_In. exact E.
Qed.

Definition ascending := StronglySorted Z.lt.
Lemma ascending_snoc : forall fs f, ascending fs -> (forall g, In g fs -> (g < f)%Z) -> ascending (fs ++ [f]).
Proof.
  induction fs as [|g fs IH]; intros f A H; [repeat constructor|]. inversion A as [|? ? A' G]; subst. cbn. constructor.
  - apply IH; [exact A'|]. intros; apply H; now right.
  - apply Forall_app. split; [exact G|]. constructor; [apply H; now left|constructor].
Qed.
Definition done (n : nat) (f : Z) (k : nat) (fs : list Z) : Prop :=
  (k < n)%nat /\ (0 <= f)%Z /\ (forall j, (k <= j < n)%nat -> exists c p, nth_error obs j = Some ((f, c), p)) /\
  ascending fs /\ (forall g, In g fs <-> exists j c p, (j < k)%nat /\ nth_error obs j = Some ((g, c), p)) /\ (forall g, In g fs -> (g < f)%Z).
Lemma loop_ok : forall n, (n <= length obs)%nat -> exists s, foldo (frame_step svd w h spacing obs cams) (zrange 0 (Z.of_nat n)) {| f_current := -1; f_start := -1; f_out := [] |} = Some s /\
  (n = 0%nat /\ s = {| f_current := -1; f_start := -1; f_out := [] |} \/
   exists k fs, done n (f_current s) k fs /\ f_start s = Z.of_nat k /\ f_out s = map (fun f => rt_from_Rt (F f)) fs).
Proof.
  induction n as [|n IH]; intro Hn.
  - eexists. split; [reflexivity|]. left. auto.
  - destruct (IH ltac:(lia)) as (s & E & H). replace (Z.of_nat (S n)) with (Z.of_nat n + 1)%Z by lia. rewrite zrange_snoc by lia. rewrite foldo_snoc, E.
    destruct (nth_error obs n) as [[[f c] p]|] eqn:En; [|apply nth_error_None in En; lia].
    assert (0 <= f)%Z as Hf by (apply (Hrange (f, c)); apply in_map_iff; exists ((f, c), p); split; [reflexivity|eapply nth_error_In; exact En]).
    unfold frame_step. rewrite py_get_nat, En. destruct H as [(-> & ->)|(k & fs & (Hk & H0 & Hr & As & Hi & Hl) & Es & Eo)].
    + cbn [f_current]. destruct (Z.eqb_spec f (-1)) as [X|X]; [lia|]. eexists. split; [reflexivity|]. right. exists 0%nat, []. cbn [f_current f_start f_out map]. split; [|split; [reflexivity|reflexivity]].
      split; [lia|]. split; [exact Hf|]. split; [intros j Hj; assert (j = 0)%nat as -> by lia; now exists c, p|]. split; [constructor|]. split; [|intros g []].
      intro g. split; [intros []|]. intros (j & _ & _ & Hj & _). lia.
    + destruct (Z.eqb_spec f (f_current s)) as [X|X].
      * exists s. split; [reflexivity|]. right. exists k, fs. split; [|split; assumption]. split; [lia|]. split; [exact H0|]. split; [|split; [exact As|split; assumption]].
        intros j Hj. destruct (Nat.eq_dec j n) as [->|Nj]; [exists c, p; now rewrite En, X|apply Hr; lia].
      * unfold emit. rewrite Es. destruct (Z.geb_spec (Z.of_nat k) 0) as [_|G]; [|lia].
        rewrite (frame_exact (f_current s) k n) by (try lia; exact Hr). eexists. split; [reflexivity|]. right. exists n, (fs ++ [f_current s])%list. cbn [f_current f_start f_out].
        assert (f_current s < f)%Z as Lt.
        { destruct (Hr k ltac:(lia)) as (c' & p' & Ek). assert (fst (f_current s, c') <= fst (f, c))%Z as LE; [|cbn in LE; lia].
          apply (Hsorted k n); [lia|rewrite nth_error_map, Ek; reflexivity|rewrite nth_error_map, En; reflexivity]. }
        split; [|split; [reflexivity|rewrite Eo, map_app; reflexivity]].
        split; [lia|]. split; [exact Hf|]. split; [intros j Hj; assert (j = n) as -> by lia; now exists c, p|]. split; [now apply ascending_snoc|]. split.
        -- intro g. rewrite in_app_iff, Hi. split.
           ++ intros [(j & c' & p' & Lj & Ej)|[<-|[]]]; [exists j, c', p'; split; [lia|exact Ej]|]. destruct (Hr k ltac:(lia)) as (c' & p' & Ek). exists k, c', p'. split; [lia|exact Ek].
           ++ intros (j & c' & p' & Lj & Ej). destruct (Nat.lt_ge_cases j k) as [Y|Y]; [left; now exists j, c', p'|right; left]. destruct (Hr j ltac:(lia)) as (c2 & p2 & E2). congruence.
        -- intros g Hg. apply in_app_or in Hg. destruct Hg as [Hg|[<-|[]]]; [apply Hl in Hg; lia|exact Lt].
Qed.
(** one pose for each observed frame, in order: the correct one *)
Theorem C78_frames : exists fs, ascending fs /\ (forall f, In f fs <-> exists c, In (f, c) (map fst obs)) /\
  estimate_joint_frame_poses svd w h spacing obs cams = Some (map (fun f => rt_from_Rt (F f)) fs).
Proof.
  unfold estimate_joint_frame_poses. destruct (loop_ok (length obs) (le_n _)) as (s & -> & [(X & _)|(k & fs & (Hk & H0 & Hr & As & Hi & Hl) & Es & Eo)]).
  - exfalso. apply Hne. now apply length_zero_iff_nil.
  - unfold emit. rewrite Es. destruct (Z.geb_spec (Z.of_nat k) 0) as [_|G]; [|lia]. rewrite (frame_exact (f_current s) k (length obs)) by (try lia; exact Hr).
    exists (fs ++ [f_current s])%list. split; [now apply ascending_snoc|]. split; [|rewrite Eo, map_app; reflexivity].
    intro f. rewrite in_app_iff, Hi. split.
    + intros [(j & c & p & _ & Ej)|[<-|[]]]; [exists c; apply in_map_iff; exists ((f, c), p); split; [reflexivity|eapply nth_error_In; exact Ej]|].
      destruct (Hr k ltac:(lia)) as (c & p & Ek). exists c. apply in_map_iff. exists ((f_current s, c), p). split; [reflexivity|eapply nth_error_In; exact Ek].
    + intros (c & I). apply in_map_iff in I. destruct I as ((y & p) & Ey & I). cbn in Ey. subst y. apply In_nth_error in I. destruct I as (j & Ej).
      assert (j < length obs)%nat as Lj by (apply nth_error_Some; congruence). destruct (Nat.lt_ge_cases j k) as [Y|Y]; [left; now exists j, c, p|right; left].
      destruct (Hr j ltac:(lia)) as (c2 & p2 & E2). congruence.
Qed.
Lemma ascending_dense : forall fs a n, ascending fs -> (forall f, In f fs <-> (a <= f < n)%Z) -> fs = zrange a n.
Proof.
  induction fs as [|x fs IH]; intros a n A H.
  - unfold zrange. replace (Z.to_nat (n - a)) with 0%nat; [reflexivity|]. destruct (Z.lt_ge_cases a n); [|lia]. exfalso. apply (H a). lia.
  - inversion A as [|? ? A' G]; subst. rewrite Forall_forall in G. assert (a <= x < n)%Z as X by (apply H; now left).
    assert (x = a) as ->. { destruct (Z.eq_dec x a) as [Y|Y]; [exact Y|]. exfalso. assert (In a (x :: fs)) as Z1 by (apply H; lia). destruct Z1 as [Z1|Z1]; [lia|apply G in Z1; lia]. }
    rewrite zrange_S by lia. f_equal. apply IH; [exact A'|]. intro f. split.
    + intro I. pose proof (G f I). assert (a <= f < n)%Z by (apply H; now right). lia.
    + intro I. assert (In f (a :: fs)) as J by (apply H; lia). destruct J as [J|J]; [lia|exact J].
Qed.
(** if no frame number is skipped, pose number f is the pose of frame f *)
Theorem C78_frames_dense : forall n, (forall f, (0 <= f < n)%Z <-> exists c, In (f, c) (map fst obs)) ->
  estimate_joint_frame_poses svd w h spacing obs cams = Some (map (fun f => rt_from_Rt (F f)) (zrange 0 n)).
Proof.
  intros n H. destruct C78_frames as (fs & A & I & ->). do 2 f_equal. apply ascending_dense; [exact A|]. intro f. now rewrite I, H.
Qed.
End Frames.

(** *** both *)
(** everything the proofs need from the parts that are not modelled *)
Record conforming (svd : m33 -> option (m33 * v3 * m33)) (push_heap pop_heap make_heap : (nat -> Z) -> list nat -> list nat) : Prop := {
  c_svd : forall A U d V, svd A = Some (U, d, V) -> is_svd A U d V;
  c_tot : forall A, svd A <> None;
  c_push : push_heap_ok push_heap;
  c_pop : pop_heap_ok pop_heap;
  c_make : make_heap_ok make_heap;
}.
Theorem C78_seed : forall svd push_heap pop_heap make_heap w h spacing obs T F N n,
  conforming svd push_heap pop_heap make_heap ->
  (2 <= w)%Z -> (2 <= h)%Z -> 3 / 1000000000000 <= spacing * spacing ->
  (forall c, proper (T c)) -> (forall f, proper (F f)) -> T 0%Z = identity_Rt ->
  exact T F obs -> ordered (map fst obs) -> in_range N (map fst obs) -> (Z.of_nat (length obs) < 65536)%Z ->
  (forall f, (0 <= f < n)%Z <-> exists c, In (f, c) (map fst obs)) ->
  (exists f, In (f, N - 1)%Z (map fst obs)) ->
  (forall c, (0 <= c < N)%Z -> connected (map fst obs) c) ->
  seed_poses svd push_heap pop_heap make_heap w h spacing obs =
    Some (map (fun c => rt_from_Rt (invert_Rt (T c))) (zrange 1 N), map (fun f => rt_from_Rt (F f)) (zrange 0 n)).
Proof.
  intros svd push_heap pop_heap make_heap w h spacing obs T F N n [C1 C2 C3 C4 C5] Hw Hh Hs HT HF HT0 He Ho Hr Hl Hd Hlast Hc.
  unfold seed_poses. destruct (C78_cameras svd C1 C2 push_heap pop_heap make_heap C3 C4 C5 w h spacing Hw Hh Hs obs T F HT HF HT0 He Ho N Hr Hlast Hl) as (-> & _); [|exact Hc].
  rewrite map_map. rewrite (C78_frames_dense svd C1 C2 w h spacing Hw Hh Hs obs T F HT HF HT0 He N Hr (ordered_sorted _ Ho)) with (n := n); [|intros ->; destruct Hlast as (f & [])|exact Hd].
  rewrite map_map. reflexivity.
Qed.

(** *** The cameras have to appear in order inside each frame: if not, cameras that share frames are not connected, and the seeding throws *)
Definition swapped : list ((Z * Z) * Rt) := [((0, 1), identity_Rt); ((0, 0), identity_Rt); ((1, 1), identity_Rt); ((1, 0), identity_Rt)]%Z.
Lemma swapped_pair : forall svd w h spacing a b, compute_pairwise_Rt svd w h spacing swapped a b = None.
Proof.
  assert (forall svd w h spacing a b, (a < b)%Z -> pair_Rt svd w h spacing swapped a b = None) as G.
  { intros svd w h spacing a b L. unfold pair_Rt, swapped. cbn [foldo pair_step]. change (0 =? -1)%Z with false. cbn [l_frame l_0 l_1 l_ab].
    destruct (Z.eqb_spec 1 a) as [A1|A1].
    - subst a. destruct (Z.eqb_spec 1 b) as [B1|B1]; [lia|]. destruct (Z.eqb_spec 0 b) as [B0|B0]; [lia|]. reflexivity.
    - destruct (Z.eqb_spec 1 b) as [B1|B1].
      + subst b. destruct (Z.eqb_spec 0 a) as [A0|A0].
        * subst a. reflexivity.
        * destruct a; [lia|lia|]. reflexivity.
      + destruct (Z.eqb_spec 0 a) as [A0|A0]; destruct (Z.eqb_spec 0 b) as [B0|B0]; try lia; try (subst a); try (subst b); cbn -[Z.eqb];
        repeat match goal with |- context [Z.eqb ?x ?y] => destruct (Z.eqb_spec x y); try lia; cbn -[Z.eqb] end; reflexivity. }
  intros svd w h spacing a b. unfold compute_pairwise_Rt. destruct (Z.gtb_spec a b); [rewrite G by lia; reflexivity|]. destruct (Z.eqb_spec a b); [reflexivity|]. apply G. lia.
Qed.
Lemma swapped_callbacks : forall svd w h spacing log ps z, callbacks svd w h spacing swapped log = Some ps -> ps z = None.
Proof.
  intros svd w h spacing log. unfold callbacks. induction log as [|[i p] log IH] using rev_ind; intros ps z E.
  - injection E as <-. reflexivity.
  - rewrite foldo_snoc in E. destruct (foldo (found_best_path_to_node svd w h spacing swapped) log (fun _ => None)) as [ps'|]; [|discriminate].
    unfold found_best_path_to_node in E. cbn [fst snd] in E. destruct (Z.of_nat i =? 0)%Z; [injection E as <-; now apply IH|]. rewrite swapped_pair in E. discriminate.
Qed.
Theorem C78_camera_order_refuted : exists obs T F N,
  (forall c, proper (T c)) /\ (forall f, proper (F f)) /\ T 0%Z = identity_Rt /\ exact T F obs /\ frames_sorted (map fst obs) /\ NoDup (map fst obs) /\ in_range N (map fst obs) /\
  (forall c, (0 <= c < N)%Z -> connected (map fst obs) c) /\
  forall svd push_heap pop_heap make_heap w h spacing, seed_poses svd push_heap pop_heap make_heap w h spacing obs = None.
Proof.
  assert (proper identity_Rt) as P by (unfold proper, identity_Rt; cbn; exact is_rot_I).
  exists swapped, (fun _ => identity_Rt), (fun _ => identity_Rt), 2%Z. split; [auto|]. split; [auto|]. split; [reflexivity|].
  split. { intros f c p x I. cbn in I. assert (p = identity_Rt) as ->; [repeat (destruct I as [I|I]; [now inversion I|]); destruct I|]. unfold act, identity_Rt. cbn. apply v3_eq; vunfold; cbn; ring. }
  split. { intros i j p q Hij Hi Hj.
    do 4 (destruct i as [|i]; [cbn in Hi; inversion Hi; subst; clear Hi; do 4 (destruct j as [|j]; [cbn in Hj; inversion Hj; subst; cbn; lia|]); destruct j; discriminate|]). destruct i; discriminate. }
  split. { cbn. repeat (constructor; [cbn; intros H; repeat (destruct H as [H|H]; [discriminate|]); destruct H|]); constructor. }
  split. { intros p H. cbn in H. repeat (destruct H as [<-|H]; [cbn; lia|]). destruct H. }
  split. { intros c Hc. assert (c = 0 \/ c = 1)%Z as [-> | ->] by lia; [constructor|]. apply (conn_step _ 0%Z); [constructor|]. exists 0%Z, 1%Z. cbn. split; [lia|]. auto 10. }
  intros. unfold seed_poses, estimate_camera_poses. change (num_cameras swapped) with (Some 2%Z). cbv beta iota.
  destruct (compute_connectivity_matrix 2 (map fst swapped)) as [m|]; [|reflexivity]. unfold traverse_links.
  destruct (traverse _ _ _ _ _ _ _) as [[[] log]|]; try reflexivity.
  destruct (callbacks svd w h spacing swapped log) as [ps|] eqn:Ec; [|reflexivity]. rewrite (all_some_none ps (zrange 1 2) 1%Z); [reflexivity|now left|].
  exact (swapped_callbacks _ _ _ _ _ _ 1%Z Ec).
Qed.

(** *** Frame numbers may not be skipped: rt_ref_frame[iframe] is then not the pose of frame iframe, or isn't there *)
Theorem C78_frame_gap_refuted : forall svd w h spacing,
  exists obs F, frames_sorted (map fst obs) /\ (forall f, proper (F f)) /\ exact (fun _ => identity_Rt) F obs /\ In (2, 0)%Z (map fst obs) /\
  exists out, estimate_joint_frame_poses svd w h spacing obs [] = Some out /\ py_get out 2 = None.
Proof.
  intros. assert (proper identity_Rt) as P by (unfold proper, identity_Rt; cbn; exact is_rot_I).
  exists [((0, 0), identity_Rt); ((2, 0), identity_Rt)]%Z, (fun _ => identity_Rt).
  split. { intros i j p q Hij Hi Hj.
    do 2 (destruct i as [|i]; [cbn in Hi; inversion Hi; subst; clear Hi; do 2 (destruct j as [|j]; [cbn in Hj; inversion Hj; subst; cbn; lia|]); destruct j; discriminate|]). destruct i; discriminate. }
  split; [auto|]. split. { intros f c p x I. cbn in I. assert (p = identity_Rt) as ->; [repeat (destruct I as [I|I]; [now inversion I|]); destruct I|]. unfold act, identity_Rt. cbn. apply v3_eq; vunfold; cbn; ring. }
  split; [cbn; auto|]. eexists. split; reflexivity.
Qed.

(** *** The hypotheses are met: two cameras, looking in different directions, that see two boards; with an SVD that never fails, and the heap of C14 *)
Definition ex_T (c : Z) : Rt := if (c =? 1)%Z then mkRt (M33 0 (-1) 0 1 0 0 0 0 1) (V3 1 2 3) else identity_Rt.
Definition ex_F (f : Z) : Rt := mkRt I3 (V3 (IZR f) 0 5).
Definition ex_rows : list (Z * Z) := [(0, 0); (0, 1); (1, 0); (1, 1)]%Z.
Definition ex_obs : list ((Z * Z) * Rt) := map (fun fc => (fc, comp (invert_Rt (ex_T (snd fc))) (ex_F (fst fc)))) ex_rows.
Example ex_conforming : conforming some_svd isort pop_by_sort isort.
Proof. destruct ex_stl as (A & B & C). destruct some_svd_ok as (D & E). constructor; assumption. Qed.
Example ex_C78 : 3 / 1000000000000 <= 1 / 10 * (1 / 10) /\
  (forall c, proper (ex_T c)) /\ (forall f, proper (ex_F f)) /\ ex_T 0%Z = identity_Rt /\ ex_T 1%Z <> identity_Rt /\
  exact ex_T ex_F ex_obs /\ ordered (map fst ex_obs) /\ in_range 2 (map fst ex_obs) /\ (Z.of_nat (length ex_obs) < 65536)%Z /\
  (forall f, (0 <= f < 2)%Z <-> exists c, In (f, c) (map fst ex_obs)) /\ (exists f, In (f, 2 - 1)%Z (map fst ex_obs)) /\
  (forall c, (0 <= c < 2)%Z -> connected (map fst ex_obs) c) /\
  seed_poses some_svd isort pop_by_sort isort 10 10 (1 / 10) ex_obs =
    Some ([rt_from_Rt (invert_Rt (ex_T 1))], [rt_from_Rt (ex_F 0); rt_from_Rt (ex_F 1)]).
Proof.
  assert (forall c, proper (ex_T c)) as PT.
  { intro c. unfold ex_T. destruct (c =? 1)%Z; [|exact is_rot_I]. unfold proper. cbn. split; [|split]; [apply m33_eq; vunfold; ring|apply m33_eq; vunfold; ring|vunfold; ring]. }
  assert (forall f, proper (ex_F f)) as PF by (intro f; exact is_rot_I).
  assert (map fst ex_obs = ex_rows) as Er by reflexivity.
  assert (exact ex_T ex_F ex_obs) as He.
  { intros f c p x I. unfold ex_obs in I. apply in_map_iff in I. destruct I as ((f' & c') & E & _). inversion E; subst. rewrite comp_act. cbn [snd fst]. now apply inv_act. }
  assert (ordered ex_rows) as Ho.
  { intros i j p q Hij Hi Hj.
    do 4 (destruct i as [|i]; [cbn in Hi; inversion Hi; subst; clear Hi; do 4 (destruct j as [|j]; [cbn in Hj; inversion Hj; subst; cbn; lia|]); destruct j; discriminate|]). destruct i; discriminate. }
  assert (in_range 2 ex_rows) as Hr by (intros p H; cbn in H; repeat (destruct H as [<-|H]; [cbn; lia|]); destruct H).
  assert (forall f, (0 <= f < 2)%Z <-> exists c, In (f, c) ex_rows) as Hf.
  { intro f. split.
    - intro H. exists 0%Z. assert (f = 0 \/ f = 1)%Z as [-> | ->] by lia; cbn; auto.
    - intros (c & H). cbn in H. repeat (destruct H as [H|H]; [inversion H; lia|]). destruct H. }
  assert (exists f, In (f, 2 - 1)%Z ex_rows) as Hl by (exists 0%Z; cbn; auto).
  assert (forall c, (0 <= c < 2)%Z -> connected ex_rows c) as Hc.
  { intros c Hc. assert (c = 0 \/ c = 1)%Z as [-> | ->] by lia; [constructor|]. apply (conn_step _ 0%Z); [constructor|]. exists 0%Z, 1%Z. cbn. split; [lia|]. auto 10. }
  assert (3 / 1000000000000 <= 1 / 10 * (1 / 10)) as Hs by lra.
  split; [exact Hs|]. split; [exact PT|]. split; [exact PF|]. split; [reflexivity|].
  split; [intro X; apply (f_equal (fun p => vx (Rt_t p))) in X; cbn in X; lra|].
  split; [exact He|]. rewrite Er. split; [exact Ho|]. split; [exact Hr|]. split; [reflexivity|]. split; [exact Hf|]. split; [exact Hl|]. split; [exact Hc|].
  rewrite (C78_seed some_svd isort pop_by_sort isort 10 10 (1 / 10) ex_obs ex_T ex_F 2 2 ex_conforming); try rewrite Er; auto; try lia; reflexivity.
Qed.

Print Assumptions C78_cameras.
Print Assumptions C78_frames.
Print Assumptions C78_frames_dense.
Print Assumptions C78_seed.
Print Assumptions C78_camera_order_refuted.
Print Assumptions C78_frame_gap_refuted.
Print Assumptions ex_C78.
