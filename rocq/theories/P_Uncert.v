(** Lemmas for C68, C69: finite sums, the sparse products, least squares. *)
From Coq Require Import Reals Lra Psatz Lia Arith ZArith List Bool Permutation FunctionalExtensionality.
From Verif Require Import M_Project M_Lens M_Layout M_Callback M_Pack M_Uncert P_Spline C_Jacobian.
Import ListNotations.
Open Scope R_scope.

(** ** Sums *)
Lemma rsum_swap : forall n m f, rsum n (fun i => rsum m (fun j => f i j)) = rsum m (fun j => rsum n (fun i => f i j)).
Proof.
  induction n as [|n IH]; intros m f; cbn [rsum].
  - symmetry. now apply rsum_0.
  - rewrite IH, <- rsum_plus. reflexivity.
Qed.
Lemma rsum_scal_r : forall n a f, rsum n f * a = rsum n (fun i => f i * a).
Proof. intros. rewrite Rmult_comm, <- rsum_scal. apply rsum_ext. intros. ring. Qed.
Lemma rsum_minus : forall n f g, rsum n (fun i => f i - g i) = rsum n f - rsum n g.
Proof. intros. replace (rsum n f - rsum n g) with (rsum n f + -1 * rsum n g) by ring. rewrite <- rsum_scal, <- rsum_plus. apply rsum_ext. intros. ring. Qed.
Lemma rsum_one : forall n k f, (k < n)%nat -> (forall i, (i < n)%nat -> i <> k -> f i = 0) -> rsum n f = f k.
Proof.
  induction n as [|n IH]; intros k f Hk Z; [lia|]. cbn [rsum]. destruct (Nat.eq_dec k n) as [->|N].
  - rewrite rsum_0; [ring|]. intros i Hi. apply Z; lia.
  - rewrite (IH k) by (try lia; intros; apply Z; lia). rewrite (Z n) by lia. ring.
Qed.
Lemma rsum_const : forall n a, rsum n (fun _ => a) = INR n * a.
Proof. induction n as [|n IH]; intro a; cbn [rsum]; [cbn; ring|]. rewrite IH, S_INR. ring. Qed.
Lemma rsum_ge0 : forall n f, (forall i, (i < n)%nat -> 0 <= f i) -> 0 <= rsum n f.
Proof. induction n as [|n IH]; intros f H; cbn [rsum]; [lra|]. pose proof (H n ltac:(lia)). pose proof (IH f ltac:(intros; apply H; lia)). lra. Qed.
Lemma rsum_mul : forall n m f g, rsum n f * rsum m g = rsum n (fun i => rsum m (fun j => f i * g j)).
Proof. intros. rewrite rsum_scal_r. apply rsum_ext. intros. now rewrite rsum_scal. Qed.
Lemma rsum_app : forall a b f, rsum (a + b) f = rsum a f + rsum b (fun i => f (a + i)%nat).
Proof. intros a b f. induction b as [|b IH]; cbn [rsum]; [rewrite Nat.add_0_r; ring|]. rewrite Nat.add_succ_r. cbn [rsum]. rewrite IH. ring. Qed.
Lemma rsum_list : forall n f, rsum n f = fold_right (fun i s => f i + s) 0 (seq 0 n).
Proof.
  intros n f. assert (forall l a, fold_right (fun i s => f i + s) a l = fold_right (fun i s => f i + s) 0 l + a) as G by (induction l as [|x l IH]; intro a; cbn; [ring|rewrite IH; ring]).
  induction n as [|n IH]; [reflexivity|]. rewrite seq_S, fold_right_app. cbn [rsum fold_right plus]. rewrite G, IH. ring.
Qed.
Lemma rsum_reindex : forall n (s : nat -> nat) f, (forall i, (i < n)%nat -> (s i < n)%nat) -> (forall i j, (i < n)%nat -> (j < n)%nat -> s i = s j -> i = j) ->
  rsum n (fun i => f (s i)) = rsum n f.
Proof.
  intros n s f B I. rewrite !rsum_list.
  assert (forall l l', Permutation l l' -> fold_right (fun i a => f i + a) 0 l = fold_right (fun i a => f i + a) 0 l') as P by (intros l l' H; induction H; cbn; lra).
  assert (forall l, fold_right (fun i a => f (s i) + a) 0 l = fold_right (fun i a => f i + a) 0 (map s l)) as M by (induction l; cbn; congruence).
  rewrite M. apply P. apply NoDup_Permutation_bis.
  - assert (forall l, NoDup l -> (forall i, In i l -> (i < n)%nat) -> NoDup (map s l)) as D.
    { induction l as [|x l IH]; intros ND H; [constructor|]. inversion ND; subst. cbn. constructor.
      - intro C. apply in_map_iff in C. destruct C as (y & E & Hy). assert (y = x) by (apply I; [apply H; now right|apply H; now left|exact E]). congruence.
      - apply IH; [assumption|]. intros; apply H; now right. }
    apply D; [apply seq_NoDup|]. intros i Hi. apply in_seq in Hi. lia.
  - now rewrite map_length.
  - intros i Hi. apply in_map_iff in Hi. destruct Hi as (j & <- & Hj). apply in_seq in Hj. apply in_seq. pose proof (B j ltac:(lia)). lia.
Qed.
Lemma for_loop_sum : forall n f a, for_loop n (fun i s => s + f i) a = a + rsum n f.
Proof. induction n as [|n IH]; intros; cbn [for_loop rsum]; [ring|]. rewrite IH. ring. Qed.

(** ** The sparse products *)
(** the matrix that the arrays describe: entries of the same place add *)
Definition dense (Jp Ji : nat -> nat) (Jx : nat -> R) (m k : nat) : R :=
  rsum (Jp (S m) - Jp m) (fun i => if Nat.eqb (Ji (Jp m + i)%nat) k then Jx (Jp m + i)%nat else 0).
Definition in_range (Jp Ji : nat -> nat) (N m : nat) : Prop := forall i, (i < Jp (S m) - Jp m)%nat -> (Ji (Jp m + i) < N)%nat.
Lemma dense_dot : forall Jp Ji Jx N m a, in_range Jp Ji N m ->
  rsum (Jp (S m) - Jp m) (fun i => a (Ji (Jp m + i)%nat) * Jx (Jp m + i)%nat) = rsum N (fun k => dense Jp Ji Jx m k * a k).
Proof.
  intros Jp Ji Jx N m a H. unfold dense. rewrite (rsum_ext N _ (fun k => rsum (Jp (S m) - Jp m) (fun i => (if Nat.eqb (Ji (Jp m + i)%nat) k then Jx (Jp m + i)%nat else 0) * a k))) by (intros; apply rsum_scal_r).
  rewrite rsum_swap. apply rsum_ext. intros i Hi. rewrite (rsum_one N (Ji (Jp m + i)%nat)); [rewrite Nat.eqb_refl; ring|now apply H|].
  intros k _ N'. destruct (Nat.eqb_spec (Ji (Jp m + i)%nat) k); [congruence|ring].
Qed.

Ltac brute := repeat (match goal with
  | |- context [Nat.eqb ?x ?y] => destruct (Nat.eqb_spec x y)
  | |- context [Nat.ltb ?x ?y] => destruct (Nat.ltb_spec x y)
  | H : context [Nat.eqb ?x ?y] |- _ => destruct (Nat.eqb_spec x y)
  | H : context [Nat.ltb ?x ?y] |- _ => destruct (Nat.ltb_spec x y)
  end; cbn [andb orb] in *; try lia); subst; lra.
Section Products.
  Variable Jp Ji : nat -> nat.
  Variable Jx : nat -> R.
  Variable N : nat.
  Variable A : nat -> R.
  Variable lead : nat.
  Hypothesis RG : forall m, (m < lead)%nat -> in_range Jp Ji N m.
  Let JA (m j : nat) : R := rsum N (fun k => dense Jp Ji Jx m k * A (k + j * N)%nat).

  Lemma put_all : forall n (f : nat -> R) b j, for_loop n (fun j b => put b j (b j + f j)) b j = if Nat.ltb j n then b j + f j else b j.
  Proof.
    induction n as [|n IH]; intros f b j; cbn [for_loop]; [reflexivity|]. set (q := for_loop n _ b) in *. assert (forall i, q i = if Nat.ltb i n then b i + f i else b i) as IH' by (intro; apply IH). clearbody q. unfold put. rewrite !IH'. destruct (Nat.eqb_spec j n) as [->|D].
    - rewrite Nat.ltb_irrefl. destruct (Nat.ltb_spec n (S n)); [reflexivity|lia].
    - destruct (Nat.ltb_spec j n), (Nat.ltb_spec j (S n)); try reflexivity; lia.
  Qed.
  Lemma jta_val : forall Nx m j, (m < lead)%nat -> (j < Nx)%nat -> jta Jp Ji Jx N A Nx m j = JA m j.
  Proof.
    intros Nx m j Hm Hj. unfold jta, JA. rewrite <- (dense_dot Jp Ji Jx N m (fun k => A (k + j * N)%nat)) by now apply RG.
    generalize (Jp (S m) - Jp m)%nat. induction n as [|n IH]; cbn [for_loop rsum]; [reflexivity|].
    rewrite (put_all Nx (fun j => A (Ji (Jp m + n) + j * N)%nat * Jx (Jp m + n)%nat)). destruct (Nat.ltb_spec j Nx); [|lia]. now rewrite IH.
  Qed.
  Lemma idx_inj : forall Nx a b c d, (b < Nx)%nat -> (d < Nx)%nat -> (a * Nx + b = c * Nx + d)%nat -> a = c /\ b = d.
  Proof. intros. assert (a = c) by nia. subst. lia. Qed.
  Lemma put_idx : forall Nx (o : buf R) a b c d x, (b < Nx)%nat -> (d < Nx)%nat -> put o (c * Nx + d)%nat x (a * Nx + b)%nat = if (Nat.eqb a c && Nat.eqb b d)%bool then x else o (a * Nx + b)%nat.
  Proof.
    intros. unfold put. destruct (Nat.eqb_spec (a * Nx + b) (c * Nx + d)) as [E|E].
    - apply idx_inj in E; [|assumption..]. destruct E; subst. now rewrite !Nat.eqb_refl.
    - destruct (Nat.eqb_spec a c), (Nat.eqb_spec b d); subst; try reflexivity. congruence.
  Qed.
  Lemma add_outer_val : forall Nx v o a b, (a < Nx)%nat -> (b < Nx)%nat -> add_outer Nx v o (a * Nx + b)%nat = o (a * Nx + b)%nat + v a * v b.
  Proof.
    intros Nx v o a b Ha Hb. unfold add_outer.
    assert (forall n, (n <= Nx)%nat -> for_loop n (fun i out =>
      let out := put out (i * Nx + i)%nat (out (i * Nx + i)%nat + v i * v i) in
      for_loop (Nx - (i + 1)) (fun k out => let j := (i + 1 + k)%nat in
        let out := put out (i * Nx + j)%nat (out (i * Nx + j)%nat + v i * v j) in
        put out (j * Nx + i)%nat (out (j * Nx + i)%nat + v i * v j)) out) o (a * Nx + b)%nat = o (a * Nx + b)%nat + (if Nat.ltb (Nat.min a b) n then v a * v b else 0)) as G.
    { induction n as [|n IH]; intro Hn; cbn [for_loop]; [destruct (Nat.ltb_spec (Nat.min a b) 0); [lia|ring]|]. specialize (IH ltac:(lia)). cbv zeta in *.
      set (o1 := for_loop n _ o) in *. clearbody o1.
      assert (forall k (o2 : buf R), (k <= Nx - (n + 1))%nat -> for_loop k (fun k out =>
        put (put out (n * Nx + (n + 1 + k))%nat (out (n * Nx + (n + 1 + k))%nat + v n * v (n + 1 + k)%nat)) ((n + 1 + k) * Nx + n)%nat
          (put out (n * Nx + (n + 1 + k))%nat (out (n * Nx + (n + 1 + k))%nat + v n * v (n + 1 + k)%nat) ((n + 1 + k) * Nx + n)%nat + v n * v (n + 1 + k)%nat)) o2 (a * Nx + b)%nat
        = o2 (a * Nx + b)%nat + (if ((Nat.eqb a n && Nat.ltb n b && Nat.ltb b (n + 1 + k)) || (Nat.eqb b n && Nat.ltb n a && Nat.ltb a (n + 1 + k)))%bool then v a * v b else 0)) as K.
      { induction k as [|k IHk]; intros o2 Hk; cbn [for_loop].
        - replace ((Nat.eqb a n && Nat.ltb n b && Nat.ltb b (n + 1 + 0)) || (Nat.eqb b n && Nat.ltb n a && Nat.ltb a (n + 1 + 0)))%bool with false; [ring|].
          symmetry. apply orb_false_iff. split; apply andb_false_iff; [destruct (Nat.ltb_spec b (n + 1 + 0))|destruct (Nat.ltb_spec a (n + 1 + 0))]; auto; left; apply andb_false_iff; right; apply Nat.ltb_ge; lia.
        - set (o3 := for_loop k _ o2) in *. pose proof (IHk o2 ltac:(lia)) as E. fold o3 in E. clearbody o3. clear IHk.
          rewrite !put_idx by lia. rewrite ?Nat.eqb_refl. cbn [andb].
          assert (forall c d, (d < Nx)%nat -> a = c -> b = d -> o3 (c * Nx + d)%nat = o3 (a * Nx + b)%nat) as E' by (intros; now subst).
          brute. }
      rewrite K by lia. clear K. rewrite put_idx by lia.
      assert (forall c d, (d < Nx)%nat -> a = c -> b = d -> o1 (c * Nx + d)%nat = o1 (a * Nx + b)%nat) as E' by (intros; now subst).
      pose proof IH as E. clear IH. brute. }
    cbv zeta in *. rewrite G by lia. destruct (Nat.ltb_spec (Nat.min a b) Nx); [reflexivity|lia].
  Qed.
  Lemma zero_loop : forall n (o : buf R) i, (i < n)%nat -> for_loop n (fun i out => put out i 0) o i = 0.
  Proof. induction n as [|n IH]; intros o i Hi; cbn [for_loop]; [lia|]. unfold put. destruct (Nat.eqb_spec i n); [reflexivity|]. apply IH. lia. Qed.
  Lemma A_Jt_J_At_val : forall Nx o i j, (i < Nx)%nat -> (j < Nx)%nat -> A_Jt_J_At Jp Ji Jx N A lead Nx o (i * Nx + j)%nat = rsum lead (fun m => JA m i * JA m j).
  Proof.
    intros Nx o i j Hi Hj. unfold A_Jt_J_At. cbv zeta. assert (i * Nx + j < Nx * Nx)%nat as B by nia.
    assert (forall n o', (n <= lead)%nat -> for_loop n (fun irow out => add_outer Nx (jta Jp Ji Jx N A Nx irow) out) o' (i * Nx + j)%nat = o' (i * Nx + j)%nat + rsum n (fun m => JA m i * JA m j)) as G.
    { induction n as [|n IH]; intros o' Hn; cbn [for_loop rsum]; [ring|]. rewrite add_outer_val by assumption. rewrite IH by lia. rewrite !jta_val by lia. ring. }
    rewrite G by lia. rewrite zero_loop by exact B. ring.
  Qed.
  Lemma jta2_val : forall m, (m < lead)%nat -> jta2 Jp Ji Jx N A m = (JA m 0, JA m 1).
  Proof.
    intros m Hm. unfold jta2, JA. 
    rewrite (rsum_ext N (fun k => dense Jp Ji Jx m k * A (k + 0 * N)%nat) (fun k => dense Jp Ji Jx m k * A k)) by (intros; do 2 f_equal; lia).
    rewrite (rsum_ext N (fun k => dense Jp Ji Jx m k * A (k + 1 * N)%nat) (fun k => dense Jp Ji Jx m k * A (k + N)%nat)) by (intros; do 2 f_equal; lia).
    rewrite <- (dense_dot Jp Ji Jx N m A), <- (dense_dot Jp Ji Jx N m (fun k => A (k + N)%nat)) by now apply RG.
    generalize (Jp (S m) - Jp m)%nat. induction n as [|n IH]; cbn [for_loop rsum]; [reflexivity|]. rewrite IH. reflexivity.
  Qed.
  Lemma A_Jt_J_At_2_val : forall o i j, (i < 2)%nat -> (j < 2)%nat -> A_Jt_J_At_2 Jp Ji Jx N A lead o (i * 2 + j)%nat = rsum lead (fun m => JA m i * JA m j).
  Proof.
    intros o i j Hi Hj. unfold A_Jt_J_At_2. cbv zeta.
    set (z := for_loop (2 * 2) _ o). assert (z 0%nat = 0 /\ z 1%nat = 0 /\ z 3%nat = 0) as (Z0 & Z1 & Z3) by (repeat split; apply zero_loop; lia). clearbody z.
    set (body := fun (irow : nat) (out : buf R) => _).
    assert (forall n, (n <= lead)%nat -> for_loop n body z 0%nat = rsum n (fun m => JA m 0 * JA m 0) /\ for_loop n body z 1%nat = rsum n (fun m => JA m 0 * JA m 1) /\ for_loop n body z 3%nat = rsum n (fun m => JA m 1 * JA m 1)) as G.
    { induction n as [|n IH]; intro Hn; cbn [for_loop rsum]; [auto|]. destruct (IH ltac:(lia)) as (G0 & G1 & G3). unfold body at 1 3 5. rewrite jta2_val by lia. unfold put. cbn [Nat.eqb].
      rewrite G0, G1, G3. auto. }
    destruct (G lead (le_n _)) as (G0 & G1 & G3). assert ((i = 0 \/ i = 1) /\ (j = 0 \/ j = 1))%nat as [[-> | ->] [-> | ->]] by lia; cbn [Nat.mul Nat.add]; unfold put; cbn [Nat.eqb].
    - exact G0. - exact G1. - rewrite G1. apply rsum_ext. intros. ring. - exact G3.
  Qed.
End Products.

(** the arrays of the callback's rows describe the columns of the rows *)
Lemma dense_csr : forall js m k, (m < length js)%nat -> (forall e, In e (nth m js []) -> (0 <= fst e)%Z) ->
  dense (indptr js) (indices js) (data js) m k = column (nth m js []) (Z.of_nat k).
Proof.
  intros js m k Hm NN. unfold dense.
  assert (indptr js (S m) = indptr js m + length (nth m js []))%nat as E.
  { unfold indptr. clear NN. revert m Hm. induction js as [|j js IH]; intros m Hm; cbn [length] in *; [lia|]. destruct m as [|m]; [cbn [firstn concat nth length]; rewrite app_length; cbn; lia|].
    specialize (IH m ltac:(lia)). rewrite !firstn_cons. cbn [concat nth]. rewrite !app_length. lia. }
  rewrite E. replace (indptr js m + length (nth m js []) - indptr js m)%nat with (length (nth m js [])) by lia.
  assert (forall i, (i < length (nth m js []))%nat -> nth (indptr js m + i) (concat js) (0%Z, 0) = nth i (nth m js []) (0%Z, 0)) as G.
  { unfold indptr. clear NN E. revert m Hm. induction js as [|j js IH]; intros m Hm i Hi; cbn [length] in *; [lia|]. destruct m as [|m].
    - cbn [firstn concat nth length plus] in *. now rewrite app_nth1.
    - cbn [firstn concat nth] in *. rewrite app_length, app_nth2 by lia. replace (length j + length (concat (firstn m js)) + i - length j)%nat with (length (concat (firstn m js)) + i)%nat by lia. apply IH; [lia|exact Hi]. }
  rewrite (rsum_ext _ _ (fun i => if (Z.eqb (fst (nth i (nth m js []) (0%Z, 0))) (Z.of_nat k)) then snd (nth i (nth m js []) (0%Z, 0)) else 0)).
  - clear. generalize (nth m js []). intro l. induction l as [|[n a] l IH] using rev_ind; [reflexivity|]. rewrite app_length, Nat.add_comm. cbn [length plus rsum].
    assert (forall l l', column (l ++ l') (Z.of_nat k) = column l (Z.of_nat k) + column l' (Z.of_nat k)) as CA by (induction l0 as [|[? ?] l0 IH0]; intro l'; cbn [column app]; [ring|rewrite IH0; ring]).
    rewrite CA. cbn [column]. rewrite <- IH, app_nth2, Nat.sub_diag by lia. cbn [nth fst snd]. f_equal; [|destruct (n =? Z.of_nat k)%Z; ring]. apply rsum_ext. intros i Hi. now rewrite app_nth1.
  - intros i Hi. unfold indices, data. rewrite G by exact Hi. assert (In (nth i (nth m js []) (0%Z, 0)) (nth m js [])) as HI by now apply nth_In. specialize (NN _ HI).
    destruct (Nat.eqb_spec (Z.to_nat (fst (nth i (nth m js []) (0%Z, 0)))) k), (Z.eqb_spec (fst (nth i (nth m js []) (0%Z, 0))) (Z.of_nat k)); try reflexivity; lia.
Qed.

(** ** Least squares *)
Section LS.
  Variable M N : nat.
  Variable J : nat -> nat -> R.
  Definition mulv (d : nat -> R) (m : nat) : R := rsum N (fun k => J m k * d k).
  Definition JtJ (k l : nat) : R := rsum M (fun m => J m k * J m l).
  Lemma JtJ_sym : forall k l, JtJ k l = JtJ l k.
  Proof. intros. apply rsum_ext. intros. ring. Qed.
  Lemma JtJ_mul : forall d k, rsum N (fun l => JtJ k l * d l) = rsum M (fun m => J m k * mulv d m).
  Proof.
    intros. unfold JtJ, mulv. rewrite (rsum_ext N _ (fun l => rsum M (fun m => J m k * J m l * d l))) by (intros; apply rsum_scal_r). rewrite rsum_swap. apply rsum_ext. intros m _.
    rewrite <- rsum_scal. apply rsum_ext. intros. ring.
  Qed.
  Lemma dot_JtJ : forall a d, rsum N (fun k => a k * rsum N (fun l => JtJ k l * d l)) = rsum M (fun m => mulv a m * mulv d m).
  Proof.
    intros. rewrite (rsum_ext N _ (fun k => rsum M (fun m => a k * J m k * mulv d m))).
    - rewrite rsum_swap. apply rsum_ext. intros m _. unfold mulv at 2. rewrite rsum_scal_r. apply rsum_ext. intros. ring.
    - intros k _. rewrite JtJ_mul, <- rsum_scal. apply rsum_ext. intros. ring.
  Qed.
  Definition cost (n d : nat -> R) : R := rsum M (fun m => (mulv d m - n m) * (mulv d m - n m)).
  Definition fits (n d : nat -> R) : Prop := forall d', cost n d <= cost n d'.
  Lemma mulv_comb : forall d e t m, mulv (fun k => d k + t * e k) m = mulv d m + t * mulv e m.
  Proof. intros. unfold mulv. rewrite <- rsum_scal, <- rsum_plus. apply rsum_ext. intros. ring. Qed.
  Lemma cost_comb : forall n d e t, cost n (fun k => d k + t * e k) = cost n d + 2 * t * rsum M (fun m => mulv e m * (mulv d m - n m)) + t * t * rsum M (fun m => mulv e m * mulv e m).
  Proof.
    intros. unfold cost. rewrite (Rmult_comm 2 t), Rmult_assoc, <- (rsum_scal M 2), <- (rsum_scal M t), <- (rsum_scal M (t * t)), <- !rsum_plus. apply rsum_ext. intros. rewrite mulv_comb. ring.
  Qed.
  (** the normal equations *)
  Lemma fits_normal : forall n d, fits n d <-> forall k, (k < N)%nat -> rsum N (fun l => JtJ k l * d l) = rsum M (fun m => J m k * n m).
  Proof.
    intros n d. split.
    - intros F k Hk. set (e := fun l => if Nat.eqb l k then 1 else 0).
      assert (forall m, mulv e m = J m k) as EM. { intro m. unfold mulv, e. rewrite (rsum_one N k); [rewrite Nat.eqb_refl; ring|exact Hk|]. intros i _ D. destruct (Nat.eqb_spec i k); [congruence|ring]. }
      set (a := rsum M (fun m => mulv e m * (mulv d m - n m))). set (b := rsum M (fun m => mulv e m * mulv e m)).
      assert (forall t, 0 <= 2 * t * a + t * t * b) as Q. { intro t. pose proof (F (fun k => d k + t * e k)) as H. rewrite cost_comb in H. fold a b in H. lra. }
      assert (0 <= b) as PB by (apply rsum_ge0; intros; nra).
      assert (a = 0) as A0. { destruct (Req_dec b 0) as [B0|B0]; [pose proof (Q 1); pose proof (Q (-1)); rewrite B0 in *; lra|]. pose proof (Q (- a / b)) as H. replace (2 * (- a / b) * a + - a / b * (- a / b) * b) with (- (a * a) / b) in H by (field; lra).
        assert (0 < b) by lra. assert (- (a * a) / b * b = - (a * a)) as E by (field; lra). assert (0 <= - (a * a) / b * b) by (apply Rmult_le_pos; lra). nra. }
      rewrite JtJ_mul. unfold a in A0. rewrite (rsum_ext M _ (fun m => J m k * mulv d m - J m k * n m)) in A0 by (intros; rewrite EM; ring). rewrite rsum_minus in A0. lra.
    - intros H d'. assert (d' = fun k => d k + 1 * (d' k - d k)) as -> by (apply functional_extensionality; intro; ring).
      rewrite cost_comb. set (e := fun k => d' k - d k). assert (rsum M (fun m => mulv e m * (mulv d m - n m)) = 0) as ->.
      { rewrite (rsum_ext M _ (fun m => mulv e m * mulv d m - mulv e m * n m)) by (intros; ring). rewrite rsum_minus, <- dot_JtJ.
        rewrite (rsum_ext N _ (fun k => e k * rsum M (fun m => J m k * n m))) by (intros; now rewrite H).
        rewrite (rsum_ext N _ (fun k => rsum M (fun m => e k * (J m k * n m)))) by (intros; now rewrite rsum_scal). rewrite rsum_swap. rewrite <- rsum_minus. apply rsum_0. intros m _.
        unfold mulv. rewrite rsum_scal_r, <- rsum_minus. apply rsum_0. intros. ring. }
      assert (0 <= rsum M (fun m => mulv e m * mulv e m)) by (apply rsum_ge0; intros; nra). lra.
  Qed.
End LS.

(** ** The factorization, and what the solves give *)
Definition ind (b : bool) : R := if b then 1 else 0.
Definition unit_vec (k : nat) (l : nat) : R := ind (Nat.eqb l k).
Lemma dot_unit : forall N k f, (k < N)%nat -> rsum N (fun l => f l * unit_vec k l) = f k.
Proof.
  intros. rewrite (rsum_one N k); [unfold unit_vec; rewrite Nat.eqb_refl; cbn; ring|assumption|]. intros i _ D. unfold unit_vec. destruct (Nat.eqb_spec i k); [congruence|cbn; ring].
Qed.

(** What is asked of CHOLMOD: P' L D L' P is a factorization of JtJ with P a permutation, L lower triangular with a unit diagonal,
    D diagonal; the four solves solve with JtJ, P', L, D. *)
Definition factorizes (M N : nat) (J : nat -> nat -> R) (solve : system -> (nat -> R) -> (nat -> R)) : Prop :=
  (forall b k, (k < N)%nat -> rsum N (fun l => JtJ M J k l * solve Sys_A b l) = b k) /\
  exists (perm : nat -> nat) (L : nat -> nat -> R) (D : nat -> R),
    (forall i, (i < N)%nat -> (perm i < N)%nat) /\ (forall i j, (i < N)%nat -> (j < N)%nat -> perm i = perm j -> i = j) /\
    (forall i, (i < N)%nat -> L i i = 1) /\ (forall i j, (i < j)%nat -> L i j = 0) /\
    (forall i j, (i < N)%nat -> (j < N)%nat -> JtJ M J (perm i) (perm j) = rsum N (fun k => L i k * D k * L j k)) /\
    (forall b i, (i < N)%nat -> solve Sys_P b i = b (perm i)) /\
    (forall b i, (i < N)%nat -> rsum N (fun j => L i j * solve Sys_L b j) = b i) /\
    (forall b i, (i < N)%nat -> D i * solve Sys_D b i = b i).

Section Fact.
  Variable M N : nat.
  Variable J : nat -> nat -> R.
  Variable solve : system -> (nat -> R) -> (nat -> R).
  Hypothesis F : factorizes M N J solve.
  Let A := solve Sys_A.
  Lemma JtJ_A : forall b k, (k < N)%nat -> rsum N (fun l => JtJ M J k l * A b l) = b k.
  Proof. exact (proj1 F). Qed.
  Lemma dot_sym : forall a d, rsum N (fun k => a k * rsum N (fun l => JtJ M J k l * d l)) = rsum N (fun k => d k * rsum N (fun l => JtJ M J k l * a l)).
  Proof. intros. rewrite !dot_JtJ. apply rsum_ext. intros. ring. Qed.
  Lemma dot_solve : forall g d, rsum N (fun k => g k * d k) = rsum N (fun k => A g k * rsum N (fun l => JtJ M J k l * d l)).
  Proof. intros. rewrite dot_sym. apply rsum_ext. intros k Hk. rewrite JtJ_A by exact Hk. ring. Qed.
  Lemma JtJ_inj : forall u v, (forall k, (k < N)%nat -> rsum N (fun l => JtJ M J k l * u l) = rsum N (fun l => JtJ M J k l * v l)) -> forall k, (k < N)%nat -> u k = v k.
  Proof.
    intros u v H k Hk. rewrite <- (dot_unit N k u Hk), <- (dot_unit N k v Hk).
    rewrite (rsum_ext N (fun l => u l * unit_vec k l) (fun l => unit_vec k l * u l)) by (intros; ring). rewrite (rsum_ext N (fun l => v l * unit_vec k l) (fun l => unit_vec k l * v l)) by (intros; ring).
    rewrite (dot_solve (unit_vec k) u), (dot_solve (unit_vec k) v). apply rsum_ext. intros i Hi. now rewrite H.
  Qed.
  Lemma fit_exists : forall n, fits M N J n (A (fun k => rsum M (fun m => J m k * n m))).
  Proof. intro n. apply fits_normal. intros k Hk. rewrite JtJ_A by exact Hk. reflexivity. Qed.
  Lemma fit_unique : forall n d d', fits M N J n d -> fits M N J n d' -> forall k, (k < N)%nat -> d k = d' k.
  Proof. intros n d d' H H'. rewrite fits_normal in H, H'. apply JtJ_inj. intros k Hk. now rewrite H, H'. Qed.
  Lemma change_noise : forall g n d, fits M N J n d -> rsum N (fun k => g k * d k) = rsum M (fun m => mulv N J (A g) m * n m).
  Proof.
    intros g n d H. rewrite fits_normal in H. rewrite dot_solve. rewrite (rsum_ext N _ (fun k => rsum M (fun m => A g k * J m k * n m))).
    - rewrite rsum_swap. apply rsum_ext. intros m _. unfold mulv. rewrite rsum_scal_r. apply rsum_ext. intros. ring.
    - intros k Hk. rewrite H by exact Hk. rewrite <- rsum_scal. apply rsum_ext. intros. ring.
  Qed.
  Lemma mulv_ext : forall u v m, (forall k, (k < N)%nat -> u k = v k) -> mulv N J u m = mulv N J v m.
  Proof. intros. unfold mulv. apply rsum_ext. intros. now rewrite H. Qed.

  (** solving in pieces *)
  Lemma pieces : forall g g', rsum N (fun k => solve Sys_L (solve Sys_P g) k * solve Sys_D (solve Sys_L (solve Sys_P g')) k) = rsum M (fun m => mulv N J (A g) m * mulv N J (A g') m).
  Proof.
    destruct F as (_ & perm & L & D & PB & PI & L1 & L0 & LD & SP & SL & SD). intros g g'.
    pose (y := fun (h : nat -> R) i => A h (perm i)). pose (z := fun h k => rsum N (fun l => L l k * y h l)).
    assert (forall h i, (i < N)%nat -> h (perm i) = rsum N (fun k => L i k * (D k * z h k))) as E1.
    { intros h i Hi. rewrite <- (JtJ_A h (perm i)) by now apply PB. rewrite <- (rsum_reindex N perm (fun l => JtJ M J (perm i) l * A h l) PB PI).
      rewrite (rsum_ext N _ (fun l => rsum N (fun k => L i k * D k * L l k * y h l))) by (intros l Hl; rewrite LD by assumption; apply rsum_scal_r). rewrite rsum_swap. apply rsum_ext. intros k _.
      unfold z. rewrite <- !rsum_scal. apply rsum_ext. intros. ring. }
    assert (forall u v, (forall i, (i < N)%nat -> rsum N (fun j => L i j * u j) = rsum N (fun j => L i j * v j)) -> forall i, (i < N)%nat -> u i = v i) as LI.
    { intros u v H. assert (forall n i, (i <= n)%nat -> (i < N)%nat -> u i = v i) as G; [|intros i Hi; now apply (G i)]. induction n as [|n IH]; intros i Hn Hi.
      - specialize (H i Hi). rewrite !(rsum_one N i) in H; try assumption; [rewrite L1 in H by exact Hi; lra|..]; intros j Hj D'; rewrite L0 by lia; ring.
      - destruct (Nat.eq_dec i (S n)) as [->|]; [|apply IH; lia]. specialize (H (S n) Hi).
        assert (rsum N (fun j => L (S n) j * (u j - v j)) = 0) as Z by (rewrite (rsum_ext N _ (fun j => L (S n) j * u j - L (S n) j * v j)) by (intros; ring); rewrite rsum_minus; lra).
        rewrite (rsum_one N (S n)) in Z; [rewrite L1 in Z by exact Hi; lra|exact Hi|]. intros j Hj D'. destruct (Nat.lt_ge_cases j (S n)); [rewrite (IH j) by lia; ring|rewrite L0 by lia; ring]. }
    assert (forall h k, (k < N)%nat -> solve Sys_L (solve Sys_P h) k = D k * z h k) as E2.
    { intro h. apply LI. intros i Hi. rewrite SL by exact Hi. rewrite SP by exact Hi. now apply E1. }
    rewrite (rsum_ext N _ (fun k => z g k * (D k * z g' k))).
    2:{ intros k Hk. pose proof (SD (solve Sys_L (solve Sys_P g')) k Hk) as H. rewrite E2 in H by exact Hk. rewrite E2 by exact Hk.
        replace (D k * z g k * solve Sys_D (solve Sys_L (solve Sys_P g')) k) with (z g k * (D k * solve Sys_D (solve Sys_L (solve Sys_P g')) k)) by ring. rewrite H. ring. }
    transitivity (rsum N (fun i => y g i * g' (perm i))).
    - symmetry. rewrite (rsum_ext N (fun i => y g i * g' (perm i)) (fun i => rsum N (fun k => y g i * L i k * (D k * z g' k)))).
      2:{ intros i Hi. rewrite E1 by exact Hi. rewrite <- rsum_scal. apply rsum_ext. intros. ring. }
      rewrite rsum_swap. apply rsum_ext. intros k _. unfold z at 2. rewrite rsum_scal_r. apply rsum_ext. intros. ring.
    - rewrite <- (dot_JtJ M N J). rewrite <- (rsum_reindex N perm (fun k => A g k * rsum N (fun l => JtJ M J k l * A g' l)) PB PI).
      apply rsum_ext. intros i Hi. rewrite JtJ_A by now apply PB. reflexivity.
  Qed.

  (** the projector on the columns of J *)
  Definition hat (m l : nat) : R := mulv N J (A (fun k => J l k)) m.
  Lemma hat_idem : forall m l, hat m l = rsum M (fun i => hat i m * hat i l).
  Proof. intros m l. unfold hat at 1, mulv. rewrite (dot_solve (fun k => J m k)). rewrite dot_JtJ. reflexivity. Qed.
  Lemma hat_sym : forall m l, hat m l = hat l m.
  Proof. intros. rewrite (hat_idem m l), (hat_idem l m). apply rsum_ext. intros. ring. Qed.
  Lemma hat_trace : rsum M (fun m => hat m m) = INR N.
  Proof.
    assert (forall m l, (l < N)%nat -> A (fun k => J m k) l = rsum N (fun k => J m k * A (unit_vec k) l)) as E.
    { intro m. apply JtJ_inj. intros i Hi. rewrite JtJ_A by exact Hi. rewrite (rsum_ext N _ (fun l => rsum N (fun k => J m k * (JtJ M J i l * A (unit_vec k) l)))).
      - rewrite rsum_swap. rewrite (rsum_ext N _ (fun k => J m k * unit_vec i k)).
        + now rewrite (dot_unit N i (fun k => J m k)).
        + intros k Hk. rewrite rsum_scal. rewrite JtJ_A by exact Hi. unfold unit_vec. now rewrite Nat.eqb_sym.
      - intros l Hl. rewrite <- rsum_scal. apply rsum_ext. intros. ring. }
    unfold hat, mulv. rewrite (rsum_ext M _ (fun m => rsum N (fun l => rsum N (fun k => J m k * J m l * A (unit_vec k) l)))).
    2:{ intros m _. apply rsum_ext. intros l Hl. rewrite E by exact Hl. rewrite <- rsum_scal. apply rsum_ext. intros. ring. }
    rewrite rsum_swap. rewrite (rsum_ext N _ (fun l => rsum N (fun k => JtJ M J k l * A (unit_vec k) l))).
    2:{ intros l _. rewrite rsum_swap. apply rsum_ext. intros k _. unfold JtJ. now rewrite rsum_scal_r. }
    rewrite rsum_swap. rewrite (rsum_ext N _ (fun _ => 1)); [rewrite rsum_const; ring|]. intros k Hk. rewrite JtJ_A by exact Hk. unfold unit_vec. rewrite Nat.eqb_refl. reflexivity.
  Qed.
End Fact.

(** ** Noise *)
Definition expectation {Om : Type} (E : (Om -> R) -> R) : Prop :=
  (forall f g, E (fun w => f w + g w) = E f + E g) /\ (forall c f, E (fun w => c * f w) = c * E f).
Section Noise.
  Context {Om : Type} (E : (Om -> R) -> R) (HE : expectation E).
  Lemma E_0 : E (fun _ => 0) = 0.
  Proof. pose proof (proj2 HE 0 (fun _ => 0)) as H. rewrite Rmult_0_l in H. replace (fun w : Om => 0 * 0) with (fun w : Om => 0) in H; [exact H|]. apply functional_extensionality. intro. ring. Qed.
  Lemma E_sum : forall n f, E (fun w => rsum n (fun i => f i w)) = rsum n (fun i => E (f i)).
  Proof. induction n as [|n IH]; intro f; cbn [rsum]; [apply E_0|]. rewrite (proj1 HE (fun w => rsum n (fun i => f i w)) (f n)). now rewrite IH. Qed.
  Lemma E_ext : forall f g, (forall w, f w = g w) -> E f = E g.
  Proof. intros f g H. f_equal. apply functional_extensionality. exact H. Qed.
  Variable M : nat.
  Variable sel : nat -> bool.
  Variable n : Om -> nat -> R.
  Variable sigma : R.
  Hypothesis HN : forall m l, (m < M)%nat -> (l < M)%nat -> sel m = true -> sel l = true -> E (fun w => n w m * n w l) = if Nat.eqb m l then sigma * sigma else 0.
  Definition negligible (u : nat -> R) : Prop := forall m, (m < M)%nat -> sel m = false -> (forall w, n w m = 0) \/ u m = 0.
  Lemma E_product : forall u v, negligible u -> negligible v ->
    E (fun w => rsum M (fun m => u m * n w m) * rsum M (fun m => v m * n w m)) = sigma * sigma * rsum M (fun m => ind (sel m) * (u m * v m)).
  Proof.
    intros u v NU NV. rewrite (E_ext _ (fun w => rsum M (fun m => rsum M (fun l => u m * v l * (n w m * n w l))))).
    2:{ intro w. rewrite rsum_mul. apply rsum_ext. intros. apply rsum_ext. intros. ring. }
    rewrite (E_sum M (fun m w => rsum M (fun l => u m * v l * (n w m * n w l)))). rewrite <- rsum_scal. apply rsum_ext. intros m Hm.
    rewrite (E_sum M (fun l w => u m * v l * (n w m * n w l))). rewrite (rsum_ext M _ (fun l => u m * v l * E (fun w => n w m * n w l))) by (intros; apply (proj2 HE)).
    assert (forall l, (l < M)%nat -> (sel m = false \/ sel l = false) -> u m * v l * E (fun w => n w m * n w l) = 0) as Z.
    { intros l Hl [S0|S0]; [destruct (NU m Hm S0) as [Z|Z]|destruct (NV l Hl S0) as [Z|Z]]; try (rewrite Z; ring); rewrite (E_ext _ (fun _ => 0)) by (intro w; rewrite Z; ring); rewrite E_0; ring. }
    destruct (sel m) eqn:S0; cbn [ind].
    - rewrite (rsum_one M m); [rewrite HN, Nat.eqb_refl by assumption; ring|exact Hm|]. intros l Hl D. destruct (sel l) eqn:S1; [|apply Z; auto]. rewrite HN by assumption. destruct (Nat.eqb_spec m l); [congruence|ring].
    - rewrite rsum_0 by (intros; apply Z; auto). ring.
  Qed.
End Noise.
