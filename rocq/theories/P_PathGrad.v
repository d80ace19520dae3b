(** Gradients along a path.  A run of the template code with the gradients of several variables, contracted with the
    velocities of these variables, is the run with one gradient variable: the parameter of the path.  So the matrices
    the code returns give the rate of change along every differentiable motion of all the arguments at once. *)
From Coq Require Import Reals Lra Psatz Arith Lia.
From Coquelicot Require Import Coquelicot.
From Verif Require Import S_Vec S_Curve S_LensGrad M_Dual P_Dual P_Pose P_DualPath M_Pose P_PoseJ P_PoseGrad P_Compose C_PoseGrad.
Open Scope R_scope.

Section Contract.
Variable N : nat.
Variable vel : nat -> R.
Definition contract (a : dual) : R := tot N (fun i => dj a i * vel i).
Definition lrel (a b : dual) : Prop := dx a = dx b /\ dj b 0%nat = contract a.
Definition vlrel (a b : nv3 dualops) : Prop := lrel (n_x a) (n_x b) /\ lrel (n_y a) (n_y b) /\ lrel (n_z a) (n_z b).

Lemma contract_lin : forall d a b u v, (forall i, dj d i = u * dj a i + v * dj b i) -> contract d = u * contract a + v * contract b.
Proof. intros. unfold contract. apply tot_lin. intros i _. rewrite H. ring. Qed.
Lemma contract_lin1 : forall d a u, (forall i, dj d i = u * dj a i) -> contract d = u * contract a.
Proof. intros d a u H. rewrite (contract_lin d a a u 0); [ring|]. intro i. rewrite H. ring. Qed.
(** an operation on one or two numbers whose gradient is linear in theirs *)
Lemma lrel_op2 : forall (d e : dual) a b a' b' u v, lrel a a' -> lrel b b' ->
  dx d = dx e -> (forall i, dj d i = u * dj a i + v * dj b i) -> dj e 0%nat = u * dj a' 0%nat + v * dj b' 0%nat -> lrel d e.
Proof. intros d e a b a' b' u v [_ A] [_ B] V H E. split; [exact V|]. rewrite E, A, B. symmetry. now apply contract_lin. Qed.
Lemma lrel_op1 : forall (d e : dual) a a' u, lrel a a' -> dx d = dx e -> (forall i, dj d i = u * dj a i) -> dj e 0%nat = u * dj a' 0%nat -> lrel d e.
Proof. intros d e a a' u [_ A] V H E. split; [exact V|]. rewrite E, A. symmetry. now apply contract_lin1. Qed.

Lemma lrel_const : forall c, lrel (d_const c) (d_const c).
Proof. intro c. split; [reflexivity|]. unfold contract. cbn [d_const dj]. clear. induction N; cbn [tot]; [reflexivity|]. rewrite <- IHn. ring. Qed.
Lemma lrel_add : forall a b a' b', lrel a a' -> lrel b b' -> lrel (d_add a b) (d_add a' b').
Proof. intros a b a' b' A B. apply (lrel_op2 _ _ a b a' b' 1 1 A B); cbn; intros; try ring. destruct A as [-> _], B as [-> _]; reflexivity. Qed.
Lemma lrel_sub : forall a b a' b', lrel a a' -> lrel b b' -> lrel (d_sub a b) (d_sub a' b').
Proof. intros a b a' b' A B. apply (lrel_op2 _ _ a b a' b' 1 (-1) A B); cbn; intros; try ring. destruct A as [-> _], B as [-> _]; reflexivity. Qed.
Lemma lrel_mul : forall a b a' b', lrel a a' -> lrel b b' -> lrel (d_mul a b) (d_mul a' b').
Proof. intros a b a' b' A B. pose proof A as [VA _]. pose proof B as [VB _]. apply (lrel_op2 _ _ a b a' b' (dx b') (dx a') A B); cbn; intros; rewrite ?VA, ?VB; ring. Qed.
Lemma lrel_div : forall a b a' b', lrel a a' -> lrel b b' -> lrel (d_div a b) (d_div a' b').
Proof.
  intros a b a' b' A B. pose proof A as [VA _]. pose proof B as [VB _].
  apply (lrel_op2 _ _ a b a' b' (dx b' * / (dx b' * dx b')) (- dx a' * / (dx b' * dx b')) A B); cbn; intros; rewrite ?VA, ?VB; unfold Rdiv; ring.
Qed.
Lemma lrel_addc : forall a a' c, lrel a a' -> lrel (d_addc a c) (d_addc a' c).
Proof. intros a a' c A. apply (lrel_op1 _ _ a a' 1 A); cbn; intros; try ring. now destruct A as [-> _]. Qed.
Lemma lrel_subc : forall a a' c, lrel a a' -> lrel (d_subc a c) (d_subc a' c).
Proof. intros a a' c A. apply (lrel_op1 _ _ a a' 1 A); cbn; intros; try ring. now destruct A as [-> _]. Qed.
Lemma lrel_mulc : forall a a' c, lrel a a' -> lrel (d_mulc a c) (d_mulc a' c).
Proof. intros a a' c A. apply (lrel_op1 _ _ a a' c A); cbn; intros; try ring. now destruct A as [-> _]. Qed.
Lemma lrel_sqrt : forall a a', lrel a a' -> lrel (d_sqrt a) (d_sqrt a').
Proof. intros a a' A. pose proof A as [V _]. apply (lrel_op1 _ _ a a' (/ (2 * sqrt (dx a'))) A); cbn; intros; rewrite ?V; unfold Rdiv; try reflexivity; ring. Qed.
Lemma lrel_square : forall a a', lrel a a' -> lrel (d_square a) (d_square a').
Proof. intros a a' A. pose proof A as [V _]. apply (lrel_op1 _ _ a a' (2 * dx a') A); cbn; intros; rewrite ?V; ring. Qed.
Lemma lrel_sin : forall a a', lrel a a' -> lrel (d_sin a) (d_sin a').
Proof. intros a a' A. pose proof A as [V _]. apply (lrel_op1 _ _ a a' (cos (dx a')) A); cbn; intros; rewrite ?V; reflexivity. Qed.
Lemma lrel_cos : forall a a', lrel a a' -> lrel (d_cos a) (d_cos a').
Proof. intros a a' A. pose proof A as [V _]. apply (lrel_op1 _ _ a a' (- sin (dx a')) A); cbn; intros; rewrite ?V; reflexivity. Qed.
Lemma lrel_tan : forall a a', lrel a a' -> lrel (d_tan a) (d_tan a').
Proof. intros a a' A. pose proof A as [V _]. apply (lrel_op1 _ _ a a' (/ (cos (dx a') * cos (dx a'))) A); cbn; intros; rewrite ?V; unfold Rdiv; ring. Qed.
Lemma lrel_acos : forall a a', lrel a a' -> lrel (d_acos a) (d_acos a').
Proof. intros a a' A. pose proof A as [V _]. apply (lrel_op1 _ _ a a' (-1 / sqrt (1 - dx a' * dx a')) A); cbn; intros; rewrite ?V; reflexivity. Qed.
Lemma lrel_sinxx : forall a b a' b', lrel a a' -> lrel b b' -> lrel (nsinx_over_x dualops a b) (nsinx_over_x dualops a' b').
Proof.
  intros a b a' b' A B. unfold nsinx_over_x. cbn [nval dualops]. destruct A as [V A']. rewrite V. destruct (Rlt_dec _ _).
  - apply lrel_const.
  - apply lrel_div; [assumption|split; assumption].
Qed.
Lemma vlrel_const : forall v, vlrel (nvconst dualops v) (nvconst dualops v).
Proof. intro v. split; [|split]; apply lrel_const. Qed.
Lemma vlrel_nv3 : forall a b c a' b' c' : dual, lrel a a' -> lrel b b' -> lrel c c' -> vlrel (@NV3 dualops a b c) (@NV3 dualops a' b' c').
Proof. intros. split; [|split]; assumption. Qed.
End Contract.

(** one sentence per operation of the template code *)
Ltac lr := match goal with
  | |- vlrel _ _ (@NV3 dualops _ _ _) (@NV3 dualops _ _ _) => apply vlrel_nv3; lr
  | |- vlrel _ _ _ _ => first [assumption | apply vlrel_const | (split; [|split]); cbn [n_x n_y n_z nvadd nvsub nvmul nvmulc nvdiv nvmap nvmap2 nvcross]; lr]
  | |- lrel _ _ _ _ => first [assumption
      | progress (change (nadd dualops) with d_add; change (nsub dualops) with d_sub; change (nmul dualops) with d_mul; change (ndiv dualops) with d_div;
        change (nmulc dualops) with d_mulc; change (naddc dualops) with d_addc; change (nsubc dualops) with d_subc; change (nconst dualops) with d_const; change (nsqrt dualops) with d_sqrt; change (nsin dualops) with d_sin;
        change (ncos dualops) with d_cos; change (ntan dualops) with d_tan; change (nacos dualops) with d_acos; change (nsquare dualops) with d_square); lr
      | apply lrel_add; lr | apply lrel_sub; lr | apply lrel_mul; lr | apply lrel_div; lr | apply lrel_addc; lr | apply lrel_subc; lr | apply lrel_mulc; lr
      | apply lrel_sqrt; lr | apply lrel_sin; lr | apply lrel_cos; lr | apply lrel_tan; lr | apply lrel_acos; lr | apply lrel_square; lr | apply lrel_const | apply lrel_sinxx; lr
      | progress unfold ndivc, nneg, nvnorm2, nvmag, nvdot; lr
      | match goal with H : vlrel _ _ ?a ?b |- lrel _ _ (n_x ?a) (n_x ?b) => exact (proj1 H) | H : vlrel _ _ ?a ?b |- lrel _ _ (n_y ?a) (n_y ?b) => exact (proj1 (proj2 H)) | H : vlrel _ _ ?a ?b |- lrel _ _ (n_z ?a) (n_z ?b) => exact (proj2 (proj2 H)) end
      | idtac ]
  | |- _ => idtac end.

Lemma rotate_lrel : forall N vel a b a' b' inv, vlrel N vel a a' -> vlrel N vel b b' ->
  vlrel N vel (rotate_point_r_core dualops a b inv) (rotate_point_r_core dualops a' b' inv).
Proof.
  intros N vel a b a' b' inv A B. unfold rotate_point_r_core. cbv zeta.
  match goal with |- context [Rlt_dec (nval dualops ?x) _] => match goal with |- context [Rlt_dec (nval dualops ?y) _] => assert_fails (constr_eq x y); assert (lrel N vel x y) as E by lr end end.
  cbn [nval dualops]. rewrite (proj1 E). destruct (Rlt_dec _ _); lr.
Qed.
Lemma compose_lrel : forall N vel a b a' b', vlrel N vel a a' -> vlrel N vel b b' -> vlrel N vel (compose_r_core dualops a b) (compose_r_core dualops a' b').
Proof.
  intros N vel a b a' b' Ha Hb. unfold compose_r_core. cbv zeta.
  set (A := ndivc dualops (nvmag dualops a) 2). set (A' := ndivc dualops (nvmag dualops a') 2). assert (lrel N vel A A') as HA by (unfold A, A'; lr).
  set (B := ndivc dualops (nvmag dualops b) 2). set (B' := ndivc dualops (nvmag dualops b') 2). assert (lrel N vel B B') as HB by (unfold B, B'; lr).
  set (i := nvdot dualops a b). set (i' := nvdot dualops a' b'). assert (lrel N vel i i') as Hi by (unfold i, i'; lr).
  set (c := nvcross dualops a b). set (c' := nvcross dualops a' b'). assert (vlrel N vel c c') as Hc by (unfold c, c'; lr).
  clearbody A A' B B' i i' c c'. cbn [nval dualops]. rewrite (proj1 HA), (proj1 HB).
  destruct (Rlt_dec _ _); [destruct (Rlt_dec _ _); lr|]. destruct (Rlt_dec _ _); [lr|].
  set (sA := nsinx_over_x dualops A _). set (sA' := nsinx_over_x dualops A' _). assert (lrel N vel sA sA') as HsA by (unfold sA, sA'; lr).
  set (sB := nsinx_over_x dualops B _). set (sB' := nsinx_over_x dualops B' _). assert (lrel N vel sB sB') as HsB by (unfold sB, sB'; lr).
  clearbody sA sA' sB sB'.
  set (C := nsub dualops _ _). match goal with |- context [nsub dualops (nmul dualops (ncos dualops A') ?x) ?y] => set (C' := nsub dualops (nmul dualops (ncos dualops A') x) y) end.
  assert (lrel N vel C C') as HC by (unfold C, C'; lr).
  match goal with |- vlrel _ _ (if _ then ?x else _) (if _ then ?y else _) => set (u := x); set (u' := y) end. assert (vlrel N vel u u') as Hu by (unfold u, u'; lr).
  clearbody C C' u u'. change (num dualops) with dual in *. rewrite (proj1 HC).
  destruct (Rlt_dec _ _); [lr|]. destruct (Rlt_dec _ _); [lr|]. destruct (Rlt_dec _ _); lr.
Qed.

(** ** from one gradient variable to a path *)
Definition par (t : R) : nat -> R := fun _ => t.
Definition one (i : nat) : Prop := i = 0%nat.
Definition pdual (v d : v3) : nv3 dualops :=
  @NV3 dualops (Dual (vx v) (fun _ => vx d)) (Dual (vy v) (fun _ => vy d)) (Dual (vz v) (fun _ => vz d)).
Definition vel6 (da db : v3) : nat -> R := lay da db v0.
Lemma carries_par : forall t (f : R -> R) x, is_derive f t x -> carriesI one (par t) (fun q => f (q 0%nat)) (Dual (f t) (fun _ => x)).
Proof.
  intros t f x D. split; [intros q q' Q; now rewrite Q|]. split; [reflexivity|].
  intros i ->. cbn [dj]. unfold par at 2. apply is_derive_ext with f; [reflexivity|exact D].
Qed.
Lemma vcarries_par : forall t A d, moves3 A t d -> vcarries one (par t) (fun q => A (q 0%nat)) (pdual (A t) d).
Proof.
  intros t A d (X & Y & Z). split; [intros q q' Q; now rewrite Q|].
  split; [|split]; cbn [n_x n_y n_z pdual]; [apply (carries_par t (fun s => vx (A s)))|apply (carries_par t (fun s => vy (A s)))|apply (carries_par t (fun s => vz (A s)))]; assumption.
Qed.
Lemma moves_par : forall t G y, vcarries one (par t) (fun q => G (q 0%nat)) y -> moves3 G t (V3 (dj (n_x y) 0%nat) (dj (n_y y) 0%nat) (dj (n_z y) 0%nat)).
Proof.
  intros t G y (_ & (_ & _ & X) & (_ & _ & Y) & (_ & _ & Z)). specialize (X 0%nat eq_refl). specialize (Y 0%nat eq_refl). specialize (Z 0%nat eq_refl).
  split; [|split]; [exact X|exact Y|exact Z].
Qed.
Lemma vlrel_vars0 : forall a da db, vlrel 6 (vel6 da db) (d_vars a 0) (pdual a da).
Proof. intros a [] []. split; [|split]; (split; [reflexivity|]); cbn; ring. Qed.
Lemma vlrel_vars3 : forall b da db, vlrel 6 (vel6 da db) (d_vars b 3) (pdual b db).
Proof. intros b [] []. split; [|split]; (split; [reflexivity|]); cbn; ring. Qed.
Lemma grad_contract : forall y y' da db, vlrel 6 (vel6 da db) y y' ->
  V3 (dj (n_x y') 0%nat) (dj (n_y y') 0%nat) (dj (n_z y') 0%nat) = vadd (mv (grad3 y 0) da) (mv (grad3 y 3) db).
Proof.
  intros y y' [] [] ((_ & X) & (_ & Y) & (_ & Z)). rewrite X, Y, Z. unfold contract, vel6. apply v3_eq; vunfold; cbn; ring.
Qed.

(** compose_r: the two gradient matrices give the rate of change along every joint motion *)
Lemma compose_r_moves : forall A B t da db, moves3 A t da -> moves3 B t db -> compose_regular (A t) (B t) ->
  let y := compose_r_gen dualops (d_vec (A t) (Some 0%nat)) (d_vec (B t) (Some 3%nat)) false false in
  moves3 (fun s => compose_r2 (A s) (B s) false false) t (vadd (mv (grad3 y 0) da) (mv (grad3 y 3) db)).
Proof.
  intros A B t da db HA HB Hr y.
  rewrite <- (grad_contract y (compose_r_core dualops (pdual (A t) da) (pdual (B t) db))).
  - apply moves_par. apply (vcarries_ext one (par t) (fun q => cmp (A (q 0%nat)) (B (q 0%nat)))); [intro q; symmetry; apply (compose_r2_cmp _ _ false false)|].
    apply compose_carries; [now apply vcarries_par|now apply vcarries_par|exact Hr].
  - apply compose_lrel; [apply vlrel_vars0|apply vlrel_vars3].
Qed.
Lemma moves3_const : forall v t, moves3 (fun _ => v) t v0.
Proof. intros v t. split; [|split]; apply (is_derive_const (K := R_AbsRing) (V := R_NormedModule)). Qed.
Lemma rotate_moves : forall A X t da dx inv, moves3 A t da -> moves3 X t dx -> norm2_regular (A t) ->
  let '(_, Jr, Jx) := rotJ (A t) (X t) inv in
  moves3 (fun s => rotate_point_r (A s) (X s) inv) t (vadd (mv Jr da) (mv Jx dx)).
Proof.
  intros A X t da dx inv HA HX Hr. unfold rotJ.
  set (y := rotate_point_r_core dualops _ _ inv).
  rewrite <- (grad_contract y (rotate_point_r_core dualops (pdual (A t) da) (pdual (X t) dx) inv)).
  - apply moves_par. apply (rotate_carries one (par t) (fun q => A (q 0%nat)) (fun q => X (q 0%nat))); [now apply vcarries_par|now apply vcarries_par|].
    apply (small_stable one (par t) (fun q => A (q 0%nat)) (pdual (A t) da)); [now apply vcarries_par|exact Hr].
  - apply rotate_lrel; [apply vlrel_vars0|apply vlrel_vars3].
Qed.
(** ** R_from_r *)
Definition mmoves (M : R -> m33) (t : R) (D : m33) : Prop :=
  forall i j, (i < 3)%nat -> (j < 3)%nat -> is_derive (fun s => mget (M s) i j) t (mget D i j).
Definition mcomb (J : nat -> m33) (d : v3) : m33 :=
  let c g := g (J 0%nat) * vx d + g (J 1%nat) * vy d + g (J 2%nat) * vz d in
  M33 (c m00) (c m01) (c m02) (c m10) (c m11) (c m12) (c m20) (c m21) (c m22).
Lemma rodr_moves : forall A t da, moves3 A t da -> A t <> v0 -> mmoves (fun s => rodr (A s)) t (mcomb (Jrod (A t)) da).
Proof.
  intros A t da (X & Y & Z) H i j Hi Hj.
  assert (0 < vx (A t) * vx (A t) + vy (A t) * vy (A t) + vz (A t) * vz (A t)) as P.
  { destruct (norm2_nonneg (A t)) as [N|N]; [exact N|]. symmetry in N. apply norm2_zero in N. contradiction. }
  pose proof (sqrt_lt_R0 _ P) as Q.
  set (a := fun s => vx (A s)) in *. set (b := fun s => vy (A s)) in *. set (c := fun s => vz (A s)) in *.
  change (is_derive a t (vx da)) in X. change (is_derive b t (vy da)) in Y. change (is_derive c t (vz da)) in Z.
  change (vx (A t)) with (a t) in *. change (vy (A t)) with (b t) in *. change (vz (A t)) with (c t) in *.
  assert (A t = V3 (a t) (b t) (c t)) as E by (unfold a, b, c; now destruct (A t)).
  apply is_derive_ext with (fun s => mget (rodr (V3 (a s) (b s) (c s))) i j); [intro s; unfold a, b, c; now destruct (A s)|]. rewrite E. clearbody a b c. clear E H A.
  pose proof (is_derive_unique _ _ _ X) as UX. pose proof (is_derive_unique _ _ _ Y) as UY. pose proof (is_derive_unique _ _ _ Z) as UZ.
  assert (ex_derive a t) as EX by (eexists; exact X). assert (ex_derive b t) as EY by (eexists; exact Y). assert (ex_derive c t) as EZ by (eexists; exact Z).
  (destruct i as [|[|[|i]]]; [| | |lia]); (destruct j as [|[|[|j]]]; [| | |lia]);
    unfold mcomb, rodr, Jrod, rod, unit, norm, norm2, dot, mget, mrow, vget, vset; cbn [vx vy vz m00 m01 m02 m10 m11 m12 m20 m21 m22].
  all: auto_derive; [repeat split; try assumption; lra | ].
  all: change (Derive (fun x => a x) t) with (Derive a t); change (Derive (fun x => b x) t) with (Derive b t); change (Derive (fun x => c x) t) with (Derive c t); rewrite ?UX, ?UY, ?UZ.
  all: set (th := sqrt (a t * a t + b t * b t + c t * c t)) in *.
  all: generalize dependent th; intros th Q; generalize (sin th) (cos th) (vx da) (vy da) (vz da) (a t) (b t) (c t); intros; field; lra.
Qed.
Lemma norm_gt_locally : forall A t da c, 0 <= c -> moves3 A t da -> c < norm (A t) -> locally t (fun s => c < norm (A s)).
Proof.
  intros A t da c C (X & Y & Z) L.
  assert (is_derive (fun s => vx (A s) * vx (A s) + vy (A s) * vy (A s) + vz (A s) * vz (A s)) t
    (2 * (vx (A t) * vx da + vy (A t) * vy da + vz (A t) * vz da))) as D.
  { set (a := fun s => vx (A s)). set (b := fun s => vy (A s)). set (e := fun s => vz (A s)).
    change (is_derive a t (vx da)) in X. change (is_derive b t (vy da)) in Y. change (is_derive e t (vz da)) in Z.
    change (is_derive (fun s => a s * a s + b s * b s + e s * e s) t (2 * (a t * vx da + b t * vy da + e t * vz da))). clearbody a b e.
    pose proof (is_derive_unique _ _ _ X) as UX. pose proof (is_derive_unique _ _ _ Y) as UY. pose proof (is_derive_unique _ _ _ Z) as UZ.
    assert (ex_derive a t) by (eexists; exact X). assert (ex_derive b t) by (eexists; exact Y). assert (ex_derive e t) by (eexists; exact Z).
    auto_derive; [now repeat split|].
    change (Derive (fun x => a x) t) with (Derive a t); change (Derive (fun x => b x) t) with (Derive b t); change (Derive (fun x => e x) t) with (Derive e t). rewrite UX, UY, UZ. ring. }
  assert (c * c < vx (A t) * vx (A t) + vy (A t) * vy (A t) + vz (A t) * vz (A t)) as L2.
  { change (c * c < norm2 (A t)). rewrite <- norm_sq. nra. }
  assert (locally t (fun s => c * c < vx (A s) * vx (A s) + vy (A s) * vy (A s) + vz (A s) * vz (A s))) as G.
  { refine (ex_derive_continuous (fun s => vx (A s) * vx (A s) + vy (A s) * vy (A s) + vz (A s) * vz (A s)) t _ (fun y => c * c < y) _); [eexists; exact D|now apply (open_gt (c * c))]. }
  revert G. apply filter_imp. intros s G. change (c * c < norm2 (A s)) in G. rewrite <- norm_sq in G. pose proof (norm_nonneg (A s)). nra.
Qed.
Lemma R_from_r_moves : forall A t da, moves3 A t da -> DBL_EPSILON < norm (A t) -> mmoves (fun s => R_from_r (A s)) t (mcomb (R_from_r_J (A t)) da).
Proof.
  intros A t da H L. pose proof eps_pos as E. pose proof (norm_gt_locally A t da DBL_EPSILON ltac:(lra) H L) as G.
  assert (A t <> v0) as N by (apply pos_ne0; lra). pose proof (rodr_moves A t da H N) as D. intros i j Hi Hj.
  apply is_derive_ext_loc with (fun s => mget (rodr (A s)) i j).
  - revert G. apply filter_imp. intros s G. rewrite R_from_r_rod by lra. reflexivity.
  - replace (mcomb (R_from_r_J (A t)) da) with (mcomb (Jrod (A t)) da); [now apply D|]. unfold mcomb. rewrite !R_from_r_J_big by lra. reflexivity.
Qed.
(** a matrix applied to a moving vector *)
Lemma mulRv_moves : forall M X t D d, mmoves M t D -> moves3 X t d -> moves3 (fun s => mul_Rv (M s) (X s)) t (vadd (mul_Rv D (X t)) (mul_Rv (M t) d)).
Proof.
  intros M X t D d HM (DX & DY & DZ).
  assert (forall i (f g h : m33 -> R), (i < 3)%nat -> (forall m, mget m i 0 = f m) -> (forall m, mget m i 1 = g m) -> (forall m, mget m i 2 = h m) ->
    is_derive (fun s => f (M s) * vx (X s) + g (M s) * vy (X s) + h (M s) * vz (X s)) t
      (f D * vx (X t) + g D * vy (X t) + h D * vz (X t) + (f (M t) * vx d + g (M t) * vy d + h (M t) * vz d))) as K.
  { intros i f g h Hi F G H.
    pose proof (HM i 0%nat Hi ltac:(lia)) as A. pose proof (HM i 1%nat Hi ltac:(lia)) as B. pose proof (HM i 2%nat Hi ltac:(lia)) as C.
    rewrite F in A. rewrite G in B. rewrite H in C.
    assert (is_derive (fun s => f (M s)) t (f D)) as A' by (eapply is_derive_ext; [|exact A]; intro; apply F).
    assert (is_derive (fun s => g (M s)) t (g D)) as B' by (eapply is_derive_ext; [|exact B]; intro; apply G).
    assert (is_derive (fun s => h (M s)) t (h D)) as C' by (eapply is_derive_ext; [|exact C]; intro; apply H).
    clear A B C.
    set (a := fun s => f (M s)). set (b := fun s => g (M s)). set (c := fun s => h (M s)).
    set (x := fun s => vx (X s)). set (y := fun s => vy (X s)). set (z := fun s => vz (X s)).
    change (is_derive a t (f D)) in A'. change (is_derive b t (g D)) in B'. change (is_derive c t (h D)) in C'.
    change (is_derive x t (vx d)) in DX. change (is_derive y t (vy d)) in DY. change (is_derive z t (vz d)) in DZ.
    change (is_derive (fun s => a s * x s + b s * y s + c s * z s) t (f D * x t + g D * y t + h D * z t + (a t * vx d + b t * vy d + c t * vz d))).
    clearbody a b c x y z.
    pose proof (is_derive_unique _ _ _ DX) as UX. pose proof (is_derive_unique _ _ _ DY) as UY. pose proof (is_derive_unique _ _ _ DZ) as UZ.
    pose proof (is_derive_unique _ _ _ A') as UA. pose proof (is_derive_unique _ _ _ B') as UB. pose proof (is_derive_unique _ _ _ C') as UC.
    assert (ex_derive x t) by (eexists; exact DX). assert (ex_derive y t) by (eexists; exact DY). assert (ex_derive z t) by (eexists; exact DZ).
    assert (ex_derive a t) by (eexists; exact A'). assert (ex_derive b t) by (eexists; exact B'). assert (ex_derive c t) by (eexists; exact C').
    auto_derive; [now repeat split|].
    change (Derive (fun x => a x) t) with (Derive a t); change (Derive (fun x => b x) t) with (Derive b t); change (Derive (fun x => c x) t) with (Derive c t).
    change (Derive (fun s => x s) t) with (Derive x t); change (Derive (fun x => y x) t) with (Derive y t); change (Derive (fun x => z x) t) with (Derive z t).
    rewrite UA, UB, UC, UX, UY, UZ. ring. }
  split; [|split]; cbn [vx vy vz mul_Rv vadd]; [apply (K 0%nat)|apply (K 1%nat)|apply (K 2%nat)]; auto; intros []; reflexivity.
Qed.
Lemma moves3_add : forall A B t da db, moves3 A t da -> moves3 B t db -> moves3 (fun s => vadd (A s) (B s)) t (vadd da db).
Proof.
  intros A B t da db (X & Y & Z) (X' & Y' & Z'). split; [|split]; cbn [vadd vx vy vz]; [apply (is_derive_plus (fun s => vx (A s)) (fun s => vx (B s)))|apply (is_derive_plus (fun s => vy (A s)) (fun s => vy (B s)))|apply (is_derive_plus (fun s => vz (A s)) (fun s => vz (B s)))]; assumption.
Qed.
