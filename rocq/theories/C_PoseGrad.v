(** C26: the gradients returned by the rt pose functions are partial derivatives. *)
From Coq Require Import Reals Lra Psatz Arith Lia.
From Coquelicot Require Import Coquelicot.
From Verif Require Import S_Vec M_Dual M_Pose P_Dual P_Trig P_Pose P_PoseGrad P_Compose C_Rt.
Open Scope R_scope.

(** ** From dual numbers to jacobians *)
Definition at3 (k : nat) : nat -> Prop := fun i => (k <= i < k + 3)%nat.
Lemma jac_of : forall k p F y f, vcarries (at3 k) p F y ->
  (forall j t, (j < 3)%nat -> F (setv p (k + j) t) = f (vset (vec_at p k) j t)) ->
  is_jacobian f (vec_at p k) (grad3 y k).
Proof.
  intros k p F y f (X & (_ & _ & D1) & (_ & _ & D2) & (_ & _ & D3)) E i j Hi Hj.
  apply is_derive_Reals.
  apply (is_derive_ext (fun t => vget (F (setv p (k + j) t)) i)); [intro t; now rewrite E|].
  assert (at3 k (k + j)%nat) as Hk by (unfold at3; lia).
  assert (vget (vec_at p k) j = p (k + j)%nat) as ->.
  { destruct j as [|[|[|j]]]; [| | |lia]; cbn; f_equal; lia. }
  assert (mget (grad3 y k) i j = dj (match i with O => n_x y | S O => n_y y | _ => n_z y end) (k + j)%nat) as ->.
  { destruct i as [|[|[|i]]]; [| | |lia]; (destruct j as [|[|[|j]]]; [| | |lia]); reflexivity. }
  destruct i as [|[|[|i]]]; [| | |lia]; cbn [vget]; auto.
Qed.
Lemma vec_at_setv_in : forall p k j t, (j < 3)%nat -> vec_at (setv p (k + j) t) k = vset (vec_at p k) j t.
Proof.
  intros p k j t H. unfold vec_at, setv, vset.
  destruct j as [|[|[|j]]]; [| | |lia]; repeat match goal with |- context [Nat.eqb ?a ?b] => destruct (Nat.eqb_spec a b); try lia end; reflexivity.
Qed.
Lemma vec_at_setv_out : forall p k k' j t, (j < 3)%nat -> (k' + 3 <= k \/ k + 3 <= k')%nat -> vec_at (setv p (k + j) t) k' = vec_at p k'.
Proof.
  intros p k k' j t H O. unfold vec_at, setv.
  repeat match goal with |- context [Nat.eqb ?a ?b] => destruct (Nat.eqb_spec a b); try lia end; reflexivity.
Qed.

(** the variables of the caller, laid out at indices 0.., 3.., 6.. *)
Definition lay (a b c : v3) : nat -> R := fun i =>
  match i with 0%nat => vx a | 1%nat => vy a | 2%nat => vz a | 3%nat => vx b | 4%nat => vy b | 5%nat => vz b
             | 6%nat => vx c | 7%nat => vy c | _ => vz c end.
Lemma lay0 : forall a b c, vec_at (lay a b c) 0 = a. Proof. now intros [] [] []. Qed.
Lemma lay3 : forall a b c, vec_at (lay a b c) 3 = b. Proof. now intros [] [] []. Qed.
Lemma lay6 : forall a b c, vec_at (lay a b c) 6 = c. Proof. now intros [] [] []. Qed.
Definition pick (o : option nat) (x : v3) (q : nat -> R) : v3 := match o with None => x | Some k => vec_at q k end.
Lemma pick_carries : forall I p o x, pick o x p = x -> vcarries I p (pick o x) (d_vec x o).
Proof.
  intros I p [k|] x E; cbn in E; [|apply vcarries_const]. subst x. exact (vcarries_vars I p k).
Qed.
Lemma stable_const : forall (I : nat -> Prop) p (P : (nat -> R) -> Prop), (forall i t, I i -> (P (setv p i t) <-> P p)) -> stable I p P.
Proof. intros I p P H i Hi. exists (mkposreal 1 Rlt_0_1). intros t _. now apply H. Qed.
Lemma at3_ex : forall k i, at3 k i -> exists j, (j < 3)%nat /\ i = (k + j)%nat.
Proof. intros k i H. exists (i - k)%nat. unfold at3 in H. lia. Qed.

Definition norm2_regular (r : v3) : Prop := norm2 r <> 1 / 10000000000.
Lemma small_norm2 : forall r, small r <-> norm2 r < 1 / 10000000000.
Proof. intro. unfold small, norm2, dot. tauto. Qed.
Lemma small_stable : forall I p F d, vcarries I p F d -> norm2_regular (F p) -> stable I p (fun q => small (F q)).
Proof.
  intros I p F d H Hr i Hi. generalize (stable_lt I p _ _ _ (carries_dot I p F F d d H H) Hr i Hi). apply filter_imp.
  intros t. now rewrite !small_norm2.
Qed.

(** Every way the code runs the rotation on dual numbers: r at variables [orr] (or
    constant), x at variables [ox] (or constant) *)
Section Rot.
Variables (r x : v3) (inv : bool) (orr ox : option nat) (p : nat -> R).
Hypothesis Er : pick orr r p = r.
Hypothesis Ex : pick ox x p = x.
Let y := rotate_point_r_core dualops (d_vec r orr) (d_vec x ox) inv.
Lemma rot_carries : forall I, stable I p (fun q => small (pick orr r q)) ->
  vcarries I p (fun q => rotate_point_r (pick orr r q) (pick ox x q) inv) y.
Proof. intros I H. apply rotate_carries; [now apply pick_carries|now apply pick_carries|exact H]. Qed.
Lemma rot_value : value3 y = rotate_point_r r x inv.
Proof.
  assert (stable (fun _ => False) p (fun q => small (pick orr r q))) as St by (intros i []).
  unfold value3. rewrite (vcarries_value _ _ _ _ (rot_carries _ St)). now rewrite Er, Ex.
Qed.
Lemma rot_Jr : forall k, orr = Some k -> (forall kx, ox = Some kx -> (kx + 3 <= k \/ k + 3 <= kx)%nat) -> norm2_regular r ->
  is_jacobian (fun r => rotate_point_r r x inv) r (grad3 y k).
Proof.
  intros k Ek Hd Hr. pose proof Er as Er'. rewrite Ek in Er'. cbn in Er'. rewrite <- Er' at 1.
  eapply jac_of.
  - apply rot_carries. eapply small_stable; [apply pick_carries; exact Er|now rewrite Er].
  - intros j t Hj. cbn beta. rewrite Ek. cbn [pick]. rewrite vec_at_setv_in by easy. rewrite Er'. f_equal.
    destruct ox as [kx|]; cbn [pick] in *; [|reflexivity]. rewrite vec_at_setv_out; auto.
Qed.
Lemma rot_Jx : forall k, ox = Some k -> (forall kr, orr = Some kr -> (kr + 3 <= k \/ k + 3 <= kr)%nat) ->
  is_jacobian (fun x => rotate_point_r r x inv) x (grad3 y k).
Proof.
  intros k Ek Hd. pose proof Ex as Ex'. rewrite Ek in Ex'. cbn in Ex'. rewrite <- Ex' at 1.
  assert (forall j t, (j < 3)%nat -> pick orr r (setv p (k + j) t) = r) as Hp.
  { intros j t Hj. destruct orr as [kr|]; cbn [pick] in *; [|reflexivity]. rewrite vec_at_setv_out; auto. }
  eapply jac_of.
  - apply rot_carries. apply stable_const. intros i t Hi. destruct (at3_ex _ _ Hi) as (j & Hj & ->). rewrite Hp, Er by easy. tauto.
  - intros j t Hj. cbn beta. rewrite Hp by easy. rewrite Ek. cbn [pick]. rewrite vec_at_setv_in by easy. now rewrite Ex'.
Qed.
End Rot.

(** ** rotate_point_r: with or without either gradient, the value is the same and
    each gradient asked for is the matrix of partial derivatives.  The r gradient
    is exact everywhere except at |r|^2 = 1e-10, where the code switches formulas
    and the function itself jumps. *)
Theorem C26_rotate_point_r_partial : forall r x inv want_Jr want_Jx,
  let '(y, Jr, Jx) := rotate_point_r_full r x inv want_Jr want_Jx in
  y = rotate_point_r r x inv /\
  (if want_Jr then exists J, Jr = Some J /\ (norm2 r <> 1 / 10000000000 -> is_jacobian (fun r => rotate_point_r r x inv) r J) else Jr = None) /\
  (if want_Jx then exists J, Jx = Some J /\ is_jacobian (fun x => rotate_point_r r x inv) x J else Jx = None).
Proof.
  intros r x inv [|] [|]; unfold rotate_point_r_full.
  - split; [apply (rot_value r x inv _ _ (lay r x v0)); [apply lay0|apply lay3]|].
    split; (eexists; split; [reflexivity|]).
    + intro H. apply (rot_Jr r x inv (Some 0%nat) (Some 3%nat) (lay r x v0)); [apply lay0|apply lay3|reflexivity| |exact H]. intros kx [= <-]. lia.
    + apply (rot_Jx r x inv (Some 0%nat) (Some 3%nat) (lay r x v0)); [apply lay0|apply lay3|reflexivity|]. intros kx [= <-]. lia.
  - split; [apply (rot_value r x inv _ _ (lay r x v0)); [apply lay0|reflexivity]|]. split; [|reflexivity].
    eexists; split; [reflexivity|].
    intro H. apply (rot_Jr r x inv (Some 0%nat) None (lay r x v0)); [apply lay0|reflexivity|reflexivity| |exact H]. intros kx [=].
  - split; [apply (rot_value r x inv _ _ (lay x r v0)); [reflexivity|apply lay0]|]. split; [reflexivity|].
    eexists; split; [reflexivity|].
    apply (rot_Jx r x inv None (Some 0%nat) (lay x r v0)); [reflexivity|apply lay0|reflexivity|]. intros kx [=].
  - easy.
Qed.

(** ** linear algebra of jacobians *)
Lemma jac_unique : forall f x J J', is_jacobian f x J -> is_jacobian f x J' -> J = J'.
Proof.
  intros f x J J' H H'. assert (forall i j, (i < 3)%nat -> (j < 3)%nat -> mget J i j = mget J' i j) as E.
  { intros i j Hi Hj. eapply uniqueness_limite; [apply H|apply H']; easy. }
  apply m33_eq; [apply (E 0%nat 0%nat)|apply (E 0%nat 1%nat)|apply (E 0%nat 2%nat)|apply (E 1%nat 0%nat)|apply (E 1%nat 1%nat)|apply (E 1%nat 2%nat)|apply (E 2%nat 0%nat)|apply (E 2%nat 1%nat)|apply (E 2%nat 2%nat)]; lia.
Qed.
Lemma jac_ext : forall f g x J, (forall v, f v = g v) -> is_jacobian f x J -> is_jacobian g x J.
Proof.
  intros f g x J E H i j Hi Hj. apply is_derive_Reals. eapply is_derive_ext; [|apply is_derive_Reals, H; easy].
  intro t. cbn. now rewrite E.
Qed.
Lemma jac_mv : forall M f x J, is_jacobian f x J -> is_jacobian (fun x => mv M (f x)) x (mm M J).
Proof.
  intros M f x J H i j Hi Hj. apply is_derive_Reals.
  assert (forall w, vget (mv M w) i = mget M i 0%nat * vget w 0%nat + mget M i 1%nat * vget w 1%nat + mget M i 2%nat * vget w 2%nat) as E.
  { intro w. destruct i as [|[|[|i]]]; [| | |lia]; reflexivity. }
  eapply is_derive_ext; [intro t; symmetry; apply E|].
  assert (mget (mm M J) i j = mget M i 0%nat * mget J 0%nat j + mget M i 1%nat * mget J 1%nat j + mget M i 2%nat * mget J 2%nat j) as ->.
  { destruct i as [|[|[|i]]]; [| | |lia]; (destruct j as [|[|[|j]]]; [| | |lia]); unfold mget, mrow, mm, vget; cbn; ring. }
  assert (forall i, (i < 3)%nat -> is_derive (fun t => vget (f (vset x j t)) i) (vget x j) (mget J i j)) as D.
  { intros i' H'. apply is_derive_Reals, H; easy. }
  apply @is_derive_plus; [apply @is_derive_plus|]; apply @is_derive_scal, D; lia.
Qed.
Lemma jac_id : forall x, is_jacobian (fun x => x) x I3.
Proof.
  intros x i j Hi Hj. apply is_derive_Reals. destruct i as [|[|[|i]]]; [| | |lia]; (destruct j as [|[|[|j]]]; [| | |lia]);
    unfold mget, mrow, I3, vget, vset; cbn; auto_derive; lra.
Qed.
Lemma jac_lin : forall M x, is_jacobian (mv M) x M.
Proof.
  intros M x. pose proof (jac_mv M (fun x => x) x I3 (jac_id x)) as H. replace (mm M I3) with M in H; [exact H|].
  apply m33_eq; vunfold; ring.
Qed.
Lemma jac_add_const : forall f x J c, is_jacobian f x J -> is_jacobian (fun x => vadd (f x) c) x J.
Proof.
  intros f x J c H i j Hi Hj. apply is_derive_Reals.
  apply (is_derive_ext (fun t => vget (f (vset x j t)) i + vget c i)).
  - intro t. destruct i as [|[|[|i]]]; [| | |lia]; reflexivity.
  - replace (mget J i j) with (mget J i j + 0) by ring. apply @is_derive_plus; [apply is_derive_Reals, H; easy|apply @is_derive_const].
Qed.
Lemma jac_const : forall c x, is_jacobian (fun _ => c) x zero33.
Proof.
  intros c x i j Hi Hj. apply is_derive_Reals. replace (mget zero33 i j) with 0 by (destruct i as [|[|[|i]]]; [| | |lia]; (destruct j as [|[|[|j]]]; [| | |lia]); reflexivity).
  apply @is_derive_const.
Qed.
Lemma mscale_neg : forall M, mscale (-1) M = mm (M33 (-1) 0 0 0 (-1) 0 0 0 (-1)) M.
Proof. intro. apply m33_eq; unfold mscale; vunfold; ring. Qed.
Lemma scale_neg : forall v, scale3 (-1) v = mv (M33 (-1) 0 0 0 (-1) 0 0 0 (-1)) v.
Proof. intro. apply v3_eq; unfold scale3; vunfold; ring. Qed.
Lemma jac_scale_neg : forall f x J, is_jacobian f x J -> is_jacobian (fun x => scale3 (-1) (f x)) x (mscale (-1) J).
Proof.
  intros f x J H. rewrite mscale_neg. eapply jac_ext; [|apply jac_mv; exact H]. intro v. cbn. symmetry. apply scale_neg.
Qed.
(** precomposing with x -> c - x *)
Lemma jac_flip : forall f x J c, is_jacobian f (vsub c x) J -> is_jacobian (fun x => f (vsub c x)) x (mscale (-1) J).
Proof.
  intros f x J c H i j Hi Hj. apply is_derive_Reals.
  apply (is_derive_ext (fun t => vget (f (vset (vsub c x) j (vget c j - t))) i)).
  { intro t. cbn. f_equal. f_equal. destruct j as [|[|[|j]]]; [| | |lia]; reflexivity. }
  assert (mget (mscale (-1) J) i j = scal (-1) (mget J i j)) as ->.
  { unfold scal; cbn; unfold mult; cbn. destruct i as [|[|[|i]]]; [| | |lia]; (destruct j as [|[|[|j]]]; [| | |lia]); cbn; ring. }
  apply (is_derive_comp (fun s => vget (f (vset (vsub c x) j s)) i) (fun t => vget c j - t)).
  - replace (vget c j - vget x j) with (vget (vsub c x) j) by (destruct j as [|[|[|j]]]; [| | |lia]; reflexivity).
    apply is_derive_Reals, H; easy.
  - auto_derive; [easy|ring].
Qed.
(** precomposing with x -> x - c *)
Lemma jac_shift : forall f x J c, is_jacobian f (vsub x c) J -> is_jacobian (fun x => f (vsub x c)) x J.
Proof.
  intros f x J c H i j Hi Hj. apply is_derive_Reals.
  apply (is_derive_ext (fun t => vget (f (vset (vsub x c) j (t - vget c j))) i)).
  { intro t. cbn. f_equal. f_equal. destruct j as [|[|[|j]]]; [| | |lia]; reflexivity. }
  replace (mget J i j) with (scal 1 (mget J i j)) by (unfold scal; cbn; unfold mult; cbn; ring).
  apply (is_derive_comp (fun s => vget (f (vset (vsub x c) j s)) i) (fun t => t - vget c j)).
  - replace (vget x j - vget c j) with (vget (vsub x c) j) by (destruct j as [|[|[|j]]]; [| | |lia]; reflexivity).
    apply is_derive_Reals, H; easy.
  - auto_derive; [easy|ring].
Qed.
Lemma jac_negarg : forall f x J, is_jacobian f (vneg x) J -> is_jacobian (fun x => f (vneg x)) x (mscale (-1) J).
Proof.
  intros f x J H. assert (forall x, vneg x = vsub v0 x) as E by (intro; apply v3_eq; vunfold; ring).
  eapply jac_ext; [|apply (jac_flip f x J v0); now rewrite <- E]. intro v. cbn. now rewrite E.
Qed.

(** the rotation is linear in the point *)
Definition rotM (r : v3) (inv : bool) : m33 :=
  let c k := rotate_point_r r k inv in
  mT (M33 (vx (c (V3 1 0 0))) (vy (c (V3 1 0 0))) (vz (c (V3 1 0 0))) (vx (c (V3 0 1 0))) (vy (c (V3 0 1 0))) (vz (c (V3 0 1 0)))
          (vx (c (V3 0 0 1))) (vy (c (V3 0 0 1))) (vz (c (V3 0 0 1)))).
Lemma rot_linear : forall r x inv, rotate_point_r r x inv = mv (rotM r inv) x.
Proof.
  intros r x inv. unfold rotM. destruct (Rlt_dec (norm2 r) (1 / 10000000000)) as [L|L].
  - rewrite <- small_norm2 in L. rewrite !rot_is_small by easy. unfold rot_small. apply v3_eq; vunfold; field.
  - rewrite <- small_norm2 in L. rewrite !rot_is_big by easy. unfold rot_big.
    assert (0 < vx r * vx r + vy r * vy r + vz r * vz r) as P by (unfold small in L; lra). pose proof (sqrt_lt_R0 _ P) as Q.
    remember (vx r * vx r + vy r * vy r + vz r * vz r) as n eqn:En. clear En.
    apply v3_eq; vunfold; field; lra.
Qed.
Lemma rotJ_spec : forall r x inv, let '(y, Jr, Jx) := rotJ r x inv in
  y = rotate_point_r r x inv /\ (norm2 r <> 1 / 10000000000 -> is_jacobian (fun r => rotate_point_r r x inv) r Jr) /\ Jx = rotM r inv.
Proof.
  intros r x inv. pose proof (C26_rotate_point_r_partial r x inv true true) as H. unfold rotate_point_r_full in H. unfold rotJ.
  destruct H as (H1 & (J & E & H2) & (J' & E' & H3)). injection E as <-. injection E' as <-.
  split; [exact H1|split; [exact H2|]]. eapply jac_unique; [exact H3|].
  eapply jac_ext; [|apply (jac_lin (rotM r inv))]. intro v. symmetry. apply rot_linear.
Qed.

(** ** transform_point_rt *)
Lemma vadd_V3 : forall a b, V3 (vx a + vx b) (vy a + vy b) (vz a + vz b) = vadd a b.
Proof. reflexivity. Qed.
Lemma rxrt_real : forall r t x, nvval realops (rx_minus_rt realops (vconst r) (vconst t) (vconst x)) = rotate_point_r r (vsub x t) true.
Proof. reflexivity. Qed.

Section RxRt.
Variables (r t x : v3) (orr ot ox : option nat) (p : nat -> R).
Hypothesis Er : pick orr r p = r.
Hypothesis Et : pick ot t p = t.
Hypothesis Ex : pick ox x p = x.
Let y := rx_minus_rt dualops (d_vec r orr) (d_vec t ot) (d_vec x ox).
Let apart (a b : option nat) := forall i j, a = Some i -> b = Some j -> (i + 3 <= j \/ j + 3 <= i)%nat.
Hypothesis D1 : apart orr ot.
Hypothesis D2 : apart orr ox.
Hypothesis D3 : apart ot ox.
Lemma rxrt_carries : forall I, stable I p (fun q => small (pick orr r q)) ->
  vcarries I p (fun q => rotate_point_r (pick orr r q) (vsub (pick ox x q) (pick ot t q)) true) y.
Proof.
  intros I H. unfold y, rx_minus_rt. apply rotate_carries; [now apply pick_carries| |exact H].
  apply vcarries_sub; now apply pick_carries.
Qed.
Lemma rxrt_value : value3 y = rotate_point_r r (vsub x t) true.
Proof.
  assert (stable (fun _ => False) p (fun q => small (pick orr r q))) as St by (intros i []).
  unfold value3. rewrite (vcarries_value _ _ _ _ (rxrt_carries _ St)). now rewrite Er, Ex, Et.
Qed.
Lemma pick_out : forall o v k j s, pick o v p = v -> (j < 3)%nat -> (forall i, o = Some i -> (i + 3 <= k \/ k + 3 <= i)%nat) -> pick o v (setv p (k + j) s) = v.
Proof.
  intros [i|] v k j s E Hj H; cbn [pick] in *; [|reflexivity]. rewrite vec_at_setv_out; auto.
Qed.
Lemma rxrt_Jr : forall k, orr = Some k -> norm2_regular r -> is_jacobian (fun r => rotate_point_r r (vsub x t) true) r (grad3 y k).
Proof.
  intros k Ek Hr. pose proof Er as Er'. rewrite Ek in Er'. cbn in Er'. rewrite <- Er' at 1.
  eapply jac_of.
  - apply rxrt_carries. eapply small_stable; [apply pick_carries; exact Er|now rewrite Er].
  - intros j s Hj. cbn beta. rewrite (pick_out ox), (pick_out ot) by (easy || (intros i Hi; destruct (D1 k i Ek Hi); lia) || (intros i Hi; destruct (D2 k i Ek Hi); lia)).
    rewrite Ek. cbn [pick]. rewrite vec_at_setv_in by easy. now rewrite Er'.
Qed.
Lemma rxrt_Jt : forall k, ot = Some k -> is_jacobian (fun t => rotate_point_r r (vsub x t) true) t (grad3 y k).
Proof.
  intros k Ek. pose proof Et as Et'. rewrite Ek in Et'. cbn in Et'. rewrite <- Et' at 1.
  assert (forall j s, (j < 3)%nat -> pick orr r (setv p (k + j) s) = r) as Hp.
  { intros j s Hj. apply pick_out; [easy|easy|]. intros i Hi. destruct (D1 i k Hi Ek); lia. }
  eapply jac_of.
  - apply rxrt_carries. apply stable_const. intros i s Hi. destruct (at3_ex _ _ Hi) as (j & Hj & ->). rewrite Hp, Er by easy. tauto.
  - intros j s Hj. cbn beta. rewrite Hp, (pick_out ox) by (easy || (intros i Hi; destruct (D3 k i Ek Hi); lia)).
    rewrite Ek. cbn [pick]. rewrite vec_at_setv_in by easy. now rewrite Et'.
Qed.
Lemma rxrt_Jx : forall k, ox = Some k -> is_jacobian (fun x => rotate_point_r r (vsub x t) true) x (grad3 y k).
Proof.
  intros k Ek. pose proof Ex as Ex'. rewrite Ek in Ex'. cbn in Ex'. rewrite <- Ex' at 1.
  assert (forall j s, (j < 3)%nat -> pick orr r (setv p (k + j) s) = r) as Hp.
  { intros j s Hj. apply pick_out; [easy|easy|]. intros i Hi. destruct (D2 i k Hi Ek); lia. }
  eapply jac_of.
  - apply rxrt_carries. apply stable_const. intros i s Hi. destruct (at3_ex _ _ Hi) as (j & Hj & ->). rewrite Hp, Er by easy. tauto.
  - intros j s Hj. cbn beta. rewrite Hp, (pick_out ot) by (easy || (intros i Hi; destruct (D3 i k Hi Ek); lia)).
    rewrite Ek. cbn [pick]. rewrite vec_at_setv_in by easy. now rewrite Ex'.
Qed.
End RxRt.

Ltac apart := let i := fresh in let j := fresh in intros i j; try discriminate; intros [= <-] [= <-]; lia.
Theorem C26_transform_point_rt_partial : forall q x inv want_Jrt want_Jx,
  let '(y, Jrt, Jx) := transform_point_rt_full q x inv want_Jrt want_Jx in
  y = transform_point_rt q x inv /\
  (if want_Jrt then exists Jr Jt, Jrt = Some (Jr, Jt) /\
      (norm2 (rt_r q) <> 1 / 10000000000 -> is_jacobian (fun r => transform_point_rt (mkrt r (rt_t q)) x inv) (rt_r q) Jr) /\
      is_jacobian (fun t => transform_point_rt (mkrt (rt_r q) t) x inv) (rt_t q) Jt
   else Jrt = None) /\
  (if want_Jx then exists J, Jx = Some J /\ is_jacobian (fun x => transform_point_rt q x inv) x J else Jx = None).
Proof.
  intros [r t] x [|] wr wx; unfold transform_point_rt_full, transform_point_rt; cbn [rt_r rt_t].
  - assert (forall a b c, nvval realops (rx_minus_rt realops (vconst a) (vconst b) (vconst c)) = rotate_point_r a (vsub c b) true) as E by reflexivity.
    destruct wr, wx.
    + split; [apply (rxrt_value r t x _ _ _ (lay r x t)); [apply lay0|apply lay6|apply lay3]|]. split.
      * eexists _, _. split; [reflexivity|]. split.
        -- intro H. apply (rxrt_Jr r t x (Some 0%nat) (Some 6%nat) (Some 3%nat) (lay r x t)); try apart; [apply lay0|apply lay6|apply lay3|reflexivity|exact H].
        -- apply (rxrt_Jt r t x (Some 0%nat) (Some 6%nat) (Some 3%nat) (lay r x t)); try apart; [apply lay0|apply lay6|apply lay3|reflexivity].
      * eexists. split; [reflexivity|].
        apply (rxrt_Jx r t x (Some 0%nat) (Some 6%nat) (Some 3%nat) (lay r x t)); try apart; [apply lay0|apply lay6|apply lay3|reflexivity].
    + split; [apply (rxrt_value r t x _ _ _ (lay r t x)); [apply lay0|apply lay3|reflexivity]|]. split; [|reflexivity].
      eexists _, _. split; [reflexivity|]. split.
      * intro H. apply (rxrt_Jr r t x (Some 0%nat) (Some 3%nat) None (lay r t x)); try apart; [apply lay0|apply lay3|reflexivity|reflexivity|exact H].
      * apply (rxrt_Jt r t x (Some 0%nat) (Some 3%nat) None (lay r t x)); try apart; [apply lay0|apply lay3|reflexivity|reflexivity].
    + split; [apply (rxrt_value r t x _ _ _ (lay x t r)); [reflexivity|reflexivity|apply lay0]|]. split; [reflexivity|].
      eexists. split; [reflexivity|].
      apply (rxrt_Jx r t x None None (Some 0%nat) (lay x t r)); try apart; [reflexivity|reflexivity|apply lay0|reflexivity].
    + easy.
  - pose proof (C26_rotate_point_r_partial r x false wr wx) as H. destruct (rotate_point_r_full r x false wr wx) as [[y Jr] Jx].
    destruct H as (-> & Hr & Hx). split; [reflexivity|]. split.
    + destruct wr; [|now rewrite Hr]. destruct Hr as (J & -> & HJ). exists J, identity_R. split; [reflexivity|]. split.
      * intro Hn. eapply jac_ext; [|apply (jac_add_const _ _ _ t (HJ Hn))]. reflexivity.
      * eapply jac_ext; [|apply (jac_add_const _ _ _ (rotate_point_r r x false) (jac_id t))]. intro v. apply v3_eq; vunfold; ring.
    + destruct wx; [|easy]. destruct Hx as (J & -> & HJ). exists J. split; [reflexivity|].
      eapply jac_ext; [|apply (jac_add_const _ _ _ t HJ)]. reflexivity.
Qed.

(** ** invert_rt: the rotation just flips sign; the gradients of t *)
Theorem C26_invert_rt_partial : forall q want_dr want_dt,
  let '(y, Jr, Jt) := invert_rt_full q want_dr want_dt in
  y = invert_rt q /\ rt_r y = vneg (rt_r q) /\
  (if want_dr then exists J, Jr = Some J /\
     (norm2 (rt_r q) <> 1 / 10000000000 -> is_jacobian (fun r => rt_t (invert_rt (mkrt r (rt_t q)))) (rt_r q) J) else Jr = None) /\
  (if want_dt then exists J, Jt = Some J /\ is_jacobian (fun t => rt_t (invert_rt (mkrt (rt_r q) t))) (rt_t q) J else Jt = None).
Proof.
  intros [r t] wr wt. unfold invert_rt_full, invert_rt. cbn [rt_r rt_t].
  change (V3 (- vx r) (- vy r) (- vz r)) with (vneg r).
  pose proof (C26_rotate_point_r_partial (vneg r) t false wr wt) as H. destruct (rotate_point_r_full (vneg r) t false wr wt) as [[y Jr] Jx].
  destruct H as (-> & Hr & Hx). split; [reflexivity|]. split; [reflexivity|]. split.
  - destruct wr; [|now rewrite Hr]. destruct Hr as (J & -> & HJ). exists J. split; [reflexivity|]. intro Hn.
    assert (norm2 (vneg r) <> 1 / 10000000000) as Hn' by (replace (norm2 (vneg r)) with (norm2 r) by (vunfold; ring); exact Hn).
    replace J with (mscale (-1) (mscale (-1) J)) by (apply m33_eq; unfold mscale; cbn; ring).
    eapply jac_ext; [|apply jac_scale_neg, jac_negarg, (HJ Hn')]. reflexivity.
  - destruct wt; [|now rewrite Hx]. destruct Hx as (J & -> & HJ). exists (mscale (-1) J). split; [reflexivity|].
    eapply jac_ext; [|apply jac_scale_neg, HJ]. reflexivity.
Qed.

(** ** compose_r *)
Definition sgn (inv : bool) (r : v3) : v3 := if inv then vneg r else r.
Lemma maybe_neg_real : forall inv r, maybe_neg realops inv (vconst r) = vconst (sgn inv r).
Proof.
  intros [|] r; [|reflexivity]. unfold maybe_neg, sgn, nvmulc, nvmap, vconst, vneg. cbn. f_equal; ring.
Qed.
Lemma compose_r2_cmp : forall a b i0 i1, compose_r2 a b i0 i1 = cmp (sgn i0 a) (sgn i1 b).
Proof. intros. unfold compose_r2, compose_r_gen. rewrite !maybe_neg_real. apply compose_core_real. Qed.
Lemma maybe_neg_carries : forall I p inv F d, vcarries I p F d -> vcarries I p (fun q => sgn inv (F q)) (maybe_neg dualops inv d).
Proof.
  intros I p [|] F d H; [|exact H]. cbn [maybe_neg sgn]. eapply vcarries_ext; [|apply (vcarries_mulc I p F d (-1)), H].
  intro q. apply v3_eq; vunfold; ring.
Qed.

Section Cmp.
Variables (a b : v3) (i0 i1 : bool) (oa ob : option nat) (p : nat -> R).
Hypothesis Ea : pick oa a p = a.
Hypothesis Eb : pick ob b p = b.
Let y := compose_r_gen dualops (d_vec a oa) (d_vec b ob) i0 i1.
Hypothesis Hreg : compose_regular (sgn i0 a) (sgn i1 b).
Lemma cmpr_carries : forall I, vcarries I p (fun q => compose_r2 (pick oa a q) (pick ob b q) i0 i1) y.
Proof.
  intro I. apply (vcarries_ext I p (fun q => cmp (sgn i0 (pick oa a q)) (sgn i1 (pick ob b q)))); [intro; symmetry; apply compose_r2_cmp|].
  apply (compose_carries I p (fun q => sgn i0 (pick oa a q)) (fun q => sgn i1 (pick ob b q))).
  - apply maybe_neg_carries. now apply pick_carries.
  - apply maybe_neg_carries. now apply pick_carries.
  - now rewrite Ea, Eb.
Qed.
Lemma cmpr_value : value3 y = compose_r2 a b i0 i1.
Proof. unfold value3. rewrite (vcarries_value _ _ _ _ (cmpr_carries (fun _ => False))). now rewrite Ea, Eb. Qed.
Lemma cmpr_J0 : forall k, oa = Some k -> (forall kb, ob = Some kb -> (kb + 3 <= k \/ k + 3 <= kb)%nat) ->
  is_jacobian (fun a => compose_r2 a b i0 i1) a (grad3 y k).
Proof.
  intros k Ek Hd. pose proof Ea as Ea'. rewrite Ek in Ea'. cbn in Ea'. rewrite <- Ea' at 1.
  eapply jac_of; [apply cmpr_carries|].
  intros j t Hj. cbn beta. rewrite (pick_out p ob) by easy. rewrite Ek. cbn [pick]. rewrite vec_at_setv_in by easy. now rewrite Ea'.
Qed.
Lemma cmpr_J1 : forall k, ob = Some k -> (forall ka, oa = Some ka -> (ka + 3 <= k \/ k + 3 <= ka)%nat) ->
  is_jacobian (fun b => compose_r2 a b i0 i1) b (grad3 y k).
Proof.
  intros k Ek Hd. pose proof Eb as Eb'. rewrite Ek in Eb'. cbn in Eb'. rewrite <- Eb' at 1.
  eapply jac_of; [apply cmpr_carries|].
  intros j t Hj. cbn beta. rewrite (pick_out p oa) by easy. rewrite Ek. cbn [pick]. rewrite vec_at_setv_in by easy. now rewrite Eb'.
Qed.
End Cmp.

(** the value computed along with gradients is the value computed without *)
Lemma core_value : forall d0 d1, nvval dualops (compose_r_core dualops d0 d1) = cmp (nvval dualops d0) (nvval dualops d1).
Proof.
  intros d0 d1. rewrite <- compose_core_real. unfold compose_r_core.
  assert (forall a b, dx (nvdot dualops a b) = nvdot realops (vconst (nvval dualops a)) (vconst (nvval dualops b))) as Ed by reflexivity.
  assert (forall a, dx (ndivc dualops (nvmag dualops a) 2) = ndivc realops (nvmag realops (vconst (nvval dualops a))) 2) as Eh by reflexivity.
  assert (forall a s, dx (nsinx_over_x dualops a s) = nsinx_over_x realops (dx a) (dx s)) as Es.
  { intros a s. unfold nsinx_over_x. cbn [nval dualops realops]. destruct (Rlt_dec _ _); reflexivity. }
  cbn [nval dualops realops]. rewrite !Eh.
  destruct (Rlt_dec _ (eps8 / 2)).
  { destruct (Rlt_dec _ eps8); [reflexivity|]. reflexivity. }
  destruct (Rlt_dec _ eps8); [reflexivity|].
  cbv zeta.
  match goal with |- context [Rlt_dec _ (dx ?c - 1)] => set (C := c) end.
  match goal with |- context [Rlt_dec _ (?c - 1)] => lazymatch c with dx _ => fail | _ => set (C' := c) end end.
  assert (dx C = C') as EC.
  { unfold C, C'. cbn [nsub nmul nadd dualops realops d_sub d_mul dx ndivc nmulc d_mulc]. rewrite !Es. reflexivity. }
  rewrite EC.
  destruct (Rlt_dec _ _); [|destruct (Rlt_dec _ _); [|destruct (Rlt_dec _ _)]];
    unfold nvval, nvmulc, nvmul, nvmap;
    cbn [n_x n_y n_z nval dualops realops nadd nmul nmulc ndiv nsubc nacos nsqrt nsub nconst d_add d_mul d_mulc d_div d_sub d_subc d_acos d_sqrt d_const dx ndivc];
    rewrite ?Es, ?Eh, ?EC; reflexivity.
Qed.
Lemma d_vec_val : forall x o, nvval dualops (d_vec x o) = x.
Proof. intros [] [|]; reflexivity. Qed.
Lemma gen_value : forall a b oa ob i0 i1, value3 (compose_r_gen dualops (d_vec a oa) (d_vec b ob) i0 i1) = compose_r2 a b i0 i1.
Proof.
  intros. unfold value3, compose_r_gen. rewrite core_value, compose_r2_cmp. f_equal.
  - destruct i0; cbn [maybe_neg sgn]; [|apply d_vec_val]. rewrite <- (d_vec_val a oa) at 2. apply v3_eq; vunfold; cbn; ring.
  - destruct i1; cbn [maybe_neg sgn]; [|apply d_vec_val]. rewrite <- (d_vec_val b ob) at 2. apply v3_eq; vunfold; cbn; ring.
Qed.

(** compose_r: same value whichever gradients are asked for; each gradient is the
    matrix of partial derivatives wherever the code does not switch formulas
    ([compose_regular], P_Compose) *)
Theorem C26_compose_r_partial : forall a b i0 i1 want0 want1,
  let '(y, J0, J1) := compose_r_full a b i0 i1 want0 want1 in
  y = compose_r2 a b i0 i1 /\
  (if want0 then exists J, J0 = Some J /\ (compose_regular (sgn i0 a) (sgn i1 b) -> is_jacobian (fun a => compose_r2 a b i0 i1) a J) else J0 = None) /\
  (if want1 then exists J, J1 = Some J /\ (compose_regular (sgn i0 a) (sgn i1 b) -> is_jacobian (fun b => compose_r2 a b i0 i1) b J) else J1 = None).
Proof.
  intros a b i0 i1 [|] [|]; unfold compose_r_full; (split; [first [apply gen_value | reflexivity]|]).
  - split; (eexists; split; [reflexivity|]); intro H.
    + apply (cmpr_J0 a b i0 i1 (Some 0%nat) (Some 3%nat) (lay a b v0)); [apply lay0|apply lay3|exact H|reflexivity|]. intros kx [= <-]. lia.
    + apply (cmpr_J1 a b i0 i1 (Some 0%nat) (Some 3%nat) (lay a b v0)); [apply lay0|apply lay3|exact H|reflexivity|]. intros kx [= <-]. lia.
  - split; [|reflexivity]. eexists; split; [reflexivity|]. intro H.
    apply (cmpr_J0 a b i0 i1 (Some 0%nat) None (lay a b v0)); [apply lay0|reflexivity|exact H|reflexivity|]. intros kx [=].
  - split; [reflexivity|]. eexists; split; [reflexivity|]. intro H.
    apply (cmpr_J1 a b i0 i1 None (Some 0%nat) (lay b a v0)); [reflexivity|apply lay0|exact H|reflexivity|]. intros kx [=].
  - easy.
Qed.

(** ** compose_rt: the six gradients, for every combination of the flags *)
Lemma rot_lin_jac : forall r inv f x J, is_jacobian f x J -> is_jacobian (fun x => rotate_point_r r (f x) inv) x (mul_RR (rotM r inv) J).
Proof.
  intros r inv f x J H. rewrite mul_RR_mm. eapply jac_ext; [|apply jac_mv; exact H]. intro v. symmetry. apply rot_linear.
Qed.
Lemma rot_jac : forall r x inv, is_jacobian (fun x => rotate_point_r r x inv) x (rotM r inv).
Proof. intros. eapply jac_ext; [|apply (jac_lin (rotM r inv))]. intro v. symmetry. apply rot_linear. Qed.
Lemma jac_vsub_const : forall f x J c, is_jacobian f x J -> is_jacobian (fun x => vsub (f x) c) x J.
Proof. intros f x J c H. eapply jac_ext; [|apply (jac_add_const f x J (vneg c) H)]. intro. apply v3_eq; vunfold; ring. Qed.

Theorem C26_compose_rt_partial : forall a b i0 i1,
  let '(y, g) := compose_rt2_grad a b i0 i1 in
  let f ra ta rb tb := compose_rt2 (mkrt ra ta) (mkrt rb tb) i0 i1 in
  y = compose_rt2 a b i0 i1 /\
  (compose_regular (sgn i0 (rt_r a)) (sgn i1 (rt_r b)) ->
     is_jacobian (fun v => rt_r (f v (rt_t a) (rt_r b) (rt_t b))) (rt_r a) (dr_r0 g) /\
     is_jacobian (fun v => rt_r (f (rt_r a) (rt_t a) v (rt_t b))) (rt_r b) (dr_r1 g)) /\
  (norm2 (rt_r a) <> 1 / 10000000000 -> is_jacobian (fun v => rt_t (f v (rt_t a) (rt_r b) (rt_t b))) (rt_r a) (dt_r0 g)) /\
  (norm2 (rt_r b) <> 1 / 10000000000 -> is_jacobian (fun v => rt_t (f (rt_r a) (rt_t a) v (rt_t b))) (rt_r b) (dt_r1 g)) /\
  is_jacobian (fun v => rt_t (f (rt_r a) v (rt_r b) (rt_t b))) (rt_t a) (dt_t0 g) /\
  is_jacobian (fun v => rt_t (f (rt_r a) (rt_t a) (rt_r b) v)) (rt_t b) (dt_t1 g) /\
  is_jacobian (fun v => rt_r (f (rt_r a) v (rt_r b) (rt_t b))) (rt_t a) zero33 /\
  is_jacobian (fun v => rt_r (f (rt_r a) (rt_t a) (rt_r b) v)) (rt_t b) zero33.
Proof.
  intros [ra ta] [rb tb] i0 i1.
  assert (forall a b, V3 (vx a - vx b) (vy a - vy b) (vz a - vz b) = vsub a b) as Es by reflexivity.
  pose proof (C26_compose_r_partial ra rb i0 i1 true true) as HR. unfold compose_r_full in HR.
  destruct HR as (HRv & (J0 & EJ0 & HJ0) & (J1 & EJ1 & HJ1)). injection EJ0 as <-. injection EJ1 as <-.
  assert (forall r x inv, exists Jr, rotJ r x inv = (rotate_point_r r x inv, Jr, rotM r inv) /\
     (norm2 r <> 1 / 10000000000 -> is_jacobian (fun r => rotate_point_r r x inv) r Jr)) as RJ.
  { intros r x inv. pose proof (rotJ_spec r x inv) as H. destruct (rotJ r x inv) as [[y Jr] Jx]. destruct H as (-> & H & ->). exists Jr. easy. }
  destruct i0, i1; cbv beta zeta iota delta [compose_rt2_grad]; cbn [rt_r rt_t].
  - rewrite ?Es. destruct (RJ rb tb true) as (Jp & -> & HJp). cbv iota beta. rewrite !Es.
    destruct (RJ ra (vsub (scale3 (-1) (rotate_point_r rb tb true)) ta) true) as (Jt & -> & HJt). cbv iota beta. rewrite HRv.
    cbn [dr_r0 dr_r1 dt_r0 dt_r1 dt_t0 dt_t1 compose_rt2 rt_r rt_t]. rewrite ?Es.
    split; [reflexivity|]. split; [intro Hr; split; auto|]. split; [exact HJt|].
    split; [intro Hb; apply rot_lin_jac, jac_vsub_const, jac_scale_neg, HJp, Hb|].
    split; [apply (jac_flip (fun x => rotate_point_r ra x true)), rot_jac|].
    split; [apply rot_lin_jac, jac_vsub_const, jac_scale_neg, rot_jac|].
    split; apply jac_const.
  - rewrite ?Es. destruct (RJ ra (vsub tb ta) true) as (Jt & -> & HJt). cbv iota beta. rewrite HRv.
    cbn [dr_r0 dr_r1 dt_r0 dt_r1 dt_t0 dt_t1 compose_rt2 rt_r rt_t]. rewrite ?Es.
    split; [reflexivity|]. split; [intro Hr; split; auto|]. split; [exact HJt|].
    split; [intros _; apply jac_const|].
    split; [apply (jac_flip (fun x => rotate_point_r ra x true)), rot_jac|].
    split; [apply (jac_shift (fun x => rotate_point_r ra x true)), rot_jac|].
    split; apply jac_const.
  - destruct (RJ rb tb true) as (Jp & -> & HJp). cbv iota beta.
    destruct (RJ ra (scale3 (-1) (rotate_point_r rb tb true)) false) as (Jt & -> & HJt). cbv iota beta. rewrite HRv.
    cbn [dr_r0 dr_r1 dt_r0 dt_r1 dt_t0 dt_t1 compose_rt2 rt_r rt_t].
    split; [reflexivity|]. split; [intro Hr; split; auto|].
    split; [intro Ha; apply (jac_add_const _ _ _ ta (HJt Ha))|].
    split; [intro Hb; apply (jac_add_const (fun v => rotate_point_r ra (scale3 (-1) (rotate_point_r v tb true)) false) _ _ ta), rot_lin_jac, jac_scale_neg, HJp, Hb|].
    split; [eapply jac_ext; [|apply (jac_add_const _ _ _ (rotate_point_r ra (scale3 (-1) (rotate_point_r rb tb true)) false) (jac_id ta))]; intro; apply v3_eq; vunfold; ring|].
    split; [apply (jac_add_const (fun v => rotate_point_r ra (scale3 (-1) (rotate_point_r rb v true)) false) _ _ ta), rot_lin_jac, jac_scale_neg, rot_jac|].
    split; apply jac_const.
  - destruct (RJ ra tb false) as (Jt & -> & HJt). cbv iota beta. rewrite HRv.
    cbn [dr_r0 dr_r1 dt_r0 dt_r1 dt_t0 dt_t1 compose_rt2 rt_r rt_t].
    split; [reflexivity|]. split; [intro Hr; split; auto|].
    split; [intro Ha; apply (jac_add_const _ _ _ ta (HJt Ha))|].
    split; [intros _; apply jac_const|].
    split; [eapply jac_ext; [|apply (jac_add_const _ _ _ (rotate_point_r ra tb false) (jac_id ta))]; intro; apply v3_eq; vunfold; ring|].
    split; [apply (jac_add_const (fun v => rotate_point_r ra v false) _ _ ta), rot_jac|].
    split; apply jac_const.
Qed.

(** ** the matrix functions: gradients with respect to R, t and x, everywhere *)
Theorem C26_Rt_gradients : forall p x inv,
  (forall i j k, (i < 3)%nat -> (j < 3)%nat -> (k < 3)%nat ->
     derivable_pt_lim (fun s => vget (rotate_point_R (mset (Rt_R p) j k s) x inv) i) (mget (Rt_R p) j k) (rotate_point_R_JR x inv i j k)) /\
  is_jacobian (fun x => rotate_point_R (Rt_R p) x inv) x (rotate_point_R_Jx (Rt_R p) inv) /\
  (forall i j k, (i < 3)%nat -> (j < 3)%nat -> (k < 3)%nat ->
     derivable_pt_lim (fun s => vget (transform_point_Rt (mkRt (mset (Rt_R p) j k s) (Rt_t p)) x inv) i) (mget (Rt_R p) j k)
       (transform_point_Rt_JR p x inv i j k)) /\
  is_jacobian (fun t => transform_point_Rt (mkRt (Rt_R p) t) x inv) (Rt_t p) (transform_point_Rt_Jt p inv) /\
  is_jacobian (fun x => transform_point_Rt p x inv) x (transform_point_Rt_Jx p inv).
Proof.
  assert (forall R x inv i j k, (i < 3)%nat -> (j < 3)%nat -> (k < 3)%nat ->
     derivable_pt_lim (fun s => vget (rotate_point_R (mset R j k s) x inv) i) (mget R j k) (rotate_point_R_JR x inv i j k)) as HR.
  { intros R x inv i j k Hi Hj Hk. apply is_derive_Reals.
    destruct inv; (destruct i as [|[|[|i]]]; [| | |lia]); (destruct j as [|[|[|j]]]; [| | |lia]); (destruct k as [|[|[|k]]]; [| | |lia]);
      cbn -[Rplus Rmult]; auto_derive; try easy; ring. }
  assert (forall R x inv, is_jacobian (fun x => rotate_point_R R x inv) x (rotate_point_R_Jx R inv)) as HX.
  { intros R x inv. eapply jac_ext; [|apply (jac_lin (rotate_point_R_Jx R inv))]. intro v. destruct inv; reflexivity. }
  intros [R t] x inv. cbn [Rt_R Rt_t]. split; [apply HR|]. split; [apply HX|]. split; [|split].
  - intros i j k Hi Hj Hk. destruct inv.
    + apply (HR R (vsub x t) true i j k Hi Hj Hk).
    + apply is_derive_Reals.
      apply (is_derive_ext (fun s => vget (rotate_point_R (mset R j k s) x false) i + vget t i)).
      { intro s. destruct i as [|[|[|i]]]; [| | |lia]; reflexivity. }
      unfold transform_point_Rt_JR. replace (rotate_point_R_JR x false i j k) with (rotate_point_R_JR x false i j k + 0) by ring.
      apply @is_derive_plus; [apply is_derive_Reals, HR; easy|apply @is_derive_const].
  - destruct inv.
    + replace (transform_point_Rt_Jt (mkRt R t) true) with (mscale (-1) (rotate_point_R_Jx R true))
        by (apply m33_eq; unfold mscale, transform_point_Rt_Jt, rotate_point_R_Jx, swap_strides; cbn [m00 m01 m02 m10 m11 m12 m20 m21 m22 Rt_R]; ring).
      eapply jac_ext; [|apply (jac_flip (fun v => rotate_point_R R v true) t _ x (HX R _ true))]. intro v. reflexivity.
    + eapply jac_ext; [|apply (jac_add_const _ _ _ (rotate_point_R R x false) (jac_id t))]. intro v. apply v3_eq; cbn [transform_point_Rt vadd vx vy vz Rt_R Rt_t]; ring.
  - destruct inv.
    + eapply jac_ext; [|apply (jac_shift (fun v => rotate_point_R R v true) x _ t (HX R _ true))]. intro v. reflexivity.
    + eapply jac_ext; [|apply (jac_add_const _ _ _ t (HX R x false))]. intro v. reflexivity.
Qed.

(** ** At the switch |r|^2 = 1e-10 there is no gradient to return: the rotated
    point jumps there (C20_rotate_small_refuted gives the size of the jump) *)
Theorem C26_threshold_refuted : exists r x, norm2 r = 1 / 10000000000 /\ forall J, ~ is_jacobian (fun r => rotate_point_r r x false) r J.
Proof.
  exists (V3 (1 / 100000) 0 0), (V3 0 1 0). split; [vunfold; cbn; field|].
  intros J H. specialize (H 1%nat 0%nat ltac:(lia) ltac:(lia)).
  apply is_derive_Reals in H. assert (ex_derive (fun t => vget (rotate_point_r (vset (V3 (1 / 100000) 0 0) 0 t) (V3 0 1 0) false) 1) (vget (V3 (1 / 100000) 0 0) 0)) as D by (eexists; exact H).
  apply ex_derive_continuous in D. cbn [vget vset vx vy vz] in D.
  assert (vy (rotate_point_r (V3 (1 / 100000) 0 0) (V3 0 1 0) false) < 1) as L.
  { rewrite rot_is_big by (unfold small; cbn [vx vy vz]; lra). unfold rot_big. cbn [vx vy vz].
    replace (1 / 100000 * (1 / 100000) + 0 * 0 + 0 * 0) with ((1 / 100000) * (1 / 100000)) by ring. rewrite sqrt_square by lra.
    pose proof (cos_bounds (1 / 100000) ltac:(lra)). 
    match goal with |- ?a < 1 => replace a with (cos (1 / 100000)) by (field; lra) end. lra. }
  pose proof (D _ (open_lt 1 _ L)) as [d Hd]. cbn beta in Hd.
  set (t := 1 / 100000 - Rmin d (1 / 100000) / 2).
  assert (0 < Rmin d (1 / 100000)) as M by (apply Rmin_pos; [apply cond_pos|lra]). pose proof (Rmin_l d (1 / 100000)). pose proof (Rmin_r d (1 / 100000)).
  assert (vy (rotate_point_r (V3 t 0 0) (V3 0 1 0) false) < 1) as Q.
  { apply Hd. unfold ball; cbn; unfold AbsRing_ball, abs, minus, plus, opp; cbn. apply Rabs_def1; unfold t; lra. }
  assert (0 < t < 1 / 100000) as T by (unfold t; lra).
  rewrite rot_is_small in Q by (unfold small; cbn [vx vy vz]; nra). unfold rot_small in Q. cbn [vx vy vz] in Q. lra.
Qed.

(** Not vacuous: two rotations where every hypothesis holds *)
Example ex_regular : compose_regular (V3 1 0 0) (V3 0 1 0) /\ norm2 (V3 1 0 0) <> 1 / 10000000000.
Proof.
  assert (half (V3 1 0 0) = 1 / 2) as E1 by (unfold half, norm; replace (norm2 (V3 1 0 0)) with (1 * 1) by (vunfold; cbn; ring); rewrite sqrt_square; lra).
  assert (half (V3 0 1 0) = 1 / 2) as E2 by (unfold half, norm; replace (norm2 (V3 0 1 0)) with (1 * 1) by (vunfold; cbn; ring); rewrite sqrt_square; lra).
  split; [|vunfold; cbn; lra]. unfold compose_regular, cmp_cos. rewrite E1, E2. replace (dot (V3 1 0 0) (V3 0 1 0)) with 0 by (vunfold; cbn; ring).
  pose proof (cos_bounds (1 / 2) ltac:(lra)) as [B1 B2]. unfold eps8.
  split; [lra|]. split; [lra|]. split; [intros; lra|]. split; [intros; lra|]. intros _ _. split; [lra|]. split; [lra|].
  set (c := cos (1 / 2)) in *. split; [|split]; intro; nra.
Qed.
Example ex_grad : is_jacobian (fun x => rotate_point_r (V3 0 0 PI) x false) (V3 1 2 3) (rotM (V3 0 0 PI) false).
Proof. apply rot_jac. Qed.
Print Assumptions C26_rotate_point_r_partial.
Print Assumptions C26_transform_point_rt_partial.
Print Assumptions C26_invert_rt_partial.
Print Assumptions C26_compose_r_partial.
Print Assumptions C26_compose_rt_partial.
Print Assumptions C26_Rt_gradients.
Print Assumptions C26_threshold_refuted.
