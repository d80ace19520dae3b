(** compose_r in vector notation, and its derivatives. *)
From Coq Require Import Reals Lra Psatz Arith.
From Coquelicot Require Import Coquelicot.
From Verif Require Import S_Vec M_Dual M_Pose P_Dual P_Trig P_Pose P_PoseGrad.
Open Scope R_scope.

Definition sxx (x : R) : R := if Rlt_dec (Rabs x) (1 / 100000) then 1 else sin x / x.
Definition half (r : v3) : R := norm r * (1 / 2).
Definition cmp_sum (a b : v3) : v3 := vadd a b.
(** r0 tiny (big = r1), or r1 tiny (big = r0); c is r0 x r1 *)
Definition cmp_tiny (big tiny c : v3) : v3 :=
  let B := half big in
  let k := B / tan B in
  let g bi ti ci := bi * (1 - dot tiny big * (k - 1) / (B * B * 4)) + ti * k + ci * (1 / 2) in
  V3 (g (vx big) (vx tiny) (vx c)) (g (vy big) (vy tiny) (vy c)) (g (vz big) (vz tiny) (vz c)).
Definition cmp_cos (a b : v3) : R := cos (half a) * cos (half b) - sxx (half a) * sxx (half b) * dot a b * (1 / 4).
Definition cmp_u (a b : v3) : v3 :=
  let A := half a in let B := half b in
  let g ai bi ci := sxx A * cos B * ai + sxx B * cos A * bi + sxx A * sxx B * ci * (1 / 2) in
  V3 (g (vx a) (vx b) (vx (cross a b))) (g (vy a) (vy b) (vy (cross a b))) (g (vz a) (vz b) (vz (cross a b))).
Definition vmulk (v : v3) (k : R) : v3 := V3 (vx v * k) (vy v * k) (vz v * k).
Definition cmp_neg (a b : v3) : v3 := vmulk (cmp_u a b) ((acos (cmp_cos a b) - PI) / sqrt (1 - cmp_cos a b * cmp_cos a b)).
Definition cmp_pos (a b : v3) : v3 := vmulk (cmp_u a b) (acos (cmp_cos a b) / sqrt (1 - cmp_cos a b * cmp_cos a b)).
Definition cmp (a b : v3) : v3 :=
  if Rlt_dec (half a) (eps8 / 2) then
    if Rlt_dec (half b) eps8 then cmp_sum a b else cmp_tiny b a (cross a b)
  else if Rlt_dec (half b) eps8 then cmp_tiny a b (cross a b)
  else if Rlt_dec (- (eps8 * eps8) / 2) (cmp_cos a b - 1) then cmp_u a b
  else if Rlt_dec (cmp_cos a b + 1) (eps8 * eps8 / 2) then vmulk (cmp_u a b) (-1)
  else if Rlt_dec (cmp_cos a b) 0 then cmp_neg a b else cmp_pos a b.

Lemma dot_real : forall a b, nvdot realops (vconst a) (vconst b) = dot a b.
Proof. intros. unfold nvdot, vconst, dot. cbn. ring. Qed.
Lemma mag_real : forall a, nvmag realops (vconst a) = norm a.
Proof. intros. unfold nvmag, nvnorm2. rewrite dot_real. reflexivity. Qed.
Lemma sxx_real : forall x, nsinx_over_x realops x (sin x) = sxx x.
Proof. reflexivity. Qed.
Lemma half_real : forall a, ndivc realops (nvmag realops (vconst a)) 2 = half a.
Proof. intros. unfold ndivc. rewrite mag_real. reflexivity. Qed.

Lemma cross_real : forall a b, nvcross realops (vconst a) (vconst b) = vconst (cross a b).
Proof. reflexivity. Qed.
Lemma compose_core_real : forall a b, nvval realops (compose_r_core realops (vconst a) (vconst b)) = cmp a b.
Proof.
  intros a b. unfold compose_r_core, cmp. rewrite !half_real, dot_real, cross_real.
  cbn [nval realops].
  destruct (Rlt_dec (half a) (eps8 / 2)).
  { destruct (Rlt_dec (half b) eps8); [apply v3_eq; cbn; ring|].
    unfold cmp_tiny, nvval. cbv zeta. cbn [n_x n_y n_z nval realops vx vy vz].
    apply v3_eq; cbn [vx vy vz nadd nmul nsub ndiv nmulc nsubc nconst ntan realops vconst n_x n_y n_z]; unfold ndivc; cbn [nmulc realops]; reflexivity. }
  destruct (Rlt_dec (half b) eps8).
  { unfold cmp_tiny, nvval. cbv zeta. cbn [n_x n_y n_z nval realops vx vy vz]. rewrite (dot_comm b a).
    apply v3_eq; cbn [vx vy vz nadd nmul nsub ndiv nmulc nsubc nconst ntan realops vconst n_x n_y n_z]; unfold ndivc; cbn [nmulc realops]; reflexivity. }
  cbv zeta. cbn [nsin ncos realops]. rewrite !sxx_real.
  assert (nsub realops (nmul realops (cos (half a)) (cos (half b))) (ndivc realops (nmul realops (nmul realops (sxx (half a)) (sxx (half b))) (dot a b)) 4)
    = cmp_cos a b) as E by reflexivity. rewrite !E. clear E.
  destruct (Rlt_dec _ _) as [L|L]; [reflexivity|].
  destruct (Rlt_dec _ _) as [L1|L1]; [reflexivity|].
  destruct (Rlt_dec _ _) as [L2|L2]; reflexivity.
Qed.

(** *** Derivatives *)
Lemma vcarries_loc : forall (I : nat -> Prop) (p : nat -> R) F G d, vext F -> F p = G p ->
  (forall i, I i -> locally (p i) (fun t => F (setv p i t) = G (setv p i t))) -> vcarries I p G d -> vcarries I p F d.
Proof.
  intros I p F G d Fe E0 L (X & A & B & C). split; [exact Fe|].
  assert (forall f : v3 -> R, forall dd, carriesI I p (fun q => f (G q)) dd -> carriesI I p (fun q => f (F q)) dd) as K.
  { intros f dd K. eapply carries_loc; [| | |exact K].
    - intros q q' Q. now rewrite (Fe q q' Q).
    - now rewrite E0.
    - intros i Hi. generalize (L i Hi). apply filter_imp. intros t Ht. now rewrite Ht. }
  split; [|split]; [now apply (K vx)|now apply (K vy)|now apply (K vz)].
Qed.
Lemma stable_gt : forall I p G g c, carriesI I p G g -> G p <> c -> stable I p (fun q => c < G q).
Proof.
  intros I p G g c H Hn i Hi. destruct (Rlt_dec c (G p)) as [L|L].
  - generalize (carries_gt I p G g c i Hi H L). apply filter_imp. tauto.
  - assert (G p < c) as L' by lra. generalize (carries_lt I p G g c i Hi H L'). apply filter_imp. intros t Ht. split; lra.
Qed.
Section Carry.
Variable I : nat -> Prop.
Variable p : nat -> R.
Variables F0 F1 : (nat -> R) -> v3.
Variables d0 d1 : nv3 dualops.
Hypothesis H0 : vcarries I p F0 d0.
Hypothesis H1 : vcarries I p F1 d1.

Lemma half_carries : forall F d, vcarries I p F d -> 0 < half (F p) ->
  carriesI I p (fun q => half (F q)) (ndivc dualops (nvmag dualops d) 2).
Proof.
  intros F d H Hp. unfold half, ndivc. cbn [nmulc dualops]. apply carries_mulc. apply carries_mag; [exact H|].
  intro Z. unfold half in Hp. rewrite Z in Hp. rewrite norm_v0 in Hp. lra.
Qed.
Lemma half_lt_iff : forall v c, 0 < c -> (half v < c <-> dot v v < 4 * c * c).
Proof.
  intros v c Hc. unfold half. pose proof (sqrt_pos (norm2 v) : 0 <= norm v). pose proof (norm_sq v) as E. unfold norm2 in E. rewrite <- E.
  split; intro L.
  - assert (norm v < 2 * c) by lra. apply Rle_lt_trans with (norm v * (2 * c)); [apply Rmult_le_compat_l; lra|]. replace (4 * c * c) with (2 * c * (2 * c)) by ring. apply Rmult_lt_compat_r; lra.
  - destruct (Rlt_dec (norm v) (2 * c)) as [|N]; [lra|]. exfalso. assert (2 * c * (2 * c) <= norm v * norm v) by (apply Rmult_le_compat; lra). lra.
Qed.
Lemma half_stable : forall F d c, vcarries I p F d -> 0 < c -> half (F p) <> c -> stable I p (fun q => half (F q) < c).
Proof.
  intros F d c H Hc Hn i Hi.
  assert (dot (F p) (F p) <> 4 * c * c) as Hn'.
  { intro E. apply Hn. unfold half. pose proof (sqrt_pos (norm2 (F p)) : 0 <= norm (F p)). pose proof (norm_sq (F p)) as E2. unfold norm2 in E2. rewrite E in E2. nra. }
  generalize (stable_lt I p (fun q => dot (F q) (F q)) _ _ (carries_dot I p F F d d H H) Hn' i Hi).
  apply filter_imp. intros t. rewrite !half_lt_iff by easy. tauto.
Qed.

Lemma tiny_carries : forall Fb Ft Fc db dt dc inner, vcarries I p Fb db -> vcarries I p Ft dt -> vcarries I p Fc dc ->
  carriesI I p (fun q => dot (Ft q) (Fb q)) inner ->
  0 < half (Fb p) -> sin (half (Fb p)) <> 0 -> cos (half (Fb p)) <> 0 ->
  let B := ndivc dualops (nvmag dualops db) 2 in
  let k := ndiv dualops B (ntan dualops B) in
  let f bi ti ci := nadd dualops (nadd dualops (nmul dualops bi (nsub dualops (nconst dualops 1)
       (ndiv dualops (nmul dualops inner (nsubc dualops k 1)) (nmulc dualops (nmul dualops B B) 4)))) (nmul dualops ti k)) (ndivc dualops ci 2) in
  vcarries I p (fun q => cmp_tiny (Fb q) (Ft q) (Fc q))
    (NV3 (f (n_x db) (n_x dt) (n_x dc)) (f (n_y db) (n_y dt) (n_y dc)) (f (n_z db) (n_z dt) (n_z dc))).
Proof.
  intros Fb Ft Fc db dt dc inner Hb Ht Hc Hi P Hs Hk B k f.
  pose proof (half_carries _ _ Hb P) as HB. fold B in HB.
  assert (tan (half (Fb p)) <> 0) as Ht0. { unfold tan. intro Z. apply Hs. apply Rmult_integral in Z. destruct Z as [Z|Z]; [easy|]. exfalso. revert Z. now apply Rinv_neq_0_compat. }
  assert (carriesI I p (fun q => half (Fb q) / tan (half (Fb q))) k) as HK.
  { unfold k. apply carries_div; [exact HB|apply carries_tan; assumption|assumption]. }
  pose proof Hb as (Xb & B1 & B2 & B3). pose proof Ht as (Xt & T1 & T2 & T3). pose proof Hc as (Xc & C1 & C2 & C3).
  assert (half (Fb p) * half (Fb p) * 4 <> 0) by (intro; nra).
  split; [intros q q' Q; now rewrite (Xb q q' Q), (Xt q q' Q), (Xc q q' Q)|].
  unfold cmp_tiny, f, ndivc. cbn [n_x n_y n_z vx vy vz nadd nmul nsub ndiv nmulc nsubc nconst dualops].
  split; [|split]; repeat first [assumption | apply carries_add | apply carries_mul | apply carries_mulc | apply carries_sub | apply carries_const
      | apply carries_subc | apply carries_div].
Qed.

Lemma sxx_carries : forall F a, carriesI I p F a -> Rabs (F p) <> 1 / 100000 ->
  carriesI I p (fun q => sxx (F q)) (nsinx_over_x dualops a (nsin dualops a)).
Proof. intros. unfold sxx. apply carries_sinxx; [assumption|apply carries_sin; assumption|assumption]. Qed.

Variables (P0 : 0 < half (F0 p)) (P1 : 0 < half (F1 p)).
Variables (N0 : half (F0 p) <> 1 / 100000) (N1 : half (F1 p) <> 1 / 100000).
Let A := ndivc dualops (nvmag dualops d0) 2.
Let B := ndivc dualops (nvmag dualops d1) 2.
Let HA : carriesI I p (fun q => half (F0 q)) A := half_carries _ _ H0 P0.
Let HB : carriesI I p (fun q => half (F1 q)) B := half_carries _ _ H1 P1.
Let sA := nsinx_over_x dualops A (nsin dualops A).
Let sB := nsinx_over_x dualops B (nsin dualops B).
Let cA := ncos dualops A.
Let cB := ncos dualops B.
Let inner := nvdot dualops d0 d1.
Let cr := nvcross dualops d0 d1.
Let HsA : carriesI I p (fun q => sxx (half (F0 q))) sA.
Proof. apply sxx_carries; [exact HA|]. rewrite Rabs_pos_eq; lra. Qed.
Let HsB : carriesI I p (fun q => sxx (half (F1 q))) sB.
Proof. apply sxx_carries; [exact HB|]. rewrite Rabs_pos_eq; lra. Qed.
Let cosC := nsub dualops (nmul dualops cA cB) (ndivc dualops (nmul dualops (nmul dualops sA sB) inner) 4).
Lemma cosC_carries : carriesI I p (fun q => cmp_cos (F0 q) (F1 q)) cosC.
Proof.
  unfold cmp_cos, cosC, ndivc. cbn [nsub nmul nmulc dualops].
  repeat first [assumption | apply carries_sub | apply carries_mul | apply carries_mulc | apply carries_cos | apply carries_dot].
Qed.
Let g r0i r1i ci := nadd dualops (nadd dualops (nmul dualops (nmul dualops sA cB) r0i) (nmul dualops (nmul dualops sB cA) r1i))
   (ndivc dualops (nmul dualops (nmul dualops sA sB) ci) 2).
Let u := NV3 (g (n_x d0) (n_x d1) (n_x cr)) (g (n_y d0) (n_y d1) (n_y cr)) (g (n_z d0) (n_z d1) (n_z cr)).
Lemma u_carries : vcarries I p (fun q => cmp_u (F0 q) (F1 q)) u.
Proof.
  pose proof H0 as (X0 & A1 & A2 & A3). pose proof H1 as (X1 & B1 & B2 & B3).
  pose proof (vcarries_cross I p _ _ _ _ H0 H1) as (Xc & C1 & C2 & C3). fold cr in C1, C2, C3.
  split; [intros q q' Q; now rewrite (X0 q q' Q), (X1 q q' Q)|].
  unfold cmp_u, u, g, ndivc. cbn [n_x n_y n_z vx vy vz nadd nmul nmulc dualops].
  split; [|split]; repeat first [assumption | apply carries_add | apply carries_mul | apply carries_mulc | apply carries_cos].
Qed.
Lemma vmulk_carries : forall F d G k, vcarries I p F d -> carriesI I p G k -> vcarries I p (fun q => vmulk (F q) (G q)) (nvmul dualops d k).
Proof.
  intros F d G k (X & D1 & D2 & D3) K. pose proof K as (Xk & _).
  split; [intros q q' Q; now rewrite (X q q' Q), (Xk q q' Q)|].
  unfold vmulk, nvmul, nvmap. cbn [n_x n_y n_z vx vy vz nmul dualops]. split; [|split]; apply carries_mul; assumption.
Qed.
Lemma vmulkc_carries : forall F d k, vcarries I p F d -> vcarries I p (fun q => vmulk (F q) k) (nvmulc dualops d k).
Proof.
  intros F d k (X & D1 & D2 & D3).
  split; [intros q q' Q; now rewrite (X q q' Q)|].
  unfold vmulk, nvmulc, nvmap. cbn [n_x n_y n_z vx vy vz nmulc dualops]. split; [|split]; apply carries_mulc; assumption.
Qed.
Lemma sinC_carries : -1 < cmp_cos (F0 p) (F1 p) < 1 ->
  carriesI I p (fun q => sqrt (1 - cmp_cos (F0 q) (F1 q) * cmp_cos (F0 q) (F1 q))) (nsqrt dualops (nsub dualops (nconst dualops 1) (nmul dualops cosC cosC)))
  /\ sqrt (1 - cmp_cos (F0 p) (F1 p) * cmp_cos (F0 p) (F1 p)) <> 0.
Proof.
  intro Hc. assert (0 < 1 - cmp_cos (F0 p) (F1 p) * cmp_cos (F0 p) (F1 p)) as Q by nra.
  split; [|pose proof (sqrt_lt_R0 _ Q); lra]. cbn [nsqrt nsub nmul nconst dualops].
  apply (carries_sqrt I p (fun q => 1 - cmp_cos (F0 q) (F1 q) * cmp_cos (F0 q) (F1 q))); [|exact Q].
  apply carries_sub; [apply carries_const|apply carries_mul; apply cosC_carries].
Qed.
Lemma general_carries : 
  half (F0 p) <> eps8 / 2 -> ~ half (F0 p) < eps8 / 2 -> half (F1 p) <> eps8 -> ~ half (F1 p) < eps8 ->
  cmp_cos (F0 p) (F1 p) - 1 <> - (eps8 * eps8) / 2 -> cmp_cos (F0 p) (F1 p) + 1 <> eps8 * eps8 / 2 -> cmp_cos (F0 p) (F1 p) <> 0 ->
  vcarries I p (fun q => cmp (F0 q) (F1 q)) (compose_r_core dualops d0 d1).
Proof.
  intros Na La Nb Lb Nc1 Nc2 Nc3.
  assert (0 < eps8) as Pe by (unfold eps8; lra). pose proof P0 as P0'. pose proof P1 as P1'.
  pose proof (half_stable F0 d0 (eps8 / 2) H0 ltac:(lra) Na) as S1. pose proof (half_stable F1 d1 eps8 H1 Pe Nb) as S2.
  pose proof cosC_carries as HC.
  pose proof (stable_gt I p _ _ (1 - eps8 * eps8 / 2) HC ltac:(lra)) as S3.
  pose proof (stable_lt I p _ _ (-1 + eps8 * eps8 / 2) HC ltac:(lra)) as S4.
  pose proof (stable_lt I p _ _ 0 HC Nc3) as S5.
  assert (vext (fun q => cmp (F0 q) (F1 q))) as Xt.
  { pose proof H0 as (X0 & _). pose proof H1 as (X1 & _). intros q q' Q. now rewrite (X0 q q' Q), (X1 q q' Q). }
  assert (forall i, I i -> locally (p i) (fun t => let q := setv p i t in
     (half (F0 q) < eps8 / 2 <-> half (F0 p) < eps8 / 2) /\ (half (F1 q) < eps8 <-> half (F1 p) < eps8) /\
     (1 - eps8 * eps8 / 2 < cmp_cos (F0 q) (F1 q) <-> 1 - eps8 * eps8 / 2 < cmp_cos (F0 p) (F1 p)) /\
     (cmp_cos (F0 q) (F1 q) < -1 + eps8 * eps8 / 2 <-> cmp_cos (F0 p) (F1 p) < -1 + eps8 * eps8 / 2) /\
     (cmp_cos (F0 q) (F1 q) < 0 <-> cmp_cos (F0 p) (F1 p) < 0))) as S.
  { intros i Hi. pose proof (S1 i Hi) as L1. pose proof (S2 i Hi) as L2. pose proof (S3 i Hi) as L3. pose proof (S4 i Hi) as L4. pose proof (S5 i Hi) as L5.
    generalize (filter_and _ _ L1 (filter_and _ _ L2 (filter_and _ _ L3 (filter_and _ _ L4 L5)))). apply filter_imp. cbv beta zeta. tauto. }
  assert (dx A = half (F0 p)) as VA by apply HA. assert (dx B = half (F1 p)) as VB by apply HB. assert (dx cosC = cmp_cos (F0 p) (F1 p)) as VC by apply HC.
  unfold compose_r_core. fold A B inner cr. cbv zeta. fold sA sB cA cB cosC. fold u. cbn [nval dualops]. rewrite VA, VB, VC.
  destruct (Rlt_dec (half (F0 p)) (eps8 / 2)) as [Q|_]; [contradiction|]. destruct (Rlt_dec (half (F1 p)) eps8) as [Q|_]; [contradiction|].
  assert (forall G d, vcarries I p G d -> (forall q, let c := cmp_cos (F0 q) (F1 q) in
       (half (F0 q) < eps8 / 2 <-> half (F0 p) < eps8 / 2) /\ (half (F1 q) < eps8 <-> half (F1 p) < eps8) /\
     (1 - eps8 * eps8 / 2 < cmp_cos (F0 q) (F1 q) <-> 1 - eps8 * eps8 / 2 < cmp_cos (F0 p) (F1 p)) /\
     (cmp_cos (F0 q) (F1 q) < -1 + eps8 * eps8 / 2 <-> cmp_cos (F0 p) (F1 p) < -1 + eps8 * eps8 / 2) /\
     (cmp_cos (F0 q) (F1 q) < 0 <-> cmp_cos (F0 p) (F1 p) < 0) -> cmp (F0 q) (F1 q) = G q) -> vcarries I p (fun q => cmp (F0 q) (F1 q)) d) as K.
  { intros G d HG HE. apply (vcarries_loc I p _ G); [exact Xt| | |exact HG].
    - apply HE. tauto.
    - intros i Hi. generalize (S i Hi). apply filter_imp. intros t Ht. now apply HE. }
  Local Ltac fin := repeat match goal with H : _ <-> _ |- _ => destruct H end;
     repeat match goal with H : ?a < ?b -> _ |- _ => destruct (Rlt_dec a b); [specialize (H ltac:(assumption))|clear H] end; lra.
  assert (forall q, ~ half (F0 q) < eps8 / 2 -> ~ half (F1 q) < eps8 -> cmp (F0 q) (F1 q) =
     if Rlt_dec (- (eps8 * eps8) / 2) (cmp_cos (F0 q) (F1 q) - 1) then cmp_u (F0 q) (F1 q)
  else if Rlt_dec (cmp_cos (F0 q) (F1 q) + 1) (eps8 * eps8 / 2) then vmulk (cmp_u (F0 q) (F1 q)) (-1)
  else if Rlt_dec (cmp_cos (F0 q) (F1 q)) 0 then cmp_neg (F0 q) (F1 q) else cmp_pos (F0 q) (F1 q)) as EC.
  { intros q E1 E2. unfold cmp. destruct (Rlt_dec (half (F0 q)) (eps8 / 2)); [contradiction|]. destruct (Rlt_dec (half (F1 q)) eps8); [contradiction|]. reflexivity. }
  destruct (Rlt_dec _ _) as [C1|C1].
  { apply (K _ _ u_carries). intros q c (E1 & E2 & E3 & _). rewrite EC by tauto. destruct (Rlt_dec _ _) as [|N]; [reflexivity|].
    exfalso; fin. }
  destruct (Rlt_dec _ _) as [C2|C2].
  { apply (K _ _ (vmulkc_carries _ _ (-1) u_carries)). intros q c (E1 & E2 & E3 & E4 & _). rewrite EC by tauto.
    destruct (Rlt_dec _ _) as [N|_]; [exfalso; fin|]. destruct (Rlt_dec _ _) as [_|N]; [reflexivity|]. exfalso; fin. }
  assert (-1 < cmp_cos (F0 p) (F1 p) < 1) as Hc by (unfold eps8 in *; lra).
  destruct (sinC_carries Hc) as [Hs Hs0]. pose proof (carries_acos I p _ _ HC Hc) as Hac.
  destruct (Rlt_dec _ _) as [C3|C3].
  - apply (K (fun q => cmp_neg (F0 q) (F1 q))).
    + apply vmulk_carries; [apply u_carries|]. apply carries_div; [apply carries_subc; exact Hac|exact Hs|exact Hs0].
    + intros q c (E1 & E2 & E3 & E4 & E5). rewrite EC by tauto.
      destruct (Rlt_dec _ _) as [N|_]; [exfalso; fin|]. destruct (Rlt_dec _ _) as [N|_]; [exfalso; fin|].
      destruct (Rlt_dec _ _) as [_|N]; [reflexivity|]. exfalso; fin.
  - apply (K (fun q => cmp_pos (F0 q) (F1 q))).
    + apply vmulk_carries; [apply u_carries|]. apply carries_div; [exact Hac|exact Hs|exact Hs0].
    + intros q c (E1 & E2 & E3 & E4 & E5). rewrite EC by tauto.
      destruct (Rlt_dec _ _) as [N|_]; [exfalso; fin|]. destruct (Rlt_dec _ _) as [N|_]; [exfalso; fin|].
      destruct (Rlt_dec _ _) as [N|_]; [exfalso; fin|reflexivity].
Qed.
End Carry.

(** where compose_r is differentiable: off the thresholds at which the code
    switches formulas *)
Definition compose_regular (a b : v3) : Prop :=
  half a <> eps8 / 2 /\ half b <> eps8 /\
  (half a < eps8 / 2 -> eps8 < half b -> sin (half b) <> 0 /\ cos (half b) <> 0) /\
  (eps8 / 2 < half a -> half b < eps8 -> sin (half a) <> 0 /\ cos (half a) <> 0) /\
  (eps8 / 2 < half a -> eps8 < half b ->
     half a <> 1 / 100000 /\ half b <> 1 / 100000 /\
     cmp_cos a b - 1 <> - (eps8 * eps8) / 2 /\ cmp_cos a b + 1 <> eps8 * eps8 / 2 /\ cmp_cos a b <> 0).

Lemma compose_carries : forall I p F0 F1 d0 d1, vcarries I p F0 d0 -> vcarries I p F1 d1 -> compose_regular (F0 p) (F1 p) ->
  vcarries I p (fun q => cmp (F0 q) (F1 q)) (compose_r_core dualops d0 d1).
Proof.
  intros I p F0 F1 d0 d1 H0 H1 (Na & Nb & Ra & Rb & Rc). assert (0 < eps8) as Pe by (unfold eps8; lra).
  pose proof (half_stable I p F0 d0 (eps8 / 2) H0 ltac:(lra) Na) as S1. pose proof (half_stable I p F1 d1 eps8 H1 Pe Nb) as S2.
  assert (vext (fun q => cmp (F0 q) (F1 q))) as Xt.
  { destruct H0 as (X0 & _). destruct H1 as (X1 & _). intros q q' Q. now rewrite (X0 q q' Q), (X1 q q' Q). }
  assert (dx (ndivc dualops (nvmag dualops d0) 2) = half (F0 p) /\ dx (ndivc dualops (nvmag dualops d1) 2) = half (F1 p)) as [VA VB].
  { split; unfold half, norm; cbn [ndivc nmulc nvmag nsqrt dualops]; unfold d_mulc, d_sqrt; cbn [dx]; f_equal; f_equal;
    [apply (carries_dot I p F0 F0 d0 d0 H0 H0)|apply (carries_dot I p F1 F1 d1 d1 H1 H1)]. }
  assert (forall G d, vcarries I p G d -> (forall q, 
       (half (F0 q) < eps8 / 2 <-> half (F0 p) < eps8 / 2) -> (half (F1 q) < eps8 <-> half (F1 p) < eps8) -> cmp (F0 q) (F1 q) = G q) ->
       vcarries I p (fun q => cmp (F0 q) (F1 q)) d) as K.
  { intros G d HG HE. apply (vcarries_loc I p _ G); [exact Xt| | |exact HG].
    - apply HE; tauto.
    - intros i Hi. generalize (filter_and _ _ (S1 i Hi) (S2 i Hi)). apply filter_imp. intros t [Ht Ht']. now apply HE. }
  destruct (Rlt_dec (half (F0 p)) (eps8 / 2)) as [La|La]; destruct (Rlt_dec (half (F1 p)) eps8) as [Lb|Lb].
  - unfold compose_r_core. cbn [nval dualops]. rewrite VA, VB.
    destruct (Rlt_dec _ _) as [_|]; [|contradiction]. destruct (Rlt_dec _ _) as [_|]; [|contradiction].
    apply (K (fun q => vadd (F0 q) (F1 q))); [now apply vcarries_add|].
    intros q E1 E2. unfold cmp. destruct (Rlt_dec _ _) as [_|]; [|tauto]. destruct (Rlt_dec _ _) as [_|]; [|tauto]. reflexivity.
  - unfold compose_r_core. cbn [nval dualops]. rewrite VA, VB.
    destruct (Rlt_dec _ _) as [_|]; [|contradiction]. destruct (Rlt_dec _ _) as [|_]; [contradiction|].
    destruct (Ra La ltac:(lra)) as [Qs Qc].
    apply (K (fun q => cmp_tiny (F1 q) (F0 q) (cross (F0 q) (F1 q)))).
    + apply tiny_carries; try assumption; [now apply vcarries_cross|now apply carries_dot|lra].
    + intros q E1 E2. unfold cmp. destruct (Rlt_dec _ _) as [_|]; [|tauto]. destruct (Rlt_dec _ _) as [|_]; [tauto|]. reflexivity.
  - unfold compose_r_core. cbn [nval dualops]. rewrite VA, VB.
    destruct (Rlt_dec _ _) as [|_]; [contradiction|]. destruct (Rlt_dec _ _) as [_|]; [|contradiction].
    destruct (Rb ltac:(lra) Lb) as [Qs Qc].
    apply (K (fun q => cmp_tiny (F0 q) (F1 q) (cross (F0 q) (F1 q)))).
    + apply tiny_carries; try assumption; [now apply vcarries_cross| |lra].
      apply (carries_ext I p (fun q => dot (F0 q) (F1 q))); [intro; apply dot_comm|now apply carries_dot].
    + intros q E1 E2. unfold cmp. destruct (Rlt_dec _ _) as [|_]; [tauto|]. destruct (Rlt_dec _ _) as [_|]; [|tauto]. reflexivity.
  - destruct (Rc ltac:(lra) ltac:(lra)) as (Q1 & Q2 & Q3 & Q4 & Q5). apply general_carries; try assumption; lra.
Qed.
