(** C25: automatic differentiation is exact. *)
From Coq Require Import Reals Lra Psatz Arith.
From Coquelicot Require Import Coquelicot.
From Verif Require Import S_Vec M_Dual P_Dual.
Open Scope R_scope.
Notation carries := (carriesI (fun _ => True)).

(** ** Specification: expressions, their mathematical meaning, and where that
    meaning is differentiable.  Nothing here mentions dual numbers. *)
Inductive expr :=
| EVar (n : nat) | EConst (c : R)
| EAdd (a b : expr) | EAddC (a : expr) (c : R) | ESub (a b : expr) | ESubC (a : expr) (c : R) | ENeg (a : expr)
| EMul (a b : expr) | EMulC (a : expr) (c : R) | EDiv (a b : expr) | EDivC (a : expr) (c : R)
| ESqrt (a : expr) | ESquare (a : expr) | ESin (a : expr) | ECos (a : expr) | ETan (a : expr)
| EAtan2 (y x : expr) | EAsin (a : expr) | EAcos (a : expr) | ESinxOverX (x sinx : expr).

Fixpoint meaning (e : expr) (p : nat -> R) : R :=
  match e with
  | EVar n => p n | EConst c => c
  | EAdd a b => meaning a p + meaning b p | EAddC a c => meaning a p + c
  | ESub a b => meaning a p - meaning b p | ESubC a c => meaning a p - c | ENeg a => - meaning a p
  | EMul a b => meaning a p * meaning b p | EMulC a c => meaning a p * c
  | EDiv a b => meaning a p / meaning b p | EDivC a c => meaning a p / c
  | ESqrt a => sqrt (meaning a p) | ESquare a => (meaning a p) ^ 2
  | ESin a => sin (meaning a p) | ECos a => cos (meaning a p) | ETan a => tan (meaning a p)
  | EAtan2 y x => Ratan2 (meaning y p) (meaning x p)
  | EAsin a => asin (meaning a p) | EAcos a => acos (meaning a p)
  | ESinxOverX x s => if Rlt_dec (Rabs (meaning x p)) (1 / 100000) then 1 else meaning s p / meaning x p
  end.

Fixpoint smooth (e : expr) (p : nat -> R) : Prop :=
  match e with
  | EVar _ | EConst _ => True
  | EAdd a b | ESub a b | EMul a b => smooth a p /\ smooth b p
  | EAddC a _ | ESubC a _ | ENeg a | EMulC a _ | EDivC a _ | ESquare a | ESin a | ECos a => smooth a p
  | EDiv a b => smooth a p /\ smooth b p /\ meaning b p <> 0
  | ESqrt a => smooth a p /\ 0 < meaning a p
  | ETan a => smooth a p /\ cos (meaning a p) <> 0
  | EAtan2 y x => smooth y p /\ smooth x p /\ (0 < meaning x p \/ meaning y p <> 0)
  | EAsin a | EAcos a => smooth a p /\ -1 < meaning a p < 1
  | ESinxOverX x s => smooth x p /\ smooth s p /\ Rabs (meaning x p) <> 1 / 100000
  end.

(** Ratan2 is the angle of the point (x,y) *)
Lemma Ratan2_spec : forall y x, x <> 0 \/ y <> 0 ->
  sqrt (x * x + y * y) * cos (Ratan2 y x) = x /\ sqrt (x * x + y * y) * sin (Ratan2 y x) = y.
Proof.
  assert (forall y x, 0 < x -> sqrt (x * x + y * y) * cos (atan (y / x)) = x /\ sqrt (x * x + y * y) * sin (atan (y / x)) = y) as P.
  { intros y x Hx. rewrite cos_atan, sin_atan. unfold Rsqr.
    replace (x * x + y * y) with ((x * x) * (1 + y / x * (y / x))) by (field; lra).
    rewrite sqrt_mult_alt by nra. rewrite sqrt_square by lra.
    assert (0 < sqrt (1 + y / x * (y / x))) by (apply sqrt_lt_R0; nra). split; field; repeat split; lra. }
  assert (forall y x, 0 < y -> sqrt (x * x + y * y) * cos (PI / 2 - atan (x / y)) = x /\ sqrt (x * x + y * y) * sin (PI / 2 - atan (x / y)) = y) as Q.
  { intros y x Hy. rewrite cos_shift, sin_shift. destruct (P x y Hy) as (A & B). rewrite Rplus_comm. tauto. }
  intros y x H. destruct (Rtotal_order y 0) as [Hy|[Hy|Hy]].
  - rewrite Ratan2_yneg by easy. replace (- (PI / 2) - atan (x / y)) with (- (PI / 2 - atan (x / - y))).
    2:{ replace (x / - y) with (- (x / y)) by (field; lra). rewrite atan_opp. lra. }
    rewrite cos_neg, sin_neg. replace (y * y) with (- y * - y) by ring. destruct (Q (- y) x ltac:(lra)) as (A & B). split; lra.
  - subst y. destruct H as [H|H]; [|lra]. destruct (Rlt_dec 0 x) as [Hx|Hx].
    + rewrite Ratan2_xpos by easy. now apply P.
    + unfold Ratan2. destruct (Rlt_dec 0 x); [lra|]. destruct (Rlt_dec x 0); [|lra]. destruct (Rle_dec 0 0); [|lra].
      replace (0 / x) with 0 by (field; lra). rewrite atan_0, Rplus_0_l, cos_PI, sin_PI.
      replace (x * x + 0 * 0) with (- x * - x) by ring. rewrite sqrt_square by lra. lra.
  - rewrite Ratan2_ypos by easy. now apply Q.
Qed.

(** ** The library's evaluation: the same expression over the dual type *)
Fixpoint eval (e : expr) (p : nat -> R) : dual :=
  match e with
  | EVar n => d_var (p n) n | EConst c => d_const c
  | EAdd a b => nadd dualops (eval a p) (eval b p) | EAddC a c => naddc dualops (eval a p) c
  | ESub a b => nsub dualops (eval a p) (eval b p) | ESubC a c => nsubc dualops (eval a p) c | ENeg a => nneg dualops (eval a p)
  | EMul a b => nmul dualops (eval a p) (eval b p) | EMulC a c => nmulc dualops (eval a p) c
  | EDiv a b => ndiv dualops (eval a p) (eval b p) | EDivC a c => ndivc dualops (eval a p) c
  | ESqrt a => nsqrt dualops (eval a p) | ESquare a => nsquare dualops (eval a p)
  | ESin a => nsin dualops (eval a p) | ECos a => ncos dualops (eval a p) | ETan a => ntan dualops (eval a p)
  | EAtan2 y x => natan2 dualops (eval y p) (eval x p)
  | EAsin a => nasin dualops (eval a p) | EAcos a => nacos dualops (eval a p)
  | ESinxOverX x s => nsinx_over_x dualops (eval x p) (eval s p)
  end.

Lemma eval_carries : forall e p, smooth e p -> carries p (meaning e) (eval e p).
Proof.
  induction e; intros p H; cbn [smooth meaning eval] in *.
  - apply carries_var.
  - apply carries_const.
  - destruct H. apply (carries_add _ p (meaning e1) (meaning e2)); auto.
  - apply (carries_addc _ p (meaning e)); auto.
  - destruct H. apply (carries_sub _ p (meaning e1) (meaning e2)); auto.
  - apply (carries_subc _ p (meaning e)); auto.
  - apply (carries_ext _ p (fun q => meaning e q * -1)); [intro; ring|]. apply (carries_mulc _ p (meaning e)); auto.
  - destruct H. apply (carries_mul _ p (meaning e1) (meaning e2)); auto.
  - apply (carries_mulc _ p (meaning e)); auto.
  - destruct H as (? & ? & ?). apply (carries_div _ p (meaning e1) (meaning e2)); auto.
  - apply (carries_ext _ p (fun q => meaning e q * (1 / c))); [intro; unfold Rdiv; ring|]. apply (carries_mulc _ p (meaning e)); auto.
  - destruct H. apply (carries_sqrt _ p (meaning e)); auto.
  - apply (carries_ext _ p (fun q => meaning e q * meaning e q)); [intro; ring|]. apply (carries_square _ p (meaning e)); auto.
  - apply (carries_sin _ p (meaning e)); auto.
  - apply (carries_cos _ p (meaning e)); auto.
  - destruct H. apply (carries_tan _ p (meaning e)); auto.
  - destruct H as (? & ? & ?). apply (carries_atan2 _ p (meaning e1) (meaning e2)); auto.
  - destruct H. apply (carries_asin _ p (meaning e)); auto.
  - destruct H. apply (carries_acos _ p (meaning e)); auto.
  - destruct H as (? & ? & ?). apply (carries_sinxx _ p (meaning e1) (meaning e2)); auto.
Qed.

(** C25.  For every expression and every point where it is differentiable, the
    dual number holds the value, and in slot i exactly the partial derivative with
    respect to variable i. *)
Theorem C25_autodiff_exact : forall e p, smooth e p ->
  dx (eval e p) = meaning e p /\
  forall i, derivable_pt_lim (fun t => meaning e (fun k => if Nat.eqb k i then t else p k)) (p i) (dj (eval e p) i).
Proof.
  intros e p H. destruct (eval_carries e p H) as (_ & V & D). split; [exact V|]. intro i. apply is_derive_Reals. now apply D.
Qed.
Print Assumptions C25_autodiff_exact.

(** The vector operations dot(), cross(), norm2(), mag() carry derivatives too:
    they are expressions of the same kind. *)
Definition ecomp (F : (nat -> R) -> v3) (d : nv3 dualops) (p : nat -> R) : Prop :=
  carries p (fun q => vx (F q)) (n_x d) /\ carries p (fun q => vy (F q)) (n_y d) /\ carries p (fun q => vz (F q)) (n_z d).
Theorem C25_vector_operations : forall p F G a b, ecomp F a p -> ecomp G b p ->
  carries p (fun q => dot (F q) (G q)) (nvdot dualops a b) /\
  ecomp (fun q => cross (F q) (G q)) (nvcross dualops a b) p /\
  carries p (fun q => norm2 (F q)) (nvnorm2 dualops a) /\
  (F p <> v0 -> carries p (fun q => norm (F q)) (nvmag dualops a)).
Proof.
  intros p F G a b (A1 & A2 & A3) (B1 & B2 & B3).
  assert (forall G b, ecomp G b p -> carries p (fun q => dot (F q) (G q)) (nvdot dualops a b)) as D.
  { intros G' b' (C1 & C2 & C3). unfold nvdot, dot. cbn [nadd nmul nconst dualops].
    apply (carries_ext _ p (fun q => 0 + vx (G' q) * vx (F q) + vy (G' q) * vy (F q) + vz (G' q) * vz (F q))); [intro; ring|].
    repeat first [apply carries_add | apply carries_mul | assumption | apply carries_const]. }
  split; [apply D; exact (conj B1 (conj B2 B3))|]. split; [|split].
  - unfold nvcross, cross, ecomp. cbn [n_x n_y n_z nsub nmul dualops vx vy vz].
    split; [|split]; repeat first [apply carries_sub | apply carries_mul | assumption].
  - apply D; exact (conj A1 (conj A2 A3)).
  - intro Hn. unfold nvmag, norm. cbn [nsqrt dualops]. apply carries_sqrt; [apply D; exact (conj A1 (conj A2 A3))|].
    destruct (norm2_nonneg (F p)) as [?|E]; [easy|]. exfalso. apply Hn. now apply norm2_zero.
Qed.
Print Assumptions C25_vector_operations.

(** Not vacuous: an expression using a quotient, a square root and atan2, at a
    point where it is differentiable. *)
Example ex_expr : expr := EAtan2 (ESqrt (EAdd (ESquare (EVar 0)) (ESquare (EVar 1)))) (EDiv (EVar 2) (ECos (EVar 3))).
Example ex_smooth : smooth ex_expr (fun k => match k with O => 3 | S O => 4 | S (S O) => -1 | _ => 0 end).
Proof.
  cbn. rewrite cos_0. repeat split; try lra. right. intro H.
  assert (0 < sqrt (3 * (3 * 1) + 4 * (4 * 1))) by (apply sqrt_lt_R0; lra). lra.
Qed.
Example ex_eval_value : dx (eval (EMul (EVar 0) (EVar 1)) (fun k => match k with O => 3 | _ => 5 end)) = 15 /\
  dj (eval (EMul (EVar 0) (EVar 1)) (fun k => match k with O => 3 | _ => 5 end)) 0 = 5.
Proof. cbn. split; lra. Qed.
