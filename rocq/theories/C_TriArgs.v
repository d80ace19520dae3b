(** C95: the ways to call a triangulation function agree: from exact rays, given in either coordinate system, each gives the
    point that was seen; the combinations of arguments that are accepted are the documented ones. *)
From Coq Require Import Reals Lra.
From Verif Require Import S_Vec M_Pose C_Rt M_Triangulate P_Triangulate C_Triangulate M_TriArgs.
Open Scope R_scope.

(** *** The documented combinations: t01 with v1 in the coordinates of camera 0; or Rt01, without gradients *)
Theorem C95_accepted : forall v1 t01 get_gradients v_are_local Rt01,
  (exists r, parse_args v1 t01 get_gradients v_are_local Rt01 = Some r) <->
  ((t01 <> None /\ Rt01 = None /\ v_are_local = false) \/ (t01 = None /\ Rt01 <> None /\ get_gradients = false)).
Proof.
  intros v1 [t|] [|] [|] [p|]; cbn; split;
    try (intros [r E]; discriminate E);
    try (intros [(A & B & C)|(A & B & C)]; first [discriminate A|discriminate B|discriminate C|now elim A|now elim B|eexists; reflexivity]);
    intros _; first [left; repeat split; discriminate|right; repeat split; discriminate].
Qed.
Print Assumptions C95_accepted.

(** *** The point p, at p1 in the coordinates of camera 1; rays of any length through it *)
Definition meets (p p1 v0 v1 : v3) (v1_is_local : bool) (pose : Rt) : Prop :=
  act pose p1 = p /\ exists k0 k1, 0 < k0 /\ 0 < k1 /\ p = vscale k0 v0 /\
    (if v1_is_local then p1 = vscale k1 v1 else vadd p (vscale (-1) (Rt_t pose)) = vscale k1 v1).
(** camera 1 is given by its pose or, with v1 in the coordinates of camera 0, by its position *)
Definition given (pose : Rt) (t01 : option v3) (Rt01 : option Rt) : Prop :=
  (t01 = Some (Rt_t pose) /\ Rt01 = None) \/ (t01 = None /\ Rt01 = Some pose).

Lemma parsed_meet : forall p p1 v0 v1 t01 g local Rt01 pose v1' t, meets p p1 v0 v1 local pose -> given pose t01 Rt01 ->
  parse_args v1 t01 g local Rt01 = Some (v1', t) ->
  v1' = (if local then mv (Rt_R pose) v1 else v1) /\ t = Rt_t pose /\ exists k0 k1, meet_at v0 v1' t p k0 k1.
Proof.
  intros p p1 v0 v1 t01 g local Rt01 pose v1' t (Ep & k0 & k1 & K0 & K1 & E0 & E1) G E.
  assert (v1' = (if local then mv (Rt_R pose) v1 else v1) /\ t = Rt_t pose) as [Ev Et].
  { destruct G as [[-> ->]|[-> ->]], local, g; cbn in E; try discriminate E.
    all: match type of E with Some (?x, ?y) = _ => assert (v1' = x /\ t = y) as [-> ->] by (split; congruence) end; split; reflexivity. }
  split; [exact Ev|]. split; [exact Et|]. exists k0, k1. subst v1' t. split; [exact K0|]. split; [exact K1|]. split; [exact E0|].
  destruct local.
  - rewrite <- Ep, E1. apply v3_eq; unfold act, vadd, mv, vscale; cbn [vx vy vz]; ring.
  - rewrite <- E1. apply v3_eq; unfold vadd, vscale; cbn [vx vy vz]; ring.
Qed.

(** *** Each accepted call gives the exact point.  ray1: the ray of camera 1 in the coordinates of camera 0 *)
Definition ray1 (local : bool) (pose : Rt) (v1 : v3) : v3 := if local then mv (Rt_R pose) v1 else v1.
Theorem C95_exact : forall p p1 v0 v1 t01 g local Rt01 pose, meets p p1 v0 v1 local pose -> given pose t01 Rt01 ->
  (forall r, triangulate_with geometric v0 v1 t01 g local Rt01 = Some r -> tiny < norm2 (cross v0 (ray1 local pose v1)) -> r = p) /\
  (forall r, triangulate_with mid2 v0 v1 t01 g local Rt01 = Some r -> cross v0 (ray1 local pose v1) <> S_Vec.v0 -> r = p) /\
  (forall r, triangulate_with wmid2 v0 v1 t01 g local Rt01 = Some r -> cross v0 (ray1 local pose v1) <> S_Vec.v0 -> r = p) /\
  (forall r, triangulate_with leecivera_l1 v0 v1 t01 g local Rt01 = Some r -> tiny < dets v0 (ray1 local pose v1) -> r = p) /\
  (forall r, triangulate_with leecivera_linf v0 v1 t01 g local Rt01 = Some r -> v0 <> S_Vec.v0 -> ray1 local pose v1 <> S_Vec.v0 ->
     tiny < dets v0 (ray1 local pose v1) / (norm v0 * norm (ray1 local pose v1)) -> r = p).
Proof.
  intros p p1 v0 v1 t01 g local Rt01 pose M G. unfold triangulate_with.
  destruct (parse_args v1 t01 g local Rt01) as [[v1' t]|] eqn:E; [|repeat split; intros r Q; discriminate Q].
  destruct (parsed_meet _ _ _ _ _ _ _ _ _ _ _ M G E) as (Ev & Et & k0 & k1 & Mt). fold (ray1 local pose v1) in Ev. rewrite <- Ev.
  split; [|split; [|split; [|split]]]; intros r Q; match type of Q with Some ?x = Some r => assert (r = x) as -> by congruence end; intros.
  - eapply C33_geometric; eassumption.
  - eapply C33_mid2; eassumption.
  - eapply C33_wmid2; eassumption.
  - eapply C33_l1; eassumption.
  - eapply C33_linf; eassumption.
Qed.
Print Assumptions C95_exact.

(** *** Any routine: the three ways to pass the same rays agree *)
Theorem C95_agree : forall core v0 v1 pose,
  triangulate_with core v0 v1 None false true (Some pose) = triangulate_with core v0 (mv (Rt_R pose) v1) (Some (Rt_t pose)) false false None /\
  triangulate_with core v0 (mv (Rt_R pose) v1) None false false (Some pose) = triangulate_with core v0 (mv (Rt_R pose) v1) (Some (Rt_t pose)) false false None /\
  triangulate_with core v0 v1 None false true (Some pose) = Some (core v0 (mv (Rt_R pose) v1) (Rt_t pose)).
Proof. intros. repeat split. Qed.
Print Assumptions C95_agree.

Example C95_example : let pose := mkRt identity_R (V3 1 0 0) in
  meets (V3 1 0 2) (V3 0 0 2) (V3 1 0 2) (V3 0 0 1) true pose /\ given pose None (Some pose) /\
  tiny < norm2 (cross (V3 1 0 2) (ray1 true pose (V3 0 0 1))).
Proof.
  cbv zeta. split; [|split].
  - split; [apply v3_eq; unfold act, vadd, mv, identity_R; cbn; ring|]. exists 1, 2. split; [lra|]. split; [lra|].
    split; apply v3_eq; cbn; ring.
  - right. split; reflexivity.
  - unfold ray1, mv, identity_R, cross, norm2, dot, tiny. cbn. lra.
Qed.
