(** C19: intrinsics-to-extrinsics correspondence. *)
From Coq Require Import ZArith List Bool Lia ZifyBool.
From Verif Require Import M_Corr.
Import ListNotations.
Open Scope Z_scope.

(** ** specification: plain statements about the observation list *)
Definition ext (c : cam_index) : Z := Z.max (-1) (ci_e c).
(** indices in range *)
Definition in_range (Nint Next : Z) (c : cam_index) : Prop := 0 <= ci_i c < Nint /\ ci_e c < Next.
(** stationary cameras: camera and pose determine each other *)
Definition vanilla (l : list cam_index) : Prop :=
  forall a b, In a l -> In b l -> (ci_i a = ci_i b <-> ext a = ext b).

(** ** proofs *)
Lemma upd_len : forall a n v, length (upd a n v) = length a.
Proof. induction a; intros [|n] v; cbn; auto. Qed.
Lemma upd_nth : forall a n v k, nth_error (upd a n v) k = if Nat.eqb k n then (if (n <? length a)%nat then Some v else None) else nth_error a k.
Proof.
  induction a as [|x a IH]; intros n v k; cbn [upd].
  - cbn. destruct (Nat.eqb k n); [|easy]. now destruct k.
  - destruct n as [|n], k as [|k]; cbn; try easy. rewrite IH. reflexivity.
Qed.
Definition zlen (a : list Z) := Z.of_nat (length a).
Lemma aget_some : forall a i, 0 <= i < zlen a -> exists v, aget a i = Some v.
Proof.
  intros a i H. unfold aget, zlen in *. replace (i <? 0) with false by lia.
  destruct (nth_error a (Z.to_nat i)) eqn:E; eauto. apply nth_error_None in E. lia.
Qed.
Lemma aset_some : forall a i v, 0 <= i < zlen a -> exists a', aset a i v = Some a' /\ zlen a' = zlen a /\
  forall j, aget a' j = if j =? i then Some v else aget a j.
Proof.
  intros a i v H. unfold aset. destruct (aget_some a i H) as (w & ->). exists (upd a (Z.to_nat i) v).
  unfold zlen in *. split; [easy|]. rewrite upd_len. split; [easy|]. intro j. unfold aget. rewrite upd_nth.
  destruct (Z.ltb_spec j 0); [replace (j =? i) with false by lia; easy|].
  destruct (Z.eqb_spec j i) as [->|Hn].
  - rewrite Nat.eqb_refl. now replace (_ <? _)%nat with true by lia.
  - replace (Nat.eqb _ _) with false by lia. easy.
Qed.

(** invariant: the maps record exactly the observations seen *)
Definition inv (Nint Next : Z) (seen : list cam_index) (s : maps) : Prop :=
  zlen (fst s) = Nint /\ zlen (snd s) = Next + 1 /\ vanilla seen /\ Forall (in_range Nint Next) seen /\
  (forall i, 0 <= i < Nint ->
     (exists c, In c seen /\ ci_i c = i /\ aget (fst s) i = Some (ext c)) \/ (aget (fst s) i = Some (-100) /\ forall c, In c seen -> ci_i c <> i)) /\
  (forall e, -1 <= e < Next ->
     (exists c, In c seen /\ ext c = e /\ aget (snd s) (e + 1) = Some (ci_i c)) \/ (aget (snd s) (e + 1) = Some (-100) /\ forall c, In c seen -> ext c <> e)).

Lemma vanilla_incl : forall l l', incl l l' -> vanilla l' -> vanilla l.
Proof. unfold vanilla, incl. intros. auto. Qed.

Lemma check_step : forall Nint Next seen s c, 0 <= Next -> inv Nint Next seen s -> in_range Nint Next c ->
  (exists s', check c s = Ok s' /\ inv Nint Next (c :: seen) s') \/ (check c s = Fail /\ ~ vanilla (c :: seen)).
Proof.
  intros Nint Next seen (te, ti) c H0 (L1 & L2 & V & R & I & J) (C1 & C2). cbn [fst snd] in *.
  unfold check. assert ((if ci_e c <? 0 then -1 else ci_e c) = ext c) as -> by (unfold ext; destruct (Z.ltb_spec (ci_e c) 0); lia).
  assert (-1 <= ext c < Next) as CE by (unfold ext; lia).
  destruct (J _ CE) as [(d & D1 & D2 & D3)|(D1 & D2)].
  - (* extrinsics seen before, in d *)
    rewrite D3.
    assert (in_range Nint Next d) as (Dr & _) by (rewrite Forall_forall in R; now apply R).
    replace (ci_i d =? -100) with false by lia.
    destruct (Z.eqb_spec (ci_i d) (ci_i c)) as [E|E]; cbn [negb].
    + destruct (I _ C1) as [(d' & G1 & G2 & G3)|(G1 & G2)]; [|exfalso; now apply (G2 d)].
      rewrite G3. assert (ext d' = ext c) as Ee. { rewrite <- D2. apply V; auto. lia. }
      rewrite Ee. replace (ext c =? -100) with false by lia. rewrite Z.eqb_refl. cbn [negb].
      left. eexists. split; [reflexivity|]. split; [easy|]. split; [easy|].
      split; [|split; [now constructor|split]].
      * intros a b [<-|Ha] [<-|Hb]; [tauto| | |now apply V].
        -- rewrite <- E, <- D2. now apply V.
        -- rewrite <- E, <- D2. now apply V.
      * intros i Hi. destruct (I i Hi) as [(x & X1 & X2)|(X1 & X2)]; [left; exists x; split; [now right|easy]|].
        right. split; [easy|]. intros x [<-|Hx]; [|now apply X2]. intro Q. apply (X2 d D1). lia.
      * intros e He. destruct (J e He) as [(x & X1 & X2)|(X1 & X2)]; [left; exists x; split; [now right|easy]|].
        right. split; [easy|]. intros x [<-|Hx]; [|now apply X2]. intro Q. apply (X2 d D1). lia.
    + right. split; [easy|]. intro V'. apply E. apply (V' d c); [now right|now left|lia].
  - rewrite D1. replace (-100 =? -100) with true by easy.
    destruct (aset_some ti (ext c + 1) (ci_i c)) as (ti' & -> & T1 & T2); [lia|].
    destruct (I _ C1) as [(d' & G1 & G2 & G3)|(G1 & G2)].
    + rewrite G3. assert (ext d' <> ext c) as Ne by now apply D2.
      assert (in_range Nint Next d') as (Dr & De) by (rewrite Forall_forall in R; now apply R).
      replace (ext d' =? -100) with false by (unfold ext; lia). replace (ext d' =? ext c) with false by lia.
      right. split; [easy|]. intro V'. apply Ne. apply (V' d' c); [now right|now left|lia].
    + rewrite G1. replace (-100 =? -100) with true by easy.
      destruct (aset_some te (ci_i c) (ext c)) as (te' & -> & T3 & T4); [lia|].
      left. eexists. split; [reflexivity|]. unfold inv. cbn [fst snd].
      split; [lia|]. split; [lia|]. split; [|split; [now constructor|split]].
      * intros a b [<-|Ha] [<-|Hb]; [tauto| | |now apply V].
        -- split; intro Q; exfalso; [now apply (G2 b)|now apply (D2 b)].
        -- split; intro Q; exfalso; [now apply (G2 a)|now apply (D2 a)].
      * intros i Hi. rewrite T4. destruct (Z.eqb_spec i (ci_i c)) as [->|Hn].
        -- left. exists c. split; [now left|]. easy.
        -- destruct (I i Hi) as [(x & X1 & X2)|(X1 & X2)]; [left; exists x; split; [now right|easy]|].
           right. split; [easy|]. intros x [<-|Hx]; [lia|now apply X2].
      * intros e He. rewrite T2. destruct (Z.eqb_spec (e + 1) (ext c + 1)) as [Q|Hn].
        -- left. exists c. split; [now left|]. split; [lia|easy].
        -- destruct (J e He) as [(x & X1 & X2)|(X1 & X2)]; [left; exists x; split; [now right|easy]|].
           right. split; [easy|]. intros x [<-|Hx]; [lia|now apply X2].
Qed.

Lemma check_all_ok : forall Nint Next l seen s, 0 <= Next -> inv Nint Next seen s -> Forall (in_range Nint Next) l ->
  (exists s', check_all l s = Ok s' /\ inv Nint Next (rev l ++ seen) s') \/ (check_all l s = Fail /\ ~ vanilla (rev l ++ seen)).
Proof.
  induction l as [|c l IH]; intros seen s H0 Hi R; cbn [check_all rev].
  - left. exists s. split; [easy|exact Hi].
  - inversion_clear R as [|? ? R1 R2]. rewrite <- app_assoc. cbn [app].
    destruct (check_step Nint Next seen s c H0 Hi R1) as [(s' & -> & Hi')|(-> & Hv)].
    + now apply IH.
    + right. split; [easy|]. intro V. apply Hv. eapply vanilla_incl; [|exact V]. apply incl_appr, incl_refl.
Qed.

Lemma aget_repeat : forall n i, 0 <= i < Z.of_nat n -> aget (repeat (-100) n) i = Some (-100).
Proof. intros n i H. unfold aget. replace (i <? 0) with false by lia. rewrite nth_error_repeat; [easy|lia]. Qed.

(** Exact behaviour for every list of board and point observations with
    indices in range: no out-of-bounds access; failure exactly if the camera
    counts or the observations are not those of a stationary-camera problem;
    otherwise the answer is the pose index of this camera's observations, or
    -100 if it has none. *)
Theorem C19_correspondence_partial : forall icam Nint Next boards points,
  0 <= Next -> 0 <= icam < Nint -> Forall (in_range Nint Next) (boards ++ points) ->
  (corresponding icam Nint Next boards points = Fail /\
     ~ ((Nint = Next \/ Nint = Next + 1) /\ vanilla (boards ++ points))) \/
  (exists e, corresponding icam Nint Next boards points = Ok e /\
     (Nint = Next \/ Nint = Next + 1) /\ vanilla (boards ++ points) /\
     (forall c, In c (boards ++ points) -> ci_i c = icam -> ext c = e) /\
     (-1 <= e -> (exists c, In c (boards ++ points) /\ ci_i c = icam) /\
                 (forall c, In c (boards ++ points) -> ext c = e -> ci_i c = icam)) /\
     ((exists c, In c (boards ++ points) /\ ci_i c = icam) -> -1 <= e < Next)).
Proof.
  intros icam Nint Next boards points H0 Hc R. unfold corresponding.
  destruct ((Nint =? Next) || (Nint =? Next + 1)) eqn:N; cbn [negb]; [|left; split; [easy|lia]].
  apply Forall_app in R as (R1 & R2).
  assert (inv Nint Next [] (repeat (-100) (Z.to_nat Nint), repeat (-100) (Z.to_nat (Next + 1)))) as I0.
  { unfold inv, zlen. cbn [fst snd]. rewrite !repeat_length. split; [lia|]. split; [lia|].
    split; [easy|]. split; [constructor|]. split; intros i Hi; right; (split; [apply aget_repeat; lia|easy]). }
  assert (forall x, In x (rev points ++ rev boards ++ []) <-> In x (boards ++ points)) as EQ.
  { intro x. rewrite !in_app_iff, <- !in_rev. cbn. tauto. }
  destruct (check_all_ok Nint Next boards [] _ H0 I0 R1) as [(s1 & -> & I1)|(-> & V)].
  2:{ left. split; [easy|]. intros (_ & V'). apply V. eapply vanilla_incl; [|exact V'].
      intros x Hx. apply EQ. apply in_or_app. now right. }
  destruct (check_all_ok Nint Next points _ _ H0 I1 R2) as [((te & ti) & -> & I2)|(-> & V)].
  2:{ left. split; [easy|]. intros (_ & V'). apply V. eapply vanilla_incl; [|exact V'].
      intros x Hx. now apply EQ. }
  right. destruct I2 as (_ & _ & V & RR & I & J). cbn [fst snd] in *.
  assert (vanilla (boards ++ points)) as V'.
  { eapply vanilla_incl; [|exact V]. intros x Hx. now apply EQ. }
  destruct (I icam Hc) as [(c & C1 & C2 & ->)|(-> & C2)].
  - exists (ext c). split; [easy|]. split; [lia|]. split; [easy|]. apply EQ in C1. split; [|split].
    + intros d D1 D2. apply V'; auto. lia.
    + intros _. split; [eauto|]. intros d D1 D2. rewrite <- C2. now apply V'.
    + intros _. rewrite Forall_forall in RR. apply EQ in C1. apply RR in C1 as (_ & ?). unfold ext. lia.
  - exists (-100). split; [easy|]. split; [lia|]. split; [easy|]. split; [|split; [lia|]].
    + intros d D1 D2. exfalso. apply (C2 d); [now apply EQ|easy].
    + intros (d & D1 & D2). exfalso. apply (C2 d); [now apply EQ|easy].
Qed.
Print Assumptions C19_correspondence_partial.

(** at most one camera is reported at the reference (or at any other pose) *)
Theorem C19_pose_unique : forall i1 i2 e Nint Next boards points,
  0 <= Next -> 0 <= i1 < Nint -> 0 <= i2 < Nint -> Forall (in_range Nint Next) (boards ++ points) ->
  corresponding i1 Nint Next boards points = Ok e -> corresponding i2 Nint Next boards points = Ok e -> -1 <= e -> i1 = i2.
Proof.
  intros i1 i2 e Nint Next boards points H0 H1 H2 R E1 E2 He.
  destruct (C19_correspondence_partial i1 Nint Next boards points H0 H1 R) as [(F & _)|(e1 & F1 & _ & V & A1 & B1 & _)]; [congruence|].
  destruct (C19_correspondence_partial i2 Nint Next boards points H0 H2 R) as [(F & _)|(e2 & F2 & _ & _ & A2 & B2 & _)]; [congruence|].
  assert (e1 = e) as -> by congruence. assert (e2 = e) as -> by congruence.
  destruct (B1 He) as ((c & C1 & C2) & _). destruct (B2 He) as (_ & U).
  assert (ci_i c = i2) by (apply U; auto). lia.
Qed.
Print Assumptions C19_pose_unique.

(** Not so: a camera that observed nothing is reported "successfully" with -100,
    which is no pose index. *)
Theorem C19_unseen_camera_refuted : exists icam Nint Next boards points,
  Forall (in_range Nint Next) (boards ++ points) /\ vanilla (boards ++ points) /\
  py_corresponding icam Nint Next boards points [] = Ok (Some (-100)).
Proof.
  exists 1, 2, 1, [{| ci_i := 0; ci_e := -1 |}], []. split; [|split].
  - repeat constructor; cbn; lia.
  - intros a b [<-|[]] [<-|[]]. tauto.
  - reflexivity.
Qed.
(** Not so: triangulated observations are not looked at, so a camera moving
    between its triangulated observations is not rejected. *)
Theorem C19_triangulated_refuted : exists icam Nint Next boards points triangulated e,
  Forall (in_range Nint Next) (boards ++ points ++ triangulated) /\ ~ vanilla (boards ++ points ++ triangulated) /\
  py_corresponding icam Nint Next boards points triangulated = Ok (Some e) /\ -1 <= e.
Proof.
  exists 0, 2, 2, [{| ci_i := 0; ci_e := 0 |}], [], [{| ci_i := 0; ci_e := 1 |}], 0. split; [|split; [|split]].
  - repeat constructor; cbn; lia.
  - intro V. specialize (V {| ci_i := 0; ci_e := 0 |} {| ci_i := 0; ci_e := 1 |}). cbn in V. unfold ext in V. cbn in V.
    destruct V as (V & _); auto. specialize (V eq_refl). lia.
  - reflexivity.
  - lia.
Qed.

(** Non-vacuity: three cameras, camera 1 at the reference *)
Definition ex_obs := [{| ci_i := 2; ci_e := 1 |}; {| ci_i := 1; ci_e := -3 |}; {| ci_i := 0; ci_e := 0 |}; {| ci_i := 1; ci_e := -1 |}].
Example ex_corr : Forall (in_range 3 2) (ex_obs ++ []) /\
  corresponding 0 3 2 ex_obs [] = Ok 0 /\ corresponding 1 3 2 ex_obs [] = Ok (-1) /\ corresponding 2 3 2 ex_obs [] = Ok 1 /\
  corresponding 2 3 2 ex_obs [{| ci_i := 2; ci_e := 0 |}] = Fail.
Proof. split; [repeat constructor; cbn; lia|]. repeat split; reflexivity. Qed.
Print Assumptions C19_unseen_camera_refuted.
Print Assumptions C19_triangulated_refuted.
