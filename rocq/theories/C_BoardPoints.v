(** C93: hypothesis_board_corner_positions() splits the corners seen by a camera into inliers and outliers; the array
    idx_inliers that's passed to it is overwritten. *)
From Coq Require Import Reals ZArith List Bool Lia Lra Permutation.
From Verif Require Import M_BoardPoints.
Import ListNotations.
Open Scope R_scope.

Section Points.
Context {A : Type}.
Implicit Types (l : list (observation A)) (idx : list (list bool)).

(** *** Specification *)
(** the corners that a camera (or any camera) sees, in order *)
Fixpoint seen (icam : option Z) l : list (A * R) :=
  match l with
  | [] => []
  | o :: l => (match icam with None => o_points o | Some c => if Z.eq_dec (o_cam o) c then o_points o else [] end) ++ seen icam l
  end.
(** the array has a value for each corner *)
Definition shaped l idx := Forall2 (fun o row => length row = length (o_points o)) l idx.
(** the corners that a camera sees, each with the caller's choice *)
Inductive chosen (icam : option Z) : list (observation A) -> list (list bool) -> list (A * bool) -> Prop :=
| ch_nil : chosen icam [] [] []
| ch_in : forall o l row idx r, (icam = None \/ icam = Some (o_cam o)) -> chosen icam l idx r ->
    chosen icam (o :: l) (row :: idx) (combine (map fst (o_points o)) row ++ r)
| ch_out : forall o l row idx r, ~ (icam = None \/ icam = Some (o_cam o)) -> chosen icam l idx r -> chosen icam (o :: l) (row :: idx) r.

Lemma filter_false : forall (pts : list (A * R)) (row : list bool), filter (fun pb => snd pb) (combine pts (map (fun _ => false) row)) = [].
Proof. induction pts as [|p pts IH]; intros [|b row]; try reflexivity. cbn. apply IH. Qed.
Lemma filter_row : forall (pts : list (A * R)) (row : list bool),
  map (fun pb => fst (fst pb)) (filter (fun pb => snd pb) (combine pts row)) = map fst (filter (fun x => snd x) (combine (map fst pts) row)).
Proof. induction pts as [|p pts IH]; intros [|b row]; try reflexivity. cbn. destruct b; cbn; [f_equal|]; apply IH. Qed.
Lemma filter_neg : forall (pts : list (A * R)) (row : list bool),
  map (fun pb => fst (fst pb)) (filter (fun pb => snd pb) (combine pts (map negb row))) = map fst (filter (fun x => negb (snd x)) (combine (map fst pts) row)).
Proof. induction pts as [|p pts IH]; intros [|b row]; try reflexivity. cbn. destruct b; cbn; [|f_equal]; apply IH. Qed.

Lemma pick_chosen : forall icam l idx r, chosen icam l idx r ->
  pick l (match icam with None => idx | Some c => only_camera c l idx end) = map fst (filter (fun x => snd x) r) /\
  pick l (match icam with None => complement idx | Some c => only_camera c l (complement idx) end) = map fst (filter (fun x => negb (snd x)) r).
Proof.
  intros icam l idx r C. induction C as [|o l row idx r S C [IH1 IH2]|o l row idx r S C [IH1 IH2]].
  - destruct icam; split; reflexivity.
  - rewrite !filter_app, !map_app, <- IH1, <- IH2, <- filter_row, <- filter_neg.
    destruct icam as [c|]; [|split; reflexivity]. destruct S as [S|S]; [discriminate|]. assert (c = o_cam o) as -> by congruence.
    unfold only_camera, complement, pick. cbn [map combine flat_map fst snd]. rewrite Z.eqb_refl. split; reflexivity.
  - destruct icam as [c|]; [|elim S; now left].
    assert ((o_cam o =? c)%Z = false) as N by (apply Z.eqb_neq; intro E; apply S; right; now rewrite E).
    unfold only_camera, complement, pick in *. cbn [map combine flat_map fst snd]. rewrite N, !filter_false. cbn [map app]. now split.
Qed.

(** *** The caller's choice of inliers.  The inliers are the chosen corners of the camera, the outliers are its other corners *)
Theorem C93_given : forall icam idx l r, chosen icam l idx r ->
  s_inliers (select icam (Some idx) l) = map fst (filter (fun x => snd x) r) /\
  s_outliers (select icam (Some idx) l) = map fst (filter (fun x => negb (snd x)) r).
Proof. intros icam idx l r C. destruct (pick_chosen icam l idx r C) as [P Q]. destruct icam; split; assumption. Qed.

(** *** By default the inliers are the corners with a positive weight *)
Lemma combine_weights : forall pts : list (A * R),
  map fst (filter (fun x => snd x) (combine (map fst pts) (map (fun p => positive (snd p)) pts))) = map fst (filter (fun p => positive (snd p)) pts) /\
  map fst (filter (fun x => negb (snd x)) (combine (map fst pts) (map (fun p => positive (snd p)) pts))) = map fst (filter (fun p => negb (positive (snd p))) pts).
Proof. induction pts as [|p pts [IH1 IH2]]; [split; reflexivity|]. cbn [map combine filter snd fst]. destruct (positive (snd p)); cbn [negb map fst]; rewrite IH1, IH2; split; reflexivity. Qed.
Lemma chosen_default : forall icam l, exists r, chosen icam l (default_inliers l) r /\
  map fst (filter (fun x => snd x) r) = map fst (filter (fun p => positive (snd p)) (seen icam l)) /\
  map fst (filter (fun x => negb (snd x)) r) = map fst (filter (fun p => negb (positive (snd p))) (seen icam l)).
Proof.
  intros icam. induction l as [|o l (r & C & E1 & E2)]; [exists []; repeat split; constructor|].
  destruct (combine_weights (o_points o)) as [W1 W2].
  assert ({icam = None \/ icam = Some (o_cam o)} + {~ (icam = None \/ icam = Some (o_cam o))}) as [S|S].
  { destruct icam as [c|]; [|left; now left]. destruct (Z.eq_dec c (o_cam o)) as [-> |N]; [left; now right|right; intros [Q|Q]; congruence]. }
  - eexists. split; [apply ch_in; eassumption|]. cbn [seen].
    assert ((match icam with None => o_points o | Some c => if Z.eq_dec (o_cam o) c then o_points o else [] end) = o_points o) as ->.
    { destruct S as [-> | ->]; [reflexivity|]. destruct (Z.eq_dec (o_cam o) (o_cam o)); [reflexivity|contradiction]. }
    rewrite !filter_app, !map_app, E1, E2, W1, W2. split; reflexivity.
  - eexists. split; [apply ch_out; eassumption|]. cbn [seen].
    destruct icam as [c|]; [|elim S; now left]. destruct (Z.eq_dec (o_cam o) c) as [E|E]; [elim S; right; now rewrite E|]. split; assumption.
Qed.
Theorem C93_default : forall icam l, exists ins outs,
  s_inliers (select icam None l) = map fst ins /\ s_outliers (select icam None l) = map fst outs /\
  Permutation (ins ++ outs) (seen icam l) /\ (forall p, In p ins -> 0 < snd p) /\ (forall p, In p outs -> snd p <= 0) /\
  s_idx (select icam None l) = None.
Proof.
  intros icam l. destruct (chosen_default icam l) as (r & C & E1 & E2). destruct (pick_chosen _ _ _ _ C) as [P1 P2].
  exists (filter (fun p => positive (snd p)) (seen icam l)), (filter (fun p => negb (positive (snd p))) (seen icam l)).
  rewrite <- E1, <- E2. split; [destruct icam; exact P1|]. split; [destruct icam; exact P2|]. split; [|split; [|split]].
  - clear. induction (seen icam l) as [|p s IH]; [constructor|]. cbn [filter]. destruct (positive (snd p)); cbn [negb app]; [now constructor|].
    apply Permutation_sym, Permutation_cons_app, Permutation_sym, IH.
  - intros p Ip. apply filter_In in Ip. destruct Ip as [_ Q]. unfold positive in Q. destruct (Rlt_dec 0 (snd p)); [assumption|discriminate].
  - intros p Ip. apply filter_In in Ip. destruct Ip as [_ Q]. unfold positive in Q. destruct (Rlt_dec 0 (snd p)); [discriminate|lra].
  - destruct icam; reflexivity.
Qed.

(** the other results: the positions, by observation; those of the camera's observations *)
Theorem C93_all : forall icam (idx : option (list (list bool))) l, s_all (select icam idx l) = map (fun o => map fst (o_points o)) l /\
  concat (s_camera (select icam idx l)) = map fst (seen icam l).
Proof.
  intros icam idx l. split; [destruct icam; reflexivity|].
  assert (forall c, concat (positions (filter (fun o => Z.eqb (o_cam o) c) l)) = map fst (seen (Some c) l)) as Q.
  { intro c. unfold positions. induction l as [|o m IH]; [reflexivity|]. cbn [filter seen]. rewrite map_app, <- IH.
    destruct (Z.eq_dec (o_cam o) c) as [E|E]; [apply Z.eqb_eq in E|apply Z.eqb_neq in E]; rewrite E; reflexivity. }
  destruct icam as [c|]; [exact (Q c)|]. clear. cbn [select s_camera]. unfold positions. induction l as [|o l IH]; [reflexivity|]. cbn [map concat seen]. now rewrite map_app, <- IH.
Qed.

(** *** The caller's array is overwritten: after a call for one camera, a call for another camera with the same array takes all
    of the corners of that camera for outliers *)
Lemma second : forall c1 c2 l idx, c1 <> c2 -> shaped l idx ->
  exists r, chosen (Some c2) l (only_camera c1 l idx) r /\ filter (fun x => snd x) r = [] /\ map fst (filter (fun x => negb (snd x)) r) = map fst (seen (Some c2) l).
Proof.
  intros c1 c2 l idx N S. induction S as [|o row l idx Lr S (r & C & E1 & E2)]; [exists []; repeat split; constructor|].
  unfold only_camera. cbn [combine map fst snd]. fold (only_camera c1 l idx). cbn [seen].
  destruct (Z.eq_dec (o_cam o) c2) as [E|E].
  - assert ((o_cam o =? c1)%Z = false) as -> by (apply Z.eqb_neq; congruence).
    eexists. split; [apply ch_in; [right; now rewrite E|exact C]|]. rewrite !filter_app, !map_app, E1, E2.
    assert (forall (p : list (A * R)) (b : list bool), length b = length p ->
      filter (fun x => snd x) (combine (map fst p) (map (fun _ => false) b)) = [] /\
      map fst (filter (fun x => negb (snd x)) (combine (map fst p) (map (fun _ => false) b))) = map fst p) as Q.
    { induction p as [|p0 p IH]; intros [|b0 b] L; try discriminate L; [split; reflexivity|]. destruct (IH b) as [I1 I2]; [cbn in L; lia|].
      cbn [map combine filter snd negb fst]. rewrite I1, I2. split; reflexivity. }
    destruct (Q _ _ Lr) as [Q1 Q2]. rewrite Q1, Q2. split; reflexivity.
  - eexists. split; [apply ch_out; [intros [X|X]; congruence|exact C]|]. split; assumption.
Qed.
Theorem C93_overwritten : forall c1 c2 idx idx' l, c1 <> c2 -> shaped l idx ->
  s_idx (select (Some c1) (Some idx) l) = Some idx' ->
  s_inliers (select (Some c2) (Some idx') l) = [] /\ s_outliers (select (Some c2) (Some idx') l) = map fst (seen (Some c2) l).
Proof.
  intros c1 c2 idx idx' l N S E. cbn [select s_idx] in E. assert (idx' = only_camera c1 l idx) as -> by congruence.
  destruct (second c1 c2 l idx N S) as (r & C & E1 & E2). destruct (C93_given _ _ _ _ C) as [P1 P2]. rewrite P1, P2, E1, E2. split; reflexivity.
Qed.
End Points.
Print Assumptions C93_given.
Print Assumptions C93_default.
Print Assumptions C93_all.
Print Assumptions C93_overwritten.

(** two cameras with one corner each; both are inliers.  One after the other, with the same array: the second has no inliers *)
Definition ex_l : list (observation Z) := [Observation 0 [(10%Z, 1)]; Observation 1 [(20%Z, 1)]].
Theorem C93_overwritten_refuted : exists (l : list (observation Z)) idx idx', shaped l idx /\
  s_inliers (select (Some 1%Z) (Some idx) l) = [20%Z] /\
  s_idx (select (Some 0%Z) (Some idx) l) = Some idx' /\ s_inliers (select (Some 1%Z) (Some idx') l) = [].
Proof.
  exists ex_l, [[true]; [true]], [[true]; [false]]. split; [repeat constructor|]. repeat split; reflexivity.
Qed.
Print Assumptions C93_overwritten_refuted.
Example C93_example : chosen (Some 0%Z) ex_l [[true]; [true]] [(10%Z, true)] /\ shaped ex_l [[true]; [true]].
Proof.
  split; [|repeat constructor]. apply (ch_in (Some 0%Z) (Observation 0 [(10%Z, 1)]) _ [true] [[true]] []); [now right|].
  apply ch_out; [intros [X|X]; discriminate|constructor].
Qed.
