(** C48: chessboard corner import *)
From Coq Require Import ZArith Lia List Bool Ascii Sorting.Permutation.
From Verif Require Import M_FrameNo C_FrameNo M_Corners.
Import ListNotations.
Open Scope Z_scope.

Section C48.
Context {L V : Type}.
Variable parse : L -> line V.
Variables (is_neg is_nonpos : V -> bool) (one minus_one : V).
Variable level_weight : V -> option V.
Variables (W H : Z).
Variable kind : weight_column_kind.
Variable Nmin : Z.
Variable excluded : name -> bool.
Variable canonical : name -> name.
Variable glob_of : name -> option nat.
Variable Ncameras : nat.
Hypothesis glob_ok : forall f k, glob_of f = Some k -> (k < Ncameras)%nat.

(** *** Specification *)
(** What a data row means (calibration.py:60-80,150-160, the documentation):
    [Some w]: a corner with this weight; [None]: not detected *)
Inductive reading : list (field V) -> option (V * V * V) -> Prop :=
| R_nox : forall a r, reading (Dash :: a :: r) None
| R_noy : forall a r, reading (a :: Dash :: r) None
| R_outside : forall x y r, is_neg x = true \/ is_neg y = true -> reading (Num x :: Num y :: r) None
| R_plain : forall x y, is_neg x = false -> is_neg y = false -> reading [Num x; Num y] (Some (x, y, one))
| R_ignored : forall x y c r, is_neg x = false -> is_neg y = false -> kind = NoColumn ->
    reading (Num x :: Num y :: c :: r) (Some (x, y, one))
| R_now : forall x y r, is_neg x = false -> is_neg y = false -> kind <> NoColumn ->
    reading (Num x :: Num y :: Dash :: r) None
| R_weight : forall x y w r, is_neg x = false -> is_neg y = false -> kind = Weight -> is_nonpos w = false ->
    reading (Num x :: Num y :: Num w :: r) (Some (x, y, w))
| R_badweight : forall x y w r, is_neg x = false -> is_neg y = false -> kind = Weight -> is_nonpos w = true ->
    reading (Num x :: Num y :: Num w :: r) None
| R_level : forall x y l w r, is_neg x = false -> is_neg y = false -> kind = Level -> is_neg l = false -> level_weight l = Some w ->
    reading (Num x :: Num y :: Num l :: r) (Some (x, y, w))
| R_badlevel : forall x y l r, is_neg x = false -> is_neg y = false -> kind = Level -> is_neg l = true ->
    reading (Num x :: Num y :: Num l :: r) None.
(** what is stored for a row: the corner, or something with weight -1 *)
Definition stored (fields : list (field V)) (p : pt) : Prop :=
  exists r, reading fields r /\
    match r with Some (x, y, w) => p = {| px := x; py := y; pw := w |} | None => pw p = minus_one end.
(** the number of detected corners among some rows *)
Inductive detected : list (list (field V)) -> Z -> Prop :=
| D_nil : detected [] 0
| D_yes : forall row rows n c, reading row (Some c) -> detected rows n -> detected (row :: rows) (n + 1)
| D_no : forall row rows n, reading row None -> detected rows n -> detected (row :: rows) n.

(** the data rows; the images they describe: maximal runs of rows with one file name *)
Definition is_row (l : line V) : list (name * list (field V)) := match l with Row f fields => [(f, fields)] | _ => [] end.
Definition rows (ls : list L) := flat_map (fun l => is_row (parse l)) ls.
Definition image : Type := name * list (list (field V)).
Definition rows_of (im : image) := map (pair (fst im)) (snd im).
Fixpoint adjacent_differ (ims : list image) : Prop :=
  match ims with
  | a :: ((b :: _) as r) => fst a <> fst b /\ adjacent_differ r
  | _ => True
  end.
Definition images (ls : list L) (ims : list image) : Prop :=
  rows ls = concat (map rows_of ims) /\ Forall (fun im => snd im <> []) ims /\ adjacent_differ ims.

(** an image is used if it's asked for, has a grid (not just a single '- -' row),
    has enough corners, and belongs to some camera *)
Definition used (im : image) : Prop :=
  excluded (fst im) = false /\ (2 <= length (snd im))%nat /\ (exists n, detected (snd im) n /\ Nmin < n) /\
  glob_of (canonical (fst im)) <> None.

(** *** Proofs *)
Notation parse_point := (parse_point is_neg is_nonpos one minus_one level_weight kind).
Notation finish := (finish W H Nmin excluded canonical glob_of).
Notation one_line := (one_line parse is_neg is_nonpos one minus_one level_weight W H kind Nmin excluded canonical glob_of).
Notation all_lines := (all_lines parse is_neg is_nonpos one minus_one level_weight W H kind Nmin excluded canonical glob_of).
Notation get_corner_observations := (get_corner_observations parse is_neg is_nonpos one minus_one level_weight W H kind Nmin excluded canonical glob_of Ncameras).
Notation compute_chessboard_corners := (compute_chessboard_corners parse is_neg is_nonpos one minus_one level_weight W H kind Nmin excluded canonical glob_of Ncameras).

Lemma parse_point_spec : forall fields p v, parse_point fields = Some (p, v) ->
  exists r, reading fields r /\ v = match r with Some _ => true | None => false end /\
    match r with Some (x, y, w) => p = {| px := x; py := y; pw := w |} | None => pw p = minus_one end.
Proof.
  intros fields p v E. unfold M_Corners.parse_point in E.
  destruct fields as [|f0 [|f1 rest]]; try discriminate.
  destruct f0 as [|x|].
  { inversion E; subst. exists None. split; [apply R_nox|easy]. }
  2:{ destruct f1; try discriminate. inversion E; subst. exists None. split; [apply R_noy|easy]. }
  destruct f1 as [|y|]; try discriminate.
  { inversion E; subst. exists None. split; [apply R_noy|easy]. }
  destruct (is_neg x || is_neg y) eqn:N.
  { inversion E; subst. exists None. split; [apply R_outside; now apply orb_true_iff|easy]. }
  apply orb_false_iff in N. destruct N as (Nx & Ny).
  destruct rest as [|f2 rest].
  { inversion E; subst. eexists. split; [apply R_plain; auto|easy]. }
  destruct kind eqn:K.
  3:{ inversion E; subst. eexists. split; [apply R_ignored; auto|easy]. }
  all: destruct f2 as [|w|]; try discriminate.
  1,3: inversion E; subst; exists None; split; [apply R_now; auto; congruence|easy].
  - destruct (is_neg w) eqn:Nw; [inversion E; subst; exists None; split; [apply R_badlevel; auto|easy]|].
    destruct (level_weight w) eqn:Lw; [|discriminate]. inversion E; subst. eexists. split; [eapply R_level; eauto|easy].
  - destruct (is_nonpos w) eqn:Nw; inversion E; subst.
    + exists None. split; [apply R_badweight; auto|easy].
    + eexists. split; [apply R_weight; auto|easy].
Qed.
Lemma reading_fun : forall fs r r', reading fs r -> reading fs r' -> r = r'.
Proof. intros fs r r' A B. inversion A; subst; inversion B; subst; try congruence; try (destruct H0; congruence);
  try (match goal with X : _ \/ _ |- _ => destruct X; congruence end). Qed.
Lemma detected_fun : forall rs n m, detected rs n -> detected rs m -> n = m.
Proof.
  induction rs as [|r rs IH]; intros n m A B; inversion A; subst; inversion B; subst; auto.
  - f_equal. auto.
  - match goal with X : reading r (Some _), Y : reading r None |- _ => pose proof (reading_fun _ _ _ X Y) end. discriminate.
  - match goal with X : reading r (Some _), Y : reading r None |- _ => pose proof (reading_fun _ _ _ X Y) end. discriminate.
Qed.
Lemma detected_app : forall a b n m, detected a n -> detected b m -> detected (a ++ b) (n + m).
Proof.
  intros a b n m A. revert m. induction A; intros m B; cbn.
  - exact B.
  - replace (n + 1 + m) with (n + m + 1) by lia. eapply D_yes; eauto.
  - now apply D_no; auto.
Qed.

(** one data row *)
Definition one_row (s : st) (r : name * list (field V)) : option st :=
  match
    (if name_eqb (c_f (s_ctx s)) (fst r) then Some s
     else match finish s with
          | Some s => Some {| s_map := s_map s; s_files := s_files s;
                              s_ctx := {| c_f := fst r; c_grid := c_grid (s_ctx s); c_valid := c_valid (s_ctx s) |} |}
          | None => None
          end)
  with
  | None => None
  | Some s =>
      match length (snd r) with
      | 2%nat | 3%nat =>
          let c := s_ctx s in
          if Z.of_nat (length (c_grid c)) >=? H * W then None else
          match parse_point (snd r) with
          | None => None
          | Some (p, v) =>
              Some {| s_map := s_map s; s_files := s_files s;
                      s_ctx := {| c_f := c_f c; c_grid := c_grid c ++ [p];
                                  c_valid := if v then c_valid c + 1 else c_valid c |} |}
          end
      | _ => None
      end
  end.
Fixpoint all_rows (s : st) (rs : list (name * list (field V))) : option st :=
  match rs with
  | [] => Some s
  | r :: rs => match one_row s r with Some s => all_rows s rs | None => None end
  end.
Lemma lines_rows : forall ls s, match all_lines s ls with
  | Some s' => all_rows s (rows ls) = Some s' /\ Forall (fun l => parse l <> Malformed) ls
  | None => all_rows s (rows ls) = None \/ Exists (fun l => parse l = Malformed) ls end.
Proof.
  induction ls as [|l ls IH]; intros s; cbn [M_Corners.all_lines]; [now split|].
  unfold rows. cbn [flat_map]. fold (rows ls). unfold M_Corners.one_line, is_row. destruct (parse l) eqn:P.
  - cbn. specialize (IH s). destruct (all_lines s ls); [|destruct IH; auto]. destruct IH. split; [easy|]. constructor; [congruence|easy].
  - right. now constructor.
  - cbn [app all_rows].
    change (match _ with Some s => _ | None => None end) with (one_row s (f, fields)) at 1 || idtac.
    set (o := one_row s (f, fields)).
    match goal with |- context[match ?m with Some s0 => all_lines s0 ls | None => None end] => change m with o end.
    destruct o as [s1|]; [|now left].
    specialize (IH s1). destruct (all_lines s1 ls); [|destruct IH; auto]. destruct IH. split; [easy|]. constructor; [congruence|easy].
Qed.
Lemma all_rows_app : forall a b s, all_rows s (a ++ b) = match all_rows s a with Some s => all_rows s b | None => None end.
Proof. induction a as [|r a IH]; intros b s; [easy|]. cbn. destruct (one_row s r); [apply IH|easy]. Qed.

(** rows of an image that's already under way *)
Lemma same_image : forall rs f s s', c_f (s_ctx s) = f -> all_rows s (map (pair f) rs) = Some s' ->
  s_map s' = s_map s /\ s_files s' = s_files s /\ c_f (s_ctx s') = f /\
  exists g n, c_grid (s_ctx s') = c_grid (s_ctx s) ++ g /\ Forall2 stored rs g /\ detected rs n /\
    c_valid (s_ctx s') = c_valid (s_ctx s) + n.
Proof.
  induction rs as [|r rs IH]; intros f s s' Ef E; cbn [map all_rows] in E.
  - inversion E; subst. repeat split. exists [], 0. rewrite app_nil_r, Z.add_0_r. repeat split; constructor.
  - unfold one_row in E. cbn [fst snd] in E. rewrite Ef in E.
    replace (name_eqb f f) with true in E by (symmetry; now apply name_eqb_iff).
    destruct (length r) as [|[|[|[|k]]]]; try discriminate;
    (destruct (_ >=? _); [discriminate|]; destruct (parse_point r) as [[p v]|] eqn:P; [|discriminate];
     apply parse_point_spec in P; destruct P as (o & P1 & P2 & P3);
     apply IH in E; [|easy]; cbn [s_map s_files s_ctx c_f c_grid c_valid] in E; destruct E as (E1 & E2 & E3 & g & n & E4 & E5 & E6 & E7);
     repeat split; auto; exists (p :: g); destruct o as [[[x y] w]|]; subst v;
     [exists (n + 1) | exists n]; rewrite E4, <- app_assoc; (split; [easy|]; split; [constructor; [eexists; split; eauto|easy]|];
     split; [first [eapply D_yes; eassumption|eapply D_no; eassumption]|lia])).
Qed.
Lemma finish_ctx0 : forall s s' : st (V := V), finish s = Some s' -> s_ctx s' = ctx0.
Proof.
  intros s s' E. unfold M_Corners.finish in E.
  repeat match type of E with context[if ?b then _ else _] => destruct b end; try discriminate; try (inversion E; subst; easy).
  destruct (glob_of _); inversion E; subst; easy.
Qed.
(** the first row of an image, and those following it *)
Lemma next_image : forall (im : image) (s s' : st (V := V)), (c_f (s_ctx s) <> fst im \/ s_ctx s = ctx0) -> snd im <> [] ->
  all_rows s (rows_of im) = Some s' ->
  exists s1, finish s = Some s1 /\ s_map s' = s_map s1 /\ s_files s' = s_files s1 /\ c_f (s_ctx s') = fst im /\
    Forall2 stored (snd im) (c_grid (s_ctx s')) /\ detected (snd im) (c_valid (s_ctx s')).
Proof.
  intros (f, rs) s s' C N E. cbn [fst snd] in *. unfold rows_of in E. cbn [fst snd] in E.
  destruct rs as [|r rs]; [easy|]. 
  assert (X : exists s1, finish s = Some s1 /\ all_rows {| s_map := s_map s1; s_files := s_files s1;
     s_ctx := {| c_f := f; c_grid := []; c_valid := 0 |} |} (map (pair f) (r :: rs)) = Some s').
  { cbn [map all_rows] in *. unfold one_row in E. cbn [fst snd] in E. destruct (name_eqb (c_f (s_ctx s)) f) eqn:Q.
    - apply name_eqb_iff in Q. destruct C as [C|C]; [easy|]. exists s. destruct s as [m fl c]. cbn in C, Q. subst c f. split; [easy|].
      unfold one_row. cbn [fst snd]. cbn [s_ctx c_f]. replace (name_eqb _ _) with true by (symmetry; now apply name_eqb_iff). exact E.
    - destruct (finish s) as [s1|] eqn:F; [|discriminate]. exists s1. split; [easy|].
      unfold one_row. cbn [fst snd s_ctx c_f]. replace (name_eqb f f) with true by (symmetry; now apply name_eqb_iff).
      rewrite (finish_ctx0 _ _ F) in E. exact E. }
  destruct X as (s1 & F & X). exists s1. split; [easy|].
  apply same_image in X; [|easy]. cbn in X. destruct X as (A & B & C' & g & n & D & D1 & D2 & D3).
  rewrite D, D3. repeat split; auto.
Qed.

(** the images, one at a time *)
Definition result : Type := corners (V := V) * list (list name).
Definition take (im : image) (g : list pt) (r r' : result) : Prop :=
  (exists k, used im /\ glob_of (canonical (fst im)) = Some k /\
     r' = (corners_set (fst r) (canonical (fst im)) g, push k (canonical (fst im)) (snd r))) \/
  (~ used im /\ r' = r).
Inductive run : result -> list image -> result -> Prop :=
| Run_nil : forall r, run r [] r
| Run_cons : forall r im g r1 ims r', Forall2 stored (snd im) g ->
    (length (snd im) = 1%nat \/ Z.of_nat (length (snd im)) = W * H) -> take im g r r1 ->
    run r1 ims r' -> run r (im :: ims) r'.

Lemma F2_length : forall A B (P : A -> B -> Prop) l l', Forall2 P l l' -> length l = length l'.
Proof. induction 1; cbn; auto. Qed.
Lemma finish_take : forall (im : image) (s s1 : st (V := V)), snd im <> [] -> c_f (s_ctx s) = fst im ->
  Forall2 stored (snd im) (c_grid (s_ctx s)) -> detected (snd im) (c_valid (s_ctx s)) ->
  finish s = Some s1 ->
  (length (snd im) = 1%nat \/ Z.of_nat (length (snd im)) = W * H) /\
  take im (c_grid (s_ctx s)) (s_map s, s_files s) (s_map s1, s_files s1).
Proof.
  intros im s s1 N Ef St De F. unfold M_Corners.finish in F.
  assert (Le : length (c_grid (s_ctx s)) = length (snd im)) by (symmetry; eapply F2_length; eauto).
  rewrite Le, Ef in F. assert (length (snd im) <> 0%nat) by (destruct (snd im); [easy|discriminate]).
  destruct (Z.of_nat (length (snd im)) >? 1) eqn:G.
  2:{ inversion F; subst. split; [left; lia|]. right. split; [|easy]. intros (_ & X & _). lia. }
  destruct (W * H =? _) eqn:E; [|discriminate]. split; [right; lia|]. cbn [negb] in F.
  destruct (excluded (fst im)) eqn:X; cbn [negb andb] in F.
  { inversion F; subst. right. split; [|easy]. intros (Y & _). congruence. }
  destruct (c_valid (s_ctx s) >? Nmin) eqn:Y.
  2:{ inversion F; subst. right. split; [|easy]. intros (_ & _ & (n & D & K) & _). pose proof (detected_fun _ _ _ D De). lia. }
  destruct (glob_of (canonical (fst im))) as [k|] eqn:K; inversion F; subst; cbn [s_map s_files].
  - left. exists k. split; [|easy]. split; [easy|]. split; [lia|]. split; [|congruence]. exists (c_valid (s_ctx s)). split; [easy|lia].
  - right. split; [|easy]. intros (_ & _ & _ & Z). congruence.
Qed.
Lemma run_images : forall (ims : list image) (s s' sf : st (V := V)),
  (match ims with im :: _ => c_f (s_ctx s) <> fst im \/ s_ctx s = ctx0 | [] => True end) ->
  Forall (fun im => snd im <> []) ims -> adjacent_differ ims ->
  all_rows s (concat (map rows_of ims)) = Some s' -> finish s' = Some sf ->
  exists s1, finish s = Some s1 /\ run (s_map s1, s_files s1) ims (s_map sf, s_files sf).
Proof.
  induction ims as [|im ims IH]; intros s s' sf C N D E F.
  - cbn in E. inversion E; subst. exists sf. split; [easy|constructor].
  - cbn [map concat] in E. rewrite all_rows_app in E. destruct (all_rows s (rows_of im)) as [s1|] eqn:E1; [|discriminate].
    inversion N as [|? ? N1 N2]; subst.
    destruct (next_image im s s1 C N1 E1) as (s0 & F0 & A1 & A2 & A3 & A4 & A5).
    destruct (IH s1 s' sf) as (s2 & F2 & R); auto.
    { destruct ims as [|im2 ims]; [easy|]. left. rewrite A3. now destruct D. }
    { destruct ims; [easy|]. now destruct D. }
    exists s0. split; [easy|]. destruct (finish_take im s1 s2 N1 A3 A4 A5 F2) as (Sz & T).
    rewrite A1, A2 in T. eapply Run_cons; eauto.
Qed.

(** lookup in the result *)
Lemma set_get : forall (m : corners (V := V)) f g f', corners_get (corners_set m f g) f' = if name_eqb f f' then Some g else corners_get m f'.
Proof.
  induction m as [|[k v] m IH]; intros f g f'; cbn [corners_set corners_get]; [easy|].
  destruct (name_eqb k f) eqn:K.
  - apply name_eqb_iff in K. subst k. cbn [corners_get]. now destruct (name_eqb f f').
  - cbn [corners_get]. rewrite IH. destruct (name_eqb k f') eqn:K'; [|easy].
    apply name_eqb_iff in K'. subst f'. destruct (name_eqb f k) eqn:K'; [|easy].
    apply name_eqb_iff in K'. subst. rewrite (proj2 (name_eqb_iff k k) eq_refl) in K. discriminate.
Qed.
Lemma set_keys : forall (m : corners (V := V)) f g f', In f' (map fst (corners_set m f g)) <-> f' = f \/ In f' (map fst m).
Proof.
  induction m as [|[k v] m IH]; intros f g f'; cbn [corners_set map fst In].
  - intuition.
  - destruct (name_eqb k f) eqn:K; cbn [map fst In].
    + apply name_eqb_iff in K. subst. intuition.
    + rewrite IH. intuition.
Qed.
Lemma set_nodup : forall (m : corners (V := V)) f g, NoDup (map fst m) -> NoDup (map fst (corners_set m f g)).
Proof.
  induction m as [|[k v] m IH]; intros f g N; cbn [corners_set map fst].
  - constructor; [easy|constructor].
  - inversion N; subst. destruct (name_eqb k f) eqn:K; cbn [map fst]; [easy|]. constructor; [|now apply IH].
    rewrite set_keys. intros [->|X]; [|easy]. rewrite (proj2 (name_eqb_iff f f) eq_refl) in K. discriminate.
Qed.
Lemma get_in : forall (m : corners (V := V)) f, In f (map fst m) <-> exists g, corners_get m f = Some g.
Proof.
  induction m as [|[k v] m IH]; intros f; cbn [map fst In corners_get].
  - split; [easy|]. intros (g & X). discriminate.
  - destruct (name_eqb k f) eqn:K.
    + apply name_eqb_iff in K. split; eauto.
    + rewrite IH. split; [|auto]. intros [->|X]; [|easy]. rewrite (proj2 (name_eqb_iff f f) eq_refl) in K. discriminate.
Qed.
Lemma push_length : forall k f fpc, length (push k f fpc) = length fpc.
Proof. induction k; intros f [|l r]; cbn; auto. Qed.
Lemma push_in : forall k f fpc j files, (k < length fpc)%nat -> nth_error (push k f fpc) j = Some files ->
  exists old, nth_error fpc j = Some old /\ files = if (j =? k)%nat then old ++ [f] else old.
Proof.
  induction k; intros f [|l r] j files Lt E; cbn in Lt; try lia.
  - destruct j; cbn in E |- *; [inversion E; subst; eauto|eauto].
  - destruct j; cbn in E |- *; [inversion E; subst; eauto|]. apply (IHk f r j files); [lia|easy].
Qed.

(** *** What a run does *)
Definition last_used (ims : list image) (im : image) : Prop :=
  exists a b, ims = a ++ im :: b /\ used im /\ forall im', In im' b -> used im' -> canonical (fst im') <> canonical (fst im).
Lemma used_dec : forall im g r r', take im g r r' -> used im \/ ~ used im.
Proof. intros im g r r' [(k & U & _)|(U & _)]; auto. Qed.
Lemma run_some : forall r ims r' f g, run r ims r' -> corners_get (fst r') f = Some g ->
  (exists im, last_used ims im /\ canonical (fst im) = f /\ Forall2 stored (snd im) g /\ Z.of_nat (length (snd im)) = W * H) \/
  (corners_get (fst r) f = Some g /\ forall im, In im ims -> used im -> canonical (fst im) <> f).
Proof.
  intros r ims r' f g R. induction R as [r|r im g0 r1 ims r' St Sz T R IH]; intros E.
  - right. split; [easy|]. intros im [].
  - destruct (IH E) as [(im' & (a & b & A1 & A2 & A3) & B1 & B2 & B3)|(G & Nl)].
    + left. exists im'. split; [|easy]. exists (im :: a), b. rewrite A1. easy.
    + destruct T as [(k & U & K & ->)|(U & ->)].
      * cbn [fst] in G. rewrite set_get in G. destruct (name_eqb _ f) eqn:Q.
        -- apply name_eqb_iff in Q. inversion G; subst g0. left. exists im. split.
           { exists [], ims. split; [easy|]. split; [easy|]. intros im' I U'. rewrite Q. now apply Nl. }
           repeat split; auto. destruct Sz as [Sz|Sz]; [|easy]. destruct U as (_ & X & _). lia.
        -- right. split; [easy|]. intros im' [<-|I] U'; [|now apply Nl]. intros X.
           rewrite (proj2 (name_eqb_iff _ _) X) in Q. discriminate.
      * right. split; [easy|]. intros im' [<-|I] U'; [easy|now apply Nl].
Qed.
Lemma run_keys : forall r ims r' f, run r ims r' ->
  (In f (map fst (fst r')) <-> In f (map fst (fst r)) \/ exists im, In im ims /\ used im /\ canonical (fst im) = f).
Proof.
  intros r ims r' f R. induction R as [r|r im g0 r1 ims r' St Sz T R IH].
  - split; [auto|]. intros [X|(im & [] & _)]. easy.
  - rewrite IH. destruct T as [(k & U & K & ->)|(U & ->)].
    + cbn [fst]. rewrite set_keys. split.
      * intros [[->|X]|(im' & I & U' & Q)]; [right; exists im; cbn; auto|now left|right; exists im'; cbn; auto].
      * intros [X|(im' & [<-|I] & U' & Q)]; [auto|left; left; easy|right; eauto].
    + split; [intros [X|(im' & I & U' & Q)]; [now left|right; exists im'; cbn; auto]|].
      intros [X|(im' & [<-|I] & U' & Q)]; [auto|easy|right; eauto].
Qed.
Lemma run_nodup : forall r ims r', run r ims r' -> NoDup (map fst (fst r)) -> NoDup (map fst (fst r')).
Proof.
  intros r ims r' R. induction R as [r|r im g0 r1 ims r' St Sz T R IH]; intros N; [easy|]. apply IH.
  destruct T as [(k & U & K & ->)|(U & ->)]; [now apply set_nodup|easy].
Qed.
Lemma run_files : forall r ims r', run r ims r' -> length (snd r) = Ncameras ->
  length (snd r') = Ncameras /\
  forall k files', nth_error (snd r') k = Some files' -> exists files, nth_error (snd r) k = Some files /\
    forall f, In f files' <-> In f files \/ exists im, In im ims /\ used im /\ canonical (fst im) = f /\ glob_of f = Some k.
Proof.
  intros r ims r' R. induction R as [r|r im g0 r1 ims r' St Sz T R IH]; intros Len.
  - split; [easy|]. intros k fs E. exists fs. split; [easy|]. intros f. split; [auto|]. intros [X|(im & [] & _)]. easy.
  - assert (L1 : length (snd r1) = Ncameras).
    { destruct T as [(k & U & K & ->)|(U & ->)]; [|easy]. cbn [snd]. now rewrite push_length. }
    destruct (IH L1) as (L' & Hf). split; [easy|]. intros k files' E. destruct (Hf k files' E) as (f1 & E1 & I1).
    destruct T as [(k0 & U & K & ->)|(U & ->)].
    + cbn [snd] in E1. apply push_in in E1; [|rewrite Len; eauto]. destruct E1 as (old & E0 & ->). exists old. split; [easy|].
      intros f. rewrite I1. destruct (Nat.eqb_spec k k0) as [->|Nk].
      * rewrite in_app_iff. cbn [In]. split.
        -- intros [[X|[<-|[]]]|(im' & J & J2)]; [auto|right; exists im; cbn; auto|right; exists im'; cbn; tauto].
        -- intros [X|(im' & [<-|J] & J1 & J2 & J3)]; [auto|auto|right; exists im'; auto].
      * split.
        -- intros [X|(im' & J & J2)]; [auto|right; exists im'; cbn; tauto].
        -- intros [X|(im' & [<-|J] & J1 & J2 & J3)]; [auto| |right; exists im'; auto]. subst f. congruence.
    + exists f1. split; [easy|]. intros f. rewrite I1. split.
      * intros [X|(im' & J & J2)]; [auto|right; exists im'; cbn; tauto].
      * intros [X|(im' & [<-|J] & J1 & J2 & J3)]; [auto|easy|right; exists im'; auto].
Qed.

Lemma get_run : forall ls ims m fpc, images ls ims -> get_corner_observations ls = Some (m, fpc) ->
  run ([], repeat [] Ncameras) ims (m, fpc) /\
  (forall files, In files fpc -> (length files >= if (1 <? length fpc)%nat then 2 else 1)%nat).
Proof.
  intros ls ims m fpc (I1 & I2 & I3) E. unfold M_Corners.get_corner_observations in E.
  pose proof (lines_rows ls (st0 Ncameras)) as LR. destruct (all_lines _ ls) as [s|]; [|discriminate]. destruct LR as (LR & _).
  rewrite I1 in LR. destruct (finish s) as [sf|] eqn:F; [|discriminate].
  destruct (existsb _ _) eqn:X in E; [discriminate|]. inversion E; subst.
  destruct (run_images ims (st0 Ncameras) s sf) as (s1 & F1 & R); auto.
  { destruct ims; [easy|]. now right. }
  cbn in F1. inversion F1; subst. split; [exact R|].
  intros files If. destruct (length files <? (if (1 <? length (s_files sf))%nat then 2 else 1))%nat eqn:Y.
  2: apply Nat.ltb_ge in Y; exact Y.
  exfalso. apply not_true_iff_false in X. apply X. apply existsb_exists. exists files. split; [easy|exact Y].
Qed.

(** *** sorting *)
Fixpoint sorted_le (key : name -> Z) (l : list name) : Prop :=
  match l with [] => True | f :: r => (forall g, In g r -> key f <= key g) /\ sorted_le key r end.
Lemma insert_perm : forall key f l, Permutation (insert_by key f l) (f :: l).
Proof.
  induction l as [|g r IH]; cbn; [easy|]. destruct (_ <=? _); [easy|]. rewrite IH. apply perm_swap.
Qed.
Lemma sorted_perm : forall key l, Permutation (sorted_by key l) l.
Proof. unfold sorted_by. induction l as [|f l IH]; cbn; [easy|]. now rewrite insert_perm, IH. Qed.
Lemma insert_sorted : forall key f l, sorted_le key l -> sorted_le key (insert_by key f l).
Proof.
  induction l as [|g r IH]; intros S; cbn [insert_by]; [split; [intros g []|easy]|].
  destruct (key f <=? key g) eqn:C.
  - split; [|easy]. intros h [<-|Hh]; [lia|]. destruct S as (S & _). specialize (S h Hh). lia.
  - destruct S as (S1 & S2). split; [|now apply IH]. intros h Hh. apply (Permutation_in _ (insert_perm key f r)) in Hh.
    destruct Hh as [<-|Hh]; [lia|now apply S1].
Qed.
Lemma sorted_sorted : forall key l, sorted_le key (sorted_by key l).
Proof. unfold sorted_by. induction l as [|f l IH]; cbn; [easy|]. now apply insert_sorted. Qed.
(** by the second key, among those with equal first keys *)
Fixpoint lex (k1 k2 : name -> Z) (l : list name) : Prop :=
  match l with [] => True | f :: r => (forall g, In g r -> k1 f < k1 g \/ (k1 f = k1 g /\ k2 f <= k2 g)) /\ lex k1 k2 r end.
Lemma insert_lex : forall k1 k2 f l, lex k1 k2 l -> (forall g, In g l -> k2 f <= k2 g) -> lex k1 k2 (insert_by k1 f l).
Proof.
  induction l as [|g r IH]; intros S Q; cbn [insert_by]; [split; [intros g []|easy]|].
  destruct (k1 f <=? k1 g) eqn:C.
  - split; [|easy]. intros h Hh. specialize (Q h Hh). destruct Hh as [<-|Hh]; [lia|]. destruct S as (S & _). specialize (S h Hh). lia.
  - destruct S as (S1 & S2). split; [|apply IH; [easy|intros h Hh; apply Q; now right]]. intros h Hh. apply (Permutation_in _ (insert_perm k1 f r)) in Hh.
    destruct Hh as [<-|Hh]; [lia|now apply S1].
Qed.
Lemma sorted_lex : forall k1 k2 l, sorted_le k2 l -> lex k1 k2 (sorted_by k1 l).
Proof.
  intros k1 k2. induction l as [|f l IH]; intros S; [easy|]. destruct S as (S1 & S2). unfold sorted_by. cbn [fold_right].
  apply insert_lex; [now apply IH|]. intros g Hg. apply S1. exact (Permutation_in _ (sorted_perm k1 l) Hg).
Qed.

(** *** numbering *)
Lemma number_spec : forall d (m : corners (V := V)) files last k obs idx, number d m files last k = Some (obs, idx) ->
  length obs = length files /\ length idx = length files /\
  forall i f, nth_error files i = Some f -> exists n c g, dict_get d f = Some (n, c) /\ corners_get m f = Some g /\ nth_error obs i = Some g /\
    exists j, nth_error idx i = Some (j, c) /\
    match i with
    | O => j = if match last with Some l => l =? n | None => false end then k else k + 1
    | S i' => exists f' n' c' j', nth_error files i' = Some f' /\ dict_get d f' = Some (n', c') /\ nth_error idx i' = Some (j', c') /\
        j = if n' =? n then j' else j' + 1
    end.
Proof.
  induction files as [|f files IH]; intros last k obs idx E; cbn [number] in E.
  - inversion E; subst. split; [easy|]. split; [easy|]. intros [|i] f X; discriminate.
  - destruct (dict_get d f) as [[n c]|] eqn:D; [|discriminate]. destruct (corners_get m f) as [g|] eqn:G; [|discriminate].
    set (kl := match last with None => (k + 1, n) | Some l => if negb (l =? n) then (k + 1, n) else (k, l) end) in E.
    assert (Hk : kl = (if match last with Some l => l =? n | None => false end then k else k + 1, n)).
    { unfold kl. destruct last as [l|]; [|easy]. destruct (Z.eqb_spec l n) as [->|]; easy. }
    rewrite Hk in E. clear kl Hk.
    remember (if match last with Some l => l =? n | None => false end then k else k + 1) as j eqn:Hj.
    destruct (number d m files (Some n) j) as [[obs' idx']|] eqn:E'; [|discriminate]. inversion E; subst obs idx.
    destruct (IH _ _ _ _ E') as (L1 & L2 & Hi). cbn [length]. split; [lia|]. split; [lia|].
    intros [|i] f' Hf.
    + cbn in Hf. inversion Hf; subst f'. exists n, c, g. split; [easy|]. split; [easy|]. split; [easy|]. exists j. split; [easy|exact Hj].
    + cbn in Hf. destruct (Hi i f' Hf) as (n' & c' & g' & A1 & A2 & A3 & j' & A4 & A5). exists n', c', g'. repeat split; auto.
      exists j'. split; [easy|]. destruct i as [|i].
      * exists f, n, c, j. repeat split; auto.
      * exact A5.
Qed.
Lemma number_ok : forall d (m : corners (V := V)) files last k, (forall f, In f files -> dict_get d f <> None /\ corners_get m f <> None) ->
  number d m files last k <> None.
Proof.
  induction files as [|f files IH]; intros last k Hf; cbn [number]; [discriminate|].
  destruct (Hf f (or_introl eq_refl)) as (A & B).
  destruct (dict_get d f) as [[n c]|]; [|easy]. destruct (corners_get m f); [|easy].
  match goal with |- context[let '(_, _) := ?x in _] => destruct x as [j0 l0] end.
  destruct (number d m files (Some l0) j0) as [[o i]|] eqn:E; [discriminate|]. exfalso. apply (IH (Some l0) j0); [|easy].
  intros f' I. apply Hf. now right.
Qed.

(** *** C48 *)
(** The files that the frame numbers are computed from: for each camera, the
    files of the images used that this camera's glob matches *)
Definition files_of_cameras (ims : list image) (cams : list (list name)) : Prop :=
  length cams = Ncameras /\
  forall k files, nth_error cams k = Some files ->
    forall f, In f files <-> exists im, In im ims /\ used im /\ canonical (fst im) = f /\ glob_of f = Some k.

Lemma nth_error_lt {A} : forall (l : list A) i x, nth_error l i = Some x -> (i < length l)%nat.
Proof. intros. apply nth_error_Some. congruence. Qed.
Lemma lex_nth : forall k1 k2 l i j f g, lex k1 k2 l -> (i < j)%nat -> nth_error l i = Some f -> nth_error l j = Some g ->
  k1 f < k1 g \/ (k1 f = k1 g /\ k2 f <= k2 g).
Proof.
  induction l as [|x l IH]; intros i j f g S Lt Hi Hj; [destruct i; discriminate|]. destruct S as (S1 & S2).
  destruct j; [lia|]. cbn in Hj. destruct i; cbn in Hi.
  - inversion Hi; subst. apply S1. eapply nth_error_In; eauto.
  - apply (IH i j); auto. lia.
Qed.

Theorem C48_corners : forall ls ims obs idx files, images ls ims ->
  compute_chessboard_corners ls = Some (obs, idx, files) ->
  (* as many observations as indices and paths; no path is repeated; each image used is there *)
  length obs = length files /\ length idx = length files /\ NoDup files /\
  (forall f, In f files <-> exists im, In im ims /\ used im /\ canonical (fst im) = f) /\
  (* observation i is the full grid of path i *)
  (forall i f, nth_error files i = Some f -> exists im g, last_used ims im /\ canonical (fst im) = f /\
     nth_error obs i = Some g /\ Forall2 stored (snd im) g /\ Z.of_nat (length g) = W * H) /\
  (* the camera is the one whose glob the path matches; frames are numbered from 0 up, with
     none skipped; equal indices mean equal frame numbers; sorted by frame, then camera *)
  exists cams d, files_of_cameras ims cams /\ mapping cams = Some d /\
  (forall f, nth_error files 0 = Some f -> exists k, nth_error idx 0 = Some (0, k)) /\
  (forall i f, nth_error files i = Some f -> exists j n k, nth_error idx i = Some (j, Z.of_nat k) /\
     glob_of f = Some k /\ dict_get d f = Some (n, Z.of_nat k)) /\
  (forall i j c j' c', nth_error idx i = Some (j, c) -> nth_error idx (S i) = Some (j', c') ->
     j' = j + 1 \/ (j' = j /\ c <= c')) /\
  (forall i i' f f' j c j' c' n n', nth_error files i = Some f -> nth_error files i' = Some f' ->
     nth_error idx i = Some (j, c) -> nth_error idx i' = Some (j', c') ->
     dict_get d f = Some (n, c) -> dict_get d f' = Some (n', c') -> (j = j' <-> n = n') /\ (j < j' <-> n < n')).
Proof.
  intros ls ims obs idx files Im E. unfold M_Corners.compute_chessboard_corners in E.
  destruct (get_corner_observations ls) as [[m fpc]|] eqn:G; [|discriminate].
  destruct (mapping fpc) as [d|] eqn:Mp; [|discriminate].
  destruct (forallb _ (map fst m)) eqn:Hd; [|discriminate].
  set (files0 := sorted_by _ (sorted_by _ (map fst m))) in E.
  destruct (number d m files0 None (-1)) as [[obs0 idx0]|] eqn:N; [|discriminate]. inversion E; subst obs0 idx0 files.
  destruct (get_run _ _ _ _ Im G) as (R & Cnt).
  assert (Pm : Permutation files0 (map fst m)) by (unfold files0; now rewrite !sorted_perm).
  assert (Keys : forall f, In f files0 <-> exists im, In im ims /\ used im /\ canonical (fst im) = f).
  { intros f. rewrite (Permutation_in' eq_refl Pm), (run_keys _ _ _ f R). cbn. intuition. }
  destruct (number_spec _ _ _ _ _ _ _ N) as (L1 & L2 & Hn).
  destruct (run_files _ _ _ R) as (Lf & Ff); [cbn; apply repeat_length|]. cbn [snd] in Lf, Ff.
  assert (FC : files_of_cameras ims fpc).
  { split; [easy|]. intros k fs Hk f. destruct (Ff k fs Hk) as (old & Ho & If). rewrite If.
    apply nth_error_In, repeat_spec in Ho. subst old. cbn. intuition. }
  assert (Cam : forall f, In f files0 -> exists n k, glob_of f = Some k /\ dict_get d f = Some (n, Z.of_nat k)).
  { intros f If. apply Keys in If. destruct If as (im & I & U & Q). pose proof U as (_ & _ & _ & Gl). rewrite Q in Gl.
    destruct (glob_of f) as [k|] eqn:Gk; [|easy].
    destruct (nth_error fpc k) as [fs|] eqn:Hk.
    2:{ apply nth_error_None in Hk. apply glob_ok in Gk. lia. }
    assert (In f fs) by (apply (proj2 FC k fs Hk f); exists im; auto).
    destruct (C47_every_file fpc d f Mp) as (n & k' & fs' & D & Hk' & If' & _); [exists fs; split; [eapply nth_error_In; eauto|easy]|].
    apply (proj2 FC k' fs' Hk' f) in If'. destruct If' as (_ & _ & _ & _ & Gk'). exists n, k. split; [easy|]. congruence. }
  assert (Lex : lex (key_of d fst) (key_of d snd) files0) by (unfold files0; apply sorted_lex, sorted_sorted).
  (* frame numbers along the list *)
  assert (Step : forall i j c j' c', nth_error idx i = Some (j, c) -> nth_error idx (S i) = Some (j', c') ->
    exists f f' n n', nth_error files0 i = Some f /\ nth_error files0 (S i) = Some f' /\ dict_get d f = Some (n, c) /\ dict_get d f' = Some (n', c') /\
      (n < n' /\ j' = j + 1 \/ n = n' /\ j' = j /\ c <= c')).
  { intros i j c j' c' X X'. destruct (nth_error files0 (S i)) as [f'|] eqn:Hf'.
    2:{ apply nth_error_None in Hf'. apply nth_error_lt in X'. lia. }
    destruct (Hn (S i) f' Hf') as (n' & c2 & g' & D' & _ & _ & j2 & X2 & f & n & c1 & j1 & Hf & D & X1 & Q).
    rewrite X' in X2. inversion X2; subst j2 c2. rewrite X in X1. inversion X1; subst j1 c1.
    exists f, f', n, n'. repeat split; auto.
    assert (Ho := lex_nth _ _ _ i (S i) f f' Lex ltac:(lia) Hf Hf'). unfold key_of in Ho. rewrite D, D' in Ho. cbn in Ho.
    destruct (Z.eqb_spec n n'); subst; lia. }
  split; [easy|]. split; [easy|]. split.
  { apply (Permutation_NoDup (Permutation_sym Pm)), (run_nodup _ _ _ R). constructor. }
  split; [easy|]. split.
  { intros i f Hf. destruct (Hn i f Hf) as (n & c & g & _ & Gf & Og & _).
    destruct (run_some _ _ _ f g R Gf) as [(im & A1 & A2 & A3 & A4)|(X & _)]; [|discriminate].
    exists im, g. repeat split; auto. apply F2_length in A3. now rewrite <- A3. }
  exists fpc, d. split; [easy|]. split; [easy|]. split.
  { intros f Hf. destruct (Hn 0%nat f Hf) as (n & c & g & _ & _ & _ & j & X & Q). exists c. cbn in Q. now subst j. }
  split.
  { intros i f Hf. destruct (Cam f (nth_error_In _ _ Hf)) as (n & k & Gk & D).
    destruct (Hn i f Hf) as (n' & c & g & D' & _ & _ & j & X & _). rewrite D in D'. inversion D'; subst. exists j, n', k. easy. }
  split.
  { intros i j c j' c' X X'. destruct (Step i j c j' c' X X') as (f & f' & n & n' & _ & _ & _ & _ & Q). lia. }
  assert (Mono : forall t i j c j' c' f f' n n', nth_error files0 i = Some f -> nth_error files0 (i + t) = Some f' ->
     nth_error idx i = Some (j, c) -> nth_error idx (i + t) = Some (j', c') -> dict_get d f = Some (n, c) -> dict_get d f' = Some (n', c') ->
     j < j' /\ n < n' \/ j = j' /\ n = n').
  { induction t as [|t IH]; intros i j c j' c' f f' n n' Hf Hf' X X' D D'.
    - rewrite Nat.add_0_r in *. rewrite Hf in Hf'. inversion Hf'; subst. rewrite X in X'. inversion X'; subst. rewrite D in D'. inversion D'. lia.
    - replace (i + S t)%nat with (S (i + t)) in * by lia.
      destruct (nth_error idx (i + t)) as [[j1 c1]|] eqn:X1; [|apply nth_error_None in X1; apply nth_error_lt in X'; lia].
      destruct (Step (i + t)%nat j1 c1 j' c' X1 X') as (f1 & f1' & n1 & n1' & H1 & H1' & D1 & D1' & Q).
      rewrite Hf' in H1'. inversion H1'; subst f1'. rewrite D' in D1'. inversion D1'; subst n1'.
      specialize (IH i j c j1 c1 f f1 n n1 Hf H1 X X1 D D1). lia. }
  intros i i' f f' j c j' c' n n' Hf Hf' X X' D D'. destruct (Nat.le_ge_cases i i') as [Le|Le].
  - replace i' with (i + (i' - i))%nat in * by lia. pose proof (Mono _ _ _ _ _ _ _ _ _ _ Hf Hf' X X' D D'). lia.
  - replace i with (i' + (i - i'))%nat in * by lia. pose proof (Mono _ _ _ _ _ _ _ _ _ _ Hf' Hf X' X D' D). lia.
Qed.

(** every index from 0 to the largest is some observation's frame *)
Theorem C48_no_frame_skipped : forall ls ims obs idx files, images ls ims ->
  compute_chessboard_corners ls = Some (obs, idx, files) ->
  forall i j c j', nth_error idx i = Some (j, c) -> 0 <= j' <= j -> exists i' c', (i' <= i)%nat /\ nth_error idx i' = Some (j', c').
Proof.
  intros ls ims obs idx files Im E.
  destruct (C48_corners _ _ _ _ _ Im E) as (L1 & L2 & _ & _ & _ & cams & d & _ & _ & Z0 & _ & St & _).
  induction i as [|i IH]; intros j c j' X Rg.
  - destruct files as [|f files]; [destruct idx; discriminate|]. destruct (Z0 f eq_refl) as (k & Y).
    rewrite X in Y. inversion Y; subst. exists 0%nat, k. split; [lia|]. now replace j' with 0 by lia.
  - destruct (Z.eq_dec j' j) as [->|Nj]; [exists (S i), c; split; [lia|easy]|].
    destruct (nth_error idx i) as [[j1 c1]|] eqn:X1; [|apply nth_error_None in X1; apply nth_error_lt in X; lia].
    destruct (IH j1 c1 j') as (i' & c' & Li & Y); [easy| |exists i', c'; split; [lia|easy]].
    destruct (St i j1 c1 j c X1 X); lia.
Qed.

(** any text has such a division into images *)
Theorem C48_images_exist : forall ls, exists ims, images ls ims.
Proof.
  intros ls. unfold images. induction (rows ls) as [|[f row] rs (ims & E & N & A)].
  - exists []. repeat split. constructor.
  - destruct ims as [|[f' rs'] ims].
    + exists [(f, [row])]. split; [cbn; now rewrite E|]. split; [constructor; [discriminate|constructor]|easy].
    + destruct (name_eqb f f') eqn:Q.
      * apply name_eqb_iff in Q. subst f'. exists ((f, row :: rs') :: ims). split; [now rewrite E|].
        inversion N; subst. split; [constructor; [discriminate|easy]|]. destruct ims; [easy|exact A].
      * exists ((f, [row]) :: (f', rs') :: ims). split; [now rewrite E|]. split; [constructor; [discriminate|easy]|].
        split; [|exact A]. cbn. intros <-. rewrite (proj2 (name_eqb_iff f f) eq_refl) in Q. discriminate.
Qed.

(** Good data is accepted *)
Definition good_row (row : list (field V)) : Prop := (length row = 2%nat \/ length row = 3%nat) /\ exists r, reading row r.
Lemma parse_point_ok : forall row r, reading row r -> parse_point row <> None.
Proof.
  intros row r D. unfold M_Corners.parse_point. inversion D; subst; try discriminate;
  try (destruct a; discriminate);
  try (match goal with X : _ \/ _ |- context[is_neg ?x || is_neg ?y] => replace (is_neg x || is_neg y) with true by (symmetry; apply orb_true_iff; auto); discriminate end);
  try (match goal with X : is_neg ?x = false, Y : is_neg ?y = false |- context[is_neg ?x || is_neg ?y] => rewrite X, Y end; cbn [orb];
       destruct kind; try discriminate; try congruence;
       repeat match goal with X : is_neg _ = true |- _ => rewrite X | X : is_nonpos _ = true |- _ => rewrite X
          | X : is_neg _ = false |- _ => rewrite X | X : is_nonpos _ = false |- _ => rewrite X | X : level_weight _ = _ |- _ => rewrite X end;
       try discriminate).
Qed.
Lemma rows_ok : forall rs f s, c_f (s_ctx s) = f -> Forall good_row rs ->
  Z.of_nat (length (c_grid (s_ctx s))) + Z.of_nat (length rs) <= W * H -> all_rows s (map (pair f) rs) <> None.
Proof.
  induction rs as [|r rs IH]; intros f s Ef G Le; cbn [map all_rows]; [discriminate|].
  inversion G as [|? ? (G1 & o & G2) G3]; subst. unfold one_row. cbn [fst snd].
  rewrite (proj2 (name_eqb_iff _ _) eq_refl). cbn [length] in Le.
  replace (Z.of_nat (length (c_grid (s_ctx s))) >=? H * W) with false by lia.
  pose proof (parse_point_ok r o G2). destruct (parse_point r) as [[q v]|]; [|easy].
  destruct G1 as [-> | ->]; (apply IH; [easy|easy|]; cbn [s_ctx c_grid]; rewrite app_length; cbn [length]; lia).
Qed.
Lemma images_ok : forall (ims : list image) (s : st (V := V)),
  (match ims with im :: _ => c_f (s_ctx s) <> fst im \/ s_ctx s = ctx0 | [] => True end) -> finish s <> None -> 
  Forall (fun im => snd im <> []) ims -> adjacent_differ ims -> 1 <= W * H ->
  Forall (fun im => Forall good_row (snd im) /\ (length (snd im) = 1%nat \/ Z.of_nat (length (snd im)) = W * H)) ims ->
  exists s', all_rows s (concat (map rows_of ims)) = Some s' /\ finish s' <> None.
Proof.
  induction ims as [|im ims IH]; intros s C F N D P G; [exists s; easy|].
  inversion N as [|? ? N1 N2]; subst. inversion G as [|? ? (G1 & G2) G3]; subst.
  cbn [map concat]. rewrite all_rows_app.
  assert (X : all_rows s (rows_of im) <> None).
  { destruct (finish s) as [s1|] eqn:Fs; [|easy]. pose proof (finish_ctx0 _ _ Fs) as C0.
    destruct (snd im) as [|r rs] eqn:Er; [easy|]. unfold rows_of. rewrite Er.
    assert (Y := rows_ok (r :: rs) (fst im) {| s_map := s_map s1; s_files := s_files s1; s_ctx := {| c_f := fst im; c_grid := []; c_valid := 0 |} |}
      eq_refl G1 ltac:(cbn [s_ctx c_grid length] in *; lia)).
    cbn [map all_rows] in *. unfold one_row in *. cbn [fst snd] in *. cbn [s_ctx c_f] in Y. rewrite (proj2 (name_eqb_iff _ _) eq_refl) in Y.
    destruct (name_eqb (c_f (s_ctx s)) (fst im)) eqn:Q.
    - apply name_eqb_iff in Q. destruct C as [C|C]; [easy|]. rewrite C in Q.
      assert (Hs : s1 = s). { unfold M_Corners.finish in Fs. rewrite C in Fs. cbn in Fs. destruct s as [sm sf sc]. cbn in *. subst sc. now inversion Fs. }
      subst s1. destruct s as [sm sf sc]. cbn [s_map s_files s_ctx] in *. subst sc. rewrite <- Q in Y |- *. exact Y.
    - rewrite Fs, C0. exact Y. }
  destruct (all_rows s (rows_of im)) as [s'|] eqn:E; [|easy].
  destruct (next_image im s s' C N1 E) as (s1 & F1 & A1 & A2 & A3 & A4 & A5).
  apply IH; auto.
  - destruct ims; [easy|]. left. rewrite A3. now destruct D.
  - unfold M_Corners.finish. apply F2_length in A4. rewrite <- A4.
    destruct (Z.of_nat (length (snd im)) >? 1) eqn:Q; [|discriminate].
    destruct G2 as [G2|G2]; [lia|]. rewrite G2, Z.eqb_refl. cbn [negb].
    destruct (_ && _); [|discriminate]. destruct (glob_of _); discriminate.
  - destruct ims; [easy|]. now destruct D.
Qed.
Theorem C48_accepted : forall ls ims, images ls ims -> 1 <= W * H ->
  Forall (fun l => parse l <> Malformed) ls ->
  Forall (fun im => Forall good_row (snd im) /\ (length (snd im) = 1%nat \/ Z.of_nat (length (snd im)) = W * H)) ims ->
  (forall k, (k < Ncameras)%nat -> exists im im', In im ims /\ In im' ims /\ used im /\ used im' /\
     glob_of (canonical (fst im)) = Some k /\ glob_of (canonical (fst im')) = Some k /\ canonical (fst im) <> canonical (fst im')) ->
  (forall cams, files_of_cameras ims cams -> mapping cams <> None) ->
  compute_chessboard_corners ls <> None.
Proof.
  intros ls ims Im P Pa G Two Mp. pose proof Im as (I1 & I2 & I3).
  destruct (images_ok ims (st0 Ncameras)) as (s & E & F); auto.
  { destruct ims; [easy|now right]. }
  { cbn. discriminate. }
  assert (Get : exists m fpc, get_corner_observations ls = Some (m, fpc)).
  { unfold M_Corners.get_corner_observations. pose proof (lines_rows ls (st0 Ncameras)) as LR. rewrite I1, E in LR.
    destruct (all_lines _ ls) as [s0|].
    2:{ destruct LR as [LR|LR]; [discriminate|]. exfalso. apply Exists_exists in LR. destruct LR as (l & Il & Q).
        rewrite Forall_forall in Pa. exact (Pa l Il Q). }
    destruct LR as (LR & _). inversion LR; subst s0. destruct (finish s) as [sf|] eqn:Fs; [|easy].
    destruct (run_images ims (st0 Ncameras) s sf) as (s1 & F1 & R); auto.
    { destruct ims; [easy|now right]. }
    cbn in F1. inversion F1; subst s1. cbn [s_map s_files] in R.
    destruct (run_files _ _ _ R) as (Lf & Ff); [cbn; apply repeat_length|]. cbn [snd] in *.
    destruct (existsb _ _) eqn:X; [|eauto]. exfalso. apply existsb_exists in X. destruct X as (fs & Ifs & Q).
    apply In_nth_error in Ifs. destruct Ifs as (k & Hk). pose proof (nth_error_lt _ _ _ Hk) as Lk.
    destruct (Ff k fs Hk) as (old & Ho & If). destruct (Two k) as (im & im' & J1 & J2 & J3 & J4 & J5 & J6 & J7); [lia|].
    assert (A : In (canonical (fst im)) fs) by (apply If; right; exists im; auto).
    assert (B : In (canonical (fst im')) fs) by (apply If; right; exists im'; auto).
    destruct fs as [|a [|b fs]]; [easy| |].
    - destruct A as [A|[]], B as [B|[]]. congruence.
    - destruct (1 <? _)%nat in Q; cbn in Q; discriminate. }
  destruct Get as (m & fpc & Gt). unfold M_Corners.compute_chessboard_corners. rewrite Gt.
  destruct (get_run _ _ _ _ Im Gt) as (R & _).
  destruct (run_files _ _ _ R) as (Lf & Ff); [cbn; apply repeat_length|]. cbn [snd] in Lf, Ff.
  assert (FC : files_of_cameras ims fpc).
  { split; [easy|]. intros k fs Hk f. destruct (Ff k fs Hk) as (old & Ho & If). rewrite If.
    apply nth_error_In, repeat_spec in Ho. subst old. cbn. intuition. }
  destruct (mapping fpc) as [d|] eqn:Md; [|exfalso; exact (Mp fpc FC Md)].
  assert (Has : forall f, In f (map fst m) -> dict_get d f <> None).
  { intros f If. apply (run_keys _ _ _ f R) in If. destruct If as [[]|(im & I & U & Q)]. pose proof U as (_ & _ & _ & Gl). rewrite Q in Gl.
    destruct (glob_of f) as [k|] eqn:Gk; [|easy]. destruct (nth_error fpc k) as [fs|] eqn:Hk.
    2:{ apply nth_error_None in Hk. apply glob_ok in Gk. lia. }
    assert (In f fs) by (apply (proj2 FC k fs Hk f); exists im; auto).
    destruct (C47_every_file fpc d f Md) as (n & k' & fs' & D & _); [exists fs; split; [eapply nth_error_In; eauto|easy]|]. congruence. }
  replace (forallb _ (map fst m)) with true.
  2:{ symmetry. apply forallb_forall. intros f If. specialize (Has f If). now destruct (dict_get d f). }
  cbv zeta. match goal with |- match ?x with _ => _ end <> None => destruct x as [[o i]|] eqn:Nu end; [discriminate|].
  exfalso. revert Nu. apply number_ok. intros f If.
  apply (Permutation_in _ (sorted_perm _ _)) in If. apply (Permutation_in _ (sorted_perm _ _)) in If.
  split; [now apply Has|]. apply get_in in If. destruct If as (g & ->). discriminate.
Qed.
End C48.
Print Assumptions C48_corners.
Print Assumptions C48_no_frame_skipped.
Print Assumptions C48_images_exist.
Print Assumptions C48_accepted.

(** *** Concrete cases *)
From Coq Require Import String.
Definition zneg (v : Z) : bool := v <? 0.
Definition zle0 (v : Z) : bool := v <=? 0.
Definition ex_glob (f : name) : option nat :=
  match f with c :: _ => if Ascii.eqb c "a" then Some 0%nat else if Ascii.eqb c "b" then Some 1%nat else None | [] => None end.
Definition ex_image (f : String.string) (x : Z) : list (line Z) :=
  [Row (nm f) [Num x; Num 1]; Row (nm f) [Num x; Num 2]; Row (nm f) [Num x; Num 3]; Row (nm f) [Dash; Dash]].
Definition ex_compute Nmin Ncameras := compute_chessboard_corners (fun l : line Z => l) zneg zle0 1 (-1) (fun w => Some w) 2 2 NoColumn Nmin
  (fun _ => false) (fun f => f) ex_glob Ncameras.
Local Open Scope string_scope.
Definition ex_lines : list (line Z) :=
  (Comment :: ex_image "b7" 17 ++ ex_image "a7" 7 ++ [Row (nm "a8") [Dash; Dash]] ++ ex_image "a5" 5 ++ ex_image "b9" 19)%list.
(** two cameras; frames 5 (camera 0), 7 (both), 9 (camera 1); nothing detected in a8 *)
Example C48_example : ex_compute 2 2 ex_lines =
  Some (map (fun x => [{| px := x; py := 1; pw := 1 |}; {| px := x; py := 2; pw := 1 |}; {| px := x; py := 3; pw := 1 |}; {| px := -1; py := -1; pw := -1 |}]) [5; 7; 17; 19],
        [(0, 0); (1, 0); (1, 1); (2, 1)], [nm "a5"; nm "a7"; nm "b7"; nm "b9"]).
Proof. vm_compute. reflexivity. Qed.
(** "We throw out any images where a chessboard detection has fewer than this
    many points" (calibration.py:160): but an image with exactly that many is
    thrown out as well *)
Definition ex_full (f : String.string) (x : Z) : list (line Z) :=
  [Row (nm f) [Num x; Num 1]; Row (nm f) [Num x; Num 2]; Row (nm f) [Num x; Num 3]; Row (nm f) [Num x; Num 4]].
Theorem C48_threshold_refuted : exists ims im obs idx files,
  images (fun l : line Z => l) (ex_full "a1" 1 ++ ex_image "a2" 2)%list ims /\ In im ims /\
  detected zneg zle0 1 (fun w => Some w) NoColumn (snd im) 3 /\ ex_glob (fst im) = Some 0%nat /\
  ex_compute 3 1 (ex_full "a1" 1 ++ ex_image "a2" 2)%list = Some (obs, idx, files) /\ ~ In (fst im) files.
Proof.
  set (i1 := (nm "a1", [[Num 1; Num 1]; [Num 1; Num 2]; [Num 1; Num 3]; [Num 1; Num 4]])).
  set (i2 := (nm "a2", [[Num 2; Num 1]; [Num 2; Num 2]; [Num 2; Num 3]; [Dash; Dash]])).
  exists [i1; i2], i2. do 3 eexists. split; [|split; [right; left; reflexivity|split; [|split; [reflexivity|split; [vm_compute; reflexivity|]]]]].
  - split; [reflexivity|]. split; [unfold i1, i2; constructor; [discriminate|constructor; [discriminate|constructor]]|]. split; [discriminate|easy].
  - change 3 with (0 + 1 + 1 + 1). unfold i2. cbn [snd].
    eapply D_yes; [apply R_plain; reflexivity|]. eapply D_yes; [apply R_plain; reflexivity|]. eapply D_yes; [apply R_plain; reflexivity|].
    apply D_no; [apply R_nox|apply D_nil].
  - intros [X|[]]. discriminate.
Qed.
Print Assumptions C48_threshold_refuted.
