(** C49: the corner cache.  calibration.py:240-292,345-347,426-437: if the cache
    file exists it's read; otherwise mrgingham is run, its output is written to a
    temporary file as it's being parsed, and if all went well the temporary file
    is moved to the cache's path.  The process may be killed after any number of
    file-system effects; a write may have been done only in part, so we count
    bytes.  Not modelled: the loss of data that's been written but not yet
    flushed (a power failure: there's no fsync()), and another process writing
    the same paths. *)
From Coq Require Import ZArith Lia List Bool Ascii.
From Verif Require Import M_FrameNo C_FrameNo M_Corners C_Corners.
Import ListNotations.

Definition bytes := list ascii.
(** the two files of interest *)
Record fs := { cache : option bytes; tmp : option bytes }.
Inductive op := Mkstemp | Append (b : ascii) | Rename | CopyOpen | CopyByte (b : ascii) | Unlink.
Definition app_opt (o : option bytes) (b : ascii) : option bytes := match o with Some l => Some (l ++ [b]) | None => None end.
Definition apply (s : fs) (o : op) : fs :=
  match o with
  | Mkstemp => {| cache := cache s; tmp := Some [] |}
  | Append b => {| cache := cache s; tmp := app_opt (tmp s) b |}
  | Rename => {| cache := tmp s; tmp := None |}
  | CopyOpen => {| cache := Some []; tmp := tmp s |}
  | CopyByte b => {| cache := app_opt (cache s) b; tmp := tmp s |}
  | Unlink => {| cache := cache s; tmp := None |}
  end.
(** shutil.move(): a rename() if that works; it doesn't across file systems, and
    then the file is copied and the original removed.  The temporary file is in
    the directory for temporary files (calibration.py:281): wherever that is *)
Definition move (same_fs : bool) (content : bytes) : list op :=
  if same_fs then [Rename] else CopyOpen :: map CopyByte content ++ [Unlink].

Section Cache.
(** the parser: one line, and everything after the last line (finish, and then the
    return code of mrgingham); [None]: an exception *)
Context {S : Type}.
Variable parse_line : S -> bytes -> option S.
Variable parse_end : S -> bool.
Variable s0 : S.
Variable same_fs : bool.

(** the effects of the loop at 345-424: each line is written before it's parsed *)
Fixpoint loop (s : S) (ls : list bytes) : list op * option S :=
  match ls with
  | [] => ([], Some s)
  | l :: ls =>
      match parse_line s l with
      | None => (map Append l, None)
      | Some s => let '(ops, r) := loop s ls in (map Append l ++ ops, r)
      end
  end.
(** what an uninterrupted run does, if mrgingham prints [ls] and returns [code] *)
Definition effects (ls : list bytes) (code : Z) : list op :=
  let '(ops, r) := loop s0 ls in
  Mkstemp :: ops ++
    match r with
    | Some s => if parse_end s && (code =? 0)%Z then move same_fs (concat ls) else []
    | None => []
    end.
(** a run killed after [n] effects.  With an existing cache nothing is written *)
Definition killed_run (s : fs) (run : list bytes * Z * nat) : fs :=
  let '(ls, code, n) := run in
  match cache s with
  | Some _ => s
  | None => fold_left apply (firstn n (effects ls code)) s
  end.

(** *** Specification: all of the lines were understood, and mrgingham succeeded *)
Inductive understood : S -> list bytes -> Prop :=
| U_nil : forall s, parse_end s = true -> understood s []
| U_cons : forall s l ls s', parse_line s l = Some s' -> understood s' ls -> understood s (l :: ls).
Definition complete (run : list bytes * Z * nat) (c : bytes) : Prop :=
  let '(ls, code, _) := run in c = concat ls /\ code = 0%Z /\ understood s0 ls.

Definition tmp_only (o : op) : Prop := match o with Mkstemp | Append _ => True | _ => False end.
Lemma tmp_only_cache : forall ops s, Forall tmp_only ops -> cache (fold_left apply ops s) = cache s.
Proof.
  induction ops as [|o ops IH]; intros s F; [easy|]. inversion F; subst. cbn [fold_left]. rewrite IH by easy. now destruct o.
Qed.
Lemma loop_spec : forall ls s, Forall tmp_only (fst (loop s ls)) /\
  (forall s', snd (loop s ls) = Some s' -> fst (loop s ls) = map Append (concat ls) /\ (parse_end s' = true -> understood s ls)).
Proof.
  assert (Ft : forall l, Forall tmp_only (map Append l)) by (intros l; apply Forall_forall; intros o I; apply in_map_iff in I; destruct I as (b & <- & _); exact I).
  induction ls as [|l ls IH]; intros s; cbn [loop].
  - split; [constructor|]. intros s' E. inversion E; subst. split; [easy|]. apply U_nil.
  - destruct (parse_line s l) as [s1|] eqn:P; [|split; [apply Ft|discriminate]].
    destruct (IH s1) as (A & B). destruct (loop s1 ls) as [ops r]. cbn [fst snd] in *. split; [apply Forall_app; auto|].
    intros s' E. destruct (B s' E) as (B1 & B2). split; [cbn [concat]; now rewrite map_app, B1|].
    intros X. eapply U_cons; eauto.
Qed.
Lemma appends : forall l s c, tmp s = Some c -> tmp (fold_left apply (map Append l) s) = Some (c ++ l).
Proof.
  induction l as [|b l IH]; intros s c E; cbn [map fold_left]; [now rewrite app_nil_r|].
  rewrite (IH _ (c ++ [b])); [now rewrite <- app_assoc|]. cbn. now rewrite E.
Qed.
Lemma firstn_forall : forall A (P : A -> Prop) n l, Forall P l -> Forall P (firstn n l).
Proof. intros A P n l F. revert n. induction F; intros [|n]; cbn; auto. Qed.

Lemma one_run : forall s run, same_fs = true -> cache s = None ->
  cache (killed_run s run) = None \/ exists c, cache (killed_run s run) = Some c /\ complete run c.
Proof.
  intros s [[ls code] n] SF N. unfold killed_run. rewrite N. unfold effects, complete.
  destruct (loop_spec ls s0) as (A & B). destruct (loop s0 ls) as [ops r]. cbn [fst snd] in *.
  set (rest := match r with Some s => _ | None => [] end).
  destruct n as [|n]; [now left|]. cbn [firstn fold_left]. rewrite firstn_app, fold_left_app.
  set (s1 := fold_left apply (firstn n ops) (apply s Mkstemp)).
  assert (C1 : cache s1 = None) by (unfold s1; rewrite tmp_only_cache by (now apply firstn_forall); exact N).
  assert (Er : rest = [] \/ (rest = [Rename] /\ exists s', r = Some s' /\ parse_end s' = true /\ code = 0%Z)).
  { unfold rest, move. rewrite SF. destruct r as [s'|]; [|now left]. destruct (parse_end s') eqn:Pe; cbn [andb]; [|now left].
    destruct (Z.eqb_spec code 0); [|now left]. right. split; [easy|]. exists s'. easy. }
  destruct Er as [->|(-> & s' & Es & Pe & Co)]; [left; now rewrite firstn_nil|].
  destruct (n - length ops)%nat as [|k] eqn:K; [now left|]. right. cbn [firstn fold_left apply]. rewrite firstn_nil. cbn [fold_left cache].
  destruct (B s' Es) as (B1 & B2). exists (concat ls). split; [|auto].
  unfold s1. rewrite firstn_all2 by lia. rewrite B1. now rewrite (appends _ _ []).
Qed.

(** *** C49: however many runs were killed, and wherever: there is no cache, or one
    which holds everything mrgingham printed in a run that was good *)
Theorem C49_all_or_nothing_partial : forall runs s, same_fs = true -> cache s = None ->
  let s' := fold_left killed_run runs s in
  cache s' = None \/ exists run c, In run runs /\ cache s' = Some c /\ complete run c.
Proof.
  induction runs as [|run runs IH]; intros s SF N; [now left|]. cbn [fold_left].
  destruct (one_run s run SF N) as [E|(c & E & C)].
  - destruct (IH _ SF E) as [X|(r & c & I & X & Y)]; [now left|]. right. exists r, c. cbn. auto.
  - right. exists run, c. split; [now left|]. split; [|easy].
    clear IH. revert E. generalize (killed_run s run). clear - c. induction runs as [|r runs IH]; intros s E; [easy|].
    cbn [fold_left]. apply IH. unfold killed_run. destruct r as [[ls code] n]. now rewrite E.
Qed.

(** and a run that isn't killed, and succeeds, leaves the cache *)
Theorem C49_cache_written : forall ls n s, understood s0 ls -> cache s = None -> (length (effects ls 0) <= n)%nat ->
  cache (killed_run s (ls, 0%Z, n)) = Some (concat ls).
Proof.
  intros ls n s U N Ln. unfold killed_run. rewrite N, firstn_all2 by easy. unfold effects.
  assert (X : forall s1 ls, understood s1 ls -> exists s', loop s1 ls = (map Append (concat ls), Some s') /\ parse_end s' = true).
  { intros s1 l V. induction V as [s1 E|s1 l ls' s' P V (s2 & IH & E)]; [exists s1; easy|]. exists s2. cbn [loop concat]. rewrite P, IH, map_app. easy. }
  destruct (X s0 ls U) as (s' & -> & Pe). rewrite Pe. cbn [Z.eqb andb]. clear Ln.
  cbn [fold_left]. rewrite fold_left_app.
  set (s1 := fold_left apply (map Append (concat ls)) _). assert (T : tmp s1 = Some (concat ls)) by (unfold s1; now rewrite (appends _ _ [])).
  assert (C : cache s1 = None).
  { unfold s1. rewrite tmp_only_cache; [exact N|]. apply Forall_forall. intros o I. apply in_map_iff in I. destruct I as (b & <- & _). exact I. }
  clearbody s1. unfold move. destruct same_fs; [exact T|].
  cbn [fold_left]. rewrite fold_left_app. cbn [fold_left apply cache].
  assert (Y : forall l s c, cache s = Some c -> cache (fold_left apply (map CopyByte l) s) = Some (c ++ l)).
  { induction l as [|b l IH]; intros s2 c Ec; cbn [map fold_left]; [now rewrite app_nil_r|].
    rewrite (IH _ (c ++ [b])); [now rewrite <- app_assoc|]. cbn. now rewrite Ec. }
  now rewrite (Y _ _ []).
Qed.
End Cache.
Print Assumptions C49_all_or_nothing_partial.
Print Assumptions C49_cache_written.

(** *** reading the cache gives what the run that wrote it computed *)
(** iterating over a text file: each line with its newline *)
Fixpoint split_lines (acc : bytes) (c : bytes) : list bytes :=
  match c with
  | [] => match acc with [] => [] | _ => [acc] end
  | b :: c => if is_nl b then (acc ++ [b]) :: split_lines [] c else split_lines (acc ++ [b]) c
  end.
Lemma split_one : forall body acc r, plain body -> split_lines acc (body ++ newline :: r) = (acc ++ body ++ [newline]) :: split_lines [] r.
Proof.
  induction body as [|b body IH]; intros acc r P; cbn [app split_lines].
  - easy.
  - replace (is_nl b) with false.
    2:{ symmetry. apply not_true_iff_false. intros X. apply is_nl_iff in X. apply P. subst. now left. }
    rewrite IH; [now rewrite <- app_assoc|]. intros X. apply P. now right.
Qed.
Lemma split_join : forall ls, Forall (fun l => exists body, l = body ++ [newline] /\ plain body) ls -> split_lines [] (concat ls) = ls.
Proof.
  induction ls as [|l ls IH]; intros F; [easy|]. inversion F as [|? ? (body & -> & P) F']; subst.
  cbn [concat]. rewrite <- app_assoc. cbn [app]. rewrite split_one by easy. now rewrite (IH F').
Qed.

Section Reuse.
Context {V : Type}.
Variable parse : bytes -> line V.
Variables (is_neg is_nonpos : V -> bool) (one minus_one : V).
Variable level_weight : V -> option V.
Variables (W H : Z).
Variable kind : weight_column_kind.
Variable Nmin : Z.
Variable excluded : name -> bool.
Variable canonical : name -> name.
Variable glob_of : name -> option nat.
Variable Ncameras : nat.
Let corners_of := get_corner_observations parse is_neg is_nonpos one minus_one level_weight W H kind Nmin excluded canonical glob_of Ncameras.
(** the parser of [M_Corners], as the cache-writing loop sees it *)
Definition the_line := one_line parse is_neg is_nonpos one minus_one level_weight W H kind Nmin excluded canonical glob_of.
Definition the_end (s : st (V := V)) : bool := match finish W H Nmin excluded canonical glob_of s with Some _ => true | None => false end.

(** after any history of killed runs, in each of which mrgingham would have printed
    the same thing: a run that finds the cache gets the result of a run that
    was never interrupted *)
Theorem C49_cache_is_as_good : forall ls runs s c,
  Forall (fun l => exists body, l = body ++ [newline] /\ plain body) ls ->
  Forall (fun run => fst (fst run) = ls) runs ->
  cache s = None ->
  cache (fold_left (killed_run the_line the_end (st0 Ncameras) true) runs s) = Some c ->
  corners_of (split_lines [] c) = corners_of ls.
Proof.
  intros ls runs s c Fl Fr N E.
  destruct (C49_all_or_nothing_partial the_line the_end (st0 Ncameras) true runs s eq_refl N) as [X|([[ls' code] n] & c' & I & X & Y)]; [congruence|].
  rewrite Forall_forall in Fr. specialize (Fr _ I). cbn in Fr. subst ls'. destruct Y as (-> & _). rewrite E in X. inversion X; subst c.
  now rewrite split_join.
Qed.
End Reuse.
Print Assumptions C49_cache_is_as_good.

(** *** If the temporary directory is on another file system: not so.  One camera,
    a 2x2 board, two images; the process is killed while the file is being copied.
    The next run finds a cache, sees nothing wrong with it, and uses one image
    instead of two *)
From Coq Require Import String.
Local Open Scope string_scope.
Definition row_line (f : string) : bytes := (nm f ++ [newline])%list.
Definition ex_parse (b : bytes) : line Z := Row (firstn 2 b) [Num 1%Z; Num 2%Z].
Definition ex_out : list bytes := (repeat (row_line "a1") 4 ++ repeat (row_line "a2") 4)%list.
Definition ex_get := get_corner_observations ex_parse zneg zle0 1%Z (-1)%Z (fun w => Some w) 2 2 NoColumn 1 (fun _ => false) (fun f => f) ex_glob 1.
Definition ex_kill same_fs n := killed_run
  (the_line ex_parse zneg zle0 1%Z (-1)%Z (fun w => Some w) 2 2 NoColumn 1 (fun _ => false) (fun f => f) ex_glob)
  (the_end 2 2 1 (fun _ => false) (fun f => f) ex_glob) (st0 1) same_fs {| cache := None; tmp := None |} (ex_out, 0%Z, n).
Theorem C49_other_file_system_refuted : exists n c, cache (ex_kill false n) = Some c /\ c <> List.concat ex_out /\
  exists m fpc m' fpc', ex_get (split_lines [] c) = Some (m, fpc) /\ ex_get ex_out = Some (m', fpc') /\
    List.length m = 1%nat /\ List.length m' = 2%nat.
Proof.
  exists 38%nat. eexists. split; [vm_compute; reflexivity|]. split; [vm_compute; discriminate|].
  do 4 eexists. split; [vm_compute; reflexivity|]. split; [vm_compute; reflexivity|]. split; reflexivity.
Qed.
Print Assumptions C49_other_file_system_refuted.
(** on the same file system: no cache, until there's a complete one *)
Example C49_example : cache (ex_kill true 25) = None /\ cache (ex_kill true 26) = Some (List.concat ex_out).
Proof. split; vm_compute; reflexivity. Qed.
