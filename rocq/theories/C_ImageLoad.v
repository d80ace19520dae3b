(** C90: which images mrcal_image_..._load() loads, and loading what was saved *)
From Coq Require Import String List Arith ZArith Bool Lia.
From Verif Require Import M_Image M_Ply M_Pnm C_Pnm M_ImageLoad.
Import ListNotations.
Open Scope list_scope.
Open Scope nat_scope.

(** ** Specification *)
Inductive kind := Gray8 | Gray16 | Color.
Definition bits (k : kind) : nat := match k with Gray8 => 8 | Gray16 => 16 | Color => 24 end.
(** what is in the file: a number of channels, and a depth *)
Definition file_kind (s : stb) (k : kind) : Prop :=
  match k with
  | Gray8 => stb_is_16 s = false /\ stb_info s = Some 1
  | Color => stb_is_16 s = false /\ (stb_info s = Some 3 \/ stb_info s = Some 4)
  | Gray16 => stb_is_16 s = true /\ stb_info s = Some 1
  end.
(** which files can be loaded as what (0: as they are) *)
Definition can_load (k : kind) (requested out : nat) : Prop :=
  (requested = 0 /\ out = bits k) \/ (requested = 8 /\ out = 8) \/ (requested = 16 /\ k = Gray16 /\ out = 16) \/ (requested = 24 /\ k <> Gray16 /\ out = 24).
(** the library can decode the file with this number of channels *)
Definition decodes (s : stb) (k : kind) (out : nat) : Prop :=
  match k with Gray16 => stb_load_16 s 1 <> None | _ => stb_load s (if out =? 24 then 3 else 1) <> None end.
(** the library reads this file as the netpbm specification says *)
Definition follows (s : stb) (n : netpbm) : Prop :=
  let r := Some (Z.to_nat (n_width n), Z.to_nat (n_height n), n_samples n) in
  stb_info s = Some (Z.to_nat (n_channels n)) /\ stb_is_16 s = (255 <? n_maxval n)%Z /\
  ((n_maxval n <= 255)%Z -> stb_load s (Z.to_nat (n_channels n)) = r) /\ ((255 < n_maxval n)%Z -> stb_load_16 s (Z.to_nat (n_channels n)) = r).

(** ** Which *)
Theorem C90_loads : forall s requested out im, generic_load (Some s) requested = Some (out, im) ->
  exists k, file_kind s k /\ can_load k requested out /\ decodes s k out /\ ld_stride im = ld_w im * (out / 8).
Proof.
  intros s rq out im H. unfold generic_load, detect in H. destruct (stb_info s) as [ch|] eqn:EI; [|discriminate].
  assert (K : exists k, file_kind s k /\ match choose (bits k) rq with None => None | Some b => match load_as s b with None => None | Some im => Some (b, im) end end = Some (out, im)).
  { destruct (stb_is_16 s) eqn:E16; cbn [negb] in H.
    - destruct (Nat.eqb_spec ch 1) as [-> |]; [|discriminate]. exists Gray16. cbn [file_kind bits]. rewrite EI. auto.
    - destruct ((ch =? 3) || (ch =? 4)) eqn:E34.
      + exists Color. cbn [file_kind bits]. rewrite EI. split; [|exact H]. split; [exact E16|]. apply orb_prop in E34. destruct E34 as [E | E]; apply Nat.eqb_eq in E; subst; auto.
      + destruct (Nat.eqb_spec ch 1) as [-> |]; [|discriminate]. exists Gray8. cbn [file_kind bits]. rewrite EI. auto. }
  clear H EI. destruct K as (k & FK & H). exists k. split; [exact FK|].
  destruct (choose (bits k) rq) as [b|] eqn:EC; [|discriminate]. destruct (load_as s b) as [im'|] eqn:EL; [|discriminate].
  assert (b = out) as -> by congruence. assert (im' = im) as -> by congruence. clear H.
  assert (E16 : stb_is_16 s = match k with Gray16 => true | _ => false end) by (destruct k; apply FK).
  unfold load_as in EL. rewrite E16 in EL. unfold choose in EC.
  assert (O : (out = 8 \/ out = 16 \/ out = 24)).
  { destruct (Nat.eqb_spec out 8); [auto|]. destruct (Nat.eqb_spec out 16); [auto|]. destruct (Nat.eqb_spec out 24); [auto|]. discriminate. }
  assert (CL : can_load k rq out).
  { unfold can_load. destruct (Nat.eqb_spec rq 0) as [-> |N0]; [injection EC as <-; auto|].
    destruct k; cbn [bits Nat.eqb andb] in EC |- *; destruct (Nat.eqb_spec rq 16) as [E1 |E1]; destruct (Nat.eqb_spec rq 24) as [E2 |E2]; try discriminate EC; try lia;
      assert (rq = out) by congruence; destruct O as [O | [O | O]]; subst; try (exfalso; lia); try tauto; right; right; right; repeat split; discriminate. }
  split; [exact CL|].
  assert (NO16 : out = 16 -> k = Gray16). { intros ->. unfold can_load in CL. destruct k; cbn [bits] in CL; destruct CL as [[? ?] | [[? ?] | [(? & ? & ?) | (? & ? & ?)]]]; try discriminate; reflexivity. }
  assert (NO24 : out = 24 -> k <> Gray16). { intros -> ->. unfold can_load in CL. cbn [bits] in CL. destruct CL as [[? ?] | [[? ?] | [(? & ? & ?) | (? & N & ?)]]]; try discriminate. now apply N. }
  unfold decodes. destruct O as [-> | [-> | ->]]; cbn [Nat.eqb] in *.
  - destruct k.
    + destruct (stb_load s 1) as [[[w h] l]|]; [|discriminate]. assert (Some_inj : forall a b : loaded, Some a = Some b -> a = b) by congruence. apply Some_inj in EL. rewrite <- EL. cbn [ld_stride ld_w]. split; [discriminate|]. rewrite Nat.div_mul by lia. change (8 / 8) with 1. lia.
    + destruct (stb_load_16 s 1) as [[[w h] l]|]; [|discriminate]. assert (Some_inj : forall a b : loaded, Some a = Some b -> a = b) by congruence. apply Some_inj in EL. rewrite <- EL. cbn [ld_stride ld_w]. split; [discriminate|]. rewrite Nat.div_mul by lia. change (8 / 8) with 1. lia.
    + destruct (stb_load s 1) as [[[w h] l]|]; [|discriminate]. assert (Some_inj : forall a b : loaded, Some a = Some b -> a = b) by congruence. apply Some_inj in EL. rewrite <- EL. cbn [ld_stride ld_w]. split; [discriminate|]. rewrite Nat.div_mul by lia. change (8 / 8) with 1. lia.
  - rewrite (NO16 eq_refl). destruct (stb_load_16 s 1) as [[[w h] l]|]; [|discriminate]. assert (Some_inj : forall a b : loaded, Some a = Some b -> a = b) by congruence. apply Some_inj in EL. rewrite <- EL. cbn [ld_stride ld_w]. split; [discriminate|].
    change 16 with (2 * 8). rewrite Nat.mul_assoc, Nat.div_mul by lia. change (2 * 8 / 8) with 2. lia.
  - destruct (stb_load s 3) as [[[w h] l]|]; [|discriminate]. assert (Some_inj : forall a b : loaded, Some a = Some b -> a = b) by congruence. apply Some_inj in EL. rewrite <- EL. cbn [ld_stride ld_w]. split; [destruct k; [discriminate|now destruct (NO24 eq_refl)|discriminate]|].
    change 24 with (3 * 8). rewrite Nat.mul_assoc, Nat.div_mul by lia. change (3 * 8 / 8) with 3. lia.
Qed.
Print Assumptions C90_loads.

Theorem C90_can_load : forall s k requested out, file_kind s k -> can_load k requested out -> decodes s k out ->
  exists im, generic_load (Some s) requested = Some (out, im).
Proof.
  intros s k rq out FK CL DE. unfold generic_load.
  assert (ED : detect s = Some (bits k)). { unfold detect. destruct k; cbn [file_kind] in FK; destruct FK as [-> FK]; [rewrite FK; reflexivity|rewrite FK; reflexivity|]. destruct FK as [-> | ->]; reflexivity. }
  rewrite ED.
  assert (EC : choose (bits k) rq = Some out).
  { unfold can_load in CL. destruct CL as [[-> ->] | [[-> ->] | [(-> & -> & ->) | (-> & N & ->)]]]; try (destruct k; reflexivity); [reflexivity|]. destruct k; try reflexivity. now destruct N. }
  rewrite EC.
  assert (O : (out = 8 \/ out = 16 /\ k = Gray16 \/ out = 24 /\ k <> Gray16)).
  { unfold can_load in CL. destruct CL as [[-> ->] | [[-> ->] | [(-> & -> & ->) | (-> & N & ->)]]]; [|auto..]. destruct k; cbn [bits]; auto; right; right; split; auto; discriminate. }
  assert (E16 : stb_is_16 s = match k with Gray16 => true | _ => false end) by (destruct k; apply FK).
  unfold load_as. rewrite E16. unfold decodes in DE. destruct O as [-> | [[-> ->] | [-> N]]]; cbn [Nat.eqb] in *.
  - destruct k.
    + destruct (stb_load s 1) as [[[w h] l]|]; [eexists; reflexivity|now destruct DE].
    + destruct (stb_load_16 s 1) as [[[w h] l]|]; [eexists; reflexivity|now destruct DE].
    + destruct (stb_load s 1) as [[[w h] l]|]; [eexists; reflexivity|now destruct DE].
  - destruct (stb_load_16 s 1) as [[[w h] l]|]; [eexists; reflexivity|now destruct DE].
  - destruct (stb_load s 3) as [[[w h] l]|]; [eexists; reflexivity|]. destruct k; [now destruct DE|now destruct N|now destruct DE].
Qed.
Print Assumptions C90_can_load.

(** ** Saving and loading *)
Lemma nth_blocks : forall {A} (f : nat -> list A) n h s i j d, (forall y, length (f y) = n) -> i < h -> j < n -> nth (i * n + j) (flat_map f (seq s h)) d = nth j (f (s + i)) d.
Proof.
  intros A f n. induction h as [|h IH]; intros s i j d L I J; [lia|]. cbn [seq flat_map]. destruct i as [|i].
  - cbn [Nat.mul Nat.add]. rewrite app_nth1 by (rewrite L; lia). now rewrite Nat.add_0_r.
  - rewrite app_nth2 by (rewrite L; lia). rewrite L. replace (S i * n + j - n) with (i * n + j) by lia. rewrite IH by (auto; lia). f_equal. f_equal. lia.
Qed.
Lemma nth_rows : forall k m im x y j d, x < im_w im -> y < im_h im -> j < k -> nth (y * (k * im_w im) + (k * x + j)) (rows m im k) d = m (im_data im + y * im_stride im + (k * x + j)).
Proof.
  intros k m im x y j d X Y J. assert (k * x + j < k * im_w im) by nia. unfold rows.
  rewrite (nth_blocks _ (k * im_w im)) by (auto using read_length). cbn [Nat.add]. unfold read.
  rewrite (nth_indep _ d ((fun i => m (im_data im + im_stride im * y + i)) 0)) by (rewrite map_length, seq_length; lia).
  rewrite (map_nth (fun i => m (im_data im + im_stride im * y + i))), seq_nth by lia. f_equal. lia.
Qed.
Lemma swap_swap : forall n l, length l = 3 * n -> bgr_tofrom_rgb (bgr_tofrom_rgb l) = l.
Proof.
  induction n as [|n IH]; intros l L; [destruct l; [reflexivity|cbn in L; lia]|].
  destruct l as [|b [|g [|r l]]]; cbn [length] in L; try lia. cbn [bgr_tofrom_rgb]. rewrite IH by lia. reflexivity.
Qed.
Lemma nth_some : forall (l : list Z) i, i < length l -> nth i (map Some l) None = Some (nth i l 0%Z).
Proof. intros l i H. rewrite (nth_indep _ None (Some 0%Z)) by (now rewrite map_length). apply map_nth. Qed.

(** the loaded image has the same size and the same bytes as the original, in k bytes per pixel *)
Definition same_image (k : nat) (m : mem) (im : image) (ld : loaded) : Prop :=
  ld_w ld = im_w im /\ ld_h ld = im_h im /\ ld_stride ld = k * im_w im /\ length (ld_data ld) = k * im_w im * im_h im /\
  forall x y j, x < im_w im -> y < im_h im -> j < k -> nth (y * ld_stride ld + k * x + j) (ld_data ld) None = Some (m (im_data im + y * im_stride im + k * x + j)).
Lemma same_rows : forall k m im, same_image k m im (Loaded (im_w im) (im_h im) (k * im_w im) (map Some (rows m im k))).
Proof.
  intros k m im. unfold same_image. cbn [ld_w ld_h ld_stride ld_data]. repeat split.
  - now rewrite map_length, rows_length.
  - intros x y j X Y J. assert (k * x + j < k * im_w im) by nia. assert (S y * (k * im_w im) <= im_h im * (k * im_w im)) by (apply Nat.mul_le_mono_r; lia).
    rewrite nth_some by (rewrite rows_length; lia). f_equal. rewrite <- Nat.add_assoc, nth_rows by assumption. f_equal. lia.
Qed.

Theorem C90_gray_roundtrip : forall f m im l n s requested, generic_save f m im 8 = Pnm l -> read_netpbm l = Some n -> follows s n -> requested = 0 \/ requested = 8 ->
  exists ld, generic_load (Some s) requested = Some (8, ld) /\ same_image 1 m im ld.
Proof.
  intros f m im l n s rq H R F Q. rewrite (C85_gray _ _ _ _ H) in R. injection R as <-. destruct F as (F1 & F2 & F3 & _). cbn [n_width n_height n_samples n_channels n_maxval] in *.
  change (Z.to_nat 1) with 1 in *. change (255 <? 255)%Z with false in F2. specialize (F3 ltac:(lia)). rewrite !Nat2Z.id in F3.
  exists (Loaded (im_w im) (im_h im) (1 * im_w im) (map Some (rows m im 1))). split; [|apply same_rows].
  unfold generic_load, detect. rewrite F1, F2. cbn [negb Nat.eqb orb].
  assert (EC : choose 8 rq = Some 8) by (destruct Q as [-> | ->]; reflexivity). rewrite EC. unfold load_as. rewrite F2, F3. cbn [Nat.eqb]. rewrite Nat.div_mul by lia. rewrite Nat.mul_1_l.
  do 4 f_equal. rewrite rows_raster. unfold raster. apply flat_map_ext. intro y. apply flat_map_ext. intro x. unfold gray8. cbn [seq map]. do 2 f_equal. lia.
Qed.
Print Assumptions C90_gray_roundtrip.
Theorem C90_color_roundtrip : forall f m im l n s requested, generic_save f m im 24 = Pnm l -> read_netpbm l = Some n -> follows s n -> requested = 0 \/ requested = 24 ->
  exists ld, generic_load (Some s) requested = Some (24, ld) /\ same_image 3 m im ld.
Proof.
  intros f m im l n s rq H R F Q. rewrite (C85_color _ _ _ _ H) in R. injection R as <-. destruct F as (F1 & F2 & F3 & _). cbn [n_width n_height n_samples n_channels n_maxval] in *.
  change (Z.to_nat 3) with 3 in *. change (255 <? 255)%Z with false in F2. specialize (F3 ltac:(lia)). rewrite !Nat2Z.id in F3.
  exists (Loaded (im_w im) (im_h im) (3 * im_w im) (map Some (rows m im 3))). split; [|apply same_rows].
  unfold generic_load, detect. rewrite F1, F2. cbn [negb Nat.eqb orb].
  assert (EC : choose 24 rq = Some 24) by (destruct Q as [-> | ->]; reflexivity). rewrite EC. unfold load_as. rewrite F3. cbn [Nat.eqb]. change 24 with (3 * 8) at 2. rewrite Nat.mul_assoc, Nat.div_mul by lia.
  rewrite <- swap_raster, (swap_swap (im_w im * im_h im)) by (rewrite rows_length; lia). do 3 f_equal. lia.
Qed.
Print Assumptions C90_color_roundtrip.
(** 16-bit images don't survive (see C85_16bit_refuted): the value 1 is read as 256 *)
Theorem C90_16bit_refuted : exists f m im l n s, generic_save f m im 16 = Pnm l /\ read_netpbm l = Some n /\ follows s n /\
  m (im_data im) = 1%Z /\ m (im_data im + 1) = 0%Z /\ generic_load (Some s) 16 = Some (16, Loaded 1 1 2 [Some 256%Z]).
Proof.
  exists "a.pgm"%string, (fun a : nat => match a with O => 1%Z | _ => 0%Z end), (Image 1 1 2 0). eexists. eexists.
  exists (Stb (Some 1) true (fun _ => None) (fun _ => Some (1, 1, [256%Z]))). split; [reflexivity|]. split; [reflexivity|]. split; [|repeat split; reflexivity].
  unfold follows. split; [reflexivity|]. split; [reflexivity|]. split; intro H; [exfalso; apply H; reflexivity|reflexivity].
Qed.
Print Assumptions C90_16bit_refuted.
(** no file, no image *)
Theorem C90_no_file : forall requested, generic_load None requested = None.
Proof. reflexivity. Qed.

Print Assumptions C90_no_file.
(** a 2x1 image, with a library that reads its file *)
Example C90_ex : exists l n s, generic_save "a.pgm" (fun a => Z.of_nat (a + 7)) (Image 2 1 4 0) 8 = Pnm l /\ read_netpbm l = Some n /\ follows s n /\
  generic_load (Some s) 8 = Some (8, Loaded 2 1 2 [Some 7; Some 8]%Z).
Proof.
  eexists. eexists. exists (Stb (Some 1) false (fun _ => Some (2, 1, [7; 8]%Z)) (fun _ => None)). split; [reflexivity|]. split; [reflexivity|]. split; [|reflexivity].
  unfold follows. split; [reflexivity|]. split; [reflexivity|]. split; intro H; [reflexivity|discriminate H].
Qed.
Example C90_ex2 : let s := Stb (Some 4) false (fun _ => Some (1, 1, [1; 2; 3]%Z)) (fun _ => None) in
  file_kind s Color /\ can_load Color 24 24 /\ decodes s Color 24.
Proof. cbn. unfold can_load. repeat split; auto; try discriminate. right; right; right. repeat split; discriminate. Qed.
