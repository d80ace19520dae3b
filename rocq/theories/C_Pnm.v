(** C85: the .pgm and .ppm files that mrcal_image_..._save() writes have the pixels of the image *)
From Coq Require Import String List Arith ZArith Bool Lia Ascii Decimal DecimalString DecimalNat.
From Verif Require Import M_Ply M_Pnm.
Import ListNotations.
Open Scope list_scope.
Open Scope nat_scope.

(** ** Specification: a reader of netpbm files (netpbm.sourceforge.net/doc/pgm.html: magic, width, height, maxval, each followed by whitespace;
    then the raster, 1 byte per sample if maxval < 256, otherwise 2 bytes, the most significant first) *)
Definition white (c : Z) : bool := ((c =? 10) || (c =? 32) || (c =? 9) || (c =? 13))%Z.
Fixpoint token (l : list Z) : list Z * list Z :=
  match l with
  | [] => ([], [])
  | c :: l => if white c then ([], l) else let '(t, r) := token l in (c :: t, r)
  end.
Fixpoint number_from (acc : Z) (t : list Z) : option Z :=
  match t with
  | [] => Some acc
  | c :: t => if ((48 <=? c) && (c <=? 57))%Z then number_from (10 * acc + (c - 48))%Z t else None
  end.
Definition number (t : list Z) : option Z := match t with [] => None | _ => number_from 0 t end.
Fixpoint big_endian (l : list Z) : list Z := match l with a :: b :: l => (256 * a + b)%Z :: big_endian l | _ => [] end.
Record netpbm := Netpbm { n_channels : Z; n_width : Z; n_height : Z; n_maxval : Z; n_samples : list Z }.
Definition channels_of (magic : list Z) : option Z :=
  match magic with
  | [p; n] => if negb (p =? 80)%Z then None else if (n =? 53)%Z then Some 1%Z else if (n =? 54)%Z then Some 3%Z else None
  | _ => None
  end.
Definition read_netpbm (l : list Z) : option netpbm :=
  let '(magic, l) := token l in
  let '(tw, l) := token l in
  let '(th, l) := token l in
  let '(tm, l) := token l in
  match channels_of magic, number tw, number th, number tm with
  | Some ch, Some w, Some h, Some mx =>
      let n := (ch * w * h)%Z in
      if (mx <? 256)%Z then (if (Z.of_nat (length l) =? n)%Z then Some (Netpbm ch w h mx l) else None)
      else (if (Z.of_nat (length l) =? 2 * n)%Z then Some (Netpbm ch w h mx (big_endian l)) else None)
  | _, _, _, _ => None
  end.
(** the values of the samples in raster order *)
Definition raster (w h : nat) (pixel : nat -> nat -> list Z) : list Z := flat_map (fun y => flat_map (fun x => pixel x y) (seq 0 w)) (seq 0 h).
(** the pixels of an image whose rows are stride bytes apart; 16-bit values as a little-endian machine stores them *)
Definition gray8 (m : mem) (im : image) (x y : nat) : list Z := [m (im_data im + y * im_stride im + x)].
Definition gray16 (m : mem) (im : image) (x y : nat) : list Z :=
  let a := im_data im + y * im_stride im + 2 * x in [(m a + 256 * m (a + 1)%nat)%Z].
Definition rgb8 (m : mem) (im : image) (x y : nat) : list Z :=
  let a := im_data im + y * im_stride im + 3 * x in [m (a + 2); m (a + 1); m a].
(** the name ends in this extension, in upper or lower case *)
Definition alphabet : list (ascii * ascii) := combine (list_ascii_of_string "ABCDEFGHIJKLMNOPQRSTUVWXYZ") (list_ascii_of_string "abcdefghijklmnopqrstuvwxyz").
(** The same character, or the upper case and the lower case of the same letter *)
Definition same_letter (c d : ascii) : Prop := c = d \/ In (c, d) alphabet \/ In (d, c) alphabet.
Definition same_text (a b : string) : Prop := Forall2 same_letter (list_ascii_of_string a) (list_ascii_of_string b).
Definition ends_in (filename : string) (e : string) : Prop := exists base e', filename = (base ++ e')%string /\ base <> EmptyString /\ same_text e' e.

(** ** Proofs *)
Lemma bytes_app : forall a b, bytes_of (a ++ b)%string = bytes_of a ++ bytes_of b.
Proof. induction a as [|c a IH]; intro b; [reflexivity|]. unfold bytes_of in *. cbn [String.append list_ascii_of_string map List.app]. now rewrite IH. Qed.
Lemma token_app : forall t c l, forallb (fun c => negb (white c)) t = true -> white c = true -> token (t ++ c :: l) = (t, l).
Proof.
  induction t as [|a t IH]; intros c l H W; cbn [List.app token]; [now rewrite W|]. cbn [forallb] in H. apply andb_true_iff in H. destruct H as [H1 H2].
  apply negb_true_iff in H1. rewrite H1, IH by assumption. reflexivity.
Qed.
Lemma uint_digits : forall u, forallb (fun c => negb (white c)) (bytes_of (NilEmpty.string_of_uint u)) = true.
Proof. induction u; [reflexivity|..]; exact IHu. Qed.
Lemma uint_number : forall u acc, number_from (Z.of_nat acc) (bytes_of (NilEmpty.string_of_uint u)) = Some (Z.of_nat (Nat.of_uint_acc u acc)).
Proof.
  induction u; intro acc; [reflexivity|..]; cbn [NilEmpty.string_of_uint bytes_of list_ascii_of_string map number_from Nat.of_uint_acc]; fold (bytes_of (NilEmpty.string_of_uint u));
  match goal with |- context [Z.of_N (N_of_ascii ?c)] => let k := eval vm_compute in (Z.of_N (N_of_ascii c)) in change (Z.of_N (N_of_ascii c)) with k end;
  cbn [Z.leb Z.compare Pos.compare Pos.compare_cont andb]; rewrite <- IHu; f_equal; rewrite Nat.tail_mul_spec; lia.
Qed.
Lemma dec_digits : forall n, forallb (fun c => negb (white c)) (bytes_of (dec n)) = true.
Proof. intro n. unfold dec, NilZero.string_of_uint. destruct (Nat.to_uint n) eqn:E; try reflexivity; rewrite <- E; apply uint_digits. Qed.
Lemma dec_number : forall n, number (bytes_of (dec n)) = Some (Z.of_nat n).
Proof.
  intro n. unfold dec, NilZero.string_of_uint. pose proof (DecimalNat.Unsigned.of_to n) as Q. unfold Nat.of_uint in Q.
  pose proof (uint_number (Nat.to_uint n) 0) as U. rewrite Q in U. destruct (Nat.to_uint n) eqn:E; try (cbn in Q; subst n; reflexivity);
  unfold number; cbn [NilEmpty.string_of_uint bytes_of list_ascii_of_string map] in U |- *; exact U.
Qed.
Lemma header_tokens : forall ch w h bpp l, bytes_of (pnm_header ch w h bpp) ++ l =
  [80; if (ch =? 1)%nat then 53 else 54]%Z ++ 10%Z :: bytes_of (dec w) ++ 32%Z :: bytes_of (dec h) ++ 10%Z :: bytes_of (if (bpp =? 16)%nat then "65535" else "255")%string ++ 10%Z :: l.
Proof. intros. unfold pnm_header. rewrite !bytes_app, <- !app_assoc. destruct (ch =? 1); reflexivity. Qed.
Lemma read_spec : forall ch w h bpp l, ch = 1 \/ ch = 3 -> read_netpbm (bytes_of (pnm_header ch w h bpp) ++ l) =
  if bpp =? 16 then (if length l =? 2 * (ch * w * h) then Some (Netpbm (Z.of_nat ch) (Z.of_nat w) (Z.of_nat h) 65535 (big_endian l)) else None)
  else (if length l =? ch * w * h then Some (Netpbm (Z.of_nat ch) (Z.of_nat w) (Z.of_nat h) 255 l) else None).
Proof.
  intros ch w h bpp l C. rewrite header_tokens. unfold read_netpbm.
  rewrite token_app by (destruct (ch =? 1); reflexivity). rewrite token_app by (apply dec_digits || reflexivity). rewrite token_app by (apply dec_digits || reflexivity).
  rewrite token_app by (destruct (bpp =? 16); reflexivity). rewrite !dec_number.
  assert (channels_of [80; if (ch =? 1)%nat then 53 else 54]%Z = Some (Z.of_nat ch)) as -> by (destruct C as [-> | ->]; reflexivity).
  assert (forall a b, (Z.of_nat a =? Z.of_nat b)%Z = (a =? b)) as Q by (intros; destruct (Nat.eqb_spec a b), (Z.eqb_spec (Z.of_nat a) (Z.of_nat b)); lia).
  assert (Z.of_nat ch * Z.of_nat w * Z.of_nat h = Z.of_nat (ch * w * h))%Z as -> by lia.
  destruct (bpp =? 16).
  - change (number (bytes_of "65535")) with (Some 65535%Z). cbv beta iota zeta. change (65535 <? 256)%Z with false. cbv iota.
    replace (2 * Z.of_nat (ch * w * h))%Z with (Z.of_nat (2 * (ch * w * h))) by lia. rewrite Q. reflexivity.
  - change (number (bytes_of "255")) with (Some 255%Z). cbv beta iota zeta. change (255 <? 256)%Z with true. cbv iota. rewrite Q. reflexivity.
Qed.

(** the bytes of the rows *)
Lemma read_length : forall m a n, length (read m a n) = n.
Proof. intros. unfold read. now rewrite map_length, seq_length. Qed.
Lemma rows_length : forall m im k, length (rows m im k) = k * im_w im * im_h im.
Proof.
  intros. unfold rows. generalize 0 as s. induction (im_h im) as [|h IH]; intro s; cbn [seq flat_map]; [cbn; lia|]. rewrite app_length, read_length, IH. lia.
Qed.
Lemma swap_length : forall n l, length l = 3 * n -> length (bgr_tofrom_rgb l) = 3 * n.
Proof. induction n as [|n IH]; intros l H; [destruct l; [reflexivity|discriminate]|]. destruct l as [|b [|g [|r l]]]; cbn [length] in H; try lia. cbn [bgr_tofrom_rgb length]. rewrite (IH l); lia. Qed.
Lemma swap_app : forall n l l', length l = 3 * n -> bgr_tofrom_rgb (l ++ l') = bgr_tofrom_rgb l ++ bgr_tofrom_rgb l'.
Proof. induction n as [|n IH]; intros l l' H; [destruct l; [reflexivity|discriminate]|]. destruct l as [|b [|g [|r l]]]; cbn [length] in H; try lia. cbn [bgr_tofrom_rgb List.app]. now rewrite (IH l l') by lia. Qed.
Lemma read_pixels : forall k m a n, read m a (k * n) = flat_map (fun x => map (fun j => m (a + k * x + j)) (seq 0 k)) (seq 0 n).
Proof.
  intros k m a n. unfold read. induction n as [|n IH]; [now rewrite Nat.mul_0_r|].
  rewrite seq_S, flat_map_app. cbn [flat_map]. rewrite app_nil_r, <- IH. replace (k * S n) with (k * n + k) by lia. rewrite seq_app, map_app. f_equal.
  cbn [Nat.add]. replace (seq (k * n) k) with (map (fun j => k * n + j) (seq 0 k)); [rewrite map_map; apply map_ext; intro; f_equal; lia|].
  generalize (k * n) as b. intro b. transitivity (seq (0 + b) k); [|reflexivity]. generalize 0 as s. clear IH. induction k as [|k IHk]; intro s; [reflexivity|]. cbn [seq map]. f_equal; [lia|]. apply (IHk (S s)).
Qed.
Lemma flat_map_ext_in : forall A B (f g : A -> list B) l, (forall x, In x l -> f x = g x) -> flat_map f l = flat_map g l.
Proof. induction l as [|a l IH]; intro H; [reflexivity|]. cbn [flat_map]. rewrite H, IH; [reflexivity|intros; apply H; now right|now left]. Qed.
Lemma rows_raster : forall k m im, rows m im k = raster (im_w im) (im_h im) (fun x y => map (fun j => m (im_data im + y * im_stride im + k * x + j)) (seq 0 k)).
Proof.
  intros k m im. unfold rows, raster. apply flat_map_ext. intro y. rewrite read_pixels. apply flat_map_ext. intro x. apply map_ext. intro j. f_equal. lia.
Qed.
Lemma swap_flat : forall (f : nat -> nat -> Z) l, bgr_tofrom_rgb (flat_map (fun x => map (fun j => f x j) (seq 0 3)) l) = flat_map (fun x => [f x 2; f x 1; f x 0]) l.
Proof. intros f l. induction l as [|a l IH]; [reflexivity|]. cbn [flat_map seq map List.app bgr_tofrom_rgb]. cbn [seq map] in IH; now rewrite IH. Qed.
Lemma flat_length3 : forall (f : nat -> nat -> Z) l, length (flat_map (fun x => map (fun j => f x j) (seq 0 3)) l) = 3 * length l.
Proof. intros f l. induction l as [|a l IH]; [reflexivity|]. cbn [flat_map length]. rewrite app_length, IH. cbn. lia. Qed.
Lemma swap_raster : forall m im, bgr_tofrom_rgb (rows m im 3) = raster (im_w im) (im_h im) (rgb8 m im).
Proof.
  intros m im. rewrite rows_raster. unfold raster. generalize (seq 0 (im_h im)) as ys. induction ys as [|y ys IH]; [reflexivity|]. cbn [flat_map].
  rewrite (swap_app (im_w im)) by (rewrite (flat_length3 (fun x j => m (im_data im + y * im_stride im + 3 * x + j))), seq_length; reflexivity). rewrite IH. f_equal.
  rewrite (swap_flat (fun x j => m (im_data im + y * im_stride im + 3 * x + j))). apply flat_map_ext. intro x. unfold rgb8. cbv zeta. now rewrite Nat.add_0_r.
Qed.
Lemma big_endian_flat : forall (f g : nat -> Z) l, big_endian (flat_map (fun x => [f x; g x]) l) = flat_map (fun x => [(256 * f x + g x)%Z]) l.
Proof. intros f g l. induction l as [|a l IH]; [reflexivity|]. cbn [flat_map List.app big_endian]. now rewrite IH. Qed.
Lemma big_endian_app : forall (f g : nat -> Z) l l', big_endian (flat_map (fun x => [f x; g x]) l ++ l') = flat_map (fun x => [(256 * f x + g x)%Z]) l ++ big_endian l'.
Proof. intros f g l l'. induction l as [|a l IH]; [reflexivity|]. cbn [flat_map List.app big_endian]. now rewrite IH. Qed.

Lemma save_inv : forall f m im bpp l, generic_save f m im bpp = Pnm l -> im_w im <> 0 /\ im_h im <> 0 /\ (bpp = 8 \/ bpp = 16 \/ bpp = 24) /\
  l = bytes_of (pnm_header (if bpp =? 24 then 3 else 1) (im_w im) (im_h im) bpp) ++ (if bpp =? 24 then bgr_tofrom_rgb (rows m im 3) else rows m im (bpp / 8)).
Proof.
  intros f m im bpp l H. unfold generic_save in H. destruct (Nat.eqb_spec (im_w im) 0); [discriminate|]. destruct (Nat.eqb_spec (im_h im) 0); [discriminate|].
  cbn [orb] in H. split; [assumption|]. split; [assumption|].
  destruct (Nat.eqb_spec bpp 8); [|destruct (Nat.eqb_spec bpp 16); [|destruct (Nat.eqb_spec bpp 24); [|discriminate]]]; (split; [tauto|]); subst bpp; cbn [Nat.eqb orb negb] in *;
    cbv zeta in H; destruct (get_extension f) as [e|]; try discriminate;
    destruct (strcasecmp_eq e ".png"); try discriminate; destruct (strcasecmp_eq e ".jpg"); try discriminate;
    destruct (strcasecmp_eq e ".pgm"); try (destruct (strcasecmp_eq e ".ppm"); try discriminate); congruence.
Qed.
(** 8-bit grayscale: the reader finds the size and the pixels of the image, whatever the distance between its rows *)
Theorem C85_gray : forall f m im l, generic_save f m im 8 = Pnm l ->
  read_netpbm l = Some (Netpbm 1 (Z.of_nat (im_w im)) (Z.of_nat (im_h im)) 255 (raster (im_w im) (im_h im) (gray8 m im))).
Proof.
  intros f m im l H. apply save_inv in H. destruct H as (_ & _ & _ & ->). cbn [Nat.eqb]. rewrite read_spec by tauto. cbn [Nat.eqb].
  change (8 / 8) with 1. rewrite rows_length, Nat.eqb_refl. do 2 f_equal. rewrite rows_raster. unfold raster. apply flat_map_ext. intro y. apply flat_map_ext. intro x.
  unfold gray8. cbn [seq map]. do 2 f_equal. lia.
Qed.
(** Color: the same, with the order red, green, blue *)
Theorem C85_color : forall f m im l, generic_save f m im 24 = Pnm l ->
  read_netpbm l = Some (Netpbm 3 (Z.of_nat (im_w im)) (Z.of_nat (im_h im)) 255 (raster (im_w im) (im_h im) (rgb8 m im))).
Proof.
  intros f m im l H. apply save_inv in H. destruct H as (_ & _ & _ & ->). cbn [Nat.eqb]. rewrite read_spec by tauto. cbn [Nat.eqb].
  rewrite (swap_length (im_w im * im_h im)) by (rewrite rows_length; lia). rewrite (proj2 (Nat.eqb_eq _ _)) by lia. do 2 f_equal. apply swap_raster.
Qed.
(** 16-bit grayscale: on a little-endian machine the reader finds the bytes of each pixel exchanged *)
Theorem C85_16bit_partial : forall f m im l, generic_save f m im 16 = Pnm l ->
  read_netpbm l = Some (Netpbm 1 (Z.of_nat (im_w im)) (Z.of_nat (im_h im)) 65535 (raster (im_w im) (im_h im)
    (fun x y => let a := im_data im + y * im_stride im + 2 * x in [(256 * m a + m (a + 1)%nat)%Z]))).
Proof.
  intros f m im l H. apply save_inv in H. destruct H as (_ & _ & _ & ->). cbn [Nat.eqb]. rewrite read_spec by tauto. cbn [Nat.eqb].
  change (16 / 8) with 2. rewrite rows_length, (proj2 (Nat.eqb_eq _ _)) by lia. do 2 f_equal. rewrite rows_raster. unfold raster.
  generalize (seq 0 (im_h im)) as ys. induction ys as [|y ys IH]; [reflexivity|]. cbn [flat_map seq map].
  rewrite (big_endian_app (fun x => m (im_data im + y * im_stride im + 2 * x + 0)) (fun x => m (im_data im + y * im_stride im + 2 * x + 1))). 
  cbn [seq map] in IH. rewrite IH. f_equal. apply flat_map_ext. intro x. cbv zeta. now rewrite Nat.add_0_r.
Qed.
(** so that the file doesn't have the pixels of the image: here 1 becomes 256 *)
Theorem C85_16bit_refuted : exists f m im l n, (forall a, 0 <= m a < 256)%Z /\ generic_save f m im 16 = Pnm l /\ read_netpbm l = Some n /\
  raster (im_w im) (im_h im) (gray16 m im) = [1%Z] /\ n_samples n = [256%Z].
Proof.
  exists "a.pgm"%string, (fun a : nat => match a with O => 1%Z | _ => 0%Z end), (Image 1 1 2 0).
  eexists. eexists. split; [intro a; destruct a; lia|]. split; [reflexivity|]. split; [reflexivity|]. split; reflexivity.
Qed.

(** ** When is there a file *)
Lemma sub_app : forall a b, substring (String.length a) (String.length b) (a ++ b)%string = b.
Proof. induction a as [|c a IH]; intro b; [induction b as [|d b IHb]; [reflexivity|cbn [String.length String.append] in *; cbn [substring] in *; now rewrite IHb]|]. cbn [String.length String.append substring]. apply IH. Qed.
Lemma length_app : forall a b, String.length (a ++ b)%string = String.length a + String.length b.
Proof. induction a as [|c a IH]; intro b; [reflexivity|]. cbn [String.append String.length Nat.add]. now rewrite IH. Qed.
Lemma sub_split : forall s k, k <= String.length s -> s = (substring 0 k s ++ substring k (String.length s - k) s)%string /\ String.length (substring 0 k s) = k.
Proof.
  assert (forall s, substring 0 (String.length s) s = s) as A by (induction s as [|c s IH]; [reflexivity|cbn [String.length substring]; now rewrite IH]).
  induction s as [|c s IH]; intros k K; [cbn in K; assert (k = 0) as -> by lia; split; reflexivity|].
  destruct k as [|k].
  - cbn [substring String.append String.length Nat.sub]. rewrite A. split; reflexivity.
  - cbn [String.length Nat.sub substring String.append]. destruct (IH k) as (E & L); [cbn [String.length] in K; lia|]. split; [now rewrite <- E|]. cbn [String.length]. now rewrite L.
Qed.
Lemma strcase_len : forall a b, strcasecmp_eq a b = true -> String.length a = String.length b.
Proof. induction a as [|x a IH]; intros [|y b] H; try discriminate; [reflexivity|]. cbn in H. apply andb_true_iff in H. cbn [String.length]. f_equal. now apply IH. Qed.
Lemma strcase_trans : forall e a b, strcasecmp_eq e a = true -> strcasecmp_eq e b = strcasecmp_eq a b.
Proof.
  induction e as [|x e IH]; intros [|y a] b H; try discriminate; [reflexivity|]. cbn [strcasecmp_eq] in H. apply andb_true_iff in H. destruct H as [H1 H2]. apply Ascii.eqb_eq in H1.
  destruct b as [|z b]; [reflexivity|]. cbn [strcasecmp_eq]. rewrite H1. f_equal. now apply IH.
Qed.
Definition pair_in (c d : ascii) : bool := existsb (fun q => Ascii.eqb (fst q) c && Ascii.eqb (snd q) d) alphabet.
Lemma pair_in_spec : forall c d, pair_in c d = true <-> In (c, d) alphabet.
Proof.
  intros c d. unfold pair_in. rewrite existsb_exists. split.
  - intros ((x & y) & H & E). cbn [fst snd] in E. apply andb_true_iff in E. destruct E as [E1 E2]. apply Ascii.eqb_eq in E1, E2. now subst.
  - intro H. exists (c, d). split; [exact H|]. cbn [fst snd]. now rewrite !Ascii.eqb_refl.
Qed.
Definition all_ascii : list ascii := map ascii_of_nat (seq 0 256).
Lemma in_all_ascii : forall c, In c all_ascii.
Proof. intro c. apply in_map_iff. exists (nat_of_ascii c). split; [apply ascii_nat_embedding|]. apply in_seq. pose proof (nat_ascii_bounded c). lia. Qed.
Lemma lower_table : forallb (fun c => forallb (fun d => Bool.eqb (Ascii.eqb (lower c) (lower d)) (Ascii.eqb c d || pair_in c d || pair_in d c)) all_ascii) all_ascii = true.
Proof. vm_compute. reflexivity. Qed.
Lemma lower_spec : forall c d, Ascii.eqb (lower c) (lower d) = true <-> same_letter c d.
Proof.
  intros c d. pose proof lower_table as T. rewrite forallb_forall in T. specialize (T c (in_all_ascii c)). rewrite forallb_forall in T. specialize (T d (in_all_ascii d)).
  apply Bool.eqb_prop in T. rewrite T. unfold same_letter. rewrite !orb_true_iff, !pair_in_spec, Ascii.eqb_eq. tauto.
Qed.
Lemma strcase_spec : forall a b, strcasecmp_eq a b = true <-> same_text a b.
Proof.
  unfold same_text. induction a as [|x a IH]; intros [|y b]; cbn [strcasecmp_eq list_ascii_of_string].
  - split; [constructor|reflexivity].
  - split; [discriminate|intro H; inversion H].
  - split; [discriminate|intro H; inversion H].
  - rewrite andb_true_iff, lower_spec, IH. split; [intros [H1 H2]; constructor; assumption|intro H; inversion H; split; assumption].
Qed.
Lemma extension_spec : forall f x, String.length x = 4 -> (exists e, get_extension f = Some e /\ strcasecmp_eq e x = true) <-> ends_in f x.
Proof.
  intros f x X. unfold get_extension, ends_in. split.
  - intros (e & H & E). destruct (Nat.ltb_spec (String.length f) 5); [discriminate|]. injection H as <-.
    destruct (sub_split f (String.length f - 4)) as (S1 & L); [lia|]. replace (String.length f - (String.length f - 4)) with 4 in S1 by lia.
    exists (substring 0 (String.length f - 4) f), (substring (String.length f - 4) 4 f). split; [exact S1|]. split; [|apply strcase_spec; exact E]. intro Q. rewrite Q in L. cbn in L. lia.
  - intros (base & e & -> & B & E). apply strcase_spec in E. exists e. split; [|exact E]. pose proof (strcase_len _ _ E) as L. rewrite X in L. rewrite length_app, L.
    destruct base as [|c base]; [contradiction|]. cbn [String.length]. destruct (Nat.ltb_spec (S (String.length base) + 4) 5); [lia|]. f_equal.
    replace (S (String.length base) + 4 - 4) with (String.length (String c base)) by (cbn [String.length]; lia). rewrite <- L. apply sub_app.
Qed.
(** A .pgm or .ppm file is written exactly if the image isn't empty, and the number of channels suits the extension *)
Theorem C85_when : forall f m im bpp, (exists l, generic_save f m im bpp = Pnm l) <->
  im_w im <> 0 /\ im_h im <> 0 /\ ((bpp = 8 \/ bpp = 16) /\ ends_in f ".pgm" \/ bpp = 24 /\ ends_in f ".ppm").
Proof.
  intros f m im bpp. split.
  - intros (l & H). pose proof (save_inv _ _ _ _ _ H) as (W & Hh & Bp & _). split; [exact W|]. split; [exact Hh|]. unfold generic_save in H.
    destruct (Nat.eqb_spec (im_w im) 0); [contradiction|]. destruct (Nat.eqb_spec (im_h im) 0); [contradiction|]. cbn [orb] in H.
    destruct Bp as [-> |[-> | ->]]; cbn [Nat.eqb orb negb] in H; cbv zeta in H; destruct (get_extension f) as [e|] eqn:G; try discriminate;
    destruct (strcasecmp_eq e ".png"); try discriminate; destruct (strcasecmp_eq e ".jpg"); try discriminate;
    destruct (strcasecmp_eq e ".pgm") eqn:P1; try discriminate; try (destruct (strcasecmp_eq e ".ppm") eqn:P2; try discriminate);
    first [left; split; [tauto|]; apply extension_spec; [reflexivity|]; exists e; split; [exact G|exact P1]
          |right; split; [reflexivity|]; apply extension_spec; [reflexivity|]; exists e; split; [exact G|exact P2]].
  - intros (W & Hh & C). unfold generic_save. destruct (Nat.eqb_spec (im_w im) 0); [contradiction|]. destruct (Nat.eqb_spec (im_h im) 0); [contradiction|]. cbn [orb]. cbv zeta.
    destruct C as [(Bp & E)|(-> & E)]; apply extension_spec in E; try reflexivity; destruct E as (e & -> & E); rewrite !(strcase_trans _ _ _ E).
    + change (strcasecmp_eq ".pgm" ".png") with false. change (strcasecmp_eq ".pgm" ".jpg") with false. change (strcasecmp_eq ".pgm" ".pgm") with true.
      destruct Bp as [-> | ->]; cbn [Nat.eqb orb negb]; eexists; reflexivity.
    + change (strcasecmp_eq ".ppm" ".png") with false. change (strcasecmp_eq ".ppm" ".jpg") with false. change (strcasecmp_eq ".ppm" ".pgm") with false. change (strcasecmp_eq ".ppm" ".ppm") with true.
      cbn [Nat.eqb orb negb]. eexists. reflexivity.
Qed.

(** ** Access to the pixels *)
(** If the stride is a multiple of the size of a pixel, at() is the address of the pixel, and a pixel of a crop is the pixel of the whole image *)
Theorem C85_at_partial : forall T im x0 y0 w h x y, T <> 0 -> Nat.divide T (im_stride im) ->
  at_ T im x y = im_data im + y * im_stride im + T * x /\
  at_ T (crop T im x0 y0 w h) x y = at_ T im (x0 + x) (y0 + y) /\ im_w (crop T im x0 y0 w h) = w /\ im_h (crop T im x0 y0 w h) = h.
Proof.
  intros T im x0 y0 w h x y HT (s & E). assert (forall im x y s, im_stride im = s * T -> at_ T im x y = im_data im + y * im_stride im + T * x) as A.
  { intros im' x' y' s' E'. unfold at_. rewrite E'. replace (y' * (s' * T)) with (y' * s' * T) by lia. rewrite Nat.div_mul by exact HT. lia. }
  split; [apply (A _ _ _ s E)|]. split; [|split; reflexivity].
  rewrite (A (crop T im x0 y0 w h) x y s) by exact E. rewrite (A im (x0 + x) (y0 + y) s) by exact E. unfold crop. cbn [im_data im_stride]. rewrite (A im x0 y0 s) by exact E. lia.
Qed.
(** Otherwise it isn't: in a color image whose rows are padded to 4 bytes, mrcal_image_bgr_at() finds other bytes than those that mrcal_image_bgr_save() writes *)
Theorem C85_at_refuted : exists im, im_w im = 1 /\ im_h im = 2 /\ 3 * im_w im <= im_stride im /\ at_ 3 im 0 1 <> im_data im + 1 * im_stride im.
Proof. exists (Image 1 2 4 0). cbn. repeat split; lia. Qed.
(** A crop is saved as this part of the image *)
Theorem C85_crop_saved : forall f m im x0 y0 w h l, generic_save f m (crop 1 im x0 y0 w h) 8 = Pnm l ->
  read_netpbm l = Some (Netpbm 1 (Z.of_nat w) (Z.of_nat h) 255 (raster w h (fun x y => gray8 m im (x0 + x) (y0 + y)))).
Proof.
  intros f m im x0 y0 w h l H. rewrite (C85_gray _ _ _ _ H). unfold crop. cbn [im_w im_h]. do 2 f_equal. unfold raster. apply flat_map_ext. intro y. apply flat_map_ext. intro x.
  unfold gray8, at_. cbn [im_data im_stride]. rewrite Nat.div_1_r. do 2 f_equal. lia.
Qed.

(** a 3x2 image, with padded rows *)
Example ex_C85 : exists l, generic_save "image.PGM" (fun a => Z.of_nat a) (Image 3 2 4 100) 8 = Pnm l /\
  read_netpbm l = Some (Netpbm 1 3 2 255 [100; 101; 102; 104; 105; 106]%Z).
Proof. eexists. split; reflexivity. Qed.
Example ex_C85_color : exists l, generic_save "image.ppm" (fun a => Z.of_nat a) (Image 2 2 8 100) 24 = Pnm l /\
  read_netpbm l = Some (Netpbm 3 2 2 255 [102; 101; 100; 105; 104; 103; 110; 109; 108; 113; 112; 111]%Z).
Proof. eexists. split; reflexivity. Qed.

Print Assumptions C85_gray.
Print Assumptions C85_color.
Print Assumptions C85_16bit_partial.
Print Assumptions C85_16bit_refuted.
Print Assumptions C85_when.
Print Assumptions C85_at_partial.
Print Assumptions C85_at_refuted.
Print Assumptions C85_crop_saved.
