(** Model: the cross-reprojection uncertainty kernel.
    Source: /repo/uncertainty.c:128-1541 (accumulate_Jcross_t__Jpackedthing,
    accumulate_rt_block, accumulate_point, get_Nstate_intrinsics_in_jacobian_row,
    _mrcal_drt_cross_reprojection__dbpacked), /repo/minimath/minimath-extra.h:14-150
    and the only caller, /repo/mrcal-pywrap.c:2006-2112.
    - [double] is modelled by R.
    - The caller allocates one zeroed matrix K of shape (6,Nstate) and passes
      the pointers Kpackede = &K[0,state_index_extrinsics0] etc. (NULL if that
      kind of variable is not optimized), so the four output arrays are modelled
      by one [K : row -> state index -> value].  The wrapper and the function
      compute the NULL-ness and the offsets from the same state_index functions.
    - The sparse Jacobian is a list of rows, each a list of (column, value).
      Reading a column past the end of a row happens in the C code for an empty
      row only; the C code then looks at the next row, and reports an unexpected
      structure.  Here such a row is refused.
    - Loops whose iterations write different elements are written pointwise;
      accumulations into the packed symmetric matrix are executed in order. *)
From Coq Require Import ZArith List Bool Reals Arith.
From Verif Require Import M_Lens M_Layout M_Pack S_Vec M_Pose.
Import ListNotations.

(** minimath-extra.h:35-52 *)
Definition index_sym66_assume_upper (i j : nat) : nat := ((6 * 2 - i - 1) * i / 2 + j)%nat.
Definition index_sym66 (i j : nat) : nat :=
  if (i <=? j)%nat then index_sym66_assume_upper i j else ((6 * 2 - j - 1) * j / 2 + i)%nat.
(** minimath-extra.h:14-31 *)
Definition index_sym33 (i j : nat) : nat :=
  if (i <=? j)%nat then ((3 * 2 - i - 1) * i / 2 + j)%nat else ((3 * 2 - j - 1) * j / 2 + i)%nat.

Open Scope R_scope.

(** a[k] += x *)
Definition acc (a : nat -> R) (kx : nat * R) : nat -> R :=
  fun n => if (n =? fst kx)%nat then a n + snd kx else a n.
Definition acc_all (a : nat -> R) (l : list (nat * R)) : nat -> R := fold_left acc l a.
(** for(i=0; i<n; i++) for(j=0; j<m; j++) *)
Definition loop2 (n m : nat) : list (nat * nat) := flat_map (fun i => map (fun j => (i, j)) (seq 0 m)) (seq 0 n).
(** for(i=0; i<n; i++) for(j=i; j<n; j++) *)
Definition loop_upper (n : nat) : list (nat * nat) := flat_map (fun i => map (fun j => (i, j)) (seq i (n - i))) (seq 0 n).

(** minimath-extra.h:53-75 mul_gen33_gen33insym66; [A i k] is A[iout*strideelems0 + k*strideelems1] *)
Definition mul_gen33_gen33insym66 (A : nat -> nat -> R) (B : nat -> R) (i0 j0 : nat) (scale : R) (i j : nat) : R :=
  (0 + A i 0%nat * B (index_sym66 (0 + i0) (j + j0)) + A i 1%nat * B (index_sym66 (1 + i0) (j + j0))
     + A i 2%nat * B (index_sym66 (2 + i0) (j + j0))) * scale.
(** minimath-extra.h:77-104: only the elements of the upper triangle are touched *)
Definition mul_gen33_gen33_into33insym66_accum (P : nat -> R) (i0 j0 : nat) (A B : nat -> nat -> R) (scale : R) : nat -> R :=
  acc_all P
    (flat_map (fun ij => let '(i, j) := ij in
       if (j + j0 <? i + i0)%nat then [] else
       map (fun k => (index_sym66_assume_upper (i + i0) (j + j0), A i k * B k j * scale)) (seq 0 3)) (loop2 3 3)).
(** minimath-extra.h:106-117: what is added to P *)
Definition set_gen33_from_gen33insym66 (M : nat -> R) (i0 j0 : nat) (scale : R) (i j : nat) : R :=
  M (index_sym66 (i + i0) (j + j0)) * scale.
(** minimath-extra.h:119-141 *)
Definition set_33insym66_from_gen33_accum (P : nat -> R) (i0 j0 : nat) (M : nat -> nat -> R) (scale : R) : nat -> R :=
  acc_all P
    (flat_map (fun ij => let '(i, j) := ij in
       if (j + j0 <? i + i0)%nat then [] else
       [(index_sym66_assume_upper (i + i0) (j + j0), M i j * scale)]) (loop2 3 3)).

(** the inlined products skew(t) M: uncertainty.c:166-187, 383-404, 415-436, 628-650 *)
Definition skew_times (t : v3) (M : nat -> nat -> R) (i j : nat) : R :=
  match i with
  | O => (- vz t) * M 1%nat j + vy t * M 2%nat j
  | S O => vz t * M 0%nat j + (- vx t) * M 2%nat j
  | _ => (- vy t) * M 0%nat j + vx t * M 1%nat j
  end.
(** the inlined products M skew(t): uncertainty.c:513-535, 675-697 *)
Definition times_skew (M : nat -> nat -> R) (t : v3) (i j : nat) : R :=
  match j with
  | O => M i 1%nat * vz t + M i 2%nat * (- vy t)
  | S O => M i 0%nat * (- vz t) + M i 2%nat * vx t
  | _ => M i 0%nat * vy t + M i 1%nat * (- vx t)
  end.
(** the loop around it: int ivalue=0; for(i..) { for(j=i;j<3;j++, ivalue++) [..]; ivalue += 3; } *)
Fixpoint ivalue_rows (rows : list nat) (iv : nat) : list (nat * nat * nat) :=
  match rows with
  | [] => []
  | i :: rest =>
    map (fun k => (i, i + k, iv + k)%nat) (seq 0 (3 - i)) ++ ivalue_rows rest (iv + (3 - i) + 3)
  end.

Definition mat := (nat -> Z -> R)%type.
(** [+=] on columns col..col+n-1 of rows 0..5 *)
Definition acc_cols (K : mat) (col : Z) (n : Z) (inc : nat -> nat -> R) : mat :=
  fun i c => if ((col <=? c) && (c <? col + n))%Z then K i c + inc i (Z.to_nat (c - col)) else K i c.

(** uncertainty.c:128-197: what is added to Jcross_t__Jpackedthing; S is the dense (6,Ncols) sum *)
Definition Jcross_t__Jpackedthing (t : v3) (dr : m33) (sr st : R) (Sm : nat -> nat -> R) (i j : nat) : R :=
  if (i <? 3)%nat
  then (Sm 0%nat j * mget dr 0 i * (1 / sr) + Sm 1%nat j * mget dr 1 i * (1 / sr) + Sm 2%nat j * mget dr 2 i * (1 / sr))
       + skew_times t (fun k => Sm (k + 3)%nat) i j / st
  else Sm i j / st.

(** uncertainty.c:199-576 accumulate_rt_block.  [c]: first column of "this"; [fcol],
    [pcol], [cwcol]: the columns of the other outputs, [None]: NULL *)
Section RtBlock.
  Context (S_this : nat -> R) (S_rt S_p S_cw : nat -> nat -> R).
  Context (b_packed : Z -> R) (c : Z) (sr st : R).
  Let r := V3 (b_packed c * sr) (b_packed (c + 1)%Z * sr) (b_packed (c + 2)%Z * sr).
  Let t := V3 (b_packed (c + 3)%Z * st) (b_packed (c + 4)%Z * st) (b_packed (c + 5)%Z * st).
  Let dr := compose_r_tinyr0_gradientr0 r.
  Definition rt_A (i j : nat) : R :=
    mul_gen33_gen33insym66 (fun i k => mget dr k i) S_this 0 0 (1 / sr) i j
    + skew_times t (fun k j => S_this (index_sym66 (k + 3) j)) i j / st.
  Definition rt_B (i j : nat) : R :=
    mul_gen33_gen33insym66 (fun i k => mget dr k i) S_this 0 3 (1 / sr) i j
    + skew_times t (fun k j => S_this (index_sym66 (k + 3) (j + 3))) i j / st.
  (** [A B; C D] *)
  Definition rt_this (i j : nat) : R :=
    if (i <? 3)%nat
    then if (j <? 3)%nat then rt_A i j else rt_B i (j - 3)
    else if (j <? 3)%nat then set_gen33_from_gen33insym66 S_this 3 0 (1 / st) (i - 3) j
         else set_gen33_from_gen33insym66 S_this 3 3 (1 / st) (i - 3) (j - 3).
  Definition rt_JtJ (JtJ : nat -> R) : nat -> R :=
    let JtJ := mul_gen33_gen33_into33insym66_accum JtJ 0 0 rt_A (mget dr) (1 / sr) in
    let JtJ := acc_all JtJ (map (fun x => let '(i, j, iv) := x in (iv, - (times_skew rt_B t i j / st))) (ivalue_rows (seq 0 3) 0)) in
    let JtJ := set_33insym66_from_gen33_accum JtJ 0 3 rt_B (1 / st) in
    let i0 := index_sym66_assume_upper 3 3 in
    acc_all JtJ (map (fun i => (i, S_this i / (st * st))) (seq i0 ((6 + 1) * 6 / 2 - i0))).
  Definition accumulate_rt_block (fcol pcol cwcol : option Z) (KJ : mat * (nat -> R)) : mat * (nat -> R) :=
    let K := acc_cols (fst KJ) c 6 rt_this in
    let K := match fcol with None => K | Some f => acc_cols K f 6 (Jcross_t__Jpackedthing t dr sr st S_rt) end in
    let K := match pcol with None => K | Some q => acc_cols K q 3 (Jcross_t__Jpackedthing t dr sr st S_p) end in
    let K := match cwcol with None => K | Some w => acc_cols K w 2 (Jcross_t__Jpackedthing t dr sr st S_cw) end in
    (K, rt_JtJ (snd KJ)).
End RtBlock.

(** uncertainty.c:579-770 accumulate_point *)
Section Point.
  Context (S_pp : nat -> R) (b_packed : Z -> R) (c : Z).
  Let pp := V3 (b_packed c) (b_packed (c + 1)%Z) (b_packed (c + 2)%Z).
  Let sp := scale S_point.
  Definition pt_A (i j : nat) : R := skew_times pp (fun k j => S_pp (index_sym33 k j)) i j.
  Definition pt_B (i j : nat) : R := S_pp (index_sym33 i j) / sp.
  Definition pt_this (i j : nat) : R := if (i <? 3)%nat then pt_A i j else pt_B (i - 3) j.
  Definition pt_JtJ (JtJ : nat -> R) : nat -> R :=
    let JtJ := acc_all JtJ (map (fun x => let '(i, j, iv) := x in (iv, - times_skew pt_A pp i j)) (ivalue_rows (seq 0 3) 0)) in
    let JtJ := set_33insym66_from_gen33_accum JtJ 0 3 pt_A (1 / sp) in
    let i0 := index_sym66_assume_upper 3 3 in
    acc_all JtJ (map (fun i => (i, S_pp (i - i0)%nat / (sp * sp))) (seq i0 ((6 + 1) * 6 / 2 - i0))).
  Definition accumulate_point (KJ : mat * (nat -> R)) : mat * (nat -> R) :=
    (acc_cols (fst KJ) c 3 pt_this, pt_JtJ (snd KJ)).
End Point.

(** ** mapping out a row: uncertainty.c:1100-1185 *)
Definition jrow := list (Z * R).
(** x0 <= state_index && state_index < x0 + n *)
Definition in_block (x0 n c : Z) : bool := ((x0 <=? c) && (c <? x0 + n))%Z.
(** ival_... : the rest of the row from that entry on *)
Record mapped := { m_icam : Z; m_e : option jrow; m_f : option jrow; m_p : option jrow; m_w : option jrow }.
Inductive scan := Next (m : mapped) (rest : jrow) | Break (reached_end : bool) (m : mapped).
Definition visit (x0 n : Z) (adv : nat) (put : mapped -> jrow -> mapped) (s : scan) : scan :=
  match s with
  | Break _ _ => s
  | Next m rest =>
    match rest with
    | [] => s
    | (c, _) :: _ =>
      if in_block x0 n c
      then if (adv <? length rest)%nat then Next (put m rest) (skipn adv rest)
           else Break (adv =? length rest)%nat (put m rest)
      else s
    end
  end.
(** Jcolidx[ival_...], or -1 *)
Definition col_of (o : option jrow) : Z := match o with Some ((c, _) :: _) => c | _ => -1 end.
(** Jval[ival_... + k] *)
Definition val_of (o : option jrow) (k : nat) : R := match o with Some l => nth k (map snd l) 0 | None => 0 end.

Section Kernel.
  Context (p : problem).
  Let i0 := state_index_intrinsics p 0.
  Let e0 := state_index_extrinsics p 0.
  Let f0 := state_index_frames p 0.
  Let p0 := state_index_points p 0.
  Let w0 := state_index_warp p.
  Let Ni := num_states_intrinsics p.
  Let Ni_percam := (Ni / p_Nci p)%Z.

  (** uncertainty.c:772-796: how many of the leading entries of the first row are intrinsics *)
  Fixpoint leading_intrinsics (row : jrow) : nat :=
    match row with
    | [] => 0
    | (c, _) :: rest => if in_block i0 Ni c then S (leading_intrinsics rest) else 0
    end.

  Definition put_i (m : mapped) (l : jrow) :=
    {| m_icam := match l with (c, _) :: _ => (c - i0) / Ni_percam | [] => -1 end; m_e := m_e m; m_f := m_f m; m_p := m_p m; m_w := m_w m |}%Z.
  Definition put_e (m : mapped) (l : jrow) := {| m_icam := m_icam m; m_e := Some l; m_f := m_f m; m_p := m_p m; m_w := m_w m |}.
  Definition put_f (m : mapped) (l : jrow) := {| m_icam := m_icam m; m_e := m_e m; m_f := Some l; m_p := m_p m; m_w := m_w m |}.
  Definition put_p (m : mapped) (l : jrow) := {| m_icam := m_icam m; m_e := m_e m; m_f := m_f m; m_p := Some l; m_w := m_w m |}.
  Definition put_w (m : mapped) (l : jrow) := {| m_icam := m_icam m; m_e := m_e m; m_f := m_f m; m_p := m_p m; m_w := Some l |}.
  Definition map_row (nintr : nat) (row : jrow) : option mapped :=
    let s := Next {| m_icam := -1; m_e := None; m_f := None; m_p := None; m_w := None |} row in
    let s := visit i0 Ni nintr put_i s in
    let s := visit e0 (num_states_extrinsics p) 6 put_e s in
    let s := visit f0 (num_states_frames p) 6 put_f s in
    let s := visit p0 (num_states_points p) 3 put_p s in
    let s := visit w0 (num_states_warp p) (Z.to_nat (num_states_warp p)) put_w s in
    match s with
    | Break true m => match m_f m, m_p m with Some _, Some _ => None | _, _ => Some m end
    | _ => None
    end.

  (** ** the chunks: uncertainty.c:1010-1090 *)
  Record sums := { s_ee : nat -> R; s_ef : nat -> nat -> R; s_ep : nat -> nat -> R; s_ecw : nat -> nat -> R;
                   s_ff : nat -> R; s_fcw : nat -> nat -> R; s_pp : nat -> R }.
  Record state := { a_cam : Z; a_frame : Z; a_point : Z; a_frame_for_cam : Z; a_point_for_cam : Z;
                    sm : sums; out : mat * (nat -> R) }.
  Definition z1 : nat -> R := fun _ => 0.
  Definition z2 : nat -> nat -> R := fun _ _ => 0.
  Definition sums0 : sums := {| s_ee := z1; s_ef := z2; s_ep := z2; s_ecw := z2; s_ff := z1; s_fcw := z2; s_pp := z1 |}.
  Definition start : state :=
    {| a_cam := -1; a_frame := -1; a_point := -1; a_frame_for_cam := -1; a_point_for_cam := -1;
       sm := sums0; out := (fun _ _ => 0, z1) |}.

  Context (b_packed : Z -> R) (icam_intrinsics : Z).
  Definition ccp : bool := (0 <=? icam_intrinsics)%Z.
  (** Kpackedcw != NULL: mrcal-pywrap.c:2087 *)
  Definition cw_col : option Z := if (0 <=? w0)%Z then Some w0 else None.
  (** Kpackedf + (state_index - state_index_frames0), etc. *)
  Definition opt_col (c : Z) : option Z := if (0 <=? c)%Z then Some c else None.

  (** the three calls: uncertainty.c:1228-1256 = 1464-1486, 1264-1282 = 1488-1503, 1292-1300 = 1505-1512 *)
  Definition flush_cam (s : state) : mat * (nat -> R) :=
    accumulate_rt_block (s_ee (sm s)) (s_ef (sm s)) (s_ep (sm s)) (s_ecw (sm s)) b_packed (a_cam s)
      (scale S_rot_cam) (scale S_trans_cam)
      (opt_col (a_frame_for_cam s)) (opt_col (a_point_for_cam s)) cw_col (out s).
  Definition flush_frame (s : state) : mat * (nat -> R) :=
    accumulate_rt_block (s_ff (sm s)) z2 z2 (s_fcw (sm s)) b_packed (a_frame s)
      (scale S_rot_frame) (scale S_trans_frame) None None cw_col (out s).
  Definition flush_point (s : state) : mat * (nat -> R) :=
    accumulate_point (s_pp (sm s)) b_packed (a_point s) (out s).

  Definition set_out (s : state) (sm' : sums) (o : mat * (nat -> R)) : state :=
    {| a_cam := a_cam s; a_frame := a_frame s; a_point := a_point s; a_frame_for_cam := a_frame_for_cam s;
       a_point_for_cam := a_point_for_cam s; sm := sm'; out := o |}.
  Definition clear_cam (x : sums) := {| s_ee := z1; s_ef := z2; s_ep := z2; s_ecw := z2; s_ff := s_ff x; s_fcw := s_fcw x; s_pp := s_pp x |}.
  Definition clear_frame (x : sums) := {| s_ee := s_ee x; s_ef := s_ef x; s_ep := s_ep x; s_ecw := s_ecw x; s_ff := z1; s_fcw := z2; s_pp := s_pp x |}.
  Definition clear_point (x : sums) := {| s_ee := s_ee x; s_ef := s_ef x; s_ep := s_ep x; s_ecw := s_ecw x; s_ff := s_ff x; s_fcw := s_fcw x; s_pp := z1 |}.

  Definition is_some {T} (o : option T) : bool := match o with Some _ => true | None => false end.
  Section Step.
    Context (m : mapped).
    Let cam_here := col_of (m_e m).
    Let frame_here := col_of (m_f m).
    Let point_here := col_of (m_p m).
    (** uncertainty.c:1218-1256 *)
    Definition maybe_flush_cam (s : state) : state :=
      if ((0 <=? a_cam s) && (negb (a_cam s =? cam_here) || negb (a_frame_for_cam s =? frame_here)
                              || negb (a_point_for_cam s =? point_here)))%Z
      then set_out s (clear_cam (sm s)) (flush_cam s) else s.
    (** uncertainty.c:1258-1284 *)
    Definition maybe_flush_frame (s : state) : state :=
      if ((0 <=? a_frame s) && (negb (a_frame s =? frame_here) || (ccp && is_some (m_e m))))%Z
      then set_out s (clear_frame (sm s)) (flush_frame s) else s.
    (** uncertainty.c:1286-1302 *)
    Definition maybe_flush_point (s : state) : state :=
      if ((0 <=? a_point s) && (negb (a_point s =? point_here) || (ccp && is_some (m_e m))))%Z
      then set_out s (clear_point (sm s)) (flush_point s) else s.
    (** uncertainty.c:1305-1329 *)
    Definition select (s : state) : state :=
      if ccp then
        if is_some (m_e m) then
          {| a_cam := cam_here; a_frame := -1; a_point := -1; a_frame_for_cam := frame_here; a_point_for_cam := point_here;
             sm := sm s; out := out s |}
        else
          {| a_cam := -1; a_frame := frame_here; a_point := point_here; a_frame_for_cam := a_frame_for_cam s;
             a_point_for_cam := a_point_for_cam s; sm := sm s; out := out s |}
      else
        {| a_cam := a_cam s; a_frame := frame_here; a_point := point_here; a_frame_for_cam := a_frame_for_cam s;
           a_point_for_cam := a_point_for_cam s; sm := sm s; out := out s |}.
    (** for(i, ivalue=0..) for(j=i..) sum[ivalue++] += x[i]*x[j] *)
    Definition add_upper (n : nat) (a : nat -> R) (x : nat -> R) : nat -> R :=
      acc_all a (map (fun kij => (fst kij, x (fst (snd kij)) * x (snd (snd kij))))
                     (combine (seq 0 (length (loop_upper n))) (loop_upper n))).
    (** sum[i,j] += x[i]*y[j] *)
    Definition add_dense (a : nat -> nat -> R) (x y : nat -> R) : nat -> nat -> R := fun i j => a i j + x i * y j.
    (** uncertainty.c:1332-1460 *)
    Definition add_measurement (s : state) : state :=
      let x := sm s in
      if (0 <=? a_cam s)%Z then
        let e := val_of (m_e m) in
        set_out s {| s_ee := add_upper 6 (s_ee x) e;
                     s_ef := if is_some (m_f m) then add_dense (s_ef x) e (val_of (m_f m)) else s_ef x;
                     s_ep := if is_some (m_p m) then add_dense (s_ep x) e (val_of (m_p m)) else s_ep x;
                     s_ecw := if is_some (m_w m) then add_dense (s_ecw x) e (val_of (m_w m)) else s_ecw x;
                     s_ff := s_ff x; s_fcw := s_fcw x; s_pp := s_pp x |} (out s)
      else
        let fr := (0 <=? a_frame s)%Z in
        let f := val_of (m_f m) in
        let x1 := if fr then
                    {| s_ee := s_ee x; s_ef := s_ef x; s_ep := s_ep x; s_ecw := s_ecw x;
                       s_ff := add_upper 6 (s_ff x) f;
                       s_fcw := if is_some (m_w m) then add_dense (s_fcw x) f (val_of (m_w m)) else s_fcw x;
                       s_pp := s_pp x |} else x in
        if fr && negb (is_some (m_w m)) then set_out s x1 (out s)       (* continue *)
        else if (0 <=? a_point s)%Z then
          set_out s {| s_ee := s_ee x1; s_ef := s_ef x1; s_ep := s_ep x1; s_ecw := s_ecw x1;
                       s_ff := s_ff x1; s_fcw := s_fcw x1; s_pp := add_upper 3 (s_pp x1) (val_of (m_p m)) |} (out s)
        else set_out s x1 (out s).
    Definition step (s : state) : state :=
      add_measurement (select (maybe_flush_point (maybe_flush_frame (maybe_flush_cam s)))).
  End Step.

  (** uncertainty.c:1186-1216: [None]: return false *)
  Definition one_row (nintr : nat) (row : jrow) (s : state) : option state :=
    match map_row nintr row with
    | None => None
    | Some m =>
      if xorb (is_some (m_w m)) (is_some cw_col) then None
      else if ccp then
             if (m_icam m <? 0)%Z then None
             else if (icam_intrinsics =? m_icam m)%Z then Some (step m s) else Some s
           else Some (step m s)
    end.
  Fixpoint all_rows (nintr : nat) (rows : list jrow) (s : state) : option state :=
    match rows with
    | [] => Some s
    | row :: rest => match one_row nintr row s with None => None | Some s' => all_rows nintr rest s' end
    end.
  (** uncertainty.c:1462-1512 *)
  Definition finish (s : state) : mat * (nat -> R) :=
    let s := if (0 <=? a_cam s)%Z then set_out s (sm s) (flush_cam s) else s in
    let s := if (0 <=? a_frame s)%Z then set_out s (sm s) (flush_frame s) else s in
    let s := if (0 <=? a_point s)%Z then set_out s (sm s) (flush_point s) else s in
    out s.

  (** uncertainty.c:950-990 *)
  Definition refused : bool :=
    ((0 <=? f0) && (0 <=? w0) && negb (w0 =? f0 + num_states_frames p)
     || (f0 <? 0) && (e0 <? 0))%Z.
  (** uncertainty.c:812-1512: everything up to the linear solve; [obs_rows] are the rows of the
      board and point measurements, the first Nmeas_obs ones *)
  Definition accumulated (obs_rows : list jrow) : option (mat * (nat -> R)) :=
    if refused then None else
    match all_rows (leading_intrinsics (hd [] obs_rows)) obs_rows start with
    | None => None
    | Some s => Some (finish s)
    end.

  (** dpptrf_/dpptrs_ (LAPACK): packed storage of the symmetric matrix and a right hand side; [None]: info != 0 *)
  Context (pp_solve : (nat -> R) -> (nat -> R) -> option (nat -> R)) (pp_factor_ok : (nat -> R) -> bool).
  (** FINALIZE, uncertainty.c:1527-1549: the columns of one kind of variables *)
  Definition finalize_col (JtJ : nat -> R) (K : mat) (c : Z) : option (nat -> R) :=
    match pp_solve JtJ (fun i => K i c) with None => None | Some x => Some (fun i => - x i) end.
  Fixpoint finalize (JtJ : nat -> R) (cols : list Z) (K : mat) : option mat :=
    match cols with
    | [] => Some K
    | c :: rest =>
      match finalize_col JtJ K c with
      | None => None
      | Some x => finalize JtJ rest (fun i c' => if (c' =? c)%Z then x i else K i c')
      end
    end.
  Definition cols_of (x0 n : Z) : list Z := if (0 <=? x0)%Z then M_Callback.zrange x0 n else [].
  Definition drt_cross_reprojection__dbpacked (obs_rows : list jrow) : option mat :=
    match accumulated obs_rows with
    | None => None
    | Some (K, JtJ) =>
      if negb (pp_factor_ok JtJ) then None else
      finalize JtJ (cols_of e0 (num_states_extrinsics p) ++ cols_of f0 (num_states_frames p)
                    ++ cols_of p0 (num_states_points p) ++ cols_of w0 (num_states_warp p)) K
    end.
End Kernel.
