(** synthetic_data.py:842-929, normalize_indices() inside make_tracks(): points
    seen too few times and camera poses seeing too few points are culled until
    nothing changes, and what remains is renumbered.  Arrays are lists; a Python
    exception is [Raise]. *)
From Coq Require Import ZArith List Bool.
Import ListNotations.
Open Scope Z_scope.

(** a row of indices_point_camintrinsics_camextrinsics *)
Record row := { ip : Z; ci : Z; ce : Z }.

(** *** numpy *)
Definition count (x : Z) (l : list Z) : Z := Z.of_nat (length (filter (Z.eqb x) l)).
Fixpoint insert (x : Z) (l : list Z) : list Z :=
  match l with
  | [] => [x]
  | y :: r => if x <? y then x :: l else if x =? y then l else y :: insert x r
  end.
(** np.unique(): the distinct values, sorted *)
Definition unique (l : list Z) : list Z := fold_right insert [] l.
(** np.unique(return_inverse=True): the position of each value in unique() *)
Fixpoint position (x : Z) (l : list Z) : Z :=
  match l with [] => 0 | y :: r => if x =? y then 0 else 1 + position x r end.
Definition inverse (l : list Z) : list Z := map (fun x => position x (unique l)) l.
(** np.isin(a, s) *)
Definition isin (a s : list Z) : list bool := map (fun x => existsb (Z.eqb x) s) a.
(** a[mask] *)
Fixpoint select {A} (mask : list bool) (l : list A) : list A :=
  match mask, l with
  | b :: mask, x :: l => if b then x :: select mask l else select mask l
  | _, _ => []
  end.
(** a[idx] with idx >= 0: an IndexError if out of range *)
Fixpoint take {A} (l : list A) (idx : list Z) : option (list A) :=
  match idx with
  | [] => Some []
  | i :: idx =>
      match nth_error l (Z.to_nat i), take l idx with
      | Some x, Some r => Some (x :: r)
      | _, _ => None
      end
  end.

Section Tracks.
Context {P C Ob : Type}. (* points, camera poses, pixel observations *)
Variables Npoint_observations_min Ncam_observing_min Nobservations_min : Z.

Inductive result :=
| Raise
| OutOfFuel
| Done (indices : list row) (points : list P) (rt_cam_ref : list C) (observations : list Ob).

(** idx[counts >= n] of np.unique(v, return_counts) (lines 868-871, 881-884) *)
Definition frequent (n : Z) (v : list Z) : list Z := filter (fun x => n <=? count x v) (unique v).

Definition llen {A} (l : list A) : Z := Z.of_nat (length l).
Definition all_true (m : list bool) : bool := forallb (fun b => b) m.

(** lines 864-893: the loop *)
Fixpoint cull (fuel : nat) (rows : list row) (obs : list Ob) : option (option (list row * list Ob)) :=
  match fuel with
  | O => None
  | S fuel =>
      let mask := isin (map ip rows) (frequent Npoint_observations_min (map ip rows)) in
      let rows1 := select mask rows in
      let obs1 := select mask obs in
      let any_removed := negb (all_true mask) in
      if llen rows1 <? Nobservations_min then Some None else
      let mask := isin (map ce rows1) (frequent Ncam_observing_min (map ce rows1)) in
      let rows2 := select mask rows1 in
      let obs2 := select mask obs1 in
      let any_removed := any_removed || negb (all_true mask) in
      if llen rows2 <? Nobservations_min then Some None else
      if any_removed then cull fuel rows2 obs2 else Some (Some (rows2, obs2))
  end.

(** lines 858-929 *)
Definition normalize_indices (fuel : nat) (rows : list row) (points : list P) (rt_cam_ref : list C) (obs : list Ob) : result :=
  if llen rows <? Nobservations_min then Raise
  else if existsb (fun r => (ip r <? 0) || (ci r <? 0) || (ce r <? 0)) rows then Raise
  else
    match cull fuel rows obs with
    | None => OutOfFuel
    | Some None => Raise
    | Some (Some (rows, obs)) =>
        let ipoint := inverse (map ip rows) in
        match take points (unique (map ip rows)) with
        | None => Raise
        | Some points =>
            let cami := inverse (map ci rows) in
            match unique (map ci rows) with
            | [0] =>
                let came := inverse (map ce rows) in
                match take rt_cam_ref (unique (map ce rows)) with
                | None => Raise
                | Some rt_cam_ref =>
                    Done (map (fun t => {| ip := fst (fst t); ci := snd (fst t); ce := snd t |})
                              (combine (combine ipoint cami) came))
                         points rt_cam_ref obs
                end
            | _ => Raise
            end
        end
    end.
End Tracks.
