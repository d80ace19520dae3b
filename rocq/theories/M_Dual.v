(** Model: the automatic-differentiation type of _autodiff.hh.

    The C++ code is a template over the number of gradients: the same source is
    run with plain values (NGRAD=0) and with values carrying gradients.  The
    model does the same: code is written once over an interface [numops] and
    instantiated with [realops] (values only) and [dualops] (values with
    gradients).  Numbers are exact reals; [j k] is the k-th gradient
    (k >= NGRAD: never looked at). *)
From Coq Require Import Reals.
From Verif Require Import S_Vec.
Open Scope R_scope.

(** C's atan2() *)
Definition Ratan2 (y x : R) : R :=
  if Rlt_dec 0 x then atan (y / x)
  else if Rlt_dec x 0 then (if Rle_dec 0 y then atan (y / x) + PI else atan (y / x) - PI)
  else if Rlt_dec 0 y then PI / 2 else if Rlt_dec y 0 then - (PI / 2) else 0.

Record numops := {
  num : Type;
  nval : num -> R;                       (* .x *)
  nconst : R -> num;                     (* val_withgrad_t(double) *)
  nadd : num -> num -> num;  naddc : num -> R -> num;
  nsub : num -> num -> num;  nsubc : num -> R -> num;
  nmul : num -> num -> num;  nmulc : num -> R -> num;
  ndiv : num -> num -> num;
  nsqrt : num -> num;
  nsquare : num -> num;
  nsin : num -> num;  ncos : num -> num;  ntan : num -> num;
  natan2 : num -> num -> num;            (* y.atan2(x) *)
  nasin : num -> num;  nacos : num -> num
}.

(** NGRAD = 0: val_withgrad_t<0> is a plain double *)
Definition realops : numops := {|
  num := R; nval := fun x => x; nconst := fun c => c;
  nadd := Rplus; naddc := Rplus; nsub := Rminus; nsubc := Rminus; nmul := Rmult; nmulc := Rmult;
  ndiv := Rdiv; nsqrt := sqrt; nsquare := fun x => x * x; nsin := sin; ncos := cos;
  ntan := fun x => sin x / cos x;        (* y.x = s/c *)
  natan2 := Ratan2; nasin := asin; nacos := acos |}.

Record dual := Dual { dx : R; dj : nat -> R }.
(** _autodiff.hh:32-36 *)
Definition d_const (c : R) : dual := Dual c (fun _ => 0).
(** :38-58 *)
Definition d_add (a b : dual) : dual := Dual (dx a + dx b) (fun i => dj a i + dj b i).
Definition d_addc (a : dual) (b : R) : dual := Dual (dx a + b) (dj a).
(** :59-79 *)
Definition d_sub (a b : dual) : dual := Dual (dx a - dx b) (fun i => dj a i - dj b i).
Definition d_subc (a : dual) (b : R) : dual := Dual (dx a - b) (dj a).
(** :85-112 *)
Definition d_mul (a b : dual) : dual := Dual (dx a * dx b) (fun i => dj a i * dx b + dx a * dj b i).
Definition d_mulc (a : dual) (b : R) : dual := Dual (dx a * b) (fun i => dj a i * b).
(** :113-121 *)
Definition d_div (a b : dual) : dual := Dual (dx a / dx b) (fun i => (dj a i * dx b - dx a * dj b i) / (dx b * dx b)).
(** :137-145 *)
Definition d_sqrt (a : dual) : dual := Dual (sqrt (dx a)) (fun i => dj a i / (2 * sqrt (dx a))).
(** :147-155 *)
Definition d_square (a : dual) : dual := Dual (dx a * dx a) (fun i => 2 * dx a * dj a i).
(** :157-197 (sin, cos, sincos) *)
Definition d_sin (a : dual) : dual := Dual (sin (dx a)) (fun i => cos (dx a) * dj a i).
Definition d_cos (a : dual) : dual := Dual (cos (dx a)) (fun i => - sin (dx a) * dj a i).
(** :199-207 *)
Definition d_tan (a : dual) : dual := Dual (sin (dx a) / cos (dx a)) (fun i => dj a i / (cos (dx a) * cos (dx a))).
(** :209-225 *)
Definition d_atan2 (y x : dual) : dual :=
  Dual (Ratan2 (dx y) (dx x)) (fun i => (dj y i * dx x - dx y * dj x i) / (dx y * dx y + dx x * dx x)).
(** :230-239 *)
Definition d_asin (a : dual) : dual := Dual (asin (dx a)) (fun i => 1 / sqrt (1 - dx a * dx a) * dj a i).
(** :244-253 *)
Definition d_acos (a : dual) : dual := Dual (acos (dx a)) (fun i => -1 / sqrt (1 - dx a * dx a) * dj a i).

Definition dualops : numops := {|
  num := dual; nval := dx; nconst := d_const;
  nadd := d_add; naddc := d_addc; nsub := d_sub; nsubc := d_subc; nmul := d_mul; nmulc := d_mulc;
  ndiv := d_div; nsqrt := d_sqrt; nsquare := d_square; nsin := d_sin; ncos := d_cos; ntan := d_tan;
  natan2 := d_atan2; nasin := d_asin; nacos := d_acos |}.

Section Derived.
Variable O : numops.
Notation N := (num O).
(** :122-126: operator/(double b): multiplies by 1./b *)
Definition ndivc (a : N) (b : R) : N := nmulc O a (1 / b).
(** :80-84 *)
Definition nneg (a : N) : N := nmulc O a (-1).
(** :255-278: sinx_over_x(sinx) *)
Definition nsinx_over_x (x sinx : N) : N :=
  if Rlt_dec (Rabs (nval O x)) (1 / 100000) then nconst O 1 else ndiv O sinx x.

(** vec_withgrad_t<N,3> *)
Record nv3 := NV3 { n_x : N; n_y : N; n_z : N }.
Definition nvmap2 (f : N -> N -> N) (a b : nv3) := NV3 (f (n_x a) (n_x b)) (f (n_y a) (n_y b)) (f (n_z a) (n_z b)).
Definition nvmap (f : N -> N) (a : nv3) := NV3 (f (n_x a)) (f (n_y a)) (f (n_z a)).
Definition nvadd := nvmap2 (nadd O).
Definition nvsub := nvmap2 (nsub O).
(** operator*(val), operator*(double), operator/(val) *)
Definition nvmul (a : nv3) (k : N) := nvmap (fun x => nmul O x k) a.
Definition nvmulc (a : nv3) (k : R) := nvmap (fun x => nmulc O x k) a.
Definition nvdiv (a : nv3) (k : N) := nvmap (fun x => ndiv O x k) a.
(** :496-506: d += x.v[i]*v[i], starting from 0 *)
Definition nvdot (a b : nv3) : N :=
  nadd O (nadd O (nadd O (nconst O 0) (nmul O (n_x b) (n_x a))) (nmul O (n_y b) (n_y a))) (nmul O (n_z b) (n_z a)).
(** :508-516, :553-565 *)
Definition nvcross (a b : nv3) : nv3 := NV3
  (nsub O (nmul O (n_y a) (n_z b)) (nmul O (n_z a) (n_y b)))
  (nsub O (nmul O (n_z a) (n_x b)) (nmul O (n_x a) (n_z b)))
  (nsub O (nmul O (n_x a) (n_y b)) (nmul O (n_y a) (n_x b))).
Definition nvnorm2 (a : nv3) : N := nvdot a a.
Definition nvmag (a : nv3) : N := nsqrt O (nvnorm2 a).
Definition nvval (a : nv3) : v3 := V3 (nval O (n_x a)) (nval O (n_y a)) (nval O (n_z a)).
Definition nvconst (a : v3) : nv3 := NV3 (nconst O (vx a)) (nconst O (vy a)) (nconst O (vz a)).
End Derived.
Arguments NV3 {O}. Arguments n_x {O}. Arguments n_y {O}. Arguments n_z {O}.

(** init_vars() (:289-308): variable i of the gradient vector *)
Definition d_var (x : R) (i : nat) : dual := Dual x (fun k => if Nat.eqb k i then 1 else 0).
Definition d_vars (x : v3) (i0 : nat) : nv3 dualops :=
  @NV3 dualops (d_var (vx x) i0) (d_var (vy x) (S i0)) (d_var (vz x) (S (S i0))).
