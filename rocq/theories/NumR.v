(** * NumR: exact real arithmetic as an instance of [Num] *)
From Coq Require Import Reals ZArith.
From Verif Require Import Num.
Local Open Scope R_scope.

(** Two-argument arctangent with range (-PI, PI]; [atan2 0 0 = 0] as IEEE does for
    two positive zeros. *)
Definition atan2 (y x : R) : R :=
  if Rlt_dec 0 x then atan (y / x)
  else if Rlt_dec x 0 then
    (if Rle_dec 0 y then atan (y / x) + PI else atan (y / x) - PI)
  else if Rlt_dec 0 y then PI / 2
  else if Rlt_dec y 0 then - (PI / 2)
  else 0.

(** Real cube root, odd. *)
Definition cbrt (x : R) : R :=
  if Rlt_dec 0 x then exp (ln x / 3)
  else if Rlt_dec x 0 then - exp (ln (- x) / 3)
  else 0.

(** Largest integer not above [x]. *)
Definition floorR (x : R) : R := IZR (Int_part x).

Definition ltb (x y : R) : bool := if Rlt_dec x y then true else false.

Global Instance Num_R : Num R := {
  n_Z := IZR;
  n_dec := fun p q => IZR p / IZR (Zpos q);
  n_pi := PI;
  n_add := Rplus;
  n_sub := Rminus;
  n_mul := Rmult;
  n_div := Rdiv;
  n_neg := Ropp;
  n_abs := Rabs;
  n_sqrt := sqrt;
  n_cbrt := cbrt;
  n_sin := sin;
  n_cos := cos;
  n_sinh := sinh;
  n_cosh := cosh;
  n_log := ln;
  n_arccos := acos;
  n_arctan2 := atan2;
  n_floor := floorR;
  n_max := Rmax;
  n_lt := ltb
}.
