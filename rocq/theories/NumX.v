(** * NumX: exact arithmetic with IEEE-style exceptional values

    Two instances of [Num] in which division by zero and domain errors are visible.

    [Num_X]: reals extended by two infinities and NaN, following IEEE 754 and the
    documented special cases of [jnp.sqrt], [jnp.log], [jnp.arccos], [jnp.arctan2], ....
    Simplifications: no rounding, no overflow, and one zero, which counts as +0
    (in round-to-nearest, [x - x] is +0, so that [1 / (2/r - v**2/mu)] of a
    zero-energy state is +inf).

    [Num_S]: "signalling" arithmetic.  A value is [Some r], or [None] if any operation
    used to compute it was exceptional (result infinite or NaN); once [None], always
    [None].  A result [Some r] therefore says that every intermediate quantity was
    a finite number. *)
From Coq Require Import Reals ZArith.
From Verif Require Import Num NumR.
Local Open Scope R_scope.

Inductive X : Type := Fin (r : R) | PInf | NInf | NaN.

Definition x_signed (pos : bool) : X := if pos then PInf else NInf.
Definition x_is_neg (r : R) : bool := ltb r 0.

Definition x_add (a b : X) : X :=
  match a, b with
  | Fin x, Fin y => Fin (x + y)
  | NaN, _ | _, NaN => NaN
  | PInf, NInf | NInf, PInf => NaN
  | PInf, _ | _, PInf => PInf
  | NInf, _ | _, NInf => NInf
  end.
Definition x_neg (a : X) : X :=
  match a with Fin x => Fin (- x) | PInf => NInf | NInf => PInf | NaN => NaN end.
Definition x_sub (a b : X) : X :=
  match a, b with Fin x, Fin y => Fin (x - y) | _, _ => x_add a (x_neg b) end.
(* infinity times a real *)
Definition x_scale_inf (pos : bool) (r : R) : X :=
  if Req_EM_T r 0 then NaN else x_signed (xorb pos (x_is_neg r)).
Definition x_mul (a b : X) : X :=
  match a, b with
  | Fin x, Fin y => Fin (x * y)
  | NaN, _ | _, NaN => NaN
  | PInf, PInf | NInf, NInf => PInf
  | PInf, NInf | NInf, PInf => NInf
  | PInf, Fin r | Fin r, PInf => x_scale_inf true r
  | NInf, Fin r | Fin r, NInf => x_scale_inf false r
  end.
Definition x_div (a b : X) : X :=
  match a, b with
  | Fin x, Fin y =>
      if Req_EM_T y 0 then
        (if Req_EM_T x 0 then NaN else x_signed (negb (x_is_neg x)))
      else Fin (x / y)
  | NaN, _ | _, NaN => NaN
  | Fin _, _ => Fin 0
  | PInf, Fin y => x_signed (negb (x_is_neg y))
  | NInf, Fin y => x_signed (x_is_neg y)
  | _, _ => NaN
  end.
Definition x_abs (a : X) : X :=
  match a with Fin x => Fin (Rabs x) | NaN => NaN | _ => PInf end.
(* total functions with given limits at the infinities *)
Definition x_map (f : R -> R) (at_pinf at_ninf : X) (a : X) : X :=
  match a with Fin x => Fin (f x) | PInf => at_pinf | NInf => at_ninf | NaN => NaN end.
Definition x_sqrt (a : X) : X :=
  match a with Fin x => if Rlt_dec x 0 then NaN else Fin (sqrt x) | PInf => PInf | _ => NaN end.
Definition x_log (a : X) : X :=
  match a with
  | Fin x => if Rlt_dec x 0 then NaN else if Req_EM_T x 0 then NInf else Fin (ln x)
  | PInf => PInf | _ => NaN end.
Definition x_arccos (a : X) : X :=
  match a with
  | Fin x => if Rlt_dec x (-1) then NaN else if Rlt_dec 1 x then NaN else Fin (acos x)
  | _ => NaN end.
Definition x_arctan2 (a b : X) : X :=
  match a, b with
  | Fin y, Fin x => Fin (atan2 y x)
  | NaN, _ | _, NaN => NaN
  | Fin y, PInf => Fin 0
  | Fin y, NInf => Fin (if x_is_neg y then - PI else PI)
  | PInf, Fin _ => Fin (PI / 2)
  | NInf, Fin _ => Fin (- (PI / 2))
  | PInf, PInf => Fin (PI / 4)
  | PInf, NInf => Fin (3 * PI / 4)
  | NInf, PInf => Fin (- (PI / 4))
  | NInf, NInf => Fin (- (3 * PI / 4))
  end.
Definition x_max (a b : X) : X :=
  match a, b with
  | Fin x, Fin y => Fin (Rmax x y)
  | NaN, _ | _, NaN => NaN
  | PInf, _ | _, PInf => PInf
  | NInf, c | c, NInf => c
  end.
Definition x_lt (a b : X) : bool :=
  match a, b with
  | Fin x, Fin y => ltb x y
  | NaN, _ | _, NaN => false
  | NInf, NInf | PInf, _ | _, NInf => false
  | NInf, _ | _, PInf => true
  end.

Definition Num_X : Num X := {|
  n_Z := fun z => Fin (IZR z);
  n_dec := fun p q => Fin (IZR p / IZR (Zpos q));
  n_pi := Fin PI;
  n_add := x_add;
  n_sub := x_sub;
  n_mul := x_mul;
  n_div := x_div;
  n_neg := x_neg;
  n_abs := x_abs;
  n_sqrt := x_sqrt;
  n_cbrt := x_map cbrt PInf NInf;
  n_sin := x_map sin NaN NaN;
  n_cos := x_map cos NaN NaN;
  n_sinh := x_map sinh PInf NInf;
  n_cosh := x_map cosh PInf PInf;
  n_log := x_log;
  n_arccos := x_arccos;
  n_arctan2 := x_arctan2;
  n_floor := x_map floorR PInf NInf;
  n_max := x_max;
  n_lt := x_lt
|}.

(** Signalling arithmetic. *)
Definition s_map (f : R -> R) (a : option R) : option R :=
  match a with Some x => Some (f x) | None => None end.
Definition s_map2 (f : R -> R -> R) (a b : option R) : option R :=
  match a, b with Some x, Some y => Some (f x y) | _, _ => None end.
Definition s_div (a b : option R) : option R :=
  match a, b with Some x, Some y => if Req_EM_T y 0 then None else Some (x / y) | _, _ => None end.
Definition s_sqrt (a : option R) : option R :=
  match a with Some x => if Rlt_dec x 0 then None else Some (sqrt x) | None => None end.
Definition s_log (a : option R) : option R :=
  match a with Some x => if Rlt_dec 0 x then Some (ln x) else None | None => None end.
Definition s_arccos (a : option R) : option R :=
  match a with
  | Some x => if Rlt_dec x (-1) then None else if Rlt_dec 1 x then None else Some (acos x)
  | None => None end.
Definition s_lt (a b : option R) : bool :=
  match a, b with Some x, Some y => ltb x y | _, _ => false end.

Definition Num_S : Num (option R) := {|
  n_Z := fun z => Some (IZR z);
  n_dec := fun p q => Some (IZR p / IZR (Zpos q));
  n_pi := Some PI;
  n_add := s_map2 Rplus;
  n_sub := s_map2 Rminus;
  n_mul := s_map2 Rmult;
  n_div := s_div;
  n_neg := s_map Ropp;
  n_abs := s_map Rabs;
  n_sqrt := s_sqrt;
  n_cbrt := s_map cbrt;
  n_sin := s_map sin;
  n_cos := s_map cos;
  n_sinh := s_map sinh;
  n_cosh := s_map cosh;
  n_log := s_log;
  n_arccos := s_arccos;
  n_arctan2 := s_map2 atan2;
  n_floor := s_map floorR;
  n_max := s_map2 Rmax;
  n_lt := s_lt
|}.
