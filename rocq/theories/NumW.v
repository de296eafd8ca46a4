(** * NumW: floating-point arithmetic that gives up near the ends of its range.

    The same operations as an IEEE format, each rounded as there, but an
    operation returns [None] when its result is not finite, when it is below
    [2^(K+1)] times the smallest normal number or at least [2^(emax-K)], or when a
    product or quotient of nonzero numbers rounds to zero; and when an operand is
    [None].  A comparison with [None] is true.  So a result
    [Some x] was computed without overflow and without underflow, with room to
    multiply every intermediate result by any factor from [2^-K] to [2^K].
    Not part of the program: used to say for which inputs a change of units is
    harmless ([PropsUnits]). *)
From Coq Require Import ZArith Bool.
From Flocq Require Import Core IEEE754.BinarySingleNaN.
From Verif Require Import Num.

Section Window.
  Context {prec emax : Z}.
  Notation bf := (binary_float prec emax).

  Definition is_zero (x : bf) : bool := match x with B754_zero _ => true | _ => false end.
  (** the exponent of the leading bit; the least normal number has exponent [2 - emax] *)
  Definition lead (m : positive) (e : Z) : Z := (e + Z.log2 (Zpos m))%Z.
  Definition inside (K : Z) (x : bf) : bool :=
    match x with B754_finite _ m e _ => ((2 - emax + K <? lead m e) && (lead m e <? emax - K))%Z | _ => false end.
  Definition keep (ok : bool) (x : bf) : option bf := if ok then Some x else None.

  Definition w1 (f : bf -> bf) (chk : bf -> bf -> bool) (a : option bf) : option bf :=
    match a with Some x => keep (chk x (f x)) (f x) | None => None end.
  Definition w2 (f : bf -> bf -> bf) (chk : bf -> bf -> bf -> bool) (a b : option bf) : option bf :=
    match a, b with Some x, Some y => keep (chk x y (f x y)) (f x y) | _, _ => None end.

  Definition Num_W (N : Num bf) (K : Z) : Num (option bf) := {|
    n_Z := fun z => keep (is_finite (n_Z z)) (n_Z z);
    n_dec := fun p q => keep (is_finite (n_dec p q)) (n_dec p q);
    n_pi := keep (is_finite n_pi) n_pi;
    n_add := w2 n_add (fun _ _ r => is_zero r || inside K r);
    n_sub := w2 n_sub (fun _ _ r => is_zero r || inside K r);
    n_mul := w2 n_mul (fun x y r => is_zero r && (is_zero x || is_zero y) || inside K r);
    n_div := w2 n_div (fun x _ r => is_zero r && is_zero x || inside K r);
    n_neg := w1 n_neg (fun _ _ => true);
    n_abs := w1 n_abs (fun _ _ => true);
    n_sqrt := w1 n_sqrt (fun x r => is_zero r && is_zero x || inside K r);
    n_cbrt := w1 n_cbrt (fun _ r => is_finite r);
    n_sin := w1 n_sin (fun _ r => is_finite r);
    n_cos := w1 n_cos (fun _ r => is_finite r);
    n_sinh := w1 n_sinh (fun _ r => is_finite r);
    n_cosh := w1 n_cosh (fun _ r => is_finite r);
    n_log := w1 n_log (fun _ r => is_finite r);
    n_arccos := w1 n_arccos (fun _ r => is_finite r);
    n_arctan2 := w2 n_arctan2 (fun _ _ r => is_finite r);
    n_floor := w1 n_floor (fun _ r => is_finite r);
    n_max := w2 n_max (fun _ _ _ => true);
    n_lt := fun a b => match a, b with Some x, Some y => n_lt x y | _, _ => true end
  |}.
End Window.
