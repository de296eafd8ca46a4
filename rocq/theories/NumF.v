(** * NumF: floating-point arithmetic that flushes subnormal numbers to zero.

    JAX on the CPU runs XLA with the processor's flush-to-zero and
    denormals-are-zero switches set.  [Num_F N]: the operations of [N], with a
    subnormal operand read as a zero of the same sign and a subnormal result
    replaced by one; a change of sign, which only touches one bit, and constants
    are as in [N].  A simplification: the switches act on every rounded operation
    inside the functions of the math library as well, here only on their
    arguments and results.

    [Num_G N] is not the program: it computes as [N] and gives up ([None]) as soon
    as a result is subnormal or within a factor of two of the subnormal range;
    comparisons with [None] are true. *)
From Coq Require Import ZArith Bool.
From Flocq Require Import Core IEEE754.BinarySingleNaN.
From Verif Require Import Num NumW.

Section Flush.
  Context {prec emax : Z}.
  Notation bf := (binary_float prec emax).
  (** the least normal number is [2^(2 - emax)] *)
  Definition subnormal (x : bf) : bool := match x with B754_finite _ m e _ => (lead m e <? 2 - emax)%Z | _ => false end.
  Definition flush (x : bf) : bf := if subnormal x then B754_zero (Bsign x) else x.
  Definition f1 (f : bf -> bf) (a : bf) : bf := flush (f (flush a)).
  Definition f2 (f : bf -> bf -> bf) (a b : bf) : bf := flush (f (flush a) (flush b)).
  Definition Num_F (N : Num bf) : Num bf := {|
    n_Z := n_Z; n_dec := n_dec; n_pi := n_pi;
    n_add := f2 n_add; n_sub := f2 n_sub; n_mul := f2 n_mul; n_div := f2 n_div;
    n_neg := n_neg; n_abs := n_abs; n_sqrt := f1 n_sqrt; n_cbrt := f1 n_cbrt;
    n_sin := f1 n_sin; n_cos := f1 n_cos; n_sinh := f1 n_sinh; n_cosh := f1 n_cosh;
    n_log := f1 n_log; n_arccos := f1 n_arccos; n_arctan2 := f2 n_arctan2;
    n_floor := f1 n_floor; n_max := f2 n_max;
    n_lt := fun a b => n_lt (flush a) (flush b)
  |}.

  (** zero, infinite, NaN, or at least twice the least normal number *)
  Definition plain (x : bf) : bool := match x with B754_finite _ m e _ => (2 - emax <? lead m e)%Z | _ => true end.
  Definition Num_G (N : Num bf) : Num (option bf) :=
    let g1 := fun f => w1 f (fun _ r => plain r) in
    let g2 := fun f => w2 f (fun _ _ r => plain r) in {|
    n_Z := fun z => keep (plain (n_Z z)) (n_Z z);
    n_dec := fun p q => keep (plain (n_dec p q)) (n_dec p q);
    n_pi := keep (plain n_pi) n_pi;
    n_add := g2 n_add; n_sub := g2 n_sub; n_mul := g2 n_mul; n_div := g2 n_div;
    n_neg := w1 n_neg (fun _ _ => true); n_abs := w1 n_abs (fun _ _ => true); n_sqrt := g1 n_sqrt; n_cbrt := g1 n_cbrt;
    n_sin := g1 n_sin; n_cos := g1 n_cos; n_sinh := g1 n_sinh; n_cosh := g1 n_cosh;
    n_log := g1 n_log; n_arccos := g1 n_arccos; n_arctan2 := g2 n_arctan2;
    n_floor := g1 n_floor; n_max := g2 n_max;
    n_lt := fun a b => match a, b with Some x, Some y => n_lt x y | _, _ => true end
  |}.
End Flush.
