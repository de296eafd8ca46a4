(** * SpecOrd: the order of the floating-point numbers. *)
From Coq Require Import ZArith Bool.
From Flocq Require Import Core IEEE754.BinarySingleNaN.

Section Order.
  Context {prec emax : Z}.
  Notation bf := (binary_float prec emax).
  (** [x <= y] as the hardware compares: neither is a NaN, infinities are the ends, the zeros are equal *)
  Definition leq (x y : bf) : Prop := Bleb x y = true.
  Definition less (x y : bf) : Prop := Bltb x y = true.
  Definition number (x : bf) : Prop := is_nan x = false.
  Definition zero : bf := B754_zero false.
  (** a finite number above zero, a finite number that is not negative *)
  Definition positive (x : bf) : Prop := less zero x /\ is_finite x = true.
  Definition nonneg (x : bf) : Prop := leq zero x /\ is_finite x = true.
  (** a library function that keeps order *)
  Definition increasing (f : bf -> bf) : Prop := forall x y, leq x y -> leq (f x) (f y).
  (** at most as far from zero *)
  Definition closer (x y : bf) : Prop := is_finite x = true /\ is_finite y = true /\ leq (Babs x) (Babs y).
  (** of two accelerations along a coordinate [x], both point to the centre and [b] is at least as large *)
  Definition pulls (x a b : bf) : Prop := (leq zero x -> leq b a /\ leq a zero) /\ (leq x zero -> leq a b /\ leq zero a).
End Order.
