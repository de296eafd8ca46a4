(** * SpecSwap: exchanging the first two axes.

    Written without reference to the model of the program. *)
From Verif Require Import Num.

Section Swap.
  Context {A : Type}.
  (** exchange the first two entries of a vector *)
  Definition exchange (a : V3 A) : V3 A := mk3 (c1 a) (c0 a) (c2 a).
  (** the last two entries instead *)
  Definition exchange_last (a : V3 A) : V3 A := mk3 (c0 a) (c2 a) (c1 a).
End Swap.
(** exchange the first two rows and the first two columns of a matrix *)
Definition mexchange {A : Type} (B : M3 A) : M3 A := mk3 (exchange (c1 B)) (exchange (c0 B)) (exchange (c2 B)).
