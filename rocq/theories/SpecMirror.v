(** * SpecMirror: reflections of states and of matrices of floating-point numbers.

    Written without reference to the model of the program. *)
From Coq Require Import ZArith Bool.
From Flocq Require Import IEEE754.BinarySingleNaN.
From Verif Require Import Num.

Section Mirror.
  Context {prec emax : Z}.
  Notation bf := (binary_float prec emax).

  (** the same number: identical, or zeros of either sign (NaN is the same as NaN) *)
  Definition fsame (a b : bf) : Prop := a = b \/ exists s t, a = B754_zero s /\ b = B754_zero t.
  (** change the sign, or not *)
  Definition fflip (s : bool) (a : bf) : bf := if s then Bopp a else a.
  (** reflect in the coordinate planes chosen by [s] *)
  Definition reflect (s : V3 bool) (a : V3 bf) : V3 bf :=
    mk3 (fflip (c0 s) (c0 a)) (fflip (c1 s) (c1 a)) (fflip (c2 s) (c2 a)).
  Definition vsame (a b : V3 bf) : Prop := fsame (c0 a) (c0 b) /\ fsame (c1 a) (c1 b) /\ fsame (c2 a) (c2 b).
  (** [b] is the matrix of the linear map [a] between mirrored spaces, with the sign [c] *)
  Definition mreflect (c : bool) (s : V3 bool) (A : M3 bf) : M3 bf :=
    let row k r := mk3 (fflip (xorb c (xorb k (c0 s))) (c0 r)) (fflip (xorb c (xorb k (c1 s))) (c1 r)) (fflip (xorb c (xorb k (c2 s))) (c2 r)) in
    mk3 (row (c0 s) (c0 A)) (row (c1 s) (c1 A)) (row (c2 s) (c2 A)).
  Definition msame (A B : M3 bf) : Prop := vsame (c0 A) (c0 B) /\ vsame (c1 A) (c1 B) /\ vsame (c2 A) (c2 B).
End Mirror.
