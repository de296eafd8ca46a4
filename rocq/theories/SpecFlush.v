(** * SpecFlush: three runs of a computation that agree.

    Written without reference to the model of the program. *)
From Coq Require Import ZArith Bool List String.
From Flocq Require Import Core IEEE754.BinarySingleNaN.
From Verif Require Import Num NumF.

Section Agree.
  Context {prec emax : Z}.
  Notation bf := (binary_float prec emax).
  (** if the guarded computation produced [c], both others produced [c] *)
  Definition agree (guarded : option bf) (a b : bf) : Prop := forall c : bf, guarded = Some c -> a = c /\ b = c.
  Definition vagree (g : V3 (option bf)) (a b : V3 bf) : Prop := agree (c0 g) (c0 a) (c0 b) /\ agree (c1 g) (c1 a) (c1 b) /\ agree (c2 g) (c2 a) (c2 b).
  Definition magree (g : M3 (option bf)) (a b : M3 bf) : Prop := vagree (c0 g) (c0 a) (c0 b) /\ vagree (c1 g) (c1 a) (c1 b) /\ vagree (c2 g) (c2 a) (c2 b).
  (** no entry is subnormal or within a factor of two of that *)
  Definition vplain (a : V3 bf) : Prop := plain (c0 a) = true /\ plain (c1 a) = true /\ plain (c2 a) = true.
  Definition lplain (l : list bf) : Prop := Forall (fun a => plain a = true) l.
  Definition dplain (d : list (string * bf)) : Prop := Forall (fun p => plain (snd p) = true) d.
End Agree.
