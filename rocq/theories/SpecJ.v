(** * SpecJ: vocabulary of the properties about Python numbers and int32 arrays. *)
From Coq Require Import ZArith Reals.
From Flocq Require Import Core IEEE754.BinarySingleNaN.
From Verif Require Import NumB32 NumB64 NumJ.
Local Open Scope R_scope.

(** [v] is a Python number or an array that stands for the real number [x], and can be used with int32 and
    float32 arrays *)
Definition stands (v : val) (x : R) : Prop :=
  match v with
  | PyI z => x = IZR z /\ (- 2 ^ 31 <= z < 2 ^ 31)%Z
  | I32 z => x = IZR z /\ (- 2 ^ 31 <= z < 2 ^ 31)%Z
  | PyF f => x = B2R f /\ is_finite f = true
  | F32 f => x = B2R f /\ is_finite f = true
  | Exc _ => False
  end.

(** the signed 32 bit residue *)
Definition residue (z : Z) : Z := let w := (z mod 2 ^ 32)%Z in if (w <? 2 ^ 31)%Z then w else (w - 2 ^ 32)%Z.
