(** * SpecUnits: a floating-point number in other units.

    Written without reference to the model of the program, except for the type of
    the results of the force models ([res]: a value or a Python exception). *)
From Coq Require Import ZArith Reals Bool List String.
From Flocq Require Import Core IEEE754.BinarySingleNaN.
From Verif Require Import Num Gravity.
Local Open Scope Z_scope.
Local Open Scope string_scope.

Section Units.
  Context {prec emax : Z}.
  Notation bf := (binary_float prec emax).
  (** [b] is [a] times [2^k]: both finite, with the same sign (of zeros too) and the same significand *)
  Definition scaled (k : Z) (a b : bf) : Prop :=
    is_finite a = true /\ is_finite b = true /\ Bsign b = Bsign a /\ B2R b = (B2R a * bpow radix2 k)%R.
  Definition vscaled (k : Z) (a b : V3 bf) : Prop := scaled k (c0 a) (c0 b) /\ scaled k (c1 a) (c1 b) /\ scaled k (c2 a) (c2 b).
  Definition mscaled (k : Z) (a b : M3 bf) : Prop := vscaled k (c0 a) (c0 b) /\ vscaled k (c1 a) (c1 b) /\ vscaled k (c2 a) (c2 b).
  (** if the guarded computation produced [c], the ordinary one produced [c] too, and [c * 2^k] in the other units *)
  Definition follows (k : Z) (guarded : option bf) (a b : bf) : Prop := forall c : bf, guarded = Some c -> a = c /\ scaled k c b.
  Definition vfollows (k : Z) (g : V3 (option bf)) (a b : V3 bf) : Prop := follows k (c0 g) (c0 a) (c0 b) /\ follows k (c1 g) (c1 a) (c1 b) /\ follows k (c2 g) (c2 a) (c2 b).
  Definition mfollows (k : Z) (g : M3 (option bf)) (a b : M3 bf) : Prop := vfollows k (c0 g) (c0 a) (c0 b) /\ vfollows k (c1 g) (c1 a) (c1 b) /\ vfollows k (c2 g) (c2 a) (c2 b).
  (** every entry is there *)
  Definition vsome (a : V3 bf) : V3 (option bf) := mk3 (Some (c0 a)) (Some (c1 a)) (Some (c2 a)).

  (** ** arguments of the force models
      With lengths times [2^lam] and times times [2^tau]: the exponent of each entry of the dictionary *)
  Definition unit_of (lam tau : Z) (key : string) : Z :=
    if String.eqb key "mu" then 3 * lam - 2 * tau else if (String.eqb key "R_eq" || String.eqb key "rmin")%bool then lam else 0%Z.
  Definition dscaled (lam tau : Z) (d d' : list (string * bf)) : Prop :=
    Forall2 (fun p q => fst q = fst p /\ scaled (unit_of lam tau (fst p)) (snd p) (snd q)) d d'.
  Definition dsome (d : list (string * bf)) : list (string * option bf) := map (fun p => (fst p, Some (snd p))) d.
  (** the first three entries of a state are lengths; there are as many entries *)
  Definition xscaled (lam : Z) (x x' : list bf) : Prop := List.length x' = List.length x /\ Forall2 (scaled lam) (firstn 3 x) (firstn 3 x').
  (** [arctan2] of two numbers in the same unit does not depend on the unit *)
  Definition hom2 (f : bf -> bf -> bf) : Prop := forall (k : Z) (y y' x x' : bf), scaled k y y' -> scaled k x x' -> f y' x' = f y x.
  (** results of the force models: the same for three runs, or the same exception *)
  Definition rfollows {G A : Type} (P : G -> A -> A -> Prop) (g : res G) (a b : res A) : Prop :=
    match g, a, b with Ok g, Ok a, Ok b => P g a b | Raise e, Raise e1, Raise e2 => e1 = e /\ e2 = e | _, _, _ => False end.
End Units.
