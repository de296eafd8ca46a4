(** * Dt: the dtypes of jax, and what [lax.cond] and [lax.while_loop] ask of them.

    Only the signed integers and floats of 32 and 64 bits and the weak types of Python scalars are modelled; no
    booleans, no unsigned, 8 or 16 bit types, no complex numbers.  The rules are jax's documented ones ("Type
    promotion semantics"): on these types the promotion lattice is the chain
    int* < int32 < int64 < float* < float32 < float64, where * is a weak type.  Shapes and values are in
    [Nd] and in the other instances; here a value is its dtype. *)
From Coq Require Import Bool List String.
Import ListNotations.

Inductive dt : Type := IntW | Int32 | Int64 | FloatW | Float32 | Float64.

Definition dt_eqb (a b : dt) : bool :=
  match a, b with
  | IntW, IntW | Int32, Int32 | Int64, Int64 | FloatW, FloatW | Float32, Float32 | Float64, Float64 => true
  | _, _ => false
  end.

Definition rank (d : dt) : nat :=
  match d with IntW => 0 | Int32 => 1 | Int64 => 2 | FloatW => 3 | Float32 => 4 | Float64 => 5 end.

(** the dtype of [x + y], [x - y], [x * y] *)
Definition join (a b : dt) : dt := if Nat.leb (rank a) (rank b) then b else a.

(** integers become floats of the same width in [/], [sqrt], [sin], ... ([promote_dtypes_inexact]) *)
Definition inexact (d : dt) : dt :=
  match d with IntW => FloatW | Int32 => Float32 | Int64 => Float64 | f => f end.

Definition over (a b : dt) : dt := inexact (join a b).

Definition weak (d : dt) : bool := match d with IntW | FloatW => true | _ => false end.

(** the dtype an array of this type has in memory; [x64] is [jax_enable_x64] *)
Definition stored (x64 : bool) (d : dt) : dt :=
  match d with
  | IntW => if x64 then Int64 else Int32
  | FloatW => if x64 then Float64 else Float32
  | d => d
  end.

(** without [jax_enable_x64] there are no 64 bit arrays *)
Definition exists_in (x64 : bool) (d : dt) : bool :=
  x64 || match d with Int64 | Float64 => false | _ => true end.

Inductive answer : Type := Typed (d : dt) | TypeError (msg : string).

Definition and_then (a : answer) (k : dt -> answer) : answer :=
  match a with Typed d => k d | TypeError m => TypeError m end.
Notation "'let*' x ':=' a 'in' b" := (and_then a (fun x => b)) (at level 200, x name, a at level 100, b at level 200).

Section Control.
  Variable x64 : bool.
  (** Which of two types with equal stored dtypes the result of [lax.cond] or [lax.while_loop] has (it matters
      only for weakness) is left open: [pick] is arbitrary up to [picks]. *)
  Variable pick : dt -> dt -> dt.

  (** [jax.lax.cond] traces both branches and compares the dtypes of the results, ignoring weakness *)
  Definition cond (a b : answer) : answer :=
    let* x := a in let* y := b in
    if dt_eqb (stored x64 x) (stored x64 y) then Typed (pick x y)
    else TypeError "cond branches must have equal output types".

  (** [jax.lax.while_loop] on one carried value: the body must return the dtype it was given; a weakly typed
      initial value is first promoted to what the body returns ([_promote_weak_typed_inputs]) *)
  Definition keeps (c : dt) (body : dt -> answer) : answer :=
    let* o := body c in
    if dt_eqb (stored x64 c) (stored x64 o) then Typed (pick c o)
    else TypeError "body_fun output and input must have identical types".

  Definition while1 (init : dt) (body : dt -> answer) : answer :=
    let* o := body init in
    if dt_eqb (stored x64 init) (stored x64 o) then Typed (pick init o)
    else if weak init then keeps (join init o) body
    else TypeError "body_fun output and input must have identical types".
End Control.

Definition picks (pick : dt -> dt -> dt) : Prop := forall a b, pick a b = a \/ pick a b = b.
