(** * SpecDt: vocabulary of the dtype properties. *)
From Coq Require Import Bool.
From Verif Require Import Dt.

Definition is_float (d : dt) : bool := match d with FloatW | Float32 | Float64 => true | _ => false end.

(** the width in the name of the type; Python numbers have none *)
Definition narrow (d : dt) : bool := match d with Int32 | Float32 => true | _ => false end.
Definition wide (d : dt) : bool := match d with Int64 | Float64 => true | _ => false end.

Definition accepted (a : answer) : bool := match a with Typed _ => true | TypeError _ => false end.

(** accepted, and the result is stored as a float of this kind *)
Definition gives (x64 : bool) (a : answer) (d : dt) : Prop := exists r, a = Typed r /\ stored x64 r = d.
