(** * SpecAd: what it means that a pair of value and derivative is right

    The pair belongs to a function of one real variable at a point if it is the value and the derivative
    of the function there. *)
From Coq Require Import Reals String.
From Coquelicot Require Import Coquelicot.
From Verif Require Import Num NumD Spec Gravity.
Local Open Scope R_scope.

Definition carries (x : R -> R) (s : R) (d : dual) : Prop := x s = val d /\ is_derive x s (tang d).
Definition vcarries (x : R -> vec) (s : R) (d : V3 dual) : Prop :=
  carries (fun u => c0 (x u)) s (c0 d) /\ carries (fun u => c1 (x u)) s (c1 d) /\ carries (fun u => c2 (x u)) s (c2 d).
Definition mcarries (A : R -> mat) (s : R) (d : M3 dual) : Prop :=
  vcarries (fun u => c0 (A u)) s (c0 d) /\ vcarries (fun u => c1 (A u)) s (c1 d) /\ vcarries (fun u => c2 (A u)) s (c2 d).
(** An entry of a dictionary of constants that varies with the parameter. *)
Definition agrees (s : R) (k : string) (args : R -> dict (T := R)) (dargs : dict (T := dual)) (y : R -> R) (d : dual) : Prop :=
  (forall u, lookup k (args u) = Ok (y u)) /\ lookup k dargs = Ok d /\ carries y s d.
