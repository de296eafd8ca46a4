(** * SpecRev: what it means that a backward pass is right

    Let the inputs move with the parameter [u], the [i]-th at speed [w i] when [u = s], and let [x u] be the
    quantity computed from them.  The backward pass from a node is right for [x] at [s] if the node has the
    value [x s] and, for every cotangent [ct], the cotangents of the inputs give the derivative of [ct * x]
    when they are multiplied with the speeds.  If that holds for all motions of the inputs, the cotangents for
    [ct = 1] are the gradient. *)
From Coq Require Import Reals String.
From Coquelicot Require Import Coquelicot.
From Verif Require Import Num NumV Spec Gravity.
Local Open Scope R_scope.

(** [g 0 * w 0 + ... + g (n-1) * w (n-1)] *)
Fixpoint pairing (n : nat) (g w : nat -> R) : R :=
  match n with O => 0 | S k => pairing k g w + g k * w k end.
Definition pulls (n : nat) (w : nat -> R) (x : R -> R) (s : R) (r : node) : Prop :=
  x s = nval r /\ forall ct : R, is_derive (fun u : R => ct * x u) s (pairing n (back r ct) w).
Definition vpulls (n : nat) (w : nat -> R) (x : R -> vec) (s : R) (r : V3 node) : Prop :=
  pulls n w (fun u => c0 (x u)) s (c0 r) /\ pulls n w (fun u => c1 (x u)) s (c1 r) /\ pulls n w (fun u => c2 (x u)) s (c2 r).
Definition mpulls (n : nat) (w : nat -> R) (A : R -> mat) (s : R) (r : M3 node) : Prop :=
  vpulls n w (fun u => c0 (A u)) s (c0 r) /\ vpulls n w (fun u => c1 (A u)) s (c1 r) /\ vpulls n w (fun u => c2 (A u)) s (c2 r).
(** An entry of a dictionary of constants that varies with the parameter. *)
Definition pulled (n : nat) (w : nat -> R) (s : R) (k : string) (args : R -> dict (T := R)) (rargs : dict (T := node)) (y : R -> R) (r : node) : Prop :=
  (forall u, lookup k (args u) = Ok (y u)) /\ lookup k rargs = Ok r /\ pulls n w y s r.
