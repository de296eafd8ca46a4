(** * Spec: independent mathematical vocabulary for the properties

    Nothing here refers to the model functions; only the record [V3] is shared. *)
From Coq Require Import Reals List.
From Coquelicot Require Import Coquelicot.
From Verif Require Import Num.
Local Open Scope R_scope.

(** ** Euclidean 3-space *)
Definition vec : Type := V3 R.
Definition vzero : vec := mk3 0 0 0.
Definition dot (a b : vec) : R := c0 a * c0 b + c1 a * c1 b + c2 a * c2 b.
Definition cross (a b : vec) : vec :=
  mk3 (c1 a * c2 b - c2 a * c1 b) (c2 a * c0 b - c0 a * c2 b) (c0 a * c1 b - c1 a * c0 b).
Definition vnorm (a : vec) : R := sqrt (dot a a).
Definition vplus (a b : vec) : vec := mk3 (c0 a + c0 b) (c1 a + c1 b) (c2 a + c2 b).
Definition vminus (a b : vec) : vec := mk3 (c0 a - c0 b) (c1 a - c1 b) (c2 a - c2 b).
Definition smul (k : R) (a : vec) : vec := mk3 (k * c0 a) (k * c1 a) (k * c2 a).

(** 3x3 matrices, given by rows. *)
Definition mat : Type := V3 (V3 R).
Definition row_col (A : mat) (v : vec) : vec := mk3 (dot (c0 A) v) (dot (c1 A) v) (dot (c2 A) v).
Definition trans (A : mat) : mat :=
  mk3 (mk3 (c0 (c0 A)) (c0 (c1 A)) (c0 (c2 A)))
      (mk3 (c1 (c0 A)) (c1 (c1 A)) (c1 (c2 A)))
      (mk3 (c2 (c0 A)) (c2 (c1 A)) (c2 (c2 A))).
Definition ident : mat := mk3 (mk3 1 0 0) (mk3 0 1 0) (mk3 0 0 1).
Definition mprod (A B : mat) : mat :=
  let Bt := trans B in
  mk3 (row_col Bt (c0 A)) (row_col Bt (c1 A)) (row_col Bt (c2 A)).
Definition det (A : mat) : R := dot (c0 A) (cross (c1 A) (c2 A)).
(** Proper rotation. *)
Definition rotation (A : mat) : Prop := mprod (trans A) A = ident /\ det A = 1.

(** ** Two-body motion *)

(** Derivative of a vector valued function of time. *)
Definition vderive (f : R -> vec) (t : R) (l : vec) : Prop :=
  is_derive (fun s => c0 (f s)) t (c0 l) /\
  is_derive (fun s => c1 (f s)) t (c1 l) /\
  is_derive (fun s => c2 (f s)) t (c2 l).

(** Newton's inverse-square attraction towards the origin. *)
Definition gravity (mu : R) (r : vec) : vec := smul (- (mu / vnorm r ^ 3)) r.

(** [(r, v)] is a motion of the two-body problem, defined for all times. *)
Definition two_body_motion (mu : R) (r v : R -> vec) : Prop :=
  forall t, r t <> vzero /\ vderive r t (v t) /\ vderive v t (gravity mu (r t)).

(** The exact state map: the motion through [(r0, v0)] at time 0 is at [(r, v)] at time [t]. *)
Definition flows_to (mu t : R) (x0 x : vec * vec) : Prop :=
  exists r v : R -> vec, two_body_motion mu r v /\ (r 0, v 0) = x0 /\ (r t, v t) = x.

(** The canonical symplectic form on pairs (position, velocity): x^T J y. *)
Definition omega (r1 v1 r2 v2 : vec) : R := dot r1 v2 - dot v1 r2.

(** Specific energy. *)
Definition energy (mu : R) (r v : vec) : R := dot v v / 2 - mu / vnorm r.

(** ** Universal functions: sum over k of (-alpha)^k chi^(2k+n) / (2k+n)! *)
Definition universal (n : nat) (chi alpha : R) : R :=
  Series (fun k => (- alpha) ^ k * chi ^ (2 * k + n) / INR (fact (2 * k + n))).

(** ** Iteration *)
Fixpoint iterate {A : Type} (f : A -> A) (k : nat) (x : A) : A :=
  match k with O => x | S k' => f (iterate f k' x) end.
