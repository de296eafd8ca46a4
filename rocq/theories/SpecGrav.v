(** * SpecGrav: independent vocabulary for the gravity properties *)
From Coq Require Import Reals List String.
From Coquelicot Require Import Coquelicot.
From Verif Require Import Num Spec.
Import ListNotations.
Local Open Scope R_scope.

(** Legendre polynomials by Bonnet's recursion:
    (n+2) P_(n+2)(u) = (2n+3) u P_(n+1)(u) - (n+1) P_n(u). *)
Fixpoint legendre2 (n : nat) (u : R) : R * R :=
  match n with
  | O => (1, u)
  | S m => let (a, b) := legendre2 m u in (b, ((2 * INR m + 3) * u * b - (INR m + 1) * a) / (INR m + 2))
  end.
Definition legendre (n : nat) (u : R) : R := fst (legendre2 n u).

(** Zonal harmonic of degree [n]. *)
Definition zonal (n : nat) (mu J Req : R) (q : vec) : R :=
  - (mu * J * Req ^ n * legendre n (c2 q / vnorm q) / vnorm q ^ (n + 1)).
Definition kepler_potential (mu : R) (q : vec) : R := mu / vnorm q.

(** [g] is the gradient of [U] at [q]: the rate of change of [U] along every
    differentiable curve through [q] is the inner product with the velocity. *)
Definition gradient (U : vec -> R) (q g : vec) : Prop :=
  forall (c : R -> vec) (t : R) (w : vec),
    c t = q -> vderive c t w -> is_derive (fun s => U (c s)) t (dot g w).

(** Divergence of a vector field. *)
Definition divergence (F : vec -> vec) (q : vec) (d : R) : Prop :=
  exists dx dy dz,
    is_derive (fun x : R => c0 (F (mk3 x (c1 q) (c2 q)))) (c0 q) dx /\
    is_derive (fun y : R => c1 (F (mk3 (c0 q) y (c2 q)))) (c1 q) dy /\
    is_derive (fun z : R => c2 (F (mk3 (c0 q) (c1 q) z))) (c2 q) dz /\
    d = dx + dy + dz.

(** Association lists as dictionaries. *)
Definition get {T : Type} (k : string) (d : list (string * T)) : option T :=
  option_map snd (find (fun kv => String.eqb k (fst kv)) d).
Definition missing {T : Type} (d : list (string * T)) (k : string) : bool :=
  match get k d with None => true | Some _ => false end.

(** The state vector with position [q] and further components [rest]. *)
Definition state (q : vec) (rest : list R) : list R := c0 q :: c1 q :: c2 q :: rest.
