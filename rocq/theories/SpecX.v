(** * SpecX: finite inputs, NaN outputs and the signalling embedding, for stating C47 and C52 *)
From Coq Require Import Reals List String.
From Verif Require Import Num NumX Spec OrbElements StateTrans Gravity.
Local Open Scope R_scope.

(** A vector all of whose components are finite. *)
Definition finv (a : vec) : V3 X := mk3 (Fin (c0 a)) (Fin (c1 a)) (Fin (c2 a)).
Definition fin2 (x : vec * vec) : V3 X * V3 X := (finv (fst x), finv (snd x)).
(** The same for the signalling arithmetic. *)
Definition somev (a : vec) : V3 (option R) := mk3 (Some (c0 a)) (Some (c1 a)) (Some (c2 a)).
Definition some2 (x : vec * vec) : V3 (option R) * V3 (option R) := (somev (fst x), somev (snd x)).
Definition somem (A : mat) : M3 (option R) := mk3 (somev (c0 A)) (somev (c1 A)) (somev (c2 A)).

Definition someco (x : @coe R) : @coe (option R) :=
  mkcoe (Some (coe_p x)) (Some (coe_e x)) (Some (coe_incl x)) (Some (coe_raan x)) (Some (coe_argp x)) (Some (coe_f x)).
Definition somed (d : list (string * R)) : list (string * option R) := map (fun kv => (fst kv, Some (snd kv))) d.
Definition somer (x : res (V3 R)) : res (V3 (option R)) := match x with Ok a => Ok (somev a) | Raise e => Raise e end.

Definition nan3 : V3 X := mk3 NaN NaN NaN.
Definition has_nan (a : V3 X) : Prop := c0 a = NaN \/ c1 a = NaN \/ c2 a = NaN.

(** Inputs of a propagation which have no answer: a NaN somewhere, a negative gravitational
    parameter, or a start at the centre of attraction. *)
Inductive bad_input : X -> V3 X -> V3 X -> X -> Prop :=
| bad_time : forall r v mu, bad_input NaN r v mu
| bad_pos : forall t r v mu, has_nan r -> bad_input t r v mu
| bad_vel : forall t r v mu, has_nan v -> bad_input t r v mu
| bad_mu_nan : forall t r v, bad_input t r v NaN
| bad_mu_neg : forall t r v m, m < 0 -> bad_input t r v (Fin m)
| bad_origin : forall t v m, 0 < m -> bad_input (Fin t) (mk3 (Fin 0) (Fin 0) (Fin 0)) (finv v) (Fin m).
