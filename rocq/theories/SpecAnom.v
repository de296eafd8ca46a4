(** * SpecAnom: eccentric and hyperbolic anomalies of a state

    Independent of the model. *)
From Coq Require Import Reals.
From Verif Require Import Num Spec.
Local Open Scope R_scope.

(** [E] is an eccentric anomaly of the state [(r, v)] on an ellipse of semimajor
    axis [a] and eccentricity [e]: r = a (1 - e cos E), r . v = sqrt(mu a) e sin E. *)
Definition eccentric_anomaly (mu a e : R) (r v : vec) (E : R) : Prop :=
  vnorm r = a * (1 - e * cos E) /\ dot r v = sqrt (mu * a) * e * sin E.

(** [H] is the hyperbolic anomaly of [(r, v)] on a hyperbola of semimajor axis
    [a < 0]: r = a (1 - e cosh H), r . v = sqrt(- mu a) e sinh H. *)
Definition hyperbolic_anomaly (mu a e : R) (r v : vec) (H : R) : Prop :=
  vnorm r = a * (1 - e * cosh H) /\ dot r v = sqrt (mu * - a) * e * sinh H.
