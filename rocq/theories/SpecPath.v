(** * SpecPath: plane angles about an axis (vocabulary for C35-C38)

    Nothing here refers to the model functions. *)
From Coq Require Import Reals.
From Verif Require Import Spec.
Local Open Scope R_scope.

(** [P] turned by the angle [t], right-handed about the axis [h], and scaled by [rho]
    (for [P] orthogonal to [h]). *)
Definition turn (h P : vec) (rho t : R) : vec :=
  vplus (smul (rho * cos t) P) (smul (rho * sin t / vnorm h) (cross h P)).
