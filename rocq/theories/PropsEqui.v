(** * Properties C45, C51: independence of axes and units

    Theorems only; proofs are in [Equi], [EquiExamples].  Exact real arithmetic.
    A unit of length [1/lam] and a unit of time [1/tau] times the old ones turn positions [r] into
    [lam r], velocities [v] into [lam/tau v] and [mu] into [lam^3/tau^2 mu]. *)
From Coq Require Import Reals Lra ZArith List.
From Coquelicot Require Import Coquelicot.
From Verif Require Import Num NumR Spec RLib OrbIntegrals OrbElements RotMat KepEqu StateTrans PathCheck PropKepler
  Equi EquiExamples.
Import ListNotations.
Local Open Scope R_scope.

(** ** C45: axes *)
Theorem C45_kepler_axes : forall (A : mat), rotation A -> forall (ts : list R) (r v : vec) (mu : R),
  kepler ts (row_col A r) (row_col A v) mu
  = map (fun x => (row_col A (fst x), row_col A (snd x))) (kepler ts r v mu).
Proof. exact kepler_rot. Qed.
Print Assumptions C45_kepler_axes.

Theorem C45_exact_map_axes : forall (A : mat), rotation A -> forall (mu t : R) (x y : vec * vec),
  flows_to mu t x y ->
  flows_to mu t (row_col A (fst x), row_col A (snd x)) (row_col A (fst y), row_col A (snd y)).
Proof. exact flow_rot. Qed.
Print Assumptions C45_exact_map_axes.

Theorem C45_integrals_axes : forall (A : mat), rotation A -> forall (r v : vec) (mu : R),
  angular_momentum (row_col A r) (row_col A v) = row_col A (angular_momentum r v) /\
  eccentricity_vector (row_col A r) (row_col A v) mu = row_col A (eccentricity_vector r v mu).
Proof. exact integrals_rot. Qed.
Print Assumptions C45_integrals_axes.

Theorem C45_elements_axes : forall (A : mat), rotation A -> forall (r v : vec) (mu : R),
  let x := rv2coe r v mu in let y := rv2coe (row_col A r) (row_col A v) mu in
  coe_p y = coe_p x /\ coe_e y = coe_e x /\ coe_f y = coe_f x.
Proof. exact shape_rot. Qed.
Print Assumptions C45_elements_axes.

Theorem C45_transition_axes : forall (A : mat) (r v r0 v0 : vec) (t mu : R), rotation A ->
  let turned := fun M => mprod A (mprod M (trans A)) in
  let X := dxdx0 r v r0 v0 t mu in
  dxdx0 (row_col A r) (row_col A v) (row_col A r0) (row_col A v0) t mu
  = mkM6 (turned (b_rr X)) (turned (b_rv X)) (turned (b_vr X)) (turned (b_vv X)).
Proof. exact dxdx0_rot. Qed.
Print Assumptions C45_transition_axes.

Theorem C45_path_axes : forall (A : mat), rotation A -> forall (r1 v1 r2 : vec) (mu rmin : R),
  is_short_way (row_col A r1) (row_col A v1) (row_col A r2) = is_short_way r1 v1 r2 /\
  pass_perigee (row_col A r1) (row_col A v1) (row_col A r2) mu = pass_perigee r1 v1 r2 mu /\
  rp_islower_rmin rmin (row_col A r1) (row_col A v1) mu = rp_islower_rmin rmin r1 v1 mu.
Proof. exact path_rot. Qed.
Print Assumptions C45_path_axes.

Example C45_axes_example : forall t : R,
  kepler [t] (mk3 1 0 0) (mk3 0 1 0) 1 = [(mk3 (cos t) (sin t) 0, mk3 (- sin t) (cos t) 0)] /\
  rotation (rotmat3dx (PI / 2)) /\
  kepler [t] (mk3 1 0 0) (mk3 0 0 1) 1 = [(mk3 (cos t) 0 (sin t), mk3 (- sin t) 0 (cos t))].
Proof. exact axes_example. Qed.

(** ** C45: units *)
Theorem C45_exact_map_units : forall lam tau : R, 0 < lam -> 0 < tau ->
  forall (mu t : R) (r v r1 v1 : vec), flows_to mu t (r, v) (r1, v1) ->
  flows_to (lam ^ 3 / tau ^ 2 * mu) (tau * t) (smul lam r, smul (lam / tau) v) (smul lam r1, smul (lam / tau) v1).
Proof. exact flow_units. Qed.
Print Assumptions C45_exact_map_units.

Theorem C45_elements_units : forall lam tau : R, 0 < lam -> 0 < tau -> forall (r v : vec) (mu : R), 0 < mu ->
  let x := rv2coe r v mu in
  rv2coe (smul lam r) (smul (lam / tau) v) (lam ^ 3 / tau ^ 2 * mu)
  = mkcoe (lam * coe_p x) (coe_e x) (coe_incl x) (coe_raan x) (coe_argp x) (coe_f x).
Proof. exact elements_units. Qed.
Print Assumptions C45_elements_units.

Theorem C45_kepler_time_unit : forall (tau : R) (ts : list R) (r v : vec) (mu : R), 0 < tau -> 0 < mu ->
  kepler (map (Rmult tau) ts) r (smul (/ tau) v) (mu / tau ^ 2)
  = map (fun x => (fst x, smul (/ tau) (snd x))) (kepler ts r v mu).
Proof. exact kepler_time_units. Qed.
Print Assumptions C45_kepler_time_unit.

Example C45_units_example :
  kepler [2 * PI] (mk3 1 0 0) (smul (/ 2) (mk3 0 1 0)) (1 / 2 ^ 2) = [(mk3 (-1) 0 0, mk3 0 (- (1 / 2)) 0)] /\
  flows_to 16 (2 * PI) (mk3 4 0 0, mk3 0 2 0) (mk3 (-4) 0 0, mk3 0 (-2) 0).
Proof. exact (conj circ_time circ_flow_units). Qed.

(** ** C51: the length unit; true of the solver only when its tolerance is rescaled too *)
Theorem C51_scaled_tolerance_partial : forall lam tau : R, 0 < lam -> 0 < tau ->
  forall t al r0 s0 mu tol : R, 0 <= mu -> forall mi : Z,
  solve_kepler_uni (tau * t) (al / lam) (lam * r0) (sqrt lam * s0) (lam ^ 3 / tau ^ 2 * mu) (sqrt lam ^ 3 * tol) mi
  = sqrt lam * solve_kepler_uni t al r0 s0 mu tol mi.
Proof. exact solver_units. Qed.
Print Assumptions C51_scaled_tolerance_partial.

Theorem C51_length_unit_refuted :
  ~ (forall (lam tau : R) (ts : list R) (r v : vec) (mu : R),
     0 < lam -> 0 < tau -> 0 < mu -> cross r v <> vzero ->
     kepler (map (Rmult tau) ts) (smul lam r) (smul (lam / tau) v) (lam ^ 3 / tau ^ 2 * mu)
     = map (fun x => (smul lam (fst x), smul (lam / tau) (snd x))) (kepler ts r v mu)).
Proof. exact length_unit_matters. Qed.
Print Assumptions C51_length_unit_refuted.

(** A parabola: the body moves in one unit of length and stays where it is in the other. *)
Example C51_example : let l := / 1000000 in
  (exists r v, kepler [100] (mk3 2 0 0) (mk3 0 1 0) 1 = [(r, v)] /\ 0 < c1 r) /\
  kepler [1 * 100] (smul l (mk3 2 0 0)) (smul (l / 1) (mk3 0 1 0)) (l ^ 3 / 1 ^ 2 * 1)
  = [(smul l (mk3 2 0 0), smul (l / 1) (mk3 0 1 0))].
Proof. exact (conj p_moves p_stuck). Qed.
