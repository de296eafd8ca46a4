(** * Properties C47, C52: infinities and NaN

    Theorems only; proofs are in [XFacts].  [Num_X] is exact arithmetic with IEEE infinities and NaN,
    [Num_S] is exact arithmetic in which one exceptional operation makes the result [None]; see [NumX]. *)
From Coq Require Import Reals Lra ZArith List String.
From Verif Require Import Num NumR NumX Spec SpecX RLib OrbIntegrals Uniformulas OrbElements KepEqu StateTrans PathCheck
  PropKepler Gravity EquiExamples XFacts XFacts2.
Import ListNotations.
Local Open Scope R_scope.

(** ** C47 *)
Theorem C47_no_exception : forall (ts : list R) (r v : vec) (mu : R),
  0 < mu -> cross r v <> vzero -> energy mu r v <> 0 ->
  @kepler (option R) Num_S (map Some ts) (somev r) (somev v) (Some mu) = map some2 (kepler ts r v mu).
Proof. exact kepler_signal. Qed.
Print Assumptions C47_no_exception.

Theorem C47_finite_result : forall (ts : list R) (r v : vec) (mu : R), 0 < mu -> cross r v <> vzero ->
  @kepler X Num_X (map Fin ts) (finv r) (finv v) (Fin mu) = map fin2 (kepler ts r v mu).
Proof. exact kepler_X. Qed.
Print Assumptions C47_finite_result.

Theorem C47_parabola : forall (r v : vec) (mu : R), 0 < mu -> cross r v <> vzero -> energy mu r v = 0 ->
  @semimajor_axis X Num_X (Fin (vnorm r)) (Fin (vnorm v)) (Fin mu) = PInf /\
  @alpha_of X Num_X (Fin (vnorm r)) (Fin (vnorm v)) (Fin mu) = Fin 0 /\
  forall t chi : R, vnorm r * chi + dot r v / sqrt mu * (chi ^ 2 / 2) + chi ^ 3 / 6 = sqrt mu * t ->
  exists r' v' : vec, flows_to mu t (r, v) (r', v') /\
    @state_at_chi X Num_X (Fin chi) (Fin 0) (@sigma_fn X Num_X (finv r) (finv v) (Fin mu)) (Fin (vnorm r))
      (finv r) (finv v) (Fin mu) = (finv r', finv v').
Proof. exact parabola_X. Qed.
Print Assumptions C47_parabola.

Example C47_circle_example : forall t : R,
  @kepler (option R) Num_S [Some t] (somev (mk3 1 0 0)) (somev (mk3 0 1 0)) (Some 1)
  = [(somev (mk3 (cos t) (sin t) 0), somev (mk3 (- sin t) (cos t) 0))].
Proof. exact ex_signal. Qed.

Example C47_parabola_example :
  @semimajor_axis X Num_X (Fin 2) (Fin 1) (Fin 1) = PInf /\
  @alpha_of X Num_X (Fin 2) (Fin 1) (Fin 1) = Fin 0 /\
  flows_to 1 (16 / 3) (mk3 2 0 0, mk3 0 1 0) (mk3 0 4 0, mk3 (- (1 / 2)) (1 / 2) 0) /\
  @state_at_chi X Num_X (Fin 2) (Fin 0) (@sigma_fn X Num_X (finv pr) (finv pv) (Fin 1)) (Fin 2) (finv pr) (finv pv) (Fin 1)
  = (finv (mk3 0 4 0), finv (mk3 (- (1 / 2)) (1 / 2) 0)).
Proof. exact ex_parabola. Qed.

(** ** C52: no exceptional intermediate on the domain *)
Theorem C52_elements_clean : forall (r v : vec) (mu : R), 0 < mu -> cross r v <> vzero ->
  @rv2coe (option R) Num_S (somev r) (somev v) (Some mu) = someco (rv2coe r v mu).
Proof. exact clean_elements. Qed.
Print Assumptions C52_elements_clean.

Theorem C52_state_clean : forall p e i O w nu mu : R, 0 < p -> 0 < mu -> 1 + e * cos nu <> 0 ->
  @coe2rv (option R) Num_S (Some p) (Some e) (Some i) (Some O) (Some w) (Some nu) (Some mu)
  = some2 (coe2rv p e i O w nu mu).
Proof. exact clean_state. Qed.
Print Assumptions C52_state_clean.

Theorem C52_transition_clean : forall (r v r0 v0 : vec) (t mu : R),
  0 < mu -> r <> vzero -> r0 <> vzero -> energy mu r0 v0 <> 0 ->
  @dxdx0 (option R) Num_S (somev r) (somev v) (somev r0) (somev v0) (Some t) (Some mu)
  = let A := dxdx0 r v r0 v0 t mu in mkM6 (somem (b_rr A)) (somem (b_rv A)) (somem (b_vr A)) (somem (b_vv A)).
Proof. exact clean_stm. Qed.
Print Assumptions C52_transition_clean.

Theorem C52_elliptic_clean : forall (M e tol : R) (mi : Z), 0 <= e < 1 ->
  @solve_kepler_elps (option R) Num_S (Some M) (Some e) (Some tol) mi = Some (solve_kepler_elps M e tol mi).
Proof. exact clean_elps. Qed.
Print Assumptions C52_elliptic_clean.

Theorem C52_hyperbolic_clean : forall (M e tol : R) (mi : Z), 1 < e ->
  @solve_kepler_hypb (option R) Num_S (Some M) (Some e) (Some tol) mi = Some (solve_kepler_hypb M e tol mi).
Proof. exact clean_hypb. Qed.
Print Assumptions C52_hyperbolic_clean.

Theorem C52_integrals_clean : forall a p e nu mu P t : R, 0 < a -> 0 < mu -> 0 < P -> 0 <= e < 1 ->
  @orb_period (option R) Num_S (Some a) (Some mu) = Some (orb_period a mu) /\
  @a_from_period (option R) Num_S (Some P) (Some mu) = Some (a_from_period P mu) /\
  @mean_motion (option R) Num_S (Some P) = Some (mean_motion P) /\
  @equ_of_orbit (option R) Num_S (Some p) (Some e) (Some nu) = Some (equ_of_orbit p e nu) /\
  @radius_periapsis (option R) Num_S (Some p) (Some e) = Some (radius_periapsis p e) /\
  @radius_apoapsis (option R) Num_S (Some p) (Some e) = Some (radius_apoapsis p e) /\
  @a_from_pe (option R) Num_S (Some p) (Some e) = Some (a_from_pe p e) /\
  @mean_anomaly_elps (option R) Num_S (Some a) (Some t) (Some mu) = Some (mean_anomaly_elps a t mu).
Proof. exact clean_integrals. Qed.
Print Assumptions C52_integrals_clean.

Theorem C52_gravity_clean : forall (t x y z u v w : R) (d : list (string * R)), mk3 x y z <> vzero ->
  let s := [x; y; z; u; v; w] in
  @point_mass_grav (option R) Num_S (Some t) (map Some s) (somed d) = somer (point_mass_grav t s d) /\
  @j2_acc (option R) Num_S (Some t) (map Some s) (somed d) = somer (j2_acc t s d) /\
  @j3_acc (option R) Num_S (Some t) (map Some s) (somed d) = somer (j3_acc t s d) /\
  @j4_acc (option R) Num_S (Some t) (map Some s) (somed d) = somer (j4_acc t s d).
Proof. exact clean_gravity. Qed.
Print Assumptions C52_gravity_clean.

Theorem C52_path_clean : forall (rp r1 r2 tof mu : R) (a v b : vec),
  0 < rp -> 0 < r1 -> 0 < r2 -> 0 < mu -> a <> vzero ->
  @nmax_by_periapsis (option R) Num_S (Some rp) (Some r1) (Some r2) (Some tof) (Some mu)
    = Some (nmax_by_periapsis rp r1 r2 tof mu) /\
  @pass_perigee (option R) Num_S (somev a) (somev v) (somev b) (Some mu) = pass_perigee a v b mu /\
  @rp_islower_rmin (option R) Num_S (Some rp) (somev a) (somev v) (Some mu) = rp_islower_rmin rp a v mu.
Proof. exact clean_path. Qed.
Print Assumptions C52_path_clean.

(** ** C52: inputs without an answer are flagged *)
Theorem C52_kepler_flags : forall (ts : list X) (r v : V3 X) (mu : X),
  (forall t, In t ts -> bad_input t r v mu) -> @kepler X Num_X ts r v mu = map (fun _ => (nan3, nan3)) ts.
Proof. exact kepler_bad_rows. Qed.
Print Assumptions C52_kepler_flags.

Example C52_batch_example : forall t : R,
  @kepler X Num_X [NaN; Fin t] (finv (mk3 1 0 0)) (finv (mk3 0 1 0)) (Fin 1)
  = [(nan3, nan3); (finv (mk3 (cos t) (sin t) 0), finv (mk3 (- sin t) (cos t) 0))].
Proof. exact ex_batch. Qed.

Theorem C52_centre_flags : forall (v : vec) (mu : R), mu <> 0 ->
  @eccentricity_vector X Num_X (finv vzero) (finv v) (Fin mu) = nan3 /\
  let x := @rv2coe X Num_X (finv vzero) (finv v) (Fin mu) in
  coe_e x = NaN /\ coe_incl x = NaN /\ coe_argp x = NaN /\ coe_f x = NaN.
Proof. exact (fun v mu H => conj (ecc_vec_origin v mu H) (rv2coe_origin v mu H)). Qed.
Print Assumptions C52_centre_flags.

Theorem C52_rectilinear_flags : forall (r v : vec) (mu : R), cross r v = vzero ->
  coe_incl (@rv2coe X Num_X (finv r) (finv v) (Fin mu)) = NaN.
Proof. exact rectilinear_incl. Qed.
Print Assumptions C52_rectilinear_flags.

Theorem C52_asymptote_flags : forall p e i O w nu mu : R, 0 < p -> 1 + e * cos nu = 0 ->
  @equ_of_orbit X Num_X (Fin p) (Fin e) (Fin nu) = PInf /\
  fst (@coe2rv X Num_X (Fin p) (Fin e) (Fin i) (Fin O) (Fin w) (Fin nu) (Fin mu)) = nan3.
Proof. exact (fun p e i O w nu mu Hp H => conj (orbit_asymptote p e nu Hp H) (coe2rv_asymptote p e i O w nu mu Hp H)). Qed.
Print Assumptions C52_asymptote_flags.

Example C52_asymptote_example :
  0 < 1 /\ 1 + 1 * cos PI = 0 /\ @equ_of_orbit X Num_X (Fin 1) (Fin 1) (Fin PI) = PInf.
Proof. exact asymptote_example. Qed.

Theorem C52_negative_semiparameter_flags : forall p e i O w nu mu : R, p < 0 -> 0 < mu ->
  snd (@coe2rv X Num_X (Fin p) (Fin e) (Fin i) (Fin O) (Fin w) (Fin nu) (Fin mu)) = nan3.
Proof. exact coe2rv_neg. Qed.
Print Assumptions C52_negative_semiparameter_flags.

Theorem C52_wrong_conic_flags : forall a t mu : R, 0 < mu ->
  (a < 0 -> @orb_period X Num_X (Fin a) (Fin mu) = NaN /\ @mean_anomaly_elps X Num_X (Fin a) (Fin t) (Fin mu) = NaN) /\
  (0 < a -> @mean_anomaly_hypb X Num_X (Fin a) (Fin t) (Fin mu) = NaN).
Proof. exact wrong_conic. Qed.
Print Assumptions C52_wrong_conic_flags.

Theorem C52_parabola_flags : forall p : R, 0 < p ->
  @radius_apoapsis X Num_X (Fin p) (Fin 1) = PInf /\ @a_from_pe X Num_X (Fin p) (Fin 1) = PInf /\
  @solve_kepler_elps X Num_X (Fin 0) (Fin 1) (@default_tol X Num_X) elps_max_iter = NaN.
Proof. exact parabola_flags. Qed.
Print Assumptions C52_parabola_flags.

Theorem C52_gravity_centre_flags : forall (t : X) (mu : R) (d : list (string * X)), 0 < mu ->
  lookup "mu"%string d = Ok (Fin mu) ->
  @point_mass_grav X Num_X t [Fin 0; Fin 0; Fin 0] d = Ok nan3.
Proof. exact gravity_origin. Qed.
Print Assumptions C52_gravity_centre_flags.

Example C52_gravity_centre_example : @point_mass_grav X Num_X (Fin 0) [Fin 0; Fin 0; Fin 0] [("mu"%string, Fin 1)] = Ok nan3.
Proof. exact (gravity_origin (Fin 0) 1 [("mu"%string, Fin 1)] Rlt_0_1 eq_refl). Qed.

(** The two predicates answer definitely at the centre, where there is no orbit. *)
Theorem C52_predicates_refuted : forall (v r2 : vec) (rmin : X) (mu : R), mu <> 0 ->
  @rp_islower_rmin X Num_X rmin (finv vzero) (finv v) (Fin mu) = false /\
  @pass_perigee X Num_X (finv vzero) (finv v) (finv r2) (Fin mu) = true.
Proof. exact path_origin. Qed.
Print Assumptions C52_predicates_refuted.

(** *** NaN inputs *)
Theorem C52_nan_elements : forall (r v : V3 X) (mu : X), has_nan r \/ has_nan v \/ mu = NaN ->
  let x := @rv2coe X Num_X r v mu in coe_p x = NaN /\ coe_e x = NaN.
Proof. exact nan_elements. Qed.
Print Assumptions C52_nan_elements.

Theorem C52_nan_state : forall p e i O w f mu : X, p = NaN \/ e = NaN \/ i = NaN \/ O = NaN \/ w = NaN \/ f = NaN \/ mu = NaN ->
  let s := @coe2rv X Num_X p e i O w f mu in has_nan (fst s) \/ has_nan (snd s).
Proof. exact nan_elements_back. Qed.
Print Assumptions C52_nan_state.

Theorem C52_nan_transition : forall (r v r0 v0 : V3 X) (dt mu : X),
  has_nan r \/ has_nan v \/ has_nan r0 \/ has_nan v0 \/ dt = NaN \/ mu = NaN ->
  let nan9 := mk3 nan3 nan3 nan3 in @dxdx0 X Num_X r v r0 v0 dt mu = mkM6 nan9 nan9 nan9 nan9.
Proof. exact nan_stm. Qed.
Print Assumptions C52_nan_transition.

Theorem C52_nan_gravity : forall (t x y z : X) (rest : list X) (d : list (string * X)) (m R2 R3 R4 Re : X),
  lookup "mu"%string d = Ok m -> lookup "J2"%string d = Ok R2 -> lookup "J3"%string d = Ok R3 -> lookup "J4"%string d = Ok R4 -> lookup "R_eq"%string d = Ok Re ->
  let s := x :: y :: z :: rest in let pos := x = NaN \/ y = NaN \/ z = NaN in
  (pos \/ m = NaN -> @point_mass_grav X Num_X t s d = Ok nan3) /\
  (pos \/ m = NaN \/ R2 = NaN \/ Re = NaN -> @j2_acc X Num_X t s d = Ok nan3) /\
  (pos \/ m = NaN \/ R3 = NaN \/ Re = NaN -> @j3_acc X Num_X t s d = Ok nan3) /\
  (pos \/ m = NaN \/ R4 = NaN \/ Re = NaN -> @j4_acc X Num_X t s d = Ok nan3).
Proof. exact nan_gravity. Qed.
Print Assumptions C52_nan_gravity.

Theorem C52_nan_solvers : forall (M e t al r0 s0 mu tol : X) (mi : Z),
  (M = NaN \/ e = NaN -> @solve_kepler_elps X Num_X M e tol mi = NaN /\ @solve_kepler_hypb X Num_X M e tol mi = NaN) /\
  (t = NaN \/ al = NaN \/ mu = NaN -> @solve_kepler_uni X Num_X t al r0 s0 mu tol mi = NaN).
Proof. exact nan_solvers. Qed.
Print Assumptions C52_nan_solvers.

(** *** Inputs off the domain that give a plausible number *)
(** A negative gravitational parameter: [rv2coe] answers with finite elements and a negative semiparameter. *)
Theorem C52_negative_mu_refuted : forall (r v : vec) (mu : R), mu < 0 -> cross r v <> vzero ->
  @rv2coe (option R) Num_S (somev r) (somev v) (Some mu) = someco (rv2coe r v mu) /\ coe_p (rv2coe r v mu) < 0.
Proof. exact neg_mu_elements. Qed.
Print Assumptions C52_negative_mu_refuted.

Theorem C52_apoapsis_refuted : forall p e : R, 0 < p -> 1 < e ->
  @radius_apoapsis X Num_X (Fin p) (Fin e) = Fin (p / (1 - e)) /\ p / (1 - e) < 0.
Proof. exact hyperbola_apoapsis. Qed.
Print Assumptions C52_apoapsis_refuted.

Theorem C52_asymptote_refuted : forall p e f : R, 0 < p -> 1 + e * cos f < 0 ->
  @equ_of_orbit X Num_X (Fin p) (Fin e) (Fin f) = Fin (p / (1 + e * cos f)) /\ p / (1 + e * cos f) < 0.
Proof. exact beyond_asymptote. Qed.
Print Assumptions C52_asymptote_refuted.

(** The elliptic solver on a hyperbola and the hyperbolic solver on an ellipse, at periapsis. *)
Theorem C52_solvers_refuted : (forall e : R, 1 < e -> @solve_kepler_elps X Num_X (Fin 0) (Fin e) (@default_tol X Num_X) elps_max_iter = Fin 0) /\
  (forall e : R, 0 < e < 1 -> @solve_kepler_hypb X Num_X (Fin 0) (Fin e) (@default_tol X Num_X) hypb_max_iter = Fin 0).
Proof. exact other_conic. Qed.
Print Assumptions C52_solvers_refuted.

(** A NaN tolerance: the loops accept the starting guess. *)
Theorem C52_nan_tolerance_refuted :
  (forall (M e : R) (mi : Z), @solve_kepler_elps X Num_X (Fin M) (Fin e) NaN mi = Fin (M + e * sin M + e ^ 2 * sin (2 * M) / 2)) /\
  exists M e : R, 0 <= e < 1 /\ exists E : R, @solve_kepler_elps X Num_X (Fin M) (Fin e) NaN elps_max_iter = Fin E /\ E - e * sin E <> M.
Proof. exact (conj nan_tolerance nan_example). Qed.
Print Assumptions C52_nan_tolerance_refuted.

(** A NaN radius or sigma0 handed to the universal solver: it returns its starting guess. *)
Theorem C52_nan_state_solver_refuted : forall (t al mu : R) (r0 s0 tol : X) (mi : Z), 0 <= mu -> r0 = NaN \/ s0 = NaN ->
  @solve_kepler_uni X Num_X (Fin t) (Fin al) r0 s0 (Fin mu) tol mi = Fin (sqrt mu * Rabs al * t).
Proof. exact uni_nan_state. Qed.
Print Assumptions C52_nan_state_solver_refuted.

Example C52_nan_example : coe_p (@rv2coe X Num_X (mk3 NaN (Fin 0) (Fin 0)) (finv (mk3 0 1 0)) (Fin 1)) = NaN /\
  @solve_kepler_uni X Num_X (Fin 5) (Fin 1) NaN (Fin 0) (Fin 4) (@default_tol X Num_X) uni_max_iter = Fin (sqrt 4 * Rabs 1 * 5).
Proof.
  exact (conj (proj1 (C52_nan_elements (mk3 NaN (Fin 0) (Fin 0)) (finv (mk3 0 1 0)) (Fin 1) (or_introl (or_introl eq_refl))))
    (C52_nan_state_solver_refuted 5 1 4 NaN (Fin 0) (@default_tol X Num_X) uni_max_iter (IZR_le 0 4 ltac:(discriminate)) (or_introl eq_refl))).
Qed.
