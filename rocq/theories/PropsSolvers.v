(** * Properties C23-C28 and C46: Kepler's equation and its solvers

    Theorems only; proofs are in [SolveFacts], [SolveElps], [SolveElpsNear],
    [SolveElpsBad], [SolveElpsBad2], [SolveHypb], [SolveHypb2], [Classical], [SolveUni],
    [SolveUni2], [SolveUni3], [SolveUni4], [SolveUni5], [SolveExamples].  Exact real arithmetic. *)
From Coq Require Import Reals Lra ZArith List.
From Coquelicot Require Import Coquelicot.
From Verif Require Import Num NumR Spec SpecAnom RLib OrbIntegrals Uniformulas KepEqu StateTrans PropKepler
  OrbFacts SolveFacts SolveElps SolveElpsNear SolveElpsBad SolveElpsBad2 SolveHypb SolveHypb2 Classical SolveUni SolveUni2 SolveUni3 SolveUni4 SolveUni5 SolveExamples Witness.
Import ListNotations.
Local Open Scope R_scope.

(** ** C23 *)
Theorem C23_converged_elliptic : forall (M e tol : R) (max_iter i : Z) (E prev : R),
  0 <= e < 1 -> 0 < tol ->
  elps_run M e tol max_iter = Some (i, E, prev) -> Rabs (E - prev) <= tol ->
  Rabs (kepler_equ_elps E e M) <= e * tol ^ 2 / 2 /\
  forall E', E' - e * sin E' = M -> Rabs (E - E') <= e * tol ^ 2 / (2 * (1 - e)).
Proof.
  intros M e tol mi i E prev He Ht Hr Hd. destruct (elps_converged M e tol mi i E prev He Ht Hr Hd) as [A B].
  split; [exact A|]. intros E' HE'. apply B. rewrite kepler_equ_elps_R. lra.
Qed.
Print Assumptions C23_converged_elliptic.

(** Stopping before the iteration limit means that the iterates agree. *)
Theorem C23_stopped_early : forall (M e tol : R) (max_iter i : Z) (E prev : R),
  elps_run M e tol max_iter = Some (i, E, prev) -> (i < max_iter)%Z -> Rabs (E - prev) <= tol.
Proof. exact exceeds_iter. Qed.
Print Assumptions C23_stopped_early.

Example C23_example : elps_run PI (1 / 2) (/ 1000000) 20 = Some (1%Z, PI, PI) /\
  PI - 1 / 2 * sin PI = PI.
Proof. split; [exact elps_at_pi|]. rewrite sin_PI. ring. Qed.

(** ** C24 *)
Theorem C24_unique : forall e M : R, 0 <= e < 1 -> exists! E, kepler_equ_elps E e M = 0.
Proof. exact elps_unique. Qed.
Print Assumptions C24_unique.

Theorem C24_near_mean_anomaly : forall e M E : R,
  0 <= e -> kepler_equ_elps E e M = 0 -> Rabs (E - M) <= e.
Proof. exact elps_near_mean. Qed.
Print Assumptions C24_near_mean_anomaly.

Theorem C24_increasing : forall e M M' E E' : R, 0 <= e < 1 ->
  kepler_equ_elps E e M = 0 -> kepler_equ_elps E' e M' = 0 -> M < M' -> E < E'.
Proof. exact elps_increasing. Qed.
Print Assumptions C24_increasing.

Theorem C24_equation_symmetry : forall (E e M : R) (k : Z),
  kepler_equ_elps (E + 2 * PI * IZR k) e (M + 2 * PI * IZR k) = kepler_equ_elps E e M /\
  kepler_equ_elps (- E) e (- M) = - kepler_equ_elps E e M.
Proof. intros E e M k. split; [apply elps_equ_shift|apply elps_equ_neg]. Qed.
Print Assumptions C24_equation_symmetry.

Theorem C24_solver_symmetry : forall (M e tol : R) (max_iter k : Z), 0 <= e < 1 -> 0 <= tol ->
  solve_kepler_elps (M + 2 * PI * IZR k) e tol max_iter
  = solve_kepler_elps M e tol max_iter + 2 * PI * IZR k /\
  solve_kepler_elps (- M) e tol max_iter = - solve_kepler_elps M e tol max_iter.
Proof.
  intros M e tol mi k He Ht. split; [now apply solve_elps_shift|now apply solve_elps_neg].
Qed.
Print Assumptions C24_solver_symmetry.

(** dE is the derivative used by Newton's method. *)
Theorem C24_derivative : forall e M E : R,
  is_derive (fun x : R => kepler_equ_elps x e M) E (dE E e).
Proof. exact elps_deriv. Qed.
Print Assumptions C24_derivative.

Example C24_example : kepler_equ_elps (PI / 2) (1 / 2) (PI / 2 - 1 / 2) = 0 /\
  kepler_equ_elps PI (1 / 2) PI = 0 /\ PI / 2 - 1 / 2 < PI.
Proof.
  split; [exact elps_root_example|]. rewrite kepler_equ_elps_R, sin_PI. pose proof PI_RGT_0. split; lra.
Qed.

(** ** C25 *)
Theorem C25_unique : forall e Nm : R, 1 < e -> exists! H, kepler_equ_hypb H e Nm = 0.
Proof. exact hypb_unique. Qed.
Print Assumptions C25_unique.

Theorem C25_odd : forall (H Nm e tol : R) (max_iter : Z),
  kepler_equ_hypb (- H) e (- Nm) = - kepler_equ_hypb H e Nm /\
  solve_kepler_hypb (- Nm) e tol max_iter = - solve_kepler_hypb Nm e tol max_iter.
Proof. intros. split; [apply hypb_equ_neg|apply solve_hypb_neg]. Qed.
Print Assumptions C25_odd.

Theorem C25_increasing : forall e N N' H H' : R, 1 < e ->
  kepler_equ_hypb H e N = 0 -> kepler_equ_hypb H' e N' = 0 -> N < N' -> H < H'.
Proof. exact hypb_increasing. Qed.
Print Assumptions C25_increasing.

Theorem C25_converged_hyperbolic : forall (Nm e tol : R) (max_iter i : Z) (H prev : R),
  1 < e -> hypb_run Nm e tol max_iter = Some (i, H, prev) -> (i < max_iter)%Z ->
  Rabs (kepler_equ_hypb H e Nm) <= tol /\
  forall H', e * sinh H' - H' = Nm -> Rabs (H - H') <= tol / (e - 1).
Proof.
  intros Nm e tol mi i H prev He Hr Hi. destruct (hypb_converged Nm e tol mi i H prev He Hr Hi) as [A B].
  split; [exact A|]. intros H' HH. apply B. rewrite kepler_equ_hypb_R. lra.
Qed.
Print Assumptions C25_converged_hyperbolic.

Theorem C25_derivative : forall e Nm H : R,
  is_derive (fun x : R => kepler_equ_hypb x e Nm) H (dH H e).
Proof. exact hypb_deriv. Qed.
Print Assumptions C25_derivative.

Example C25_example : kepler_equ_hypb (ln 2) 2 (3 / 2 - ln 2) = 0 /\
  hypb_run 0 2 (/ 1000000) 50 = Some (0%Z, 0, 2 * / 1000000).
Proof. split; [exact hypb_root_example|exact hypb_run_example]. Qed.

(** ** C26

    True for eccentricities up to 0.997 (the interval between 0.997 and 0.9972 is
    open); false for every eccentricity from 0.9972 on, whatever the iteration
    limit from three and the tolerance up to 1, and from 0.998 on already for
    one and two iterations. *)
Theorem C26_converges_partial : forall M e : R, 0 <= e <= 997 / 1000 ->
  Rabs (kepler_equ_elps (solve_kepler_elps M e default_tol elps_max_iter) e M) <= / 1000000.
Proof. exact solve_elps_near. Qed.
Print Assumptions C26_converges_partial.

Theorem C26_refuted : forall e : R, 9972 / 10000 <= e < 1 ->
  forall (tol : R) (max_iter : Z), 0 < tol <= 1 -> (3 <= max_iter)%Z ->
  exists M, 0 <= M <= 1 / 20 /\
    (exists prev, elps_run M e tol max_iter = Some (max_iter, solve_kepler_elps M e tol max_iter, prev)) /\
    2 < Rabs (kepler_equ_elps (solve_kepler_elps M e tol max_iter) e M).
Proof. exact elps_bad2_residual. Qed.
Print Assumptions C26_refuted.

Theorem C26_refuted_any_limit : forall e : R, 998 / 1000 <= e < 1 ->
  forall (tol : R) (max_iter : Z), 0 < tol <= 1 -> (1 <= max_iter)%Z ->
  exists M, 0 <= M <= 1 / 20 /\
    (exists prev, elps_run M e tol max_iter = Some (max_iter, solve_kepler_elps M e tol max_iter, prev)) /\
    2 < Rabs (kepler_equ_elps (solve_kepler_elps M e tol max_iter) e M).
Proof. intros e He. apply elps_bad_residual. lra. Qed.
Print Assumptions C26_refuted_any_limit.

Example C26_refuted_default : exists M, 0 <= M <= 1 / 20 /\
  (exists prev, elps_run M (9972 / 10000) default_tol elps_max_iter
     = Some (elps_max_iter, solve_kepler_elps M (9972 / 10000) default_tol elps_max_iter, prev)) /\
  2 < Rabs (kepler_equ_elps (solve_kepler_elps M (9972 / 10000) default_tol elps_max_iter) (9972 / 10000) M).
Proof. exact elps_bad_default. Qed.
Example C26_refuted_one_step : exists M, 0 <= M <= 1 / 20 /\
  (exists prev, elps_run M (998 / 1000) 1 1 = Some (1%Z, solve_kepler_elps M (998 / 1000) 1 1, prev)) /\
  2 < Rabs (kepler_equ_elps (solve_kepler_elps M (998 / 1000) 1 1) (998 / 1000) M).
Proof. apply elps_bad_residual; [lra|lra|]. intros H; discriminate H. Qed.

Example C26_example : Rabs (kepler_equ_elps
  (solve_kepler_elps 1 (997 / 1000) default_tol elps_max_iter) (997 / 1000) 1) <= / 1000000.
Proof. apply solve_elps_near. lra. Qed.

(** ** C27

    True (for numbers below 10^308, a double) unless e - 1 < 1/8000 and N is
    between 33 (e - 1) and 1/33.  False inside that region: for any iteration
    limit there is an N that defeats it for every e close enough to 1. *)
Theorem C27_converges_partial : forall Nm e : R, 1 < e ->
  8001 / 8000 <= e \/ 1 / 33 <= Rabs Nm \/ Rabs Nm <= 33 * (e - 1) ->
  e + 2 * Rabs Nm <= 10 ^ 308 ->
  Rabs (kepler_equ_hypb (solve_kepler_hypb Nm e default_tol hypb_max_iter) e Nm) <= / 1000000.
Proof. exact hypb_converges. Qed.
Print Assumptions C27_converges_partial.

Theorem C27_refuted : forall (tol : R) (max_iter : Z),
  0 <= tol -> (1 <= max_iter)%Z -> tol * (7 * (IZR max_iter + 10)) <= 1 ->
  let Nm := 10 / (31 * (IZR max_iter + 10)) in
  forall e, 1 < e <= 1 + Nm ^ 2 ->
  (exists prev, hypb_run Nm e tol max_iter = Some (max_iter, solve_kepler_hypb Nm e tol max_iter, prev)) /\
  100 < kepler_equ_hypb (solve_kepler_hypb Nm e tol max_iter) e Nm.
Proof. exact hypb_bad_residual. Qed.
Print Assumptions C27_refuted.

(** With the default arguments: every e up to 1.000028. *)
Example C27_refuted_default : forall e, 1 < e <= 1 + (1 / 186) ^ 2 ->
  let Nm := 1 / 186 in
  (exists prev, hypb_run Nm e default_tol hypb_max_iter
     = Some (hypb_max_iter, solve_kepler_hypb Nm e default_tol hypb_max_iter, prev)) /\
  100 < kepler_equ_hypb (solve_kepler_hypb Nm e default_tol hypb_max_iter) e Nm.
Proof. exact hypb_bad_default. Qed.

Example C27_example :
  Rabs (kepler_equ_hypb (solve_kepler_hypb 1 2 default_tol hypb_max_iter) 2 1) <= / 1000000 /\
  Rabs (kepler_equ_hypb (solve_kepler_hypb (1 / 20) (1001 / 1000) default_tol hypb_max_iter) (1001 / 1000) (1 / 20))
  <= / 1000000.
Proof.
  assert (B : 10 <= 10 ^ 308).
  { apply Rle_trans with (10 ^ 1); [lra|]. apply Rle_pow; [lra|]. repeat constructor. }
  split; apply hypb_converges; try lra; rewrite Rabs_pos_eq by lra; lra.
Qed.

(** ** C28

    True for ellipses with e <= 3/4, and up to e = 23/24 when the launch is near
    enough to an apsis, at every elapsed time (at most 35 steps, 13 if e <= 3/5);
    true for parabolas and hyperbolas at moderate times; false for every parabola and
    hyperbola at all late times, and for eccentric ellipses away from the apsides
    at some times, whatever the limit. *)
Theorem C28_elliptic_converges_partial : forall (r0 v0 : vec) (mu t : R),
  0 < mu -> cross r0 v0 <> vzero ->
  let a := semimajor_axis (vnorm r0) (vnorm v0) mu in
  let alpha := alpha_of (vnorm r0) (vnorm v0) mu in
  let sigma0 := sigma_fn r0 v0 mu in
  vnorm (eccentricity_vector r0 v0 mu) <= 3 / 5 -> a <= 10 ^ 200 ->
  exists i chi prev, (i <= 13)%Z /\
    uni_run t alpha (vnorm r0) sigma0 mu default_tol uni_max_iter = Some (i, chi, prev) /\
    Rabs (kepler_equ_uni chi alpha (vnorm r0) sigma0 t mu) <= / 1000000.
Proof. exact uni_elliptic_converges. Qed.
Print Assumptions C28_elliptic_converges_partial.

(** [sigma0 / sqrt a] is e sin E0 of the launch: 0 at the apsides, at most e. *)
Theorem C28_elliptic_converges_eccentric_partial : forall (r0 v0 : vec) (mu t : R),
  0 < mu -> cross r0 v0 <> vzero ->
  let a := semimajor_axis (vnorm r0) (vnorm v0) mu in
  let e := vnorm (eccentricity_vector r0 v0 mu) in
  let alpha := alpha_of (vnorm r0) (vnorm v0) mu in
  let sigma0 := sigma_fn r0 v0 mu in
  e <= 3 / 4 \/ Rabs sigma0 <= (18 / 5 * (1 - e) - 3 / 20) * sqrt a -> a <= 10 ^ 200 ->
  energy mu r0 v0 < 0 ->
  exists i chi prev, (i <= 35)%Z /\
    uni_run t alpha (vnorm r0) sigma0 mu default_tol uni_max_iter = Some (i, chi, prev) /\
    Rabs (kepler_equ_uni chi alpha (vnorm r0) sigma0 t mu) <= / 1000000.
Proof. exact uni_elliptic_converges2. Qed.
Print Assumptions C28_elliptic_converges_eccentric_partial.

(** A launch at periapsis with e = 301/324, for every elapsed time. *)
Example C28_example_apsis : forall t, exists i chi prev, (i <= 35)%Z /\
  uni_run t (alpha_of (vnorm wr) (vnorm (mk3 0 (25 / 18) 0)) 1) (vnorm wr) (sigma_fn wr (mk3 0 (25 / 18) 0) 1) 1 default_tol uni_max_iter
  = Some (i, chi, prev) /\
  Rabs (kepler_equ_uni chi (alpha_of (vnorm wr) (vnorm (mk3 0 (25 / 18) 0)) 1) (vnorm wr) (sigma_fn wr (mk3 0 (25 / 18) 0) 1) t 1) <= / 1000000.
Proof. exact apsis_converges. Qed.

(** ... and then every row of [kepler] is within the largest orbital speed times
    [1e-6 / sqrt mu] of the exact position. *)
Theorem C28_elliptic_rows_partial : forall (r0 v0 : vec) (mu : R),
  0 < mu -> cross r0 v0 <> vzero -> energy mu r0 v0 < 0 ->
  let a := semimajor_axis (vnorm r0) (vnorm v0) mu in
  let p := semiparameter (vnorm (angular_momentum r0 v0)) mu in
  let e := vnorm (eccentricity_vector r0 v0 mu) in
  e <= 3 / 4 \/ Rabs (sigma_fn r0 v0 mu) <= (18 / 5 * (1 - e) - 3 / 20) * sqrt a -> a <= 10 ^ 200 ->
  forall ts i t rk vk r v,
  nth_error ts i = Some t -> nth_error (kepler ts r0 v0 mu) i = Some (rk, vk) ->
  flows_to mu t (r0, v0) (r, v) ->
  vnorm (vminus rk r) <= sqrt (mu / p) * (1 + e) * (/ 1000000 / sqrt mu).
Proof. exact kepler_elliptic_accurate2. Qed.
Print Assumptions C28_elliptic_rows_partial.

(** [tau0] and [tau] are [sqrt mu] times the time since periapsis at the start and
    at the end; [tau^2 / p^3] has no unit. *)
Theorem C28_parabolic_converges_partial : forall (r0 v0 : vec) (mu : R),
  0 < mu -> cross r0 v0 <> vzero -> energy mu r0 v0 = 0 ->
  forall t : R,
  let p := semiparameter (vnorm (angular_momentum r0 v0)) mu in
  let alpha := alpha_of (vnorm r0) (vnorm v0) mu in
  let sigma0 := sigma_fn r0 v0 mu in
  let tau0 := p * sigma0 / 2 + sigma0 ^ 3 / 6 in
  let tau := tau0 + sqrt mu * t in
  (Rabs tau0 + Rabs tau) * (4 + 14 * (tau ^ 2 / p ^ 3)) <= 10 ^ 13 ->
  exists i chi prev, (i <= 50)%Z /\
    uni_run t alpha (vnorm r0) sigma0 mu default_tol uni_max_iter = Some (i, chi, prev) /\
    Rabs (kepler_equ_uni chi alpha (vnorm r0) sigma0 t mu) <= / 1000000.
Proof. exact par_converges. Qed.
Print Assumptions C28_parabolic_converges_partial.

Theorem C28_parabolic_refuted : forall (r0 v0 : vec) (mu : R),
  0 < mu -> cross r0 v0 <> vzero -> energy mu r0 v0 = 0 ->
  forall (tol B : R) (max_iter : Z), (1 <= max_iter)%Z ->
  let alpha := alpha_of (vnorm r0) (vnorm v0) mu in
  let sigma0 := sigma_fn r0 v0 mu in
  exists T, forall t, T <= t ->
    exists chi prev, uni_run t alpha (vnorm r0) sigma0 mu tol max_iter = Some (max_iter, chi, prev) /\
      solve_kepler_uni t alpha (vnorm r0) sigma0 mu tol max_iter = chi /\
      B < kepler_equ_uni chi alpha (vnorm r0) sigma0 t mu.
Proof. exact par_fails. Qed.
Print Assumptions C28_parabolic_refuted.

(** r0 = (1, 0, 0), v0 = (-2, 2, 0), mu = 4 (inbound, through periapsis), t = 5. *)
Example C28_example_parabola : energy 4 (mk3 1 0 0) (mk3 (-2) 2 0) = 0 /\
  cross (mk3 1 0 0) (mk3 (-2) 2 0) <> vzero /\
  exists i chi prev, (i <= 50)%Z /\
    uni_run 5 0 1 (-1) 4 default_tol uni_max_iter = Some (i, chi, prev) /\
    Rabs (kepler_equ_uni chi 0 1 (-1) 5 4) <= / 1000000.
Proof. split; [exact i_energy|]. split; [exact i_cross|exact i_converges]. Qed.

(** [H0 + dm] is the start of the iteration and [M] the mean anomaly at the end;
    the first bound suffices when they lie on the same side of periapsis. *)
Theorem C28_hyperbolic_converges_partial : forall (r0 v0 : vec) (mu t H0 X : R),
  0 < mu -> cross r0 v0 <> vzero -> 0 < energy mu r0 v0 ->
  let a := semimajor_axis (vnorm r0) (vnorm v0) mu in
  let e := vnorm (eccentricity_vector r0 v0 mu) in
  let alpha := alpha_of (vnorm r0) (vnorm v0) mu in
  let sigma0 := sigma_fn r0 v0 mu in
  let dm := sqrt (mu / - a ^ 3) * t in
  let M := e * sinh H0 - H0 + dm in
  hyperbolic_anomaly mu a e r0 v0 H0 ->
  Rabs (H0 + dm) <= X -> Rabs M <= X * (e - 1) ->
  (0 <= (H0 + dm) * M /\ sqrt (- a) ^ 3 * (e * sinh X) <= 10 ^ 13) \/
  sqrt (- a) ^ 3 * ((2 + X) * (e * sinh X) * ((e * cosh X - 1) / (e - 1))) <= 10 ^ 13 ->
  exists i chi prev, (i <= 50)%Z /\
    uni_run t alpha (vnorm r0) sigma0 mu default_tol uni_max_iter = Some (i, chi, prev) /\
    Rabs (kepler_equ_uni chi alpha (vnorm r0) sigma0 t mu) <= / 1000000.
Proof. exact uni_hyperbolic_converges. Qed.
Print Assumptions C28_hyperbolic_converges_partial.

(** r0 = (1, 0, 0), v0 = (0, 3/2, 0), mu = 1 (a = -4, e = 5/4), t = 8. *)
Example C28_example_hyperbola_short : exists i chi prev, (i <= 50)%Z /\
  uni_run 8 (- (1 / 4)) 1 0 1 default_tol uni_max_iter = Some (i, chi, prev) /\
  Rabs (kepler_equ_uni chi (- (1 / 4)) 1 0 8 1) <= / 1000000.
Proof. exact hq_converges. Qed.

Theorem C28_refuted : forall (r0 v0 : vec) (mu tol B : R) (max_iter : Z),
  0 < mu -> cross r0 v0 <> vzero -> 0 < energy mu r0 v0 -> (0 <= max_iter)%Z ->
  let alpha := alpha_of (vnorm r0) (vnorm v0) mu in
  let sigma0 := sigma_fn r0 v0 mu in
  exists T, forall t, T <= t ->
    exists chi prev, uni_run t alpha (vnorm r0) sigma0 mu tol max_iter = Some (max_iter, chi, prev) /\
      solve_kepler_uni t alpha (vnorm r0) sigma0 mu tol max_iter = chi /\
      B < kepler_equ_uni chi alpha (vnorm r0) sigma0 t mu.
Proof. exact uni_hyperbolic_fails. Qed.
Print Assumptions C28_refuted.

(** Eccentric ellipses fail too, away from the apsides: whatever the limit, some
    positive time defeats it.  ([2 pi (1 - e) sqrt a <= |sigma0|] has solutions
    from e = 0.863 on.) *)
Theorem C28_elliptic_refuted : forall (r0 v0 : vec) (mu : R),
  0 < mu -> cross r0 v0 <> vzero -> energy mu r0 v0 < 0 ->
  let a := semimajor_axis (vnorm r0) (vnorm v0) mu in
  let e := vnorm (eccentricity_vector r0 v0 mu) in
  let alpha := alpha_of (vnorm r0) (vnorm v0) mu in
  let sigma0 := sigma_fn r0 v0 mu in
  2 * PI * (1 - e) * sqrt a <= Rabs sigma0 ->
  forall (tol : R) (max_iter : Z), tol <= (1 - e) * sqrt a ^ 3 -> (1 <= max_iter)%Z ->
  exists t, 0 < t /\
    exists chi prev, uni_run t alpha (vnorm r0) sigma0 mu tol max_iter = Some (max_iter, chi, prev) /\
      solve_kepler_uni t alpha (vnorm r0) sigma0 mu tol max_iter = chi /\
      2 * sqrt a ^ 3 < Rabs (kepler_equ_uni chi alpha (vnorm r0) sigma0 t mu).
Proof. exact uni_elliptic_fails. Qed.
Print Assumptions C28_elliptic_refuted.

(** With the default arguments, for the state ((-24/25, -7/25, 0), (1, 0, 0)):
    a = 1, e = 24/25. *)
Example C28_elliptic_refuted_default : exists t, 0 < t /\
  exists chi prev, uni_run t 1 1 (- (24 / 25)) 1 default_tol uni_max_iter = Some (uni_max_iter, chi, prev) /\
    solve_kepler_uni t 1 1 (- (24 / 25)) 1 default_tol uni_max_iter = chi /\
    2 < Rabs (kepler_equ_uni chi 1 1 (- (24 / 25)) t 1).
Proof. exact q_fails. Qed.

(** A concrete hyperbola: [kepler] returns a distance quadratic in the elapsed
    time where the body is at most at [2 t + 1]. *)
Theorem C28_refuted_distance : forall t : R, 100 <= t ->
  let r0 := mk3 1 0 0 in let v0 := mk3 1 1 1 in
  exists r v, kepler [t] r0 v0 1 = [(r, v)] /\ 1 + t ^ 2 / 4 <= vnorm r /\
    forall x, flows_to 1 t (r0, v0) x -> vnorm (fst x) <= 2 * t + 1.
Proof. exact u_kepler_wrong. Qed.
Print Assumptions C28_refuted_distance.

Example C28_example_hyperbola : energy 1 (mk3 1 0 0) (mk3 1 1 1) = 1 / 2 /\
  cross (mk3 1 0 0) (mk3 1 1 1) <> vzero.
Proof. split; [exact u_energy|exact uh]. Qed.

Example C28_example_ellipse : exists i chi prev, (i <= 13)%Z /\
  uni_run 5 (alpha_of (vnorm wr) (vnorm wv) 1) (vnorm wr) (sigma_fn wr wv 1) 1 default_tol uni_max_iter
  = Some (i, chi, prev) /\
  Rabs (kepler_equ_uni chi (alpha_of (vnorm wr) (vnorm wv) 1) (vnorm wr) (sigma_fn wr wv 1) 5 1) <= / 1000000.
Proof. exact w_converges. Qed.

(** ** C46 *)
Theorem C46_elliptic : forall (r0 v0 : vec) (mu : R),
  0 < mu -> cross r0 v0 <> vzero -> energy mu r0 v0 < 0 ->
  let a := semimajor_axis (vnorm r0) (vnorm v0) mu in
  let e := vnorm (eccentricity_vector r0 v0 mu) in
  let alpha := alpha_of (vnorm r0) (vnorm v0) mu in
  let sigma0 := sigma_fn r0 v0 mu in
  (exists E0, - PI < E0 <= PI /\ eccentric_anomaly mu a e r0 v0 E0) /\
  forall E0 chi, eccentric_anomaly mu a e r0 v0 E0 ->
    let E := E0 + chi / sqrt a in
    eccentric_anomaly mu a e (fst (state_at_chi chi alpha sigma0 (vnorm r0) r0 v0 mu))
      (snd (state_at_chi chi alpha sigma0 (vnorm r0) r0 v0 mu)) E /\
    forall t,
      kepler_equ_uni chi alpha (vnorm r0) sigma0 t mu
      = sqrt a ^ 3 * kepler_equ_elps E e (E0 - e * sin E0 + mean_anomaly_elps a t mu) /\
      (kepler_equ_uni chi alpha (vnorm r0) sigma0 t mu = 0 <->
       E - e * sin E = E0 - e * sin E0 + mean_anomaly_elps a t mu).
Proof. exact classical_elliptic. Qed.
Print Assumptions C46_elliptic.

Theorem C46_hyperbolic : forall (r0 v0 : vec) (mu : R),
  0 < mu -> cross r0 v0 <> vzero -> 0 < energy mu r0 v0 ->
  let a := semimajor_axis (vnorm r0) (vnorm v0) mu in
  let e := vnorm (eccentricity_vector r0 v0 mu) in
  let alpha := alpha_of (vnorm r0) (vnorm v0) mu in
  let sigma0 := sigma_fn r0 v0 mu in
  (exists! H0, hyperbolic_anomaly mu a e r0 v0 H0) /\
  forall H0 chi, hyperbolic_anomaly mu a e r0 v0 H0 ->
    let H := H0 + chi / sqrt (- a) in
    hyperbolic_anomaly mu a e (fst (state_at_chi chi alpha sigma0 (vnorm r0) r0 v0 mu))
      (snd (state_at_chi chi alpha sigma0 (vnorm r0) r0 v0 mu)) H /\
    forall t,
      kepler_equ_uni chi alpha (vnorm r0) sigma0 t mu
      = sqrt (- a) ^ 3 * kepler_equ_hypb H e (e * sinh H0 - H0 + mean_anomaly_hypb a t mu) /\
      (kepler_equ_uni chi alpha (vnorm r0) sigma0 t mu = 0 <->
       e * sinh H - H = e * sinh H0 - H0 + mean_anomaly_hypb a t mu).
Proof. exact classical_hyperbolic. Qed.
Print Assumptions C46_hyperbolic.

Example C46_example : energy 1 wr wv < 0 /\ cross wr wv <> vzero /\
  semimajor_axis (vnorm wr) (vnorm wv) 1 = 4 / 3 /\ vnorm (eccentricity_vector wr wv 1) = 1 / 4 /\
  eccentric_anomaly 1 (4 / 3) (1 / 4) wr wv 0 /\ energy 1 (mk3 1 0 0) (mk3 1 1 1) = 1 / 2.
Proof.
  split; [rewrite w_energy; lra|]. split; [exact wh_neq|]. split; [exact w_axis|]. split; [exact we_norm|].
  split; [exact w_anomaly|exact u_energy].
Qed.
