(** * Properties C88, C89: forward-mode derivatives of the two Kepler solvers

    Theorems only; proofs are in [AdElps], [AdHypb], [AdHypb2], [AdHypb3].  [dual] numbers carry a derivative ([NumD]);
    [carries x s d] says that the pair [d] is the value and the derivative of [x] at [s] ([SpecAd]).
    Exact real arithmetic, default tolerance and iteration limit. *)
From Coq Require Import Reals Lra List.
From Coquelicot Require Import Coquelicot.
From Verif Require Import Num NumR NumD Spec SpecAd KepEqu AdElps AdHypb AdHypb2 AdHypb3.
Local Open Scope R_scope.

(** ** C88 *)
(** Let the mean anomaly and the eccentricity vary with a parameter [u], and let [root u] solve Kepler's
    equation.  Then [root] has a derivative, and what [jax.jvp] returns is close to it. *)
Theorem C88_elliptic_jvp : forall (M e root : R -> R) (s : R) (dM de : dual), 0 <= e s <= 249 / 250 -> carries M s dM -> carries e s de ->
  locally s (fun u => root u - e u * sin (root u) = M u) ->
  let o := @solve_kepler_elps _ Num_D dM de (@default_tol _ Num_D) elps_max_iter in
  val o = solve_kepler_elps (M s) (e s) default_tol elps_max_iter /\
  exists root', is_derive root s root' /\
    Rabs (tang o - root') <= 46 / 1000000 * (Rabs (tang dM) + Rabs (tang de)) / (1 - e s) ^ 2.
Proof. exact elps_jvp. Qed.
Print Assumptions C88_elliptic_jvp.

(** At periapsis with eccentricity 1/2: the derivative is 2; that of the starting guess is 7/4. *)
Example C88_example : @elps_guess _ Num_D (mkD 0 1) (konst (1 / 2)) = mkD 0 (7 / 4) /\
  @solve_kepler_elps _ Num_D (mkD 0 1) (konst (1 / 2)) (@default_tol _ Num_D) elps_max_iter = mkD 0 2.
Proof. exact elps_jvp_ex. Qed.

(** ** C89 *)
(** The hyperbolic solver tests the residual before the first step.  At [N = 0] it returns the starting
    guess with the derivative 2/e of the guess; the solution has derivative 1/(e - 1). *)
Theorem C89_hyperbolic_jvp_refuted : forall e : R, 1 < e -> e <> 2 ->
  let o := @solve_kepler_hypb _ Num_D (mkD 0 1) (konst e) (@default_tol _ Num_D) hypb_max_iter in
  val o = 0 /\ tang o = 2 / e /\
  (exists root : R -> R, locally 0 (fun u => e * sinh (root u) - root u = u)) /\
  forall root : R -> R, locally 0 (fun u => e * sinh (root u) - root u = u) -> is_derive root 0 (/ (e - 1)) /\ tang o <> / (e - 1).
Proof. exact hypb_jvp_wrong. Qed.
Print Assumptions C89_hyperbolic_jvp_refuted.

(** Not only at [N = 0]: for e = 2 N / sinh N, below 2, the guess is the solution itself, so it is accepted.
    Its derivative is too large by the factor 2 - tanh N / N. *)
Theorem C89_lucky_guess_refuted : forall N : R, 0 < N -> sinh N < 2 * N -> let e := 2 * N / sinh N in
  let o := @solve_kepler_hypb _ Num_D (mkD N 1) (konst e) (@default_tol _ Num_D) hypb_max_iter in
  1 < e < 2 /\ e * sinh N - N = N /\ val o = N /\
  (exists root : R -> R, locally N (fun u => e * sinh (root u) - root u = u)) /\
  forall root : R -> R, locally N (fun u => e * sinh (root u) - root u = u) ->
    exists r : R, is_derive root N r /\ 0 < r /\ tang o = (2 - sinh N / (N * cosh N)) * r /\ sinh N / (N * cosh N) < 1.
Proof. exact hypb_jvp_lucky. Qed.
Print Assumptions C89_lucky_guess_refuted.
(** At N = 1 (e = 1.70): a fifth too large. *)
Example C89_example_lucky : let e := 2 * 1 / sinh 1 in
  let o := @solve_kepler_hypb _ Num_D (mkD 1 1) (konst e) (@default_tol _ Num_D) hypb_max_iter in
  val o = 1 /\ forall root : R -> R, locally 1 (fun u => e * sinh (root u) - root u = u) ->
    exists r : R, is_derive root 1 r /\ 0 < r /\ 6 / 5 * r <= tang o.
Proof. exact hypb_jvp_lucky_ex. Qed.

(** For every mean anomaly up to 1/3000000 the derivative is that of the guess. *)
Theorem C89_small_anomaly : forall (N e : R -> R) (s : R) (dN de : dual), 1 < e s -> Rabs (N s) <= / 3000000 -> carries N s dN -> carries e s de ->
  carries (fun u => arcsinh (2 * N u / e u)) s (@solve_kepler_hypb _ Num_D dN de (@default_tol _ Num_D) hypb_max_iter).
Proof. exact hypb_small_guess. Qed.
Print Assumptions C89_small_anomaly.

(** The starting guess [arcsinh (2 N / e)] has the residual [N - arcsinh (2 N / e)]; when that is within
    the tolerance the derivative is that of the guess. *)
Theorem C89_guess_accepted : forall (N e : R -> R) (s : R) (dN de : dual), 1 < e s -> carries N s dN -> carries e s de ->
  Rabs (N s - arcsinh (2 * N s / e s)) <= / 1000000 ->
  carries (fun u => arcsinh (2 * N u / e u)) s (@solve_kepler_hypb _ Num_D dN de (@default_tol _ Num_D) hypb_max_iter).
Proof. exact hypb_guess_kept. Qed.
Print Assumptions C89_guess_accepted.

(** When it is not, and e >= 2, a step is made and the derivative is right to 1.4 percent of the scale
    (|dN| + |de| cosh H) / (e cosh H - 1).  For smaller e see the next theorem but one. *)
Theorem C89_step_made_partial : forall (N e root : R -> R) (s : R) (dN de : dual), 2 <= e s -> e s + 2 * Rabs (N s) <= 10 ^ 308 ->
  carries N s dN -> carries e s de ->
  / 1000000 < Rabs (N s - arcsinh (2 * N s / e s)) ->
  locally s (fun u => e u * sinh (root u) - root u = N u) ->
  let o := @solve_kepler_hypb _ Num_D dN de (@default_tol _ Num_D) hypb_max_iter in
  val o = solve_kepler_hypb (N s) (e s) default_tol hypb_max_iter /\
  exists root', is_derive root s root' /\
    Rabs (tang o - root') <= 14 / 1000 * ((Rabs (tang dN) + Rabs (tang de) * cosh (root s)) / (e s * cosh (root s) - 1)).
Proof. exact hypb_jvp_close. Qed.
Print Assumptions C89_step_made_partial.
(** This covers every mean anomaly from 1/50 on. *)
Theorem C89_step_condition : forall e N : R, 2 <= e -> 1 / 50 <= Rabs N -> / 1000000 < Rabs (N - arcsinh (2 * N / e)).
Proof. exact hypb_step_made. Qed.
Print Assumptions C89_step_condition.
(** Along N = 3 sinh u - u, e = 3 the solution is u itself, with derivative 1. *)
Example C89_example_step : let o := @solve_kepler_hypb _ Num_D (mkD (3 * sinh 1 - 1) (3 * cosh 1 - 1)) (konst 3) (@default_tol _ Num_D) hypb_max_iter in
  Rabs (tang o - 1) <= 14 / 1000.
Proof. exact hypb_jvp_ex. Qed.

(** From e = 6/5 on the derivative is right to 9 percent of that scale.  Below 2 the first step may start left of
    the solution and overshoot it.  Missing: a bound for 1 < e < 6/5. *)
Theorem C89_step_made_low_partial : forall (N e root : R -> R) (s : R) (dN de : dual), 6 / 5 <= e s -> e s + 2 * Rabs (N s) <= 10 ^ 308 ->
  carries N s dN -> carries e s de ->
  / 1000000 < Rabs (N s - arcsinh (2 * N s / e s)) ->
  locally s (fun u => e u * sinh (root u) - root u = N u) ->
  let o := @solve_kepler_hypb _ Num_D dN de (@default_tol _ Num_D) hypb_max_iter in
  val o = solve_kepler_hypb (N s) (e s) default_tol hypb_max_iter /\
  exists root', is_derive root s root' /\
    Rabs (tang o - root') <= 9 / 100 * ((Rabs (tang dN) + Rabs (tang de) * cosh (root s)) / (e s * cosh (root s) - 1)).
Proof. exact hypb_jvp_mid. Qed.
Print Assumptions C89_step_made_low_partial.
(** Along N = 6/5 sinh u - u, e = 6/5 the solution is u; at u = 1/2 the guess is too small. *)
Example C89_example_low : let N := 6 / 5 * sinh (1 / 2) - 1 / 2 in
  let o := @solve_kepler_hypb _ Num_D (mkD N (6 / 5 * cosh (1 / 2) - 1)) (konst (6 / 5)) (@default_tol _ Num_D) hypb_max_iter in
  kepler_equ_hypb (hypb_guess N (6 / 5)) (6 / 5) N < - (7 / 100) /\ Rabs (tang o - 1) <= 9 / 100.
Proof. exact hypb_jvp_mid_ex. Qed.

(** In general: the derivative follows a recursion over the iterates.  Missing: how far the last one is
    from the derivative of the solution when 1 < e < 6/5. *)
Theorem C89_hyperbolic_jvp_partial : forall dN de : dual, 1 < val de -> let N := val dN in let e := val de in
  let o := @solve_kepler_hypb _ Num_D dN de (@default_tol _ Num_D) hypb_max_iter in
  exists (n : nat) (x k : nat -> R), (n <= 50)%nat /\ o = mkD (x n) (k n) /\ x n = solve_kepler_hypb N e default_tol hypb_max_iter /\
    sinh (x 0%nat) = 2 * N / e /\ k 0%nat = (2 * tang dN / e - 2 * N * tang de / e ^ 2) / cosh (x 0%nat) /\
    (forall j, let f := e * sinh (x j) - x j - N in let f' := e * cosh (x j) - 1 in
      x (S j) = x j - f / f' /\
      k (S j) = (tang dN - tang de * sinh (x j)) / f' + f * (e * sinh (x j) * k j + tang de * cosh (x j)) / f' ^ 2) /\
    (forall j, (j < n)%nat -> / 1000000 < Rabs (e * sinh (x j) - x j - N)) /\
    (n = 50%nat \/ Rabs (e * sinh (x n) - x n - N) <= / 1000000).
Proof. exact hypb_jvp. Qed.
Print Assumptions C89_hyperbolic_jvp_partial.
(** Eccentricity 4: half instead of a third. *)
Example C89_example : tang (@solve_kepler_hypb _ Num_D (mkD 0 1) (konst 4) (@default_tol _ Num_D) hypb_max_iter) = 1 / 2.
Proof. destruct (C89_hyperbolic_jvp_refuted 4) as [_ [E _]]; [lra|lra|]. rewrite E. lra. Qed.
