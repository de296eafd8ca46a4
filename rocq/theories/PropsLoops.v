(** * Properties C21, C22: batching and termination, in any arithmetic

    Theorems only; proofs are in [LoopFacts].  [T] and its operations are
    arbitrary, so the statements cover float32 and float64 with NaN and
    infinities, and any implementation of the elementary functions. *)
From Coq Require Import ZArith List.
From Flocq Require Import IEEE754.BinarySingleNaN.
From Verif Require Import Num NumR Spec OrbIntegrals Uniformulas KepEqu StateTrans PropKepler LoopFacts NumB32 LibmRef LoopExamples.
Import ListNotations.
Local Open Scope num_scope.

(** ** C21 *)
Theorem C21_row_depends_on_its_time_only :
  forall (T : Type) (N : Num T) (ts : list T) (r0 v0 : V3 T) (mu : T) (i : nat) (t : T),
  nth_error ts i = Some t ->
  nth_error (kepler ts r0 v0 mu) i = nth_error (kepler [t] r0 v0 mu) 0.
Proof. exact @kepler_nth. Qed.
Print Assumptions C21_row_depends_on_its_time_only.

Theorem C21_batch : forall (T : Type) (N : Num T) (ts : list T) (r0 v0 : V3 T) (mu : T),
  kepler ts r0 v0 mu = flat_map (fun t => kepler [t] r0 v0 mu) ts /\
  length (kepler ts r0 v0 mu) = length ts.
Proof. exact @kepler_rows. Qed.
Print Assumptions C21_batch.

Theorem C21_solver : forall (T : Type) (N : Num T) (ts : list T) (alpha r0 sigma0 mu : T),
  vmap_solve_kepler_uni ts alpha r0 sigma0 mu
  = map (fun t => solve_kepler_uni t alpha r0 sigma0 mu (n_dec 1 1000000) 50) ts.
Proof. exact @vmap_solve_eq. Qed.
Print Assumptions C21_solver.

(** Four lanes in single precision that stop after 0, 3 and 4 steps and at the limit. *)
Example C21_example :
  let N := Num_B32 ref_libm in
  map (fun t => steps (@uni_run _ N t (b32_dec 3 2) (b32_Z 1) (b32_dec 1 4) (b32_Z 1) (b32_dec 1 1000000) 50))
    [b32_Z 0; b32_Z 1; b32_Z 5; b32_Z 20] = [Some 0; Some 3; Some 4; Some 50]%Z.
Proof. exact lanes_steps. Qed.

(** ** C22

    Each solver returns (in the big-step sense of [While]), and its result is
    the [k]-th Newton iterate of its guess for some [k <= max 0 max_iter]; all
    earlier iterates fail the convergence test and either the last one passes
    it or [k] is the limit. *)
Theorem C22_elps_terminates : forall (T : Type) (N : Num T) (M e tol : T) (max_iter : Z),
  exists i prev, While (elps_cond tol max_iter) (elps_body M e) (elps_init M e tol)
                   (i, solve_kepler_elps M e tol max_iter, prev).
Proof. exact @elps_while. Qed.
Print Assumptions C22_elps_terminates.

Theorem C22_hypb_terminates : forall (T : Type) (N : Num T) (Nm e tol : T) (max_iter : Z),
  exists i prev, While (hypb_cond Nm e tol max_iter) (hypb_body Nm e) (hypb_init Nm e tol)
                   (i, solve_kepler_hypb Nm e tol max_iter, prev).
Proof. exact @hypb_while. Qed.
Print Assumptions C22_hypb_terminates.

Theorem C22_uni_terminates :
  forall (T : Type) (N : Num T) (deltat alpha r0 sigma0 mu tol : T) (max_iter : Z),
  exists i prev, While (uni_cond deltat alpha r0 sigma0 mu tol max_iter)
                   (uni_body deltat alpha r0 sigma0 mu) (uni_init deltat alpha mu tol)
                   (i, solve_kepler_uni deltat alpha r0 sigma0 mu tol max_iter, prev).
Proof. exact @uni_while. Qed.
Print Assumptions C22_uni_terminates.

Theorem C22_elps_exit : forall (T : Type) (N : Num T) (M e tol : T) (max_iter : Z),
  exists k : nat, (k <= Z.to_nat max_iter)%nat /\
    let guess := M + e * n_sin M + e ** 2 * n_sin (#2 * M) / #2 in
    let step := fun E => E - kepler_equ_elps E e M / dE E e in
    let xs := fun j => iterate step j guess in
    let ys := fun j => match j with O => guess + #2 * tol | S j' => xs j' end in
    solve_kepler_elps M e tol max_iter = xs k /\
    (forall j, (j < k)%nat -> n_gt (n_abs (xs j - ys j)) tol = true) /\
    (k = Z.to_nat max_iter \/ n_gt (n_abs (xs k - ys k)) tol = false).
Proof. exact @elps_char. Qed.
Print Assumptions C22_elps_exit.

Theorem C22_hypb_exit : forall (T : Type) (N : Num T) (Nm e tol : T) (max_iter : Z),
  exists k : nat, (k <= Z.to_nat max_iter)%nat /\
    let guess := n_log (#2 * Nm / e + n_sqrt ((#2 * Nm / e) ** 2 + #1)) in
    let step := fun H => H - kepler_equ_hypb H e Nm / dH H e in
    let xs := fun j => iterate step j guess in
    solve_kepler_hypb Nm e tol max_iter = xs k /\
    (forall j, (j < k)%nat -> n_gt (n_abs (kepler_equ_hypb (xs j) e Nm)) tol = true) /\
    (k = Z.to_nat max_iter \/ n_gt (n_abs (kepler_equ_hypb (xs k) e Nm)) tol = false).
Proof. exact @hypb_char. Qed.
Print Assumptions C22_hypb_exit.

Theorem C22_uni_exit :
  forall (T : Type) (N : Num T) (deltat alpha r0 sigma0 mu tol : T) (max_iter : Z),
  exists k : nat, (k <= Z.to_nat max_iter)%nat /\
    let guess := n_sqrt mu * n_abs alpha * deltat in
    let step := fun chi => chi - kepler_equ_uni chi alpha r0 sigma0 deltat mu / dchi chi alpha r0 sigma0 in
    let xs := fun j => iterate step j guess in
    solve_kepler_uni deltat alpha r0 sigma0 mu tol max_iter = xs k /\
    (forall j, (j < k)%nat -> n_gt (n_abs (kepler_equ_uni (xs j) alpha r0 sigma0 deltat mu)) tol = true) /\
    (k = Z.to_nat max_iter \/
     n_gt (n_abs (kepler_equ_uni (xs k) alpha r0 sigma0 deltat mu)) tol = false).
Proof. exact @uni_char. Qed.
Print Assumptions C22_uni_exit.

(** Called without [tol] and [max_iter]: the tolerance is 1e-6 and at most 20, 50, 50 steps are made. *)
Theorem C22_elps_default : forall (T : Type) (N : Num T) (M e : T),
  exists k : nat, (k <= 20)%nat /\
    let guess := M + e * n_sin M + e ** 2 * n_sin (#2 * M) / #2 in
    let step := fun E => E - kepler_equ_elps E e M / dE E e in
    let xs := fun j => iterate step j guess in
    let ys := fun j => match j with O => guess + #2 * n_dec 1 1000000 | S j' => xs j' end in
    solve_kepler_elps M e default_tol elps_max_iter = xs k /\
    (forall j, (j < k)%nat -> n_gt (n_abs (xs j - ys j)) (n_dec 1 1000000) = true) /\
    (k = 20%nat \/ n_gt (n_abs (xs k - ys k)) (n_dec 1 1000000) = false).
Proof. exact (fun T N M e => elps_char M e (n_dec 1 1000000) 20). Qed.
Print Assumptions C22_elps_default.

Theorem C22_hypb_default : forall (T : Type) (N : Num T) (Nm e : T),
  exists k : nat, (k <= 50)%nat /\
    let guess := n_log (#2 * Nm / e + n_sqrt ((#2 * Nm / e) ** 2 + #1)) in
    let step := fun H => H - kepler_equ_hypb H e Nm / dH H e in
    let xs := fun j => iterate step j guess in
    solve_kepler_hypb Nm e default_tol hypb_max_iter = xs k /\
    (forall j, (j < k)%nat -> n_gt (n_abs (kepler_equ_hypb (xs j) e Nm)) (n_dec 1 1000000) = true) /\
    (k = 50%nat \/ n_gt (n_abs (kepler_equ_hypb (xs k) e Nm)) (n_dec 1 1000000) = false).
Proof. exact (fun T N Nm e => hypb_char Nm e (n_dec 1 1000000) 50). Qed.
Print Assumptions C22_hypb_default.

Theorem C22_uni_default : forall (T : Type) (N : Num T) (deltat alpha r0 sigma0 mu : T),
  exists k : nat, (k <= 50)%nat /\
    let guess := n_sqrt mu * n_abs alpha * deltat in
    let step := fun chi => chi - kepler_equ_uni chi alpha r0 sigma0 deltat mu / dchi chi alpha r0 sigma0 in
    let xs := fun j => iterate step j guess in
    solve_kepler_uni deltat alpha r0 sigma0 mu default_tol uni_max_iter = xs k /\
    (forall j, (j < k)%nat -> n_gt (n_abs (kepler_equ_uni (xs j) alpha r0 sigma0 deltat mu)) (n_dec 1 1000000) = true) /\
    (k = 50%nat \/
     n_gt (n_abs (kepler_equ_uni (xs k) alpha r0 sigma0 deltat mu)) (n_dec 1 1000000) = false).
Proof. exact (fun T N deltat alpha r0 sigma0 mu => uni_char deltat alpha r0 sigma0 mu (n_dec 1 1000000) 50). Qed.
Print Assumptions C22_uni_default.

(** In single precision: 3 steps, no step for a mean anomaly that is not a number, 3 steps. *)
Example C22_example :
  let N := Num_B32 ref_libm in
  steps (@elps_run _ N (b32_Z 1) (b32_dec 1 2) (@default_tol _ N) elps_max_iter) = Some 3%Z /\
  steps (@elps_run _ N B754_nan (b32_dec 1 2) (@default_tol _ N) elps_max_iter) = Some 0%Z /\
  steps (@hypb_run _ N (b32_Z 1) (b32_Z 2) (@default_tol _ N) hypb_max_iter) = Some 3%Z.
Proof. exact solver_steps. Qed.
