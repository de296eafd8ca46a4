(** * Model of /repo/src/astrodynx/twobody/_kep_equ.py *)
From Coq Require Import ZArith List.
From Verif Require Import Num OrbIntegrals Uniformulas.
Local Open Scope num_scope.

Section KepEqu.
  Context {T : Type} {N : Num T}.

  (* _kep_equ.py:11-51 *)
  Definition kepler_equ_elps (E e M : T) : T := E - e * n_sin E - M.

  (* _kep_equ.py:54-71 *)
  Definition dE (E e : T) : T := #1 - e * n_cos E.

  (* _kep_equ.py:74-114; [Nm] is the python argument [N] *)
  Definition kepler_equ_hypb (H e Nm : T) : T := e * n_sinh H - H - Nm.

  (* _kep_equ.py:117-134 *)
  Definition dH (H e : T) : T := e * n_cosh H - #1.

  (* _kep_equ.py:137-177 *)
  Definition mean_anomaly_elps (a deltat mu : T) : T := n_sqrt (mu / a ** 3) * deltat.

  (* _kep_equ.py:180-220 *)
  Definition mean_anomaly_hypb (a deltat mu : T) : T :=
    n_sqrt (mu / (- (a ** 3))) * deltat.

  (* _kep_equ.py:223-284 *)
  Definition kepler_equ_uni (chi alpha r0 sigma0 deltat mu : T) : T :=
    r0 * ufunc1 chi alpha + sigma0 * ufunc2 chi alpha + ufunc3 chi alpha
      - n_sqrt mu * deltat.

  (* _kep_equ.py:287-290 *)
  Definition dchi (chi alpha r0 sigma0 : T) : T :=
    equ_of_orb_uvi (ufunc0 chi alpha) (ufunc1 chi alpha) (ufunc2 chi alpha) r0 sigma0.

  (* _kep_equ.py:293-345 *)
  Definition generalized_anomaly (alpha sigma sigma0 deltat mu : T) : T :=
    alpha * n_sqrt mu * deltat + sigma - sigma0.

  (** The carried value of the three Newton loops: (iter_count, x, x_prev). *)
  Definition loop_state : Type := (Z * T * T)%type.

  (** [abs(x) > tol] *)
  Definition exceeds (x tol : T) : bool := n_gt (n_abs x) tol.

  (** Fuel that always suffices: the loops stop when [iter_count >= max_iter]
      (theorems [solve_kepler_*_total]). *)
  Definition loop_fuel (max_iter : Z) : nat := S (Z.to_nat max_iter).

  (** *** solve_kepler_elps, _kep_equ.py:348-397 *)
  (* _kep_equ.py:382 *)
  Definition elps_guess (M e : T) : T :=
    M + e * n_sin M + e ** 2 * n_sin (#2 * M) / #2.
  (* _kep_equ.py:384-388 *)
  Definition elps_cond (tol : T) (max_iter : Z) (val : loop_state) : bool :=
    let '(iter_count, E, E_prev) := val in
    andb (exceeds (E - E_prev) tol) (Z.ltb iter_count max_iter).
  (* _kep_equ.py:390-394 *)
  Definition elps_body (M e : T) (val : loop_state) : loop_state :=
    let '(iter_count, E, _) := val in
    let f := E - e * n_sin E - M in
    let E_new := E - f / dE E e in
    ((iter_count + 1)%Z, E_new, E).
  (* _kep_equ.py:396: initial carry (0, E0, E0 + 2 * tol) *)
  Definition elps_init (M e tol : T) : loop_state :=
    (0%Z, elps_guess M e, elps_guess M e + #2 * tol).
  Definition elps_run (M e tol : T) (max_iter : Z) : option loop_state :=
    while_fuel (loop_fuel max_iter) (elps_cond tol max_iter) (elps_body M e)
      (elps_init M e tol).
  (* _kep_equ.py:396-397; the [None] branch is unreachable (solve_kepler_elps_total) *)
  Definition solve_kepler_elps (M e tol : T) (max_iter : Z) : T :=
    match elps_run M e tol max_iter with
    | Some (_, E, _) => E
    | None => elps_guess M e
    end.

  (** *** solve_kepler_hypb, _kep_equ.py:400-448 *)
  (* _kep_equ.py:434 *)
  Definition hypb_guess (Nm e : T) : T :=
    n_log (#2 * Nm / e + n_sqrt ((#2 * Nm / e) ** 2 + #1)).
  (* _kep_equ.py:436-440 *)
  Definition hypb_cond (Nm e tol : T) (max_iter : Z) (val : loop_state) : bool :=
    let '(iter_count, H, _) := val in
    andb (exceeds (kepler_equ_hypb H e Nm) tol) (Z.ltb iter_count max_iter).
  (* _kep_equ.py:442-445 *)
  Definition hypb_body (Nm e : T) (val : loop_state) : loop_state :=
    let '(iter_count, H, _) := val in
    let H_new := H - kepler_equ_hypb H e Nm / dH H e in
    ((iter_count + 1)%Z, H_new, H).
  (* _kep_equ.py:447 *)
  Definition hypb_init (Nm e tol : T) : loop_state :=
    (0%Z, hypb_guess Nm e, hypb_guess Nm e + #2 * tol).
  Definition hypb_run (Nm e tol : T) (max_iter : Z) : option loop_state :=
    while_fuel (loop_fuel max_iter) (hypb_cond Nm e tol max_iter) (hypb_body Nm e)
      (hypb_init Nm e tol).
  (* _kep_equ.py:447-448; the [None] branch is unreachable (solve_kepler_hypb_total) *)
  Definition solve_kepler_hypb (Nm e tol : T) (max_iter : Z) : T :=
    match hypb_run Nm e tol max_iter with
    | Some (_, H, _) => H
    | None => hypb_guess Nm e
    end.

  (** *** solve_kepler_uni, _kep_equ.py:451-519 *)
  (* _kep_equ.py:501 *)
  Definition uni_guess (deltat alpha mu : T) : T :=
    n_sqrt mu * n_abs alpha * deltat.
  (* _kep_equ.py:503-509 *)
  Definition uni_cond (deltat alpha r0 sigma0 mu tol : T) (max_iter : Z)
    (val : loop_state) : bool :=
    let '(iter_count, chi, _) := val in
    andb (exceeds (kepler_equ_uni chi alpha r0 sigma0 deltat mu) tol)
         (Z.ltb iter_count max_iter).
  (* _kep_equ.py:511-516 *)
  Definition uni_body (deltat alpha r0 sigma0 mu : T) (val : loop_state) : loop_state :=
    let '(iter_count, chi, _) := val in
    let chi_new := chi - kepler_equ_uni chi alpha r0 sigma0 deltat mu
                           / dchi chi alpha r0 sigma0 in
    ((iter_count + 1)%Z, chi_new, chi).
  (* _kep_equ.py:518 *)
  Definition uni_init (deltat alpha mu tol : T) : loop_state :=
    (0%Z, uni_guess deltat alpha mu, uni_guess deltat alpha mu + #2 * tol).
  Definition uni_run (deltat alpha r0 sigma0 mu tol : T) (max_iter : Z)
    : option loop_state :=
    while_fuel (loop_fuel max_iter)
      (uni_cond deltat alpha r0 sigma0 mu tol max_iter)
      (uni_body deltat alpha r0 sigma0 mu)
      (uni_init deltat alpha mu tol).
  (* _kep_equ.py:518-519; the [None] branch is unreachable (solve_kepler_uni_total) *)
  Definition solve_kepler_uni (deltat alpha r0 sigma0 mu tol : T) (max_iter : Z) : T :=
    match uni_run deltat alpha r0 sigma0 mu tol max_iter with
    | Some (_, chi, _) => chi
    | None => uni_guess deltat alpha mu
    end.

  (** Default arguments: [tol = 1e-6] (_kep_equ.py:349, 401, 457), [max_iter]
      20 (line 349), 50 (line 401), 50 (line 458). *)
  Definition default_tol : T := n_dec 1 1000000.
  Definition elps_max_iter : Z := 20.
  Definition hypb_max_iter : Z := 50.
  Definition uni_max_iter : Z := 50.
End KepEqu.
