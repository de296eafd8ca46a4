(** * DocExamples: the model, run in single precision, on the examples of the docstrings.

    Generated text: each example evaluates the model with [NumB32] and the libm
    of [LibmRef] on the inputs of a docstring (or of a test) in /repo and
    compares with the output printed there: [shows] = the printed digits
    followed by "...", [close] = [jnp.allclose] with its default tolerances,
    [near ... 0] = exactly the printed number.
    Where the default absolute tolerance 1e-8 of allclose would hide the value
    (j3_acc, j4_acc) or none is needed (closeb) the check is stricter than the
    docstring's.  Numbers printed to 8 digits (orb_period) are compared with
    [close].  [jnp.deg2rad d] is modelled as d * pi / 180 rounded twice.  An
    example on an array is run element by element, without the shapes.
    These are checks of the model, not properties of the code. *)
From Coq Require Import ZArith List Bool String.
From Flocq Require Import Core IEEE754.BinarySingleNaN.
From Verif Require Import Num NumB32 LibmRef OrbIntegrals Uniformulas KepEqu Lagrange OrbElements
  StateTrans PathCheck Gravity PropKepler RotMat.
Import ListNotations.
Local Open Scope string_scope.
Local Open Scope num_scope.
Local Open Scope bool_scope.

#[local] Instance N32 : Num b32 := Num_B32 ref_libm.

Definition closeb (x y : b32) : bool :=
  is_finite x && is_finite y &&
  (Z.abs (fix_of x - fix_of y) * 100000 <=? Z.abs (fix_of y))%Z.
Definition negz : b32 := B754_zero true.
Definition vec0 : V3 b32 := mk3 (lit 0 1) (lit 0 1) (lit 0 1).
Definition got (r : res (V3 b32)) : V3 b32 :=
  match r with Ok v => v | Raise _ => mk3 B754_nan B754_nan B754_nan end.

(* /repo/src/astrodynx/twobody/_orb_integrals.py:34-44 *)
Example doc_orb_period :
  close (orb_period (lit 1 1) (lit 1 1)) (12566371) 2000000 100000000
  && close (orb_period (lit 2 1) (lit 2 1)) (12566371) 1000000 100000000 = true.
Proof. vm_compute. reflexivity. Qed.

(* /repo/src/astrodynx/twobody/_orb_integrals.py:72-81 *)
Example doc_a_from_period :
  near (a_from_period (lit 2 1 * b32_pi) (lit 1 1)) (1) 1 0
  && close (a_from_period (lit 4 1 * b32_pi) (lit 2 1)) (2) 1 100000000 = true.
Proof. vm_compute. reflexivity. Qed.

(* /repo/src/astrodynx/twobody/_orb_integrals.py:112-123 *)
Example doc_angular_momentum :
  near (c0 (angular_momentum (mk3 (lit 1 1) (lit 0 1) (lit 0 1)) (mk3 (lit 0 1) (lit 1 1) (lit 0 1)))) (0) 1 0
  && near (c1 (angular_momentum (mk3 (lit 1 1) (lit 0 1) (lit 0 1)) (mk3 (lit 0 1) (lit 1 1) (lit 0 1)))) (0) 1 0
  && near (c2 (angular_momentum (mk3 (lit 1 1) (lit 0 1) (lit 0 1)) (mk3 (lit 0 1) (lit 1 1) (lit 0 1)))) (1) 1 0
  && near (c0 (angular_momentum (mk3 (lit 2 1) (lit 0 1) (lit 0 1)) (mk3 (lit 0 1) (lit 2 1) (lit 0 1)))) (0) 1 0
  && near (c1 (angular_momentum (mk3 (lit 2 1) (lit 0 1) (lit 0 1)) (mk3 (lit 0 1) (lit 2 1) (lit 0 1)))) (0) 1 0
  && near (c2 (angular_momentum (mk3 (lit 2 1) (lit 0 1) (lit 0 1)) (mk3 (lit 0 1) (lit 2 1) (lit 0 1)))) (4) 1 0 = true.
Proof. vm_compute. reflexivity. Qed.

(* /repo/src/astrodynx/twobody/_orb_integrals.py:155-167 *)
Example doc_semimajor_axis :
  near (semimajor_axis (lit 1 1) (lit 1 1) (lit 1 1)) (1) 1 0
  && near (semimajor_axis (lit 2 1) (lit 2 1) (lit 2 1)) (-1) 1 0 = true.
Proof. vm_compute. reflexivity. Qed.

(* /repo/src/astrodynx/twobody/_orb_integrals.py:201-214 *)
Example doc_eccentricity_vector :
  near (c0 (eccentricity_vector (mk3 (lit 1 1) (lit 0 1) (lit 0 1)) (mk3 (lit 0 1) (lit 1 1) (lit 0 1)) (lit 1 1))) (0) 1 0
  && near (c1 (eccentricity_vector (mk3 (lit 1 1) (lit 0 1) (lit 0 1)) (mk3 (lit 0 1) (lit 1 1) (lit 0 1)) (lit 1 1))) (0) 1 0
  && near (c2 (eccentricity_vector (mk3 (lit 1 1) (lit 0 1) (lit 0 1)) (mk3 (lit 0 1) (lit 1 1) (lit 0 1)) (lit 1 1))) (0) 1 0
  && near (c0 (eccentricity_vector (mk3 (lit 2 1) (lit 0 1) (lit 0 1)) (mk3 (lit 0 1) (lit 2 1) (lit 0 1)) (lit 2 1))) (3) 1 0
  && near (c1 (eccentricity_vector (mk3 (lit 2 1) (lit 0 1) (lit 0 1)) (mk3 (lit 0 1) (lit 2 1) (lit 0 1)) (lit 2 1))) (0) 1 0
  && near (c2 (eccentricity_vector (mk3 (lit 2 1) (lit 0 1) (lit 0 1)) (mk3 (lit 0 1) (lit 2 1) (lit 0 1)) (lit 2 1))) (0) 1 0 = true.
Proof. vm_compute. reflexivity. Qed.

(* /repo/src/astrodynx/twobody/_orb_integrals.py:248-258 *)
Example doc_semiparameter :
  near (semiparameter (lit 1 1) (lit 1 1)) (1) 1 0
  && near (semiparameter (lit 2 1) (lit 2 1)) (2) 1 0 = true.
Proof. vm_compute. reflexivity. Qed.

(* /repo/src/astrodynx/twobody/_orb_integrals.py:288-296 *)
Example doc_mean_motion :
  shows (mean_motion (lit 1 1)) (62831) 10000
  && shows (mean_motion (lit 2 1)) (31415) 10000 = true.
Proof. vm_compute. reflexivity. Qed.

(* /repo/src/astrodynx/twobody/_orb_integrals.py:328-340 *)
Example doc_equ_of_orbit :
  near (equ_of_orbit (lit 1 1) (lit 0 1) (lit 0 1)) (1) 1 0
  && near (equ_of_orbit (lit 2 1) (lit 0 1) (lit 0 1)) (2) 1 0 = true.
Proof. vm_compute. reflexivity. Qed.

(* /repo/src/astrodynx/twobody/_orb_integrals.py:375-391 *)
Example doc_equ_of_orb_uvi :
  near (equ_of_orb_uvi (lit 1 1) (lit 1 1) (lit 1 1) (lit 1 1) (lit 0 1)) (2) 1 0
  && near (equ_of_orb_uvi (lit 2 1) (lit 2 1) (lit 1 1) (lit 1 1) (lit 0 1)) (3) 1 0 = true.
Proof. vm_compute. reflexivity. Qed.

(* /repo/src/astrodynx/twobody/_orb_integrals.py:422-432 *)
Example doc_radius_periapsis :
  near (radius_periapsis (lit 1 1) (lit 0 1)) (1) 1 0
  && near (radius_periapsis (lit 2 1) (lit 0 1)) (2) 1 0 = true.
Proof. vm_compute. reflexivity. Qed.

(* /repo/src/astrodynx/twobody/_orb_integrals.py:463-473 *)
Example doc_radius_apoapsis :
  near (radius_apoapsis (lit 1 1) (lit 0 1)) (1) 1 0
  && near (radius_apoapsis (lit 2 1) (lit 0 1)) (2) 1 0 = true.
Proof. vm_compute. reflexivity. Qed.

(* /repo/src/astrodynx/twobody/_orb_integrals.py:504-514 *)
Example doc_semipara_from_ae :
  near (semipara_from_ae (lit 1 1) (lit 0 1)) (1) 1 0
  && near (semipara_from_ae (lit 2 1) (lit 0 1)) (2) 1 0 = true.
Proof. vm_compute. reflexivity. Qed.

(* /repo/src/astrodynx/twobody/_orb_integrals.py:545-555 *)
Example doc_a_from_pe :
  near (a_from_pe (lit 1 1) (lit 0 1)) (1) 1 0
  && near (a_from_pe (lit 2 1) (lit 0 1)) (2) 1 0 = true.
Proof. vm_compute. reflexivity. Qed.

(* /repo/src/astrodynx/twobody/_uniformulas.py:35-47 *)
Example doc_sigma_fn :
  near (sigma_fn (mk3 (lit 1 1) (lit 0 1) (lit 0 1)) (mk3 (lit 0 1) (lit 1 1) (lit 0 1)) (lit 1 1)) (0) 1 0
  && near (sigma_fn (mk3 (lit 2 1) (lit 0 1) (lit 0 1)) (mk3 (lit 0 1) (lit 2 1) (lit 0 1)) (lit 2 1)) (0) 1 0 = true.
Proof. vm_compute. reflexivity. Qed.

(* /repo/src/astrodynx/twobody/_uniformulas.py:82-92 *)
Example doc_ufunc0 :
  shows (ufunc0 (lit 1 1) (lit 1 1)) (5403) 10000
  && shows (ufunc0 (lit 2 1) (lit 1 1)) (-4161) 10000 = true.
Proof. vm_compute. reflexivity. Qed.

(* /repo/src/astrodynx/twobody/_uniformulas.py:134-144 *)
Example doc_ufunc1 :
  shows (ufunc1 (lit 1 1) (lit 1 1)) (8414) 10000
  && shows (ufunc1 (lit 2 1) (lit 1 1)) (9092) 10000 = true.
Proof. vm_compute. reflexivity. Qed.

(* /repo/src/astrodynx/twobody/_uniformulas.py:186-196 *)
Example doc_ufunc2 :
  shows (ufunc2 (lit 1 1) (lit 1 1)) (4596) 10000
  && shows (ufunc2 (lit 2 1) (lit 1 1)) (14161) 10000 = true.
Proof. vm_compute. reflexivity. Qed.

(* /repo/src/astrodynx/twobody/_uniformulas.py:238-248 *)
Example doc_ufunc3 :
  shows (ufunc3 (lit 1 1) (lit 1 1)) (1585) 10000
  && shows (ufunc3 (lit 2 1) (lit 1 1)) (10907) 10000 = true.
Proof. vm_compute. reflexivity. Qed.

(* /repo/src/astrodynx/twobody/_uniformulas.py:294-304 *)
Example doc_ufunc4 :
  shows (ufunc4 (lit 1 1) (lit 1 1)) (403) 10000
  && shows (ufunc4 (lit 2 1) (lit 1 1)) (5838) 10000 = true.
Proof. vm_compute. reflexivity. Qed.

(* /repo/src/astrodynx/twobody/_uniformulas.py:348-358 *)
Example doc_ufunc5 :
  shows (ufunc5 (lit 1 1) (lit 1 1)) (81) 10000
  && shows (ufunc5 (lit 2 1) (lit 1 1)) (2426) 10000
  && shows (ufunc5 (lit 3 1) (lit 1 1)) (16411) 10000 = true.
Proof. vm_compute. reflexivity. Qed.

(* /repo/src/astrodynx/twobody/_kep_equ.py:37-49 *)
Example doc_kepler_equ_elps :
  shows (kepler_equ_elps (b32_pi / lit 4 1) (lit 1 10) (lit 7 10)) (1468) 100000
  && shows (kepler_equ_elps (b32_pi / lit 2 1) (lit 2 10) (lit 8 10)) (5707) 10000 = true.
Proof. vm_compute. reflexivity. Qed.

(* /repo/src/astrodynx/twobody/_kep_equ.py:100-112 *)
Example doc_kepler_equ_hypb :
  shows (kepler_equ_hypb (lit 1 1) (lit 3 2) (lit 1 1)) (-2371) 10000
  && shows (kepler_equ_hypb (lit 2 1) (lit 3 2) (lit 1 1)) (24402) 10000 = true.
Proof. vm_compute. reflexivity. Qed.

(* /repo/src/astrodynx/twobody/_kep_equ.py:163-175 *)
Example doc_mean_anomaly_elps :
  near (mean_anomaly_elps (lit 1 1) (lit 1 1) (lit 1 1)) (1) 1 0
  && near (mean_anomaly_elps (lit 2 1) (lit 1 1) (lit 2 1)) (1) 2 0 = true.
Proof. vm_compute. reflexivity. Qed.

(* /repo/src/astrodynx/twobody/_kep_equ.py:206-218 *)
Example doc_mean_anomaly_hypb :
  near (mean_anomaly_hypb (lit (-1) 1) (lit 1 1) (lit 1 1)) (1) 1 0
  && near (mean_anomaly_hypb (lit (-2) 1) (lit 1 1) (lit 2 1)) (1) 2 0 = true.
Proof. vm_compute. reflexivity. Qed.

(* /repo/src/astrodynx/twobody/_kep_equ.py:259-277 *)
Example doc_kepler_equ_uni :
  near (kepler_equ_uni (lit 1 1) (lit 1 1) (lit 1 1) (lit 0 1) (lit 1 1) (lit 1 1)) (0) 1 0
  && near (kepler_equ_uni (lit 2 1) (lit 1 1) (lit 1 1) (lit 0 1) (lit 1 1) (lit 1 1)) (1) 1 0 = true.
Proof. vm_compute. reflexivity. Qed.

(* /repo/src/astrodynx/twobody/_kep_equ.py:327-343 *)
Example doc_generalized_anomaly :
  near (generalized_anomaly (lit 1 1) (lit 1 1) (lit 0 1) (lit 1 1) (lit 1 1)) (2) 1 0
  && near (generalized_anomaly (lit 1 1) (lit 2 1) (lit 0 1) (lit 1 1) (lit 1 1)) (3) 1 0 = true.
Proof. vm_compute. reflexivity. Qed.

(* /repo/src/astrodynx/twobody/_kep_equ.py:377-380 *)
Example doc_solve_kepler_elps :
  shows (solve_kepler_elps (lit 36029 10000) (lit 7451 20000) default_tol elps_max_iter) (3479) 1000 = true.
Proof. vm_compute. reflexivity. Qed.

(* /repo/src/astrodynx/twobody/_kep_equ.py:429-432 *)
Example doc_solve_kepler_hypb :
  shows (solve_kepler_hypb (lit 4069 100) (lit 1731 625) default_tol hypb_max_iter) (3463) 1000 = true.
Proof. vm_compute. reflexivity. Qed.

(* /repo/src/astrodynx/twobody/_kep_equ.py:489-498 (the residual is below 1e-6) *)
Example doc_solve_kepler_uni :
  (let dt := b32_pi * lit 1 2 in let r0 := vector_norm (mk3 (lit 1 1) (lit 0 1) (lit 0 1)) in let al := lit 1 1 / semimajor_axis r0 (vector_norm (mk3 (lit 0 1) (lit 11 10) (lit 0 1))) (lit 1 1) in
   let s0 := sigma_fn (mk3 (lit 1 1) (lit 0 1) (lit 0 1)) (mk3 (lit 0 1) (lit 11 10) (lit 0 1)) (lit 1 1) in
   n_lt (kepler_equ_uni (solve_kepler_uni dt al r0 s0 (lit 1 1) default_tol uni_max_iter) al r0 s0 dt (lit 1 1)) (lit 1 1000000)) = true.
Proof. vm_compute. reflexivity. Qed.

(* /repo/src/astrodynx/twobody/_lagrange.py:33-43 *)
Example doc_lagrange_F :
  near (lagrange_F (lit 1 1) (lit 1 1)) (0) 1 0
  && near (lagrange_F (lit 2 1) (lit 1 1)) (-1) 1 0 = true.
Proof. vm_compute. reflexivity. Qed.

(* /repo/src/astrodynx/twobody/_lagrange.py:82-98 *)
Example doc_lagrange_G :
  near (lagrange_G (lit 1 1) (lit 1 1) (lit 0 1) (lit 1 1) (lit 1 1)) (1) 1 0
  && near (lagrange_G (lit 2 1) (lit 1 1) (lit 0 1) (lit 1 1) (lit 1 1)) (2) 1 0 = true.
Proof. vm_compute. reflexivity. Qed.

(* /repo/src/astrodynx/twobody/_lagrange.py:132-146 *)
Example doc_lagrange_Ft :
  near (lagrange_Ft (lit 1 1) (lit 1 1) (lit 1 1) (lit 1 1)) (-1) 1 0
  && near (lagrange_Ft (lit 2 1) (lit 1 1) (lit 1 1) (lit 1 1)) (-2) 1 0 = true.
Proof. vm_compute. reflexivity. Qed.

(* /repo/src/astrodynx/twobody/_lagrange.py:176-186 *)
Example doc_lagrange_Gt :
  near (lagrange_Gt (lit 1 1) (lit 1 1)) (0) 1 0
  && near (lagrange_Gt (lit 2 1) (lit 1 1)) (-1) 1 0 = true.
Proof. vm_compute. reflexivity. Qed.

(* /repo/src/astrodynx/twobody/_orb_elements.py:144-149 *)
Example doc_rv2coe_circular :
  near (coe_p (rv2coe (mk3 (lit 1 1) (lit 0 1) (lit 0 1)) (mk3 (lit 0 1) (lit 1 1) (lit 0 1)) (lit 1 1))) (1) 1 0
  && near (coe_e (rv2coe (mk3 (lit 1 1) (lit 0 1) (lit 0 1)) (mk3 (lit 0 1) (lit 1 1) (lit 0 1)) (lit 1 1))) (0) 1 0
  && near (coe_incl (rv2coe (mk3 (lit 1 1) (lit 0 1) (lit 0 1)) (mk3 (lit 0 1) (lit 1 1) (lit 0 1)) (lit 1 1))) (0) 1 0
  && near (coe_raan (rv2coe (mk3 (lit 1 1) (lit 0 1) (lit 0 1)) (mk3 (lit 0 1) (lit 1 1) (lit 0 1)) (lit 1 1))) (0) 1 0
  && near (coe_argp (rv2coe (mk3 (lit 1 1) (lit 0 1) (lit 0 1)) (mk3 (lit 0 1) (lit 1 1) (lit 0 1)) (lit 1 1))) (0) 1 0
  && near (coe_f (rv2coe (mk3 (lit 1 1) (lit 0 1) (lit 0 1)) (mk3 (lit 0 1) (lit 1 1) (lit 0 1)) (lit 1 1))) (0) 1 0 = true.
Proof. vm_compute. reflexivity. Qed.

(* /repo/src/astrodynx/twobody/_orb_elements.py:153-162 *)
Example doc_rv2coe_hyperbola :
  close (coe_p (rv2coe (mk3 (lit (-8079793) 2000) (lit 9629121 2000) (lit 29029 8)) (mk3 (lit (-2596497) 250000) (lit (-2385961) 500000) (lit 3487749 2000000)) (lit 398600 1))) (80280983) 5000 100000000
  && close (coe_e (rv2coe (mk3 (lit (-8079793) 2000) (lit 9629121 2000) (lit 29029 8)) (mk3 (lit (-2596497) 250000) (lit (-2385961) 500000) (lit 3487749 2000000)) (lit 398600 1))) (7) 5 100000000
  && closeb (coe_incl (rv2coe (mk3 (lit (-8079793) 2000) (lit 9629121 2000) (lit 29029 8)) (mk3 (lit (-2596497) 250000) (lit (-2385961) 500000) (lit 3487749 2000000)) (lit 398600 1))) (lit 30 1 * b32_pi / lit 180 1)
  && closeb (coe_raan (rv2coe (mk3 (lit (-8079793) 2000) (lit 9629121 2000) (lit 29029 8)) (mk3 (lit (-2596497) 250000) (lit (-2385961) 500000) (lit 3487749 2000000)) (lit 398600 1))) (lit 40 1 * b32_pi / lit 180 1)
  && closeb (coe_argp (rv2coe (mk3 (lit (-8079793) 2000) (lit 9629121 2000) (lit 29029 8)) (mk3 (lit (-2596497) 250000) (lit (-2385961) 500000) (lit 3487749 2000000)) (lit 398600 1))) (lit 60 1 * b32_pi / lit 180 1)
  && closeb (coe_f (rv2coe (mk3 (lit (-8079793) 2000) (lit 9629121 2000) (lit 29029 8)) (mk3 (lit (-2596497) 250000) (lit (-2385961) 500000) (lit 3487749 2000000)) (lit 398600 1))) (lit 30 1 * b32_pi / lit 180 1) = true.
Proof. vm_compute. reflexivity. Qed.

(* /repo/src/astrodynx/twobody/_orb_elements.py:153-162 *)
Example doc_rv2coe_ellipse :
  close (coe_p (rv2coe (mk3 (lit 65253677 10000) (lit 68615317 10000) (lit 6449117 1000)) (mk3 (lit 4902279 1000000) (lit 55331397 10000000) (lit (-19757109) 10000000)) (lit 1993002209 5000))) (1106779) 100 100000000
  && close (coe_e (rv2coe (mk3 (lit 65253677 10000) (lit 68615317 10000) (lit 6449117 1000)) (mk3 (lit 4902279 1000000) (lit 55331397 10000000) (lit (-19757109) 10000000)) (lit 1993002209 5000))) (16657) 20000 100000000
  && closeb (coe_incl (rv2coe (mk3 (lit 65253677 10000) (lit 68615317 10000) (lit 6449117 1000)) (mk3 (lit 4902279 1000000) (lit 55331397 10000000) (lit (-19757109) 10000000)) (lit 1993002209 5000))) (lit 8787 100 * b32_pi / lit 180 1)
  && closeb (coe_raan (rv2coe (mk3 (lit 65253677 10000) (lit 68615317 10000) (lit 6449117 1000)) (mk3 (lit 4902279 1000000) (lit 55331397 10000000) (lit (-19757109) 10000000)) (lit 1993002209 5000))) (lit 22789 100 * b32_pi / lit 180 1)
  && closeb (coe_argp (rv2coe (mk3 (lit 65253677 10000) (lit 68615317 10000) (lit 6449117 1000)) (mk3 (lit 4902279 1000000) (lit 55331397 10000000) (lit (-19757109) 10000000)) (lit 1993002209 5000))) (lit 2669 50 * b32_pi / lit 180 1)
  && closeb (coe_f (rv2coe (mk3 (lit 65253677 10000) (lit 68615317 10000) (lit 6449117 1000)) (mk3 (lit 4902279 1000000) (lit 55331397 10000000) (lit (-19757109) 10000000)) (lit 1993002209 5000))) (lit 18467 200 * b32_pi / lit 180 1) = true.
Proof. vm_compute. reflexivity. Qed.

(* /repo/src/astrodynx/twobody/_orb_elements.py:233-241 *)
Example doc_coe2rv_circular :
  near (c0 (fst (coe2rv (lit 1 1) (lit 0 1) (lit 0 1) (lit 0 1) (lit 0 1) (lit 0 1) (lit 1 1)))) (1) 1 0
  && near (c1 (fst (coe2rv (lit 1 1) (lit 0 1) (lit 0 1) (lit 0 1) (lit 0 1) (lit 0 1) (lit 1 1)))) (0) 1 0
  && near (c2 (fst (coe2rv (lit 1 1) (lit 0 1) (lit 0 1) (lit 0 1) (lit 0 1) (lit 0 1) (lit 1 1)))) (0) 1 0
  && near (c0 (snd (coe2rv (lit 1 1) (lit 0 1) (lit 0 1) (lit 0 1) (lit 0 1) (lit 0 1) (lit 1 1)))) (0) 1 0
  && near (c1 (snd (coe2rv (lit 1 1) (lit 0 1) (lit 0 1) (lit 0 1) (lit 0 1) (lit 0 1) (lit 1 1)))) (1) 1 0
  && near (c2 (snd (coe2rv (lit 1 1) (lit 0 1) (lit 0 1) (lit 0 1) (lit 0 1) (lit 0 1) (lit 1 1)))) (0) 1 0 = true.
Proof. vm_compute. reflexivity. Qed.

(* /repo/src/astrodynx/twobody/_orb_elements.py:245-256 *)
Example doc_coe2rv_hyperbola :
  close (c0 (fst (coe2rv (lit 16056196688409433 1000000000000) (lit 7 5) (lit 30 1 * b32_pi / lit 180 1) (lit 40 1 * b32_pi / lit 180 1) (lit 60 1 * b32_pi / lit 180 1) (lit 30 1 * b32_pi / lit 180 1) (lit 398600 1)))) (-8079793) 2000 100000000
  && close (c1 (fst (coe2rv (lit 16056196688409433 1000000000000) (lit 7 5) (lit 30 1 * b32_pi / lit 180 1) (lit 40 1 * b32_pi / lit 180 1) (lit 60 1 * b32_pi / lit 180 1) (lit 30 1 * b32_pi / lit 180 1) (lit 398600 1)))) (9629121) 2000 100000000
  && close (c2 (fst (coe2rv (lit 16056196688409433 1000000000000) (lit 7 5) (lit 30 1 * b32_pi / lit 180 1) (lit 40 1 * b32_pi / lit 180 1) (lit 60 1 * b32_pi / lit 180 1) (lit 30 1 * b32_pi / lit 180 1) (lit 398600 1)))) (29029) 8 100000000
  && close (c0 (snd (coe2rv (lit 16056196688409433 1000000000000) (lit 7 5) (lit 30 1 * b32_pi / lit 180 1) (lit 40 1 * b32_pi / lit 180 1) (lit 60 1 * b32_pi / lit 180 1) (lit 30 1 * b32_pi / lit 180 1) (lit 398600 1)))) (-2596497) 250000 100000000
  && close (c1 (snd (coe2rv (lit 16056196688409433 1000000000000) (lit 7 5) (lit 30 1 * b32_pi / lit 180 1) (lit 40 1 * b32_pi / lit 180 1) (lit 60 1 * b32_pi / lit 180 1) (lit 30 1 * b32_pi / lit 180 1) (lit 398600 1)))) (-2385961) 500000 100000000
  && close (c2 (snd (coe2rv (lit 16056196688409433 1000000000000) (lit 7 5) (lit 30 1 * b32_pi / lit 180 1) (lit 40 1 * b32_pi / lit 180 1) (lit 60 1 * b32_pi / lit 180 1) (lit 30 1 * b32_pi / lit 180 1) (lit 398600 1)))) (3487749) 2000000 100000000 = true.
Proof. vm_compute. reflexivity. Qed.

(* /repo/src/astrodynx/twobody/_orb_elements.py:245-256 *)
Example doc_coe2rv_ellipse :
  close (c0 (fst (coe2rv (lit 1106779 100) (lit 16657 20000) (lit 8787 100 * b32_pi / lit 180 1) (lit 22789 100 * b32_pi / lit 180 1) (lit 2669 50 * b32_pi / lit 180 1) (lit 18467 200 * b32_pi / lit 180 1) (lit 1993002209 5000)))) (65253677) 10000 100000000
  && close (c1 (fst (coe2rv (lit 1106779 100) (lit 16657 20000) (lit 8787 100 * b32_pi / lit 180 1) (lit 22789 100 * b32_pi / lit 180 1) (lit 2669 50 * b32_pi / lit 180 1) (lit 18467 200 * b32_pi / lit 180 1) (lit 1993002209 5000)))) (68615317) 10000 100000000
  && close (c2 (fst (coe2rv (lit 1106779 100) (lit 16657 20000) (lit 8787 100 * b32_pi / lit 180 1) (lit 22789 100 * b32_pi / lit 180 1) (lit 2669 50 * b32_pi / lit 180 1) (lit 18467 200 * b32_pi / lit 180 1) (lit 1993002209 5000)))) (6449117) 1000 100000000
  && close (c0 (snd (coe2rv (lit 1106779 100) (lit 16657 20000) (lit 8787 100 * b32_pi / lit 180 1) (lit 22789 100 * b32_pi / lit 180 1) (lit 2669 50 * b32_pi / lit 180 1) (lit 18467 200 * b32_pi / lit 180 1) (lit 1993002209 5000)))) (4902279) 1000000 100000000
  && close (c1 (snd (coe2rv (lit 1106779 100) (lit 16657 20000) (lit 8787 100 * b32_pi / lit 180 1) (lit 22789 100 * b32_pi / lit 180 1) (lit 2669 50 * b32_pi / lit 180 1) (lit 18467 200 * b32_pi / lit 180 1) (lit 1993002209 5000)))) (55331397) 10000000 100000000
  && close (c2 (snd (coe2rv (lit 1106779 100) (lit 16657 20000) (lit 8787 100 * b32_pi / lit 180 1) (lit 22789 100 * b32_pi / lit 180 1) (lit 2669 50 * b32_pi / lit 180 1) (lit 18467 200 * b32_pi / lit 180 1) (lit 1993002209 5000)))) (-19757109) 10000000 100000000 = true.
Proof. vm_compute. reflexivity. Qed.

Definition doc_stm : M6 (T := b32) := dxdx0 (mk3 (lit (-4997246854686917) 20000000000000000) (lit (-6933238427807521) 10000000000000000) (lit 49599012168662551 10000000000000000000)) (mk3 (lit 12189179487500401 10000000000000000) (lit 2988725348309377 50000000000000000) (lit (-7101943980682161) 1000000000000000000)) (mk3 (lit (-13246932514399421) 20000000000000000) (lit 7491975179874919 10000000000000000) (lit (-8129998509459537) 50000000000000000000)) (mk3 (lit (-326669871385227) 400000000000000) (lit (-8240354345067119) 25000000000000000) (lit 6248107587795581 1000000000000000000)) (lit 25803148345055149 10000000000000000) (lit 1 1).

(* /repo/src/astrodynx/twobody/_state_trans.py:283-296 *)
Example doc_dxdx0 :
  close (c0 (c0 (b_rr doc_stm))) (696499107) 100000000 100000000
  && close (c1 (c0 (b_rr doc_stm))) (-112478459) 25000000 100000000
  && close (c2 (c0 (b_rr doc_stm))) (-189246497) 10000000000 100000000
  && close (c0 (c0 (b_rv doc_stm))) (379884899) 50000000 100000000
  && close (c1 (c0 (b_rv doc_stm))) (-130768047) 250000000 100000000
  && close (c2 (c0 (b_rv doc_stm))) (-353190183) 10000000000 100000000
  && close (c0 (c1 (b_rr doc_stm))) (37964437) 25000000 100000000
  && close (c1 (c1 (b_rr doc_stm))) (-2387563) 1562500 100000000
  && close (c2 (c1 (b_rr doc_stm))) (-180087357) 50000000000 100000000
  && close (c0 (c1 (b_rv doc_stm))) (252883087) 100000000 100000000
  && close (c1 (c1 (b_rv doc_stm))) (938223) 800000 100000000
  && close (c2 (c1 (b_rv doc_stm))) (-32247557) 2000000000 100000000
  && close (c0 (c2 (b_rr doc_stm))) (-249428347) 5000000000 100000000
  && close (c1 (c2 (b_rr doc_stm))) (1197671) 40000000 100000000
  && close (c2 (c2 (b_rr doc_stm))) (-582723061) 1000000000 100000000
  && close (c0 (c2 (b_rv doc_stm))) (-102041989) 2000000000 100000000
  && close (c1 (c2 (b_rv doc_stm))) (221980417) 250000000000 100000000
  && close (c2 (c2 (b_rv doc_stm))) (778936443) 1000000000 100000000
  && close (c0 (c0 (b_vr doc_stm))) (475150081) 100000000 100000000
  && close (c1 (c0 (b_vr doc_stm))) (-44154799) 12500000 100000000
  && close (c2 (c0 (b_vr doc_stm))) (-106813429) 10000000000 100000000
  && close (c0 (c0 (b_vv doc_stm))) (632244923) 100000000 100000000
  && close (c1 (c0 (b_vv doc_stm))) (113091953) 100000000 100000000
  && close (c2 (c0 (b_vv doc_stm))) (-94916477) 2000000000 100000000
  && close (c0 (c1 (b_vr doc_stm))) (876182663) 100000000 100000000
  && close (c1 (c1 (b_vr doc_stm))) (-133844793) 20000000 100000000
  && close (c2 (c1 (b_vr doc_stm))) (-10372229) 625000000 100000000
  && close (c0 (c1 (b_vv doc_stm))) (12528967) 1250000 100000000
  && close (c1 (c1 (b_vv doc_stm))) (-143552523) 2500000000 100000000
  && close (c2 (c1 (b_vv doc_stm))) (-122960043) 2000000000 100000000
  && close (c0 (c2 (b_vr doc_stm))) (-36967397) 500000000 100000000
  && close (c1 (c2 (b_vr doc_stm))) (129834861) 2500000000 100000000
  && close (c2 (c2 (b_vr doc_stm))) (-17000673) 40000000 100000000
  && close (c0 (c2 (b_vv doc_stm))) (-932086959) 10000000000 100000000
  && close (c1 (c2 (b_vv doc_stm))) (-119134537) 10000000000 100000000
  && close (c2 (c2 (b_vv doc_stm))) (-11471387) 10000000 100000000 = true.
Proof. vm_compute. reflexivity. Qed.

(* /repo/src/astrodynx/twobody/_path_check.py:46-52 *)
Example doc_nmax_by_periapsis :
  near (nmax_by_periapsis (lit 97 100) (lit 1 1) (lit 1 1) b32_pi (lit 1 1)) (0) 1 0 = true.
Proof. vm_compute. reflexivity. Qed.

(* /repo/src/astrodynx/twobody/_path_check.py:80-84 *)
Example doc_is_short_way :
  is_short_way (mk3 (lit 1 1) (lit 0 1) (lit 0 1)) (mk3 (lit 0 1) (lit 1 1) (lit 0 1)) (mk3 (lit 0 1) (lit 1 1) (lit 0 1)) = true.
Proof. vm_compute. reflexivity. Qed.

(* /repo/src/astrodynx/twobody/_path_check.py:124-128 *)
Example doc_pass_perigee :
  negb (pass_perigee (mk3 (lit 1 1) (lit 0 1) (lit 0 1)) (mk3 (lit 0 1) (lit 1 1) (lit 0 1)) (mk3 (lit 0 1) (lit 1 1) (lit 0 1)) (lit 1 1)) = true.
Proof. vm_compute. reflexivity. Qed.

(* /repo/src/astrodynx/twobody/_path_check.py:155-159 *)
Example doc_rp_islower_rmin :
  negb (rp_islower_rmin (lit 97 100) (mk3 (lit 1 1) (lit 0 1) (lit 0 1)) (mk3 (lit 0 1) (lit 1 1) (lit 0 1)) (lit 1 1)) = true.
Proof. vm_compute. reflexivity. Qed.

(* /repo/tests/test_path_check.py:10-13 with r1, v1, mu of :6-8 *)
Example doc_pass_perigee_1 :
  negb (pass_perigee (mk3 (lit 8081226263 1000000) negz negz) (mk3 (lit (-440773) 1000000) (lit 38 5) (lit 133593 1000000)) (mk3 (lit 1580535989 200000) (lit 274389987 200000) (lit 957899 40000)) (lit 398600 1))
  && pass_perigee (mk3 (lit 8081226263 1000000) negz negz) (mk3 (lit 440773 1000000) (lit (-38) 5) (lit (-133593) 1000000)) (mk3 (lit 1580535989 200000) (lit 274389987 200000) (lit 957899 40000)) (lit 398600 1) = true.
Proof. vm_compute. reflexivity. Qed.

(* /repo/tests/test_path_check.py:15-18 with r1, v1, mu of :6-8 *)
Example doc_pass_perigee_2 :
  pass_perigee (mk3 (lit 8081226263 1000000) negz negz) (mk3 (lit (-440773) 1000000) (lit 38 5) (lit 133593 1000000)) (mk3 (lit (-10664744693) 1000000) (lit 963922497 250000) (lit 67301319 1000000)) (lit 398600 1)
  && negb (pass_perigee (mk3 (lit 8081226263 1000000) negz negz) (mk3 (lit 440773 1000000) (lit (-38) 5) (lit (-133593) 1000000)) (mk3 (lit (-10664744693) 1000000) (lit 963922497 250000) (lit 67301319 1000000)) (lit 398600 1)) = true.
Proof. vm_compute. reflexivity. Qed.

(* /repo/tests/test_path_check.py:20-23 with r1, v1, mu of :6-8 *)
Example doc_pass_perigee_3 :
  pass_perigee (mk3 (lit 8081226263 1000000) negz negz) (mk3 (lit (-440773) 1000000) (lit 38 5) (lit 133593 1000000)) (mk3 (lit (-3746681531) 1000000) (lit (-2588496781) 250000) (lit (-90364759) 500000)) (lit 398600 1)
  && negb (pass_perigee (mk3 (lit 8081226263 1000000) negz negz) (mk3 (lit 440773 1000000) (lit (-38) 5) (lit (-133593) 1000000)) (mk3 (lit (-3746681531) 1000000) (lit (-2588496781) 250000) (lit (-90364759) 500000)) (lit 398600 1)) = true.
Proof. vm_compute. reflexivity. Qed.

(* /repo/tests/test_path_check.py:25-28 with r1, v1, mu of :6-8 *)
Example doc_pass_perigee_4 :
  pass_perigee (mk3 (lit 8081226263 1000000) negz negz) (mk3 (lit (-440773) 1000000) (lit 38 5) (lit 133593 1000000)) (mk3 (lit 3371155307 500000) (lit (-5513347909) 1000000) (lit (-48117923) 500000)) (lit 398600 1)
  && negb (pass_perigee (mk3 (lit 8081226263 1000000) negz negz) (mk3 (lit 440773 1000000) (lit (-38) 5) (lit (-133593) 1000000)) (mk3 (lit 3371155307 500000) (lit (-5513347909) 1000000) (lit (-48117923) 500000)) (lit 398600 1)) = true.
Proof. vm_compute. reflexivity. Qed.

(* /repo/tests/test_path_check.py:37-43 *)
Example doc_pass_perigee_5 :
  pass_perigee (mk3 (lit 3 2) (lit 0 1) (lit 0 1)) (mk3 (lit 0 1) (lit 4 5) (lit 0 1)) (mk3 (lit (-1) 1) (lit 0 1) (lit 0 1)) (lit 1 1) = true.
Proof. vm_compute. reflexivity. Qed.

(* /repo/src/astrodynx/gravity/_general.py:34-38 *)
Example doc_point_mass_grav :
  shows (c0 (got (point_mass_grav (lit 0 1) [lit 1 1; lit (-1) 1; lit 1 1; lit 0 1; lit 0 1; lit 0 1] [("mu", lit 1 1)]))) (-1924) 10000
  && shows (c1 (got (point_mass_grav (lit 0 1) [lit 1 1; lit (-1) 1; lit 1 1; lit 0 1; lit 0 1; lit 0 1] [("mu", lit 1 1)]))) (1924) 10000
  && shows (c2 (got (point_mass_grav (lit 0 1) [lit 1 1; lit (-1) 1; lit 1 1; lit 0 1; lit 0 1; lit 0 1] [("mu", lit 1 1)]))) (-1924) 10000 = true.
Proof. vm_compute. reflexivity. Qed.

(* /repo/src/astrodynx/gravity/_general.py:75-81 *)
Example doc_j2_acc :
  close (c0 (got (j2_acc (lit 0 1) [lit 1 1; lit (-1) 1; lit 1 1; lit 0 1; lit 0 1; lit 0 1] [("mu", lit 1 1); ("J2", lit 1 1000); ("R_eq", lit 1 1)]))) (64150023) 1000000000000 100000000
  && close (c1 (got (j2_acc (lit 0 1) [lit 1 1; lit (-1) 1; lit 1 1; lit 0 1; lit 0 1; lit 0 1] [("mu", lit 1 1); ("J2", lit 1 1000); ("R_eq", lit 1 1)]))) (-64150023) 1000000000000 100000000
  && close (c2 (got (j2_acc (lit 0 1) [lit 1 1; lit (-1) 1; lit 1 1; lit 0 1; lit 0 1; lit 0 1] [("mu", lit 1 1); ("J2", lit 1 1000); ("R_eq", lit 1 1)]))) (-12830009) 100000000000 100000000 = true.
Proof. vm_compute. reflexivity. Qed.

(* /repo/src/astrodynx/gravity/_general.py:128-134 *)
Example doc_j3_acc :
  close (c0 (got (j3_acc (lit 0 1) [lit 1 1; lit (-1) 1; lit 1 1; lit 0 1; lit 0 1; lit 0 1] [("mu", lit 1 1); ("J3", lit 1 1000000); ("R_eq", lit 1 1)]))) (-17819449) 500000000000000 100000000000000000000
  && close (c1 (got (j3_acc (lit 0 1) [lit 1 1; lit (-1) 1; lit 1 1; lit 0 1; lit 0 1; lit 0 1] [("mu", lit 1 1); ("J3", lit 1 1000000); ("R_eq", lit 1 1)]))) (17819449) 500000000000000 100000000000000000000
  && close (c2 (got (j3_acc (lit 0 1) [lit 1 1; lit (-1) 1; lit 1 1; lit 0 1; lit 0 1; lit 0 1] [("mu", lit 1 1); ("J3", lit 1 1000000); ("R_eq", lit 1 1)]))) (-2494723) 25000000000000 100000000000000000000 = true.
Proof. vm_compute. reflexivity. Qed.

(* /repo/src/astrodynx/gravity/_general.py:181-187 *)
Example doc_j4_acc :
  close (c0 (got (j4_acc (lit 0 1) [lit 1 1; lit (-1) 1; lit 1 1; lit 0 1; lit 0 1; lit 0 1] [("mu", lit 1 1); ("J4", lit 1 1000000); ("R_eq", lit 1 1)]))) (-1336459) 25000000000000 100000000000000000000
  && close (c1 (got (j4_acc (lit 0 1) [lit 1 1; lit (-1) 1; lit 1 1; lit 0 1; lit 0 1; lit 0 1] [("mu", lit 1 1); ("J4", lit 1 1000000); ("R_eq", lit 1 1)]))) (1336459) 25000000000000 100000000000000000000
  && close (c2 (got (j4_acc (lit 0 1) [lit 1 1; lit (-1) 1; lit 1 1; lit 0 1; lit 0 1; lit 0 1] [("mu", lit 1 1); ("J4", lit 1 1000000); ("R_eq", lit 1 1)]))) (-890973) 50000000000000 100000000000000000000 = true.
Proof. vm_compute. reflexivity. Qed.

(* /repo/src/astrodynx/utils/_rot_mat.py:34-36 *)
Example doc_rotmat3dx :
  close (c0 (c0 (rotmat3dx (b32_pi / lit 2 1)))) (1) 1 10000000
  && close (c1 (c0 (rotmat3dx (b32_pi / lit 2 1)))) (0) 1 10000000
  && close (c2 (c0 (rotmat3dx (b32_pi / lit 2 1)))) (0) 1 10000000
  && close (c0 (c1 (rotmat3dx (b32_pi / lit 2 1)))) (0) 1 10000000
  && close (c1 (c1 (rotmat3dx (b32_pi / lit 2 1)))) (0) 1 10000000
  && close (c2 (c1 (rotmat3dx (b32_pi / lit 2 1)))) (-1) 1 10000000
  && close (c0 (c2 (rotmat3dx (b32_pi / lit 2 1)))) (0) 1 10000000
  && close (c1 (c2 (rotmat3dx (b32_pi / lit 2 1)))) (1) 1 10000000
  && close (c2 (c2 (rotmat3dx (b32_pi / lit 2 1)))) (0) 1 10000000 = true.
Proof. vm_compute. reflexivity. Qed.

(* /repo/src/astrodynx/utils/_rot_mat.py:91-93 *)
Example doc_rotmat3dy :
  close (c0 (c0 (rotmat3dy (b32_pi / lit 2 1)))) (0) 1 10000000
  && close (c1 (c0 (rotmat3dy (b32_pi / lit 2 1)))) (0) 1 10000000
  && close (c2 (c0 (rotmat3dy (b32_pi / lit 2 1)))) (1) 1 10000000
  && close (c0 (c1 (rotmat3dy (b32_pi / lit 2 1)))) (0) 1 10000000
  && close (c1 (c1 (rotmat3dy (b32_pi / lit 2 1)))) (1) 1 10000000
  && close (c2 (c1 (rotmat3dy (b32_pi / lit 2 1)))) (0) 1 10000000
  && close (c0 (c2 (rotmat3dy (b32_pi / lit 2 1)))) (-1) 1 10000000
  && close (c1 (c2 (rotmat3dy (b32_pi / lit 2 1)))) (0) 1 10000000
  && close (c2 (c2 (rotmat3dy (b32_pi / lit 2 1)))) (0) 1 10000000 = true.
Proof. vm_compute. reflexivity. Qed.

(* /repo/src/astrodynx/utils/_rot_mat.py:148-150 *)
Example doc_rotmat3dz :
  close (c0 (c0 (rotmat3dz (b32_pi / lit 2 1)))) (0) 1 10000000
  && close (c1 (c0 (rotmat3dz (b32_pi / lit 2 1)))) (-1) 1 10000000
  && close (c2 (c0 (rotmat3dz (b32_pi / lit 2 1)))) (0) 1 10000000
  && close (c0 (c1 (rotmat3dz (b32_pi / lit 2 1)))) (1) 1 10000000
  && close (c1 (c1 (rotmat3dz (b32_pi / lit 2 1)))) (0) 1 10000000
  && close (c2 (c1 (rotmat3dz (b32_pi / lit 2 1)))) (0) 1 10000000
  && close (c0 (c2 (rotmat3dz (b32_pi / lit 2 1)))) (0) 1 10000000
  && close (c1 (c2 (rotmat3dz (b32_pi / lit 2 1)))) (0) 1 10000000
  && close (c2 (c2 (rotmat3dz (b32_pi / lit 2 1)))) (1) 1 10000000 = true.
Proof. vm_compute. reflexivity. Qed.

(* /repo/src/astrodynx/prop/_kepler.py:76-82 *)
Example doc_kepler :
  close (c0 (fst (hd (vec0, vec0) (kepler [b32_pi] (mk3 (lit 1 1) (lit 0 1) (lit 0 1)) (mk3 (lit 0 1) (lit 1 1) (lit 0 1)) (lit 1 1))))) (-1) 1 1000000
  && close (c1 (fst (hd (vec0, vec0) (kepler [b32_pi] (mk3 (lit 1 1) (lit 0 1) (lit 0 1)) (mk3 (lit 0 1) (lit 1 1) (lit 0 1)) (lit 1 1))))) (0) 1 1000000
  && close (c2 (fst (hd (vec0, vec0) (kepler [b32_pi] (mk3 (lit 1 1) (lit 0 1) (lit 0 1)) (mk3 (lit 0 1) (lit 1 1) (lit 0 1)) (lit 1 1))))) (0) 1 1000000
  && close (c0 (snd (hd (vec0, vec0) (kepler [b32_pi] (mk3 (lit 1 1) (lit 0 1) (lit 0 1)) (mk3 (lit 0 1) (lit 1 1) (lit 0 1)) (lit 1 1))))) (0) 1 1000000
  && close (c1 (snd (hd (vec0, vec0) (kepler [b32_pi] (mk3 (lit 1 1) (lit 0 1) (lit 0 1)) (mk3 (lit 0 1) (lit 1 1) (lit 0 1)) (lit 1 1))))) (-1) 1 1000000
  && close (c2 (snd (hd (vec0, vec0) (kepler [b32_pi] (mk3 (lit 1 1) (lit 0 1) (lit 0 1)) (mk3 (lit 0 1) (lit 1 1) (lit 0 1)) (lit 1 1))))) (0) 1 1000000 = true.
Proof. vm_compute. reflexivity. Qed.
