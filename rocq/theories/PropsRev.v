(** * Properties C84, C85: the formulas, the solvers and the propagator in reverse mode

    Theorems only; proofs are in [RevOps], [RevFacts], [RevPulls], [RevKep],
    [AdFloor].  A [node] is a value with its
    backward pass ([NumV]); [pulls n w x s r] says that the backward pass of [r] gives the derivative of [x]
    at [s] when the [n] inputs move at the speeds [w] ([SpecRev]); [vjp_kepler] and [vjp_solve_*] are in
    [Reverse].  Exact real arithmetic. *)
From Coq Require Import Reals Lra ZArith List Bool String.
From Coquelicot Require Import Coquelicot.
Import ListNotations.
From Verif Require Import Num NumR NumV Spec SpecRev OrbIntegrals Uniformulas Lagrange KepEqu RotMat OrbElements StateTrans PropKepler Gravity Reverse.
From Verif Require Import PathCheck RevPulls RevKep AdFloor.
Local Open Scope R_scope.

(** ** C84 *)
(** Inputs and constants. *)
Theorem C84_inputs : forall (nin : nat) (speed : nat -> R) (s : R),
  (forall i x, (i < nin)%nat -> is_derive x s (speed i) -> pulls nin speed x s (input i (x s))) /\
  (forall c, pulls nin speed (fun _ => c) s (constant c)).
Proof. exact inputs. Qed.
Print Assumptions C84_inputs.

(** If one input moves at unit speed and the others rest, its cotangent is the partial derivative. *)
Theorem C84_gradient : forall (nin i : nat) x s r, (i < nin)%nat ->
  pulls nin (fun j => if Nat.eqb i j then 1 else 0) x s r -> is_derive x s (back r 1 i).
Proof. exact gradient. Qed.
Print Assumptions C84_gradient.

Theorem C84_orb_period : forall (nin : nat) (speed : nat -> R) (s : R) a mu da dm,
  pulls nin speed a s da -> pulls nin speed mu s dm -> 0 < a s -> 0 < mu s ->
  pulls nin speed (fun u => orb_period (a u) (mu u)) s (@orb_period _ Num_V da dm).
Proof. exact rev_orb_period. Qed.
Print Assumptions C84_orb_period.

Theorem C84_a_from_period : forall (nin : nat) (speed : nat -> R) (s : R) P mu dP dm,
  pulls nin speed P s dP -> pulls nin speed mu s dm -> P s <> 0 -> 0 < mu s ->
  pulls nin speed (fun u => a_from_period (P u) (mu u)) s (@a_from_period _ Num_V dP dm).
Proof. exact rev_a_from_period. Qed.
Print Assumptions C84_a_from_period.

Theorem C84_semimajor_axis : forall (nin : nat) (speed : nat -> R) (s : R) r v mu dr dv dm,
  pulls nin speed r s dr -> pulls nin speed v s dv -> pulls nin speed mu s dm ->
  r s <> 0 -> mu s <> 0 -> 2 / r s - v s ^ 2 / mu s <> 0 ->
  pulls nin speed (fun u => semimajor_axis (r u) (v u) (mu u)) s (@semimajor_axis _ Num_V dr dv dm).
Proof. exact rev_semimajor_axis. Qed.
Print Assumptions C84_semimajor_axis.

Theorem C84_semiparameter : forall (nin : nat) (speed : nat -> R) (s : R) h mu dh dm,
  pulls nin speed h s dh -> pulls nin speed mu s dm -> mu s <> 0 ->
  pulls nin speed (fun u => semiparameter (h u) (mu u)) s (@semiparameter _ Num_V dh dm).
Proof. exact rev_semiparameter. Qed.
Print Assumptions C84_semiparameter.

Theorem C84_mean_motion : forall (nin : nat) (speed : nat -> R) (s : R) P dP,
  pulls nin speed P s dP -> P s <> 0 -> pulls nin speed (fun u => mean_motion (P u)) s (@mean_motion _ Num_V dP).
Proof. exact rev_mean_motion. Qed.
Print Assumptions C84_mean_motion.

Theorem C84_equ_of_orbit : forall (nin : nat) (speed : nat -> R) (s : R) p e f dp de df,
  pulls nin speed p s dp -> pulls nin speed e s de -> pulls nin speed f s df -> 1 + e s * cos (f s) <> 0 ->
  pulls nin speed (fun u => equ_of_orbit (p u) (e u) (f u)) s (@equ_of_orbit _ Num_V dp de df).
Proof. exact rev_equ_of_orbit. Qed.
Print Assumptions C84_equ_of_orbit.

Theorem C84_equ_of_orb_uvi : forall (nin : nat) (speed : nat -> R) (s : R) u0 u1 u2 r0 s0 d0 d1 d2 dr ds,
  pulls nin speed u0 s d0 -> pulls nin speed u1 s d1 -> pulls nin speed u2 s d2 -> pulls nin speed r0 s dr -> pulls nin speed s0 s ds ->
  pulls nin speed (fun u => equ_of_orb_uvi (u0 u) (u1 u) (u2 u) (r0 u) (s0 u)) s (@equ_of_orb_uvi _ Num_V d0 d1 d2 dr ds).
Proof. exact rev_equ_of_orb_uvi. Qed.
Print Assumptions C84_equ_of_orb_uvi.

Theorem C84_radius_periapsis : forall (nin : nat) (speed : nat -> R) (s : R) p e dp de,
  pulls nin speed p s dp -> pulls nin speed e s de -> 1 + e s <> 0 ->
  pulls nin speed (fun u => radius_periapsis (p u) (e u)) s (@radius_periapsis _ Num_V dp de).
Proof. exact rev_radius_periapsis. Qed.
Print Assumptions C84_radius_periapsis.

Theorem C84_radius_apoapsis : forall (nin : nat) (speed : nat -> R) (s : R) p e dp de,
  pulls nin speed p s dp -> pulls nin speed e s de -> 1 - e s <> 0 ->
  pulls nin speed (fun u => radius_apoapsis (p u) (e u)) s (@radius_apoapsis _ Num_V dp de).
Proof. exact rev_radius_apoapsis. Qed.
Print Assumptions C84_radius_apoapsis.

Theorem C84_semipara_from_ae : forall (nin : nat) (speed : nat -> R) (s : R) a e da de,
  pulls nin speed a s da -> pulls nin speed e s de ->
  pulls nin speed (fun u => semipara_from_ae (a u) (e u)) s (@semipara_from_ae _ Num_V da de).
Proof. exact rev_semipara_from_ae. Qed.
Print Assumptions C84_semipara_from_ae.

Theorem C84_a_from_pe : forall (nin : nat) (speed : nat -> R) (s : R) p e dp de,
  pulls nin speed p s dp -> pulls nin speed e s de -> e s ^ 2 <> 1 ->
  pulls nin speed (fun u => a_from_pe (p u) (e u)) s (@a_from_pe _ Num_V dp de).
Proof. exact rev_a_from_pe. Qed.
Print Assumptions C84_a_from_pe.

Theorem C84_angular_momentum : forall (nin : nat) (speed : nat -> R) (s : R) r v dr dv,
  vpulls nin speed r s dr -> vpulls nin speed v s dv ->
  vpulls nin speed (fun u => angular_momentum (r u) (v u)) s (@angular_momentum _ Num_V dr dv).
Proof. exact rev_angular_momentum. Qed.
Print Assumptions C84_angular_momentum.

Theorem C84_eccentricity_vector : forall (nin : nat) (speed : nat -> R) (s : R) r v mu dr dv dm,
  vpulls nin speed r s dr -> vpulls nin speed v s dv -> pulls nin speed mu s dm -> r s <> vzero -> mu s <> 0 ->
  vpulls nin speed (fun u => eccentricity_vector (r u) (v u) (mu u)) s (@eccentricity_vector _ Num_V dr dv dm).
Proof. exact rev_eccentricity_vector. Qed.
Print Assumptions C84_eccentricity_vector.

Theorem C84_sigma_fn : forall (nin : nat) (speed : nat -> R) (s : R) r v mu dr dv dm,
  vpulls nin speed r s dr -> vpulls nin speed v s dv -> pulls nin speed mu s dm -> 0 < mu s ->
  pulls nin speed (fun u => sigma_fn (r u) (v u) (mu u)) s (@sigma_fn _ Num_V dr dv dm).
Proof. exact rev_sigma_fn. Qed.
Print Assumptions C84_sigma_fn.

Theorem C84_ufunc0 : forall (nin : nat) (speed : nat -> R) (s : R) (chi al : R -> R) (dc da : node),
  pulls nin speed chi s dc -> pulls nin speed al s da -> al s <> 0 ->
  pulls nin speed (fun u => ufunc0 (chi u) (al u)) s (@ufunc0 _ Num_V dc da).
Proof. exact rev_ufunc0. Qed.
Print Assumptions C84_ufunc0.

Theorem C84_ufunc1 : forall (nin : nat) (speed : nat -> R) (s : R) (chi al : R -> R) (dc da : node),
  pulls nin speed chi s dc -> pulls nin speed al s da -> al s <> 0 ->
  pulls nin speed (fun u => ufunc1 (chi u) (al u)) s (@ufunc1 _ Num_V dc da).
Proof. exact rev_ufunc1. Qed.
Print Assumptions C84_ufunc1.

Theorem C84_ufunc2 : forall (nin : nat) (speed : nat -> R) (s : R) (chi al : R -> R) (dc da : node),
  pulls nin speed chi s dc -> pulls nin speed al s da -> al s <> 0 ->
  pulls nin speed (fun u => ufunc2 (chi u) (al u)) s (@ufunc2 _ Num_V dc da).
Proof. exact rev_ufunc2. Qed.
Print Assumptions C84_ufunc2.

Theorem C84_ufunc3 : forall (nin : nat) (speed : nat -> R) (s : R) (chi al : R -> R) (dc da : node),
  pulls nin speed chi s dc -> pulls nin speed al s da -> al s <> 0 ->
  pulls nin speed (fun u => ufunc3 (chi u) (al u)) s (@ufunc3 _ Num_V dc da).
Proof. exact rev_ufunc3. Qed.
Print Assumptions C84_ufunc3.

Theorem C84_ufunc4 : forall (nin : nat) (speed : nat -> R) (s : R) (chi al : R -> R) (dc da : node),
  pulls nin speed chi s dc -> pulls nin speed al s da -> al s <> 0 ->
  pulls nin speed (fun u => ufunc4 (chi u) (al u)) s (@ufunc4 _ Num_V dc da).
Proof. exact rev_ufunc4. Qed.
Print Assumptions C84_ufunc4.

Theorem C84_ufunc5 : forall (nin : nat) (speed : nat -> R) (s : R) (chi al : R -> R) (dc da : node),
  pulls nin speed chi s dc -> pulls nin speed al s da -> al s <> 0 ->
  pulls nin speed (fun u => ufunc5 (chi u) (al u)) s (@ufunc5 _ Num_V dc da).
Proof. exact rev_ufunc5. Qed.
Print Assumptions C84_ufunc5.

Theorem C84_lagrange_F : forall (nin : nat) (speed : nat -> R) (s : R) u2 r0 d2 dr,
  pulls nin speed u2 s d2 -> pulls nin speed r0 s dr -> r0 s <> 0 ->
  pulls nin speed (fun u => lagrange_F (u2 u) (r0 u)) s (@lagrange_F _ Num_V d2 dr).
Proof. exact rev_lagrange_F. Qed.
Print Assumptions C84_lagrange_F.

Theorem C84_lagrange_G : forall (nin : nat) (speed : nat -> R) (s : R) u1 u2 s0 r0 mu d1 d2 ds dr dm,
  pulls nin speed u1 s d1 -> pulls nin speed u2 s d2 -> pulls nin speed s0 s ds -> pulls nin speed r0 s dr -> pulls nin speed mu s dm -> 0 < mu s ->
  pulls nin speed (fun u => lagrange_G (u1 u) (u2 u) (s0 u) (r0 u) (mu u)) s (@lagrange_G _ Num_V d1 d2 ds dr dm).
Proof. exact rev_lagrange_G. Qed.
Print Assumptions C84_lagrange_G.

Theorem C84_lagrange_Ft : forall (nin : nat) (speed : nat -> R) (s : R) u1 r r0 mu d1 d dr dm,
  pulls nin speed u1 s d1 -> pulls nin speed r s d -> pulls nin speed r0 s dr -> pulls nin speed mu s dm -> r s <> 0 -> r0 s <> 0 -> 0 < mu s ->
  pulls nin speed (fun u => lagrange_Ft (u1 u) (r u) (r0 u) (mu u)) s (@lagrange_Ft _ Num_V d1 d dr dm).
Proof. exact rev_lagrange_Ft. Qed.
Print Assumptions C84_lagrange_Ft.

Theorem C84_lagrange_Gt : forall (nin : nat) (speed : nat -> R) (s : R) u2 r d2 d,
  pulls nin speed u2 s d2 -> pulls nin speed r s d -> r s <> 0 ->
  pulls nin speed (fun u => lagrange_Gt (u2 u) (r u)) s (@lagrange_Gt _ Num_V d2 d).
Proof. exact rev_lagrange_Gt. Qed.
Print Assumptions C84_lagrange_Gt.

Theorem C84_kepler_equ_elps : forall (nin : nat) (speed : nat -> R) (s : R) E e M dE_ de dM,
  pulls nin speed E s dE_ -> pulls nin speed e s de -> pulls nin speed M s dM ->
  pulls nin speed (fun u => kepler_equ_elps (E u) (e u) (M u)) s (@kepler_equ_elps _ Num_V dE_ de dM).
Proof. exact rev_kepler_equ_elps. Qed.
Print Assumptions C84_kepler_equ_elps.

Theorem C84_kepler_equ_hypb : forall (nin : nat) (speed : nat -> R) (s : R) H e M dH_ de dM,
  pulls nin speed H s dH_ -> pulls nin speed e s de -> pulls nin speed M s dM ->
  pulls nin speed (fun u => kepler_equ_hypb (H u) (e u) (M u)) s (@kepler_equ_hypb _ Num_V dH_ de dM).
Proof. exact rev_kepler_equ_hypb. Qed.
Print Assumptions C84_kepler_equ_hypb.

Theorem C84_mean_anomaly_elps : forall (nin : nat) (speed : nat -> R) (s : R) a t mu da dt dm,
  pulls nin speed a s da -> pulls nin speed t s dt -> pulls nin speed mu s dm -> 0 < a s -> 0 < mu s ->
  pulls nin speed (fun u => mean_anomaly_elps (a u) (t u) (mu u)) s (@mean_anomaly_elps _ Num_V da dt dm).
Proof. exact rev_mean_anomaly_elps. Qed.
Print Assumptions C84_mean_anomaly_elps.

Theorem C84_mean_anomaly_hypb : forall (nin : nat) (speed : nat -> R) (s : R) a t mu da dt dm,
  pulls nin speed a s da -> pulls nin speed t s dt -> pulls nin speed mu s dm -> a s < 0 -> 0 < mu s ->
  pulls nin speed (fun u => mean_anomaly_hypb (a u) (t u) (mu u)) s (@mean_anomaly_hypb _ Num_V da dt dm).
Proof. exact rev_mean_anomaly_hypb. Qed.
Print Assumptions C84_mean_anomaly_hypb.

Theorem C84_generalized_anomaly : forall (nin : nat) (speed : nat -> R) (s : R) al sg s0 t mu d1 d2 d3 d4 d5,
  pulls nin speed al s d1 -> pulls nin speed sg s d2 -> pulls nin speed s0 s d3 -> pulls nin speed t s d4 -> pulls nin speed mu s d5 -> 0 < mu s ->
  pulls nin speed (fun u => generalized_anomaly (al u) (sg u) (s0 u) (t u) (mu u)) s (@generalized_anomaly _ Num_V d1 d2 d3 d4 d5).
Proof. exact rev_generalized_anomaly. Qed.
Print Assumptions C84_generalized_anomaly.

Theorem C84_kepler_equ_uni : forall (nin : nat) (speed : nat -> R) (s : R) chi al r0 s0 t mu d1 d2 d3 d4 d5 d6,
  pulls nin speed chi s d1 -> pulls nin speed al s d2 -> pulls nin speed r0 s d3 -> pulls nin speed s0 s d4 -> pulls nin speed t s d5 -> pulls nin speed mu s d6 ->
  al s <> 0 -> 0 < mu s ->
  pulls nin speed (fun u => kepler_equ_uni (chi u) (al u) (r0 u) (s0 u) (t u) (mu u)) s (@kepler_equ_uni _ Num_V d1 d2 d3 d4 d5 d6).
Proof. exact rev_kepler_equ_uni. Qed.
Print Assumptions C84_kepler_equ_uni.

Theorem C84_dchi : forall (nin : nat) (speed : nat -> R) (s : R) chi al r0 s0 d1 d2 d3 d4,
  pulls nin speed chi s d1 -> pulls nin speed al s d2 -> pulls nin speed r0 s d3 -> pulls nin speed s0 s d4 -> al s <> 0 ->
  pulls nin speed (fun u => dchi (chi u) (al u) (r0 u) (s0 u)) s (@dchi _ Num_V d1 d2 d3 d4).
Proof. exact rev_dchi. Qed.
Print Assumptions C84_dchi.

Theorem C84_C_func : forall (nin : nat) (speed : nat -> R) (s : R) chi u2 u4 u5 t mu d1 d2 d3 d4 d5 d6,
  pulls nin speed chi s d1 -> pulls nin speed u2 s d2 -> pulls nin speed u4 s d3 -> pulls nin speed u5 s d4 -> pulls nin speed t s d5 -> pulls nin speed mu s d6 -> 0 < mu s ->
  pulls nin speed (fun u => C_func (chi u) (u2 u) (u4 u) (u5 u) (t u) (mu u)) s (@C_func _ Num_V d1 d2 d3 d4 d5 d6).
Proof. exact rev_C_func. Qed.
Print Assumptions C84_C_func.

Theorem C84_state_at_chi : forall (nin : nat) (speed : nat -> R) (s : R) chi al s0 r0 (rv vv : R -> vec) mu d1 d2 d3 d4 dr dv d5,
  pulls nin speed chi s d1 -> pulls nin speed al s d2 -> pulls nin speed s0 s d3 -> pulls nin speed r0 s d4 -> vpulls nin speed rv s dr -> vpulls nin speed vv s dv -> pulls nin speed mu s d5 ->
  al s <> 0 -> r0 s <> 0 -> 0 < mu s -> dchi (chi s) (al s) (r0 s) (s0 s) <> 0 ->
  vpulls nin speed (fun u => fst (state_at_chi (chi u) (al u) (s0 u) (r0 u) (rv u) (vv u) (mu u))) s (fst (@state_at_chi _ Num_V d1 d2 d3 d4 dr dv d5)) /\
  vpulls nin speed (fun u => snd (state_at_chi (chi u) (al u) (s0 u) (r0 u) (rv u) (vv u) (mu u))) s (snd (@state_at_chi _ Num_V d1 d2 d3 d4 dr dv d5)).
Proof. exact rev_state_at_chi. Qed.
Print Assumptions C84_state_at_chi.

Theorem C84_rotmat3dx : forall (nin : nat) (speed : nat -> R) (s : R) a da,
  pulls nin speed a s da -> mpulls nin speed (fun u => rotmat3dx (a u)) s (@rotmat3dx _ Num_V da).
Proof. exact rev_rotmat3dx. Qed.
Print Assumptions C84_rotmat3dx.

Theorem C84_rotmat3dy : forall (nin : nat) (speed : nat -> R) (s : R) a da,
  pulls nin speed a s da -> mpulls nin speed (fun u => rotmat3dy (a u)) s (@rotmat3dy _ Num_V da).
Proof. exact rev_rotmat3dy. Qed.
Print Assumptions C84_rotmat3dy.

Theorem C84_rotmat3dz : forall (nin : nat) (speed : nat -> R) (s : R) a da,
  pulls nin speed a s da -> mpulls nin speed (fun u => rotmat3dz (a u)) s (@rotmat3dz _ Num_V da).
Proof. exact rev_rotmat3dz. Qed.
Print Assumptions C84_rotmat3dz.

Theorem C84_coe2rv : forall (nin : nat) (speed : nat -> R) (s : R) p e i O w f mu d1 d2 d3 d4 d5 d6 d7,
  pulls nin speed p s d1 -> pulls nin speed e s d2 -> pulls nin speed i s d3 -> pulls nin speed O s d4 -> pulls nin speed w s d5 -> pulls nin speed f s d6 -> pulls nin speed mu s d7 ->
  0 < p s -> 0 < mu s -> 1 + e s * cos (f s) <> 0 ->
  vpulls nin speed (fun u => fst (coe2rv (p u) (e u) (i u) (O u) (w u) (f u) (mu u))) s (fst (@coe2rv _ Num_V d1 d2 d3 d4 d5 d6 d7)) /\
  vpulls nin speed (fun u => snd (coe2rv (p u) (e u) (i u) (O u) (w u) (f u) (mu u))) s (snd (@coe2rv _ Num_V d1 d2 d3 d4 d5 d6 d7)).
Proof. exact rev_coe2rv. Qed.
Print Assumptions C84_coe2rv.

Theorem C84_inclination : forall (nin : nat) (speed : nat -> R) (s : R) h dh,
  vpulls nin speed h s dh -> (c0 (h s) <> 0 \/ c1 (h s) <> 0) ->
  pulls nin speed (fun u => inclination (h u)) s (@inclination _ Num_V dh).
Proof. exact rev_inclination. Qed.
Print Assumptions C84_inclination.

Theorem C84_right_ascension : forall (nin : nat) (speed : nat -> R) (s : R) n dn,
  vpulls nin speed n s dn -> c1 (n s) <> 0 \/ c0 (n s) < 0 ->
  pulls nin speed (fun u => right_ascension (n u)) s (@right_ascension _ Num_V dn).
Proof. exact rev_right_ascension. Qed.
Print Assumptions C84_right_ascension.

Theorem C84_node_vec : forall (nin : nat) (speed : nat -> R) (s : R) h dh,
  vpulls nin speed h s dh -> vpulls nin speed (fun u => node_vec (h u)) s (@node_vec _ Num_V dh).
Proof. exact rev_node_vec. Qed.
Print Assumptions C84_node_vec.

Theorem C84_true_anomaly : forall (nin : nat) (speed : nat -> R) (s : R) r e dr de,
  vpulls nin speed r s dr -> vpulls nin speed e s de -> vcross (e s) (r s) <> vzero ->
  pulls nin speed (fun u => true_anomaly (r u) (e u)) s (@true_anomaly _ Num_V dr de).
Proof. exact rev_true_anomaly. Qed.
Print Assumptions C84_true_anomaly.

Theorem C84_argument_of_periapsis : forall (nin : nat) (speed : nat -> R) (s : R) n e dn de,
  vpulls nin speed n s dn -> vpulls nin speed e s de -> vcross (n s) (e s) <> vzero ->
  pulls nin speed (fun u => argument_of_periapsis (n u) (e u)) s (@argument_of_periapsis _ Num_V dn de).
Proof. exact rev_argument_of_periapsis. Qed.
Print Assumptions C84_argument_of_periapsis.

Theorem C84_rv2coe : forall (nin : nat) (speed : nat -> R) (s : R) (r v : R -> vec) mu dr dv dm,
  vpulls nin speed r s dr -> vpulls nin speed v s dv -> pulls nin speed mu s dm ->
  let h := cross (r s) (v s) in let e := eccentricity_vector (r s) (v s) (mu s) in
  0 < mu s -> c0 h <> 0 \/ c1 h <> 0 -> c0 h <> 0 \/ 0 < c1 h -> cross (mk3 0 0 1) h <> vzero ->
  cross (cross (mk3 0 0 1) h) e <> vzero -> cross e (r s) <> vzero ->
  let k := fun u => rv2coe (r u) (v u) (mu u) in let d := @rv2coe _ Num_V dr dv dm in
  pulls nin speed (fun u => coe_p (k u)) s (coe_p d) /\ pulls nin speed (fun u => coe_e (k u)) s (coe_e d) /\
  pulls nin speed (fun u => coe_incl (k u)) s (coe_incl d) /\ pulls nin speed (fun u => coe_raan (k u)) s (coe_raan d) /\
  pulls nin speed (fun u => coe_argp (k u)) s (coe_argp d) /\ pulls nin speed (fun u => coe_f (k u)) s (coe_f d).
Proof. exact rev_rv2coe. Qed.
Print Assumptions C84_rv2coe.

Theorem C84_point_mass : forall (nin : nat) (speed : nat -> R) (s : R) (x0 x1 x2 : R -> R) (d0 d1 d2 : node) (rest : R -> list R) (rrest : list node)
    (t : R -> R) (dt : node) (args : R -> dict) (rargs : dict) (mu : R -> R) (dm : node),
  pulls nin speed x0 s d0 -> pulls nin speed x1 s d1 -> pulls nin speed x2 s d2 -> mk3 (x0 s) (x1 s) (x2 s) <> vzero ->
  pulled nin speed s "mu" args rargs mu dm ->
  exists acc racc, (forall u, point_mass_grav (t u) (x0 u :: x1 u :: x2 u :: rest u) (args u) = Ok (acc u)) /\
    @point_mass_grav _ Num_V dt (d0 :: d1 :: d2 :: rrest) rargs = Ok racc /\ vpulls nin speed acc s racc.
Proof. exact rev_point_mass. Qed.
Print Assumptions C84_point_mass.

Theorem C84_j2 : forall (nin : nat) (speed : nat -> R) (s : R) (x0 x1 x2 : R -> R) (d0 d1 d2 : node) (rest : R -> list R) (rrest : list node)
    (t : R -> R) (dt : node) (args : R -> dict) (rargs : dict) (mu J Q : R -> R) (dm dJ dQ : node),
  pulls nin speed x0 s d0 -> pulls nin speed x1 s d1 -> pulls nin speed x2 s d2 -> mk3 (x0 s) (x1 s) (x2 s) <> vzero ->
  pulled nin speed s "mu" args rargs mu dm ->
  pulled nin speed s "R_eq" args rargs Q dQ -> pulled nin speed s "J2" args rargs J dJ ->
  exists acc racc, (forall u, j2_acc (t u) (x0 u :: x1 u :: x2 u :: rest u) (args u) = Ok (acc u)) /\
    @j2_acc _ Num_V dt (d0 :: d1 :: d2 :: rrest) rargs = Ok racc /\ vpulls nin speed acc s racc.
Proof. exact rev_j2. Qed.
Print Assumptions C84_j2.

Theorem C84_j3 : forall (nin : nat) (speed : nat -> R) (s : R) (x0 x1 x2 : R -> R) (d0 d1 d2 : node) (rest : R -> list R) (rrest : list node)
    (t : R -> R) (dt : node) (args : R -> dict) (rargs : dict) (mu J Q : R -> R) (dm dJ dQ : node),
  pulls nin speed x0 s d0 -> pulls nin speed x1 s d1 -> pulls nin speed x2 s d2 -> mk3 (x0 s) (x1 s) (x2 s) <> vzero ->
  pulled nin speed s "mu" args rargs mu dm ->
  pulled nin speed s "R_eq" args rargs Q dQ -> pulled nin speed s "J3" args rargs J dJ ->
  exists acc racc, (forall u, j3_acc (t u) (x0 u :: x1 u :: x2 u :: rest u) (args u) = Ok (acc u)) /\
    @j3_acc _ Num_V dt (d0 :: d1 :: d2 :: rrest) rargs = Ok racc /\ vpulls nin speed acc s racc.
Proof. exact rev_j3. Qed.
Print Assumptions C84_j3.

Theorem C84_j4 : forall (nin : nat) (speed : nat -> R) (s : R) (x0 x1 x2 : R -> R) (d0 d1 d2 : node) (rest : R -> list R) (rrest : list node)
    (t : R -> R) (dt : node) (args : R -> dict) (rargs : dict) (mu J Q : R -> R) (dm dJ dQ : node),
  pulls nin speed x0 s d0 -> pulls nin speed x1 s d1 -> pulls nin speed x2 s d2 -> mk3 (x0 s) (x1 s) (x2 s) <> vzero ->
  pulled nin speed s "mu" args rargs mu dm ->
  pulled nin speed s "R_eq" args rargs Q dQ -> pulled nin speed s "J4" args rargs J dJ ->
  exists acc racc, (forall u, j4_acc (t u) (x0 u :: x1 u :: x2 u :: rest u) (args u) = Ok (acc u)) /\
    @j4_acc _ Num_V dt (d0 :: d1 :: d2 :: rrest) rargs = Ok racc /\ vpulls nin speed acc s racc.
Proof. exact rev_j4. Qed.
Print Assumptions C84_j4.

(** [jax.grad] of the universal Kepler equation in chi is [dchi], also at zero energy
    (tests/test_kepler_equation.py:188). *)
Theorem C84_grad_kepler_equ : forall chi al r0 s0 t mu : R,
  back (@kepler_equ_uni _ Num_V (input 0 chi) (constant al) (constant r0) (constant s0) (constant t) (constant mu)) 1 0%nat
  = dchi chi al r0 s0.
Proof. exact keq_grad. Qed.
Print Assumptions C84_grad_kepler_equ.

(** The count of revolutions is a step function: its gradient is 0 beside the steps. *)
Theorem C84_nmax : forall (nin : nat) (speed : nat -> R) (s : R) rp r1 r2 tof mu d1 d2 d3 d4 d5,
  pulls nin speed rp s d1 -> pulls nin speed r1 s d2 -> pulls nin speed r2 s d3 -> pulls nin speed tof s d4 -> pulls nin speed mu s d5 ->
  0 < mu s -> 0 < Rmax (r1 s) (r2 s) + rp s ->
  (forall k : Z, tof s <> IZR k * (2 * PI * sqrt (((Rmax (r1 s) (r2 s) + rp s) / 2) ^ 3 / mu s))) ->
  pulls nin speed (fun u => nmax_by_periapsis (rp u) (r1 u) (r2 u) (tof u) (mu u)) s (@nmax_by_periapsis _ Num_V d1 d2 d3 d4 d5).
Proof. exact rev_nmax. Qed.
Print Assumptions C84_nmax.

(** Zero energy: the branch taken at [alpha = 0] does not depend on [alpha], so the derivative is lost. *)
Theorem C84_zero_energy_refuted : forall chi : R, chi <> 0 -> let one := fun _ : nat => 1 in
  ~ pulls 1 one (fun a => ufunc0 chi a) 0 (@ufunc0 _ Num_V (constant chi) (input 0 0)) /\
  ~ pulls 1 one (fun a => ufunc1 chi a) 0 (@ufunc1 _ Num_V (constant chi) (input 0 0)) /\
  ~ pulls 1 one (fun a => ufunc2 chi a) 0 (@ufunc2 _ Num_V (constant chi) (input 0 0)) /\
  ~ pulls 1 one (fun a => ufunc3 chi a) 0 (@ufunc3 _ Num_V (constant chi) (input 0 0)).
Proof. exact rev_zero_energy. Qed.
Print Assumptions C84_zero_energy_refuted.

(** [jax.grad] of the period in both arguments at a = mu = 1 (docs/basics.rst:181, docs/index.rst:147). *)
Example C84_period : let g := back (@orb_period _ Num_V (input 0 1) (input 1 1)) 1 in g 0%nat = 3 * PI /\ g 1%nat = - PI.
Proof. exact period_grad. Qed.

(** ** C85 *)
(** The solvers raise in reverse mode exactly if some argument is differentiated. *)
Theorem C85_solvers_raise : forall (tol : R) (k : Z),
  (forall M e, vjp_solve_elps M e tol k = None <-> (live M || live e)%bool = true) /\
  (forall Nm e, vjp_solve_hypb Nm e tol k = None <-> (live Nm || live e)%bool = true) /\
  (forall t al r0 s0 mu, vjp_solve_uni t al r0 s0 mu tol k = None <->
     (live t || live al || live r0 || live s0 || live mu)%bool = true).
Proof. exact (fun tol k => conj (live_elps tol k) (conj (live_hypb tol k) (live_uni tol k))). Qed.
Print Assumptions C85_solvers_raise.

(** The propagator raises exactly if a time or [mu] is differentiated; not for the state. *)
Theorem C85_kepler_raises : forall ts r0 v0 mu,
  vjp_kepler ts r0 v0 mu = None <-> existsb (fun t => live t || live mu)%bool ts = true.
Proof. exact live_kepler. Qed.
Print Assumptions C85_kepler_raises.
Example C85_grad_time : forall (t mu : R) r0 v0, vjp_kepler [input 0 t] r0 v0 (constant mu) = None.
Proof. intros. now apply C85_kepler_raises. Qed.

(** In the state the backward pass belongs to the propagated state with the generalized anomaly [chi] held
    fixed instead of the time: the elapsed time [tau] varies with the parameter. *)
Theorem C85_jacrev_fixed_anomaly : forall (nin : nat) (speed : nat -> R) (mu s : R) (r0 v0 : R -> vec) (rr rv : V3 node),
  0 < mu -> cross (r0 s) (v0 s) <> vzero -> energy mu (r0 s) (v0 s) <> 0 ->
  vpulls nin speed r0 s rr -> vpulls nin speed v0 s rv -> forall ts : list R,
  exists outs, vjp_kepler (map constant ts) rr rv (constant mu) = Some outs /\
  Forall2 (fun x o => exists (chi : R) (tau : R -> R) (r v : R -> vec),
    (r s, v s) = x /\ (exists tau', is_derive tau s tau') /\
    locally s (fun u => flows_to mu (tau u) (r0 u, v0 u) (r u, v u)) /\
    locally s (fun u => (2 / vnorm (r0 u) - vnorm (v0 u) ^ 2 / mu) * sqrt mu * tau u
                        + (dot (r u) (v u) - dot (r0 u) (v0 u)) / sqrt mu = chi) /\
    vpulls nin speed r s (fst o) /\ vpulls nin speed v s (snd o)) (kepler ts (r0 s) (v0 s) mu) outs.
Proof. exact vjp_rows. Qed.
Print Assumptions C85_jacrev_fixed_anomaly.

(** One revolution of the unit circle, differentiated in the speed: reverse mode says -2 pi, the flow says -6 pi. *)
Theorem C85_jacrev_refuted :
  (exists o, vjp_kepler [constant (2 * PI)] (mk3 (constant 1) (constant 0) (constant 0))
       (mk3 (constant 0) (input 0 1) (constant 0)) (constant 1) = Some [o] /\
     vnval (fst o) = mk3 1 0 0 /\
     back (c0 (fst o)) 1 0%nat = 0 /\ back (c1 (fst o)) 1 0%nat = - (2 * PI) /\ back (c2 (fst o)) 1 0%nat = 0) /\
  (forall r v : R -> vec, locally 0 (fun u => flows_to 1 (2 * PI) (mk3 1 0 0, mk3 0 (1 + u) 0) (r u, v u)) ->
     vderive r 0 (mk3 0 (- (6 * PI)) 0)).
Proof. exact turn_wrong. Qed.
Print Assumptions C85_jacrev_refuted.
