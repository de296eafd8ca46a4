(** * Properties C49, C56, C57: the propagator and the formulas under jax's transformations

    Theorems only; proofs are in [TraceLib], [AdOps], [AdFacts], [AdKep], [AdMore], [AdCirc], [AdGuess],
    [AdFloor].  [traced] numbers carry
    whether their value is known while tracing ([Trace]); [dual] numbers carry a derivative ([NumD]);
    [carries x s d] says that the pair [d] is the value and the derivative of [x] at [s] ([SpecAd]).
    Exact real arithmetic, except C49_tracing, which holds in every arithmetic. *)
From Coq Require Import Reals Lra ZArith List Bool String.
From Coquelicot Require Import Coquelicot.
Import ListNotations.
From Verif Require Import Num NumR NumD Spec SpecAd OrbIntegrals Uniformulas Lagrange KepEqu RotMat OrbElements StateTrans PropKepler Gravity PathCheck Trace.
From Verif Require Import TraceLib AdOps AdFacts AdKep AdMore AdCirc AdGuess AdFloor.
Local Open Scope R_scope.

(** ** C49 *)
(** [kepler] raises inside [jax.jit], whatever the arguments, and under [jax.vmap] over any part of the
    state or over [mu]; otherwise (times may be traced) it computes what it computes untraced. *)
Theorem C49_tracing : forall (T : Type) (N : Num T) (jit : bool) (ts : list (traced T)) (r v : V3 (traced T)) (mu : traced T),
  option_map (map (fun x => (vnumber (fst x), vnumber (snd x)))) (@kepler_items _ (Num_T jit) item_T ts r v mu)
  = if negb jit && (vknown r && vknown v && known mu)
    then Some (kepler (map number ts) (vnumber r) (vnumber v) (number mu)) else None.
Proof. exact @items_traced. Qed.
Print Assumptions C49_tracing.

(** The three calls of docs/basics.rst and mapping over times. *)
Example C49_jit : forall (t mu : R) (r v : V3 R), let known_ x := mkT x true in
  @kepler_items _ (Num_T true) item_T [known_ t] (vmap3 known_ r) (vmap3 known_ v) (known_ mu) = None.
Proof. exact jit_raises. Qed.
Example C49_vmap_states : forall (t mu : R) (r v : V3 R), let known_ x := mkT x true in let mapped x := mkT x false in
  @kepler_items _ (Num_T false) item_T [known_ t] (vmap3 mapped r) (vmap3 mapped v) (known_ mu) = None.
Proof. exact vmap_raises. Qed.
Example C49_vmap_times : forall (t mu : R) (r v : V3 R), let known_ x := mkT x true in let mapped x := mkT x false in
  @kepler_items _ (Num_T false) item_T [mapped t] (vmap3 known_ r) (vmap3 known_ v) (known_ mu) <> None.
Proof. exact vmap_times. Qed.

(** Forward mode in the state gives the derivative of the propagated state with the generalized anomaly
    [chi] held fixed instead of the time: the elapsed time [tau] varies with the parameter. *)
Theorem C49_jacfwd_fixed_anomaly : forall (mu s : R) (r0 v0 : R -> vec) (dr dv : V3 dual),
  0 < mu -> cross (r0 s) (v0 s) <> vzero -> energy mu (r0 s) (v0 s) <> 0 ->
  vcarries r0 s dr -> vcarries v0 s dv -> forall ts : list R,
  exists outs, @kepler_items _ Num_D item_D (map konst ts) dr dv (konst mu) = Some outs /\
  Forall2 (fun x o => exists (chi : R) (tau : R -> R) (r v : R -> vec),
    (r s, v s) = x /\ (exists tau', is_derive tau s tau') /\
    locally s (fun u => flows_to mu (tau u) (r0 u, v0 u) (r u, v u)) /\
    locally s (fun u => (2 / vnorm (r0 u) - vnorm (v0 u) ^ 2 / mu) * sqrt mu * tau u
                        + (dot (r u) (v u) - dot (r0 u) (v0 u)) / sqrt mu = chi) /\
    vcarries r s (fst o) /\ vcarries v s (snd o)) (kepler ts (r0 s) (v0 s) mu) outs.
Proof. exact jvp_rows. Qed.
Print Assumptions C49_jacfwd_fixed_anomaly.

(** One revolution of the unit circle, differentiated in the speed: [jax.jvp] says -2 pi, the flow says -6 pi. *)
Theorem C49_jacfwd_refuted :
  (exists o, @kepler_items _ Num_D item_D [konst (2 * PI)] (mk3 (konst 1) (konst 0) (konst 0))
       (mk3 (konst 0) (mkD 1 1) (konst 0)) (konst 1) = Some [o] /\
     vval (fst o) = mk3 1 0 0 /\ vtang (fst o) = mk3 0 (- (2 * PI)) 0) /\
  (exists r v : R -> vec, locally 0 (fun u => flows_to 1 (2 * PI) (mk3 1 0 0, mk3 0 (1 + u) 0) (r u, v u))) /\
  (forall r v : R -> vec, locally 0 (fun u => flows_to 1 (2 * PI) (mk3 1 0 0, mk3 0 (1 + u) 0) (r u, v u)) ->
     vderive r 0 (mk3 0 (- (6 * PI)) 0)).
Proof. exact jacfwd_wrong. Qed.
Print Assumptions C49_jacfwd_refuted.

(** ** C57 *)
(** Forward mode in time: the returned derivatives are the velocity and the acceleration of the returned
    state times a factor [k n], where [n] is the number of Newton steps; [k] follows a recursion over the
    iterates [x].  1 would be right. *)
Theorem C57_time_derivative_partial : forall (mu : R) (r0 v0 : vec), 0 < mu -> cross r0 v0 <> vzero ->
  let a := 2 / vnorm r0 - vnorm v0 ^ 2 / mu in let s0 := dot r0 v0 / sqrt mu in
  let time chi := vnorm r0 * universal 1 chi a + s0 * universal 2 chi a + universal 3 chi a in
  let rad chi := vnorm r0 * universal 0 chi a + s0 * universal 1 chi a + universal 2 chi a in
  let sig chi := s0 * universal 0 chi a + (1 - a * vnorm r0) * universal 1 chi a in
  forall (ts : list R) (i : nat) (t : R), nth_error ts i = Some t ->
  exists o (n : nat) (x k : nat -> R), (n <= 50)%nat /\
    nth_error (@kepler _ Num_D (map (fun t => mkD t 1) ts) (vmap3 konst r0) (vmap3 konst v0) (konst mu)) i = Some o /\
    nth_error (kepler ts r0 v0 mu) i = Some (vval (fst o), vval (snd o)) /\
    vtang (fst o) = smul (k n) (vval (snd o)) /\ vtang (snd o) = smul (k n) (gravity mu (vval (fst o))) /\
    x 0%nat = sqrt mu * Rabs a * t /\ k 0%nat = Rabs a * rad (x 0%nat) /\
    (forall j, x (S j) = x j - (time (x j) - sqrt mu * t) / rad (x j) /\
      k (S j) = rad (x (S j)) / rad (x j) * (1 + (time (x j) - sqrt mu * t) * sig (x j) / rad (x j) ^ 2 * k j)) /\
    (forall j, (j < n)%nat -> / 1000000 < Rabs (time (x j) - sqrt mu * t)) /\
    (n = 50%nat \/ Rabs (time (x n) - sqrt mu * t) <= / 1000000).
Proof. exact rate_rows_spec. Qed.
Print Assumptions C57_time_derivative_partial.

Theorem C57_at_epoch : forall (mu : R) (r0 v0 : vec) (ts : list R) (i : nat), 0 < mu -> cross r0 v0 <> vzero -> nth_error ts i = Some 0 ->
  exists o, nth_error (@kepler _ Num_D (map (fun t => mkD t 1) ts) (vmap3 konst r0) (vmap3 konst v0) (konst mu)) i = Some o /\
    vval (fst o) = r0 /\ vval (snd o) = v0 /\
    let k := Rabs (2 / vnorm r0 - vnorm v0 ^ 2 / mu) * vnorm r0 in
    vtang (fst o) = smul k v0 /\ vtang (snd o) = smul k (gravity mu r0).
Proof. exact rate_0. Qed.
Print Assumptions C57_at_epoch.

Theorem C57_time_derivative_refuted : forall (mu : R) (r0 v0 : vec), 0 < mu -> cross r0 v0 <> vzero ->
  Rabs (2 / vnorm r0 - vnorm v0 ^ 2 / mu) * vnorm r0 <> 1 ->
  exists o, @kepler _ Num_D [mkD 0 1] (vmap3 konst r0) (vmap3 konst v0) (konst mu) = [o] /\ vtang (fst o) <> v0.
Proof. exact rate_0_wrong. Qed.
Print Assumptions C57_time_derivative_refuted.
Example C57_example : exists o,
  @kepler _ Num_D [mkD 0 1] (vmap3 konst (mk3 1 0 0)) (vmap3 konst (mk3 0 (6 / 5) 0)) (konst 1) = [o] /\
  vtang (fst o) = mk3 0 (84 / 125) 0.
Proof. exact start_example. Qed.

(** Nearly circular orbits, at every time: the error is at most the eccentricity if the starting guess is accepted, of second
    order in the eccentricity after one Newton step and of fourth order after two. *)
Theorem C57_near_circular_partial : forall (mu : R) (r0 v0 : vec), 0 < mu -> cross r0 v0 <> vzero ->
  let a := 2 / vnorm r0 - vnorm v0 ^ 2 / mu in let s0 := dot r0 v0 / sqrt mu in
  let e := vnorm (eccentricity_vector r0 v0 mu) in
  let time chi := vnorm r0 * universal 1 chi a + s0 * universal 2 chi a + universal 3 chi a in
  let rad chi := vnorm r0 * universal 0 chi a + s0 * universal 1 chi a + universal 2 chi a in
  e <= 1 / 4 ->
  forall (ts : list R) (i : nat) (t : R), nth_error ts i = Some t ->
  let x0 := sqrt mu * Rabs a * t in let x1 := x0 - (time x0 - sqrt mu * t) / rad x0 in
  exists o (k : R),
    nth_error (@kepler _ Num_D (map (fun t => mkD t 1) ts) (vmap3 konst r0) (vmap3 konst v0) (konst mu)) i = Some o /\
    nth_error (kepler ts r0 v0 mu) i = Some (vval (fst o), vval (snd o)) /\
    vtang (fst o) = smul k (vval (snd o)) /\ vtang (snd o) = smul k (gravity mu (vval (fst o))) /\
    (Rabs (time x0 - sqrt mu * t) <= / 1000000 -> Rabs (k - 1) <= e) /\
    (/ 1000000 < Rabs (time x0 - sqrt mu * t) -> Rabs (k - 1) <= 7 * (e / (1 - e)) ^ 2) /\
    (/ 1000000 < Rabs (time x0 - sqrt mu * t) -> / 1000000 < Rabs (time x1 - sqrt mu * t) -> Rabs (k - 1) <= 9 * (e / (1 - e)) ^ 4).
Proof. exact circ_rows_spec. Qed.
Print Assumptions C57_near_circular_partial.

Theorem C57_every_time_partial : forall (mu : R) (r0 v0 : vec), 0 < mu -> cross r0 v0 <> vzero ->
  let e := vnorm (eccentricity_vector r0 v0 mu) in e <= 1 / 10 ->
  forall (ts : list R) (i : nat) (t : R), nth_error ts i = Some t ->
  exists o, nth_error (@kepler _ Num_D (map (fun t => mkD t 1) ts) (vmap3 konst r0) (vmap3 konst v0) (konst mu)) i = Some o /\
    nth_error (kepler ts r0 v0 mu) i = Some (vval (fst o), vval (snd o)) /\
    let r := vval (fst o) in let v := vval (snd o) in
    vnorm (vminus (vtang (fst o)) v) <= e * vnorm v /\ vnorm (vminus (vtang (snd o)) (gravity mu r)) <= e * vnorm (gravity mu r).
Proof. exact circ_uniform. Qed.
Print Assumptions C57_every_time_partial.
(** attained at epoch on an orbit of eccentricity 81/1600 *)
Example C57_every_time_case : let r0 := mk3 1 0 0 in let v0 := mk3 0 (41 / 40) 0 in
  vnorm (eccentricity_vector r0 v0 1) = 81 / 1600 /\
  exists o, @kepler _ Num_D [mkD 0 1] (vmap3 konst r0) (vmap3 konst v0) (konst 1) = [o] /\
    vnorm (vminus (vtang (fst o)) v0) = 81 / 1600 * vnorm v0.
Proof. exact circ_attained. Qed.

(** Any orbit, at the times where the starting guess is accepted: the factor is |alpha| times the returned distance. *)
Theorem C57_guess_accepted : forall (mu : R) (r0 v0 : vec), 0 < mu -> cross r0 v0 <> vzero ->
  let a := 2 / vnorm r0 - vnorm v0 ^ 2 / mu in let s0 := dot r0 v0 / sqrt mu in
  let e := vnorm (eccentricity_vector r0 v0 mu) in
  let time chi := vnorm r0 * universal 1 chi a + s0 * universal 2 chi a + universal 3 chi a in
  forall (ts : list R) (i : nat) (t : R), nth_error ts i = Some t ->
  Rabs (time (sqrt mu * Rabs a * t) - sqrt mu * t) <= / 1000000 ->
  exists o, nth_error (@kepler _ Num_D (map (fun t => mkD t 1) ts) (vmap3 konst r0) (vmap3 konst v0) (konst mu)) i = Some o /\
    nth_error (kepler ts r0 v0 mu) i = Some (vval (fst o), vval (snd o)) /\
    let k := Rabs a * vnorm (vval (fst o)) in
    vtang (fst o) = smul k (vval (snd o)) /\ vtang (snd o) = smul k (gravity mu (vval (fst o))) /\
    (e < 1 -> Rabs (k - 1) <= e) /\ (e = 1 -> k = 0) /\ (1 < e -> e - 1 <= k).
Proof. exact guess_rows. Qed.
Print Assumptions C57_guess_accepted.
(** a parabola: both derivatives are zero although the body moves with unit speed *)
Example C57_guess_accepted_case : let r0 := mk3 2 0 0 in let v0 := mk3 0 1 0 in
  exists o, @kepler _ Num_D [mkD (/ 1000000) 1] (vmap3 konst r0) (vmap3 konst v0) (konst 1) = [o] /\
    vtang (fst o) = vzero /\ vtang (snd o) = vzero.
Proof. exact guess_parabola. Qed.

(** ** C56 *)

Theorem C56_orb_period : forall (s : R) a mu da dm,
  carries a s da -> carries mu s dm -> 0 < a s -> 0 < mu s ->
  carries (fun u => orb_period (a u) (mu u)) s (@orb_period _ Num_D da dm).
Proof. exact ad_orb_period. Qed.
Print Assumptions C56_orb_period.

Theorem C56_a_from_period : forall (s : R) P mu dP dm,
  carries P s dP -> carries mu s dm -> P s <> 0 -> 0 < mu s ->
  carries (fun u => a_from_period (P u) (mu u)) s (@a_from_period _ Num_D dP dm).
Proof. exact ad_a_from_period. Qed.
Print Assumptions C56_a_from_period.

Theorem C56_semimajor_axis : forall (s : R) r v mu dr dv dm,
  carries r s dr -> carries v s dv -> carries mu s dm ->
  r s <> 0 -> mu s <> 0 -> 2 / r s - v s ^ 2 / mu s <> 0 ->
  carries (fun u => semimajor_axis (r u) (v u) (mu u)) s (@semimajor_axis _ Num_D dr dv dm).
Proof. exact ad_semimajor_axis. Qed.
Print Assumptions C56_semimajor_axis.

Theorem C56_semiparameter : forall (s : R) h mu dh dm,
  carries h s dh -> carries mu s dm -> mu s <> 0 ->
  carries (fun u => semiparameter (h u) (mu u)) s (@semiparameter _ Num_D dh dm).
Proof. exact ad_semiparameter. Qed.
Print Assumptions C56_semiparameter.

Theorem C56_mean_motion : forall (s : R) P dP,
  carries P s dP -> P s <> 0 -> carries (fun u => mean_motion (P u)) s (@mean_motion _ Num_D dP).
Proof. exact ad_mean_motion. Qed.
Print Assumptions C56_mean_motion.

Theorem C56_equ_of_orbit : forall (s : R) p e f dp de df,
  carries p s dp -> carries e s de -> carries f s df -> 1 + e s * cos (f s) <> 0 ->
  carries (fun u => equ_of_orbit (p u) (e u) (f u)) s (@equ_of_orbit _ Num_D dp de df).
Proof. exact ad_equ_of_orbit. Qed.
Print Assumptions C56_equ_of_orbit.

Theorem C56_equ_of_orb_uvi : forall (s : R) u0 u1 u2 r0 s0 d0 d1 d2 dr ds,
  carries u0 s d0 -> carries u1 s d1 -> carries u2 s d2 -> carries r0 s dr -> carries s0 s ds ->
  carries (fun u => equ_of_orb_uvi (u0 u) (u1 u) (u2 u) (r0 u) (s0 u)) s (@equ_of_orb_uvi _ Num_D d0 d1 d2 dr ds).
Proof. exact ad_equ_of_orb_uvi. Qed.
Print Assumptions C56_equ_of_orb_uvi.

Theorem C56_radius_periapsis : forall (s : R) p e dp de,
  carries p s dp -> carries e s de -> 1 + e s <> 0 ->
  carries (fun u => radius_periapsis (p u) (e u)) s (@radius_periapsis _ Num_D dp de).
Proof. exact ad_radius_periapsis. Qed.
Print Assumptions C56_radius_periapsis.

Theorem C56_radius_apoapsis : forall (s : R) p e dp de,
  carries p s dp -> carries e s de -> 1 - e s <> 0 ->
  carries (fun u => radius_apoapsis (p u) (e u)) s (@radius_apoapsis _ Num_D dp de).
Proof. exact ad_radius_apoapsis. Qed.
Print Assumptions C56_radius_apoapsis.

Theorem C56_semipara_from_ae : forall (s : R) a e da de,
  carries a s da -> carries e s de ->
  carries (fun u => semipara_from_ae (a u) (e u)) s (@semipara_from_ae _ Num_D da de).
Proof. exact ad_semipara_from_ae. Qed.
Print Assumptions C56_semipara_from_ae.

Theorem C56_a_from_pe : forall (s : R) p e dp de,
  carries p s dp -> carries e s de -> e s ^ 2 <> 1 ->
  carries (fun u => a_from_pe (p u) (e u)) s (@a_from_pe _ Num_D dp de).
Proof. exact ad_a_from_pe. Qed.
Print Assumptions C56_a_from_pe.

Theorem C56_angular_momentum : forall (s : R) r v dr dv,
  vcarries r s dr -> vcarries v s dv ->
  vcarries (fun u => angular_momentum (r u) (v u)) s (@angular_momentum _ Num_D dr dv).
Proof. exact ad_angular_momentum. Qed.
Print Assumptions C56_angular_momentum.

Theorem C56_eccentricity_vector : forall (s : R) r v mu dr dv dm,
  vcarries r s dr -> vcarries v s dv -> carries mu s dm -> r s <> vzero -> mu s <> 0 ->
  vcarries (fun u => eccentricity_vector (r u) (v u) (mu u)) s (@eccentricity_vector _ Num_D dr dv dm).
Proof. exact ad_eccentricity_vector. Qed.
Print Assumptions C56_eccentricity_vector.

Theorem C56_sigma_fn : forall (s : R) r v mu dr dv dm,
  vcarries r s dr -> vcarries v s dv -> carries mu s dm -> 0 < mu s ->
  carries (fun u => sigma_fn (r u) (v u) (mu u)) s (@sigma_fn _ Num_D dr dv dm).
Proof. exact ad_sigma_fn. Qed.
Print Assumptions C56_sigma_fn.

Theorem C56_ufunc0 : forall (s : R) (chi al : R -> R) (dc da : dual),
  carries chi s dc -> carries al s da -> al s <> 0 ->
  carries (fun u => ufunc0 (chi u) (al u)) s (@ufunc0 _ Num_D dc da).
Proof. exact ad_ufunc0. Qed.
Print Assumptions C56_ufunc0.

Theorem C56_ufunc1 : forall (s : R) (chi al : R -> R) (dc da : dual),
  carries chi s dc -> carries al s da -> al s <> 0 ->
  carries (fun u => ufunc1 (chi u) (al u)) s (@ufunc1 _ Num_D dc da).
Proof. exact ad_ufunc1. Qed.
Print Assumptions C56_ufunc1.

Theorem C56_ufunc2 : forall (s : R) (chi al : R -> R) (dc da : dual),
  carries chi s dc -> carries al s da -> al s <> 0 ->
  carries (fun u => ufunc2 (chi u) (al u)) s (@ufunc2 _ Num_D dc da).
Proof. exact ad_ufunc2. Qed.
Print Assumptions C56_ufunc2.

Theorem C56_ufunc3 : forall (s : R) (chi al : R -> R) (dc da : dual),
  carries chi s dc -> carries al s da -> al s <> 0 ->
  carries (fun u => ufunc3 (chi u) (al u)) s (@ufunc3 _ Num_D dc da).
Proof. exact ad_ufunc3. Qed.
Print Assumptions C56_ufunc3.

Theorem C56_ufunc4 : forall (s : R) (chi al : R -> R) (dc da : dual),
  carries chi s dc -> carries al s da -> al s <> 0 ->
  carries (fun u => ufunc4 (chi u) (al u)) s (@ufunc4 _ Num_D dc da).
Proof. exact ad_ufunc4. Qed.
Print Assumptions C56_ufunc4.

Theorem C56_ufunc5 : forall (s : R) (chi al : R -> R) (dc da : dual),
  carries chi s dc -> carries al s da -> al s <> 0 ->
  carries (fun u => ufunc5 (chi u) (al u)) s (@ufunc5 _ Num_D dc da).
Proof. exact ad_ufunc5. Qed.
Print Assumptions C56_ufunc5.

Theorem C56_lagrange_F : forall (s : R) u2 r0 d2 dr,
  carries u2 s d2 -> carries r0 s dr -> r0 s <> 0 ->
  carries (fun u => lagrange_F (u2 u) (r0 u)) s (@lagrange_F _ Num_D d2 dr).
Proof. exact ad_lagrange_F. Qed.
Print Assumptions C56_lagrange_F.

Theorem C56_lagrange_G : forall (s : R) u1 u2 s0 r0 mu d1 d2 ds dr dm,
  carries u1 s d1 -> carries u2 s d2 -> carries s0 s ds -> carries r0 s dr -> carries mu s dm -> 0 < mu s ->
  carries (fun u => lagrange_G (u1 u) (u2 u) (s0 u) (r0 u) (mu u)) s (@lagrange_G _ Num_D d1 d2 ds dr dm).
Proof. exact ad_lagrange_G. Qed.
Print Assumptions C56_lagrange_G.

Theorem C56_lagrange_Ft : forall (s : R) u1 r r0 mu d1 d dr dm,
  carries u1 s d1 -> carries r s d -> carries r0 s dr -> carries mu s dm -> r s <> 0 -> r0 s <> 0 -> 0 < mu s ->
  carries (fun u => lagrange_Ft (u1 u) (r u) (r0 u) (mu u)) s (@lagrange_Ft _ Num_D d1 d dr dm).
Proof. exact ad_lagrange_Ft. Qed.
Print Assumptions C56_lagrange_Ft.

Theorem C56_lagrange_Gt : forall (s : R) u2 r d2 d,
  carries u2 s d2 -> carries r s d -> r s <> 0 ->
  carries (fun u => lagrange_Gt (u2 u) (r u)) s (@lagrange_Gt _ Num_D d2 d).
Proof. exact ad_lagrange_Gt. Qed.
Print Assumptions C56_lagrange_Gt.

Theorem C56_kepler_equ_elps : forall (s : R) E e M dE_ de dM,
  carries E s dE_ -> carries e s de -> carries M s dM ->
  carries (fun u => kepler_equ_elps (E u) (e u) (M u)) s (@kepler_equ_elps _ Num_D dE_ de dM).
Proof. exact ad_kepler_equ_elps. Qed.
Print Assumptions C56_kepler_equ_elps.

Theorem C56_kepler_equ_hypb : forall (s : R) H e M dH_ de dM,
  carries H s dH_ -> carries e s de -> carries M s dM ->
  carries (fun u => kepler_equ_hypb (H u) (e u) (M u)) s (@kepler_equ_hypb _ Num_D dH_ de dM).
Proof. exact ad_kepler_equ_hypb. Qed.
Print Assumptions C56_kepler_equ_hypb.

Theorem C56_mean_anomaly_elps : forall (s : R) a t mu da dt dm,
  carries a s da -> carries t s dt -> carries mu s dm -> 0 < a s -> 0 < mu s ->
  carries (fun u => mean_anomaly_elps (a u) (t u) (mu u)) s (@mean_anomaly_elps _ Num_D da dt dm).
Proof. exact ad_mean_anomaly_elps. Qed.
Print Assumptions C56_mean_anomaly_elps.

Theorem C56_mean_anomaly_hypb : forall (s : R) a t mu da dt dm,
  carries a s da -> carries t s dt -> carries mu s dm -> a s < 0 -> 0 < mu s ->
  carries (fun u => mean_anomaly_hypb (a u) (t u) (mu u)) s (@mean_anomaly_hypb _ Num_D da dt dm).
Proof. exact ad_mean_anomaly_hypb. Qed.
Print Assumptions C56_mean_anomaly_hypb.

Theorem C56_generalized_anomaly : forall (s : R) al sg s0 t mu d1 d2 d3 d4 d5,
  carries al s d1 -> carries sg s d2 -> carries s0 s d3 -> carries t s d4 -> carries mu s d5 -> 0 < mu s ->
  carries (fun u => generalized_anomaly (al u) (sg u) (s0 u) (t u) (mu u)) s (@generalized_anomaly _ Num_D d1 d2 d3 d4 d5).
Proof. exact ad_generalized_anomaly. Qed.
Print Assumptions C56_generalized_anomaly.

Theorem C56_kepler_equ_uni : forall (s : R) chi al r0 s0 t mu d1 d2 d3 d4 d5 d6,
  carries chi s d1 -> carries al s d2 -> carries r0 s d3 -> carries s0 s d4 -> carries t s d5 -> carries mu s d6 ->
  al s <> 0 -> 0 < mu s ->
  carries (fun u => kepler_equ_uni (chi u) (al u) (r0 u) (s0 u) (t u) (mu u)) s (@kepler_equ_uni _ Num_D d1 d2 d3 d4 d5 d6).
Proof. exact ad_kepler_equ_uni. Qed.
Print Assumptions C56_kepler_equ_uni.

Theorem C56_dchi : forall (s : R) chi al r0 s0 d1 d2 d3 d4,
  carries chi s d1 -> carries al s d2 -> carries r0 s d3 -> carries s0 s d4 -> al s <> 0 ->
  carries (fun u => dchi (chi u) (al u) (r0 u) (s0 u)) s (@dchi _ Num_D d1 d2 d3 d4).
Proof. exact ad_dchi. Qed.
Print Assumptions C56_dchi.

Theorem C56_C_func : forall (s : R) chi u2 u4 u5 t mu d1 d2 d3 d4 d5 d6,
  carries chi s d1 -> carries u2 s d2 -> carries u4 s d3 -> carries u5 s d4 -> carries t s d5 -> carries mu s d6 -> 0 < mu s ->
  carries (fun u => C_func (chi u) (u2 u) (u4 u) (u5 u) (t u) (mu u)) s (@C_func _ Num_D d1 d2 d3 d4 d5 d6).
Proof. exact ad_C_func. Qed.
Print Assumptions C56_C_func.

Theorem C56_state_at_chi : forall (s : R) chi al s0 r0 (rv vv : R -> vec) mu d1 d2 d3 d4 dr dv d5,
  carries chi s d1 -> carries al s d2 -> carries s0 s d3 -> carries r0 s d4 -> vcarries rv s dr -> vcarries vv s dv -> carries mu s d5 ->
  al s <> 0 -> r0 s <> 0 -> 0 < mu s -> dchi (chi s) (al s) (r0 s) (s0 s) <> 0 ->
  vcarries (fun u => fst (state_at_chi (chi u) (al u) (s0 u) (r0 u) (rv u) (vv u) (mu u))) s (fst (@state_at_chi _ Num_D d1 d2 d3 d4 dr dv d5)) /\
  vcarries (fun u => snd (state_at_chi (chi u) (al u) (s0 u) (r0 u) (rv u) (vv u) (mu u))) s (snd (@state_at_chi _ Num_D d1 d2 d3 d4 dr dv d5)).
Proof. exact ad_state_at_chi. Qed.
Print Assumptions C56_state_at_chi.

Theorem C56_rotmat3dx : forall (s : R) a da,
  carries a s da -> mcarries (fun u => rotmat3dx (a u)) s (@rotmat3dx _ Num_D da).
Proof. exact ad_rotmat3dx. Qed.
Print Assumptions C56_rotmat3dx.

Theorem C56_rotmat3dy : forall (s : R) a da,
  carries a s da -> mcarries (fun u => rotmat3dy (a u)) s (@rotmat3dy _ Num_D da).
Proof. exact ad_rotmat3dy. Qed.
Print Assumptions C56_rotmat3dy.

Theorem C56_rotmat3dz : forall (s : R) a da,
  carries a s da -> mcarries (fun u => rotmat3dz (a u)) s (@rotmat3dz _ Num_D da).
Proof. exact ad_rotmat3dz. Qed.
Print Assumptions C56_rotmat3dz.

Theorem C56_coe2rv : forall (s : R) p e i O w f mu d1 d2 d3 d4 d5 d6 d7,
  carries p s d1 -> carries e s d2 -> carries i s d3 -> carries O s d4 -> carries w s d5 -> carries f s d6 -> carries mu s d7 ->
  0 < p s -> 0 < mu s -> 1 + e s * cos (f s) <> 0 ->
  vcarries (fun u => fst (coe2rv (p u) (e u) (i u) (O u) (w u) (f u) (mu u))) s (fst (@coe2rv _ Num_D d1 d2 d3 d4 d5 d6 d7)) /\
  vcarries (fun u => snd (coe2rv (p u) (e u) (i u) (O u) (w u) (f u) (mu u))) s (snd (@coe2rv _ Num_D d1 d2 d3 d4 d5 d6 d7)).
Proof. exact ad_coe2rv. Qed.
Print Assumptions C56_coe2rv.

Theorem C56_inclination : forall (s : R) h dh,
  vcarries h s dh -> (c0 (h s) <> 0 \/ c1 (h s) <> 0) ->
  carries (fun u => inclination (h u)) s (@inclination _ Num_D dh).
Proof. exact ad_inclination. Qed.
Print Assumptions C56_inclination.

Theorem C56_right_ascension : forall (s : R) n dn,
  vcarries n s dn -> c1 (n s) <> 0 \/ c0 (n s) < 0 ->
  carries (fun u => right_ascension (n u)) s (@right_ascension _ Num_D dn).
Proof. exact ad_right_ascension. Qed.
Print Assumptions C56_right_ascension.

Theorem C56_node_vec : forall (s : R) h dh,
  vcarries h s dh -> vcarries (fun u => node_vec (h u)) s (@node_vec _ Num_D dh).
Proof. exact ad_node_vec. Qed.
Print Assumptions C56_node_vec.

Theorem C56_true_anomaly : forall (s : R) r e dr de,
  vcarries r s dr -> vcarries e s de -> vcross (e s) (r s) <> vzero ->
  carries (fun u => true_anomaly (r u) (e u)) s (@true_anomaly _ Num_D dr de).
Proof. exact ad_true_anomaly. Qed.
Print Assumptions C56_true_anomaly.

Theorem C56_argument_of_periapsis : forall (s : R) n e dn de,
  vcarries n s dn -> vcarries e s de -> vcross (n s) (e s) <> vzero ->
  carries (fun u => argument_of_periapsis (n u) (e u)) s (@argument_of_periapsis _ Num_D dn de).
Proof. exact ad_argument_of_periapsis. Qed.
Print Assumptions C56_argument_of_periapsis.

Theorem C56_rv2coe : forall (s : R) (r v : R -> vec) mu dr dv dm,
  vcarries r s dr -> vcarries v s dv -> carries mu s dm ->
  let h := cross (r s) (v s) in let e := eccentricity_vector (r s) (v s) (mu s) in
  0 < mu s -> c0 h <> 0 \/ c1 h <> 0 -> c0 h <> 0 \/ 0 < c1 h -> cross (mk3 0 0 1) h <> vzero ->
  cross (cross (mk3 0 0 1) h) e <> vzero -> cross e (r s) <> vzero ->
  let k := fun u => rv2coe (r u) (v u) (mu u) in let d := @rv2coe _ Num_D dr dv dm in
  carries (fun u => coe_p (k u)) s (coe_p d) /\ carries (fun u => coe_e (k u)) s (coe_e d) /\
  carries (fun u => coe_incl (k u)) s (coe_incl d) /\ carries (fun u => coe_raan (k u)) s (coe_raan d) /\
  carries (fun u => coe_argp (k u)) s (coe_argp d) /\ carries (fun u => coe_f (k u)) s (coe_f d).
Proof. exact ad_rv2coe. Qed.
Print Assumptions C56_rv2coe.

Theorem C56_point_mass : forall (s : R) (x0 x1 x2 : R -> R) (d0 d1 d2 : dual) (rest : R -> list R) (drest : list dual)
    (t : R -> R) (dt : dual) (args : R -> dict) (dargs : dict) (mu : R -> R) (dm : dual),
  carries x0 s d0 -> carries x1 s d1 -> carries x2 s d2 -> mk3 (x0 s) (x1 s) (x2 s) <> vzero ->
  agrees s "mu" args dargs mu dm ->
  exists acc dacc, (forall u, point_mass_grav (t u) (x0 u :: x1 u :: x2 u :: rest u) (args u) = Ok (acc u)) /\
    @point_mass_grav _ Num_D dt (d0 :: d1 :: d2 :: drest) dargs = Ok dacc /\ vcarries acc s dacc.
Proof. intros. now apply ad_point_mass with (mu := mu) (dm := dm). Qed.
Print Assumptions C56_point_mass.

Theorem C56_j2 : forall (s : R) (x0 x1 x2 : R -> R) (d0 d1 d2 : dual) (rest : R -> list R) (drest : list dual)
    (t : R -> R) (dt : dual) (args : R -> dict) (dargs : dict) (mu J Q : R -> R) (dm dJ dQ : dual),
  carries x0 s d0 -> carries x1 s d1 -> carries x2 s d2 -> mk3 (x0 s) (x1 s) (x2 s) <> vzero ->
  agrees s "mu" args dargs mu dm ->
  agrees s "R_eq" args dargs Q dQ -> agrees s "J2" args dargs J dJ ->
  exists acc dacc, (forall u, j2_acc (t u) (x0 u :: x1 u :: x2 u :: rest u) (args u) = Ok (acc u)) /\
    @j2_acc _ Num_D dt (d0 :: d1 :: d2 :: drest) dargs = Ok dacc /\ vcarries acc s dacc.
Proof. intros. now apply ad_j2 with (mu := mu) (dm := dm) (J := J) (dJ := dJ) (Q := Q) (dQ := dQ). Qed.
Print Assumptions C56_j2.

Theorem C56_j3 : forall (s : R) (x0 x1 x2 : R -> R) (d0 d1 d2 : dual) (rest : R -> list R) (drest : list dual)
    (t : R -> R) (dt : dual) (args : R -> dict) (dargs : dict) (mu J Q : R -> R) (dm dJ dQ : dual),
  carries x0 s d0 -> carries x1 s d1 -> carries x2 s d2 -> mk3 (x0 s) (x1 s) (x2 s) <> vzero ->
  agrees s "mu" args dargs mu dm ->
  agrees s "R_eq" args dargs Q dQ -> agrees s "J3" args dargs J dJ ->
  exists acc dacc, (forall u, j3_acc (t u) (x0 u :: x1 u :: x2 u :: rest u) (args u) = Ok (acc u)) /\
    @j3_acc _ Num_D dt (d0 :: d1 :: d2 :: drest) dargs = Ok dacc /\ vcarries acc s dacc.
Proof. intros. now apply ad_j3 with (mu := mu) (dm := dm) (J := J) (dJ := dJ) (Q := Q) (dQ := dQ). Qed.
Print Assumptions C56_j3.

Theorem C56_j4 : forall (s : R) (x0 x1 x2 : R -> R) (d0 d1 d2 : dual) (rest : R -> list R) (drest : list dual)
    (t : R -> R) (dt : dual) (args : R -> dict) (dargs : dict) (mu J Q : R -> R) (dm dJ dQ : dual),
  carries x0 s d0 -> carries x1 s d1 -> carries x2 s d2 -> mk3 (x0 s) (x1 s) (x2 s) <> vzero ->
  agrees s "mu" args dargs mu dm ->
  agrees s "R_eq" args dargs Q dQ -> agrees s "J4" args dargs J dJ ->
  exists acc dacc, (forall u, j4_acc (t u) (x0 u :: x1 u :: x2 u :: rest u) (args u) = Ok (acc u)) /\
    @j4_acc _ Num_D dt (d0 :: d1 :: d2 :: drest) dargs = Ok dacc /\ vcarries acc s dacc.
Proof. intros. now apply ad_j4 with (mu := mu) (dm := dm) (J := J) (dJ := dJ) (Q := Q) (dQ := dQ). Qed.
Print Assumptions C56_j4.

(** The count of revolutions is a step function: its derivative is 0 beside the steps, which is what forward mode returns. *)
Theorem C56_nmax : forall (s : R) rp r1 r2 tof mu d1 d2 d3 d4 d5,
  carries rp s d1 -> carries r1 s d2 -> carries r2 s d3 -> carries tof s d4 -> carries mu s d5 ->
  0 < mu s -> 0 < Rmax (r1 s) (r2 s) + rp s ->
  (forall k : Z, tof s <> IZR k * (2 * PI * sqrt (((Rmax (r1 s) (r2 s) + rp s) / 2) ^ 3 / mu s))) ->
  carries (fun u => nmax_by_periapsis (rp u) (r1 u) (r2 u) (tof u) (mu u)) s (@nmax_by_periapsis _ Num_D d1 d2 d3 d4 d5).
Proof. exact ad_nmax. Qed.
Print Assumptions C56_nmax.
(** beside a step and at a step, where no derivative exists *)
Example C56_nmax_case : let n tof := nmax_by_periapsis 1 1 1 tof 1 in
  tang (@nmax_by_periapsis _ Num_D (konst 1) (konst 1) (konst 1) (mkD (2 * PI) 1) (konst 1)) = 0 /\ ~ ex_derive n (2 * PI) /\
  carries n 7 (@nmax_by_periapsis _ Num_D (konst 1) (konst 1) (konst 1) (mkD 7 1) (konst 1)) /\ n 7 = 1.
Proof. exact nmax_jump. Qed.

(** Zero energy: the branch taken at [alpha = 0] does not depend on [alpha], so the derivative is lost. *)
Theorem C56_zero_energy_refuted : forall chi : R, chi <> 0 ->
  ~ carries (fun a => ufunc0 chi a) 0 (@ufunc0 _ Num_D (konst chi) (mkD 0 1)) /\
  ~ carries (fun a => ufunc1 chi a) 0 (@ufunc1 _ Num_D (konst chi) (mkD 0 1)) /\
  ~ carries (fun a => ufunc2 chi a) 0 (@ufunc2 _ Num_D (konst chi) (mkD 0 1)) /\
  ~ carries (fun a => ufunc3 chi a) 0 (@ufunc3 _ Num_D (konst chi) (mkD 0 1)).
Proof. exact zero_energy. Qed.
Print Assumptions C56_zero_energy_refuted.

(** dP/da at a = mu = 1 (docs/basics.rst:180); the pull of a unit mass along a ray. *)
Example C56_period : carries (fun a => orb_period a 1) 1 (mkD (2 * PI) (3 * PI)).
Proof. exact period_example. Qed.
Example C56_pull : carries (fun x => match point_mass_grav 0 [x; 0; 0] [("mu"%string, 1)] with Ok a => c0 a | _ => 0 end) 1 (mkD (-1) 2).
Proof. exact pull_example. Qed.
