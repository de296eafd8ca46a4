(** * Property C44: the Cowell wrappers

    Theorems only; proofs are in [CowellFacts].  [run integ p] executes a wrapper with an arbitrary
    integrator and records the calls it makes; [one_call p c]: exactly the call [c] is made and its
    result, or its exception, is returned. *)
From Coq Require Import Reals ZArith List String.
From Coquelicot Require Import Coquelicot.
From Verif Require Import Num NumR Spec SpecGrav OrbIntegrals Uniformulas KepEqu StateTrans PropKepler Gravity Cowell SpecInteg
  CowellFacts.
Import ListNotations.
Local Open Scope R_scope.

(** Any arithmetic, any options. *)
Theorem C44_forward : forall (T : Type) (N : Num T) (d : @orbdynx T) (x0 : list T) (t1 dt : T) (ts : list T)
    (sa : saveat) (dt0 : option (option T)) (ms : option (option Z)) (sv : option solver) (sc : option controller),
  (exists c, one_call (cowell_method d x0 t1 sa dt0 ms sv sc) c /\ same_problem d x0 t1 c /\
     k_saveat c = sa /\ k_dt0 c = given dt0 None /\ k_max_steps c = given ms (Some 4096%Z) /\
     k_solver c = given sv Tsit5 /\ k_controller c = given sc (PIDController (n_dec 1 100000000) (n_dec 1 100000000))) /\
  (exists c, one_call (fixed_steps d x0 t1 dt ms sv) c /\ same_problem d x0 t1 c /\
     k_dt0 c = Some dt /\ k_controller c = ConstantStepSize /\ k_max_steps c = given ms (Some 4096%Z) /\
     k_solver c = given sv Tsit5 /\ k_saveat c = mkSave true false None true false) /\
  (exists c, one_call (adaptive_steps d x0 t1 ms sv sc) c /\ same_problem d x0 t1 c /\
     k_controller c = given sc (PIDController (n_dec 1 100000000) (n_dec 1 100000000)) /\
     k_max_steps c = given ms (Some 4096%Z) /\ k_solver c = given sv Tsit5 /\ k_saveat c = mkSave true false None true false) /\
  (exists c, one_call (custom_steps d x0 t1 ts sv sc) c /\ same_problem d x0 t1 c /\
     k_saveat c = mkSave false false (Some ts) false false /\ k_max_steps c = None /\ k_solver c = given sv Tsit5 /\
     k_controller c = given sc (PIDController (n_dec 1 100000000) (n_dec 1 100000000))) /\
  (exists c, one_call (to_final d x0 t1 sv sc) c /\ same_problem d x0 t1 c /\
     k_saveat c = mkSave false true None false false /\ k_max_steps c = Some 4096%Z /\ k_solver c = given sv Tsit5 /\
     k_controller c = given sc (PIDController (n_dec 1 100000000) (n_dec 1 100000000))).
Proof. exact @all_forward. Qed.
Print Assumptions C44_forward.

Theorem C44_special_cases : forall (T : Type) (N : Num T) (d : @orbdynx T) (x0 : list T) (t1 dt : T) (ts : list T)
    (ms : option (option Z)) (sv : option solver) (sc : option controller),
  fixed_steps d x0 t1 dt ms sv
    = cowell_method d x0 t1 (mkSave true false None true false) (Some (Some dt)) ms sv (Some ConstantStepSize) /\
  adaptive_steps d x0 t1 ms sv sc
    = cowell_method d x0 t1 (mkSave true false None true false) None ms sv sc /\
  custom_steps d x0 t1 ts sv sc
    = cowell_method d x0 t1 (mkSave false false (Some ts) false false) None (Some None) sv sc /\
  to_final d x0 t1 sv sc
    = cowell_method d x0 t1 (mkSave false true None false false) None None sv sc.
Proof. exact @specialise. Qed.
Print Assumptions C44_special_cases.

(** The calls that diffrax accepts (SpecInteg.acceptable): the wrappers that save every step need a
    bound on the number of steps, and only [fixed_steps] suits a constant step size. *)
Theorem C44_acceptable : forall (d : @orbdynx R) (x0 : list R) (t1 dt : R) (ts : list R) (ms : option (option Z))
    (sv : option solver) (sc : option controller) (c : @call R),
  (one_call (fixed_steps d x0 t1 dt ms sv) c -> (acceptable c <-> ms <> Some None /\ 0 <= t1 * dt)) /\
  (one_call (adaptive_steps d x0 t1 ms sv sc) c ->
     (acceptable c <-> ms <> Some None /\ ~ (exists k, sc = Some k /\ constant_step k))) /\
  (one_call (custom_steps d x0 t1 ts sv sc) c ->
     (acceptable c <-> ~ (exists k, sc = Some k /\ constant_step k))) /\
  (one_call (to_final d x0 t1 sv sc) c ->
     (acceptable c <-> ~ (exists k, sc = Some k /\ constant_step k))).
Proof. exact accept_lemma. Qed.
Print Assumptions C44_acceptable.

(** The docstring (_cowell_method.py:272) promises an initial step of 1% of [t1]; none is ever
    passed. *)
Theorem C44_initial_step_refuted : forall (T : Type) (N : Num T) (d : @orbdynx T) (x0 : list T) (t1 : T)
    (ms : option (option Z)) (sv : option solver) (sc : option controller) (c : @call T),
  one_call (adaptive_steps d x0 t1 ms sv sc) c -> k_dt0 c = None.
Proof. exact @step_docstring. Qed.
Print Assumptions C44_initial_step_refuted.

(** ** What the wrappers return with a correct integrator *)
Theorem C44_to_final : forall (mu : R) (r v : R -> vec), two_body_motion mu r v ->
  forall (d : @orbdynx R) (x0 : list R) (t1 eps : R) (integ : @call R -> option (@solution R)) (s : @solution R) (l : list (@call R)),
  0 < mu -> cross (r 0) (v 0) <> vzero -> kepler_problem mu r v d x0 ->
  follows eps integ (fun t => six (r t, v t)) ->
  forall (sv : option solver) (sc : option controller), run integ (to_final d x0 t1 sv sc) = (Some s, l) ->
  sol_ts s = [t1] /\ exists x, sol_ys s = [x] /\ near eps x (six (r t1, v t1)).
Proof. exact final_row. Qed.
Print Assumptions C44_to_final.

Theorem C44_custom_steps : forall (mu : R) (r v : R -> vec), two_body_motion mu r v ->
  forall (d : @orbdynx R) (x0 : list R) (t1 eps : R) (integ : @call R -> option (@solution R)) (s : @solution R) (l : list (@call R)),
  0 < mu -> cross (r 0) (v 0) <> vzero -> kepler_problem mu r v d x0 ->
  follows eps integ (fun t => six (r t, v t)) ->
  forall (ts : list R) (sv : option solver) (sc : option controller), run integ (custom_steps d x0 t1 ts sv sc) = (Some s, l) ->
  sol_ts s = ts /\ Forall2 (fun t x => near eps x (six (r t, v t))) ts (sol_ys s).
Proof. exact custom_rows. Qed.
Print Assumptions C44_custom_steps.

Theorem C44_step_rows : forall (mu : R) (r v : R -> vec), two_body_motion mu r v ->
  forall (d : @orbdynx R) (x0 : list R) (t1 eps : R) (integ : @call R -> option (@solution R)) (s : @solution R) (l : list (@call R)),
  0 < mu -> cross (r 0) (v 0) <> vzero -> kepler_problem mu r v d x0 ->
  follows eps integ (fun t => six (r t, v t)) ->
  forall (dt : R) (ms : option (option Z)) (sv : option solver) (sc : option controller),
  run integ (fixed_steps d x0 t1 dt ms sv) = (Some s, l) \/ run integ (adaptive_steps d x0 t1 ms sv sc) = (Some s, l) ->
  hd_error (sol_ts s) = Some 0 /\ last (sol_ts s) 0 = t1 /\
  Forall2 (fun t x => near eps x (six (r t, v t))) (sol_ts s) (sol_ys s).
Proof. exact step_rows. Qed.
Print Assumptions C44_step_rows.

(** [to_final] and [kepler] agree up to the two tolerances. *)
Theorem C44_agrees_with_kepler : forall (mu : R) (r0 v0 : vec) (t eps tol : R) (r v : R -> vec) (d : @orbdynx R) (x0 : list R)
    (integ : @call R -> option (@solution R)) (s : @solution R) (l : list (@call R)) (sv : option solver) (sc : option controller),
  0 < mu -> cross r0 v0 <> vzero ->
  two_body_motion mu r v -> r 0 = r0 -> v 0 = v0 -> kepler_problem mu r v d x0 ->
  follows eps integ (fun t => six (r t, v t)) ->
  run integ (to_final d x0 t sv sc) = (Some s, l) ->
  let alpha := alpha_of (vnorm r0) (vnorm v0) mu in
  let chi := solve_kepler_uni t alpha (vnorm r0) (sigma_fn r0 v0 mu) mu default_tol uni_max_iter in
  let p := semiparameter (vnorm (angular_momentum r0 v0)) mu in
  let e := vnorm (eccentricity_vector r0 v0 mu) in
  Rabs (kepler_equ_uni chi alpha (vnorm r0) (sigma_fn r0 v0 mu) t mu) <= tol ->
  exists x rk vk, sol_ys s = [x] /\ kepler [t] r0 v0 mu = [(rk, vk)] /\
    let b := eps + sqrt (mu / p) * (1 + e) * (tol / sqrt mu) in
    Rabs (nth 0 x 0 - c0 rk) <= b /\ Rabs (nth 1 x 0 - c1 rk) <= b /\ Rabs (nth 2 x 0 - c2 rk) <= b.
Proof. exact final_agrees. Qed.
Print Assumptions C44_agrees_with_kepler.

(** The documented J2 field: exact solutions conserve total energy and the axial angular momentum. *)
Theorem C44_j2_field_conserves : forall (c : @call R) (mu J Req : R) (r v : R -> vec),
  k_terms c = j2_field -> get "mu" (k_args c) = Some mu -> get "J2" (k_args c) = Some J -> get "R_eq" (k_args c) = Some Req ->
  solves c (fun t => six (r t, v t)) -> (forall s, between (k_t0 c) (k_t1 c) s -> r s <> vzero) ->
  forall s s', between (k_t0 c) (k_t1 c) s -> between (k_t0 c) (k_t1 c) s' ->
  dot (v s) (v s) / 2 - (kepler_potential mu (r s) + zonal 2 mu J Req (r s))
   = dot (v s') (v s') / 2 - (kepler_potential mu (r s') + zonal 2 mu J Req (r s')) /\
  c2 (cross (r s) (v s)) = c2 (cross (r s') (v s')).
Proof. exact j2_conserved. Qed.
Print Assumptions C44_j2_field_conserves.

(** [OrbDynx] without [args] means mu = 1, without [event] no event; what is given is kept. *)
Theorem C44_defaults : forall (t : R) (r v : vec) (f : @field R) (a : @dict R) (e : option (@event_fn R)),
  od_event (OrbDynx f None None) = None /\
  point_mass_field t (six (r, v)) (od_args (OrbDynx f None (Some e))) = Ok (six (v, gravity 1 r)) /\
  OrbDynx f (Some a) (Some e) = mkOrb f a e.
Proof. exact orb_defaults. Qed.
Print Assumptions C44_defaults.

(** [OrbDynx] without [args] does not suit the J2 field. *)
Theorem C44_default_args : forall (t : R) (r v : vec) (ev : option (option (@event_fn R))) (d : @dict R),
  od_args (OrbDynx j2_field None ev) = d -> j2_field t (six (r, v)) d = Raise (KeyError "J2").
Proof. exact j2_default_args. Qed.
Print Assumptions C44_default_args.

(** An integrator that meets the specification, and what [to_final] returns with it. *)
Example C44_example_integrator : follows 0 circle_integ (fun t => [cos t; sin t; 0; - sin t; cos t; 0]).
Proof. exact circle_follows. Qed.
Example C44_example : forall t : R,
  run circle_integ (to_final (OrbDynx point_mass_field None None) (six (mk3 1 0 0, mk3 0 1 0)) t None None)
  = (Some (mkSol [t] [[cos t; sin t; 0; - sin t; cos t; 0]]),
     [mkCall point_mass_field Tsit5 0 t None [1; 0; 0; 0; 1; 0] [("mu"%string, 1 / 1)] (Some 4096%Z)
        (PIDController (1 / 100000000) (1 / 100000000)) (mkSave false true None false false) None]).
Proof. exact ex_cowell. Qed.
