(** * Properties C48, C53-C55: shapes and broadcasting

    Theorems only; proofs are in [NdElem], [NdVec], [NdRv], [NdCoe], [NdKep], [NdStm], [NdExamples].
    They hold for every arithmetic.  Axes are listed from the innermost outwards (see [Nd]). *)
From Coq Require Import List Arith Lia ZArith Bool Reals Lra.
Import ListNotations.
From Verif Require Import Num NumR Nd NdModel SpecNd NdLib NdElem NdVec NdRv NdCoe NdKep NdStm NdExamples
  OrbIntegrals Uniformulas Lagrange KepEqu RotMat OrbElements StateTrans PathCheck PropKepler.
Local Open Scope nat_scope.

(** ** C53: formulas between numbers broadcast: they raise exactly if the shapes are incompatible, the
    result has the common shape and each element is the formula applied to the elements read there *)
Theorem C53_orbit_formulas : forall (T : Type) (N : Num T) (a b c d e : arr T),
  elementwise [a; b] (@orb_period _ Num_nd (Some a) (Some b)) (fun x => orb_period (x a) (x b)) /\
  elementwise [a; b] (@a_from_period _ Num_nd (Some a) (Some b)) (fun x => a_from_period (x a) (x b)) /\
  elementwise [a; b; c] (@semimajor_axis _ Num_nd (Some a) (Some b) (Some c)) (fun x => semimajor_axis (x a) (x b) (x c)) /\
  elementwise [a; b] (@semiparameter _ Num_nd (Some a) (Some b)) (fun x => semiparameter (x a) (x b)) /\
  elementwise [a] (@mean_motion _ Num_nd (Some a)) (fun x => mean_motion (x a)) /\
  elementwise [a; b; c] (@equ_of_orbit _ Num_nd (Some a) (Some b) (Some c)) (fun x => equ_of_orbit (x a) (x b) (x c)) /\
  elementwise [a; b; c; d; e] (@equ_of_orb_uvi _ Num_nd (Some a) (Some b) (Some c) (Some d) (Some e)) (fun x => equ_of_orb_uvi (x a) (x b) (x c) (x d) (x e)) /\
  elementwise [a; b] (@radius_periapsis _ Num_nd (Some a) (Some b)) (fun x => radius_periapsis (x a) (x b)) /\
  elementwise [a; b] (@radius_apoapsis _ Num_nd (Some a) (Some b)) (fun x => radius_apoapsis (x a) (x b)) /\
  elementwise [a; b] (@semipara_from_ae _ Num_nd (Some a) (Some b)) (fun x => semipara_from_ae (x a) (x b)) /\
  elementwise [a; b] (@a_from_pe _ Num_nd (Some a) (Some b)) (fun x => a_from_pe (x a) (x b)) /\
  elementwise [a; b; c; d; e] (@nmax_by_periapsis _ Num_nd (Some a) (Some b) (Some c) (Some d) (Some e)) (fun x => nmax_by_periapsis (x a) (x b) (x c) (x d) (x e)).
Proof.
  intros T N a b c d e. exact (conj (e_orb_period a b) (conj (e_a_from_period a b) (conj (e_semimajor_axis a b c) (conj (e_semiparameter a b)
    (conj (e_mean_motion a) (conj (e_equ_of_orbit a b c) (conj (e_equ_of_orb_uvi a b c d e) (conj (e_radius_periapsis a b) (conj (e_radius_apoapsis a b)
    (conj (e_semipara_from_ae a b) (conj (e_a_from_pe a b) (e_nmax a b c d e)))))))))))).
Qed.
Print Assumptions C53_orbit_formulas.

Theorem C53_kepler_formulas : forall (T : Type) (N : Num T) (a b c d e g : arr T),
  elementwise [a; b; c] (@kepler_equ_elps _ Num_nd (Some a) (Some b) (Some c)) (fun x => kepler_equ_elps (x a) (x b) (x c)) /\
  elementwise [a; b] (@dE _ Num_nd (Some a) (Some b)) (fun x => dE (x a) (x b)) /\
  elementwise [a; b; c] (@kepler_equ_hypb _ Num_nd (Some a) (Some b) (Some c)) (fun x => kepler_equ_hypb (x a) (x b) (x c)) /\
  elementwise [a; b] (@dH _ Num_nd (Some a) (Some b)) (fun x => dH (x a) (x b)) /\
  elementwise [a; b; c] (@mean_anomaly_elps _ Num_nd (Some a) (Some b) (Some c)) (fun x => mean_anomaly_elps (x a) (x b) (x c)) /\
  elementwise [a; b; c] (@mean_anomaly_hypb _ Num_nd (Some a) (Some b) (Some c)) (fun x => mean_anomaly_hypb (x a) (x b) (x c)) /\
  elementwise [a; b; c; d; e] (@generalized_anomaly _ Num_nd (Some a) (Some b) (Some c) (Some d) (Some e)) (fun x => generalized_anomaly (x a) (x b) (x c) (x d) (x e)) /\
  elementwise [a; b] (@lagrange_F _ Num_nd (Some a) (Some b)) (fun x => lagrange_F (x a) (x b)) /\
  elementwise [a; b; c; d; e] (@lagrange_G _ Num_nd (Some a) (Some b) (Some c) (Some d) (Some e)) (fun x => lagrange_G (x a) (x b) (x c) (x d) (x e)) /\
  elementwise [a; b; c; d] (@lagrange_Ft _ Num_nd (Some a) (Some b) (Some c) (Some d)) (fun x => lagrange_Ft (x a) (x b) (x c) (x d)) /\
  elementwise [a; b] (@lagrange_Gt _ Num_nd (Some a) (Some b)) (fun x => lagrange_Gt (x a) (x b)) /\
  elementwise [a; b; c; d; e; g] (@C_func _ Num_nd (Some a) (Some b) (Some c) (Some d) (Some e) (Some g)) (fun x => C_func (x a) (x b) (x c) (x d) (x e) (x g)).
Proof.
  intros T N a b c d e g. exact (conj (e_kepler_equ_elps a b c) (conj (e_dE a b) (conj (e_kepler_equ_hypb a b c) (conj (e_dH a b)
    (conj (e_mean_anomaly_elps a b c) (conj (e_mean_anomaly_hypb a b c) (conj (e_generalized_anomaly a b c d e) (conj (e_lagrange_F a b) (conj (e_lagrange_G a b c d e)
    (conj (e_lagrange_Ft a b c d) (conj (e_lagrange_Gt a b) (e_C_func a b c d e g)))))))))))).
Qed.
Print Assumptions C53_kepler_formulas.

(** The universal functions and the equations built from them: any shape of the other arguments, but
    [alpha] must be a scalar. *)
Theorem C53_universal_functions : forall (T : Type) (N : Num T) (chi al : arr T),
  (dims al = [] -> forall (U : nd T -> nd T -> nd T) (u : T -> T -> T),
     In (U, u) [(ufunc0_nd, ufunc0); (ufunc1_nd, ufunc1); (ufunc2_nd, ufunc2); (ufunc3_nd, ufunc3); (ufunc4_nd, ufunc4); (ufunc5_nd, ufunc5)] ->
     elementwise [chi] (U (Some chi) (Some al)) (fun x => u (x chi) (at_ al []))) /\
  (dims al <> [] -> forall U : nd T -> nd T -> nd T,
     In U [ufunc0_nd; ufunc1_nd; ufunc2_nd; ufunc3_nd; ufunc4_nd; ufunc5_nd] -> U (Some chi) (Some al) = None).
Proof. exact @ufuncs_elementwise. Qed.
Print Assumptions C53_universal_functions.

Theorem C53_universal_kepler : forall (T : Type) (N : Num T) (chi al r0 s0 dt mu : arr T),
  (dims al = [] ->
     elementwise [chi; r0; s0; dt; mu] (kepler_equ_uni_nd (Some chi) (Some al) (Some r0) (Some s0) (Some dt) (Some mu))
       (fun x => kepler_equ_uni (x chi) (at_ al []) (x r0) (x s0) (x dt) (x mu)) /\
     elementwise [chi; r0; s0] (dchi_nd (Some chi) (Some al) (Some r0) (Some s0))
       (fun x => dchi (x chi) (at_ al []) (x r0) (x s0))) /\
  (dims al <> [] -> kepler_equ_uni_nd (Some chi) (Some al) (Some r0) (Some s0) (Some dt) (Some mu) = None /\
     dchi_nd (Some chi) (Some al) (Some r0) (Some s0) = None).
Proof.
  intros T N chi al r0 s0 dt mu. exact (conj (fun H => conj (kepler_equ_uni_scalar chi al r0 s0 dt mu H) (dchi_scalar chi al r0 s0 H))
    (uni_vector_alpha chi al r0 s0 dt mu)).
Qed.
Print Assumptions C53_universal_kepler.

(** A row of two semiparameters against a column of three eccentricities. *)
Example C53_example :
  let p := list1 0%R [2%R; 6%R] in
  let e := list2 0%R 1 [[0%R]; [1%R]; [2%R]] in
  exists o, @radius_periapsis _ Num_nd (Some p) (Some e) = Some o /\ dims o = [2; 3] /\
    at_ o [0; 0] = 2%R /\ at_ o [1; 0] = 6%R /\ at_ o [1; 1] = 3%R /\ at_ o [0; 2] = (2 / 3)%R.
Proof. exact broadcast_example. Qed.
(** Shapes (2,) and (3,) are refused. *)
Example C53_example_refused :
  @radius_periapsis _ Num_nd (Some (list1 0%R [2%R; 6%R])) (Some (list1 0%R [0%R; 1%R; 2%R])) = None.
Proof. reflexivity. Qed.

(** ** C54: functions of vectors act on each row of a batch *)
Theorem C54_vector_functions : forall (T : Type) (N : Num T) (pos vel mu : arr T) (s t m : list nat),
  vectors pos s -> vectors vel t -> column mu m ->
  (compatible [s; t] -> exists (o : arr T) (u : list nat), angular_momentum_nd (Some pos) (Some vel) = Some o /\
     vectors o u /\ common [s; t] u /\ forall i, inb u i -> row o i = angular_momentum (row pos i) (row vel i)) /\
  (compatible [s; t; m] -> exists (o : arr T) (u : list nat), eccentricity_vector_nd (Some pos) (Some vel) (Some mu) = Some o /\
     vectors o u /\ common [s; t; m] u /\ forall i, inb u i -> row o i = eccentricity_vector (row pos i) (row vel i) (cell mu i)) /\
  (compatible [s; t; m] -> exists (o : arr T) (u : list nat), sigma_fn_nd (Some pos) (Some vel) (Some mu) = Some o /\
     dims o = 1 :: u /\ common [s; t; m] u /\ forall i, inb u i -> cell o i = sigma_fn (row pos i) (row vel i) (cell mu i)).
Proof. exact @vector_functions. Qed.
Print Assumptions C54_vector_functions.

Theorem C54_rotation_matrices : forall (T : Type) (N : Num T) (a : arr T), exists x y z : arr T,
  rotmat3dx_nd (Some a) = Some x /\ rotmat3dy_nd (Some a) = Some y /\ rotmat3dz_nd (Some a) = Some z /\
  matrices x (dims a) /\ matrices y (dims a) /\ matrices z (dims a) /\
  forall i, inb (dims a) i ->
    matrix x i = rotmat3dx (at_ a i) /\ matrix y i = rotmat3dy (at_ a i) /\ matrix z i = rotmat3dz (at_ a i).
Proof. exact @rot_rows. Qed.
Print Assumptions C54_rotation_matrices.

(** [rv2coe]: which shapes it takes, the shapes it returns, and each element. *)
Theorem C54_rv2coe : forall (T : Type) (N : Num T) (pos vel mu : arr T),
  (forall (s t m S : list nat), vectors pos s -> vectors vel t -> column mu m -> common [s; t; m] S ->
     exists (U : list nat) (c : coe_nd), common [s; t] U /\ rv2coe_nd (Some pos) (Some vel) (Some mu) = Some c /\
       dims (nd_p c) = S /\ dims (nd_e c) = S /\ dims (nd_incl c) = U /\ dims (nd_raan c) = U /\ dims (nd_argp c) = S /\ dims (nd_f c) = S /\
       forall i, inb S i ->
         mkcoe (at_ (nd_p c) i) (at_ (nd_e c) i) (read (nd_incl c) i) (read (nd_raan c) i) (at_ (nd_argp c) i) (at_ (nd_f c) i)
         = rv2coe (row pos i) (row vel i) (cell mu i)) /\
  (forall c, rv2coe_nd (Some pos) (Some vel) (Some mu) = Some c ->
     exists s t m, vectors pos s /\ vectors vel t /\ column mu m /\ compatible [s; t; m]).
Proof. intros T N pos vel mu. exact (conj (fun s t m S Hp Hv Hm => rv2coe_rows pos vel mu s t m Hp Hv Hm S) (rv2coe_only pos vel mu)). Qed.
Print Assumptions C54_rv2coe.

(** "mu: shape broadcast-compatible with pos_vec and vel_vec" (docstrings of [rv2coe] and
    [eccentricity_vector]) is not enough: shape (3,) is refused by the one, and the other divides
    every component by another mu. *)
Theorem C54_mu_shape_refuted : forall (T : Type) (N : Num T) (n : nat) (pos vel mu : arr T),
  dims mu = [3] ->
  (dims pos = [3; n] -> dims vel = [3; n] ->
     fits (dims mu) (dims pos) /\ rv2coe_nd (Some pos) (Some vel) (Some mu) = None) /\
  (dims pos = [3] -> dims vel = [3] ->
     exists o, eccentricity_vector_nd (Some pos) (Some vel) (Some mu) = Some o /\ dims o = [3] /\
       forall k, k < 3 -> at_ o [k] = sel3 k
         (c0 (eccentricity_vector (row pos []) (row vel []) (at_ mu [k])))
         (c1 (eccentricity_vector (row pos []) (row vel []) (at_ mu [k])))
         (c2 (eccentricity_vector (row pos []) (row vel []) (at_ mu [k])))).
Proof.
  intros T N n pos vel mu Hm. exact (conj (fun Hp Hv => rv2coe_flat_mu n pos vel mu Hp Hv Hm) (fun Hp Hv => ecc_flat_mu pos vel mu Hp Hv Hm)).
Qed.
Print Assumptions C54_mu_shape_refuted.

(** [sigma_fn] with one mu per vector, as a list: the table of all combinations. *)
Theorem C54_sigma_table : forall (T : Type) (N : Num T) (n : nat) (pos vel mu : arr T),
  1 < n -> dims pos = [3; n] -> dims vel = [3; n] -> dims mu = [n] ->
  exists o, sigma_fn_nd (Some pos) (Some vel) (Some mu) = Some o /\ dims o = [n; n] /\
    forall j k, j < n -> k < n -> at_ o [j; k] = sigma_fn (row pos [k]) (row vel [k]) (at_ mu [j]).
Proof. exact @sigma_flat_mu. Qed.
Print Assumptions C54_sigma_table.

(** Two states against one mu, and one velocity for both. *)
Example C54_example :
  let pos := list2 0%R 3 [[1%R; 0%R; 0%R]; [2%R; 0%R; 0%R]] in
  let vel := list1 0%R [0%R; 1%R; 0%R] in
  exists c, rv2coe_nd (Some pos) (Some vel) (Some (num 1%R)) = Some c /\ dims (nd_p c) = [2] /\ dims (nd_raan c) = [2] /\
    at_ (nd_p c) [0] = 1%R /\ at_ (nd_p c) [1] = 4%R /\ at_ (nd_e c) [0] = 0%R /\ at_ (nd_e c) [1] = 1%R.
Proof. exact rv2coe_example. Qed.

(** ** C48: [coe2rv] *)
Theorem C48_coe2rv_shapes : forall (T : Type) (N : Num T) (p e incl raan argp f mu : arr T),
  (compatible (map dims [p; e; incl; raan; argp; f; mu]) -> fits (dims e) (dims f) ->
     exists (r v : arr T) (U S : list nat),
       coe2rv_nd (Some p) (Some e) (Some incl) (Some raan) (Some argp) (Some f) (Some mu) = Some (r, v) /\
       vectors r U /\ common (map dims [p; e; incl; raan; argp; f]) U /\
       vectors v S /\ common (map dims [p; e; incl; raan; argp; f; mu]) S /\
       forall i, inb S i -> (row r i, row v i) =
         coe2rv (read p i) (read e i) (read incl i) (read raan i) (read argp i) (read f i) (read mu i)) /\
  (forall o, coe2rv_nd (Some p) (Some e) (Some incl) (Some raan) (Some argp) (Some f) (Some mu) = Some o ->
     compatible (map dims [p; e; incl; raan; argp; f; mu]) /\ fits (dims e) (dims f)).
Proof. intros T N p e incl raan argp f mu. exact (conj (coe2rv_rows p e incl raan argp f mu) (coe2rv_only p e incl raan argp f mu)). Qed.
Print Assumptions C48_coe2rv_shapes.

(** Compatible shapes that are refused: two eccentricities, everything else a number. *)
Theorem C48_broadcast_refuted : forall (T : Type) (N : Num T) (p e incl raan argp f mu : arr T),
  dims e = [2] -> dims p = [] -> dims incl = [] -> dims raan = [] -> dims argp = [] -> dims f = [] -> dims mu = [] ->
  compatible (map dims [p; e; incl; raan; argp; f; mu]) /\
  coe2rv_nd (Some p) (Some e) (Some incl) (Some raan) (Some argp) (Some f) (Some mu) = None.
Proof. exact @coe2rv_ecc_batch. Qed.
Print Assumptions C48_broadcast_refuted.

(** The mu that [rv2coe] wants for a batch, a column, makes [coe2rv] return all combinations of
    elements and mu as velocities. *)
Theorem C48_mu_column : forall (T : Type) (N : Num T) (n : nat) (p e incl raan argp f mu : arr T), 1 < n ->
  dims p = [n] -> dims e = [n] -> dims incl = [n] -> dims raan = [n] -> dims argp = [n] -> dims f = [n] -> dims mu = [1; n] ->
  exists r v, coe2rv_nd (Some p) (Some e) (Some incl) (Some raan) (Some argp) (Some f) (Some mu) = Some (r, v) /\
    vectors r [n] /\ vectors v [n; n].
Proof. exact @coe2rv_mu_column. Qed.
Print Assumptions C48_mu_column.

(** Two anomalies on one circular orbit. *)
Example C48_example : exists r v,
  coe2rv_nd (Some (num 4%R)) (Some (num 0%R)) (Some (num 0%R)) (Some (num 0%R)) (Some (num 0%R))
    (Some (list1 0%R [0%R; PI])) (Some (num 1%R)) = Some (r, v) /\ dims r = [3; 2] /\ dims v = [3; 2] /\
  row r [0] = mk3 4%R 0%R 0%R /\ row r [1] = mk3 (-4)%R 0%R 0%R /\ c1 (row v [0]) = (1 / 2)%R /\ c1 (row v [1]) = (- (1 / 2))%R.
Proof. exact coe2rv_example. Qed.

(** ** C55: [kepler], [dxdx0] and the Newton loops *)
(** One state, a time or a list of times: one row per time, as the model of the other properties says. *)
Theorem C55_kepler : forall (T : Type) (N : Num T) (ts r0 v0 mu : arr T),
  vectors r0 [] -> vectors v0 [] ->
  (dims mu = [] -> (dims ts = [] \/ exists n, dims ts = [n]) ->
     exists rr vv, kepler_nd (Some ts) (Some r0) (Some v0) (Some mu) = Some (rr, vv) /\
       let times := match dims ts with [n] => map (fun k => at_ ts [k]) (seq 0 n) | _ => [at_ ts []] end in
       vectors rr [length times] /\ vectors vv [length times] /\
       forall k, k < length times ->
         nth_error (kepler times (row r0 []) (row v0 []) (at_ mu [])) k = Some (row rr [k], row vv [k])) /\
  (forall o, kepler_nd (Some ts) (Some r0) (Some v0) (Some mu) = Some o ->
     dims mu = [] /\ (dims ts = [] \/ exists n, dims ts = [n])).
Proof. intros T N ts r0 v0 mu Hr Hv. exact (conj (kepler_rows ts r0 v0 mu Hr Hv) (kepler_rejects ts r0 v0 mu)). Qed.
Print Assumptions C55_kepler.

(** Several initial states are refused: along every axis before the last one there is exactly one. *)
Theorem C55_one_state : forall (T : Type) (N : Num T) (ts r0 v0 mu : arr T) (s t : list nat),
  vectors r0 s -> vectors v0 t -> (exists n, In n (s ++ t) /\ n <> 1) ->
  kepler_nd (Some ts) (Some r0) (Some v0) (Some mu) = None.
Proof. exact @kepler_batch_none. Qed.
Print Assumptions C55_one_state.

(** Two positions with one velocity. *)
Example C55_two_states :
  kepler_nd (Some (num 1%R)) (Some (list2 0%R 3 [[1%R; 0%R; 0%R]; [2%R; 0%R; 0%R]])) (Some (list1 0%R [0%R; 1%R; 0%R])) (Some (num 1%R)) = None.
Proof. apply (C55_one_state R Num_R _ _ _ _ [2] []); [reflexivity | reflexivity | exists 2; split; [now left | discriminate]]. Qed.

Theorem C55_dxdx0 : forall (T : Type) (N : Num T) (r v r0 v0 dt mu : arr T),
  vectors r [] -> vectors v [] -> vectors r0 [] -> vectors v0 [] -> dims dt = [] -> dims mu = [] ->
  exists D, dxdx0_nd (Some r) (Some v) (Some r0) (Some v0) (Some dt) (Some mu) = Some D /\ dims D = [6; 6] /\
    let J := dxdx0 (row r []) (row v []) (row r0 []) (row v0 []) (at_ dt []) (at_ mu []) in
    forall k l, k < 3 -> l < 3 ->
      at_ D [l; k] = ent k l (b_rr J) /\ at_ D [3 + l; k] = ent k l (b_rv J) /\
      at_ D [l; 3 + k] = ent k l (b_vr J) /\ at_ D [3 + l; 3 + k] = ent k l (b_vv J).
Proof. exact @dxdx0_entries. Qed.
Print Assumptions C55_dxdx0.

(** The loops take numbers only: an array of one element is refused as well. *)
Theorem C55_solvers_scalar : forall (T : Type) (N : Num T) (M e tol dt al r0 s0 mu : arr T),
  (elps_accepts (Some M) (Some e) (Some tol) = true <-> dims M = [] /\ dims e = [] /\ dims tol = []) /\
  (hypb_accepts (Some M) (Some e) (Some tol) = true <-> dims M = [] /\ dims e = [] /\ dims tol = []) /\
  (uni_accepts (Some dt) (Some al) (Some r0) (Some s0) (Some mu) (Some tol) = true <->
     dims dt = [] /\ dims al = [] /\ dims r0 = [] /\ dims s0 = [] /\ dims mu = [] /\ dims tol = []).
Proof. intros T N M e tol dt al r0 s0 mu. exact (conj (elps_iff M e tol) (conj (hypb_iff M e tol) (uni_iff tol dt al r0 s0 mu))). Qed.
Print Assumptions C55_solvers_scalar.

(** What [sigma_fn] returns for one state is such an array, so it must go through [item()] first. *)
Theorem C55_sigma_needs_item : forall (T : Type) (N : Num T) (r0 v0 mu dt al rm tol : arr T),
  vectors r0 [] -> vectors v0 [] -> dims mu = [] ->
  exists s, sigma_fn_nd (Some r0) (Some v0) (Some mu) = Some s /\ dims s = [1] /\
    item (Some s) = Some (sigma_fn (row r0 []) (row v0 []) (at_ mu [])) /\
    uni_accepts (Some dt) (Some al) (Some rm) (Some s) (Some mu) (Some tol) = false.
Proof. exact @sigma_item. Qed.
Print Assumptions C55_sigma_needs_item.

(** Three times at which nothing has moved. *)
Example C55_example : exists rr vv,
  kepler_nd (Some (list1 0%R [0%R; 0%R; 0%R])) (Some (list1 0%R [1%R; 0%R; 0%R])) (Some (list1 0%R [0%R; 1%R; 0%R])) (Some (num 1%R)) = Some (rr, vv) /\
  dims rr = [3; 3] /\ row rr [2] = mk3 1%R 0%R 0%R /\ row vv [1] = mk3 0%R 1%R 0%R.
Proof. exact kepler_example. Qed.
