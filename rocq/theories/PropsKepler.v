(** * Properties C10-C17: two-body propagation

    Theorems only; proofs are in [KepState], [KepMotion], [TwoBody], [KepRows].
    Exact real arithmetic.  For a zero-energy state the code computes
    [1 / (1 / 0)], which is 0 both in Coq's reals and with IEEE infinities;
    property C47 treats that case with explicit infinities. *)
From Coq Require Import Reals Lra List ZArith.
From Coquelicot Require Import Coquelicot.
From Verif Require Import Num NumR Spec RLib OrbIntegrals Uniformulas Lagrange KepEqu StateTrans PropKepler
  KepRows KepExamples KepExamples2 Witness.
Import ListNotations.
Local Open Scope R_scope.

(** ** C10 *)
Theorem C10_area_preserving : forall (chi : R) (r0 v0 : vec) (mu : R),
  r0 <> vzero -> 0 < mu ->
  let alpha := alpha_of (vnorm r0) (vnorm v0) mu in
  let sigma0 := sigma_fn r0 v0 mu in
  let U0 := ufunc0 chi alpha in let U1 := ufunc1 chi alpha in let U2 := ufunc2 chi alpha in
  let r := equ_of_orb_uvi U0 U1 U2 (vnorm r0) sigma0 in
  r <> 0 ->
  lagrange_F U2 (vnorm r0) * lagrange_Gt U2 r
  - lagrange_G U1 U2 sigma0 (vnorm r0) mu * lagrange_Ft U1 r (vnorm r0) mu = 1.
Proof. exact lagrange_det. Qed.
Print Assumptions C10_area_preserving.

(** ** C11 *)
Theorem C11_rows_conserve : forall (ts : list R) (r0 v0 : vec) (mu : R) (r v : vec),
  0 < mu -> cross r0 v0 <> vzero -> In (r, v) (kepler ts r0 v0 mu) ->
  angular_momentum r v = angular_momentum r0 v0 /\
  eccentricity_vector r v mu = eccentricity_vector r0 v0 mu /\
  energy mu r v = energy mu r0 v0 /\
  semimajor_axis (vnorm r) (vnorm v) mu = semimajor_axis (vnorm r0) (vnorm v0) mu.
Proof. exact rows_conserve. Qed.
Print Assumptions C11_rows_conserve.

(** a quarter turn of the unit circle *)
Example C11_example : In (mk3 0 1 0, mk3 (-1) 0 0) (kepler [5; PI / 2] (mk3 1 0 0) (mk3 0 1 0) 1) /\
  angular_momentum (mk3 0 1 0) (mk3 (-1) 0 0) = mk3 0 0 1 /\ angular_momentum (mk3 1 0 0) (mk3 0 1 0) = mk3 0 0 1.
Proof. exact circle_momentum. Qed.

(** ** C12 *)
Theorem C12_radius : forall (chi : R) (r0 v0 : vec) (mu : R),
  0 < mu -> cross r0 v0 <> vzero ->
  let alpha := alpha_of (vnorm r0) (vnorm v0) mu in
  let sigma0 := sigma_fn r0 v0 mu in
  let r := equ_of_orb_uvi (ufunc0 chi alpha) (ufunc1 chi alpha) (ufunc2 chi alpha) (vnorm r0) sigma0 in
  let rp := radius_periapsis (semiparameter (vnorm (angular_momentum r0 v0)) mu)
              (vnorm (eccentricity_vector r0 v0 mu)) in
  0 < rp /\ rp <= r /\ r = vnorm (fst (state_at_chi chi alpha sigma0 (vnorm r0) r0 v0 mu)).
Proof. exact internal_radius. Qed.
Print Assumptions C12_radius.

(** two radians along the unit circle *)
Example C12_example : equ_of_orb_uvi (ufunc0 2 1) (ufunc1 2 1) (ufunc2 2 1) 1 0 = 1.
Proof. exact circle_radius. Qed.

(** ** C13 *)
Theorem C13_time_zero : forall (ts : list R) (r0 v0 : vec) (mu : R) (i : nat),
  r0 <> vzero -> 0 < mu -> nth_error ts i = Some 0 ->
  nth_error (kepler ts r0 v0 mu) i = Some (r0, v0).
Proof. exact kepler_at_0. Qed.
Print Assumptions C13_time_zero.

Example C13_example : nth_error (kepler [5; 0; -7] wr wv 1) 1 = Some (wr, wv).
Proof. exact (C13_time_zero [5; 0; -7] wr wv 1 1 wr_neq Rlt_0_1 eq_refl). Qed.

(** ** C14 *)
Theorem C14_rows_on_the_motion : forall (r0 v0 : vec) (mu : R),
  0 < mu -> cross r0 v0 <> vzero ->
  exists r v : R -> vec,
    two_body_motion mu r v /\ r 0 = r0 /\ v 0 = v0 /\
    (forall r' v', two_body_motion mu r' v' -> r' 0 = r0 -> v' 0 = v0 ->
       forall t, r' t = r t /\ v' t = v t) /\
    (forall ts i t, nth_error ts i = Some t ->
       let alpha := alpha_of (vnorm r0) (vnorm v0) mu in
       let chi := solve_kepler_uni t alpha (vnorm r0) (sigma_fn r0 v0 mu) mu default_tol uni_max_iter in
       exists t', nth_error (kepler ts r0 v0 mu) i = Some (r t', v t') /\
         sqrt mu * (t' - t) = kepler_equ_uni chi alpha (vnorm r0) (sigma_fn r0 v0 mu) t mu).
Proof. exact kepler_motion. Qed.
Print Assumptions C14_rows_on_the_motion.

(** If the residual is at most [tol], the returned position is within (largest speed on the orbit) * tol / sqrt mu
    of the exact position at the requested time. *)
Theorem C14_position_error : forall (r0 v0 : vec) (mu : R),
  0 < mu -> cross r0 v0 <> vzero ->
  forall r v : R -> vec, two_body_motion mu r v -> r 0 = r0 -> v 0 = v0 ->
  forall (ts : list R) (i : nat) (t tol : R) (rk vk : vec),
  let alpha := alpha_of (vnorm r0) (vnorm v0) mu in
  let chi := solve_kepler_uni t alpha (vnorm r0) (sigma_fn r0 v0 mu) mu default_tol uni_max_iter in
  let p := semiparameter (vnorm (angular_momentum r0 v0)) mu in
  let e := vnorm (eccentricity_vector r0 v0 mu) in
  nth_error ts i = Some t -> nth_error (kepler ts r0 v0 mu) i = Some (rk, vk) ->
  Rabs (kepler_equ_uni chi alpha (vnorm r0) (sigma_fn r0 v0 mu) t mu) <= tol ->
  vnorm (vminus rk (r t)) <= sqrt (mu / p) * (1 + e) * (tol / sqrt mu).
Proof. exact row_error. Qed.
Print Assumptions C14_position_error.

Example C14_example : nth_error (kepler [5; PI / 2] (mk3 1 0 0) (mk3 0 1 0) 1) 1 = Some (mk3 0 1 0, mk3 (-1) 0 0).
Proof. exact circle_row1. Qed.

(** ** C15 *)
Theorem C15_exists : forall (mu t : R) (r0 v0 : vec),
  0 < mu -> cross r0 v0 <> vzero -> exists x, flows_to mu t (r0, v0) x.
Proof. exact flow_exists. Qed.
Print Assumptions C15_exists.

Theorem C15_deterministic : forall (mu t : R) (x0 x y : vec * vec),
  0 < mu -> cross (fst x0) (snd x0) <> vzero -> flows_to mu t x0 x -> flows_to mu t x0 y -> x = y.
Proof. exact flow_det. Qed.
Print Assumptions C15_deterministic.

Theorem C15_compose : forall (mu s t : R) (x y z : vec * vec),
  0 < mu -> cross (fst x) (snd x) <> vzero ->
  flows_to mu s x y -> flows_to mu t y z -> flows_to mu (s + t) x z.
Proof. exact flow_compose. Qed.
Print Assumptions C15_compose.

Theorem C15_reverse : forall (mu t : R) (x y : vec * vec), flows_to mu t x y -> flows_to mu (- t) y x.
Proof. exact flow_reverse. Qed.
Print Assumptions C15_reverse.

(** The state computed from the root of the universal Kepler equation is the exact one. *)
Theorem C15_kepler_is_the_flow : forall (mu t chi : R) (r0 v0 : vec),
  0 < mu -> cross r0 v0 <> vzero ->
  let alpha := alpha_of (vnorm r0) (vnorm v0) mu in
  let sigma0 := sigma_fn r0 v0 mu in
  kepler_equ_uni chi alpha (vnorm r0) sigma0 t mu = 0 ->
  flows_to mu t (r0, v0) (state_at_chi chi alpha sigma0 (vnorm r0) r0 v0 mu).
Proof. exact flow_kepler. Qed.
Print Assumptions C15_kepler_is_the_flow.

Example C15_example : flows_to 1 (PI / 2) (mk3 1 0 0, mk3 0 1 0) (mk3 0 1 0, mk3 (-1) 0 0).
Proof. exact circle_flow. Qed.

(** ** C16 *)
Theorem C16_unique_root : forall (mu t : R) (r0 v0 : vec),
  0 < mu -> cross r0 v0 <> vzero ->
  let alpha := alpha_of (vnorm r0) (vnorm v0) mu in
  exists! chi, kepler_equ_uni chi alpha (vnorm r0) (sigma_fn r0 v0 mu) t mu = 0.
Proof. exact uni_unique_root. Qed.
Print Assumptions C16_unique_root.

Theorem C16_increasing : forall (mu t : R) (r0 v0 : vec) (x y : R),
  0 < mu -> cross r0 v0 <> vzero -> x < y ->
  let alpha := alpha_of (vnorm r0) (vnorm v0) mu in
  kepler_equ_uni x alpha (vnorm r0) (sigma_fn r0 v0 mu) t mu
  < kepler_equ_uni y alpha (vnorm r0) (sigma_fn r0 v0 mu) t mu.
Proof. exact uni_increasing. Qed.
Print Assumptions C16_increasing.

Theorem C16_derivative : forall (mu t chi : R) (r0 v0 : vec),
  let alpha := alpha_of (vnorm r0) (vnorm v0) mu in
  is_derive (fun x => kepler_equ_uni x alpha (vnorm r0) (sigma_fn r0 v0 mu) t mu) chi
    (dchi chi alpha (vnorm r0) (sigma_fn r0 v0 mu)).
Proof. exact uni_derivative. Qed.
Print Assumptions C16_derivative.

Theorem C16_derivative_is_radius : forall (mu chi : R) (r0 v0 : vec),
  0 < mu -> cross r0 v0 <> vzero ->
  let alpha := alpha_of (vnorm r0) (vnorm v0) mu in
  0 < dchi chi alpha (vnorm r0) (sigma_fn r0 v0 mu) /\
  dchi chi alpha (vnorm r0) (sigma_fn r0 v0 mu)
  = vnorm (fst (state_at_chi chi alpha (sigma_fn r0 v0 mu) (vnorm r0) r0 v0 mu)).
Proof. exact dchi_radius. Qed.
Print Assumptions C16_derivative_is_radius.

(** on the unit circle the root is the time *)
Example C16_example : forall t : R, kepler_equ_uni t 1 1 0 t 1 = 0.
Proof. exact circle_root. Qed.

(** ** C17 *)
Theorem C17_anomaly_recovered : forall (mu t chi : R) (r0 v0 r v : vec),
  0 < mu -> cross r0 v0 <> vzero ->
  let alpha := alpha_of (vnorm r0) (vnorm v0) mu in
  let sigma0 := sigma_fn r0 v0 mu in
  (r, v) = state_at_chi chi alpha sigma0 (vnorm r0) r0 v0 mu ->
  generalized_anomaly alpha (sigma_fn r v mu) sigma0 t mu
  = chi - alpha * kepler_equ_uni chi alpha (vnorm r0) sigma0 t mu.
Proof. exact anomaly_recovered. Qed.
Print Assumptions C17_anomaly_recovered.

(** ** A concrete case for all of the above

    The inclined ellipse of [Witness], with a batch of three times. *)
Example C10_C17_example :
  0 < 1 /\ wr <> vzero /\ cross wr wv <> vzero /\ nth_error [5; 0; -7] 1 = Some 0 /\
  length (kepler [5; 0; -7] wr wv 1) = 3%nat /\
  nth_error (kepler [5; 0; -7] wr wv 1) 1 = Some (wr, wv) /\
  (exists r v, In (r, v) (kepler [5; 0; -7] wr wv 1) /\ energy 1 r v = - (3 / 8) /\ cross r v = mk3 0 (- (1 / 2)) 1).
Proof. exact kepler_example. Qed.

(** The hypothesis of C17 and C10 holds at every anomaly, e.g. at 1. *)
Example C17_example : exists r v,
  (r, v) = state_at_chi 1 (alpha_of (vnorm wr) (vnorm wv) 1) (sigma_fn wr wv 1) (vnorm wr) wr wv 1 /\
  cross r v <> vzero.
Proof. exact state_example. Qed.
