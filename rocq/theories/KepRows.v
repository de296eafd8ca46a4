(** * KepRows: the rows returned by [kepler] (proofs for C10-C17) *)
From Coq Require Import Reals Lra Lia Psatz List ZArith.
From Coquelicot Require Import Coquelicot.
From Verif Require Import Num NumR Spec RLib Ana OrbIntegrals Uniformulas Lagrange KepEqu StateTrans
  PropKepler SeriesU UFacts OrbFacts KepState KepMotion TwoBody LoopFacts.
Import ListNotations.
Local Open Scope R_scope.

(** The generalized anomaly that the solver returns for elapsed time [t]. *)
Definition solver_chi (t : R) (r0 v0 : vec) (mu : R) : R :=
  solve_kepler_uni t (alpha_of (vnorm r0) (vnorm v0) mu) (vnorm r0) (sigma_fn r0 v0 mu) mu
    default_tol uni_max_iter.

Lemma kepler_row ts r0 v0 mu i t : nth_error ts i = Some t ->
  nth_error (kepler ts r0 v0 mu) i
  = Some (posS r0 v0 mu (solver_chi t r0 v0 mu), velS r0 v0 mu (solver_chi t r0 v0 mu)).
Proof.
  intros H. rewrite kepler_map, nth_error_map, H. simpl. f_equal.
  unfold kepler1. cbv zeta. change (@vector_norm R Num_R) with vnorm. rewrite state_at_chi_S. reflexivity.
Qed.
Lemma kepler_in ts r0 v0 mu x : In x (kepler ts r0 v0 mu) ->
  exists chi, x = (posS r0 v0 mu chi, velS r0 v0 mu chi).
Proof.
  rewrite kepler_map, in_map_iff. intros [t [E _]]. subst x. unfold kepler1. cbv zeta.
  change (@vector_norm R Num_R) with vnorm. rewrite state_at_chi_S. eauto.
Qed.

(** ** C10 *)
Lemma lagrange_det chi r0 v0 mu : r0 <> vzero -> 0 < mu ->
  let alpha := alpha_of (vnorm r0) (vnorm v0) mu in
  let sigma0 := sigma_fn r0 v0 mu in
  let U0 := ufunc0 chi alpha in let U1 := ufunc1 chi alpha in let U2 := ufunc2 chi alpha in
  let r := equ_of_orb_uvi U0 U1 U2 (vnorm r0) sigma0 in
  r <> 0 ->
  lagrange_F U2 (vnorm r0) * lagrange_Gt U2 r
  - lagrange_G U1 U2 sigma0 (vnorm r0) mu * lagrange_Ft U1 r (vnorm r0) mu = 1.
Proof.
  intros Hr0 Hmu. cbv zeta. rewrite ufunc0_U, ufunc1_U, ufunc2_U, alpha_of_S, equ_of_orb_uvi_R.
  rewrite lagrange_F_R, lagrange_Gt_R, lagrange_G_R, lagrange_Ft_R.
  intros N. exact (det1 r0 v0 mu Hmu Hr0 chi N).
Qed.

(** ** C11 *)
Lemma rows_conserve ts r0 v0 mu r v : 0 < mu -> cross r0 v0 <> vzero -> In (r, v) (kepler ts r0 v0 mu) ->
  angular_momentum r v = angular_momentum r0 v0 /\
  eccentricity_vector r v mu = eccentricity_vector r0 v0 mu /\
  energy mu r v = energy mu r0 v0 /\
  semimajor_axis (vnorm r) (vnorm v) mu = semimajor_axis (vnorm r0) (vnorm v0) mu.
Proof.
  intros Hmu Hh Hin. pose proof (Hr0 r0 v0 Hh) as Hr. destruct (kepler_in _ _ _ _ _ Hin) as [chi E].
  injection E as -> ->.
  pose proof (alpha_conserved r0 v0 mu Hmu Hr Hh chi) as A. pose proof (pos_neq r0 v0 mu Hmu Hr Hh chi) as P.
  split; [|split; [|split]].
  - rewrite !angular_momentum_R. apply h_conserved; auto. now apply rad_neq.
  - now apply e_conserved.
  - unfold alphaS in A. rewrite (axis_energy _ _ mu P Hmu), (axis_energy _ _ mu Hr Hmu) in A.
    apply (Rmult_eq_reg_l (-2 / mu)).
    + etransitivity; [|etransitivity; [exact A|]]; field; lra.
    + unfold Rdiv. apply Rmult_integral_contrapositive. split; [lra|]. apply Rinv_neq_0_compat. lra.
  - rewrite !semimajor_axis_R. unfold alphaS in A. now rewrite A.
Qed.

(** ** C12 *)
Lemma internal_radius chi r0 v0 mu : 0 < mu -> cross r0 v0 <> vzero ->
  let alpha := alpha_of (vnorm r0) (vnorm v0) mu in
  let sigma0 := sigma_fn r0 v0 mu in
  let r := equ_of_orb_uvi (ufunc0 chi alpha) (ufunc1 chi alpha) (ufunc2 chi alpha) (vnorm r0) sigma0 in
  let rp := radius_periapsis (semiparameter (vnorm (angular_momentum r0 v0)) mu)
              (vnorm (eccentricity_vector r0 v0 mu)) in
  0 < rp /\ rp <= r /\ r = vnorm (fst (state_at_chi chi alpha sigma0 (vnorm r0) r0 v0 mu)).
Proof.
  intros Hmu Hh. cbv zeta. pose proof (Hr0 r0 v0 Hh) as Hr.
  rewrite state_at_chi_S, ufunc0_U, ufunc1_U, ufunc2_U, alpha_of_S, equ_of_orb_uvi_R, angular_momentum_R.
  cbn [fst]. rewrite pos_norm by auto.
  split; [apply (rmin_pos r0 v0 mu Hmu Hh)|]. split; [apply (rmin_le r0 v0 mu Hmu Hh chi)|]. reflexivity.
Qed.

(** ** C13 *)
Lemma uni_loop_idle t al r0 s0 mu tol mi :
  exceeds (kepler_equ_uni (uni_guess t al mu) al r0 s0 t mu) tol = false ->
  solve_kepler_uni t al r0 s0 mu tol mi = uni_guess t al mu.
Proof.
  intros H. destruct (uni_char t al r0 s0 mu tol mi) as [k [_ [E [L _]]]]. rewrite E.
  destruct k; [reflexivity|]. specialize (L 0%nat (Nat.lt_0_succ _)). cbv beta iota zeta delta [iterate] in L.
  rewrite H in L. discriminate.
Qed.
Lemma default_tol_R : @default_tol R Num_R = / 1000000.
Proof. unfold default_tol. simpl. unfold Rdiv. ring. Qed.
Lemma exceeds_R (x tol : R) : exceeds x tol = true <-> tol < Rabs x.
Proof. unfold exceeds, n_gt. simpl. apply ltb_true. Qed.
Lemma exceeds_R_false (x tol : R) : exceeds x tol = false <-> Rabs x <= tol.
Proof. unfold exceeds, n_gt. simpl. apply ltb_false. Qed.
Lemma uni_guess_R t al mu : uni_guess t al mu = sqrt mu * Rabs al * t.
Proof. reflexivity. Qed.

Lemma solver_chi_0 r0 v0 mu : solver_chi 0 r0 v0 mu = 0.
Proof.
  unfold solver_chi. rewrite uni_loop_idle.
  - rewrite uni_guess_R. ring.
  - apply exceeds_R_false. rewrite uni_guess_R, Rmult_0_r, kepler_equ_uni_R, !U_zero, default_tol_R.
    cbn [Nat.eqb].
    replace (vnorm r0 * 0 + sigma_fn r0 v0 mu * 0 + 0 - sqrt mu * 0) with 0 by ring. rewrite Rabs_R0. lra.
Qed.
Lemma kepler_at_0 ts r0 v0 mu i : r0 <> vzero -> 0 < mu -> nth_error ts i = Some 0 ->
  nth_error (kepler ts r0 v0 mu) i = Some (r0, v0).
Proof.
  intros Hr Hmu H. rewrite (kepler_row _ _ _ _ _ _ H), solver_chi_0.
  destruct (posS_0 r0 v0 mu Hmu Hr) as [A [B _]]. now rewrite A, B.
Qed.

(** ** C14 *)
Lemma kepler_motion r0 v0 mu : 0 < mu -> cross r0 v0 <> vzero ->
  exists r v : R -> vec,
    two_body_motion mu r v /\ r 0 = r0 /\ v 0 = v0 /\
    (forall r' v', two_body_motion mu r' v' -> r' 0 = r0 -> v' 0 = v0 ->
       forall t, r' t = r t /\ v' t = v t) /\
    (forall ts i t, nth_error ts i = Some t ->
       let chi := solve_kepler_uni t (alpha_of (vnorm r0) (vnorm v0) mu) (vnorm r0) (sigma_fn r0 v0 mu) mu
                    default_tol uni_max_iter in
       exists t', nth_error (kepler ts r0 v0 mu) i = Some (r t', v t') /\
         sqrt mu * (t' - t)
         = kepler_equ_uni chi (alpha_of (vnorm r0) (vnorm v0) mu) (vnorm r0) (sigma_fn r0 v0 mu) t mu).
Proof.
  intros Hmu Hh. exists (rM r0 v0 mu Hmu Hh), (vM r0 v0 mu Hmu Hh).
  destruct (motion_start r0 v0 mu Hmu Hh) as [A B].
  split; [apply motion|]. split; [exact A|]. split; [exact B|]. split.
  - intros r' v' M Er Ev t. now apply (motion_unique r0 v0 mu r' v' Hmu Hh M Er Ev).
  - intros ts i t H chi. change chi with (solver_chi t r0 v0 mu). exists (timeS r0 v0 mu (solver_chi t r0 v0 mu) / sqrt mu).
    destruct (state_on_motion r0 v0 mu Hmu Hh (solver_chi t r0 v0 mu)) as [P Q].
    rewrite <- P, <- Q. split; [now apply kepler_row|].
    rewrite kepler_equ_uni_S. pose proof (sqrt_pos_neq mu Hmu). field. auto.
Qed.

(** Converged rows. *)
Lemma uni_residual t al r0 s0 mu tol mi : let chi := solve_kepler_uni t al r0 s0 mu tol mi in
  Rabs (kepler_equ_uni chi al r0 s0 t mu) <= tol \/
  chi = iterate (uni_newton t al r0 s0 mu) (Z.to_nat mi) (uni_guess t al mu).
Proof.
  intros chi. destruct (uni_char t al r0 s0 mu tol mi) as [k [_ [E [_ [K|X]]]]].
  - right. subst k. exact E.
  - left. apply exceeds_R_false. unfold chi. rewrite E. exact X.
Qed.

(** ** Speed bound, hence position error bound *)
Section Speed.
  Variables (mu : R) (r v : R -> vec).
  Hypothesis Hmu : 0 < mu.
  Hypothesis Hm : two_body_motion mu r v.
  Hypothesis Hh : cross (r 0) (v 0) <> vzero.

  Definition speed_max : R :=
    sqrt (mu * (2 / radius_periapsis (semiparameter (vnorm (cross (r 0) (v 0))) mu)
                      (vnorm (eccentricity_vector (r 0) (v 0) mu))
               - alphaS (r 0) (v 0) mu)).
  Lemma speed_le t : vnorm (v t) <= speed_max.
  Proof.
    unfold speed_max, vnorm. apply sqrt_le_1_alt.
    rewrite (v_sq (r 0) (v 0) mu r v Hmu Hm eq_refl eq_refl t).
    apply Rmult_le_compat_l; [lra|]. apply Rplus_le_compat_r. apply Rmult_le_compat_l; [lra|].
    apply Rinv_le_contravar.
    - apply (rmin_pos _ _ _ Hmu Hh).
    - rewrite (rho_chi _ _ mu r v Hmu Hh Hm eq_refl eq_refl t). apply (rmin_le _ _ _ Hmu Hh).
  Qed.
  Lemma chord s t : vnorm (vminus (r t) (r s)) <= speed_max * Rabs (t - s).
  Proof.
    set (w := vminus (r t) (r s)).
    destruct (mvt (fun x => dot w (r x)) (fun x => dot w (v x)) s t) as [c [_ E]].
    { intros x. destruct (Hm x) as [_ [D _]].
      eapply der_eq; [apply (dot_der (fun _ => w) r x vzero (v x))|].
      - unfold vderive, vzero; cbn [c0 c1 c2]. split; [|split]; apply der_const.
      - exact D.
      - unfold dot at 1. cbn [c0 c1 c2 vzero]. ring. }
    assert (W : dot w w = dot w (v c) * (t - s)) by (rewrite <- E, <- dot_minus_r; reflexivity).
    destruct (Req_dec (vnorm w) 0) as [Z|Z].
    - rewrite Z. apply Rmult_le_pos; [apply sqrt_pos|apply Rabs_pos].
    - assert (P : 0 < vnorm w) by (pose proof (vnorm_nonneg w); lra).
      apply Rmult_le_reg_l with (vnorm w); auto. rewrite vnorm_sq, W.
      eapply Rle_trans; [apply Rle_abs|]. rewrite Rabs_mult, <- Rmult_assoc.
      apply Rmult_le_compat_r; [apply Rabs_pos|].
      eapply Rle_trans; [apply cauchy_schwarz|]. apply Rmult_le_compat_l; [lra|]. apply speed_le.
  Qed.
End Speed.

Lemma sqrt_periapsis r v mu : 0 < mu -> cross r v <> vzero ->
  let p := semiparameter (vnorm (cross r v)) mu in
  let e := vnorm (eccentricity_vector r v mu) in
  sqrt (mu * (2 / radius_periapsis p e - alphaS r v mu)) = sqrt (mu / p) * (1 + e).
Proof.
  intros Hmu Hh p e. pose proof (p_pos r v mu Hmu Hh) as Pp. fold p in Pp.
  pose proof (ecc_norm_sq r v mu (vec_nonzero_l _ _ Hh) Hmu) as E. fold p e in E.
  assert (He : 0 <= e) by apply vnorm_nonneg.
  rewrite radius_periapsis_R.
  replace (mu * (2 / (p / (1 + e)) - alphaS r v mu)) with (mu / p * (1 + e) ^ 2).
  - rewrite sqrt_mult; [|apply Rlt_le, Rdiv_lt_0_compat; lra|nra]. f_equal.
    replace ((1 + e) ^ 2) with ((1 + e) * (1 + e)) by ring. apply sqrt_square. lra.
  - pose proof (vnorm_pos _ (vec_nonzero_l _ _ Hh)) as Q. unfold alphaS. assert (A : 2 / vnorm r - vnorm v ^ 2 / mu = (1 - e ^ 2) / p) by (rewrite E; field; repeat split; lra).
    rewrite A. field. lra.
Qed.

Lemma row_error r0 v0 mu : 0 < mu -> cross r0 v0 <> vzero ->
  forall r v : R -> vec, two_body_motion mu r v -> r 0 = r0 -> v 0 = v0 ->
  forall ts i t tol rk vk,
  let alpha := alpha_of (vnorm r0) (vnorm v0) mu in
  let chi := solve_kepler_uni t alpha (vnorm r0) (sigma_fn r0 v0 mu) mu default_tol uni_max_iter in
  let p := semiparameter (vnorm (angular_momentum r0 v0)) mu in
  let e := vnorm (eccentricity_vector r0 v0 mu) in
  nth_error ts i = Some t -> nth_error (kepler ts r0 v0 mu) i = Some (rk, vk) ->
  Rabs (kepler_equ_uni chi alpha (vnorm r0) (sigma_fn r0 v0 mu) t mu) <= tol ->
  vnorm (vminus rk (r t)) <= sqrt (mu / p) * (1 + e) * (tol / sqrt mu).
Proof.
  intros Hmu Hh r v Hm Er Ev ts i t tol rk vk alpha chi p e Hi Hk Hres.
  assert (Hh0 : cross (r 0) (v 0) <> vzero) by now rewrite Er, Ev.
  pose proof (kepler_row ts r0 v0 mu i t Hi) as K. rewrite Hk in K. injection K as Erk _.
  destruct (state_on_motion r0 v0 mu Hmu Hh (solver_chi t r0 v0 mu)) as [P _].
  set (t' := timeS r0 v0 mu (solver_chi t r0 v0 mu) / sqrt mu) in *.
  destruct (motion_unique r0 v0 mu r v Hmu Hh Hm Er Ev t') as [Q _].
  rewrite Erk, P, <- Q.
  eapply Rle_trans; [apply (chord mu r v Hmu Hm Hh0 t t')|].
  unfold speed_max. rewrite (sqrt_periapsis _ _ mu Hmu Hh0), Er, Ev. change (cross r0 v0) with (angular_momentum r0 v0). fold p e.
  apply Rmult_le_compat_l.
  - apply Rmult_le_pos; [apply sqrt_pos|]. pose proof (vnorm_nonneg (eccentricity_vector r0 v0 mu)) as X. fold e in X. lra.
  - pose proof (sm_pos mu Hmu) as S. apply Rmult_le_reg_l with (sqrt mu); auto.
    replace (sqrt mu * (tol / sqrt mu)) with tol by (field; lra).
    replace (sqrt mu * Rabs (t' - t)) with (Rabs (sqrt mu * (t' - t))) by
      (rewrite Rabs_mult, (Rabs_right (sqrt mu)); lra).
    replace (sqrt mu * (t' - t)) with (kepler_equ_uni chi alpha (vnorm r0) (sigma_fn r0 v0 mu) t mu); [exact Hres|].
    unfold alpha. rewrite kepler_equ_uni_S. change chi with (solver_chi t r0 v0 mu). unfold t'. field. lra.
Qed.

(** ** C15 *)
Lemma flow_exists mu t r0 v0 : 0 < mu -> cross r0 v0 <> vzero -> exists x, flows_to mu t (r0, v0) x.
Proof.
  intros Hmu Hh. exists (rM r0 v0 mu Hmu Hh t, vM r0 v0 mu Hmu Hh t).
  exists (rM r0 v0 mu Hmu Hh), (vM r0 v0 mu Hmu Hh). destruct (motion_start r0 v0 mu Hmu Hh) as [A B].
  split; [apply motion|]. now rewrite A, B.
Qed.
Lemma flow_det mu t x0 x y : 0 < mu -> cross (fst x0) (snd x0) <> vzero ->
  flows_to mu t x0 x -> flows_to mu t x0 y -> x = y.
Proof.
  intros Hmu Hh [r [v [M [E F]]]] [r' [v' [M' [E' F']]]]. subst x y x0. apply pair_equal_spec in E'. destruct E' as [Er Ev]. cbn [fst snd] in Hh.
  destruct (unique_motion mu r v r' v' Hmu M M' (eq_sym Er) (eq_sym Ev) Hh t) as [A B]. now rewrite A, B.
Qed.
Lemma flow_compose mu s t x y z : 0 < mu -> cross (fst x) (snd x) <> vzero ->
  flows_to mu s x y -> flows_to mu t y z -> flows_to mu (s + t) x z.
Proof.
  intros Hmu Hh [r [v [M [E F]]]] [r' [v' [M' [E' F']]]]. subst x y z. apply pair_equal_spec in E'. destruct E' as [Er Ev]. cbn [fst snd] in Hh.
  destruct (motion_compose mu r v r' v' s Hmu M M' Hh Er Ev t) as [A B].
  exists r, v. rewrite A, B. auto.
Qed.
Lemma flow_reverse mu t x y : flows_to mu t x y -> flows_to mu (- t) y x.
Proof.
  intros [r [v [M [E F]]]]. exists (fun s => r (t + s)), (fun s => v (t + s)).
  split; [now apply shift_motion|]. rewrite Rplus_0_r, Rplus_opp_r. auto.
Qed.
Lemma flow_kepler mu t chi r0 v0 : 0 < mu -> cross r0 v0 <> vzero ->
  let alpha := alpha_of (vnorm r0) (vnorm v0) mu in
  let sigma0 := sigma_fn r0 v0 mu in
  kepler_equ_uni chi alpha (vnorm r0) sigma0 t mu = 0 ->
  flows_to mu t (r0, v0) (state_at_chi chi alpha sigma0 (vnorm r0) r0 v0 mu).
Proof.
  intros Hmu Hh. cbv zeta. rewrite kepler_equ_uni_S, state_at_chi_S. intros E.
  exists (rM r0 v0 mu Hmu Hh), (vM r0 v0 mu Hmu Hh). destruct (motion_start r0 v0 mu Hmu Hh) as [A B].
  split; [apply motion|]. rewrite A, B. split; [reflexivity|].
  destruct (state_on_motion r0 v0 mu Hmu Hh chi) as [P Q]. rewrite P, Q.
  pose proof (sqrt_pos_neq mu Hmu). replace (timeS r0 v0 mu chi / sqrt mu) with t; [reflexivity|].
  replace (timeS r0 v0 mu chi) with (sqrt mu * t) by lra. field. auto.
Qed.

Lemma flow_state mu t chi r0 v0 : 0 < mu -> cross r0 v0 <> vzero -> timeS r0 v0 mu chi = sqrt mu * t ->
  flows_to mu t (r0, v0) (posS r0 v0 mu chi, velS r0 v0 mu chi).
Proof.
  intros Hmu Hh E. pose proof (flow_kepler mu t chi r0 v0 Hmu Hh) as H. cbv zeta in H.
  rewrite kepler_equ_uni_S, state_at_chi_S in H. apply H. lra.
Qed.

(** Propagating by anomalies: anomalies add. *)
Lemma anomalies_add mu chi1 chi2 r0 v0 : 0 < mu -> cross r0 v0 <> vzero ->
  posS (posS r0 v0 mu chi1) (velS r0 v0 mu chi1) mu chi2 = posS r0 v0 mu (chi1 + chi2) /\
  velS (posS r0 v0 mu chi1) (velS r0 v0 mu chi1) mu chi2 = velS r0 v0 mu (chi1 + chi2).
Proof.
  intros Hmu Hh. pose proof (Hr0 r0 v0 Hh) as Hr. pose proof (sqrt_pos_neq mu Hmu) as Q.
  set (r1 := posS r0 v0 mu chi1). set (v1 := velS r0 v0 mu chi1).
  assert (Hh1 : cross r1 v1 <> vzero) by (unfold r1, v1; rewrite h_conserved; auto; now apply rad_neq).
  pose proof (Hr0 r1 v1 Hh1) as Hr1.
  set (t1 := timeS r0 v0 mu chi1 / sqrt mu). set (t2 := timeS r1 v1 mu chi2 / sqrt mu).
  assert (F1 : flows_to mu t1 (r0, v0) (r1, v1)) by (apply flow_state; auto; unfold t1; field; auto).
  assert (F2 : flows_to mu t2 (r1, v1) (posS r1 v1 mu chi2, velS r1 v1 mu chi2))
    by (apply flow_state; auto; unfold t2; field; auto).
  pose proof (flow_compose mu t1 t2 (r0, v0) _ _ Hmu Hh F1 F2) as F.
  (* the anomaly of the composed motion *)
  assert (E : timeS r0 v0 mu (chi1 + chi2) = sqrt mu * (t1 + t2)).
  { set (c := chiS r0 v0 mu Hmu Hh (t1 + t2)).
    assert (Ec : timeS r0 v0 mu c = sqrt mu * (t1 + t2)) by apply chiS_spec.
    replace (chi1 + chi2) with c; [exact Ec|].
    pose proof (flow_state mu (t1 + t2) c r0 v0 Hmu Hh Ec) as F'.
    pose proof (flow_det mu (t1 + t2) (r0, v0) _ _ Hmu Hh F F') as X. apply pair_equal_spec in X. destruct X as [X1 X2].
    pose proof (chi_recovered r0 v0 mu c (t1 + t2)) as R0. rewrite Ec in R0.
    pose proof (chi_recovered r0 v0 mu chi1 t1) as R1.
    pose proof (chi_recovered r1 v1 mu chi2 t2) as R2.
    replace (timeS r0 v0 mu chi1) with (sqrt mu * t1) in R1 by (unfold t1; field; auto).
    replace (timeS r1 v1 mu chi2) with (sqrt mu * t2) in R2 by (unfold t2; field; auto).
    rewrite generalized_anomaly_R in R0, R1, R2.
    rewrite <- (sigma_at r0 v0 mu Hmu Hr Hh) in R0, R1. rewrite <- (sigma_at r1 v1 mu Hmu Hr1 Hh1) in R2.
    rewrite X1, X2 in R2. fold r1 v1 in R1.
    replace (alphaS r1 v1 mu) with (alphaS r0 v0 mu) in R2
      by (symmetry; now apply alpha_conserved).
    lra. }
  pose proof (flow_state mu (t1 + t2) (chi1 + chi2) r0 v0 Hmu Hh E) as F'.
  pose proof (flow_det mu (t1 + t2) (r0, v0) _ _ Hmu Hh F F') as X. apply pair_equal_spec in X. destruct X as [X1 X2]. auto.
Qed.

(** ** C16 *)
Lemma uni_unique_root mu t r0 v0 : 0 < mu -> cross r0 v0 <> vzero ->
  let alpha := alpha_of (vnorm r0) (vnorm v0) mu in
  exists! chi, kepler_equ_uni chi alpha (vnorm r0) (sigma_fn r0 v0 mu) t mu = 0.
Proof.
  intros Hmu Hh alpha. exists (chiS r0 v0 mu Hmu Hh t). split.
  - unfold alpha. rewrite kepler_equ_uni_S, chiS_spec. ring.
  - intros c E. unfold alpha in E. rewrite kepler_equ_uni_S in E. symmetry. apply chiS_unique. lra.
Qed.
Lemma uni_increasing mu t r0 v0 x y : 0 < mu -> cross r0 v0 <> vzero -> x < y ->
  let alpha := alpha_of (vnorm r0) (vnorm v0) mu in
  kepler_equ_uni x alpha (vnorm r0) (sigma_fn r0 v0 mu) t mu
  < kepler_equ_uni y alpha (vnorm r0) (sigma_fn r0 v0 mu) t mu.
Proof.
  intros Hmu Hh L alpha. unfold alpha. rewrite !kepler_equ_uni_S.
  pose proof (timeS_incr r0 v0 mu Hmu Hh x y L). lra.
Qed.
Lemma uni_derivative (mu t chi : R) r0 v0 :
  let alpha := alpha_of (vnorm r0) (vnorm v0) mu in
  is_derive (fun x => kepler_equ_uni x alpha (vnorm r0) (sigma_fn r0 v0 mu) t mu) chi
    (dchi chi alpha (vnorm r0) (sigma_fn r0 v0 mu)).
Proof.
  intros alpha. unfold alpha. rewrite dchi_S.
  apply (der_ext (fun x => timeS r0 v0 mu x - sqrt mu * t)); [intros; symmetry; apply kepler_equ_uni_S|].
  eapply der_eq; [apply der_minus; [apply timeS_der|apply der_const]|ring].
Qed.
Lemma dchi_radius mu chi r0 v0 : 0 < mu -> cross r0 v0 <> vzero ->
  let alpha := alpha_of (vnorm r0) (vnorm v0) mu in
  0 < dchi chi alpha (vnorm r0) (sigma_fn r0 v0 mu) /\
  dchi chi alpha (vnorm r0) (sigma_fn r0 v0 mu)
  = vnorm (fst (state_at_chi chi alpha (sigma_fn r0 v0 mu) (vnorm r0) r0 v0 mu)).
Proof.
  intros Hmu Hh alpha. unfold alpha. pose proof (Hr0 r0 v0 Hh) as Hr.
  rewrite dchi_S, state_at_chi_S. cbn [fst]. rewrite pos_norm by auto. split; [|reflexivity].
  now apply radS_pos.
Qed.

(** ** C17 *)
Lemma anomaly_recovered mu t chi r0 v0 r v : 0 < mu -> cross r0 v0 <> vzero ->
  let alpha := alpha_of (vnorm r0) (vnorm v0) mu in
  let sigma0 := sigma_fn r0 v0 mu in
  (r, v) = state_at_chi chi alpha sigma0 (vnorm r0) r0 v0 mu ->
  generalized_anomaly alpha (sigma_fn r v mu) sigma0 t mu
  = chi - alpha * kepler_equ_uni chi alpha (vnorm r0) sigma0 t mu.
Proof.
  intros Hmu Hh. cbv zeta. pose proof (Hr0 r0 v0 Hh) as Hr. rewrite state_at_chi_S, kepler_equ_uni_S.
  intros E. apply pair_equal_spec in E. destruct E as [-> ->]. rewrite alpha_of_S.
  change (sigma_fn (posS r0 v0 mu chi) (velS r0 v0 mu chi) mu)
    with (sigmaS (posS r0 v0 mu chi) (velS r0 v0 mu chi) mu).
  rewrite sigma_at by auto. apply chi_recovered.
Qed.
