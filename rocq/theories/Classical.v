(** * Classical: universal and classical forms of Kepler's equation (proofs for C46) *)
From Coq Require Import Reals Lra Lia Psatz ZArith.
From Coquelicot Require Import Coquelicot.
From Verif Require Import Num NumR Spec SpecAnom RLib Uniformulas Lagrange OrbIntegrals KepEqu StateTrans
  PropKepler SeriesU UFacts Atan2 OrbFacts KepState KepMotion KepRows SolveFacts.
Local Open Scope R_scope.

Lemma alphaS_axis r v mu : semimajor_axis (vnorm r) (vnorm v) mu = / alphaS r v mu.
Proof. apply semimajor_axis_R. Qed.

Section Classical.
  Variables (r0 v0 : vec) (mu : R).
  Hypothesis Hmu : 0 < mu.
  Hypothesis Hh : cross r0 v0 <> vzero.
  Let Hr : r0 <> vzero := vec_nonzero_l _ _ Hh.
  Let al := alphaS r0 v0 mu.
  Let n0 := vnorm r0.
  Let s0 := sigmaS r0 v0 mu.
  Let a := semimajor_axis (vnorm r0) (vnorm v0) mu.
  Let e := vnorm (eccentricity_vector r0 v0 mu).

  Lemma ecc_scalar : e ^ 2 = (1 - al * n0) ^ 2 + al * s0 ^ 2.
  Proof.
    unfold e. rewrite (ecc_norm_sq r0 v0 mu Hr Hmu).
    change (2 / vnorm r0 - vnorm v0 ^ 2 / mu) with al.
    rewrite <- (pS_semiparameter r0 v0 mu), (pS_eq r0 v0 mu Hmu Hr).
    fold al n0 s0. ring.
  Qed.
  Lemma al_energy : al = - 2 * energy mu r0 v0 / mu.
  Proof. apply axis_energy; auto. Qed.
  Lemma rv_s0 : dot r0 v0 = sqrt mu * s0.
  Proof. apply rv0. exact Hmu. Qed.

  Section Ellipse.
    Hypothesis HE : energy mu r0 v0 < 0.
    Let s := sqrt a.
    Lemma al_pos : 0 < al.
    Proof.
      rewrite al_energy. replace (-2 * energy mu r0 v0 / mu) with ((2 * - energy mu r0 v0) / mu) by (field; lra).
      apply Rdiv_lt_0_compat; lra.
    Qed.
    Lemma a_pos : 0 < a.
    Proof. unfold a. rewrite alphaS_axis. apply Rinv_0_lt_compat, al_pos. Qed.
    Lemma s_pos : 0 < s.
    Proof. apply sqrt_lt_R0, a_pos. Qed.
    Lemma s_sq : s * s = a.
    Proof. apply sqrt_sqrt. pose proof a_pos. lra. Qed.
    Lemma al_s : al = / (s * s).
    Proof. rewrite s_sq. unfold a. rewrite alphaS_axis, Rinv_inv. reflexivity. Qed.
    Lemma sqrt_al : sqrt al = / s.
    Proof. pose proof s_pos. rewrite al_s. rewrite sqrt_inv, sqrt_square; lra. Qed.
    Lemma e_elps : e < 1.
    Proof. apply (conic_kind r0 v0 mu Hmu Hh). exact HE. Qed.
    Lemma e_nonneg : 0 <= e.
    Proof. apply vnorm_nonneg. Qed.

    Lemma ea_iff E : eccentric_anomaly mu a e r0 v0 E <->
      n0 = s * s * (1 - e * cos E) /\ s0 = s * e * sin E.
    Proof.
      unfold eccentric_anomaly. rewrite s_sq. fold n0. rewrite rv_s0.
      rewrite sqrt_mult by (pose proof a_pos; lra). fold s.
      pose proof (sm_pos mu Hmu) as Q. split; intros [A B]; (split; [exact A|]).
      - apply (Rmult_eq_reg_l (sqrt mu)); lra.
      - rewrite B. ring.
    Qed.

    Lemma ea_exists : exists E, - PI < E <= PI /\ eccentric_anomaly mu a e r0 v0 E.
    Proof.
      pose proof s_pos as P. pose proof ecc_scalar as Q. pose proof al_s as As.
      set (x := 1 - al * n0). set (y := s0 / s).
      assert (S : x ^ 2 + y ^ 2 = e ^ 2).
      { rewrite Q. unfold x, y. rewrite As. field. lra. }
      destruct (Req_dec e 0) as [Z|Z].
      - exists 0. split; [pose proof PI_RGT_0; lra|]. apply ea_iff. rewrite Z in *.
        assert (x = 0 /\ y = 0) as [X Y] by nra.
        assert (B : s0 = s * y) by (unfold y; field; lra).
        split; [|rewrite B, Y; ring].
        unfold x in X. rewrite As in X. replace n0 with (s * s * (/ (s * s) * n0)) by (field; lra).
        replace (/ (s * s) * n0) with 1 by lra. ring.
      - exists (atan2 y x). split; [apply atan2_range|]. apply ea_iff.
        assert (N : x <> 0 \/ y <> 0) by (destruct (Req_dec x 0); [right; intros F; apply Z; nra|auto]).
        destruct (cos_sin_atan2 y x N) as [C D].
        assert (T : sqrt (x ^ 2 + y ^ 2) = e).
        { rewrite S. apply sqrt_pow2, e_nonneg. }
        rewrite C, D, T. split.
        + replace (e * (x / e)) with x by (field; exact Z). unfold x. rewrite As. field. lra.
        + replace (s * e * (y / e)) with (s * y) by (field; exact Z). unfold y. field. lra.
    Qed.

    Section WithE.
      Variable E0 : R.
      Hypothesis H0 : eccentric_anomaly mu a e r0 v0 E0.
      Let Hn : n0 = s * s * (1 - e * cos E0).
      Proof. apply ea_iff in H0. tauto. Qed.
      Let Hs : s0 = s * e * sin E0.
      Proof. apply ea_iff in H0. tauto. Qed.

      Variable chi : R.
      Let x := chi / s.
      Lemma u0_x : U 0 chi al = cos x.
      Proof. rewrite U0_pos, sqrt_al by apply al_pos. f_equal. unfold x. field. pose proof s_pos; lra. Qed.
      Lemma u1_x : U 1 chi al = s * sin x.
      Proof.
        pose proof s_pos. rewrite U1_pos, sqrt_al by apply al_pos.
        replace (/ s * chi) with x by (unfold x; field; lra). field. lra.
      Qed.
      Lemma u2_x : U 2 chi al = s * s * (1 - cos x).
      Proof.
        pose proof s_pos. pose proof (U0_eq chi al) as A. rewrite u0_x in A. pose proof al_s as As.
        assert (B : U 2 chi al = (1 - cos x) / al) by (pose proof al_pos; apply (Rmult_eq_reg_l al); [|lra]; field_simplify; lra).
        rewrite B, As. field. lra.
      Qed.
      Lemma u3_x : U 3 chi al = s * s * (s * x - s * sin x).
      Proof.
        pose proof s_pos. pose proof (U1_eq chi al) as A. rewrite u1_x in A. pose proof al_s as As.
        assert (B : U 3 chi al = (chi - s * sin x) / al) by (pose proof al_pos; apply (Rmult_eq_reg_l al); [|lra]; field_simplify; lra).
        rewrite B, As. unfold x. field. lra.
      Qed.
      Lemma rad_E : radS r0 v0 mu chi = s * s * (1 - e * cos (E0 + x)).
      Proof.
        unfold radS. fold al s0 n0. rewrite u0_x, u1_x, u2_x, Hn, Hs, cos_plus. ring.
      Qed.
      Lemma sig_E : sigS r0 v0 mu chi = s * e * sin (E0 + x).
      Proof.
        pose proof s_pos. unfold sigS. fold al s0 n0. rewrite u0_x, u1_x, Hn, Hs, al_s, sin_plus. field. lra.
      Qed.
      Lemma ea_at : eccentric_anomaly mu a e (posS r0 v0 mu chi) (velS r0 v0 mu chi) (E0 + x).
      Proof.
        split.
        - rewrite (pos_norm r0 v0 mu Hmu Hr Hh), rad_E, s_sq. reflexivity.
        - rewrite (pos_dot_vel r0 v0 mu Hmu Hr) by (apply (rad_neq r0 v0 mu Hmu Hh)).
          rewrite sig_E, sqrt_mult by (pose proof a_pos; lra). fold s. ring.
      Qed.
      Lemma time_E : timeS r0 v0 mu chi
        = s * s * s * ((E0 + x) - e * sin (E0 + x) - (E0 - e * sin E0)).
      Proof.
        unfold timeS. fold al s0 n0. rewrite u1_x, u2_x, u3_x, Hn, Hs, sin_plus. ring.
      Qed.
      Lemma mean_E t : sqrt mu * t = s * s * s * mean_anomaly_elps a t mu.
      Proof.
        pose proof s_pos as P. pose proof a_pos as Pa. rewrite mean_anomaly_elps_R.
        assert (Q : sqrt (mu / a ^ 3) = sqrt mu / (s * s * s)).
        { assert (0 < s * s * s) by (repeat apply Rmult_lt_0_compat; lra).
          rewrite sqrt_div_alt by (apply pow_lt; lra). f_equal.
          replace (a ^ 3) with ((s * s * s) ^ 2) by (rewrite <- s_sq; ring). apply sqrt_pow2. lra. }
        rewrite Q. field. lra.
      Qed.
      Lemma uni_elps t : timeS r0 v0 mu chi - sqrt mu * t
        = s * s * s * kepler_equ_elps (E0 + x) e (E0 - e * sin E0 + mean_anomaly_elps a t mu).
      Proof. rewrite time_E, mean_E, kepler_equ_elps_R. ring. Qed.
    End WithE.
  End Ellipse.

  Section Hyperbola.
    Hypothesis HE : 0 < energy mu r0 v0.
    Let s := sqrt (- a).
    Lemma al_neg : al < 0.
    Proof.
      rewrite al_energy. replace (-2 * energy mu r0 v0 / mu) with (- ((2 * energy mu r0 v0) / mu)) by (field; lra).
      assert (0 < 2 * energy mu r0 v0 / mu) by (apply Rdiv_lt_0_compat; lra). lra.
    Qed.
    Lemma a_neg : a < 0.
    Proof. unfold a. rewrite alphaS_axis. apply Rinv_lt_0_compat, al_neg. Qed.
    Lemma hs_pos : 0 < s.
    Proof. apply sqrt_lt_R0. pose proof a_neg. lra. Qed.
    Lemma hs_sq : s * s = - a.
    Proof. apply sqrt_sqrt. pose proof a_neg. lra. Qed.
    Lemma al_hs : al = - / (s * s).
    Proof.
      rewrite hs_sq. unfold a. rewrite alphaS_axis. fold al. pose proof al_neg. field. lra.
    Qed.
    Lemma sqrt_nal : sqrt (- al) = / s.
    Proof. pose proof hs_pos. rewrite al_hs, Ropp_involutive. rewrite sqrt_inv, sqrt_square; lra. Qed.
    Lemma e_hypb : 1 < e.
    Proof. apply (conic_kind r0 v0 mu Hmu Hh). exact HE. Qed.

    Lemma ha_iff H : hyperbolic_anomaly mu a e r0 v0 H <->
      n0 = s * s * (e * cosh H - 1) /\ s0 = s * e * sinh H.
    Proof.
      unfold hyperbolic_anomaly. rewrite hs_sq. fold n0. rewrite rv_s0.
      rewrite sqrt_mult by (pose proof a_neg; lra). fold s.
      pose proof (sm_pos mu Hmu) as Q. split; intros [A B]; (split; [rewrite A; ring|]).
      - apply (Rmult_eq_reg_l (sqrt mu)); lra.
      - rewrite B. ring.
    Qed.

    Lemma ha_exists : exists! H, hyperbolic_anomaly mu a e r0 v0 H.
    Proof.
      pose proof hs_pos as P. pose proof ecc_scalar as Q. pose proof al_hs as As. pose proof e_hypb as Pe.
      set (y := s0 / (s * e)). exists (arcsinh y). split.
      - apply ha_iff. rewrite sinh_arcsinh. split; [|unfold y; field; lra].
        assert (C : 0 < cosh (arcsinh y)) by (pose proof (cosh_ge_1 (arcsinh y)); lra).
        pose proof (cosh_sinh_1 (arcsinh y)) as D. rewrite sinh_arcsinh in D.
        set (c := cosh (arcsinh y)) in *.
        assert (F : e * c = 1 - al * n0).
        { pose proof al_neg. pose proof (n0_pos r0 Hr) as N. fold n0 in N.
          assert (0 < 1 - al * n0) by nra.
          assert (G : (e * c) ^ 2 = (1 - al * n0) ^ 2).
          { replace ((e * c) ^ 2) with (e ^ 2 * (1 + y ^ 2)) by (replace (1 + y ^ 2) with (c ^ 2) by lra; ring).
            replace (e ^ 2 * (1 + y ^ 2)) with (e ^ 2 + s0 ^ 2 / (s * s)) by (unfold y; field; lra).
            rewrite Q, As. field. lra. }
          assert (0 < e * c) by (apply Rmult_lt_0_compat; lra). nra. }
        rewrite F, As. field. lra.
      - intros H HA. apply ha_iff in HA. destruct HA as [_ B].
        apply sinh_inj. rewrite sinh_arcsinh. unfold y. rewrite B. field. lra.
    Qed.

    Section WithH.
      Variable H0 : R.
      Hypothesis HH : hyperbolic_anomaly mu a e r0 v0 H0.
      Let Hn : n0 = s * s * (e * cosh H0 - 1).
      Proof. apply ha_iff in HH. tauto. Qed.
      Let Hs : s0 = s * e * sinh H0.
      Proof. apply ha_iff in HH. tauto. Qed.
      Variable chi : R.
      Let x := chi / s.
      Lemma hu0_x : U 0 chi al = cosh x.
      Proof. rewrite U0_neg, sqrt_nal by apply al_neg. f_equal. unfold x. field. pose proof hs_pos; lra. Qed.
      Lemma hu1_x : U 1 chi al = s * sinh x.
      Proof.
        pose proof hs_pos. rewrite U1_neg, sqrt_nal by apply al_neg.
        replace (/ s * chi) with x by (unfold x; field; lra). field. lra.
      Qed.
      Lemma hu2_x : U 2 chi al = s * s * (cosh x - 1).
      Proof.
        pose proof hs_pos. pose proof (U0_eq chi al) as A. rewrite hu0_x in A. pose proof al_hs as As.
        assert (B : U 2 chi al = (1 - cosh x) / al) by (pose proof al_neg; apply (Rmult_eq_reg_l al); [|lra]; field_simplify; lra).
        rewrite B, As. field. lra.
      Qed.
      Lemma hu3_x : U 3 chi al = s * s * (s * sinh x - s * x).
      Proof.
        pose proof hs_pos. pose proof (U1_eq chi al) as A. rewrite hu1_x in A. pose proof al_hs as As.
        assert (B : U 3 chi al = (chi - s * sinh x) / al) by (pose proof al_neg; apply (Rmult_eq_reg_l al); [|lra]; field_simplify; lra).
        rewrite B, As. unfold x. field. lra.
      Qed.
      Lemma ha_at : hyperbolic_anomaly mu a e (posS r0 v0 mu chi) (velS r0 v0 mu chi) (H0 + x).
      Proof.
        pose proof hs_pos. pose proof hs_sq. split.
        - rewrite (pos_norm r0 v0 mu Hmu Hr Hh). unfold radS. fold al s0 n0.
          rewrite hu0_x, hu1_x, hu2_x, Hn, Hs, cosh_plus. replace a with (- (s * s)) by lra. ring.
        - rewrite (pos_dot_vel r0 v0 mu Hmu Hr) by (apply (rad_neq r0 v0 mu Hmu Hh)).
          unfold sigS. fold al s0 n0. rewrite sqrt_mult by (pose proof a_neg; lra). fold s.
          rewrite hu0_x, hu1_x, Hn, Hs, al_hs, sinh_plus. field. lra.
      Qed.
      Lemma hmean t : sqrt mu * t = s * s * s * mean_anomaly_hypb a t mu.
      Proof.
        pose proof hs_pos as P. pose proof a_neg as Pa. rewrite mean_anomaly_hypb_R.
        assert (Q : sqrt (mu / - a ^ 3) = sqrt mu / (s * s * s)).
        { assert (0 < s * s * s) by (repeat apply Rmult_lt_0_compat; lra).
          assert (R : - a ^ 3 = (s * s * s) ^ 2) by (replace a with (- (s * s)) by (rewrite hs_sq; ring); ring).
          rewrite R. rewrite sqrt_div_alt by (apply pow_lt; lra). f_equal. apply sqrt_pow2. lra. }
        rewrite Q. field. lra.
      Qed.
      Lemma uni_hypb t : timeS r0 v0 mu chi - sqrt mu * t
        = s * s * s * kepler_equ_hypb (H0 + x) e (e * sinh H0 - H0 + mean_anomaly_hypb a t mu).
      Proof.
        rewrite hmean, kepler_equ_hypb_R. unfold timeS. fold al s0 n0.
        rewrite hu1_x, hu2_x, hu3_x, Hn, Hs, sinh_plus. ring.
      Qed.
    End WithH.
  End Hyperbola.
End Classical.

(** ** Statements *)
Lemma scaled_zero k x y : 0 < k -> x = k * y -> (x = 0 <-> y = 0).
Proof. intros Hk ->. split; [intros H; apply Rmult_integral in H; lra|intros ->; ring]. Qed.

Lemma classical_elliptic r0 v0 mu : 0 < mu -> cross r0 v0 <> vzero -> energy mu r0 v0 < 0 ->
  let a := semimajor_axis (vnorm r0) (vnorm v0) mu in
  let e := vnorm (eccentricity_vector r0 v0 mu) in
  let alpha := alpha_of (vnorm r0) (vnorm v0) mu in
  let sigma0 := sigma_fn r0 v0 mu in
  (exists E0, - PI < E0 <= PI /\ eccentric_anomaly mu a e r0 v0 E0) /\
  forall E0 chi, eccentric_anomaly mu a e r0 v0 E0 ->
    let E := E0 + chi / sqrt a in
    eccentric_anomaly mu a e (fst (state_at_chi chi alpha sigma0 (vnorm r0) r0 v0 mu))
      (snd (state_at_chi chi alpha sigma0 (vnorm r0) r0 v0 mu)) E /\
    forall t,
      kepler_equ_uni chi alpha (vnorm r0) sigma0 t mu
      = sqrt a ^ 3 * kepler_equ_elps E e (E0 - e * sin E0 + mean_anomaly_elps a t mu) /\
      (kepler_equ_uni chi alpha (vnorm r0) sigma0 t mu = 0 <->
       E - e * sin E = E0 - e * sin E0 + mean_anomaly_elps a t mu).
Proof.
  intros Hmu Hh HE. cbv zeta. split; [now apply ea_exists|].
  intros E0 chi H0. rewrite state_at_chi_S. split; [cbn [fst snd]; now apply ea_at|].
  intros t. rewrite kepler_equ_uni_S.
  pose proof (uni_elps r0 v0 mu Hmu Hh HE E0 H0 chi t) as Q.
  match type of Q with _ = ?k * ?y => assert (Q' : k * y = sqrt (semimajor_axis (vnorm r0) (vnorm v0) mu) ^ 3 * y) by ring end.
  rewrite Q' in Q. split; [exact Q|].
  rewrite (scaled_zero _ _ _ (pow_lt _ 3 (s_pos r0 v0 mu Hmu Hh HE)) Q). rewrite kepler_equ_elps_R. split; intros; lra.
Qed.

Lemma classical_hyperbolic r0 v0 mu : 0 < mu -> cross r0 v0 <> vzero -> 0 < energy mu r0 v0 ->
  let a := semimajor_axis (vnorm r0) (vnorm v0) mu in
  let e := vnorm (eccentricity_vector r0 v0 mu) in
  let alpha := alpha_of (vnorm r0) (vnorm v0) mu in
  let sigma0 := sigma_fn r0 v0 mu in
  (exists! H0, hyperbolic_anomaly mu a e r0 v0 H0) /\
  forall H0 chi, hyperbolic_anomaly mu a e r0 v0 H0 ->
    let H := H0 + chi / sqrt (- a) in
    hyperbolic_anomaly mu a e (fst (state_at_chi chi alpha sigma0 (vnorm r0) r0 v0 mu))
      (snd (state_at_chi chi alpha sigma0 (vnorm r0) r0 v0 mu)) H /\
    forall t,
      kepler_equ_uni chi alpha (vnorm r0) sigma0 t mu
      = sqrt (- a) ^ 3 * kepler_equ_hypb H e (e * sinh H0 - H0 + mean_anomaly_hypb a t mu) /\
      (kepler_equ_uni chi alpha (vnorm r0) sigma0 t mu = 0 <->
       e * sinh H - H = e * sinh H0 - H0 + mean_anomaly_hypb a t mu).
Proof.
  intros Hmu Hh HE. cbv zeta. split; [now apply ha_exists|].
  intros H0 chi HH. rewrite state_at_chi_S. split; [cbn [fst snd]; now apply ha_at|].
  intros t. rewrite kepler_equ_uni_S.
  pose proof (uni_hypb r0 v0 mu Hmu Hh HE H0 HH chi t) as Q.
  match type of Q with _ = ?k * ?y => assert (Q' : k * y = sqrt (- semimajor_axis (vnorm r0) (vnorm v0) mu) ^ 3 * y) by ring end.
  rewrite Q' in Q. split; [exact Q|].
  rewrite (scaled_zero _ _ _ (pow_lt _ 3 (hs_pos r0 v0 mu Hmu Hh HE)) Q). rewrite kepler_equ_hypb_R. split; intros; lra.
Qed.
