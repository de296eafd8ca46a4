(** * RevFacts: reverse mode on every closed formula (proofs for C84) *)
From Coq Require Import Reals Lra ZArith List Bool String.
From Coquelicot Require Import Coquelicot.
Import ListNotations.
From Verif Require Import Num NumR NumD NumV Spec SpecAd SpecRev Gravity.
From Verif Require Import OrbIntegrals Uniformulas Lagrange KepEqu RotMat OrbElements StateTrans PropKepler Trace.
From Verif Require Import AdOps AdFacts AdKep AdMore RevOps.
Local Open Scope R_scope.

Ltac mstep := match goal with
  | |- vmir _ _ _ _ => split; [| split]; cbn [c0 c1 c2]
  | |- mmir _ _ _ _ => split; [| split]; cbn [c0 c1 c2]
  | H : mir ?n ?w ?r ?d |- mir ?n ?w ?r ?d => exact H
  | |- mir _ _ (@n_add _ _ _ _) _ => apply m_add
  | |- mir _ _ (@n_sub _ _ _ _) _ => apply m_sub
  | |- mir _ _ (@n_mul _ _ _ _) _ => apply m_mul
  | |- mir _ _ (@n_div _ _ _ _) _ => apply m_div
  | |- mir _ _ (@n_neg _ _ _) _ => apply m_neg
  | |- mir _ _ (@n_abs _ _ _) _ => apply m_abs
  | |- mir _ _ (@n_sqrt _ _ _) _ => apply m_sqrt
  | |- mir _ _ (@n_cbrt _ _ _) _ => apply m_cbrt
  | |- mir _ _ (@n_sin _ _ _) _ => apply m_sin
  | |- mir _ _ (@n_cos _ _ _) _ => apply m_cos
  | |- mir _ _ (@n_sinh _ _ _) _ => apply m_sinh
  | |- mir _ _ (@n_cosh _ _ _) _ => apply m_cosh
  | |- mir _ _ (@n_log _ _ _) _ => apply m_log
  | |- mir _ _ (@n_arccos _ _ _) _ => apply m_arccos
  | |- mir _ _ (@n_arctan2 _ _ _ _) _ => apply m_arctan2
  | |- mir _ _ (@npow _ _ _ _) _ => apply m_npow
  | |- mir _ _ (@n_Z _ _ _) _ => apply m_Z
  | |- mir _ _ (@n_dec _ _ _ _) _ => apply m_dec
  | |- mir _ _ (@n_pi _ _) _ => apply m_pi
  | |- mir _ _ (if _ then _ else _) _ => apply m_if
  | H : mir ?n ?w _ _ |- @n_lt _ _ _ _ = _ => apply (m_lt n w)
  | H : mir ?n ?w _ _ |- @n_gt _ _ _ _ = _ => apply (m_gt n w)
  end.
Ltac mopen := repeat match goal with H : vmir _ _ _ _ |- _ => destruct H as [? [? ?]] end.
Ltac mirror := intros; mopen;
  unfold where_, vadd, vsub, vscale, vdivs, vneg, vcross, vector_norm, vinner, mmul, mvec, mcol, vmap3, vzip3; cbn [c0 c1 c2]; repeat mstep.

Section Fns.
  Variables (n : nat) (w : nat -> R).
  Notation M := (mir n w). Notation VM := (vmir n w). Notation MM := (mmir n w).
  Lemma m_orb_period a mu da dm : M a da -> M mu dm -> M (@orb_period _ Num_V a mu) (@orb_period _ Num_D da dm).
  Proof using. unfold orb_period. mirror. Qed.
  Lemma m_a_from_period a mu da dm : M a da -> M mu dm -> M (@a_from_period _ Num_V a mu) (@a_from_period _ Num_D da dm).
  Proof using. unfold a_from_period. mirror. Qed.
  Lemma m_semimajor_axis r v mu dr dv dm : M r dr -> M v dv -> M mu dm -> M (@semimajor_axis _ Num_V r v mu) (@semimajor_axis _ Num_D dr dv dm).
  Proof using. unfold semimajor_axis. mirror. Qed.
  Lemma m_semiparameter a mu da dm : M a da -> M mu dm -> M (@semiparameter _ Num_V a mu) (@semiparameter _ Num_D da dm).
  Proof using. unfold semiparameter. mirror. Qed.
  Lemma m_mean_motion a da : M a da -> M (@mean_motion _ Num_V a) (@mean_motion _ Num_D da).
  Proof using. unfold mean_motion. mirror. Qed.
  Lemma m_equ_of_orbit a b c da db dc : M a da -> M b db -> M c dc -> M (@equ_of_orbit _ Num_V a b c) (@equ_of_orbit _ Num_D da db dc).
  Proof using. unfold equ_of_orbit. mirror. Qed.
  Lemma m_equ_of_orb_uvi a b c e f da db dc de df : M a da -> M b db -> M c dc -> M e de -> M f df ->
    M (@equ_of_orb_uvi _ Num_V a b c e f) (@equ_of_orb_uvi _ Num_D da db dc de df).
  Proof using. unfold equ_of_orb_uvi. mirror. Qed.
  Lemma m_radius_periapsis a b da db : M a da -> M b db -> M (@radius_periapsis _ Num_V a b) (@radius_periapsis _ Num_D da db).
  Proof using. unfold radius_periapsis. mirror. Qed.
  Lemma m_radius_apoapsis a b da db : M a da -> M b db -> M (@radius_apoapsis _ Num_V a b) (@radius_apoapsis _ Num_D da db).
  Proof using. unfold radius_apoapsis. mirror. Qed.
  Lemma m_semipara_from_ae a b da db : M a da -> M b db -> M (@semipara_from_ae _ Num_V a b) (@semipara_from_ae _ Num_D da db).
  Proof using. unfold semipara_from_ae. mirror. Qed.
  Lemma m_a_from_pe a b da db : M a da -> M b db -> M (@a_from_pe _ Num_V a b) (@a_from_pe _ Num_D da db).
  Proof using. unfold a_from_pe. mirror. Qed.
  Lemma m_norm r dr : VM r dr -> M (@vector_norm _ Num_V r) (@vector_norm _ Num_D dr).
  Proof using. mirror. Qed.
  Lemma m_inner r v dr dv : VM r dr -> VM v dv -> M (@vinner _ Num_V r v) (@vinner _ Num_D dr dv).
  Proof using. mirror. Qed.
  Lemma m_cross r v dr dv : VM r dr -> VM v dv -> VM (@vcross _ Num_V r v) (@vcross _ Num_D dr dv).
  Proof using. mirror. Qed.
  Lemma m_angular_momentum r v dr dv : VM r dr -> VM v dv -> VM (@angular_momentum _ Num_V r v) (@angular_momentum _ Num_D dr dv).
  Proof using. apply m_cross. Qed.
  Lemma m_eccentricity_vector r v mu dr dv dm : VM r dr -> VM v dv -> M mu dm ->
    VM (@eccentricity_vector _ Num_V r v mu) (@eccentricity_vector _ Num_D dr dv dm).
  Proof using. unfold eccentricity_vector, angular_momentum. mirror. Qed.
  Lemma m_sigma_fn r v mu dr dv dm : VM r dr -> VM v dv -> M mu dm -> M (@sigma_fn _ Num_V r v mu) (@sigma_fn _ Num_D dr dv dm).
  Proof using. unfold sigma_fn. mirror. Qed.
  Lemma m_ufunc0 a b da db : M a da -> M b db -> M (@ufunc0 _ Num_V a b) (@ufunc0 _ Num_D da db).
  Proof using. unfold ufunc0. mirror. Qed.
  Lemma m_ufunc1 a b da db : M a da -> M b db -> M (@ufunc1 _ Num_V a b) (@ufunc1 _ Num_D da db).
  Proof using. unfold ufunc1. mirror. Qed.
  Lemma m_ufunc2 a b da db : M a da -> M b db -> M (@ufunc2 _ Num_V a b) (@ufunc2 _ Num_D da db).
  Proof using. unfold ufunc2. mirror. Qed.
  Lemma m_ufunc3 a b da db : M a da -> M b db -> M (@ufunc3 _ Num_V a b) (@ufunc3 _ Num_D da db).
  Proof using. unfold ufunc3. mirror. Qed.
  Lemma m_ufunc4 a b da db : M a da -> M b db -> M (@ufunc4 _ Num_V a b) (@ufunc4 _ Num_D da db).
  Proof using. unfold ufunc4. mirror. Qed.
  Lemma m_ufunc5 a b da db : M a da -> M b db -> M (@ufunc5 _ Num_V a b) (@ufunc5 _ Num_D da db).
  Proof using. unfold ufunc5. mirror. Qed.
  Lemma m_lagrange_F a b da db : M a da -> M b db -> M (@lagrange_F _ Num_V a b) (@lagrange_F _ Num_D da db).
  Proof using. unfold lagrange_F. mirror. Qed.
  Lemma m_lagrange_Gt a b da db : M a da -> M b db -> M (@lagrange_Gt _ Num_V a b) (@lagrange_Gt _ Num_D da db).
  Proof using. unfold lagrange_Gt. mirror. Qed.
  Lemma m_lagrange_G a b c e f da db dc de df : M a da -> M b db -> M c dc -> M e de -> M f df ->
    M (@lagrange_G _ Num_V a b c e f) (@lagrange_G _ Num_D da db dc de df).
  Proof using. unfold lagrange_G. mirror. Qed.
  Lemma m_lagrange_Ft a b c e da db dc de : M a da -> M b db -> M c dc -> M e de ->
    M (@lagrange_Ft _ Num_V a b c e) (@lagrange_Ft _ Num_D da db dc de).
  Proof using. unfold lagrange_Ft. mirror. Qed.
  Lemma m_kepler_equ_elps a b c da db dc : M a da -> M b db -> M c dc -> M (@kepler_equ_elps _ Num_V a b c) (@kepler_equ_elps _ Num_D da db dc).
  Proof using. unfold kepler_equ_elps. mirror. Qed.
  Lemma m_kepler_equ_hypb a b c da db dc : M a da -> M b db -> M c dc -> M (@kepler_equ_hypb _ Num_V a b c) (@kepler_equ_hypb _ Num_D da db dc).
  Proof using. unfold kepler_equ_hypb. mirror. Qed.
  Lemma m_mean_anomaly_elps a b c da db dc : M a da -> M b db -> M c dc -> M (@mean_anomaly_elps _ Num_V a b c) (@mean_anomaly_elps _ Num_D da db dc).
  Proof using. unfold mean_anomaly_elps. mirror. Qed.
  Lemma m_mean_anomaly_hypb a b c da db dc : M a da -> M b db -> M c dc -> M (@mean_anomaly_hypb _ Num_V a b c) (@mean_anomaly_hypb _ Num_D da db dc).
  Proof using. unfold mean_anomaly_hypb. mirror. Qed.
  Lemma m_generalized_anomaly a b c e f da db dc de df : M a da -> M b db -> M c dc -> M e de -> M f df ->
    M (@generalized_anomaly _ Num_V a b c e f) (@generalized_anomaly _ Num_D da db dc de df).
  Proof using. unfold generalized_anomaly. mirror. Qed.
  Lemma m_kepler_equ_uni a b c e f g da db dc de df dg : M a da -> M b db -> M c dc -> M e de -> M f df -> M g dg ->
    M (@kepler_equ_uni _ Num_V a b c e f g) (@kepler_equ_uni _ Num_D da db dc de df dg).
  Proof using.
    intros. pose proof (m_ufunc1 a b da db ltac:(assumption) ltac:(assumption)). pose proof (m_ufunc2 a b da db ltac:(assumption) ltac:(assumption)).
    pose proof (m_ufunc3 a b da db ltac:(assumption) ltac:(assumption)). unfold kepler_equ_uni. mirror.
  Qed.
  Lemma m_dchi a b c e da db dc de : M a da -> M b db -> M c dc -> M e de -> M (@dchi _ Num_V a b c e) (@dchi _ Num_D da db dc de).
  Proof using.
    intros. pose proof (m_ufunc1 a b da db ltac:(assumption) ltac:(assumption)). pose proof (m_ufunc2 a b da db ltac:(assumption) ltac:(assumption)).
    pose proof (m_ufunc0 a b da db ltac:(assumption) ltac:(assumption)). unfold dchi, equ_of_orb_uvi. mirror.
  Qed.
  Lemma m_C_func a b c e f g da db dc de df dg : M a da -> M b db -> M c dc -> M e de -> M f df -> M g dg ->
    M (@C_func _ Num_V a b c e f g) (@C_func _ Num_D da db dc de df dg).
  Proof using. unfold C_func. mirror. Qed.
  Lemma m_state_at_chi a b c e r v g da db dc de dr dv dg : M a da -> M b db -> M c dc -> M e de -> VM r dr -> VM v dv -> M g dg ->
    VM (fst (@state_at_chi _ Num_V a b c e r v g)) (fst (@state_at_chi _ Num_D da db dc de dr dv dg)) /\
    VM (snd (@state_at_chi _ Num_V a b c e r v g)) (snd (@state_at_chi _ Num_D da db dc de dr dv dg)).
  Proof using.
    intros. pose proof (m_ufunc1 a b da db ltac:(assumption) ltac:(assumption)) as U1. pose proof (m_ufunc2 a b da db ltac:(assumption) ltac:(assumption)) as U2.
    pose proof (m_ufunc0 a b da db ltac:(assumption) ltac:(assumption)) as U0.
    pose proof (m_equ_of_orb_uvi _ _ _ e c _ _ _ de dc U0 U1 U2 ltac:(assumption) ltac:(assumption)) as RR.
    pose proof (m_lagrange_F _ e _ de U2 ltac:(assumption)). pose proof (m_lagrange_G _ _ c e g _ _ dc de dg U1 U2 ltac:(assumption) ltac:(assumption) ltac:(assumption)).
    pose proof (m_lagrange_Ft _ _ e g _ _ de dg U1 RR ltac:(assumption) ltac:(assumption)). pose proof (m_lagrange_Gt _ _ _ _ U2 RR).
    unfold state_at_chi, lagrange_prop. cbv zeta. cbn [fst snd]. split; mirror.
  Qed.
  Lemma m_rotmat3dx a da : M a da -> MM (@rotmat3dx _ Num_V a) (@rotmat3dx _ Num_D da). Proof using. unfold rotmat3dx. mirror. Qed.
  Lemma m_rotmat3dy a da : M a da -> MM (@rotmat3dy _ Num_V a) (@rotmat3dy _ Num_D da). Proof using. unfold rotmat3dy. mirror. Qed.
  Lemma m_rotmat3dz a da : M a da -> MM (@rotmat3dz _ Num_V a) (@rotmat3dz _ Num_D da). Proof using. unfold rotmat3dz. mirror. Qed.
  Lemma m_mmul A B dA dB : MM A dA -> MM B dB -> MM (@mmul _ Num_V A B) (@mmul _ Num_D dA dB).
  Proof using. intros [? [? ?]] [? [? ?]]. mopen. unfold mmul, mcol, vmap3, vinner; cbn [c0 c1 c2]. repeat mstep. Qed.
  Lemma m_mvec A v dA dv : MM A dA -> VM v dv -> VM (@mvec _ Num_V A v) (@mvec _ Num_D dA dv).
  Proof using. intros [? [? ?]] ?. mopen. unfold mvec, vmap3, vinner; cbn [c0 c1 c2]. repeat mstep. Qed.
  Lemma m_coe2rv a b c e f g h da db dc de df dg dh : M a da -> M b db -> M c dc -> M e de -> M f df -> M g dg -> M h dh ->
    VM (fst (@coe2rv _ Num_V a b c e f g h)) (fst (@coe2rv _ Num_D da db dc de df dg dh)) /\
    VM (snd (@coe2rv _ Num_V a b c e f g h)) (snd (@coe2rv _ Num_D da db dc de df dg dh)).
  Proof using.
    intros. unfold coe2rv. cbv zeta. cbn [fst snd].
    pose proof (m_mmul _ _ _ _ (m_mmul _ _ _ _ (m_rotmat3dz e de ltac:(assumption)) (m_rotmat3dx c dc ltac:(assumption))) (m_rotmat3dz f df ltac:(assumption))).
    split; (apply m_mvec; [assumption |]); mirror.
  Qed.
  Lemma m_norm_first3 a b c l da db dc l' : M a da -> M b db -> M c dc ->
    M (@norm_first3 _ Num_V (a :: b :: c :: l)) (@norm_first3 _ Num_D (da :: db :: dc :: l')).
  Proof using. unfold norm_first3. cbn [firstn sumsq fold_left]. mirror. Qed.
  Lemma m_pm_form a b c r mu da db dc dr dm : M a da -> M b db -> M c dc -> M r dr -> M mu dm ->
    VM (@pm_form _ Num_V a b c r mu) (@pm_form _ Num_D da db dc dr dm).
  Proof using. unfold pm_form. mirror. Qed.
  Lemma m_j2_form a b c r mu J Q da db dc dr dm dJ dQ : M a da -> M b db -> M c dc -> M r dr -> M mu dm -> M J dJ -> M Q dQ ->
    VM (@j2_form _ Num_V a b c r mu J Q) (@j2_form _ Num_D da db dc dr dm dJ dQ).
  Proof using. unfold j2_form. mirror. Qed.
  Lemma m_j3_form a b c r mu J Q da db dc dr dm dJ dQ : M a da -> M b db -> M c dc -> M r dr -> M mu dm -> M J dJ -> M Q dQ ->
    VM (@j3_form _ Num_V a b c r mu J Q) (@j3_form _ Num_D da db dc dr dm dJ dQ).
  Proof using. unfold j3_form. mirror. Qed.
  Lemma m_j4_form a b c r mu J Q da db dc dr dm dJ dQ : M a da -> M b db -> M c dc -> M r dr -> M mu dm -> M J dJ -> M Q dQ ->
    VM (@j4_form _ Num_V a b c r mu J Q) (@j4_form _ Num_D da db dc dr dm dJ dQ).
  Proof using. unfold j4_form. mirror. Qed.
  Lemma m_inclination h dh : VM h dh -> M (@inclination _ Num_V h) (@inclination _ Num_D dh). Proof using. unfold inclination. mirror. Qed.
  Lemma m_node_vec h dh : VM h dh -> VM (@node_vec _ Num_V h) (@node_vec _ Num_D dh). Proof using. unfold node_vec. mirror. Qed.
  Lemma m_right_ascension h dh : VM h dh -> M (@right_ascension _ Num_V h) (@right_ascension _ Num_D dh). Proof using. unfold right_ascension. mirror. Qed.
  Lemma m_true_anomaly a b da db : VM a da -> VM b db -> M (@true_anomaly _ Num_V a b) (@true_anomaly _ Num_D da db).
  Proof using.
    intros H K. pose proof (m_norm _ _ (m_cross _ _ _ _ K H)). pose proof (m_inner _ _ _ _ K H). unfold true_anomaly, where_. cbv zeta. repeat mstep.
  Qed.
  Lemma m_argument_of_periapsis a b da db : VM a da -> VM b db -> M (@argument_of_periapsis _ Num_V a b) (@argument_of_periapsis _ Num_D da db).
  Proof using.
    intros H K. pose proof (m_norm _ _ (m_cross _ _ _ _ H K)). pose proof (m_inner _ _ _ _ H K). unfold argument_of_periapsis, where_. cbv zeta. repeat mstep.
  Qed.
  Lemma m_rv2coe r v mu dr dv dm : VM r dr -> VM v dv -> M mu dm ->
    let k := @rv2coe _ Num_V r v mu in let d := @rv2coe _ Num_D dr dv dm in
    M (coe_p k) (coe_p d) /\ M (coe_e k) (coe_e d) /\ M (coe_incl k) (coe_incl d) /\ M (coe_raan k) (coe_raan d) /\
    M (coe_argp k) (coe_argp d) /\ M (coe_f k) (coe_f d).
  Proof using.
    intros Hr Hv Hm. pose proof (m_angular_momentum _ _ _ _ Hr Hv) as Hh. pose proof (m_eccentricity_vector _ _ _ _ _ _ Hr Hv Hm) as He.
    pose proof (m_node_vec _ _ Hh) as Hn. unfold rv2coe. cbv zeta. cbn [coe_p coe_e coe_incl coe_raan coe_argp coe_f].
    split; [apply m_semiparameter; [apply m_norm; assumption | assumption] |]. split; [apply m_norm; assumption |].
    split; [apply m_inclination; assumption |]. split; [apply m_right_ascension; assumption |].
    split; [apply m_argument_of_periapsis; assumption | apply m_true_anomaly; assumption].
  Qed.
End Fns.
