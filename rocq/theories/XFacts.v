(** * XFacts: infinities and NaN (proofs for C47 and C52) *)
From Coq Require Import Reals Lra Lia Psatz ZArith List String.
From Coquelicot Require Import Coquelicot.
From Verif Require Import Num NumR NumX Spec SpecX RLib RotMat Uniformulas Lagrange OrbIntegrals KepEqu StateTrans
  OrbElements PathCheck PropKepler Gravity SeriesU UFacts OrbFacts KepState LoopFacts KepMotion TwoBody KepRows Lift LiftMore Equi EquiExamples.
Import ListNotations.
Local Open Scope R_scope.

Lemma finv_v a : finv a = vmap3 Fin a.
Proof. reflexivity. Qed.
Lemma somev_v a : somev a = vmap3 Some a.
Proof. reflexivity. Qed.
Lemma energy_alpha mu r v : 0 < mu -> r <> vzero ->
  2 / vnorm r - vnorm v ^ 2 / mu = - (2 / mu) * energy mu r v.
Proof.
  intros Hm Hr. pose proof (vnorm_pos _ Hr). unfold energy. rewrite <- vnorm_sq2. field. lra.
Qed.
Lemma energy_neq mu r v : 0 < mu -> r <> vzero -> energy mu r v <> 0 -> 2 / vnorm r - vnorm v ^ 2 / mu <> 0.
Proof.
  intros Hm Hr He. rewrite energy_alpha by auto. apply Rmult_integral_contrapositive. split; [|exact He].
  apply Ropp_neq_0_compat, Rgt_not_eq, Rdiv_lt_0_compat; lra.
Qed.

Lemma kepler_signal ts r v mu : 0 < mu -> cross r v <> vzero -> energy mu r v <> 0 ->
  @kepler (option R) Num_S (map Some ts) (somev r) (somev v) (Some mu) = map some2 (kepler ts r v mu).
Proof.
  intros Hm Hh He. pose proof (r_of_h _ _ Hh) as Hr. apply (l_kepler Some embeds_S); auto.
  apply (l_alpha Some embeds_S); [apply Rgt_not_eq, vnorm_pos, Hr|lra|now apply energy_neq].
Qed.

Lemma alpha_X_zero r v mu : 0 < r -> 0 < mu -> 2 / r - v ^ 2 / mu = 0 ->
  @semimajor_axis X Num_X (Fin r) (Fin v) (Fin mu) = PInf /\ @alpha_of X Num_X (Fin r) (Fin v) (Fin mu) = Fin 0.
Proof.
  intros Hr Hm H.
  assert (S : @semimajor_axis X Num_X (Fin r) (Fin v) (Fin mu) = PInf).
  { unfold semimajor_axis. cbn [n_div n_Z n_sub npow npow_aux mul_opt n_mul Num_X]. unfold npow; cbn [npow_aux mul_opt n_mul Num_X x_mul].
    unfold x_div. destruct (Req_EM_T r 0); [lra|]. destruct (Req_EM_T mu 0); [lra|]. cbn [x_sub].
    replace (v * v) with (v ^ 2) by ring. destruct (Req_EM_T (2 / r - v ^ 2 / mu) 0) as [_|C]; [|contradiction].
    destruct (Req_EM_T 1 0); [lra|]. unfold x_is_neg, ltb. destruct (Rlt_dec 1 0); [lra|reflexivity]. }
  split; [exact S|]. unfold alpha_of. rewrite S. reflexivity.
Qed.
Lemma alpha_X r v mu : 0 < mu -> r <> vzero ->
  @alpha_of X Num_X (Fin (vnorm r)) (Fin (vnorm v)) (Fin mu) = Fin (alpha_of (vnorm r) (vnorm v) mu).
Proof.
  intros Hm Hr. pose proof (vnorm_pos _ Hr).
  destruct (Req_dec (2 / vnorm r - vnorm v ^ 2 / mu) 0) as [Z|Z].
  - rewrite (proj2 (alpha_X_zero _ _ _ H Hm Z)), alpha_of_R, Z. reflexivity.
  - apply (l_alpha Fin embeds_X); auto; lra.
Qed.
Lemma kepler_X ts r v mu : 0 < mu -> cross r v <> vzero ->
  @kepler X Num_X (map Fin ts) (finv r) (finv v) (Fin mu) = map fin2 (kepler ts r v mu).
Proof.
  intros Hm Hh. apply (l_kepler Fin embeds_X); auto. apply alpha_X; auto. now apply r_of_h in Hh.
Qed.

(** ** Parabolas *)
Lemma parabola_X r v mu : 0 < mu -> cross r v <> vzero -> energy mu r v = 0 ->
  @semimajor_axis X Num_X (Fin (vnorm r)) (Fin (vnorm v)) (Fin mu) = PInf /\
  @alpha_of X Num_X (Fin (vnorm r)) (Fin (vnorm v)) (Fin mu) = Fin 0 /\
  forall t chi : R, vnorm r * chi + dot r v / sqrt mu * (chi ^ 2 / 2) + chi ^ 3 / 6 = sqrt mu * t ->
  exists r' v' : vec, flows_to mu t (r, v) (r', v') /\
    @state_at_chi X Num_X (Fin chi) (Fin 0) (@sigma_fn X Num_X (finv r) (finv v) (Fin mu)) (Fin (vnorm r))
      (finv r) (finv v) (Fin mu) = (finv r', finv v').
Proof.
  intros Hm Hh He. pose proof (r_of_h _ _ Hh) as Hr. pose proof (vnorm_pos _ Hr) as P.
  assert (Z : 2 / vnorm r - vnorm v ^ 2 / mu = 0) by (rewrite energy_alpha, He by auto; ring).
  destruct (alpha_X_zero _ _ _ P Hm Z) as [A B]. split; [exact A|]. split; [exact B|].
  intros t chi Hc. assert (A0 : alpha_of (vnorm r) (vnorm v) mu = 0) by now rewrite alpha_of_R, Z.
  pose proof (flow_kepler mu t chi r v Hm Hh) as F. cbv zeta in F. rewrite A0 in F.
  rewrite kepler_equ_uni_R, !U_alpha0 in F.
  assert (Q : vnorm r * (chi ^ 1 / INR (fact 1)) + sigma_fn r v mu * (chi ^ 2 / INR (fact 2)) + chi ^ 3 / INR (fact 3)
              - sqrt mu * t = 0).
  { rewrite sigma_fn_R, <- Hc. simpl. field. apply Rgt_not_eq, sqrt_lt_R0, Hm. }
  specialize (F Q).
  exists (fst (state_at_chi chi 0 (sigma_fn r v mu) (vnorm r) r v mu)), (snd (state_at_chi chi 0 (sigma_fn r v mu) (vnorm r) r v mu)).
  split; [rewrite <- surjective_pairing; exact F|].
  rewrite !finv_v, (l_sigma Fin embeds_X) by auto. apply (l_state Fin embeds_X); [auto| |lra].
  intros x. pose proof (rad_neq r v mu Hm Hh x) as N. rewrite <- dchi_S, A0 in N. exact N.
Qed.

(** ** Exceptional inputs *)
Lemma x_div_zero a : 0 < a -> x_div (Fin a) (Fin 0) = PInf.
Proof.
  intros H. unfold x_div. destruct (Req_EM_T 0 0); [|lra]. destruct (Req_EM_T a 0); [lra|].
  unfold x_is_neg, ltb. destruct (Rlt_dec a 0); [lra|reflexivity].
Qed.
Lemma x_div_zz : x_div (Fin 0) (Fin 0) = NaN.
Proof. unfold x_div. destruct (Req_EM_T 0 0); [|lra]. reflexivity. Qed.
Lemma x_div_fin a b : b <> 0 -> x_div (Fin a) (Fin b) = Fin (a / b).
Proof. intros. unfold x_div. destruct (Req_EM_T b 0); [contradiction|reflexivity]. Qed.
Lemma x_sqrt_neg a : a < 0 -> x_sqrt (Fin a) = NaN.
Proof. intros. unfold x_sqrt. destruct (Rlt_dec a 0); [reflexivity|lra]. Qed.
Lemma norm_zero : @vector_norm X Num_X (finv vzero) = Fin 0.
Proof.
  rewrite !finv_v, (l_norm Fin embeds_X). f_equal. change (vector_norm vzero) with (vnorm vzero).
  unfold vnorm, dot, vzero. cbn [c0 c1 c2]. replace (0 * 0 + 0 * 0 + 0 * 0) with 0 by ring. apply sqrt_0.
Qed.

(** NaN absorbs. *)
Lemma nan_add_l b : x_add NaN b = NaN. Proof. destruct b; reflexivity. Qed.
Lemma nan_add_r a : x_add a NaN = NaN. Proof. destruct a; reflexivity. Qed.
Lemma nan_sub_l b : x_sub NaN b = NaN. Proof. destruct b; reflexivity. Qed.
Lemma nan_sub_r a : x_sub a NaN = NaN. Proof. destruct a; reflexivity. Qed.
Lemma nan_mul_l b : x_mul NaN b = NaN. Proof. destruct b; reflexivity. Qed.
Lemma nan_mul_r a : x_mul a NaN = NaN. Proof. destruct a; reflexivity. Qed.
Lemma nan_div_l b : x_div NaN b = NaN. Proof. destruct b; reflexivity. Qed.
Lemma nan_div_r a : x_div a NaN = NaN. Proof. destruct a; reflexivity. Qed.
Lemma nan_lt_l b : x_lt NaN b = false. Proof. destruct b; reflexivity. Qed.
Lemma nan_lt_r a : x_lt a NaN = false. Proof. destruct a; reflexivity. Qed.
Lemma nan_neg : x_neg NaN = NaN. Proof. reflexivity. Qed.
Lemma nan_sqrt : x_sqrt NaN = NaN. Proof. reflexivity. Qed.
Lemma nan_abs : x_abs NaN = NaN. Proof. reflexivity. Qed.
Lemma nan_map f a b : x_map f a b NaN = NaN. Proof. reflexivity. Qed.
Ltac xn := rewrite ?nan_add_l, ?nan_add_r, ?nan_sub_l, ?nan_sub_r, ?nan_mul_l, ?nan_mul_r, ?nan_div_l, ?nan_div_r,
  ?nan_lt_l, ?nan_lt_r, ?nan_neg, ?nan_sqrt, ?nan_abs, ?nan_map.
Ltac xops := cbn [n_Z n_dec n_pi n_add n_sub n_mul n_div n_neg n_abs n_sqrt n_cbrt n_sin n_cos n_sinh n_cosh n_log
  n_arccos n_arctan2 n_floor n_max n_lt Num_X].
Ltac xnn := repeat (progress (xops; xn)).

Lemma nan_ufunc alpha :
  @ufunc1 X Num_X NaN alpha = NaN /\ @ufunc2 X Num_X NaN alpha = NaN /\ @ufunc3 X Num_X NaN alpha = NaN.
Proof.
  unfold ufunc1, ufunc2, ufunc3, npow; cbn [npow_aux mul_opt]. unfold where_.
  destruct (@n_gt X Num_X alpha (@n_Z X Num_X 0)); [|destruct (@n_lt X Num_X alpha (@n_Z X Num_X 0))]; xnn; auto.
Qed.
Lemma nan_equ chi alpha r0 s t mu : @ufunc1 X Num_X chi alpha = NaN ->
  @kepler_equ_uni X Num_X chi alpha r0 s t mu = NaN.
Proof. intros H. unfold kepler_equ_uni. rewrite H. xnn. reflexivity. Qed.
Lemma nan_state chi alpha s r0 r v mu : @ufunc1 X Num_X chi alpha = NaN -> @ufunc2 X Num_X chi alpha = NaN ->
  @state_at_chi X Num_X chi alpha s r0 r v mu = (nan3, nan3).
Proof.
  intros H1 H2. unfold state_at_chi, lagrange_F, lagrange_G, lagrange_Ft, lagrange_Gt. rewrite H1, H2. cbv zeta. xnn.
  unfold lagrange_prop, vadd, vscale, vzip3, vmap3, nan3. cbn [c0 c1 c2]. xnn. reflexivity.
Qed.
Lemma nan_solver t alpha r0 s mu :
  @ufunc1 X Num_X (@uni_guess X Num_X t alpha mu) alpha = NaN ->
  @solve_kepler_uni X Num_X t alpha r0 s mu (@default_tol X Num_X) uni_max_iter = @uni_guess X Num_X t alpha mu.
Proof.
  intros H. unfold solve_kepler_uni, uni_run, loop_fuel. cbn [while_fuel]. unfold uni_init at 1, uni_cond.
  rewrite (nan_equ _ _ _ _ _ _ H). unfold exceeds, n_gt. xnn. cbn [andb]. reflexivity.
Qed.
Lemma nan_row t r v mu :
  let alpha := @alpha_of X Num_X (@vector_norm X Num_X r) (@vector_norm X Num_X v) mu in
  @ufunc1 X Num_X (@uni_guess X Num_X t alpha mu) alpha = NaN ->
  @ufunc2 X Num_X (@uni_guess X Num_X t alpha mu) alpha = NaN ->
  @kepler1 X Num_X t r v mu = (nan3, nan3).
Proof. intros alpha H1 H2. unfold kepler1. cbv zeta. fold alpha. rewrite nan_solver by exact H1. now apply nan_state. Qed.
Lemma nan_row_guess t r v mu :
  @uni_guess X Num_X t (@alpha_of X Num_X (@vector_norm X Num_X r) (@vector_norm X Num_X v) mu) mu = NaN ->
  @kepler1 X Num_X t r v mu = (nan3, nan3).
Proof. intros H. apply nan_row; rewrite H; apply nan_ufunc. Qed.

Lemma has_nan_norm a : has_nan a -> @vector_norm X Num_X a = NaN.
Proof.
  unfold vector_norm, vinner. intros [H|[H|H]]; rewrite H; xnn; reflexivity.
Qed.
Lemma kepler_bad t r v mu : bad_input t r v mu -> @kepler1 X Num_X t r v mu = (nan3, nan3).
Proof.
  intros H. destruct H as [r v mu|t r v mu H|t r v mu H|t r v|t r v m H|t v m H].
  - apply nan_row_guess. unfold uni_guess. xnn. reflexivity.
  - apply nan_row_guess. rewrite (has_nan_norm r H). unfold alpha_of, semimajor_axis, uni_guess. xnn. reflexivity.
  - apply nan_row_guess. rewrite (has_nan_norm v H). unfold alpha_of, semimajor_axis, uni_guess, npow. cbn [npow_aux mul_opt]. xnn. reflexivity.
  - apply nan_row_guess. unfold uni_guess. xnn. reflexivity.
  - apply nan_row_guess. unfold uni_guess. xops. rewrite x_sqrt_neg by exact H. xnn. reflexivity.
  - change (mk3 (Fin 0) (Fin 0) (Fin 0)) with (finv vzero).
    assert (A : @alpha_of X Num_X (@vector_norm X Num_X (finv vzero)) (@vector_norm X Num_X (finv v)) (Fin m) = PInf).
    { rewrite norm_zero. rewrite !finv_v, (l_norm Fin embeds_X). unfold alpha_of, semimajor_axis, npow. cbn [npow_aux mul_opt].
      xops. rewrite x_div_zero by lra. cbn [x_mul]. rewrite x_div_fin by lra. cbn [x_sub x_add x_neg].
      change (x_div (Fin 1) PInf) with (Fin 0). apply x_div_zero. lra. }
    assert (G : forall c, c = @uni_guess X Num_X (Fin t) PInf (Fin m) -> match c with Fin _ => False | _ => True end).
    { intros c ->. unfold uni_guess. xops. unfold x_sqrt. destruct (Rlt_dec m 0); [lra|]. cbn [x_abs x_mul].
      pose proof (sqrt_lt_R0 m H). unfold x_scale_inf at 1. destruct (Req_EM_T (sqrt m) 0); [lra|].
      destruct (xorb _ _); cbn [x_signed x_mul]; unfold x_scale_inf; destruct (Req_EM_T t 0); auto; destruct (xorb _ _); cbn [x_signed]; auto. }
    apply nan_row; rewrite A; specialize (G _ eq_refl); destruct uni_guess; try contradiction; reflexivity.
Qed.
Lemma kepler_bad_rows ts r v mu : (forall t, In t ts -> bad_input t r v mu) ->
  @kepler X Num_X ts r v mu = map (fun _ => (nan3, nan3)) ts.
Proof.
  intros H. rewrite kepler_map. apply map_ext_in. intros t Ht. apply kepler_bad. auto.
Qed.

(** ** The other functions off their domain *)
Lemma dot_zero_l a : dot vzero a = 0.
Proof. unfold dot, vzero; cbn [c0 c1 c2]; ring. Qed.
Lemma cross_zero_l a : cross vzero a = vzero.
Proof. unfold cross, vzero; cbn [c0 c1 c2]; apply mk3_eq; ring. Qed.
Lemma ecc_vec_origin v m : m <> 0 -> @eccentricity_vector X Num_X (finv vzero) (finv v) (Fin m) = nan3.
Proof.
  intros H. unfold eccentricity_vector. cbv zeta. rewrite norm_zero. unfold vsub, vdivs, vzip3, vmap3, finv, vzero, nan3.
  cbn [c0 c1 c2 vmap3]. xops. rewrite x_div_zz. xnn. reflexivity.
Qed.
Lemma nan3_norm : @vector_norm X Num_X nan3 = NaN.
Proof. apply has_nan_norm. left. reflexivity. Qed.
Lemma inclination_zero : @inclination X Num_X (finv vzero) = NaN.
Proof. unfold inclination. rewrite norm_zero. unfold finv, vzero, vmap3. cbn [c0 c1 c2]. xops. now rewrite x_div_zz. Qed.
Ltac wrapn := unfold where_; xops; rewrite ?nan_lt_l; reflexivity.
Lemma rv2coe_origin v m : m <> 0 ->
  let x := @rv2coe X Num_X (finv vzero) (finv v) (Fin m) in
  coe_e x = NaN /\ coe_incl x = NaN /\ coe_argp x = NaN /\ coe_f x = NaN.
Proof.
  intros H. unfold rv2coe, angular_momentum. cbv zeta. cbn [coe_e coe_incl coe_argp coe_f].
  rewrite (ecc_vec_origin v m H), nan3_norm. rewrite !finv_v, (l_cross Fin embeds_X).
  change (vcross vzero v) with (cross vzero v). rewrite cross_zero_l.
  split; [reflexivity|]. split; [apply inclination_zero|]. split.
  - unfold argument_of_periapsis. cbv zeta. unfold vcross, vinner, nan3. cbn [c0 c1 c2]. xops. xnn. cbn [x_arctan2].
    match goal with |- context [x_arctan2 ?a NaN] => assert (Q : x_arctan2 a NaN = NaN) by (destruct a; reflexivity); rewrite Q end.
    wrapn.
  - unfold true_anomaly. cbv zeta. unfold vinner, nan3. cbn [c0 c1 c2]. xops. xnn.
    match goal with |- context [x_arctan2 ?a NaN] => assert (Q : x_arctan2 a NaN = NaN) by (destruct a; reflexivity); rewrite Q end.
    wrapn.
Qed.
Lemma rectilinear_incl r v m : cross r v = vzero -> coe_incl (@rv2coe X Num_X (finv r) (finv v) (Fin m)) = NaN.
Proof.
  intros H. unfold rv2coe, angular_momentum. cbv zeta. cbn [coe_incl]. rewrite !finv_v, (l_cross Fin embeds_X).
  change (vcross r v) with (cross r v). rewrite H. apply inclination_zero.
Qed.
Lemma coe2rv_asymptote p e i O w nu mu : 0 < p -> 1 + e * cos nu = 0 ->
  fst (@coe2rv X Num_X (Fin p) (Fin e) (Fin i) (Fin O) (Fin w) (Fin nu) (Fin mu)) = nan3.
Proof.
  intros Hp H. unfold coe2rv. cbv zeta. cbn [fst]. xops. cbn [x_map x_mul x_add]. rewrite H, x_div_zero by exact Hp.
  unfold vscale, vmap3, mvec. cbn [c0 c1 c2]. xops. cbn [x_mul]. unfold x_scale_inf at 3. destruct (Req_EM_T 0 0); [|lra].
  unfold vinner; cbn [c0 c1 c2]. unfold nan3, vmap3. cbn [c0 c1 c2]. xnn. reflexivity.
Qed.
Lemma Rmult_pos_neg a b : 0 < a -> b < 0 -> a * b < 0.
Proof. intros; nra. Qed.
Lemma Rmult_neg_pos a b : a < 0 -> 0 < b -> a * b < 0.
Proof. intros; nra. Qed.
Lemma coe2rv_neg p e i O w nu mu : p < 0 -> 0 < mu ->
  snd (@coe2rv X Num_X (Fin p) (Fin e) (Fin i) (Fin O) (Fin w) (Fin nu) (Fin mu)) = nan3.
Proof.
  intros Hp Hm. assert (Q : mu / p < 0) by (apply Rmult_pos_neg; [lra|apply Rinv_lt_0_compat; lra]).
  unfold coe2rv. cbv zeta. cbn [snd]. xops. rewrite x_div_fin, x_sqrt_neg by lra.
  unfold vscale, vmap3, mvec. cbn [c0 c1 c2]. unfold vinner, vmap3, nan3; cbn [c0 c1 c2]. xnn. reflexivity.
Qed.
Lemma div_neg_cube a mu : a < 0 -> 0 < mu -> mu / a ^ 3 < 0 /\ a ^ 3 / mu < 0 /\ a ^ 3 < 0.
Proof.
  intros Ha Hm. assert (C : a ^ 3 < 0) by (replace (a ^ 3) with (a * (a * a)) by ring; apply Rmult_neg_pos; [exact Ha|nra]). split; [|split; [|exact C]].
  - apply Rmult_pos_neg; [lra|now apply Rinv_lt_0_compat].
  - apply Rmult_neg_pos; [lra|now apply Rinv_0_lt_compat].
Qed.
Lemma npow3_X a : @npow X Num_X (Fin a) 3 = Fin (a ^ 3).
Proof. unfold npow. cbn [npow_aux mul_opt]. xops. cbn [x_mul]. f_equal. ring. Qed.
Lemma npow2_X a : @npow X Num_X (Fin a) 2 = Fin (a ^ 2).
Proof. unfold npow. cbn [npow_aux mul_opt]. xops. cbn [x_mul]. f_equal. ring. Qed.
Lemma period_neg a mu : a < 0 -> 0 < mu -> @orb_period X Num_X (Fin a) (Fin mu) = NaN.
Proof.
  intros Ha Hm. destruct (div_neg_cube a mu Ha Hm) as [_ [Q _]]. unfold orb_period. rewrite npow3_X. xops.
  rewrite x_div_fin, x_sqrt_neg by lra. xnn. reflexivity.
Qed.
Lemma mean_elps_neg a t mu : a < 0 -> 0 < mu -> @mean_anomaly_elps X Num_X (Fin a) (Fin t) (Fin mu) = NaN.
Proof.
  intros Ha Hm. destruct (div_neg_cube a mu Ha Hm) as [Q [_ C]]. unfold mean_anomaly_elps. rewrite npow3_X. xops.
  rewrite x_div_fin, x_sqrt_neg by lra. xnn. reflexivity.
Qed.
Lemma mean_hypb_pos a t mu : 0 < a -> 0 < mu -> @mean_anomaly_hypb X Num_X (Fin a) (Fin t) (Fin mu) = NaN.
Proof.
  intros Ha Hm. assert (C : 0 < a ^ 3) by now apply pow_lt. unfold mean_anomaly_hypb. rewrite npow3_X. xops. cbn [x_neg].
  assert (Q : mu / - a ^ 3 < 0) by (apply Rmult_pos_neg; [lra|apply Rinv_lt_0_compat; lra]).
  rewrite x_div_fin, x_sqrt_neg by lra. xnn. reflexivity.
Qed.
Lemma apoapsis_parabola p : 0 < p -> @radius_apoapsis X Num_X (Fin p) (Fin 1) = PInf /\ @a_from_pe X Num_X (Fin p) (Fin 1) = PInf.
Proof.
  intros Hp. unfold radius_apoapsis, a_from_pe. rewrite npow2_X. xops. cbn [x_sub].
  replace (1 - 1) with 0 by ring. replace (1 - 1 ^ 2) with 0 by ring. split; now apply x_div_zero.
Qed.
Lemma orbit_asymptote p e nu : 0 < p -> 1 + e * cos nu = 0 -> @equ_of_orbit X Num_X (Fin p) (Fin e) (Fin nu) = PInf.
Proof. intros Hp H. unfold equ_of_orbit. xops. cbn [x_map x_mul x_add]. rewrite H. now apply x_div_zero. Qed.
Lemma semimajor_origin v mu : mu <> 0 -> @semimajor_axis X Num_X (Fin 0) (Fin v) (Fin mu) = Fin 0.
Proof.
  intros H. unfold semimajor_axis. rewrite npow2_X. xops. rewrite x_div_zero, x_div_fin by lra. reflexivity.
Qed.

Local Open Scope string_scope.
Lemma gravity_origin t mu d : 0 < mu -> @lookup X "mu" d = Ok (Fin mu) ->
  @point_mass_grav X Num_X t (map Fin [0; 0; 0]) d = Ok nan3.
Proof.
  intros Hm Hd. unfold point_mass_grav. rewrite Hd. cbn [bind].
  assert (Nz : @norm_first3 X Num_X (map Fin [0; 0; 0]) = Fin 0).
  { unfold norm_first3. cbn [map firstn sumsq fold_left]. xops. cbn [x_mul x_add]. replace (0 * 0 + 0 * 0 + 0 * 0) with 0 by ring.
    unfold x_sqrt. destruct (Rlt_dec 0 0); [lra|]. now rewrite sqrt_0. }
  rewrite Nz, npow3_X. replace (0 ^ 3) with 0 by ring. xops. rewrite x_div_zero by exact Hm.
  unfold jget. cbn [map List.length Nat.sub Nat.min nth_error bind]. cbn [x_neg x_mul]. unfold x_scale_inf.
  destruct (Req_EM_T 0 0); [reflexivity|lra].
Qed.

(** Booleans cannot carry a NaN: the two path predicates give a definite answer at [r = 0]. *)
Lemma path_origin v r2 rmin m : m <> 0 ->
  @rp_islower_rmin X Num_X rmin (finv vzero) (finv v) (Fin m) = false /\
  @pass_perigee X Num_X (finv vzero) (finv v) (finv r2) (Fin m) = true.
Proof.
  intros H. unfold rp_islower_rmin, pass_perigee, angular_momentum, is_short_way. cbv zeta.
  rewrite (ecc_vec_origin v m H), nan3_norm. split.
  - unfold radius_periapsis. xnn. reflexivity.
  - assert (Z : forall a, @vcross X Num_X (finv vzero) (finv a) = finv vzero).
    { intros a. rewrite !finv_v, (l_cross Fin embeds_X). change (vcross vzero a) with (cross vzero a). now rewrite cross_zero_l. }
    rewrite !Z. unfold vinner, vcross, nan3. cbn [c0 c1 c2]. unfold n_gt. xnn. unfold finv, vmap3, vzero. cbn [c0 c1 c2 x_mul x_add x_lt andb].
    replace (0 * 0 + 0 * 0 + 0 * 0) with 0 by ring. unfold ltb. destruct (Rlt_dec 0 0); [lra|reflexivity].
Qed.

(** A parabola given to the elliptic solver at periapsis. *)
Lemma elps_parabola : @solve_kepler_elps X Num_X (Fin 0) (Fin 1) (@default_tol X Num_X) elps_max_iter = NaN.
Proof.
  assert (G : @elps_guess X Num_X (Fin 0) (Fin 1) = Fin 0).
  { unfold elps_guess. rewrite npow2_X. xops. cbn [x_map x_mul x_add]. rewrite x_div_fin by lra. cbn [x_add]. f_equal.
    rewrite Rmult_0_r, sin_0. field. }
  unfold solve_kepler_elps, elps_run, elps_init, loop_fuel, elps_max_iter, default_tol. rewrite G.
  change (S (Z.to_nat 20)) with (S (S 19)). cbn [while_fuel].
  match goal with |- context [elps_cond ?a ?b (0%Z, ?c, ?d)] => assert (C : @elps_cond X Num_X a b (0%Z, c, d) = true) end.
  { unfold elps_cond, exceeds, n_gt. xops. cbn [x_mul x_add x_sub x_abs x_lt]. apply andb_true_intro. split; [|reflexivity].
    unfold ltb. destruct (Rlt_dec _ _) as [|K]; [reflexivity|]. exfalso. apply K. rewrite Rabs_left; lra. }
  assert (B : forall d, @elps_body X Num_X (Fin 0) (Fin 1) (0%Z, Fin 0, d) = (1%Z, NaN, Fin 0)).
  { intros d. unfold elps_body, kepler_equ_elps, dE. xops. cbn [x_map x_mul x_sub].
    replace (0 - 1 * sin 0 - 0) with 0 by (rewrite sin_0; ring). replace (1 - 1 * cos 0) with 0 by (rewrite cos_0; ring).
    rewrite x_div_zz. reflexivity. }
  rewrite C, !B. unfold elps_cond at 1, exceeds, n_gt. xnn. cbn [andb]. reflexivity.
Qed.

(** ** Examples *)
Lemma circ_h : cross (mk3 1 0 0) (mk3 0 1 0) <> vzero.
Proof. unfold cross, vzero; cbn [c0 c1 c2]. intros H. injection H. lra. Qed.
Lemma circ_energy : energy 1 (mk3 1 0 0) (mk3 0 1 0) <> 0.
Proof. unfold energy. rewrite (proj1 circ_norms). unfold dot; cbn [c0 c1 c2]. lra. Qed.
Lemma ex_signal t : @kepler (option R) Num_S [Some t] (somev (mk3 1 0 0)) (somev (mk3 0 1 0)) (Some 1)
  = [(somev (mk3 (cos t) (sin t) 0), somev (mk3 (- sin t) (cos t) 0))].
Proof. pose proof (kepler_signal [t] _ _ 1 Rlt_0_1 circ_h circ_energy) as H. rewrite circ_kepler in H. exact H. Qed.

Lemma p_h : cross pr pv <> vzero.
Proof. unfold cross, vzero, pr, pv; cbn [c0 c1 c2]. intros H. injection H. lra. Qed.
Lemma p_energy : energy 1 pr pv = 0.
Proof. unfold energy. rewrite pr_norm. unfold dot, pv; cbn [c0 c1 c2]. field. Qed.
Lemma p_state : state_at_chi 2 0 (sigma_fn pr pv 1) (vnorm pr) pr pv 1 = (mk3 0 4 0, mk3 (- (1 / 2)) (1 / 2) 0) :> vec * vec.
Proof.
  unfold state_at_chi. cbv zeta. rewrite sigma_fn_R, pr_norm, !ufunc0_U, !ufunc1_U, !ufunc2_U, !U_alpha0.
  unfold dot, pr, pv, lagrange_prop, lagrange_F, lagrange_G, lagrange_Ft, lagrange_Gt, equ_of_orb_uvi, vadd, vscale, vzip3, vmap3. cbn [c0 c1 c2].
  cbn [n_add n_sub n_mul n_div n_neg n_sqrt n_Z Num_R]. rewrite sqrt_1.
  apply pair_equal_spec; split; apply mk3_eq; simpl; field.
Qed.
Lemma ex_parabola :
  @semimajor_axis X Num_X (Fin 2) (Fin 1) (Fin 1) = PInf /\
  @alpha_of X Num_X (Fin 2) (Fin 1) (Fin 1) = Fin 0 /\
  flows_to 1 (16 / 3) (mk3 2 0 0, mk3 0 1 0) (mk3 0 4 0, mk3 (- (1 / 2)) (1 / 2) 0) /\
  @state_at_chi X Num_X (Fin 2) (Fin 0) (@sigma_fn X Num_X (finv pr) (finv pv) (Fin 1)) (Fin 2) (finv pr) (finv pv) (Fin 1)
  = (finv (mk3 0 4 0), finv (mk3 (- (1 / 2)) (1 / 2) 0)).
Proof.
  destruct (parabola_X pr pv 1 Rlt_0_1 p_h p_energy) as [A [B C]]. rewrite pr_norm, pv_norm in A, B.
  split; [exact A|]. split; [exact B|].
  destruct (C (16 / 3) 2) as [r' [v' [F S]]].
  { rewrite pr_norm, sqrt_1. unfold dot, pr, pv; cbn [c0 c1 c2]. field. }
  rewrite pr_norm in S.
  assert (Q : @state_at_chi X Num_X (Fin 2) (Fin 0) (@sigma_fn X Num_X (finv pr) (finv pv) (Fin 1)) (Fin 2) (finv pr) (finv pv) (Fin 1)
    = (finv (mk3 0 4 0), finv (mk3 (- (1 / 2)) (1 / 2) 0))).
  { rewrite !finv_v, (l_sigma Fin embeds_X) by lra. pose proof p_state as P. rewrite pr_norm in P.
    rewrite (l_state Fin embeds_X); [now rewrite P|lra| |lra].
    intros x. pose proof (rad_neq pr pv 1 Rlt_0_1 p_h x) as N0. rewrite <- dchi_S, pr_norm, pv_norm in N0.
    replace (alpha_of 2 1 1) with 0 in N0; [exact N0|]. rewrite alpha_of_R. field. }
  split; [|exact Q]. rewrite Q in S. injection S. intros. destruct r', v'. cbn in *. subst. exact F.
Qed.
Lemma ex_batch t : @kepler X Num_X [NaN; Fin t] (finv (mk3 1 0 0)) (finv (mk3 0 1 0)) (Fin 1)
  = [(nan3, nan3); (finv (mk3 (cos t) (sin t) 0), finv (mk3 (- sin t) (cos t) 0))].
Proof.
  rewrite kepler_map. cbn [map]. rewrite (kepler_bad NaN) by constructor. apply f_equal.
  pose proof (kepler_X [t] _ _ 1 Rlt_0_1 circ_h) as H. rewrite circ_kepler, kepler_map in H. exact H.
Qed.

(** ** Clean domains *)
Lemma clean_elements (r v : vec) (mu : R) : 0 < mu -> cross r v <> vzero ->
  @rv2coe (option R) Num_S (somev r) (somev v) (Some mu) = someco (rv2coe r v mu).
Proof. intros Hm Hh. apply (l_rv2coe Some embeds_S); [lra|exact Hh]. Qed.
Lemma clean_state (p e i O w nu mu : R) : 0 < p -> 0 < mu -> 1 + e * cos nu <> 0 ->
  @coe2rv (option R) Num_S (Some p) (Some e) (Some i) (Some O) (Some w) (Some nu) (Some mu)
  = some2 (coe2rv p e i O w nu mu).
Proof. intros Hp Hm Hd. apply (l_coe2rv Some embeds_S); auto; lra. Qed.
Lemma clean_stm (r v r0 v0 : vec) (t mu : R) : 0 < mu -> r <> vzero -> r0 <> vzero -> energy mu r0 v0 <> 0 ->
  @dxdx0 (option R) Num_S (somev r) (somev v) (somev r0) (somev v0) (Some t) (Some mu)
  = let A := dxdx0 r v r0 v0 t mu in mkM6 (somem (b_rr A)) (somem (b_rv A)) (somem (b_vr A)) (somem (b_vv A)).
Proof.
  intros Hm Hr Hr0 He. apply (l_dxdx0 Some embeds_S); auto.
  apply (l_alpha Some embeds_S); [apply Rgt_not_eq, vnorm_pos, Hr0|lra|now apply energy_neq].
Qed.
Lemma clean_elps (M e tol : R) (mi : Z) : 0 <= e < 1 ->
  @solve_kepler_elps (option R) Num_S (Some M) (Some e) (Some tol) mi = Some (solve_kepler_elps M e tol mi).
Proof.
  intros He. apply (l_elps Some embeds_S). intros x. pose proof (COS_bound x). nra.
Qed.
Lemma clean_hypb (M e tol : R) (mi : Z) : 1 < e ->
  @solve_kepler_hypb (option R) Num_S (Some M) (Some e) (Some tol) mi = Some (solve_kepler_hypb M e tol mi).
Proof. apply (l_hypb Some embeds_S). Qed.
Lemma clean_integrals (a p e nu mu P t : R) : 0 < a -> 0 < mu -> 0 < P -> 0 <= e < 1 ->
  @orb_period (option R) Num_S (Some a) (Some mu) = Some (orb_period a mu) /\
  @a_from_period (option R) Num_S (Some P) (Some mu) = Some (a_from_period P mu) /\
  @mean_motion (option R) Num_S (Some P) = Some (mean_motion P) /\
  @equ_of_orbit (option R) Num_S (Some p) (Some e) (Some nu) = Some (equ_of_orbit p e nu) /\
  @radius_periapsis (option R) Num_S (Some p) (Some e) = Some (radius_periapsis p e) /\
  @radius_apoapsis (option R) Num_S (Some p) (Some e) = Some (radius_apoapsis p e) /\
  @a_from_pe (option R) Num_S (Some p) (Some e) = Some (a_from_pe p e) /\
  @mean_anomaly_elps (option R) Num_S (Some a) (Some t) (Some mu) = Some (mean_anomaly_elps a t mu).
Proof.
  intros Ha Hm HP He. pose proof (pow_lt a 3 Ha).
  split. { apply (l_orb_period Some embeds_S); [lra|]. apply Rlt_le, Rdiv_lt_0_compat; auto. }
  split. { apply (l_a_from_period Some embeds_S). }
  split. { apply (l_mean_motion Some embeds_S). lra. }
  split. { apply (l_equ_of_orbit Some embeds_S). pose proof (COS_bound nu). nra. }
  split. { apply (l_radius_periapsis Some embeds_S). lra. }
  split. { apply (l_radius_apoapsis Some embeds_S). lra. }
  split. { apply (l_a_from_pe Some embeds_S). nra. }
  apply (l_mean_elps Some embeds_S); [lra|]. apply Rlt_le, Rdiv_lt_0_compat; auto.
Qed.
Lemma clean_gravity (t x y z u v w : R) (d : list (string * R)) : mk3 x y z <> vzero ->
  let s := [x; y; z; u; v; w] in
  @point_mass_grav (option R) Num_S (Some t) (map Some s) (somed d) = somer (point_mass_grav t s d) /\
  @j2_acc (option R) Num_S (Some t) (map Some s) (somed d) = somer (j2_acc t s d) /\
  @j3_acc (option R) Num_S (Some t) (map Some s) (somed d) = somer (j3_acc t s d) /\
  @j4_acc (option R) Num_S (Some t) (map Some s) (somed d) = somer (j4_acc t s d).
Proof.
  intros Hr s. assert (Q : norm_first3 s <> 0).
  { unfold s, norm_first3. cbn [firstn sumsq fold_left]. apply Rgt_not_eq. pose proof (vnorm_pos _ Hr) as P.
    unfold vnorm, dot in P. cbn [c0 c1 c2] in P. exact P. }
  split; [apply (l_point_mass Some embeds_S); exact Q|]. split; [apply (l_j2 Some embeds_S); exact Q|].
  split; [apply (l_j3 Some embeds_S); exact Q|]. apply (l_j4 Some embeds_S); exact Q.
Qed.
Lemma clean_path (rp r1 r2 tof mu : R) (a v b : vec) : 0 < rp -> 0 < r1 -> 0 < r2 -> 0 < mu -> a <> vzero ->
  @nmax_by_periapsis (option R) Num_S (Some rp) (Some r1) (Some r2) (Some tof) (Some mu) = Some (nmax_by_periapsis rp r1 r2 tof mu) /\
  @pass_perigee (option R) Num_S (somev a) (somev v) (somev b) (Some mu) = pass_perigee a v b mu /\
  @rp_islower_rmin (option R) Num_S (Some rp) (somev a) (somev v) (Some mu) = rp_islower_rmin rp a v mu.
Proof.
  intros. split; [|split].
  - apply (l_nmax Some embeds_S); [|lra]. pose proof (Rmax_l r1 r2). lra.
  - apply (l_perigee Some embeds_S); [lra|auto].
  - apply (l_rp Some embeds_S); [lra|auto].
Qed.
Lemma wrong_conic a t mu : 0 < mu ->
  (a < 0 -> @orb_period X Num_X (Fin a) (Fin mu) = NaN /\ @mean_anomaly_elps X Num_X (Fin a) (Fin t) (Fin mu) = NaN) /\
  (0 < a -> @mean_anomaly_hypb X Num_X (Fin a) (Fin t) (Fin mu) = NaN).
Proof.
  intros Hm. split; intros Ha; [split; [now apply period_neg|now apply mean_elps_neg]|now apply mean_hypb_pos].
Qed.
Lemma parabola_flags p : 0 < p ->
  @radius_apoapsis X Num_X (Fin p) (Fin 1) = PInf /\ @a_from_pe X Num_X (Fin p) (Fin 1) = PInf /\
  @solve_kepler_elps X Num_X (Fin 0) (Fin 1) (@default_tol X Num_X) elps_max_iter = NaN.
Proof. intros Hp. destruct (apoapsis_parabola p Hp). split; [assumption|]. split; [assumption|apply elps_parabola]. Qed.
Lemma asymptote_example : 0 < 1 /\ 1 + 1 * cos PI = 0 /\ @equ_of_orbit X Num_X (Fin 1) (Fin 1) (Fin PI) = PInf.
Proof.
  assert (H : 1 + 1 * cos PI = 0) by (rewrite cos_PI; ring). split; [lra|]. split; [exact H|]. apply orbit_asymptote; [lra|exact H].
Qed.
