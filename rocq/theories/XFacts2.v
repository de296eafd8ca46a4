(** * NaN inputs of the conversions, transition matrix, gravity models and solvers; inputs that are not flagged *)
From Coq Require Import Reals Lra ZArith List String.
From Verif Require Import Num NumR NumX Spec SpecX RLib OrbIntegrals Uniformulas Lagrange OrbElements RotMat KepEqu StateTrans PathCheck
  PropKepler Gravity Lift LiftMore OrbFacts XFacts.
Import ListNotations.
Local Open Scope R_scope.

Lemma nan_arccos : x_arccos NaN = NaN. Proof. reflexivity. Qed.
Lemma nan_log : x_log NaN = NaN. Proof. reflexivity. Qed.
Ltac xm := repeat (progress (xops; xn; rewrite ?nan_log, ?nan_arccos)).
Ltac pw := unfold npow; cbn [npow_aux mul_opt].

Lemma cross_nan_l a b : has_nan a -> has_nan (@vcross X Num_X a b).
Proof. unfold has_nan, vcross. cbn [c0 c1 c2]. intros [H|[H|H]]; rewrite H; xm; auto. Qed.
Lemma cross_nan_r a b : has_nan b -> has_nan (@vcross X Num_X a b).
Proof. unfold has_nan, vcross. cbn [c0 c1 c2]. intros [H|[H|H]]; rewrite H; xm; auto. Qed.

(** ** rv2coe *)
Lemma nan_elements r v mu : has_nan r \/ has_nan v \/ mu = NaN ->
  let x := @rv2coe X Num_X r v mu in coe_p x = NaN /\ coe_e x = NaN.
Proof.
  intros H. unfold rv2coe, angular_momentum, semiparameter. cbv zeta. cbn [coe_p coe_e].
  assert (D : has_nan (@vcross X Num_X r v) \/ mu = NaN).
  { destruct H as [H|[H|H]]; [left; now apply cross_nan_l|left; now apply cross_nan_r|now right]. }
  split.
  - destruct D as [D|D]; [rewrite (has_nan_norm _ D)|rewrite D]; pw; xm; reflexivity.
  - apply has_nan_norm. unfold eccentricity_vector, vsub, vdivs, vzip3, vmap3, has_nan. cbn [c0 c1 c2].
    destruct D as [D|D].
    + pose proof (cross_nan_r v _ D) as [Q|[Q|Q]]; unfold angular_momentum; cbv zeta; rewrite Q; xm; auto.
    + rewrite D. xm. auto.
Qed.

(** ** coe2rv *)
Lemma nan_elements_back p e i O w f mu : p = NaN \/ e = NaN \/ i = NaN \/ O = NaN \/ w = NaN \/ f = NaN \/ mu = NaN ->
  let s := @coe2rv X Num_X p e i O w f mu in has_nan (fst s) \/ has_nan (snd s).
Proof.
  intros H s. subst s. unfold coe2rv. cbv zeta. cbn [fst snd].
  unfold mmul, mvec, rotmat3dz, rotmat3dx, vscale, vinner, vmap3, vzip3, nan3. cbn [c0 c1 c2].
  unfold has_nan. cbn [c0 c1 c2].
  destruct H as [H|[H|[H|[H|[H|[H|H]]]]]]; subst; xm; auto.
Qed.

(** ** dxdx0 *)
Definition nan9 : M3 X := mk3 nan3 nan3 nan3.
Lemma nan_ufunc45 alpha : @ufunc2 X Num_X NaN alpha = NaN /\ @ufunc4 X Num_X NaN alpha = NaN /\ @ufunc5 X Num_X NaN alpha = NaN.
Proof.
  unfold ufunc2, ufunc4, ufunc5. pw. unfold where_.
  destruct (@n_gt X Num_X alpha (@n_Z X Num_X 0)); [|destruct (@n_lt X Num_X alpha (@n_Z X Num_X 0))]; xm; auto.
Qed.
Lemma nan9_scale A : @mscale X Num_X NaN A = nan9.
Proof. unfold mscale, vscale, vmap3, nan9, nan3. xm. reflexivity. Qed.
Lemma nan9_add_l A : @madd X Num_X nan9 A = nan9.
Proof. unfold madd, vadd, vzip3, nan9, nan3. cbn [c0 c1 c2]. xm. reflexivity. Qed.
Lemma nan9_add_r A : @madd X Num_X A nan9 = nan9.
Proof. unfold madd, vadd, vzip3, nan9, nan3. cbn [c0 c1 c2]. xm. reflexivity. Qed.
Lemma nan9_sub_r A : @msub X Num_X A nan9 = nan9.
Proof. unfold msub, vsub, vzip3, nan9, nan3. cbn [c0 c1 c2]. xm. reflexivity. Qed.
Lemma nan_chi_stm (r v r0 v0 : V3 X) (dt mu : X) :
  (let alpha := @alpha_of X Num_X (@vector_norm X Num_X r0) (@vector_norm X Num_X v0) mu in
   @generalized_anomaly X Num_X alpha (@sigma_fn X Num_X r v mu) (@sigma_fn X Num_X r0 v0 mu) dt mu = NaN) ->
  @dxdx0 X Num_X r v r0 v0 dt mu = mkM6 nan9 nan9 nan9 nan9.
Proof.
  intros H. cbv zeta in H. unfold dxdx0. cbv zeta. rewrite H.
  set (alpha := @alpha_of X Num_X _ _ _) in *. destruct (nan_ufunc45 alpha) as [U2 [U4 U5]].
  assert (C : forall t m u, @C_func X Num_X NaN u (@ufunc4 X Num_X NaN alpha) (@ufunc5 X Num_X NaN alpha) t m = NaN).
  { intros. unfold C_func. rewrite U4, U5. xm. reflexivity. }
  rewrite C. unfold prpr0, prpv0, pvpr0, pvpv0. cbv zeta.
  assert (D : forall b, @n_div X Num_X NaN b = NaN) by (intro; apply nan_div_l).
  assert (M : forall b, @n_mul X Num_X b NaN = NaN) by (intro; apply nan_mul_r).
  rewrite !M, !D. rewrite !nan9_scale, !nan9_add_r, !nan9_sub_r, !nan9_add_l. reflexivity.
Qed.
Lemma dot_nan_l a b : has_nan a -> @vinner X Num_X a b = NaN.
Proof. unfold has_nan, vinner. intros [H|[H|H]]; rewrite H; xm; reflexivity. Qed.
Lemma dot_nan_r a b : has_nan b -> @vinner X Num_X a b = NaN.
Proof. unfold has_nan, vinner. intros [H|[H|H]]; rewrite H; xm; reflexivity. Qed.
Lemma nan_stm r v r0 v0 dt mu : has_nan r \/ has_nan v \/ has_nan r0 \/ has_nan v0 \/ dt = NaN \/ mu = NaN ->
  @dxdx0 X Num_X r v r0 v0 dt mu = mkM6 nan9 nan9 nan9 nan9.
Proof.
  intros H. apply nan_chi_stm. cbv zeta. unfold generalized_anomaly, sigma_fn.
  destruct H as [H|[H|[H|[H|[H|H]]]]].
  - rewrite (dot_nan_l _ _ H). xm. reflexivity.
  - rewrite (dot_nan_r _ _ H). xm. reflexivity.
  - rewrite (dot_nan_l _ _ H). xm. reflexivity.
  - rewrite (dot_nan_r _ _ H). xm. reflexivity.
  - rewrite H. xm. reflexivity.
  - rewrite H. xm. reflexivity.
Qed.

(** ** Gravity *)
Lemma nan_r3 x y z rest : x = NaN \/ y = NaN \/ z = NaN -> @norm_first3 X Num_X (x :: y :: z :: rest) = NaN.
Proof. intros H. unfold norm_first3. cbn [firstn sumsq fold_left]. destruct H as [H|[H|H]]; rewrite H; xm; reflexivity. Qed.
Lemma jget3 (x y z : X) rest : @jget X (x :: y :: z :: rest) 0 = Ok x /\ @jget X (x :: y :: z :: rest) 1 = Ok y /\ @jget X (x :: y :: z :: rest) 2 = Ok z.
Proof. unfold jget. cbn [List.length]. rewrite !Nat.sub_succ, Nat.sub_0_r. repeat split. Qed.
Lemma nan_point_mass t x y z rest d m : @lookup X "mu" d = Ok m -> x = NaN \/ y = NaN \/ z = NaN \/ m = NaN ->
  @point_mass_grav X Num_X t (x :: y :: z :: rest) d = Ok nan3.
Proof.
  intros Hm H. unfold point_mass_grav. rewrite Hm. destruct (jget3 x y z rest) as [A [B C]]. rewrite A, B, C. cbn [bind].
  assert (Q : @n_div X Num_X m (@npow X Num_X (@norm_first3 X Num_X (x :: y :: z :: rest)) 3) = NaN).
  { destruct H as [H|[H|[H|H]]]; [rewrite nan_r3 by auto|rewrite nan_r3 by auto|rewrite nan_r3 by auto|rewrite H]; pw; xm; reflexivity. }
  rewrite Q. xm. reflexivity.
Qed.

Lemma nan_j2 t x y z rest d m J Re : @lookup X "mu" d = Ok m -> @lookup X "J2" d = Ok J -> @lookup X "R_eq" d = Ok Re ->
  x = NaN \/ y = NaN \/ z = NaN \/ m = NaN \/ J = NaN \/ Re = NaN -> @j2_acc X Num_X t (x :: y :: z :: rest) d = Ok nan3.
Proof.
  intros Hm HJ HR H. unfold j2_acc. rewrite Hm, HJ, HR. destruct (jget3 x y z rest) as [A [B C]]. rewrite A, B, C. cbn [bind].
  destruct H as [H|[H|[H|[H|[H|H]]]]]; [rewrite !nan_r3 by auto|rewrite !nan_r3 by auto|rewrite !nan_r3 by auto| | | ]; rewrite ?H; pw; xm; reflexivity.
Qed.
Lemma nan_j3 t x y z rest d m J Re : @lookup X "mu" d = Ok m -> @lookup X "J3" d = Ok J -> @lookup X "R_eq" d = Ok Re ->
  x = NaN \/ y = NaN \/ z = NaN \/ m = NaN \/ J = NaN \/ Re = NaN -> @j3_acc X Num_X t (x :: y :: z :: rest) d = Ok nan3.
Proof.
  intros Hm HJ HR H. unfold j3_acc. rewrite Hm, HJ, HR. destruct (jget3 x y z rest) as [A [B C]]. rewrite A, B, C. cbn [bind].
  destruct H as [H|[H|[H|[H|[H|H]]]]]; [rewrite !nan_r3 by auto|rewrite !nan_r3 by auto|rewrite !nan_r3 by auto| | | ]; rewrite ?H; pw; xm; reflexivity.
Qed.
Lemma nan_j4 t x y z rest d m J Re : @lookup X "mu" d = Ok m -> @lookup X "J4" d = Ok J -> @lookup X "R_eq" d = Ok Re ->
  x = NaN \/ y = NaN \/ z = NaN \/ m = NaN \/ J = NaN \/ Re = NaN -> @j4_acc X Num_X t (x :: y :: z :: rest) d = Ok nan3.
Proof.
  intros Hm HJ HR H. unfold j4_acc. rewrite Hm, HJ, HR. destruct (jget3 x y z rest) as [A [B C]]. rewrite A, B, C. cbn [bind].
  destruct H as [H|[H|[H|[H|[H|H]]]]]; [rewrite !nan_r3 by auto|rewrite !nan_r3 by auto|rewrite !nan_r3 by auto| | | ]; rewrite ?H; pw; xm; reflexivity.
Qed.
Lemma nan_gravity t x y z rest d m R2 R3 R4 Re : @lookup X "mu" d = Ok m -> @lookup X "J2" d = Ok R2 -> @lookup X "J3" d = Ok R3 ->
  @lookup X "J4" d = Ok R4 -> @lookup X "R_eq" d = Ok Re ->
  let s := x :: y :: z :: rest in let pos := x = NaN \/ y = NaN \/ z = NaN in
  (pos \/ m = NaN -> @point_mass_grav X Num_X t s d = Ok nan3) /\
  (pos \/ m = NaN \/ R2 = NaN \/ Re = NaN -> @j2_acc X Num_X t s d = Ok nan3) /\
  (pos \/ m = NaN \/ R3 = NaN \/ Re = NaN -> @j3_acc X Num_X t s d = Ok nan3) /\
  (pos \/ m = NaN \/ R4 = NaN \/ Re = NaN -> @j4_acc X Num_X t s d = Ok nan3).
Proof.
  intros Hm H2 H3 H4 HR s pos. unfold s, pos. repeat split; intro H.
  - apply (nan_point_mass t x y z rest d m Hm). tauto.
  - apply (nan_j2 t x y z rest d m R2 Re Hm H2 HR). tauto.
  - apply (nan_j3 t x y z rest d m R3 Re Hm H3 HR). tauto.
  - apply (nan_j4 t x y z rest d m R4 Re Hm H4 HR). tauto.
Qed.

(** ** Solvers *)
Lemma stop_at_once {A : Type} (cond : A -> bool) (body : A -> A) (s : A) (mi : Z) : cond s = false ->
  while_fuel (loop_fuel mi) cond body s = Some s.
Proof. intros H. unfold loop_fuel. cbn [while_fuel]. now rewrite H. Qed.
Lemma nan_elps M e tol mi : M = NaN \/ e = NaN -> @solve_kepler_elps X Num_X M e tol mi = NaN.
Proof.
  intros H. assert (G : @elps_guess X Num_X M e = NaN) by (unfold elps_guess; destruct H as [H|H]; rewrite H; pw; xm; reflexivity).
  unfold solve_kepler_elps, elps_run. rewrite stop_at_once; unfold elps_init; rewrite G; [reflexivity|].
  unfold elps_cond, exceeds, n_gt. xm. reflexivity.
Qed.
Lemma nan_hypb M e tol mi : M = NaN \/ e = NaN -> @solve_kepler_hypb X Num_X M e tol mi = NaN.
Proof.
  intros H. assert (G : @hypb_guess X Num_X M e = NaN) by (unfold hypb_guess; destruct H as [H|H]; rewrite H; pw; xm; reflexivity).
  unfold solve_kepler_hypb, hypb_run. rewrite stop_at_once; unfold hypb_init; rewrite G; [reflexivity|].
  unfold hypb_cond, exceeds, kepler_equ_hypb, n_gt. xm. reflexivity.
Qed.
Lemma nan_uni t al r0 s0 mu tol mi : t = NaN \/ al = NaN \/ mu = NaN -> @solve_kepler_uni X Num_X t al r0 s0 mu tol mi = NaN.
Proof.
  intros H. assert (G : @uni_guess X Num_X t al mu = NaN) by (unfold uni_guess; destruct H as [H|[H|H]]; rewrite H; pw; xm; reflexivity).
  unfold solve_kepler_uni, uni_run. rewrite stop_at_once; unfold uni_init; rewrite G; [reflexivity|].
  unfold uni_cond, exceeds, n_gt. rewrite nan_equ by apply nan_ufunc. xm. reflexivity.
Qed.
(** a NaN tolerance accepts the start *)
Lemma nan_tol_elps M e mi : @solve_kepler_elps X Num_X M e NaN mi = @elps_guess X Num_X M e.
Proof. unfold solve_kepler_elps, elps_run. rewrite stop_at_once; [reflexivity|]. unfold elps_init, elps_cond, exceeds, n_gt. xm. reflexivity. Qed.
Lemma nan_tol_hypb M e mi : @solve_kepler_hypb X Num_X M e NaN mi = @hypb_guess X Num_X M e.
Proof. unfold solve_kepler_hypb, hypb_run. rewrite stop_at_once; [reflexivity|]. unfold hypb_init, hypb_cond, exceeds, n_gt. xm. reflexivity. Qed.
Lemma nan_tol_uni t al r0 s0 mu mi : @solve_kepler_uni X Num_X t al r0 s0 mu NaN mi = @uni_guess X Num_X t al mu.
Proof. unfold solve_kepler_uni, uni_run. rewrite stop_at_once; [reflexivity|]. unfold uni_init, uni_cond, exceeds, n_gt. xm. reflexivity. Qed.

(** ** Inputs off the domain that are not flagged *)
Lemma neg_mu_elements (r v : vec) (mu : R) : mu < 0 -> cross r v <> vzero ->
  @rv2coe (option R) Num_S (somev r) (somev v) (Some mu) = someco (rv2coe r v mu) /\ coe_p (rv2coe r v mu) < 0.
Proof.
  intros Hm Hh. split; [apply (l_rv2coe Some embeds_S); [lra|exact Hh]|].
  unfold rv2coe. cbv zeta. cbn [coe_p]. change (@vector_norm R Num_R) with vnorm. rewrite angular_momentum_R, semiparameter_R, vnorm_sq2.
  apply Rmult_pos_neg; [now apply dot_pos|now apply Rinv_lt_0_compat].
Qed.
Lemma hyperbola_apoapsis (p e : R) : 0 < p -> 1 < e ->
  @radius_apoapsis X Num_X (Fin p) (Fin e) = Fin (p / (1 - e)) /\ p / (1 - e) < 0.
Proof.
  intros Hp He. split.
  - unfold radius_apoapsis. xops. cbn [x_sub]. apply x_div_fin. lra.
  - apply Rmult_pos_neg; [exact Hp|apply Rinv_lt_0_compat; lra].
Qed.
Lemma beyond_asymptote (p e f : R) : 0 < p -> 1 + e * cos f < 0 ->
  @equ_of_orbit X Num_X (Fin p) (Fin e) (Fin f) = Fin (p / (1 + e * cos f)) /\ p / (1 + e * cos f) < 0.
Proof.
  intros Hp He. split.
  - unfold equ_of_orbit. xops. cbn [x_map x_mul x_add]. apply x_div_fin. lra.
  - apply Rmult_pos_neg; [exact Hp|now apply Rinv_lt_0_compat].
Qed.
Lemma elps_other_conic (e : R) : 1 < e -> @solve_kepler_elps X Num_X (Fin 0) (Fin e) (@default_tol X Num_X) elps_max_iter = Fin 0.
Proof.
  intros He.
  assert (G : @elps_guess X Num_X (Fin 0) (Fin e) = Fin 0).
  { unfold elps_guess. rewrite npow2_X. xops. cbn [x_map x_mul x_add]. rewrite x_div_fin by lra. cbn [x_add]. f_equal.
    rewrite Rmult_0_r, sin_0. field. }
  unfold solve_kepler_elps, elps_run, elps_init, loop_fuel, elps_max_iter, default_tol. rewrite G.
  change (S (Z.to_nat 20)) with (S (S 19)). cbn [while_fuel].
  match goal with |- context [elps_cond ?a ?b (0%Z, ?c, ?d)] => assert (C : @elps_cond X Num_X a b (0%Z, c, d) = true) end.
  { unfold elps_cond, exceeds, n_gt. xops. cbn [x_mul x_add x_sub x_abs x_lt]. apply andb_true_intro. split; [|reflexivity].
    unfold ltb. destruct (Rlt_dec _ _) as [|K]; [reflexivity|]. exfalso. apply K. rewrite Rabs_left; lra. }
  assert (B : forall d, @elps_body X Num_X (Fin 0) (Fin e) (0%Z, Fin 0, d) = (1%Z, Fin 0, Fin 0)).
  { intros d. unfold elps_body, kepler_equ_elps, dE. xops. cbn [x_map x_mul x_sub].
    rewrite x_div_fin by (rewrite cos_0; lra). cbn [x_sub]. do 2 f_equal. f_equal. rewrite sin_0. field. rewrite cos_0. lra. }
  rewrite C, !B. unfold elps_cond at 1, exceeds, n_gt. xops. cbn [x_sub x_abs x_lt].
  unfold ltb. destruct (Rlt_dec _ _) as [K|]; [|reflexivity]. exfalso. rewrite Rminus_0_r, Rabs_R0 in K. lra.
Qed.
Lemma hypb_other_conic (e : R) : 0 < e < 1 -> @solve_kepler_hypb X Num_X (Fin 0) (Fin e) (@default_tol X Num_X) hypb_max_iter = Fin 0.
Proof.
  intros He.
  assert (G : @hypb_guess X Num_X (Fin 0) (Fin e) = Fin 0).
  { unfold hypb_guess. xops. cbn [x_mul]. rewrite x_div_fin by lra. rewrite npow2_X. cbn [x_add].
    replace ((2 * 0 / e) ^ 2 + 1) with 1 by (field; lra). unfold x_sqrt. destruct (Rlt_dec 1 0); [lra|].
    rewrite sqrt_1. cbn [x_add]. replace (2 * 0 / e + 1) with 1 by (field; lra). unfold x_log. destruct (Rlt_dec 1 0); [lra|].
    destruct (Req_EM_T 1 0); [lra|]. now rewrite ln_1. }
  unfold solve_kepler_hypb, hypb_run. rewrite stop_at_once; unfold hypb_init; rewrite G; [reflexivity|].
  unfold hypb_cond, exceeds, kepler_equ_hypb, default_tol, n_gt. xops. cbn [x_map x_mul x_sub x_abs x_lt].
  unfold ltb. destruct (Rlt_dec _ _) as [K|]; [|reflexivity]. exfalso. rewrite sinh_0 in K.
  replace (e * 0 - 0 - 0) with 0 in K by ring. rewrite Rabs_R0 in K. lra.
Qed.
Lemma other_conic : (forall e : R, 1 < e -> @solve_kepler_elps X Num_X (Fin 0) (Fin e) (@default_tol X Num_X) elps_max_iter = Fin 0) /\
  (forall e : R, 0 < e < 1 -> @solve_kepler_hypb X Num_X (Fin 0) (Fin e) (@default_tol X Num_X) hypb_max_iter = Fin 0).
Proof. exact (conj elps_other_conic hypb_other_conic). Qed.
Lemma nan_solvers M e t al r0 s0 mu tol mi :
  (M = NaN \/ e = NaN -> @solve_kepler_elps X Num_X M e tol mi = NaN /\ @solve_kepler_hypb X Num_X M e tol mi = NaN) /\
  (t = NaN \/ al = NaN \/ mu = NaN -> @solve_kepler_uni X Num_X t al r0 s0 mu tol mi = NaN).
Proof. split; intro H; [split; [now apply nan_elps|now apply nan_hypb]|now apply nan_uni]. Qed.
Lemma nan_tolerance M e mi : @solve_kepler_elps X Num_X (Fin M) (Fin e) NaN mi = Fin (M + e * sin M + e ^ 2 * sin (2 * M) / 2).
Proof.
  rewrite nan_tol_elps. unfold elps_guess. rewrite npow2_X. xops. cbn [x_map x_mul x_add]. rewrite x_div_fin by lra. reflexivity.
Qed.
Lemma nan_example : (exists M e : R, 0 <= e < 1 /\ exists E : R, @solve_kepler_elps X Num_X (Fin M) (Fin e) NaN elps_max_iter = Fin E /\ E - e * sin E <> M).
Proof.
  exists (PI / 2), (1 / 2). split; [lra|]. eexists. split; [apply nan_tolerance|].
  rewrite sin_PI2. replace (2 * (PI / 2)) with PI by field. rewrite sin_PI.
  set (E := PI / 2 + 1 / 2 * 1 + (1 / 2) ^ 2 * 0 / 2). intro H.
  assert (S : sin E = 1) by (unfold E in *; lra).
  assert (C : E = PI / 2 + 1 / 2) by (unfold E; lra). rewrite C, sin_plus, sin_PI2, cos_PI2 in S.
  pose proof (sin_gt_0 (1 / 2)). pose proof PI_RGT_0. pose proof PI2_3_2.
  pose proof (sin2_cos2 (1 / 2)) as Q. unfold Rsqr in Q. assert (0 < sin (1 / 2)) by (apply sin_gt_0; lra). nra.
Qed.
Lemma uni_nan_state (t al mu : R) (r0 s0 tol : X) (mi : Z) : 0 <= mu -> r0 = NaN \/ s0 = NaN ->
  @solve_kepler_uni X Num_X (Fin t) (Fin al) r0 s0 (Fin mu) tol mi = Fin (sqrt mu * Rabs al * t).
Proof.
  intros Hm H.
  assert (G : @uni_guess X Num_X (Fin t) (Fin al) (Fin mu) = Fin (sqrt mu * Rabs al * t)).
  { unfold uni_guess. xops. unfold x_sqrt. destruct (Rlt_dec mu 0); [lra|]. reflexivity. }
  unfold solve_kepler_uni, uni_run. rewrite stop_at_once; unfold uni_init; rewrite G; [reflexivity|].
  unfold uni_cond, exceeds, kepler_equ_uni, n_gt. destruct H as [H|H]; rewrite H; xm; reflexivity.
Qed.
