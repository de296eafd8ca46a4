(** * EquiExamples: concrete cases for C45 and C51 *)
From Coq Require Import Reals Lra Lia Psatz ZArith List.
From Coquelicot Require Import Coquelicot.
From Verif Require Import Num NumR Spec RLib RotMat RotFacts Uniformulas Lagrange OrbIntegrals KepEqu StateTrans
  OrbElements PropKepler SeriesU UFacts OrbFacts KepState LoopFacts KepMotion TwoBody KepRows SolveUni Equi.
Import ListNotations.
Local Open Scope R_scope.
Local Open Scope list_scope.
Local Open Scope R_scope.

Lemma smul_one a : smul 1 a = a.
Proof. destruct a as [x y z]. unfold smul. cbn [c0 c1 c2]. now rewrite !Rmult_1_l. Qed.

Lemma kepler1_vn t (r v : vec) (mu : R) : kepler1 t r v mu =
  state_at_chi (solve_kepler_uni t (alpha_of (vnorm r) (vnorm v) mu) (vnorm r) (sigma_fn r v mu) mu default_tol uni_max_iter)
    (alpha_of (vnorm r) (vnorm v) mu) (sigma_fn r v mu) (vnorm r) r v mu.
Proof. reflexivity. Qed.

(** ** kepler under a change of the time unit *)
Lemma kepler_time_units tau ts r v mu : 0 < tau -> 0 < mu ->
  kepler (map (Rmult tau) ts) r (smul (/ tau) v) (mu / tau ^ 2)
  = map (fun x => (fst x, smul (/ tau) (snd x))) (kepler ts r v mu).
Proof.
  intros Ht Hm. rewrite !kepler_map, !map_map. apply map_ext. intros t. rewrite !kepler1_vn.
  pose proof (row_units 1 tau Rlt_0_1 Ht r v mu Hm t default_tol uni_max_iter) as H. cbv zeta in H.
  rewrite sqrt_1, pow1, Rmult_1_l in H.
  rewrite !smul_one in H.
  replace (1 / tau ^ 2 * mu) with (mu / tau ^ 2) in H by (field; lra).
  replace (1 / tau) with (/ tau) in H by (field; lra).
  exact H.
Qed.

(** ** The unit circular orbit is propagated exactly *)
Lemma circ_norms : vnorm (mk3 1 0 0) = 1 /\ vnorm (mk3 0 1 0) = 1.
Proof. split; apply vnorm_unique; try lra; unfold dot; simpl; ring. Qed.
Lemma circ_alpha : alphaS (mk3 1 0 0) (mk3 0 1 0) 1 = 1.
Proof. unfold alphaS. destruct circ_norms as [-> ->]. field. Qed.
Lemma circ_sigma : sigmaS (mk3 1 0 0) (mk3 0 1 0) 1 = 0.
Proof. unfold sigmaS, dot. cbn [c0 c1 c2]. rewrite sqrt_1. field. Qed.
Lemma circ_kepler ts : kepler ts (mk3 1 0 0) (mk3 0 1 0) 1
  = map (fun t => (mk3 (cos t) (sin t) 0, mk3 (- sin t) (cos t) 0)) ts.
Proof.
  rewrite kepler_map. apply map_ext. intros t. rewrite !kepler1_vn.
  assert (S : solve_kepler_uni t (alpha_of (vnorm (mk3 1 0 0)) (vnorm (mk3 0 1 0)) 1) (vnorm (mk3 1 0 0))
    (sigma_fn (mk3 1 0 0) (mk3 0 1 0) 1) 1 default_tol uni_max_iter = t).
  { rewrite alpha_of_S, circ_alpha.
    assert (G : uni_guess t 1 1 = t) by (rewrite uni_guess_R, sqrt_1, Rabs_R1; ring).
    rewrite uni_loop_idle; [exact G|]. rewrite G.
    apply exceeds_R_false. rewrite kepler_equ_uni_R, default_tol_R.
    change (sigma_fn (mk3 1 0 0) (mk3 0 1 0) 1) with (sigmaS (mk3 1 0 0) (mk3 0 1 0) 1).
    rewrite circ_sigma, (proj1 circ_norms), sqrt_1, U1_eq.
    replace (1 * (t - 1 * U 3 t 1) + 0 * U 2 t 1 + U 3 t 1 - 1 * t) with 0 by ring. rewrite Rabs_R0. lra. }
  rewrite S, state_at_chi_S.
  assert (R1 : radS (mk3 1 0 0) (mk3 0 1 0) 1 t = 1).
  { unfold radS. rewrite circ_alpha, circ_sigma, (proj1 circ_norms), U0_eq. ring. }
  assert (U2 : U 2 t 1 = 1 - cos t).
  { pose proof (U0_eq t 1) as E. rewrite (U0_pos t 1), sqrt_1, Rmult_1_l in E by lra. lra. }
  assert (U1 : U 1 t 1 = sin t) by (rewrite (U1_pos t 1), sqrt_1, Rmult_1_l by lra; field).
  unfold posS, velS, FS, GS, FtS, GtS. rewrite R1, circ_alpha, circ_sigma, (proj1 circ_norms), U2, U1, sqrt_1.
  unfold vplus, smul. cbn [c0 c1 c2]. apply pair_equal_spec. split; apply mk3_eq; field.
Qed.

(** The same orbit turned by a quarter about the x axis. *)
Lemma circ_turned t : kepler [t] (mk3 1 0 0) (mk3 0 0 1) 1 = [(mk3 (cos t) 0 (sin t), mk3 (- sin t) 0 (cos t))].
Proof.
  pose proof (kepler_rot (rotmat3dx (PI / 2)) (rot_x _) [t] (mk3 1 0 0) (mk3 0 1 0) 1) as H.
  rewrite circ_kepler in H. cbn [map fst snd] in H.
  assert (E : forall x y, row_col (rotmat3dx (PI / 2)) (mk3 x y 0) = mk3 x 0 y).
  { intros x y. unfold rotmat3dx. cbv zeta. change n_cos with cos. change n_sin with sin. rewrite cos_PI2, sin_PI2.
    unfold row_col, dot. cbn [c0 c1 c2]. apply mk3_eq; simpl; ring. }
  rewrite !E in H. exact H.
Qed.
(** In a time unit half as long. *)
Lemma circ_time : kepler [2 * PI] (mk3 1 0 0) (smul (/ 2) (mk3 0 1 0)) (1 / 2 ^ 2)
  = [(mk3 (-1) 0 0, mk3 0 (- (1 / 2)) 0)].
Proof.
  pose proof (kepler_time_units 2 [PI] (mk3 1 0 0) (mk3 0 1 0) 1 ltac:(lra) Rlt_0_1) as H.
  rewrite circ_kepler in H. cbn [map fst snd] in H. rewrite H, cos_PI, sin_PI. unfold smul. cbn [c0 c1 c2].
  repeat f_equal; field.
Qed.
(** The exact flow in units of length 4 and time 2. *)
Lemma circ_flow t : flows_to 1 t (mk3 1 0 0, mk3 0 1 0) (mk3 (cos t) (sin t) 0, mk3 (- sin t) (cos t) 0).
Proof.
  exists (fun t => mk3 (cos t) (sin t) 0), (fun t => mk3 (- sin t) (cos t) 0).
  assert (N : forall s, vnorm (mk3 (cos s) (sin s) 0) = 1).
  { intros s. apply vnorm_unique; [lra|]. unfold dot. cbn [c0 c1 c2]. pose proof (sin2_cos2 s) as E.
    unfold Rsqr in E. lra. }
  split; [|split].
  - intros s. split; [|split].
    + intros Z. specialize (N s). rewrite Z in N. unfold vzero, vnorm, dot in N. cbn [c0 c1 c2] in N.
      replace (0 * 0 + 0 * 0 + 0 * 0) with 0 in N by ring. rewrite sqrt_0 in N. lra.
    + split; [|split]; cbn [c0 c1 c2]; auto_derive; auto; ring.
    + unfold gravity. rewrite N. split; [|split]; unfold smul; cbn [c0 c1 c2]; auto_derive; auto; field.
  - now rewrite cos_0, sin_0, Ropp_0.
  - reflexivity.
Qed.
Lemma circ_flow_units : flows_to 16 (2 * PI) (mk3 4 0 0, mk3 0 2 0) (mk3 (-4) 0 0, mk3 0 (-2) 0).
Proof.
  pose proof (flow_units 4 2 ltac:(lra) ltac:(lra) _ _ _ _ _ _ (circ_flow PI)) as H. rewrite cos_PI, sin_PI in H.
  unfold smul in H. cbn [c0 c1 c2] in H. replace (4 ^ 3 / 2 ^ 2 * 1) with 16 in H by field.
  replace (4 * 1) with 4 in H by ring. replace (4 * 0) with 0 in H by ring. replace (4 / 2 * 0) with 0 in H by field.
  replace (4 / 2 * 1) with 2 in H by field. replace (4 * -1) with (-4) in H by ring.
  replace (4 / 2 * - 0) with 0 in H by field. replace (4 / 2 * -1) with (-2) in H by field. exact H.
Qed.

(** ** C51: a parabola whose propagation depends on the length unit *)
Definition pr : vec := mk3 2 0 0.
Definition pv : vec := mk3 0 1 0.
Lemma pr_norm : vnorm pr = 2.
Proof. apply vnorm_unique; [lra|]. unfold dot, pr; simpl. ring. Qed.
Lemma pv_norm : vnorm pv = 1.
Proof. apply vnorm_unique; [lra|]. unfold dot, pv; simpl. ring. Qed.
Lemma p_alpha : alphaS pr pv 1 = 0.
Proof. unfold alphaS. rewrite pr_norm, pv_norm. field. Qed.
Lemma p_sigma : sigmaS pr pv 1 = 0.
Proof. unfold sigmaS, dot, pr, pv. cbn [c0 c1 c2]. rewrite sqrt_1. field. Qed.
Lemma p_equ t chi : kepler_equ_uni chi 0 2 0 t 1 = 2 * chi + chi ^ 3 / 6 - t.
Proof. rewrite kepler_equ_uni_R, !U_alpha0, sqrt_1. simpl. field. Qed.
Lemma p_dchi chi : dchi chi 0 2 0 = 2 + chi ^ 2 / 2.
Proof. rewrite dchi_R, !U_alpha0. simpl. field. Qed.
Lemma p_newton chi : 0 <= chi -> 0 < uni_newton 100 0 2 0 1 chi.
Proof.
  intros H. rewrite uni_newton_R, p_equ, p_dchi. pose proof (pow2_ge_0 chi).
  replace (chi - (2 * chi + chi ^ 3 / 6 - 100) / (2 + chi ^ 2 / 2))
    with ((chi ^ 3 / 3 + 100) / (2 + chi ^ 2 / 2)) by (field; lra).
  apply Rdiv_lt_0_compat; [|lra]. pose proof (pow_le chi 3 H). lra.
Qed.
Lemma p_iter n : 0 <= iterate (uni_newton 100 0 2 0 1) n 0 /\ 0 < iterate (uni_newton 100 0 2 0 1) (S n) 0.
Proof.
  induction n as [|n [A B]].
  - split; [cbn [iterate]; lra|]. cbn [iterate]. apply p_newton. lra.
  - split; [lra|]. cbn [iterate] in *. apply p_newton. lra.
Qed.
Lemma p_solver : 0 < solve_kepler_uni 100 (alphaS pr pv 1) 2 (sigmaS pr pv 1) 1 default_tol uni_max_iter.
Proof.
  rewrite p_alpha, p_sigma.
  destruct (uni_char 100 0 2 0 1 default_tol uni_max_iter) as (k & _ & E & _ & St). cbv zeta in *.
  assert (G : uni_guess 100 0 1 = 0) by (rewrite uni_guess_R, Rabs_R0; ring).
  rewrite G in *. destruct k as [|k].
  - exfalso. destruct St as [St|St]; [discriminate|]. cbn [iterate] in St. apply exceeds_R_false in St.
    rewrite p_equ, default_tol_R in St. replace (2 * 0 + 0 ^ 3 / 6 - 100) with (- (100)) in St by field.
    rewrite Rabs_left in St by lra. lra.
  - rewrite E. apply (p_iter k).
Qed.
Lemma p_moves : exists r v, kepler [100] pr pv 1 = [(r, v)] /\ 0 < c1 r.
Proof.
  rewrite kepler_map. cbn [map]. rewrite !kepler1_vn, state_at_chi_S, !alpha_of_S, pr_norm.
  change (sigma_fn pr pv 1) with (sigmaS pr pv 1). pose proof p_solver as S.
  set (chi := solve_kepler_uni _ _ _ _ _ _ _) in *. clearbody chi.
  eexists _, _. split; [reflexivity|].
  unfold posS, GS, FS. rewrite p_alpha, p_sigma, pr_norm, !U_alpha0, sqrt_1. unfold vplus, smul, pr, pv. simpl. lra.
Qed.
Lemma p_stuck : let l := / 1000000 in kepler [1 * 100] (smul l pr) (smul (l / 1) pv) (l ^ 3 / 1 ^ 2 * 1)
  = [(smul l pr, smul (l / 1) pv)].
Proof.
  cbv zeta. set (l := / 1000000). assert (Hl : 0 < l) by (unfold l; lra).
  assert (K : sqrt l = / 1000).
  { unfold l. replace (/ 1000000) with (/ 1000 * / 1000) by field. apply sqrt_square. lra. }
  rewrite kepler_map. cbn [map]. rewrite !kepler1_vn, !alpha_of_S.
  change (sigma_fn (smul l pr) (smul (l / 1) pv) (l ^ 3 / 1 ^ 2 * 1))
    with (sigmaS (smul l pr) (smul (l / 1) pv) (l ^ 3 / 1 ^ 2 * 1)).
  rewrite (alpha_units l 1 Hl Rlt_0_1 pr pv 1 Rlt_0_1), (sigma_units l 1 Hl Rlt_0_1 pr pv 1 Rlt_0_1), p_alpha, p_sigma.
  replace (0 / l) with 0 by (unfold l; field). rewrite Rmult_0_r.
  assert (G : uni_guess (1 * 100) 0 (l ^ 3 / 1 ^ 2 * 1) = 0) by (rewrite uni_guess_R, Rabs_R0; ring).
  assert (S : solve_kepler_uni (1 * 100) 0 (vnorm (smul l pr)) 0 (l ^ 3 / 1 ^ 2 * 1) default_tol uni_max_iter = 0).
  { rewrite uni_loop_idle; [exact G|]. rewrite G. apply exceeds_R_false.
    rewrite kepler_equ_uni_R, default_tol_R, !U_alpha0, (sqrt_mu' l 1 Hl Rlt_0_1), K, sqrt_1 by lra. simpl.
    match goal with |- Rabs ?e <= _ => replace e with (- (/ 10000000)) by field end.
    rewrite Rabs_left by lra. lra. }
  rewrite S. set (mu' := l ^ 3 / 1 ^ 2 * 1). apply (f_equal (fun x => [x])). unfold state_at_chi, lagrange_prop.
  rewrite ufunc0_U, ufunc1_U, ufunc2_U, !U_zero. cbn [Nat.eqb].
  rewrite lagrange_F_R, lagrange_G_R, lagrange_Ft_R, lagrange_Gt_R. unfold Rdiv.
  rewrite ?Rmult_0_r, ?Rmult_0_l.
  apply pair_equal_spec. split.
  - unfold vadd, vscale, smul, pr, pv. cbn [c0 c1 c2]. apply mk3_eq; simpl; ring.
  - unfold vadd, vscale, smul, pr, pv. cbn [c0 c1 c2]. apply mk3_eq; simpl; ring.
Qed.
Lemma length_unit_matters :
  ~ (forall lam tau ts r v mu, 0 < lam -> 0 < tau -> 0 < mu -> cross r v <> vzero ->
     kepler (map (Rmult tau) ts) (smul lam r) (smul (lam / tau) v) (lam ^ 3 / tau ^ 2 * mu)
     = map (fun x => (smul lam (fst x), smul (lam / tau) (snd x))) (kepler ts r v mu)).
Proof.
  intros H. specialize (H (/ 1000000) 1 [100] pr pv 1 ltac:(lra) Rlt_0_1 Rlt_0_1).
  assert (N : cross pr pv <> vzero).
  { intros Z. apply (f_equal c2) in Z. unfold cross, pr, pv, vzero in Z. cbn [c0 c1 c2] in Z. lra. }
  specialize (H N). cbn [map] in H. pose proof p_stuck as S. cbv zeta in S. rewrite S in H.
  destruct p_moves as (r & v & E & P). rewrite E in H. cbn [map fst snd] in H.
  injection H as _ A _ _ _ _. all: unfold pr in *; cbn [c0 c1 c2] in *; nra.
Qed.
Lemma axes_example t :
  kepler [t] (mk3 1 0 0) (mk3 0 1 0) 1 = [(mk3 (cos t) (sin t) 0, mk3 (- sin t) (cos t) 0)] /\
  rotation (rotmat3dx (PI / 2)) /\
  kepler [t] (mk3 1 0 0) (mk3 0 0 1) 1 = [(mk3 (cos t) 0 (sin t), mk3 (- sin t) 0 (cos t))].
Proof. split; [exact (circ_kepler [t])|]. split; [apply rot_x|apply circ_turned]. Qed.
