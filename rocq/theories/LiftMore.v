(** * LiftMore: the propagator and the remaining functions with exceptional values (C47, C52) *)
From Coq Require Import Reals Lra Lia Psatz ZArith List String.
From Coquelicot Require Import Coquelicot.
From Verif Require Import Num NumR NumX Spec RLib RotMat Uniformulas Lagrange OrbIntegrals KepEqu StateTrans
  OrbElements PathCheck PropKepler Gravity SeriesU UFacts OrbFacts KepState LoopFacts KepMotion Lift.
Import ListNotations.
Local Open Scope R_scope.

Lemma cosh_ge_1 x : 1 <= cosh x.
Proof.
  unfold cosh. pose proof (exp_pos x) as P. pose proof (exp_pos (- x)) as Q.
  assert (M : exp x * exp (- x) = 1) by (rewrite <- exp_plus, Rplus_opp_r; apply exp_0).
  set (a := exp x) in *. set (b := exp (- x)) in *. clearbody a b.
  assert (0 <= (a - b) * (a - b)) by apply Rle_0_sqr.
  assert (4 <= (a + b) * (a + b)) by lra. apply (Rmult_le_reg_l 2); [lra|].
  replace (2 * ((a + b) / 2)) with (a + b) by field. nra.
Qed.

Section More.
  Context {T : Type} {N : Num T}.
  Variable f : R -> T.
  Hypothesis E : Embeds N f.
  Let fv : V3 R -> V3 T := vmap3 f.
  Let fm : M3 R -> M3 T := vmap3 (vmap3 f).
  Ltac lift1 := rewrite ?(e_Z N f E), ?(e_dec N f E), ?(e_pi N f E), ?(l_pow f E), ?(e_neg N f E), ?(e_abs N f E), ?(e_mul N f E),
    ?(e_add N f E), ?(e_sub N f E), ?(e_sin N f E), ?(e_cos N f E), ?(e_sinh N f E), ?(e_cosh N f E), ?(e_arctan2 N f E),
    ?(e_cbrt N f E), ?(e_max N f E), ?(e_floor N f E).
  Ltac side := solve [ lra | assumption | apply Rgt_not_eq; (assumption || (apply sqrt_lt_R0; lra)) | apply npow_neq; (assumption || lra) ].
  Ltac lift := repeat (progress lift1 || (rewrite (e_sqrt N f E) by side) || (rewrite (e_div N f E) by side)).

  Lemma l_kepler ts r v mu : 0 < mu -> cross r v <> vzero ->
    alpha_of (f (vnorm r)) (f (vnorm v)) (f mu) = f (alpha_of (vnorm r) (vnorm v) mu) ->
    kepler (map f ts) (fv r) (fv v) (f mu) = map (fun x => (fv (fst x), fv (snd x))) (kepler ts r v mu).
  Proof using E.
    intros Hm Hh Ha. rewrite !kepler_map, !map_map. apply map_ext. intros t. unfold kepler1. cbv zeta.
    rewrite !(l_norm f E), (l_sigma f E) by auto.
    change (vector_norm r) with (vnorm r). change (vector_norm v) with (vnorm v). rewrite Ha.
    assert (D : forall chi : R, dchi chi (alpha_of (vnorm r) (vnorm v) mu) (vnorm r) (sigma_fn r v mu) <> 0).
    { intros chi. rewrite dchi_S. now apply rad_neq. }
    replace (@default_tol T N) with (f default_tol) by (symmetry; apply (e_dec N f E)).
    rewrite (l_solver f E) by auto.
    rewrite (l_state f E) by (auto; apply Rgt_not_eq, vnorm_pos; intros ->; apply Hh; unfold cross, vzero; cbn [c0 c1 c2];
      apply mk3_eq; ring).
    reflexivity.
  Qed.

  (** ** Elements *)
  Lemma l_where_ (b : bool) x y : where_ b (f x) (f y) = f (where_ b x y).
  Proof using. destruct b; reflexivity. Qed.
  Lemma wrap_l (x : R) : where_ (n_lt (f x) (n_Z 0)) (n_add (n_mul (n_Z 2) n_pi) (f x)) (f x)
    = f (where_ (n_lt x (n_Z 0)) (n_add (n_mul (n_Z 2) n_pi) x) x).
  Proof using E. lift. rewrite (e_lt N f E), l_where_. reflexivity. Qed.
  Lemma h_ratio (h : vec) : h <> vzero -> -1 <= c2 h / vnorm h <= 1.
  Proof using.
    intros Hh. pose proof (vnorm_pos _ Hh) as P. pose proof (vnorm_sq h) as Q. unfold dot in Q.
    assert (c2 h * c2 h <= vnorm h * vnorm h) by nra.
    assert (A : Rabs (c2 h) <= vnorm h) by (apply Rsqr_le_abs_0 in H; rewrite (Rabs_pos_eq (vnorm h)) in H; lra).
    apply Rabs_le_between in A.
    split; [apply (Rmult_le_reg_r (vnorm h))|apply (Rmult_le_reg_r (vnorm h))]; auto; unfold Rdiv;
      rewrite Rmult_assoc, Rinv_l by lra; lra.
  Qed.
  Lemma l_inclination h : h <> vzero -> inclination (fv h) = f (inclination h).
  Proof using E.
    intros Hh. unfold inclination. rewrite (l_norm f E). unfold fv at 1, vmap3. cbn [c2].
    rewrite (e_div N f E) by (apply Rgt_not_eq, (vnorm_pos _ Hh)). apply (e_arccos N f E). apply (h_ratio h Hh).
  Qed.
  Lemma l_true_anomaly r e : true_anomaly (fv r) (fv e) = f (true_anomaly r e).
  Proof using E.
    unfold true_anomaly. cbv zeta. rewrite (l_cross f E), (l_norm f E), (l_inner f E), (e_arctan2 N f E), wrap_l. reflexivity.
  Qed.
  Lemma l_node_vec h : node_vec (fv h) = fv (node_vec h).
  Proof using E.
    unfold node_vec. replace (mk3 (n_Z 0) (n_Z 0) (n_Z 1)) with (fv (mk3 0 0 1)); [apply (l_cross f E)|].
    unfold fv, vmap3. cbn [c0 c1 c2]. now rewrite !(e_Z N f E).
  Qed.
  Lemma l_right_ascension n : right_ascension (fv n) = f (right_ascension n).
  Proof using E. unfold right_ascension. cbv zeta. unfold fv, vmap3. cbn [c0 c1]. rewrite (e_arctan2 N f E), wrap_l. reflexivity. Qed.
  Lemma l_argp n e : argument_of_periapsis (fv n) (fv e) = f (argument_of_periapsis n e).
  Proof using E.
    unfold argument_of_periapsis. cbv zeta.
    rewrite (l_cross f E), (l_norm f E), (l_inner f E), (e_arctan2 N f E), wrap_l. reflexivity.
  Qed.
  Definition fcoe (x : @coe R) : @coe T :=
    mkcoe (f (coe_p x)) (f (coe_e x)) (f (coe_incl x)) (f (coe_raan x)) (f (coe_argp x)) (f (coe_f x)).
  Lemma r_of_h r v : cross r v <> vzero -> r <> vzero.
  Proof using. intros H ->. apply H. unfold cross, vzero; cbn [c0 c1 c2]; apply mk3_eq; ring. Qed.
  Lemma l_rv2coe r v mu : mu <> 0 -> cross r v <> vzero ->
    rv2coe (fv r) (fv v) (f mu) = fcoe (rv2coe r v mu).
  Proof using E.
    intros Hm Hh. pose proof (r_of_h _ _ Hh) as Hr. unfold rv2coe, fcoe, angular_momentum. cbv zeta.
    cbn [coe_p coe_e coe_incl coe_raan coe_argp coe_f].
    rewrite (l_cross f E), (l_ecc_vec f E), !(l_norm f E), l_node_vec, l_right_ascension, l_argp, l_true_anomaly, l_inclination by auto.
    unfold semiparameter. lift. reflexivity.
  Qed.
  Lemma l_rotz a : rotmat3dz (f a) = fm (rotmat3dz a).
  Proof using E. unfold rotmat3dz, fm, vmap3. cbv zeta. cbn [c0 c1 c2]. lift. reflexivity. Qed.
  Lemma l_rotx a : rotmat3dx (f a) = fm (rotmat3dx a).
  Proof using E. unfold rotmat3dx, fm, vmap3. cbv zeta. cbn [c0 c1 c2]. lift. reflexivity. Qed.
  Lemma l_roty a : rotmat3dy (f a) = fm (rotmat3dy a).
  Proof using E. unfold rotmat3dy, fm, vmap3. cbv zeta. cbn [c0 c1 c2]. lift. reflexivity. Qed.
  Lemma l_mk3 a b c : mk3 (f a) (f b) (f c) = fv (mk3 a b c).
  Proof using. reflexivity. Qed.
  Lemma l_coe2rv p e i O w nu mu : 0 < p -> 0 <= mu -> 1 + e * cos nu <> 0 ->
    coe2rv (f p) (f e) (f i) (f O) (f w) (f nu) (f mu)
    = let x := coe2rv p e i O w nu mu in (fv (fst x), fv (snd x)).
  Proof using E.
    intros Hp Hm Hd. assert (0 <= mu / p) by (apply Rmult_le_pos; [lra|apply Rlt_le, Rinv_0_lt_compat, Hp]).
    unfold coe2rv. cbv zeta. cbn [fst snd]. lift.
    rewrite !l_mk3, !l_rotz, !l_rotx, !(l_vscale f E), !(l_mmul f E), !(l_mvec f E). reflexivity.
  Qed.

  (** ** State transition matrix *)
  Definition fM6 (x : @M6 R) : @M6 T := mkM6 (fm (b_rr x)) (fm (b_rv x)) (fm (b_vr x)) (fm (b_vv x)).
  Lemma l_dxdx0 r v r0 v0 t mu : 0 < mu -> r <> vzero -> r0 <> vzero ->
    alpha_of (f (vnorm r0)) (f (vnorm v0)) (f mu) = f (alpha_of (vnorm r0) (vnorm v0) mu) ->
    dxdx0 (fv r) (fv v) (fv r0) (fv v0) (f t) (f mu) = fM6 (dxdx0 r v r0 v0 t mu).
  Proof using E.
    intros Hm Hr Hr0 Ha. assert (Hs : sqrt mu <> 0) by (apply Rgt_not_eq, sqrt_lt_R0, Hm).
    assert (N1 : vector_norm r <> 0) by (apply Rgt_not_eq, (vnorm_pos _ Hr)).
    assert (N0 : vector_norm r0 <> 0) by (apply Rgt_not_eq, (vnorm_pos _ Hr0)).
    assert (Hm0 : mu <> 0) by lra.
    change (vnorm r0) with (vector_norm r0) in Ha. change (vnorm v0) with (vector_norm v0) in Ha.
    unfold dxdx0. cbv zeta. rewrite !(l_norm f E), Ha, !(l_sigma f E) by auto.
    unfold generalized_anomaly. lift. rewrite (l_ufunc1 f E), !(l_ufunc2 f E), (l_ufunc4 f E), (l_ufunc5 f E).
    unfold C_func, lagrange_F, lagrange_G, lagrange_Ft, lagrange_Gt. lift.
    unfold fM6. cbn [b_rr b_rv b_vr b_vv].
    unfold prpr0, prpv0, pvpr0, pvpv0. cbv zeta. rewrite !(l_norm f E). lift.
    rewrite !(l_vsub f E). rewrite !(l_vdivs f E) by side. rewrite !(l_outer f E), !(l_eye f E). 
    rewrite !(l_mscale f E), !(l_msub f E), !(l_mneg f E).
    rewrite !(l_mdivs f E) by side. rewrite ?(l_mmul f E), ?(l_madd f E), ?(l_msub f E), ?(l_mscale f E), ?(l_madd f E), ?(l_msub f E).
    assert (RM : forall k (M : M3 R), vmap3 (fun row => vmap3 (fun x => n_mul x (f k)) row) (fm M)
              = fm (vmap3 (fun row => vmap3 (fun x => n_mul x k) row) M)).
    { intros k M. unfold fm, vmap3. cbn [c0 c1 c2]. now rewrite !(e_mul N f E). }
    rewrite !RM. rewrite !(l_mdivs f E) by side. rewrite ?(l_madd f E), ?(l_msub f E), ?(l_madd f E). reflexivity.
  Qed.

  (** ** Scalar formulas *)
  Lemma l_orb_period a mu : mu <> 0 -> 0 <= a ^ 3 / mu -> orb_period (f a) (f mu) = f (orb_period a mu).
  Proof using E.
    intros Hm Ha. replace (a ^ 3) with (npow a 3) in Ha by apply npow_R. unfold orb_period. lift. reflexivity.
  Qed.
  Lemma l_a_from_period P mu : a_from_period (f P) (f mu) = f (a_from_period P mu).
  Proof using E. pose proof PI_RGT_0. unfold a_from_period. lift. reflexivity. Qed.
  Lemma l_semimajor r v mu : r <> 0 -> mu <> 0 -> 2 / r - v ^ 2 / mu <> 0 ->
    semimajor_axis (f r) (f v) (f mu) = f (semimajor_axis r v mu).
  Proof using E.
    intros Hr Hm Ha. replace (v ^ 2) with (npow v 2) in Ha by apply npow_R. unfold semimajor_axis. lift. reflexivity.
  Qed.
  Lemma l_semiparameter h mu : mu <> 0 -> semiparameter (f h) (f mu) = f (semiparameter h mu).
  Proof using E. intros. unfold semiparameter. lift. reflexivity. Qed.
  Lemma l_mean_motion P : P <> 0 -> mean_motion (f P) = f (mean_motion P).
  Proof using E. intros. unfold mean_motion. lift. reflexivity. Qed.
  Lemma l_equ_of_orbit p e nu : 1 + e * cos nu <> 0 -> equ_of_orbit (f p) (f e) (f nu) = f (equ_of_orbit p e nu).
  Proof using E. intros. unfold equ_of_orbit. lift. reflexivity. Qed.
  Lemma l_radius_periapsis p e : 1 + e <> 0 -> radius_periapsis (f p) (f e) = f (radius_periapsis p e).
  Proof using E. intros. unfold radius_periapsis. lift. reflexivity. Qed.
  Lemma l_radius_apoapsis p e : 1 - e <> 0 -> radius_apoapsis (f p) (f e) = f (radius_apoapsis p e).
  Proof using E. intros. unfold radius_apoapsis. lift. reflexivity. Qed.
  Lemma l_a_from_pe p e : 1 - e ^ 2 <> 0 -> a_from_pe (f p) (f e) = f (a_from_pe p e).
  Proof using E.
    intros He. replace (e ^ 2) with (npow e 2) in He by apply npow_R. unfold a_from_pe. lift. reflexivity.
  Qed.
  Lemma l_mean_elps a t mu : a <> 0 -> 0 <= mu / a ^ 3 -> mean_anomaly_elps (f a) (f t) (f mu) = f (mean_anomaly_elps a t mu).
  Proof using E.
    intros Ha Hq. replace (a ^ 3) with (npow a 3) in Hq by apply npow_R. unfold mean_anomaly_elps. lift. reflexivity.
  Qed.
  Lemma l_mean_hypb a t mu : a <> 0 -> 0 <= mu / - a ^ 3 -> mean_anomaly_hypb (f a) (f t) (f mu) = f (mean_anomaly_hypb a t mu).
  Proof using E.
    intros Ha Hq. replace (a ^ 3) with (npow a 3) in Hq by apply npow_R. unfold mean_anomaly_hypb.
    assert (- npow a 3 <> 0) by (apply Ropp_neq_0_compat, npow_neq, Ha). lift. reflexivity.
  Qed.

  (** ** Newton loops for the classical equations *)
  Let Rel (s : loop_state (T := R)) (s' : loop_state (T := T)) :=
    let '(i, x, y) := s in s' = (i, f x, f y).
  Lemma l_loop (c : loop_state -> bool) b (c' : loop_state -> bool) b' :
    (forall s s', Rel s s' -> c' s' = c s /\ Rel (b s) (b' s')) ->
    forall n s s', Rel s s' ->
    match while_fuel n c b s, while_fuel n c' b' s' with
    | Some x, Some x' => Rel x x' | None, None => True | _, _ => False end.
  Proof using.
    intros H n. induction n as [|n IH]; intros s s' Hs; cbn [while_fuel]; auto.
    destruct (H s s' Hs) as [-> H']. destruct (c s); [exact (IH _ _ H')|exact Hs].
  Qed.
  Lemma l_elps M e tol mi : (forall x : R, 1 - e * cos x <> 0) ->
    solve_kepler_elps (f M) (f e) (f tol) mi = f (solve_kepler_elps M e tol mi).
  Proof using E.
    intros He. assert (G : elps_guess (f M) (f e) = f (elps_guess M e)) by (unfold elps_guess; lift; reflexivity).
    unfold solve_kepler_elps, elps_run.
    pose proof (l_loop (elps_cond tol mi) (elps_body M e) (elps_cond (f tol) mi) (elps_body (f M) (f e))) as H.
    assert (St : forall s s', Rel s s' -> elps_cond (f tol) mi s' = elps_cond tol mi s /\
              Rel (elps_body M e s) (elps_body (f M) (f e) s')).
    { intros [[i x] y] s' ->. unfold elps_cond, elps_body, Rel, dE. cbv zeta. rewrite (e_sub N f E), (l_exceeds f E).
      split; [reflexivity|]. f_equal. f_equal. specialize (He x). lift. reflexivity. }
    specialize (H St (loop_fuel mi) (elps_init M e tol) (elps_init (f M) (f e) (f tol))).
    assert (I : Rel (elps_init M e tol) (elps_init (f M) (f e) (f tol))).
    { unfold Rel, elps_init. rewrite G. lift. reflexivity. }
    specialize (H I).
    destruct (while_fuel _ (elps_cond tol mi) _ _) as [[[i x] y]|];
    destruct (while_fuel _ _ _ _) as [[[i' x'] y']|]; try contradiction.
    - unfold Rel in H. now injection H as _ -> _.
    - exact G.
  Qed.
  Lemma l_hypb M e tol mi : 1 < e -> solve_kepler_hypb (f M) (f e) (f tol) mi = f (solve_kepler_hypb M e tol mi).
  Proof using E.
    intros He. assert (He0 : e <> 0) by lra.
    assert (G : hypb_guess (f M) (f e) = f (hypb_guess M e)).
    { unfold hypb_guess. lift.
      assert (Q : npow (2 * M / e) 2 = (2 * M / e) ^ 2) by apply npow_R.
      assert (S : 0 <= npow (2 * M / e) 2 + 1) by (rewrite Q; pose proof (pow2_ge_0 (2 * M / e)); lra).
      rewrite (e_sqrt N f E) by exact S. rewrite (e_add N f E), (e_log N f E); [reflexivity|].
      rewrite Q. set (y := 2 * M / e). pose proof (pow2_ge_0 y).
      assert (K : Rabs y < sqrt (y ^ 2 + 1)).
      { rewrite <- (sqrt_pow2 (Rabs y)) by apply Rabs_pos. rewrite pow2_abs. apply sqrt_lt_1; lra. }
      apply Rabs_def2 in K. lra. }
    unfold solve_kepler_hypb, hypb_run.
    pose proof (l_loop (hypb_cond M e tol mi) (hypb_body M e) (hypb_cond (f M) (f e) (f tol) mi) (hypb_body (f M) (f e))) as H.
    assert (St : forall s s', Rel s s' -> hypb_cond (f M) (f e) (f tol) mi s' = hypb_cond M e tol mi s /\
              Rel (hypb_body M e s) (hypb_body (f M) (f e) s')).
    { intros [[i x] y] s' ->. unfold hypb_cond, hypb_body, Rel, dH. cbv zeta.
      assert (Q : kepler_equ_hypb (f x) (f e) (f M) = f (kepler_equ_hypb x e M)) by (unfold kepler_equ_hypb; lift; reflexivity).
      rewrite Q, (l_exceeds f E). split; [reflexivity|]. f_equal. f_equal.
      assert (C : e * cosh x - 1 <> 0).
      { pose proof (cosh_ge_1 x) as C1.
        assert (1 * 1 < e * cosh x) by (apply Rlt_le_trans with (e * 1); [lra|apply Rmult_le_compat_l; lra]). lra. }
      lift. reflexivity. }
    specialize (H St (loop_fuel mi) (hypb_init M e tol) (hypb_init (f M) (f e) (f tol))).
    assert (I : Rel (hypb_init M e tol) (hypb_init (f M) (f e) (f tol))).
    { unfold Rel, hypb_init. rewrite G. lift. reflexivity. }
    specialize (H I).
    destruct (while_fuel _ (hypb_cond M e tol mi) _ _) as [[[i x] y]|];
    destruct (while_fuel _ _ _ _) as [[[i' x'] y']|]; try contradiction.
    - unfold Rel in H. now injection H as _ -> _.
    - exact G.
  Qed.

  (** ** Gravity *)
  Definition fdict (d : dict (T := R)) : dict (T := T) := map (fun kv => (fst kv, f (snd kv))) d.
  Definition fres (x : res (V3 R)) : res (V3 T) := match x with Ok a => Ok (fv a) | Raise e => Raise e end.
  Lemma l_lookup k d : lookup k (fdict d) = match lookup k d with Ok a => Ok (f a) | Raise e => Raise e end.
  Proof using. induction d as [|[k' v] d IH]; cbn [fdict map lookup fst snd]; [reflexivity|]. destruct (String.eqb k k'); auto. Qed.
  Lemma l_jget x i : jget (map f x) i = match jget x i with Ok a => Ok (f a) | Raise e => Raise e end.
  Proof using. unfold jget. rewrite map_length, nth_error_map. destruct (nth_error x _); reflexivity. Qed.
  Lemma l_norm3 x : norm_first3 (map f x) = f (norm_first3 x).
  Proof using E.
    unfold norm_first3. rewrite firstn_map.
    assert (F : forall l a, fold_left (fun acc b => n_add acc (n_mul b b)) (map f l) (f a)
              = f (fold_left (fun acc b => n_add acc (n_mul b b)) l a)).
    { induction l as [|b l IH]; intros a; cbn [map fold_left]; [reflexivity|]. rewrite (e_mul N f E), (e_add N f E). apply IH. }
    assert (S : forall l, sumsq (map f l) = f (sumsq l)).
    { intros [|a l]; cbn [map sumsq]; [apply (e_Z N f E)|]. rewrite (e_mul N f E). apply F. }
    rewrite S. apply (e_sqrt N f E). clear.
    assert (P : forall l a, 0 <= a -> 0 <= fold_left (fun acc b : R => n_add acc (n_mul b b)) l a).
    { induction l as [|b l IH]; intros a Ha; cbn [fold_left]; [exact Ha|]. apply IH. change (0 <= a + b * b). nra. }
    destruct (firstn 3 x) as [|a l]; cbn [sumsq]; [apply Rle_refl|]. apply P. change (0 <= a * a). nra.
  Qed.
  Ltac grav := unfold bind; rewrite ?l_lookup, ?l_jget, ?l_norm3;
    repeat (match goal with |- context [match lookup ?k ?d with _ => _ end] => destruct (lookup k d)
      | |- context [match jget ?x ?i with _ => _ end] => destruct (jget x i) end; try reflexivity);
    unfold fres; cbv zeta; lift; reflexivity.
  Lemma l_point_mass t x d : norm_first3 x <> 0 ->
    point_mass_grav (f t) (map f x) (fdict d) = fres (point_mass_grav t x d).
  Proof using E. intros Hr. unfold point_mass_grav. grav. Qed.
  Lemma l_j2 t x d : norm_first3 x <> 0 -> j2_acc (f t) (map f x) (fdict d) = fres (j2_acc t x d).
  Proof using E. intros Hr. unfold j2_acc. grav. Qed.
  Lemma l_j3 t x d : norm_first3 x <> 0 -> j3_acc (f t) (map f x) (fdict d) = fres (j3_acc t x d).
  Proof using E. intros Hr. unfold j3_acc. grav. Qed.
  Lemma l_j4 t x d : norm_first3 x <> 0 -> j4_acc (f t) (map f x) (fdict d) = fres (j4_acc t x d).
  Proof using E. intros Hr. unfold j4_acc. grav. Qed.

  (** ** Path checks *)
  Lemma l_nmax rp r1 r2 tof mu : 0 < Rmax r1 r2 + rp -> 0 <= mu ->
    nmax_by_periapsis (f rp) (f r1) (f r2) (f tof) (f mu) = f (nmax_by_periapsis rp r1 r2 tof mu).
  Proof using E.
    intros Ha Hm. pose proof PI_RGT_0. unfold nmax_by_periapsis. cbv zeta. lift.
    assert (P : 0 < 1 / 2 * (Rmax r1 r2 + rp)) by lra.
    assert (Q : 0 < npow (1 / 2 * (Rmax r1 r2 + rp)) 3) by (rewrite npow_R; now apply pow_lt).
    assert (0 <= mu / npow (1 / 2 * (Rmax r1 r2 + rp)) 3)
      by (apply Rmult_le_pos; [lra|apply Rlt_le, Rinv_0_lt_compat, Q]).
    lift. reflexivity.
  Qed.
  Lemma l_short r1 v1 r2 : is_short_way (fv r1) (fv v1) (fv r2) = is_short_way r1 v1 r2.
  Proof using E. unfold is_short_way. rewrite !(l_cross f E), (l_inner f E), (e_Z N f E). apply (l_gt f E). Qed.
  Lemma l_perigee r1 v1 r2 mu : mu <> 0 -> r1 <> vzero ->
    pass_perigee (fv r1) (fv v1) (fv r2) (f mu) = pass_perigee r1 v1 r2 mu.
  Proof using E.
    intros Hm Hr. unfold pass_perigee. cbv zeta.
    rewrite l_short, (l_ecc_vec f E), !(l_cross f E), !(l_inner f E), (e_Z N f E), !(l_gt f E) by auto. reflexivity.
  Qed.
  Lemma l_rp rmin r v mu : mu <> 0 -> r <> vzero ->
    rp_islower_rmin (f rmin) (fv r) (fv v) (f mu) = rp_islower_rmin rmin r v mu.
  Proof using E.
    intros Hm Hr. unfold rp_islower_rmin, angular_momentum. cbv zeta.
    rewrite (l_ecc_vec f E), (l_cross f E), !(l_norm f E), l_semiparameter, l_radius_periapsis by
      (auto; change (vector_norm (eccentricity_vector r v mu)) with (vnorm (eccentricity_vector r v mu));
       unfold vnorm; pose proof (sqrt_pos (dot (eccentricity_vector r v mu) (eccentricity_vector r v mu))); lra).
    apply (e_lt N f E).
  Qed.
End More.
