(** * Equi: rotations and changes of units (proofs for C45 and C51) *)
From Coq Require Import Reals Lra Lia Psatz ZArith List.
Import ListNotations.
From Coquelicot Require Import Coquelicot.
From Verif Require Import Num NumR Spec RLib Ana RotMat RotFacts Uniformulas Lagrange OrbIntegrals KepEqu StateTrans
  OrbElements PathCheck PropKepler SeriesU UFacts OrbFacts KepState LoopFacts KepMotion TwoBody KepRows
  StmFacts Atan2 ElemFacts PathFacts SolveUni.
Local Open Scope R_scope.

(** ** Rotations *)
Section Rot.
  Variable A : mat.
  Hypothesis HA : rotation A.
  Let rot (x : vec * vec) : vec * vec := (row_col A (fst x), row_col A (snd x)).
  Lemma kepler_rot ts r v mu :
    kepler ts (row_col A r) (row_col A v) mu = map rot (kepler ts r v mu).
  Proof using HA.
    rewrite !kepler_map, map_map. apply map_ext. intros t. unfold kepler1.
    rewrite !vector_norm_vnorm, !(rot_norm A HA), !sigma_fn_R, (rot_dot A HA).
    set (chi := solve_kepler_uni _ _ _ _ _ _ _). unfold state_at_chi, lagrange_prop, rot. cbn [fst snd].
    rewrite !vadd_vplus, !vscale_smul, !row_col_plus, !row_col_smul. reflexivity.
  Qed.
  Lemma vd_rot (f : R -> vec) (t : R) l : vderive f t l -> vderive (fun s => row_col A (f s)) t (row_col A l).
  Proof.
    intros (D0 & D1 & D2). unfold row_col, dot. split; [|split]; cbn [c0 c1 c2];
      (eapply der_eq; [apply der_plus; [apply der_plus|]; apply der_scal; eassumption|reflexivity]).
  Qed.
  Lemma motion_rot mu r v : two_body_motion mu r v ->
    two_body_motion mu (fun t => row_col A (r t)) (fun t => row_col A (v t)).
  Proof using HA.
    intros H t. destruct (H t) as (N & D & E). split; [now apply rot_nonzero|]. split; [now apply vd_rot|].
    eapply vd_eq; [apply vd_rot, E|]. unfold gravity. rewrite (rot_norm A HA), row_col_smul. reflexivity.
  Qed.
  Lemma flow_rot mu t x y : flows_to mu t x y -> flows_to mu t (rot x) (rot y).
  Proof using HA.
    intros (r & v & M & <- & <-). exists (fun t => row_col A (r t)), (fun t => row_col A (v t)).
    split; [now apply motion_rot|]. split; reflexivity.
  Qed.
  Lemma integrals_rot r v mu :
    angular_momentum (row_col A r) (row_col A v) = row_col A (angular_momentum r v) /\
    eccentricity_vector (row_col A r) (row_col A v) mu = row_col A (eccentricity_vector r v mu).
  Proof using HA. split; [now apply rot_angular_momentum|now apply rot_eccentricity_vector]. Qed.
  Lemma shape_rot r v mu : let x := rv2coe r v mu in let y := rv2coe (row_col A r) (row_col A v) mu in
    coe_p y = coe_p x /\ coe_e y = coe_e x /\ coe_f y = coe_f x.
  Proof using HA.
    cbv zeta. rewrite !rv2coe_R. cbn [coe_p coe_e coe_f].
    rewrite (rot_cross A HA), (rot_norm A HA), (rot_eccentricity_vector A HA), (rot_norm A HA).
    split; auto. split; auto.
    rewrite !true_anomaly_R. now rewrite (rot_cross A HA), (rot_norm A HA), (rot_dot A HA).
  Qed.
  Lemma path_rot r1 v1 r2 mu rmin :
    is_short_way (row_col A r1) (row_col A v1) (row_col A r2) = is_short_way r1 v1 r2 /\
    pass_perigee (row_col A r1) (row_col A v1) (row_col A r2) mu = pass_perigee r1 v1 r2 mu /\
    rp_islower_rmin rmin (row_col A r1) (row_col A v1) mu = rp_islower_rmin rmin r1 v1 mu.
  Proof using HA.
    rewrite !pass_perigee_R, !is_short_way_R, !rp_islower_rmin_R, !(rot_eccentricity_vector A HA), !(rot_cross A HA),
      !(rot_dot A HA), !(rot_norm A HA). auto.
  Qed.
  (** State transition blocks. *)
  Lemma mat_ext (M N : mat) : (forall z, row_col M z = row_col N z) -> M = N.
  Proof.
    intros H. pose proof (H (mk3 1 0 0)) as E0. pose proof (H (mk3 0 1 0)) as E1. pose proof (H (mk3 0 0 1)) as E2.
    clear - E0 E1 E2. destruct M as [[a b c] [d e f] [g h i]], N as [[a' b' c'] [d' e' f'] [g' h' i']].
    unfold row_col, dot in E0, E1, E2. cbn [c0 c1 c2] in E0, E1, E2.
    apply mk3_eq; apply mk3_eq;
    match goal with
    | |- ?x = ?y => first
      [ apply (f_equal c0) in E0; cbn [c0 c1 c2] in E0; lra | apply (f_equal c1) in E0; cbn [c0 c1 c2] in E0; lra
      | apply (f_equal c2) in E0; cbn [c0 c1 c2] in E0; lra
      | apply (f_equal c0) in E1; cbn [c0 c1 c2] in E1; lra | apply (f_equal c1) in E1; cbn [c0 c1 c2] in E1; lra
      | apply (f_equal c2) in E1; cbn [c0 c1 c2] in E1; lra
      | apply (f_equal c0) in E2; cbn [c0 c1 c2] in E2; lra | apply (f_equal c1) in E2; cbn [c0 c1 c2] in E2; lra
      | apply (f_equal c2) in E2; cbn [c0 c1 c2] in E2; lra ]
    end.
  Qed.
  Lemma conj_by_action (M N : mat) : (forall z, row_col M (row_col A z) = row_col A (row_col N z)) ->
    M = mprod A (mprod N (trans A)).
  Proof using HA.
    intros H. apply mat_ext. intros z. rewrite !mprod_vec, <- H, <- (mprod_vec A (trans A)), (rot_inv_r A HA), ident_vec.
    reflexivity.
  Qed.
  Ltac act := apply conj_by_action; intros z; 
    repeat rewrite ?rc_madd, ?rc_msub, ?rc_mscale, ?rc_mneg, ?rc_mdivs, ?rc_outer, ?rc_eye, ?rc_mmul, ?rc_scale_all,
      ?vsub_vminus, ?vdivs_smul, ?vector_norm_vnorm, ?(rot_norm A HA), <- ?row_col_minus, <- ?row_col_smul,
      ?(rot_dot A HA), <- ?row_col_plus;
    rewrite <- ?row_col_minus, <- ?row_col_smul, <- ?row_col_plus, <- ?row_col_minus, <- ?row_col_smul, <- ?row_col_plus.
  Lemma prpr0_rot r v r0 v0 F C mu :
    prpr0 (row_col A r) (row_col A v) (row_col A r0) (row_col A v0) F C mu
    = mprod A (mprod (prpr0 r v r0 v0 F C mu) (trans A)).
  Proof using HA. unfold prpr0. act. reflexivity. Qed.
  Lemma prpv0_rot r v r0 v0 F G C mu :
    prpv0 (row_col A r) (row_col A v) (row_col A r0) (row_col A v0) F G C mu
    = mprod A (mprod (prpv0 r v r0 v0 F G C mu) (trans A)).
  Proof using HA. unfold prpv0. act. reflexivity. Qed.
  Lemma pvpr0_rot r v r0 v0 Ft C mu :
    pvpr0 (row_col A r) (row_col A v) (row_col A r0) (row_col A v0) Ft C mu
    = mprod A (mprod (pvpr0 r v r0 v0 Ft C mu) (trans A)).
  Proof using HA. unfold pvpr0. act. reflexivity. Qed.
  Lemma pvpv0_rot r v r0 v0 F Gt C mu :
    pvpv0 (row_col A r) (row_col A v) (row_col A r0) (row_col A v0) F Gt C mu
    = mprod A (mprod (pvpv0 r v r0 v0 F Gt C mu) (trans A)).
  Proof using HA. unfold pvpv0. act. reflexivity. Qed.
End Rot.
Lemma dxdx0_rot A r v r0 v0 t mu : rotation A ->
  let c := fun M => mprod A (mprod M (trans A)) in
  let X := dxdx0 r v r0 v0 t mu in
  dxdx0 (row_col A r) (row_col A v) (row_col A r0) (row_col A v0) t mu
  = mkM6 (c (b_rr X)) (c (b_rv X)) (c (b_vr X)) (c (b_vv X)).
Proof.
  intros HA c X. unfold X, dxdx0. cbn [b_rr b_rv b_vr b_vv].
  rewrite !sigma_fn_R, !vector_norm_vnorm, !(rot_dot A HA), !(rot_norm A HA).
  rewrite (prpr0_rot A HA), (prpv0_rot A HA), (pvpr0_rot A HA), (pvpv0_rot A HA). reflexivity.
Qed.

(** ** Units *)
Lemma while_sim {S S' : Type} (Rel : S -> S' -> Prop) c b c' b' :
  (forall s s', Rel s s' -> c' s' = c s /\ Rel (b s) (b' s')) ->
  forall n s s', Rel s s' ->
  match while_fuel n c b s, while_fuel n c' b' s' with
  | Some x, Some x' => Rel x x' | None, None => True | _, _ => False end.
Proof.
  intros H. induction n as [|n IH]; intros s s' R; cbn [while_fuel]; auto.
  destruct (H s s' R) as [-> R']. destruct (c s); [now apply IH|exact R].
Qed.

Section Units.
  Variables (lam tau : R).
  Hypothesis Hl : 0 < lam.
  Hypothesis Ht : 0 < tau.
  Let k := sqrt lam.
  Lemma k_pos : 0 < k. Proof using Hl. now apply sqrt_lt_R0. Qed.
  Lemma k_sq : k ^ 2 = lam. Proof using Hl. unfold k. simpl. rewrite Rmult_1_r. apply sqrt_sqrt. lra. Qed.
  Let mu' mu := lam ^ 3 / tau ^ 2 * mu.
  Lemma sqrt_mu' mu : 0 <= mu -> sqrt (mu' mu) = k ^ 3 / tau * sqrt mu.
  Proof using Hl Ht.
    intros Hm. pose proof k_pos. unfold mu'. rewrite <- k_sq.
    replace ((k ^ 2) ^ 3 / tau ^ 2 * mu) with ((k ^ 3 / tau) * (k ^ 3 / tau) * mu) by (field; lra).
    assert (0 < k ^ 3 / tau) by (apply Rdiv_lt_0_compat; auto; now apply pow_lt).
    rewrite sqrt_mult_alt by (apply Rmult_le_pos; lra). now rewrite sqrt_square by lra.
  Qed.
  Lemma U_units n chi al : U n (k * chi) (al / lam) = k ^ n * U n chi al.
  Proof using Hl. rewrite <- k_sq. apply U_scale. pose proof k_pos. lra. Qed.
  Section Solver.
    Variables (t al r0 s0 mu tol : R).
    Hypothesis Hm : 0 <= mu.
    Lemma equ_units chi : kepler_equ_uni (k * chi) (al / lam) (lam * r0) (k * s0) (tau * t) (mu' mu)
      = k ^ 3 * kepler_equ_uni chi al r0 s0 t mu.
    Proof using Hl Ht Hm.
      rewrite !kepler_equ_uni_R, !U_units, sqrt_mu' by auto. rewrite <- k_sq. field. lra.
    Qed.
    Lemma dchi_units chi : dchi (k * chi) (al / lam) (lam * r0) (k * s0) = k ^ 2 * dchi chi al r0 s0.
    Proof using Hl. rewrite !dchi_R, !U_units. rewrite <- k_sq. ring. Qed.
    Lemma guess_units : uni_guess (tau * t) (al / lam) (mu' mu) = k * uni_guess t al mu.
    Proof using Hl Ht Hm.
      rewrite !uni_guess_R, sqrt_mu' by auto. unfold Rdiv at 2. rewrite Rabs_mult, (Rabs_pos_eq (/ lam)).
      - rewrite <- k_sq. pose proof k_pos. field. lra.
      - apply Rlt_le. now apply Rinv_0_lt_compat.
    Qed.
    Lemma exceeds_units x : exceeds (k ^ 3 * x) (k ^ 3 * tol) = exceeds x tol.
    Proof using Hl.
      assert (K : 0 < k ^ 3) by apply pow_lt, k_pos.
      destruct (exceeds x tol) eqn:E.
      - rewrite exceeds_R in *. rewrite Rabs_mult, (Rabs_pos_eq (k ^ 3)) by lra. now apply Rmult_lt_compat_l.
      - rewrite exceeds_R_false in *. rewrite Rabs_mult, (Rabs_pos_eq (k ^ 3)) by lra.
        apply Rmult_le_compat_l; lra.
    Qed.
    Lemma solver_units mi :
      solve_kepler_uni (tau * t) (al / lam) (lam * r0) (k * s0) (mu' mu) (k ^ 3 * tol) mi
      = k * solve_kepler_uni t al r0 s0 mu tol mi.
    Proof using Hl Ht Hm.
      pose proof k_pos as K.
      unfold solve_kepler_uni, uni_run.
      pose (Rel := fun s s' : loop_state (T := R) => fst (fst s') = fst (fst s) /\ snd (fst s') = k * snd (fst s)).
      pose proof (while_sim Rel (uni_cond t al r0 s0 mu tol mi) (uni_body t al r0 s0 mu)
        (uni_cond (tau * t) (al / lam) (lam * r0) (k * s0) (mu' mu) (k ^ 3 * tol) mi)
        (uni_body (tau * t) (al / lam) (lam * r0) (k * s0) (mu' mu))) as W.
      assert (P : forall s s', Rel s s' ->
        uni_cond (tau * t) (al / lam) (lam * r0) (k * s0) (mu' mu) (k ^ 3 * tol) mi s' = uni_cond t al r0 s0 mu tol mi s /\
        Rel (uni_body t al r0 s0 mu s) (uni_body (tau * t) (al / lam) (lam * r0) (k * s0) (mu' mu) s')).
      { intros [[i x] y] [[i' x'] y'] [E1 E2]. cbn [fst snd] in E1, E2. subst i' x'.
        unfold uni_cond, uni_body. rewrite equ_units, dchi_units, exceeds_units. split; [reflexivity|].
        split; cbn [fst snd]; [reflexivity|].
        change (k * x - k ^ 3 * kepler_equ_uni x al r0 s0 t mu / (k ^ 2 * dchi x al r0 s0)
                = k * (x - kepler_equ_uni x al r0 s0 t mu / dchi x al r0 s0)).
        unfold Rdiv. rewrite Rinv_mult. generalize (/ dchi x al r0 s0). intros d. field. lra. }
      specialize (W P (loop_fuel mi) (uni_init t al mu tol) (uni_init (tau * t) (al / lam) (mu' mu) (k ^ 3 * tol))).
      assert (I : Rel (uni_init t al mu tol) (uni_init (tau * t) (al / lam) (mu' mu) (k ^ 3 * tol))).
      { unfold uni_init. rewrite guess_units. split; reflexivity. }
      specialize (W I).
      destruct (while_fuel _ (uni_cond t al r0 s0 mu tol mi) _ _) as [[[i x] y]|];
      destruct (while_fuel _ _ _ _) as [[[i' x'] y']|]; try contradiction.
      - destruct W as [_ W]. exact W.
      - apply guess_units.
    Qed.
  End Solver.

  Lemma dot_units a b u v : dot (smul a u) (smul b v) = a * b * dot u v.
  Proof. unfold dot, smul; cbn [c0 c1 c2]; ring. Qed.
  Lemma norm_units a u : 0 <= a -> vnorm (smul a u) = a * vnorm u.
  Proof. intros. rewrite vnorm_smul, Rabs_pos_eq; auto. Qed.
  Section State.
    Variables (r v : vec) (mu : R).
    Hypothesis Hm : 0 < mu.
    Let r' := smul lam r.
    Let v' := smul (lam / tau) v.
    Lemma alpha_units : alphaS r' v' (mu' mu) = alphaS r v mu / lam.
    Proof using Hl Ht Hm.
      unfold alphaS, r', v'. rewrite !norm_units by (apply Rlt_le; auto; now apply Rdiv_lt_0_compat).
      unfold mu', Rdiv. rewrite !Rinv_mult. generalize (/ vnorm r). intros i. field. lra.
    Qed.
    Lemma sigma_units : sigmaS r' v' (mu' mu) = k * sigmaS r v mu.
    Proof using Hl Ht Hm.
      unfold sigmaS, r', v'. rewrite dot_units, sqrt_mu' by lra. pose proof k_pos.
      assert (0 < sqrt mu) by now apply sqrt_lt_R0. rewrite <- k_sq. field. lra.
    Qed.
    Lemma rad_units chi : radS r' v' (mu' mu) (k * chi) = lam * radS r v mu chi.
    Proof using Hl Ht Hm.
      unfold radS. rewrite alpha_units, sigma_units, !U_units. unfold r'. rewrite norm_units by lra.
      rewrite <- k_sq. ring.
    Qed.
    Lemma state_units chi : posS r' v' (mu' mu) (k * chi) = smul lam (posS r v mu chi) /\
      velS r' v' (mu' mu) (k * chi) = smul (lam / tau) (velS r v mu chi).
    Proof using Hl Ht Hm.
      assert (0 < sqrt mu) by now apply sqrt_lt_R0. pose proof k_pos.
      assert (EF : FS r' v' (mu' mu) (k * chi) = FS r v mu chi).
      { unfold FS. rewrite alpha_units, U_units. unfold r'. rewrite norm_units by lra.
        unfold Rdiv. rewrite Rinv_mult. generalize (/ vnorm r). intros i. rewrite <- k_sq. field. lra. }
      assert (EG : GS r' v' (mu' mu) (k * chi) = tau * GS r v mu chi).
      { unfold GS. rewrite alpha_units, sigma_units, !U_units, sqrt_mu' by lra. unfold r'. rewrite norm_units by lra.
        rewrite <- k_sq. field. lra. }
      assert (EFt : FtS r' v' (mu' mu) (k * chi) = / tau * FtS r v mu chi).
      { unfold FtS. rewrite rad_units, alpha_units, !U_units, sqrt_mu' by lra. unfold r'. rewrite norm_units by lra.
        unfold Rdiv. rewrite !Rinv_mult. generalize (/ vnorm r) (/ radS r v mu chi). intros i j.
        rewrite <- k_sq. field. lra. }
      assert (EGt : GtS r' v' (mu' mu) (k * chi) = GtS r v mu chi).
      { unfold GtS. rewrite rad_units, alpha_units, !U_units.
        unfold Rdiv. rewrite !Rinv_mult. generalize (/ radS r v mu chi). intros j. rewrite <- k_sq. field. lra. }
      unfold posS, velS. rewrite EF, EG, EFt, EGt. unfold r', v', vplus, smul. cbn [c0 c1 c2].
      split; apply mk3_eq; field; lra.
    Qed.
    Lemma row_units t tol mi :
      let chi := solve_kepler_uni t (alpha_of (vnorm r) (vnorm v) mu) (vnorm r) (sigma_fn r v mu) mu tol mi in
      let chi' := solve_kepler_uni (tau * t) (alpha_of (vnorm r') (vnorm v') (mu' mu)) (vnorm r') (sigma_fn r' v' (mu' mu))
                    (mu' mu) (k ^ 3 * tol) mi in
      let x := state_at_chi chi (alpha_of (vnorm r) (vnorm v) mu) (sigma_fn r v mu) (vnorm r) r v mu in
      state_at_chi chi' (alpha_of (vnorm r') (vnorm v') (mu' mu)) (sigma_fn r' v' (mu' mu)) (vnorm r') r' v' (mu' mu)
      = (smul lam (fst x), smul (lam / tau) (snd x)).
    Proof using Hl Ht Hm.
      cbv zeta. rewrite !state_at_chi_S. cbn [fst snd].
      replace (solve_kepler_uni (tau * t) _ _ _ _ _ _) with
        (k * solve_kepler_uni t (alpha_of (vnorm r) (vnorm v) mu) (vnorm r) (sigma_fn r v mu) mu tol mi).
      - now rewrite (proj1 (state_units _)), (proj2 (state_units _)).
      - rewrite <- solver_units by lra. rewrite !alpha_of_S, alpha_units. 
        change (sigma_fn r' v' (mu' mu)) with (sigmaS r' v' (mu' mu)). rewrite sigma_units.
        unfold r'. now rewrite norm_units by lra.
    Qed.
  End State.
  Lemma atan2_scale c y x : 0 < c -> atan2 (c * y) (c * x) = atan2 y x.
  Proof.
    intros Hc. destruct (Req_dec x 0) as [Zx|Zx]; [destruct (Req_dec y 0) as [Zy|Zy]; [now rewrite Zx, Zy, Rmult_0_r|]|].
    all: assert (P : x <> 0 \/ y <> 0) by tauto.
    all: assert (P' : c * x <> 0 \/ c * y <> 0) by (destruct P; [left|right]; apply Rmult_integral_contrapositive; split; lra).
    all: destruct (cos_sin_atan2 y x P) as [C S], (cos_sin_atan2 (c * y) (c * x) P') as [C' S'];
      pose proof (atan2_range y x); pose proof (atan2_range (c * y) (c * x)); pose proof (sqrt_sum_pos x y P);
      assert (Q : sqrt ((c * x) ^ 2 + (c * y) ^ 2) = c * sqrt (x ^ 2 + y ^ 2))
        by (replace ((c * x) ^ 2 + (c * y) ^ 2) with (c * c * (x ^ 2 + y ^ 2)) by ring;
            rewrite sqrt_mult_alt by (apply Rmult_le_pos; lra); now rewrite sqrt_square by lra);
      rewrite Q in C', S'; apply angle_unique; [lra| |]; [rewrite C', C|rewrite S', S]; field; lra.
  Qed.
  Lemma elements_units r v mu : 0 < mu ->
    let x := rv2coe r v mu in
    rv2coe (smul lam r) (smul (lam / tau) v) (mu' mu)
    = mkcoe (lam * coe_p x) (coe_e x) (coe_incl x) (coe_raan x) (coe_argp x) (coe_f x).
  Proof using Hl Ht.
    intros Hm. cbv zeta. rewrite !rv2coe_R. cbn [coe_p coe_e coe_incl coe_raan coe_argp coe_f].
    assert (Hq : 0 < lam * (lam / tau)) by (apply Rmult_lt_0_compat; auto; now apply Rdiv_lt_0_compat).
    assert (EH : cross (smul lam r) (smul (lam / tau) v) = smul (lam * (lam / tau)) (cross r v))
      by (unfold cross, smul; cbn [c0 c1 c2]; apply mk3_eq; ring).
    assert (EE : eccentricity_vector (smul lam r) (smul (lam / tau) v) (mu' mu) = eccentricity_vector r v mu).
    { rewrite !eccentricity_vector_R, norm_units by lra. rewrite Rinv_mult. generalize (/ vnorm r). intros i.
      unfold mu', vminus, cross, smul. cbn [c0 c1 c2]. apply mk3_eq; field; lra. }
    rewrite EH, EE, !semiparameter_R, !inclination_R, !right_ascension_R, !argument_of_periapsis_R, !true_anomaly_R,
      !node_vec_R.
    assert (EN : cross ez (smul (lam * (lam / tau)) (cross r v)) = smul (lam * (lam / tau)) (cross ez (cross r v)))
      by (unfold cross, smul; cbn [c0 c1 c2]; apply mk3_eq; ring).
    assert (CL : forall a x y, cross (smul a x) y = smul a (cross x y))
      by (intros; unfold cross, smul; cbn [c0 c1 c2]; apply mk3_eq; ring).
    assert (CR : forall a x y, cross x (smul a y) = smul a (cross x y))
      by (intros; unfold cross, smul; cbn [c0 c1 c2]; apply mk3_eq; ring).
    assert (DL : forall a x y, dot (smul a x) y = a * dot x y)
      by (intros; unfold dot, smul; cbn [c0 c1 c2]; ring).
    assert (DR : forall a x y, dot x (smul a y) = a * dot x y)
      by (intros; unfold dot, smul; cbn [c0 c1 c2]; ring).
    rewrite EN, CL, CR, DL, DR, !norm_units by lra.
    cbn [smul c0 c1 c2]. rewrite !atan2_scale by lra. f_equal.
    - unfold mu'. field. lra.
    - f_equal. unfold smul. cbn [c2]. generalize (c2 (cross r v)) (vnorm (cross r v)). intros c n.
      unfold Rdiv. rewrite !Rinv_mult. generalize (/ n). intros i. field. lra.
  Qed.
  Lemma motion_units mu r v : two_body_motion mu r v ->
    two_body_motion (mu' mu) (fun t => smul lam (r (t / tau))) (fun t => smul (lam / tau) (v (t / tau))).
  Proof using Hl Ht.
    intros H t. destruct (H (t / tau)) as (N & D & E).
    assert (DC : forall (f : R -> vec) l c, vderive f (t / tau) l ->
               vderive (fun s => smul c (f (s / tau))) t (smul (c / tau) l)).
    { intros f l c (D0 & D1 & D2).
      assert (DT : is_derive (fun s : R => s / tau) t (/ tau)).
      { eapply der_eq; [apply (der_div (fun s => s) (fun _ => tau)); [apply der_id|apply der_const|lra]|]. cbv beta. field. lra. }
      assert (DS : forall (g : R -> R) (b : R), is_derive g (t / tau) b ->
                 is_derive (fun s : R => c * g (s / tau)) t (c / tau * b)).
      { intros g b Dg. eapply der_eq; [apply der_scal; exact (der_comp g (fun s => s / tau) t _ _ Dg DT)|]. field. lra. }
      split; [|split]; unfold smul; cbn [c0 c1 c2].
      - exact (DS (fun s => c0 (f s)) _ D0).
      - exact (DS (fun s => c1 (f s)) _ D1).
      - exact (DS (fun s => c2 (f s)) _ D2). }
    split; [|split].
    - intros Z. apply N. assert (smul (/ lam) (smul lam (r (t / tau))) = smul (/ lam) vzero) by now rewrite Z.
      revert H0. unfold smul, vzero. cbn [c0 c1 c2]. intros Q.
      destruct (r (t / tau)) as [x y z]. cbn [c0 c1 c2] in Q. injection Q as Q1 Q2 Q3.
      unfold vzero. apply mk3_eq.
      + replace x with (/ lam * (lam * x)) by (field; lra). rewrite Q1. ring.
      + replace y with (/ lam * (lam * y)) by (field; lra). rewrite Q2. ring.
      + replace z with (/ lam * (lam * z)) by (field; lra). rewrite Q3. ring.
    - apply DC, D.
    - eapply vd_eq; [apply DC, E|]. unfold gravity. rewrite norm_units by lra.
      assert (0 < vnorm (r (t / tau))) by now apply vnorm_pos.
      unfold mu', smul. cbn [c0 c1 c2]. apply mk3_eq; field; lra.
  Qed.
  Lemma flow_units mu t r v r1 v1 : flows_to mu t (r, v) (r1, v1) ->
    flows_to (mu' mu) (tau * t) (smul lam r, smul (lam / tau) v) (smul lam r1, smul (lam / tau) v1).
  Proof using Hl Ht.
    intros (f & g & M & E0 & E1). apply pair_equal_spec in E0, E1. destruct E0 as [<- <-], E1 as [<- <-].
    exists (fun t => smul lam (f (t / tau))), (fun t => smul (lam / tau) (g (t / tau))).
    split; [now apply motion_units|]. replace (0 / tau) with 0 by (field; lra).
    replace (tau * t / tau) with t by (field; lra). auto.
  Qed.
End Units.
