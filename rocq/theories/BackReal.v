(** * BackReal: a nearby initial state for which the rounded radius, reciprocal axis and sigma are exact (proofs for C86) *)
From Coq Require Import ZArith Reals Lra Lia Psatz.
From Coquelicot Require Import Coquelicot.
From Verif Require Import Num NumR Spec SpecFlV RLib SeriesU UFacts OrbFacts KepState KepRows RoundAn RoundFn UfReal.
Local Open Scope R_scope.

Lemma abs_mul_le (a b x y : R) : Rabs a <= x -> Rabs b <= y -> Rabs (a * b) <= x * y.
Proof. intros A B. rewrite Rabs_mult. apply Rmult_le_compat; auto using Rabs_pos. Qed.

(** ** The nearby state *)
Section Near.
  Variables (mu e rh ah sh : R) (x v : vec).
  Let X : R := vnorm x.
  Let V : R := vnorm v.
  Let H : R := vnorm (cross x v).
  Let Sz : R := 2 * mu / X + V ^ 2.
  Hypotheses (Pm : 0 < mu) (Nx : x <> vzero) (Pe : 0 < e <= / 1000000).
  Hypothesis Er : Rabs (rh - X) <= 4 * e * X.
  Hypothesis Es : Rabs (sh - dot x v / sqrt mu) <= 8 * e * (X * V / sqrt mu).
  Hypothesis Ea : Rabs (mu * ah - (2 * mu / X - V ^ 2)) <= 16 * e * Sz.
  Hypothesis Wide : 50 * e * Sz * X ^ 2 < H ^ 2.

  Lemma PX : 0 < X. Proof using All. apply vnorm_pos. exact Nx. Qed.
  Lemma PV : 0 <= V. Proof using All. apply sqrt_pos. Qed.
  Lemma PS : V ^ 2 <= Sz /\ 0 < 2 * mu / X <= Sz.
  Proof using All.
    assert (0 < 2 * mu / X) by (apply Rdiv_lt_0_compat; [lra | apply PX]). pose proof (pow2_ge_0 V). unfold Sz. lra.
  Qed.
  Lemma rh_near : X * (1 - 4 * e) <= rh <= X * (1 + 4 * e).
  Proof using All. pose proof Er as E. apply Rabs_le_between in E. lra. Qed.
  Lemma rh_pos : 0 < rh. Proof using All. pose proof PX. pose proof rh_near. nra. Qed.

  Let vr : R := dot x v / X.
  Let w : vec := vminus v (smul (dot x v / X ^ 2) x).
  Let vt : R := vnorm w.
  Lemma X_sq : dot x x = X ^ 2. Proof using All. symmetry. apply vnorm_sq2. Qed.
  Lemma V_sq : dot v v = V ^ 2. Proof using All. symmetry. apply vnorm_sq2. Qed.
  Lemma w_dot (a : vec) : dot a w = dot a v - dot x v / X ^ 2 * dot a x.
  Proof using. unfold w, dot, vminus, smul; cbn [c0 c1 c2]. ring. Qed.
  Lemma xw : dot x w = 0.
  Proof using All. pose proof PX. rewrite w_dot, X_sq. field. lra. Qed.
  Lemma ww : dot w w = V ^ 2 - vr ^ 2.
  Proof using All.
    pose proof PX. rewrite (w_dot w). rewrite (dot_comm w x), xw, (dot_comm w v), (w_dot v), V_sq, (dot_comm v x). unfold vr. field. lra.
  Qed.
  Lemma vt_sq : vt ^ 2 = V ^ 2 - vr ^ 2.
  Proof using All. unfold vt. rewrite vnorm_sq2. exact ww. Qed.
  Lemma vt_H : vt = H / X.
  Proof using All.
    pose proof PX as P. assert (Hs : H ^ 2 = X ^ 2 * vt ^ 2).
    { unfold H. rewrite vnorm_sq2, lagrange_identity, X_sq, V_sq, vt_sq. unfold vr. field. lra. }
    assert (A : 0 <= vt) by apply sqrt_pos. assert (B : 0 <= H) by apply sqrt_pos.
    assert (C : H = X * vt).
    { apply Rsqr_inj; [exact B | apply Rmult_le_pos; lra |]. unfold Rsqr. nra. }
    rewrite C. field. lra.
  Qed.
  Lemma vt_wide : 50 * e * Sz < vt ^ 2.
  Proof using All.
    pose proof PX as P. rewrite vt_H. apply Rmult_lt_reg_r with (X ^ 2); [nra |].
    replace ((H / X) ^ 2 * X ^ 2) with (H ^ 2) by (field; lra). exact Wide.
  Qed.
  Lemma vt_pos : 0 < vt.
  Proof using All.
    pose proof vt_wide. pose proof PS. assert (0 <= vt) by apply sqrt_pos.
    assert (0 <= 50 * e * Sz) by (apply Rmult_le_pos; lra). destruct (Req_dec vt 0) as [Z | Z]; [rewrite Z in *; lra | lra].
  Qed.

  Let a : R := sh * sqrt mu / rh.
  Lemma vr_le : Rabs vr <= V.
  Proof using All.
    pose proof PX. unfold vr, Rdiv. rewrite Rabs_mult, (Rabs_pos_eq (/ X)) by (left; apply Rinv_0_lt_compat; lra).
    pose proof (cauchy_schwarz x v) as C. fold X V in C. apply Rmult_le_reg_r with X; [lra |]. rewrite Rmult_assoc, Rinv_l by lra. lra.
  Qed.
  Lemma a_near : Rabs (a - vr) <= 13 * e * V.
  Proof using All.
    pose proof PX as P. pose proof rh_pos as Q. pose proof rh_near as B. pose proof PV as PV'. pose proof vr_le as Lr.
    pose proof (sqrt_lt_R0 mu Pm) as Sm.
    assert (E : a - vr = ((sh - dot x v / sqrt mu) * sqrt mu + vr * (X - rh)) / rh) by (unfold a, vr; field; lra).
    rewrite E. unfold Rdiv. rewrite Rabs_mult, (Rabs_pos_eq (/ rh)) by (left; apply Rinv_0_lt_compat; lra).
    apply Rmult_le_reg_r with rh; [lra |]. rewrite Rmult_assoc, Rinv_l, Rmult_1_r by lra.
    eapply Rle_trans; [apply Rabs_triang |].
    assert (T1 : Rabs ((sh - dot x v / sqrt mu) * sqrt mu) <= 8 * e * (X * V)).
    { rewrite Rabs_mult, (Rabs_pos_eq (sqrt mu)) by lra. apply Rle_trans with (8 * e * (X * V / sqrt mu) * sqrt mu).
      - apply Rmult_le_compat_r; [lra | exact Es].
      - apply Req_le. field. lra. }
    assert (T2 : Rabs (vr * (X - rh)) <= V * (4 * e * X)).
    { apply abs_mul_le; [exact Lr |]. rewrite Rabs_minus_sym. exact Er. }
    apply Rle_trans with (12 * e * V * X); [nra |].
    assert (12 * X <= 13 * rh) by nra. assert (0 <= e * V) by (apply Rmult_le_pos; lra). nra.
  Qed.

  Let b2 : R := mu * (2 / rh - ah) - a ^ 2.
  Lemma b2_near : Rabs (b2 - vt ^ 2) <= 50 * e * Sz.
  Proof using All.
    pose proof PX as P. pose proof rh_pos as Q. pose proof rh_near as B. pose proof PS as [S1 S2]. pose proof a_near as A. pose proof vr_le as Lr. pose proof PV as PV'.
    rewrite vt_sq.
    replace (b2 - (V ^ 2 - vr ^ 2)) with (2 * mu / X * ((X - rh) / rh) + - (mu * ah - (2 * mu / X - V ^ 2)) + - ((a - vr) * ((a - vr) + 2 * vr))) by (unfold b2; field; lra).
    eapply Rle_trans; [apply Rabs_triang |]. eapply Rle_trans; [apply Rplus_le_compat_r, Rabs_triang |]. rewrite !Rabs_Ropp.
    assert (T1 : Rabs (2 * mu / X * ((X - rh) / rh)) <= Sz * (5 * e)).
    { apply abs_mul_le; [rewrite Rabs_pos_eq; lra |]. unfold Rdiv. rewrite Rabs_mult, (Rabs_pos_eq (/ rh)) by (left; apply Rinv_0_lt_compat; lra).
      apply Rmult_le_reg_r with rh; [lra |]. rewrite Rmult_assoc, Rinv_l, Rmult_1_r by lra. rewrite Rabs_minus_sym. apply Rle_trans with (1 := Er). nra. }
    assert (T3 : Rabs ((a - vr) * (a - vr + 2 * vr)) <= 13 * e * V * (13 * e * V + 2 * V)).
    { apply abs_mul_le; [exact A |]. eapply Rle_trans; [apply Rabs_triang |]. rewrite Rabs_mult, (Rabs_pos_eq 2) by lra. lra. }
    assert (T4 : 13 * e * V * (13 * e * V + 2 * V) <= 27 * e * Sz).
    { apply Rle_trans with (27 * e * V ^ 2); [| apply Rmult_le_compat_l; lra].
      replace (13 * e * V * (13 * e * V + 2 * V)) with (e * V ^ 2 * (169 * e + 26)) by ring.
      replace (27 * e * V ^ 2) with (e * V ^ 2 * 27) by ring. apply Rmult_le_compat_l; [apply Rmult_le_pos; [lra | apply pow2_ge_0] | lra]. }
    assert (0 <= e * Sz) by (apply Rmult_le_pos; lra). lra.
  Qed.
  Lemma b2_pos : 0 < b2.
  Proof using All. pose proof b2_near as N. pose proof vt_wide. apply Rabs_le_between in N. lra. Qed.
  Let b : R := sqrt b2.
  Lemma b_near : Rabs (b - vt) <= 50 * e * Sz / vt.
  Proof using All.
    pose proof vt_pos as T. pose proof b2_pos as B. pose proof (sqrt_lt_R0 _ B) as Bp. fold b in Bp.
    assert (Bs : b ^ 2 = b2) by (unfold b; rewrite <- Rsqr_pow2; apply Rsqr_sqrt; lra).
    apply Rmult_le_reg_r with vt; [lra |]. unfold Rdiv. rewrite Rmult_assoc, Rinv_l, Rmult_1_r by lra.
    apply Rle_trans with (2 := b2_near). rewrite <- Bs. replace (b ^ 2 - vt ^ 2) with ((b - vt) * (b + vt)) by ring.
    rewrite Rabs_mult, (Rabs_pos_eq (b + vt)) by lra. apply Rmult_le_compat_l; [apply Rabs_pos | lra].
  Qed.

  Definition near_x : vec := smul (rh / X) x.
  Definition near_v : vec := vplus (smul (a / X) x) (smul (b / vt) w).
  Definition bend : R := Sz * X / H.

  Lemma near_dot (p q : R) : dot (vplus (smul p x) (smul q w)) (vplus (smul p x) (smul q w)) = p ^ 2 * X ^ 2 + q ^ 2 * vt ^ 2.
  Proof using All.
    replace (dot _ _) with (p ^ 2 * dot x x + 2 * p * q * dot x w + q ^ 2 * dot w w) by (unfold dot, vplus, smul; cbn [c0 c1 c2]; ring).
    rewrite xw, X_sq, ww, vt_sq. ring.
  Qed.
  Lemma near_norm : vnorm near_x = rh.
  Proof using All.
    pose proof PX. pose proof rh_pos. unfold near_x. rewrite vnorm_smul, Rabs_pos_eq by (left; apply Rdiv_lt_0_compat; lra). fold X. field. lra.
  Qed.
  Lemma near_sigma : dot near_x near_v / sqrt mu = sh.
  Proof using All.
    pose proof PX. pose proof rh_pos. pose proof (sqrt_lt_R0 mu Pm). unfold near_x, near_v.
    replace (dot _ _) with (rh / X * (a / X * dot x x + b / vt * dot x w)) by (unfold dot, vplus, smul; cbn [c0 c1 c2]; ring).
    rewrite xw, X_sq. unfold a. pose proof vt_pos. field. lra.
  Qed.
  Lemma near_speed : vnorm near_v ^ 2 = mu * (2 / rh - ah).
  Proof using All.
    pose proof PX. pose proof vt_pos. pose proof b2_pos. rewrite vnorm_sq2. unfold near_v. rewrite near_dot.
    assert (Bs : b ^ 2 = b2) by (unfold b; rewrite <- Rsqr_pow2; apply Rsqr_sqrt; lra).
    replace ((a / X) ^ 2 * X ^ 2 + (b / vt) ^ 2 * vt ^ 2) with (a ^ 2 + b ^ 2) by (field; lra). rewrite Bs. unfold b2. lra.
  Qed.
  Lemma near_alpha : 2 / vnorm near_x - vnorm near_v ^ 2 / mu = ah.
  Proof using All. pose proof rh_pos. rewrite near_norm, near_speed. field. lra. Qed.
  Lemma near_open : cross near_x near_v <> vzero.
  Proof using All.
    pose proof PX. pose proof rh_pos. pose proof vt_pos as T. pose proof b2_pos as B. pose proof (sqrt_lt_R0 _ B) as Bp. fold b in Bp.
    assert (Pz : 0 < dot (cross near_x near_v) (cross near_x near_v)).
    { rewrite lagrange_identity. rewrite <- (vnorm_sq2 near_x), <- (vnorm_sq2 near_v), near_norm, near_speed.
      assert (D : dot near_x near_v = rh * a).
      { unfold near_x, near_v. replace (dot _ _) with (rh / X * (a / X * dot x x + b / vt * dot x w)) by (unfold dot, vplus, smul; cbn [c0 c1 c2]; ring).
        rewrite xw, X_sq. field. lra. }
      rewrite D. replace (rh ^ 2 * (mu * (2 / rh - ah)) - (rh * a) ^ 2) with (rh ^ 2 * b2) by (unfold b2; ring).
      apply Rmult_lt_0_compat; [nra | exact B]. }
    intro Z. rewrite Z in Pz. unfold dot, vzero in Pz; cbn [c0 c1 c2] in Pz. lra.
  Qed.
  Lemma near_x_le : vnorm (vminus near_x x) <= 4 * e * X.
  Proof using All.
    pose proof PX. unfold near_x. replace (vminus _ _) with (smul (rh / X - 1) x) by (unfold vminus, smul; f_equal; cbn [c0 c1 c2]; ring).
    rewrite vnorm_smul. fold X. replace (rh / X - 1) with ((rh - X) / X) by (field; lra).
    unfold Rdiv. rewrite Rabs_mult, (Rabs_pos_eq (/ X)) by (left; apply Rinv_0_lt_compat; lra). rewrite Rmult_assoc, Rinv_l, Rmult_1_r by lra. exact Er.
  Qed.
  Lemma near_v_le : vnorm (vminus near_v v) <= e * (13 * V + 50 * bend).
  Proof using All.
    pose proof PX. pose proof vt_pos as T. pose proof PV.
    assert (E : vminus near_v v = vplus (smul ((a - vr) / X) x) (smul ((b - vt) / vt) w)).
    { unfold near_v, w, vr, vminus, vplus, smul; cbn [c0 c1 c2]; f_equal; field; lra. }
    rewrite E. unfold vnorm. rewrite near_dot.
    replace (((a - vr) / X) ^ 2 * X ^ 2 + ((b - vt) / vt) ^ 2 * vt ^ 2) with ((a - vr) ^ 2 + (b - vt) ^ 2) by (field; lra).
    pose proof (Rabs_pos (a - vr)) as P1. pose proof (Rabs_pos (b - vt)) as P2.
    apply Rle_trans with (Rabs (a - vr) + Rabs (b - vt)).
    { rewrite <- (sqrt_pow2 (Rabs (a - vr) + Rabs (b - vt))) by lra. apply sqrt_le_1_alt.
      rewrite <- (pow2_abs (a - vr)), <- (pow2_abs (b - vt)). nra. }
    pose proof a_near. pose proof b_near as B. unfold bend. replace (Sz * X / H) with (Sz / vt).
    - assert (0 <= e * V) by (apply Rmult_le_pos; lra). unfold Rdiv in *. lra.
    - rewrite vt_H. pose proof vt_H as K. field. split; [| lra]. intro Z. rewrite Z in K. unfold Rdiv in K. rewrite Rmult_0_l in K. lra.
  Qed.
End Near.

Lemma nearby (mu e rh ah sh : R) (x v : vec) : 0 < mu -> x <> vzero -> 0 < e <= / 1000000 ->
  Rabs (rh - vnorm x) <= 4 * e * vnorm x -> Rabs (sh - dot x v / sqrt mu) <= 8 * e * (vnorm x * vnorm v / sqrt mu) ->
  Rabs (mu * ah - (2 * mu / vnorm x - vnorm v ^ 2)) <= 16 * e * (2 * mu / vnorm x + vnorm v ^ 2) ->
  50 * e * (2 * mu / vnorm x + vnorm v ^ 2) * vnorm x ^ 2 < vnorm (cross x v) ^ 2 ->
  exists x' v' : vec, vnorm x' = rh /\ dot x' v' / sqrt mu = sh /\ 2 / vnorm x' - vnorm v' ^ 2 / mu = ah /\ cross x' v' <> vzero /\
    vnorm (vminus x' x) <= 4 * e * vnorm x /\
    vnorm (vminus v' v) <= e * (13 * vnorm v + 50 * ((2 * mu / vnorm x + vnorm v ^ 2) * vnorm x / vnorm (cross x v))).
Proof.
  intros Pm Nx Pe Er Es Ea Wd. exists (near_x rh x), (near_v mu rh ah sh x v). repeat split.
  - exact (near_norm mu e rh ah sh x v Pm Nx Pe Er Es Ea Wd).
  - exact (near_sigma mu e rh ah sh x v Pm Nx Pe Er Es Ea Wd).
  - exact (near_alpha mu e rh ah sh x v Pm Nx Pe Er Es Ea Wd).
  - exact (near_open mu e rh ah sh x v Pm Nx Pe Er Es Ea Wd).
  - exact (near_x_le mu e rh ah sh x v Pm Nx Pe Er Es Ea Wd).
  - exact (near_v_le mu e rh ah sh x v Pm Nx Pe Er Es Ea Wd).
Qed.

(** ** The exact flow in terms of [lagrange_state] *)
Lemma lagrange_flow (mu chi t : R) (x v : vec) : 0 < mu -> cross x v <> vzero ->
  let alpha := 2 / vnorm x - vnorm v ^ 2 / mu in let s := dot x v / sqrt mu in
  uni_lhs alpha (vnorm x) s chi = sqrt mu * t ->
  flows_to mu t (x, v) (lagrange_state chi alpha s (vnorm x) mu x v) /\
  uni_rad alpha (vnorm x) s chi = vnorm (fst (lagrange_state chi alpha s (vnorm x) mu x v)) /\ 0 < uni_rad alpha (vnorm x) s chi.
Proof.
  intros Pm Hh alpha s E.
  assert (T : timeS x v mu chi = sqrt mu * t).
  { rewrite <- E. unfold uni_lhs, timeS. rewrite !U_universal. reflexivity. }
  pose proof (flow_state mu t chi x v Pm Hh T) as F. pose proof (dchi_radius mu chi x v Pm Hh) as D. cbv zeta in D.
  rewrite dchi_S, state_at_chi_S in D.
  assert (Q : lagrange_state chi alpha s (vnorm x) mu x v = (posS x v mu chi, velS x v mu chi)).
  { unfold lagrange_state, posS, velS, FS, GS, FtS, GtS, radS, sigmaS. rewrite !U_universal. fold (alphaS x v mu) in alpha. fold alpha. fold s.
    f_equal. f_equal. f_equal. unfold Rdiv. rewrite Rinv_mult_distr.
    - ring.
    - destruct D as [D _]. unfold radS, sigmaS in D. fold alpha in D. fold s in D. lra.
    - intro Z. apply vnorm_zero in Z. apply Hh. rewrite Z. unfold cross, vzero; cbn [c0 c1 c2]. f_equal; ring. }
  rewrite Q. unfold uni_rad. rewrite !U_universal. split; [exact F |]. destruct D as [D1 D2]. unfold radS, sigmaS in D1, D2. fold (alphaS x v mu) in alpha. fold alpha s in D1, D2. split; [exact D2 | exact D1].
Qed.

(** ** Sizes of the universal functions *)
Lemma uf_le (chi alpha : R) (n : nat) : (n <= 2)%nat -> Rabs (universal n chi alpha) <= uf_size n chi alpha.
Proof.
  intro Hn. unfold uf_size. destruct (Req_EM_T alpha 0) as [-> | Z].
  - destruct (uf_zero chi) as [E0 [E1 [E2 _]]]. destruct n as [| [| [| n]]]; [| | | lia].
    + rewrite E0, Rabs_R1. simpl. lra.
    + rewrite E1. simpl. lra.
    + rewrite E2. unfold Rdiv. rewrite Rabs_mult, <- RPow_abs, (Rabs_pos_eq (/ 2)) by lra. simpl. lra.
  - set (q := sqrt (Rabs alpha)). assert (Pa : 0 < Rabs alpha) by (apply Rabs_pos_lt; exact Z). pose proof (sqrt_lt_R0 _ Pa) as Pq. fold q in Pq.
    assert (Q2 : q ^ 2 = Rabs alpha) by (unfold q; rewrite <- Rsqr_pow2; apply Rsqr_sqrt; lra).
    assert (K : forall y : R, Rabs y <= 2 * spread chi alpha -> Rabs (y / q ^ n) <= 2 * spread chi alpha / q ^ n).
    { intros y Hy. unfold Rdiv. rewrite Rabs_mult, (Rabs_pos_eq (/ q ^ n)) by (left; apply Rinv_0_lt_compat, pow_lt; exact Pq).
      apply Rmult_le_compat_r; [left; apply Rinv_0_lt_compat, pow_lt; exact Pq | exact Hy]. }
    assert (Pt : 0 <= q * Rabs chi) by (apply Rmult_le_pos; [lra | apply Rabs_pos]).
    destruct (Rlt_dec 0 alpha) as [Pl | Pl].
    + destruct (uf_pos chi alpha Pl) as [E0 [E1 [E2 _]]]. fold q in E0, E1, E2. rewrite <- Q2 in E2. rewrite (spread_pos _ _ Pl) in *. fold q in K |- *.
      pose proof (COS_bound (q * chi)). pose proof (SIN_bound (q * chi)).
      destruct n as [| [| [| n]]]; [| | | lia].
      * rewrite E0. replace (cos (q * chi)) with (cos (q * chi) / q ^ 0) by (simpl; field). apply K. apply Rabs_le. lra.
      * rewrite E1. replace (sin (q * chi) / q) with (sin (q * chi) / q ^ 1) by (simpl; field; lra). apply K. apply Rabs_le. lra.
      * rewrite E2. apply K. apply Rabs_le. lra.
    + assert (Nl : alpha < 0) by lra. destruct (uf_neg chi alpha Nl) as [E0 [E1 [E2 _]]]. fold q in E0, E1, E2. rewrite <- Q2 in E2. rewrite (spread_neg _ _ Nl) in *. fold q in K |- *.
      destruct (cosh_ge_sinh (q * chi)) as [C1 [C2 C3]].
      assert (C4 : cosh (q * chi) <= 2 * ((1 + q * Rabs chi) * cosh (q * chi))) by nra.
      destruct n as [| [| [| n]]]; [| | | lia].
      * rewrite E0. replace (cosh (q * chi)) with (cosh (q * chi) / q ^ 0) at 1 by (simpl; field). apply K. lra.
      * rewrite E1. replace (sinh (q * chi) / q) with (sinh (q * chi) / q ^ 1) by (simpl; field; lra). apply K. lra.
      * rewrite E2. apply K. apply Rabs_le. lra.
Qed.

(** ** Moving the initial state *)
Lemma lin_moved (F G mF mG dx dv : R) (x v x' v' : vec) : Rabs F <= mF -> Rabs G <= mG ->
  vnorm (vminus x' x) <= dx -> vnorm (vminus v' v) <= dv ->
  let p := vplus (smul F x) (smul G v) in let p' := vplus (smul F x') (smul G v') in
  Rabs (c0 p - c0 p') <= mF * dx + mG * dv /\ Rabs (c1 p - c1 p') <= mF * dx + mG * dv /\ Rabs (c2 p - c2 p') <= mF * dx + mG * dv.
Proof.
  intros HF HG Dx Dv p p'. destruct (comp_le (vminus x' x)) as [X0 [X1 X2]]. destruct (comp_le (vminus v' v)) as [V0 [V1 V2]].
  unfold vminus in *; cbn [c0 c1 c2] in *.
  assert (K : forall a a' b b', Rabs (a' - a) <= dx -> Rabs (b' - b) <= dv -> Rabs (F * a + G * b - (F * a' + G * b')) <= mF * dx + mG * dv).
  { intros a a' b b' A B. replace (F * a + G * b - (F * a' + G * b')) with (- (F * (a' - a)) + - (G * (b' - b))) by ring.
    eapply Rle_trans; [apply Rabs_triang |]. rewrite !Rabs_Ropp. apply Rplus_le_compat; apply abs_mul_le; assumption. }
  unfold p, p', vplus, smul; cbn [c0 c1 c2]. repeat split; apply K; lra.
Qed.
