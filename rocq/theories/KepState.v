(** * KepState: the state computed from a generalized anomaly (proofs for C10-C13, C17) *)
From Coq Require Import Reals Lra Lia Psatz.
From Coquelicot Require Import Coquelicot.
From Verif Require Import Num NumR Spec RLib Uniformulas Lagrange OrbIntegrals KepEqu StateTrans
  PropKepler SeriesU UFacts OrbFacts.
Local Open Scope R_scope.

(** ** Plain forms *)
Lemma sigma_fn_R r v mu : sigma_fn r v mu = dot r v / sqrt mu.
Proof. reflexivity. Qed.
Lemma lagrange_F_R U2 r0 : lagrange_F U2 r0 = 1 - U2 / r0.
Proof. reflexivity. Qed.
Lemma lagrange_G_R U1 U2 s0 r0 mu : lagrange_G U1 U2 s0 r0 mu = (r0 * U1 + s0 * U2) / sqrt mu.
Proof. reflexivity. Qed.
Lemma lagrange_Ft_R U1 r r0 mu : lagrange_Ft U1 r r0 mu = - sqrt mu / r * U1 / r0.
Proof. reflexivity. Qed.
Lemma lagrange_Gt_R U2 r : lagrange_Gt U2 r = 1 - U2 / r.
Proof. reflexivity. Qed.
Lemma kepler_equ_uni_R chi al r0 s0 t mu :
  kepler_equ_uni chi al r0 s0 t mu
  = r0 * U 1 chi al + s0 * U 2 chi al + U 3 chi al - sqrt mu * t.
Proof. unfold kepler_equ_uni. rewrite ufunc1_U, ufunc2_U, ufunc3_U. reflexivity. Qed.
Lemma dchi_R chi al r0 s0 : dchi chi al r0 s0 = r0 * U 0 chi al + s0 * U 1 chi al + U 2 chi al.
Proof. unfold dchi. rewrite ufunc0_U, ufunc1_U, ufunc2_U. reflexivity. Qed.
Lemma generalized_anomaly_R al s s0 t mu :
  generalized_anomaly al s s0 t mu = al * sqrt mu * t + s - s0.
Proof. reflexivity. Qed.

(** ** Algebra of the Lagrange coefficients *)
Section Algebra.
  Variables (r0 s0 al u0 u1 u2 : R).
  Hypothesis H0 : u0 = 1 - al * u2.
  Hypothesis H1 : u1 ^ 2 = u2 * (2 - al * u2).
  Let r := r0 * u0 + s0 * u1 + u2.
  Let p := 2 * r0 - al * r0 ^ 2 - s0 ^ 2.
  Let sg := s0 * u0 + (1 - al * r0) * u1.

  Lemma alg_sigma : sg ^ 2 = 2 * r - al * r ^ 2 - p.
  Proof.
    unfold sg, r, p. rewrite H0.
    match goal with |- ?a = ?b =>
      transitivity (b + (1 + al * s0 ^ 2 - 2 * al * r0 + al ^ 2 * r0 ^ 2) * (u1 ^ 2 - u2 * (2 - al * u2))) end.
    - ring.
    - rewrite H1. ring.
  Qed.

  Lemma alg_det : r0 <> 0 -> r <> 0 ->
    (1 - u2 / r0) * (1 - u2 / r) + (r0 * u1 + s0 * u2) * u1 / (r * r0) = 1.
  Proof.
    intros Hr0 Hr.
    transitivity (1 + (u1 ^ 2 - u2 * (1 + u0)) / r).
    - field_simplify_eq; [|auto]. unfold r. ring.
    - rewrite H1, H0. unfold Rdiv. ring.
  Qed.

  Lemma alg_radius : r0 <> 0 ->
    (1 - u2 / r0) ^ 2 * r0 ^ 2 + 2 * (1 - u2 / r0) * (r0 * u1 + s0 * u2) * s0
    + (r0 * u1 + s0 * u2) ^ 2 * (2 / r0 - al) = r ^ 2.
  Proof.
    intros Hr0. unfold r. rewrite H0.
    match goal with |- ?a = ?b =>
      transitivity (b + (2 * r0 - al * r0 ^ 2 - s0 ^ 2) * (u1 ^ 2 - u2 * (2 - al * u2))) end.
    - field. exact Hr0.
    - rewrite H1. ring.
  Qed.

  (* (r . v) / sqrt mu *)
  Lemma alg_rv : r0 <> 0 -> r <> 0 ->
    (1 - u2 / r0) * (- u1 / (r * r0)) * r0 ^ 2
    + ((1 - u2 / r0) * (1 - u2 / r) - (r0 * u1 + s0 * u2) * u1 / (r * r0)) * s0
    + (r0 * u1 + s0 * u2) * (1 - u2 / r) * (2 / r0 - al) = sg.
  Proof.
    intros Hr0 Hr. apply (Rmult_eq_reg_r (r * r0)); [|now apply Rmult_integral_contrapositive].
    transitivity ((r0 - u2) * (- u1) * r0 + ((r0 - u2) * (r - u2) - (r0 * u1 + s0 * u2) * u1) * s0
                  + (r0 * u1 + s0 * u2) * (r - u2) * (2 - al * r0)).
    - field. auto.
    - unfold sg, r. ring [H0 H1].
  Qed.

  (* coefficients of the eccentricity vector *)
  Lemma alg_ecc_r : r0 <> 0 -> r <> 0 ->
    (1 / r - al) * (1 - u2 / r0) + sg * u1 / (r * r0) = 1 / r0 - al.
  Proof.
    intros Hr0 Hr. apply (Rmult_eq_reg_r (r * r0)); [|now apply Rmult_integral_contrapositive].
    transitivity ((1 - al * r) * (r0 - u2) + sg * u1).
    - field. auto.
    - transitivity ((1 - al * r0) * r); [|field; auto]. unfold sg, r. ring [H0 H1].
  Qed.
  Lemma alg_ecc_v : r <> 0 ->
    (1 / r - al) * (r0 * u1 + s0 * u2) - sg * (1 - u2 / r) = - s0.
  Proof.
    intros Hr. apply (Rmult_eq_reg_r r); [|auto].
    transitivity ((1 - al * r) * (r0 * u1 + s0 * u2) - sg * (r - u2)).
    - field. auto.
    - unfold sg, r. ring [H0 H1].
  Qed.
  Lemma alg_pos : 0 < r0 -> 0 < p -> 0 <= u2 -> 0 < r.
  Proof.
    intros Hr0 Hp Hu2. destruct (Rlt_dec 0 al) as [Ha|Ha].
    - pose proof alg_sigma as S. pose proof (pow2_ge_0 sg) as P.
      assert (Q : 0 < r * (2 - al * r)) by lra.
      destruct (Rle_lt_dec r 0) as [L|L]; [|exact L].
      assert (0 <= al * - r) by (apply Rmult_le_pos; lra).
      assert (0 <= - r * (2 - al * r)) by (apply Rmult_le_pos; lra). lra.
    - assert (Z0 : 0 <= - al * u2) by (apply Rmult_le_pos; lra).
      assert (A : 0 < r0 * u0 + u2).
      { rewrite H0. assert (0 < r0 * (1 - al * u2)) by (apply Rmult_lt_0_compat; lra). lra. }
      assert (B : (r0 * u0 + u2) ^ 2 - (s0 * u1) ^ 2 = (r0 - u2) ^ 2 + p * u1 ^ 2).
      { unfold p. ring [H0 H1]. }
      assert (C : 0 < (r0 - u2) ^ 2 + p * u1 ^ 2).
      { destruct (Req_dec u2 0) as [Z|Z].
        - rewrite Z. pose proof (pow2_ge_0 u1). nra.
        - assert (0 < u1 ^ 2) by (rewrite H1; apply Rmult_lt_0_compat; lra).
          pose proof (pow2_ge_0 (r0 - u2)). nra. }
      rewrite <- B in C. unfold r. set (x := r0 * u0 + u2) in *. set (y := s0 * u1) in *.
      replace (r0 * u0 + y + u2) with (x + y) by (unfold x; ring).
      clear - A C. assert (D : 0 < (x - y) * (x + y)) by nra.
      destruct (Rle_lt_dec (x + y) 0) as [L|L]; [|exact L].
      assert (0 <= (x - y) * - (x + y)) by (apply Rmult_le_pos; lra). lra.
  Qed.
End Algebra.

Lemma cross_comb f g ft gt r v :
  cross (vplus (smul f r) (smul g v)) (vplus (smul ft r) (smul gt v))
  = smul (f * gt - g * ft) (cross r v).
Proof. vring. Qed.
Lemma ecc_comb a b f g ft gt r v :
  vminus (smul a (vplus (smul f r) (smul g v))) (smul b (vplus (smul ft r) (smul gt v)))
  = vminus (smul (a * f - b * ft) r) (smul (b * gt - a * g) v).
Proof. vring. Qed.
Lemma ecc_form_alg im inn x y r v :
  vminus (smul im (vminus (smul x r) (smul y v))) (smul inn r)
  = vminus (smul (im * x - inn) r) (smul (im * y) v).
Proof. vring. Qed.
Lemma comb_1_0 r v : vplus (smul 1 r) (smul 0 v) = r.
Proof. vring. Qed.
Lemma comb_0_1 r v : vplus (smul 0 r) (smul 1 v) = v.
Proof. vring. Qed.

(** ** The state as a function of the generalized anomaly *)
Definition alphaS (r v : vec) (mu : R) : R := 2 / vnorm r - vnorm v ^ 2 / mu.
Definition sigmaS (r v : vec) (mu : R) : R := dot r v / sqrt mu.
Definition pS (r v : vec) (mu : R) : R := dot (cross r v) (cross r v) / mu.
Definition radS (r v : vec) (mu chi : R) : R :=
  vnorm r * U 0 chi (alphaS r v mu) + sigmaS r v mu * U 1 chi (alphaS r v mu)
  + U 2 chi (alphaS r v mu).
Definition sigS (r v : vec) (mu chi : R) : R :=
  sigmaS r v mu * U 0 chi (alphaS r v mu)
  + (1 - alphaS r v mu * vnorm r) * U 1 chi (alphaS r v mu).
(** [sqrt mu * t] as a function of [chi] *)
Definition timeS (r v : vec) (mu chi : R) : R :=
  vnorm r * U 1 chi (alphaS r v mu) + sigmaS r v mu * U 2 chi (alphaS r v mu)
  + U 3 chi (alphaS r v mu).
Definition FS (r v : vec) (mu chi : R) : R := 1 - U 2 chi (alphaS r v mu) / vnorm r.
Definition GS (r v : vec) (mu chi : R) : R :=
  (vnorm r * U 1 chi (alphaS r v mu) + sigmaS r v mu * U 2 chi (alphaS r v mu)) / sqrt mu.
Definition FtS (r v : vec) (mu chi : R) : R :=
  - sqrt mu / radS r v mu chi * U 1 chi (alphaS r v mu) / vnorm r.
Definition GtS (r v : vec) (mu chi : R) : R := 1 - U 2 chi (alphaS r v mu) / radS r v mu chi.
Definition posS (r v : vec) (mu chi : R) : vec :=
  vplus (smul (FS r v mu chi) r) (smul (GS r v mu chi) v).
Definition velS (r v : vec) (mu chi : R) : vec :=
  vplus (smul (FtS r v mu chi) r) (smul (GtS r v mu chi) v).

Lemma alpha_of_S r v mu : alpha_of (vnorm r) (vnorm v) mu = alphaS r v mu.
Proof. apply alpha_of_R. Qed.

Lemma state_at_chi_S chi r v mu :
  state_at_chi chi (alpha_of (vnorm r) (vnorm v) mu) (sigma_fn r v mu) (vnorm r) r v mu
  = (posS r v mu chi, velS r v mu chi).
Proof.
  unfold state_at_chi. rewrite ufunc0_U, ufunc1_U, ufunc2_U, alpha_of_S. reflexivity.
Qed.
Lemma kepler_equ_uni_S chi r v t mu :
  kepler_equ_uni chi (alpha_of (vnorm r) (vnorm v) mu) (vnorm r) (sigma_fn r v mu) t mu
  = timeS r v mu chi - sqrt mu * t.
Proof. rewrite kepler_equ_uni_R, alpha_of_S. reflexivity. Qed.
Lemma dchi_S chi r v mu :
  dchi chi (alpha_of (vnorm r) (vnorm v) mu) (vnorm r) (sigma_fn r v mu) = radS r v mu chi.
Proof. rewrite dchi_R, alpha_of_S. reflexivity. Qed.

Section Prop_.
  Variables (r0 v0 : vec) (mu : R).
  Hypothesis Hmu : 0 < mu.
  Hypothesis Hr0 : r0 <> vzero.
  Let n0 := vnorm r0.
  Let al := alphaS r0 v0 mu.
  Let s0 := sigmaS r0 v0 mu.

  Lemma n0_pos : 0 < n0.
  Proof. now apply vnorm_pos. Qed.
  Lemma sm_sq : sqrt mu * sqrt mu = mu.
  Proof. apply sqrt_sqrt; lra. Qed.
  Lemma sm_pos : 0 < sqrt mu.
  Proof. now apply sqrt_lt_R0. Qed.
  Lemma v0_sq : dot v0 v0 = mu * (2 / n0 - al).
  Proof. unfold al, alphaS. fold n0. rewrite vnorm_sq2. pose proof n0_pos. field. lra. Qed.
  Lemma rv0 : dot r0 v0 = sqrt mu * s0.
  Proof. unfold s0, sigmaS. pose proof sm_pos. field. lra. Qed.
  Lemma r0_sq : dot r0 r0 = n0 * n0.
  Proof. symmetry. apply vnorm_sq. Qed.
  Lemma pS_eq : pS r0 v0 mu = 2 * n0 - al * n0 ^ 2 - s0 ^ 2.
  Proof.
    unfold pS. rewrite lagrange_identity, r0_sq, v0_sq, rv0.
    pose proof n0_pos. rewrite Rpow_mult_distr. simpl (sqrt mu ^ 2). rewrite Rmult_1_r, sm_sq. field. lra.
  Qed.
  Lemma pS_semiparameter : pS r0 v0 mu = semiparameter (vnorm (cross r0 v0)) mu.
  Proof. symmetry. apply p_eq. Qed.

  Lemma uH0 chi : U 0 chi al = 1 - al * U 2 chi al.
  Proof. apply U0_eq. Qed.
  Lemma uH1 chi : U 1 chi al ^ 2 = U 2 chi al * (2 - al * U 2 chi al).
  Proof. rewrite U_half, U0_eq. ring. Qed.

  Lemma sigS_sq chi : sigS r0 v0 mu chi ^ 2 = 2 * radS r0 v0 mu chi - al * radS r0 v0 mu chi ^ 2 - pS r0 v0 mu.
  Proof. rewrite pS_eq. apply alg_sigma; [apply uH0|apply uH1]. Qed.

  Lemma det1 chi : radS r0 v0 mu chi <> 0 ->
    FS r0 v0 mu chi * GtS r0 v0 mu chi - GS r0 v0 mu chi * FtS r0 v0 mu chi = 1.
  Proof.
    intros Hr. unfold FS, GtS, GS, FtS. fold al s0 n0.
    pose proof n0_pos. pose proof sm_pos.
    pose proof (alg_det n0 s0 al (U 0 chi al) (U 1 chi al) (U 2 chi al) (uH0 chi) (uH1 chi)) as D.
    change (n0 * U 0 chi al + s0 * U 1 chi al + U 2 chi al) with (radS r0 v0 mu chi) in D.
    etransitivity; [|apply D; [lra|exact Hr]].
    field. repeat split; lra.
  Qed.

  Lemma pos_norm_sq chi : dot (posS r0 v0 mu chi) (posS r0 v0 mu chi) = radS r0 v0 mu chi ^ 2.
  Proof.
    unfold posS. rewrite dot_plus_l, !dot_plus_r, !dot_smul_l, !dot_smul_r, (dot_comm v0 r0).
    rewrite r0_sq, v0_sq, rv0. unfold FS, GS. fold al s0 n0.
    pose proof n0_pos. pose proof sm_pos.
    pose proof (alg_radius n0 s0 al (U 0 chi al) (U 1 chi al) (U 2 chi al) (uH0 chi) (uH1 chi)) as D.
    change (n0 * U 0 chi al + s0 * U 1 chi al + U 2 chi al) with (radS r0 v0 mu chi) in D.
    etransitivity; [|apply D; lra].
    pose proof sm_sq as Q; try (set (rr := radS r0 v0 mu chi) in *; clearbody rr); set (m := sqrt mu) in *; clearbody m; rewrite <- Q; field. lra.
  Qed.

  Lemma pos_dot_vel chi : radS r0 v0 mu chi <> 0 ->
    dot (posS r0 v0 mu chi) (velS r0 v0 mu chi) = sqrt mu * sigS r0 v0 mu chi.
  Proof.
    intros Hr. unfold posS, velS. rewrite dot_plus_l, !dot_plus_r, !dot_smul_l, !dot_smul_r, (dot_comm v0 r0).
    rewrite r0_sq, v0_sq, rv0. unfold FS, GS, FtS, GtS. fold al s0 n0.
    pose proof n0_pos. pose proof sm_pos.
    unfold sigS. fold al s0 n0.
    pose proof (alg_rv n0 s0 al (U 0 chi al) (U 1 chi al) (U 2 chi al) (uH0 chi) (uH1 chi)) as D.
    change (n0 * U 0 chi al + s0 * U 1 chi al + U 2 chi al) with (radS r0 v0 mu chi) in D.
    rewrite <- D; [|lra|exact Hr]. clear D.
    pose proof sm_sq as Q; try (set (rr := radS r0 v0 mu chi) in *; clearbody rr); set (m := sqrt mu) in *; clearbody m; rewrite <- Q; field. repeat split; lra.
  Qed.

  Lemma h_conserved chi : radS r0 v0 mu chi <> 0 ->
    cross (posS r0 v0 mu chi) (velS r0 v0 mu chi) = cross r0 v0.
  Proof.
    intros Hr. unfold posS, velS. pose proof (det1 chi Hr) as D.
    rewrite cross_comb, D. apply smul_1.
  Qed.

  Section NonRect.
    Hypothesis Hh : cross r0 v0 <> vzero.
    Lemma pS_pos : 0 < pS r0 v0 mu.
    Proof. apply Rdiv_lt_0_compat; auto. now apply dot_pos. Qed.
    Lemma radS_pos chi : 0 < radS r0 v0 mu chi.
    Proof.
      apply (alg_pos n0 s0 al (U 0 chi al) (U 1 chi al) (U 2 chi al) (uH0 chi) (uH1 chi)).
      - apply n0_pos.
      - rewrite <- pS_eq. apply pS_pos.
      - apply U2_nonneg.
    Qed.
    Lemma radS_neq chi : radS r0 v0 mu chi <> 0.
    Proof. pose proof (radS_pos chi). lra. Qed.
    Lemma pos_norm chi : vnorm (posS r0 v0 mu chi) = radS r0 v0 mu chi.
    Proof.
      apply vnorm_unique; [apply Rlt_le, radS_pos|]. rewrite pos_norm_sq. ring.
    Qed.
    Lemma pos_neq chi : posS r0 v0 mu chi <> vzero.
    Proof. apply vnorm_neq. rewrite pos_norm. apply radS_neq. Qed.

    Lemma vel_norm_sq chi : dot (velS r0 v0 mu chi) (velS r0 v0 mu chi) = mu * (2 / radS r0 v0 mu chi - al).
    Proof.
      pose proof (lagrange_identity (posS r0 v0 mu chi) (velS r0 v0 mu chi)) as L.
      rewrite h_conserved, pos_norm_sq, pos_dot_vel in L by apply radS_neq.
      pose proof (sigS_sq chi) as S. pose proof (radS_pos chi) as P. unfold pS in S.
      pose proof sm_sq as Q.
      set (hh := dot (cross r0 v0) (cross r0 v0)) in *. set (r := radS r0 v0 mu chi) in *.
      apply (Rmult_eq_reg_l (r ^ 2)).
      2:{ apply pow_nonzero. lra. }
      replace (r ^ 2 * (mu * (2 / r - al))) with (mu * (2 * r - al * r ^ 2)) by (field; lra).
      rewrite Rpow_mult_distr, S in L. simpl (sqrt mu ^ 2) in L. rewrite Rmult_1_r, Q in L.
      replace (mu * (2 * r - al * r ^ 2 - hh / mu)) with (mu * (2 * r - al * r ^ 2) - hh) in L by (field; lra).
      lra.
    Qed.
    Lemma alpha_conserved chi : alphaS (posS r0 v0 mu chi) (velS r0 v0 mu chi) mu = al.
    Proof.
      unfold alphaS. rewrite vnorm_sq2, vel_norm_sq, pos_norm. pose proof (radS_pos chi). field. lra.
    Qed.
    Lemma sigma_at chi : sigmaS (posS r0 v0 mu chi) (velS r0 v0 mu chi) mu = sigS r0 v0 mu chi.
    Proof.
      unfold sigmaS. rewrite pos_dot_vel by apply radS_neq. pose proof sm_pos. field. lra.
    Qed.
    Lemma ecc_form (r v : vec) : r <> vzero ->
      eccentricity_vector r v mu
      = vminus (smul (1 / vnorm r - alphaS r v mu) r) (smul (sigmaS r v mu / sqrt mu) v).
    Proof.
      intros Hr. rewrite eccentricity_vector_R, cross_cross. unfold alphaS, sigmaS.
      pose proof (vnorm_pos r Hr) as P. pose proof sm_pos as Q.
      rewrite vnorm_sq2. set (n := vnorm r) in *.
      replace (dot r v / sqrt mu / sqrt mu) with (dot r v / mu).
      2:{ rewrite <- sm_sq at 1. field. lra. }
      rewrite (dot_comm r v).
      replace (1 / n - (2 / n - dot v v / mu)) with (dot v v / mu - 1 / n) by (field; lra).
      set (x := dot v v). set (y := dot v r).
      replace (x / mu - 1 / n) with (/ mu * x - / n) by (field; lra).
      replace (y / mu) with (/ mu * y) by (field; lra).
      apply ecc_form_alg.
    Qed.
    Lemma e_conserved chi :
      eccentricity_vector (posS r0 v0 mu chi) (velS r0 v0 mu chi) mu = eccentricity_vector r0 v0 mu.
    Proof.
      rewrite (ecc_form r0 v0 Hr0), (ecc_form _ _ (pos_neq chi)), alpha_conserved, sigma_at, pos_norm.
      pose proof (alg_ecc_r n0 s0 al _ _ _ (uH0 chi) (uH1 chi)) as A.
      pose proof (alg_ecc_v n0 s0 al _ _ _ (uH0 chi) (uH1 chi)) as B.
      change (n0 * U 0 chi al + s0 * U 1 chi al + U 2 chi al) with (radS r0 v0 mu chi) in A, B.
      change (s0 * U 0 chi al + (1 - al * n0) * U 1 chi al) with (sigS r0 v0 mu chi) in A, B.
      pose proof n0_pos as P. pose proof (radS_pos chi) as Q. pose proof sm_pos as M.
      specialize (A ltac:(lra) ltac:(lra)). specialize (B ltac:(lra)).
      fold al s0 n0.
      transitivity (vminus
        (smul ((1 / radS r0 v0 mu chi - al) * FS r0 v0 mu chi - sigS r0 v0 mu chi / sqrt mu * FtS r0 v0 mu chi) r0)
        (smul (sigS r0 v0 mu chi / sqrt mu * GtS r0 v0 mu chi - (1 / radS r0 v0 mu chi - al) * GS r0 v0 mu chi) v0)).
      { apply ecc_comb. }
      f_equal; f_equal.
      - rewrite <- A. unfold FS, FtS. fold al s0 n0. field. repeat split; lra.
      - replace (s0 / sqrt mu) with (- (- s0) / sqrt mu) by (field; lra). rewrite <- B.
        unfold GtS, GS. fold al s0 n0. field. repeat split; lra.
    Qed.

    Lemma radS_lower chi :
      radius_periapsis (semiparameter (vnorm (cross r0 v0)) mu) (vnorm (eccentricity_vector r0 v0 mu))
      <= radS r0 v0 mu chi.
    Proof.
      pose proof (periapsis_le _ (velS r0 v0 mu chi) mu (pos_neq chi) Hmu) as P.
      rewrite (e_conserved chi), (h_conserved chi), pos_norm in P by apply radS_neq. exact P.
    Qed.
  End NonRect.

  Lemma chi_recovered chi t :
    generalized_anomaly al (sigS r0 v0 mu chi) s0 t mu
    = chi - al * (timeS r0 v0 mu chi - sqrt mu * t).
  Proof.
    rewrite generalized_anomaly_R. unfold sigS, timeS. fold al s0 n0.
    pose proof (U0_eq chi al) as A. pose proof (U1_eq chi al) as B.
    rewrite A. rewrite B at 1. replace (U 1 chi al) with (chi - al * U 3 chi al) by lra. ring.
  Qed.

  (** At chi = 0 nothing moves. *)
  Lemma posS_0 : posS r0 v0 mu 0 = r0 /\ velS r0 v0 mu 0 = v0 /\ radS r0 v0 mu 0 = n0
    /\ timeS r0 v0 mu 0 = 0.
  Proof.
    unfold posS, velS, FS, GS, FtS, GtS, timeS, radS. rewrite !U_zero. simpl.
    fold n0. pose proof n0_pos. pose proof sm_pos.
    repeat split.
    - replace (1 - 0 / n0) with 1 by (field; lra).
      replace ((n0 * 0 + sigmaS r0 v0 mu * 0) / sqrt mu) with 0 by (field; lra). apply comb_1_0.
    - replace (n0 * 1 + sigmaS r0 v0 mu * 0 + 0) with n0 by ring.
      replace (- sqrt mu / n0 * 0 / n0) with 0 by (field; lra).
      replace (1 - 0 / n0) with 1 by (field; lra). apply comb_0_1.
    - ring.
    - ring.
  Qed.
End Prop_.
