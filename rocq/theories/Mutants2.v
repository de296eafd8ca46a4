(** * Mutants2: wrong propagation formulas, and the properties that are false of them (see [Mutants]) *)
From Coq Require Import Reals Lra Lia Psatz ZArith List.
From Coquelicot Require Import Coquelicot.
From Verif Require Import Num NumR Spec SpecAnom RLib OrbIntegrals OrbElements Uniformulas Lagrange KepEqu StateTrans PropKepler
  OrbFacts KepState KepRows UFacts SolveFacts Classical Mutants.

Section Wrong.
  Context {T : Type} {N : Num T}.
  Local Open Scope num_scope.
  Definition m009_equ_of_orb_uvi (U0 U1 U2 r0 sigma0 : T) : T := r0 * U0 + sigma0 * U1 - U2.
  Definition m012_sigma_fn (pos_vec vel_vec : V3 T) (mu : T) : T := vinner pos_vec vel_vec / mu.
  Definition m019_lagrange_G (U1 U2 sigma0 r0_mag mu : T) : T := (r0_mag * U1 - sigma0 * U2) / n_sqrt mu.
  Definition m020_lagrange_Ft (U1 r_mag r0_mag mu : T) : T := (n_sqrt mu) / r_mag * U1 / r0_mag.
  Definition m021_lagrange_Gt (U2 r_mag : T) : T := #1 + U2 / r_mag.
  Definition m022_kepler_equ_elps (E e M : T) : T := E + e * n_sin E - M.
  Definition m023_dE (E e : T) : T := #1 + e * n_cos E.
  Definition m024_dH (H e : T) : T := e * n_sinh H - #1.
  Definition m026_kepler_equ_uni (chi alpha r0 sigma0 deltat mu : T) : T :=
    r0 * ufunc1 chi alpha + sigma0 * ufunc2 chi alpha + ufunc3 chi alpha - mu * deltat.
  Definition m025_mean_anomaly_hypb (a deltat mu : T) : T := n_sqrt (mu / (a ** 3)) * deltat.
  Definition m027_dchi (chi alpha r0 sigma0 : T) : T :=
    equ_of_orb_uvi (ufunc0 chi alpha) (ufunc1 chi alpha) (ufunc3 chi alpha) r0 sigma0.
  Definition m028_generalized_anomaly (alpha sigma sigma0 deltat mu : T) : T :=
    alpha * n_sqrt mu * deltat + sigma0 - sigma.
End Wrong.

Local Open Scope R_scope.

(** A parabola: r0 = (1,0,0), v0 = (2,2,0), mu = 4, so alpha = 0 and sigma0 = 1. *)
Definition vp : vec := mk3 2 2 0.
Lemma p_alpha : alpha_of (vnorm ex_) (vnorm vp) 4 = 0.
Proof.
  rewrite alpha_of_R, ex_n. unfold vnorm.
  assert (K : sqrt (dot vp vp) ^ 2 = 8).
  { rewrite <- Rsqr_pow2, Rsqr_sqrt; unfold dot, vp; simpl; lra. }
  rewrite K. lra.
Qed.
Lemma s4 : sqrt 4 = 2. Proof. apply sqrt_is; lra. Qed.
Lemma p_sigma : sigma_fn ex_ vp 4 = 1.
Proof. unfold sigma_fn. rewrite vinner_dot. unnum. rewrite s4. unfold dot, ex_, vp. simpl. lra. Qed.
Lemma p_u0 : ufunc0 1 0 = 1. Proof. unfold ufunc0. unnum. off. lra. Qed.
Lemma p_u1 : ufunc1 1 0 = 1. Proof. unfold ufunc1. unnum. off. lra. Qed.
Lemma p_u2 : ufunc2 1 0 = 1 / 2. Proof. unfold ufunc2. unnum. off. lra. Qed.
Lemma p_h : cross ex_ vp <> vzero.
Proof. unfold cross, ex_, vp, vzero. simpl. intro K. injection K. lra. Qed.

Lemma m009_C10_area_preserving : ~ (forall (chi : R) (r0 v0 : vec) (mu : R),
  r0 <> vzero -> 0 < mu ->
  let alpha := alpha_of (vnorm r0) (vnorm v0) mu in
  let sigma0 := sigma_fn r0 v0 mu in
  let U0 := ufunc0 chi alpha in let U1 := ufunc1 chi alpha in let U2 := ufunc2 chi alpha in
  let r := m009_equ_of_orb_uvi U0 U1 U2 (vnorm r0) sigma0 in
  r <> 0 ->
  lagrange_F U2 (vnorm r0) * lagrange_Gt U2 r
  - lagrange_G U1 U2 sigma0 (vnorm r0) mu * lagrange_Ft U1 r (vnorm r0) mu = 1).
Proof.
  intro H. specialize (H 1 ex_ vp 4 ex_z ltac:(lra)). cbv zeta in H. rewrite p_alpha, p_sigma, p_u0, p_u1, p_u2, ex_n in H.
  revert H. unfold m009_equ_of_orb_uvi, lagrange_F, lagrange_G, lagrange_Ft, lagrange_Gt. unnum. rewrite s4. intro H. specialize (H ltac:(lra)). lra.
Qed.

Lemma m019_C10_area_preserving : ~ (forall (chi : R) (r0 v0 : vec) (mu : R),
  r0 <> vzero -> 0 < mu ->
  let alpha := alpha_of (vnorm r0) (vnorm v0) mu in
  let sigma0 := sigma_fn r0 v0 mu in
  let U0 := ufunc0 chi alpha in let U1 := ufunc1 chi alpha in let U2 := ufunc2 chi alpha in
  let r := equ_of_orb_uvi U0 U1 U2 (vnorm r0) sigma0 in
  r <> 0 ->
  lagrange_F U2 (vnorm r0) * lagrange_Gt U2 r
  - m019_lagrange_G U1 U2 sigma0 (vnorm r0) mu * lagrange_Ft U1 r (vnorm r0) mu = 1).
Proof.
  intro H. specialize (H 1 ex_ vp 4 ex_z ltac:(lra)). cbv zeta in H. rewrite p_alpha, p_sigma, p_u0, p_u1, p_u2, ex_n in H.
  revert H. unfold equ_of_orb_uvi, lagrange_F, m019_lagrange_G, lagrange_Ft, lagrange_Gt. unnum. rewrite s4. intro H. specialize (H ltac:(lra)). lra.
Qed.

Lemma m020_C10_area_preserving : ~ (forall (chi : R) (r0 v0 : vec) (mu : R),
  r0 <> vzero -> 0 < mu ->
  let alpha := alpha_of (vnorm r0) (vnorm v0) mu in
  let sigma0 := sigma_fn r0 v0 mu in
  let U0 := ufunc0 chi alpha in let U1 := ufunc1 chi alpha in let U2 := ufunc2 chi alpha in
  let r := equ_of_orb_uvi U0 U1 U2 (vnorm r0) sigma0 in
  r <> 0 ->
  lagrange_F U2 (vnorm r0) * lagrange_Gt U2 r
  - lagrange_G U1 U2 sigma0 (vnorm r0) mu * m020_lagrange_Ft U1 r (vnorm r0) mu = 1).
Proof.
  intro H. specialize (H 1 ex_ vp 4 ex_z ltac:(lra)). cbv zeta in H. rewrite p_alpha, p_sigma, p_u0, p_u1, p_u2, ex_n in H.
  revert H. unfold equ_of_orb_uvi, lagrange_F, lagrange_G, m020_lagrange_Ft, lagrange_Gt. unnum. rewrite s4. intro H. specialize (H ltac:(lra)). lra.
Qed.

Lemma m021_C10_area_preserving : ~ (forall (chi : R) (r0 v0 : vec) (mu : R),
  r0 <> vzero -> 0 < mu ->
  let alpha := alpha_of (vnorm r0) (vnorm v0) mu in
  let sigma0 := sigma_fn r0 v0 mu in
  let U0 := ufunc0 chi alpha in let U1 := ufunc1 chi alpha in let U2 := ufunc2 chi alpha in
  let r := equ_of_orb_uvi U0 U1 U2 (vnorm r0) sigma0 in
  r <> 0 ->
  lagrange_F U2 (vnorm r0) * m021_lagrange_Gt U2 r
  - lagrange_G U1 U2 sigma0 (vnorm r0) mu * lagrange_Ft U1 r (vnorm r0) mu = 1).
Proof.
  intro H. specialize (H 1 ex_ vp 4 ex_z ltac:(lra)). cbv zeta in H. rewrite p_alpha, p_sigma, p_u0, p_u1, p_u2, ex_n in H.
  revert H. unfold equ_of_orb_uvi, lagrange_F, lagrange_G, lagrange_Ft, m021_lagrange_Gt. unnum. rewrite s4. intro H. specialize (H ltac:(lra)). lra.
Qed.

(** [C10_area_preserving] holds for every value of [sigma0], so it cannot see a wrong [sigma_fn]; [C12_radius] does. *)
Lemma m012_C12_radius : ~ (forall (chi : R) (r0 v0 : vec) (mu : R),
  0 < mu -> cross r0 v0 <> vzero ->
  let alpha := alpha_of (vnorm r0) (vnorm v0) mu in
  let sigma0 := m012_sigma_fn r0 v0 mu in
  let r := equ_of_orb_uvi (ufunc0 chi alpha) (ufunc1 chi alpha) (ufunc2 chi alpha) (vnorm r0) sigma0 in
  let rp := radius_periapsis (semiparameter (vnorm (angular_momentum r0 v0)) mu)
              (vnorm (eccentricity_vector r0 v0 mu)) in
  0 < rp /\ rp <= r /\ r = vnorm (fst (state_at_chi chi alpha sigma0 (vnorm r0) r0 v0 mu))).
Proof.
  intro H. destruct (H 1 ex_ vp 4 ltac:(lra) p_h) as (_ & _ & A). clear H. rewrite p_alpha, ex_n in A.
  assert (S : m012_sigma_fn ex_ vp 4 = 1 / 2).
  { unfold m012_sigma_fn. rewrite vinner_dot. unnum. unfold dot, ex_, vp. simpl. lra. }
  unfold state_at_chi in A. rewrite S, p_u0, p_u1, p_u2 in A.
  assert (B : vnorm (fst (lagrange_prop (lagrange_F (1 / 2) 1) (lagrange_G 1 (1 / 2) (1 / 2) 1 4)
     (lagrange_Ft 1 (equ_of_orb_uvi 1 1 (1 / 2) 1 (1 / 2)) 1 4)
     (lagrange_Gt (1 / 2) (equ_of_orb_uvi 1 1 (1 / 2) 1 (1 / 2))) ex_ vp)) ^ 2 = 37 / 8).
  { rewrite lagrange_F_R, lagrange_G_R, s4. unfold vnorm. rewrite <- Rsqr_pow2, Rsqr_sqrt;
    unfold dot, lagrange_prop, ex_, vp; cbn; lra. }
  rewrite <- A, equ_of_orb_uvi_R in B. lra.
Qed.

Lemma m022_C24_derivative : ~ (forall e M E : R,
  is_derive (fun x : R => m022_kepler_equ_elps x e M) E (dE E e)).
Proof.
  intro H. specialize (H 1 0 0). rewrite dE_R, cos_0 in H. apply is_derive_unique in H.
  assert (K : is_derive (fun x : R => x + 1 * sin x - 0) 0 (1 + 1 * cos 0)) by (auto_derive; [trivial|ring]).
  apply is_derive_unique in K. rewrite cos_0 in K. unfold m022_kepler_equ_elps in H. revert H K. unnum. intros H K.
  rewrite H in K. lra.
Qed.

Lemma m023_C24_derivative : ~ (forall e M E : R,
  is_derive (fun x : R => kepler_equ_elps x e M) E (m023_dE E e)).
Proof.
  intro H. specialize (H 1 0 0). apply is_derive_unique in H. pose proof (elps_deriv 1 0 0) as K.
  apply is_derive_unique in K. rewrite H, dE_R in K. revert K. unfold m023_dE. unnum. rewrite cos_0. lra.
Qed.

Lemma m024_C25_derivative : ~ (forall e Nm H : R,
  is_derive (fun x : R => kepler_equ_hypb x e Nm) H (m024_dH H e)).
Proof.
  intro H. specialize (H 1 0 0). apply is_derive_unique in H. pose proof (hypb_deriv 1 0 0) as K.
  apply is_derive_unique in K. rewrite H, dH_R in K. revert K. unfold m024_dH. unnum. rewrite cosh_0, sinh_0. lra.
Qed.

Lemma m026_C17_anomaly_recovered : ~ (forall (mu t chi : R) (r0 v0 r v : vec),
  0 < mu -> cross r0 v0 <> vzero ->
  let alpha := alpha_of (vnorm r0) (vnorm v0) mu in
  let sigma0 := sigma_fn r0 v0 mu in
  (r, v) = state_at_chi chi alpha sigma0 (vnorm r0) r0 v0 mu ->
  generalized_anomaly alpha (sigma_fn r v mu) sigma0 t mu
  = chi - alpha * m026_kepler_equ_uni chi alpha (vnorm r0) sigma0 t mu).
Proof.
  intro H.
  assert (P : cross ex_ ey_ <> vzero) by (rewrite exy; unfold vzero; intro K; injection K; lra).
  specialize (H 4 1 1 ex_ ey_ _ _ ltac:(lra) P (surjective_pairing _)).
  pose proof (anomaly_recovered 4 1 1 ex_ ey_ _ _ ltac:(lra) P (surjective_pairing _)) as K.
  cbv zeta in H, K. rewrite H in K.
  assert (A : alpha_of (vnorm ex_) (vnorm ey_) 4 = 7 / 4) by (rewrite alpha_of_R, ex_n, ey_n; lra).
  rewrite A in K. revert K. unfold m026_kepler_equ_uni, kepler_equ_uni. unnum. rewrite s4. lra.
Qed.

Lemma m027_C16_derivative : ~ (forall (mu t chi : R) (r0 v0 : vec),
  let alpha := alpha_of (vnorm r0) (vnorm v0) mu in
  is_derive (fun x : R => kepler_equ_uni x alpha (vnorm r0) (sigma_fn r0 v0 mu) t mu) chi
    (m027_dchi chi alpha (vnorm r0) (sigma_fn r0 v0 mu))).
Proof.
  intro H. specialize (H 4 0 1 ex_ vp). cbv zeta in H. apply is_derive_unique in H.
  pose proof (uni_derivative 4 0 1 ex_ vp) as K. cbv zeta in K. apply is_derive_unique in K.
  pose proof (eq_trans (eq_sym H) K) as Q. clear H K. rename Q into K.
  rewrite p_alpha, p_sigma, ex_n in K. unfold m027_dchi, dchi in K.
  assert (U : ufunc3 1 0 = 1 / 6) by (unfold ufunc3; unnum; off; lra).
  rewrite p_u0, p_u1, p_u2, U, !equ_of_orb_uvi_R in K. lra.
Qed.

Lemma m028_C17_anomaly_recovered : ~ (forall (mu t chi : R) (r0 v0 r v : vec),
  0 < mu -> cross r0 v0 <> vzero ->
  let alpha := alpha_of (vnorm r0) (vnorm v0) mu in
  let sigma0 := sigma_fn r0 v0 mu in
  (r, v) = state_at_chi chi alpha sigma0 (vnorm r0) r0 v0 mu ->
  m028_generalized_anomaly alpha (sigma_fn r v mu) sigma0 t mu
  = chi - alpha * kepler_equ_uni chi alpha (vnorm r0) sigma0 t mu).
Proof.
  intro H. specialize (H 4 0 1 ex_ vp _ _ ltac:(lra) p_h (surjective_pairing _)).
  pose proof (anomaly_recovered 4 0 1 ex_ vp _ _ ltac:(lra) p_h (surjective_pairing _)) as K.
  cbv zeta in H, K. revert H K. rewrite p_alpha. unfold m028_generalized_anomaly, generalized_anomaly. unnum. lra.
Qed.

(** Over the reals the wrong argument of the square root is negative and [sqrt] gives 0 (in the program: nan);
    either way the anomaly no longer advances with time. *)
Lemma m025_C46_hyperbolic : ~ (forall (r0 v0 : vec) (mu : R),
  0 < mu -> cross r0 v0 <> vzero -> 0 < energy mu r0 v0 ->
  let a := semimajor_axis (vnorm r0) (vnorm v0) mu in
  let e := vnorm (eccentricity_vector r0 v0 mu) in
  let alpha := alpha_of (vnorm r0) (vnorm v0) mu in
  let sigma0 := sigma_fn r0 v0 mu in
  (exists! H0, hyperbolic_anomaly mu a e r0 v0 H0) /\
  forall H0 chi, hyperbolic_anomaly mu a e r0 v0 H0 ->
    let H := H0 + chi / sqrt (- a) in
    hyperbolic_anomaly mu a e (fst (state_at_chi chi alpha sigma0 (vnorm r0) r0 v0 mu))
      (snd (state_at_chi chi alpha sigma0 (vnorm r0) r0 v0 mu)) H /\
    forall t,
      kepler_equ_uni chi alpha (vnorm r0) sigma0 t mu
      = sqrt (- a) ^ 3 * kepler_equ_hypb H e (e * sinh H0 - H0 + m025_mean_anomaly_hypb a t mu) /\
      (kepler_equ_uni chi alpha (vnorm r0) sigma0 t mu = 0 <->
       e * sinh H - H = e * sinh H0 - H0 + m025_mean_anomaly_hypb a t mu)).
Proof.
  intro H.
  assert (B : vnorm (mk3 0 2 0) = 2) by (unfold vnorm; apply sqrt_is; unfold dot; simpl; lra).
  assert (E : energy 1 ex_ (mk3 0 2 0) = 1) by (unfold energy; rewrite ex_n; unfold dot; simpl; lra).
  assert (P : cross ex_ (mk3 0 2 0) <> vzero) by (unfold cross, ex_, vzero; simpl; intro K; injection K; lra).
  destruct (H ex_ (mk3 0 2 0) 1 ltac:(lra) P ltac:(lra)) as [(H0 & A & _) C]. clear H.
  destruct (C H0 0 A) as [_ D]. destruct (D 0) as [D0 _]. destruct (D 1) as [D1 _]. clear C D.
  assert (M : forall t, m025_mean_anomaly_hypb (semimajor_axis (vnorm ex_) (vnorm (mk3 0 2 0)) 1) t 1 = 0).
  { intro t. rewrite ex_n, B. unfold m025_mean_anomaly_hypb, semimajor_axis. unnum.
    rewrite sqrt_neg_0 by lra. lra. }
  rewrite M in D0, D1. rewrite <- D0 in D1. revert D1. unfold kepler_equ_uni. unnum. rewrite sqrt_1. lra.
Qed.
