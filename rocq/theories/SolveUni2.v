(** * SolveUni2: ellipses on which the universal solver never converges (C28, refutation) *)
From Coq Require Import Reals Lra Lia Psatz ZArith List.
From Coquelicot Require Import Coquelicot.
From Verif Require Import Num NumR Spec SpecAnom RLib Ana Uniformulas Lagrange OrbIntegrals KepEqu StateTrans
  PropKepler SeriesU UFacts Atan2 OrbFacts KepState LoopFacts KepMotion TwoBody KepRows SolveFacts SolveElps
  SolveElpsBad Classical SolveUni.
Import ListNotations.
Local Open Scope R_scope.

Lemma newton_sym s M e x : s = 1 \/ s = -1 ->
  elps_newton (s * M + 2 * PI) e (s * x + 2 * PI) = s * elps_newton M e x + 2 * PI.
Proof.
  intros Hs. rewrite !elps_newton_R, !kepler_equ_elps_R, !dE_R, !sin_plus, !cos_plus, sin_2PI, cos_2PI.
  destruct Hs as [-> | ->].
  - rewrite !Rmult_1_l. replace (sin x * 1 + cos x * 0) with (sin x) by ring.
    replace (cos x * 1 - sin x * 0) with (cos x) by ring. unfold Rdiv. ring.
  - replace (-1 * x) with (- x) by ring. rewrite sin_neg, cos_neg.
    replace (cos x * 1 - - sin x * 0) with (cos x) by ring. unfold Rdiv. ring.
Qed.
Lemma residual_sym s M e x : s = 1 \/ s = -1 ->
  kepler_equ_elps (s * x + 2 * PI) e (s * M + 2 * PI) = s * kepler_equ_elps x e M.
Proof.
  intros Hs. rewrite !kepler_equ_elps_R, sin_plus, sin_2PI, cos_2PI.
  destruct Hs as [-> | ->]; [rewrite !Rmult_1_l; ring|].
  replace (-1 * x) with (- x) by ring. rewrite sin_neg. ring.
Qed.

(** Newton's method started [c] left of the mean anomaly. *)
Lemma start_left n e c : 3 / 4 <= e < 1 -> 0 <= c <= e -> 2 * PI * (1 - e) <= c ->
  exists M, 0 <= M <= 1 /\ forall k, (k <= n)%nat ->
    PI <= (-1) ^ k * iterate (elps_newton M e) (S k) (M - c) <= 2 * PI.
Proof.
  intros He Hc Hb. pose proof PI_3 as P3.
  destruct (horseshoe e He n (fun M => elps_newton M e (M - c)) 1 0 c) as [M [HM H]]; auto; try lra.
  - apply cont_newton; [lra|]. apply cont_minus; [apply cont_id|apply cont_const].
  - rewrite Rmult_1_l, Rminus_0_l, elps_newton_R, kepler_equ_elps_R, dE_R, sin_neg, cos_neg.
    pose proof (dE_pos c e ltac:(lra)) as D. rewrite dE_R in D.
    pose proof (sin_ge_cube c ltac:(lra)) as S. pose proof (cos_le_quart c ltac:(lra)) as C.
    assert (Q : c * cos c <= sin c).
    { apply Rle_trans with (c * (1 - c ^ 2 / 2 + c ^ 4 / 24)); [apply Rmult_le_compat_l; lra|].
      eapply Rle_trans; [|exact S]. assert (c ^ 2 <= 1) by nra. assert (0 <= c ^ 3) by (apply pow_le; lra). nra. }
    replace (- c - (- c - e * - sin c - 0) / (1 - e * cos c))
      with (e * (c * cos c - sin c) / (1 - e * cos c)) by (field; lra).
    apply Rle_trans with 0; [|lra]. apply (Rmult_le_reg_r (1 - e * cos c)); [exact D|].
    replace (e * (c * cos c - sin c) / (1 - e * cos c) * (1 - e * cos c)) with (e * (c * cos c - sin c)) by (field; lra).
    nra.
  - replace (c - c) with 0 by ring. rewrite Rmult_1_l, elps_newton_R, kepler_equ_elps_R, dE_R, sin_0, cos_0.
    replace (0 - (0 - e * 0 - c) / (1 - e * 1)) with (c / (1 - e)) by (field; lra).
    apply (Rmult_le_reg_r (1 - e)); [lra|]. replace (c / (1 - e) * (1 - e)) with c by (field; lra). lra.
  - exists M. split.
    { rewrite Rmin_left, Rmax_right in HM by lra. lra. }
    intros k Hk. specialize (H k Hk). rewrite iterate_S_in in H. rewrite Rmult_1_l in H. exact H.
Qed.

Lemma uni_elliptic_fails r0 v0 mu : 0 < mu -> cross r0 v0 <> vzero -> energy mu r0 v0 < 0 ->
  let a := semimajor_axis (vnorm r0) (vnorm v0) mu in
  let e := vnorm (eccentricity_vector r0 v0 mu) in
  let alpha := alpha_of (vnorm r0) (vnorm v0) mu in
  let sigma0 := sigma_fn r0 v0 mu in
  2 * PI * (1 - e) * sqrt a <= Rabs sigma0 ->
  forall (tol : R) (mi : Z), tol <= (1 - e) * sqrt a ^ 3 -> (1 <= mi)%Z ->
  exists t, 0 < t /\
    exists chi prev, uni_run t alpha (vnorm r0) sigma0 mu tol mi = Some (mi, chi, prev) /\
      solve_kepler_uni t alpha (vnorm r0) sigma0 mu tol mi = chi /\
      2 * sqrt a ^ 3 < Rabs (kepler_equ_uni chi alpha (vnorm r0) sigma0 t mu).
Proof.
  intros Hmu Hh HE. cbv zeta. set (a := semimajor_axis _ _ _). set (e := vnorm (eccentricity_vector r0 v0 mu)).
  set (al := alpha_of _ _ _). set (sg := sigma_fn _ _ _). intros Hs tol mi Ht Hm.
  assert (Pe : 0 <= e) by apply vnorm_nonneg.
  pose proof (e_elps r0 v0 mu Hmu Hh HE) as Le. fold e in Le.
  pose proof (s_pos r0 v0 mu Hmu Hh HE) as Ps. fold a in Ps. set (s := sqrt a) in *.
  destruct (ea_exists r0 v0 mu Hmu Hh HE) as [E0 [HE0 H0]]. fold a e in H0.
  pose proof PI_tight as PP.
  assert (Sg : sg = s * (e * sin E0)).
  { pose proof (proj1 (ea_iff r0 v0 mu Hmu Hh HE E0) H0) as [_ B]. fold e in B. fold s in B.
    change (sigmaS r0 v0 mu = s * (e * sin E0)). fold a in B. fold s in B. lra. }
  assert (Hc : 2 * PI * (1 - e) <= Rabs (e * sin E0)).
  { rewrite Sg, Rabs_mult, (Rabs_pos_eq s) in Hs by lra.
    apply (Rmult_le_reg_l s); [exact Ps|]. lra. }
  set (q := e * sin E0) in *.
  assert (Q1 : Rabs q <= e).
  { unfold q. rewrite Rabs_mult, (Rabs_pos_eq e) by lra. pose proof (Rabs_sin E0). nra. }
  assert (He : 3 / 4 <= e < 1) by nra.
  destruct (start_left (Z.to_nat mi) e (Rabs q) He ltac:(split; [apply Rabs_pos|exact Q1]) Hc) as [M [HM H]].
  (* orientation *)
  assert (Hg : exists g, (g = 1 \/ g = -1) /\ - g * Rabs q = q).
  { destruct (Rle_dec 0 q) as [P|P].
    - exists (-1). split; [now right|]. rewrite Rabs_pos_eq by lra. ring.
    - exists 1. split; [now left|]. rewrite Rabs_left by lra. ring. }
  destruct Hg as [g [Hg Gq]].
  set (n := sqrt mu / (s * s * s)).
  assert (Pm : 0 < sqrt mu) by (apply sqrt_lt_R0; lra).
  assert (Ps3 : 0 < s * s * s) by (repeat apply Rmult_lt_0_compat; lra).
  assert (Pn : 0 < n) by (apply Rdiv_lt_0_compat; lra).
  assert (Hn : forall t, mean_anomaly_elps a t mu = n * t).
  { intros t. pose proof (mean_E r0 v0 mu Hmu Hh HE t) as Q. fold a in Q. fold s in Q. unfold n.
    apply (Rmult_eq_reg_l (s * s * s)); [|lra]. rewrite <- Q. field. lra. }
  set (M' := g * M + 2 * PI).
  set (t := (M' - (E0 - q)) / n).
  assert (Ht0 : 0 < t).
  { unfold t. apply Rdiv_lt_0_compat; [|lra]. unfold M'. pose proof (Rle_abs q). pose proof (Rle_abs (- q)) as R2.
    rewrite Rabs_Ropp in R2.
    destruct Hg as [-> | ->]; [lra|]. 
    assert (Q0 : 0 <= q) by (rewrite <- Gq; pose proof (Rabs_pos q); lra). lra. }
  exists t. split; [exact Ht0|].
  assert (Mt : E0 - e * sin E0 + mean_anomaly_elps a t mu = M').
  { rewrite Hn. fold q. unfold t. field. lra. }
  assert (It : forall j, E0 + iterate (uni_newton t al (vnorm r0) sg mu) j (uni_guess t al mu) / s
    = g * iterate (elps_newton M e) j (M - Rabs q) + 2 * PI).
  { intros j.
    rewrite (iterate_conj (uni_newton t al (vnorm r0) sg mu) (elps_newton M' e) (fun chi => E0 + chi / s)).
    2:{ intros y. rewrite <- Mt. exact (ell_step r0 v0 mu Hmu Hh HE E0 H0 t y). }
    rewrite (iterate_conj (elps_newton M e) (elps_newton M' e) (fun x => g * x + 2 * PI)).
    2:{ intros y. symmetry. unfold M'. now apply newton_sym. }
    f_equal. pose proof (ell_guess r0 v0 mu Hmu Hh HE E0 t) as Gu. fold al a in Gu. fold s in Gu.
    cbv beta. rewrite Gu.
    replace (E0 + mean_anomaly_elps a t mu) with (M' + q) by (rewrite <- Mt; unfold q; ring).
    unfold M'. lra. }
  assert (Res : forall j, Rabs (kepler_equ_uni (iterate (uni_newton t al (vnorm r0) sg mu) j (uni_guess t al mu)) al (vnorm r0) sg t mu)
    = s ^ 3 * Rabs (kepler_equ_elps (iterate (elps_newton M e) j (M - Rabs q)) e M)).
  { intros j. pose proof (ell_residual r0 v0 mu Hmu Hh HE E0 H0 t
      (iterate (uni_newton t al (vnorm r0) sg mu) j (uni_guess t al mu))) as R.
    fold al sg a e in R. fold s in R. rewrite R, Mt, It. unfold M'. rewrite residual_sym by exact Hg.
    rewrite Rabs_mult, (Rabs_pos_eq (s ^ 3)) by (apply pow_le; lra). f_equal. rewrite Rabs_mult.
    destruct Hg as [-> | ->]; [rewrite Rabs_R1|rewrite Rabs_left by lra]; ring. }
  assert (Ps3' : 0 < s ^ 3) by (apply pow_lt; lra).
  assert (Far : forall k, (k < Z.to_nat mi)%nat ->
    2 * s ^ 3 < Rabs (kepler_equ_uni (iterate (uni_newton t al (vnorm r0) sg mu) (S k) (uni_guess t al mu)) al (vnorm r0) sg t mu)).
  { intros k Hk. rewrite Res. specialize (H k ltac:(lia)).
    pose proof (window_residual e He M k _ HM H). nra. }
  assert (First : (1 - e) * s ^ 3 < Rabs (kepler_equ_uni (uni_guess t al mu) al (vnorm r0) sg t mu)).
  { change (uni_guess t al mu) with (iterate (uni_newton t al (vnorm r0) sg mu) 0 (uni_guess t al mu)) at 1.
    rewrite Res. cbn [iterate]. specialize (H 0%nat ltac:(lia)). cbn [iterate] in H. simpl pow in H.
    rewrite Rmult_1_l, elps_newton_R in H.
    assert (X : M - Rabs q <= 1) by (pose proof (Rabs_pos q); lra).
    set (x := M - Rabs q) in *. set (f := kepler_equ_elps x e M) in *.
    pose proof (dE_lower x e Pe) as D. set (d := dE x e) in *.
    assert (L : 1 < Rabs f / d).
    { pose proof (Rle_abs (- f)) as A. rewrite Rabs_Ropp in A.
      assert (- f / d <= Rabs f / d) by (apply Rmult_le_compat_r; [left; apply Rinv_0_lt_compat; lra|lra]).
      unfold Rdiv in *. lra. }
    assert (F : d < Rabs f).
    { apply (Rmult_lt_compat_r d) in L; [|lra]. replace (Rabs f / d * d) with (Rabs f) in L by (field; lra). lra. }
    rewrite Rmult_comm. apply Rmult_lt_compat_l; lra. }
  destruct (uni_run_char t al (vnorm r0) sg mu tol mi) as [k [Hk [Hrun [_ Hx]]]].
  assert (K : k = Z.to_nat mi).
  { destruct Hx as [Hx|Hx]; [exact Hx|]. exfalso. apply exceeds_R_false in Hx. destruct k as [|k].
    - cbn [iterate] in Hx. lra.
    - specialize (Far k ltac:(lia)). assert ((1 - e) * s ^ 3 <= 2 * s ^ 3) by nra. lra. }
  rewrite K, Z2Nat.id in Hrun by lia. do 2 eexists. split; [exact Hrun|]. split.
  - unfold solve_kepler_uni. rewrite Hrun. reflexivity.
  - destruct (Z.to_nat mi) as [|k'] eqn:Ek; [lia|]. apply Far. lia.
Qed.

(** A concrete ellipse: at one end of the minor axis, falling inwards; a = 1, e = 24/25. *)
Definition qr : vec := mk3 (- (24 / 25)) (- (7 / 25)) 0.
Definition qv : vec := mk3 1 0 0.
Lemma qr_norm : vnorm qr = 1.
Proof. apply vnorm_unique; [lra|]. unfold dot, qr; cbn [c0 c1 c2]. lra. Qed.
Lemma qv_norm : vnorm qv = 1.
Proof. apply vnorm_unique; [lra|]. unfold dot, qv; cbn [c0 c1 c2]. lra. Qed.
Lemma q_axis : semimajor_axis (vnorm qr) (vnorm qv) 1 = 1.
Proof. rewrite semimajor_axis_R, qr_norm, qv_norm. field. Qed.
Lemma q_ecc : vnorm (eccentricity_vector qr qv 1) = 24 / 25.
Proof.
  rewrite eccentricity_vector_R, qr_norm. apply vnorm_unique; [lra|].
  unfold qr, qv, vminus, smul, cross, dot; cbn [c0 c1 c2]. field.
Qed.
Lemma q_sigma : sigma_fn qr qv 1 = - (24 / 25).
Proof. rewrite sigma_fn_R, sqrt_1. unfold dot, qr, qv; cbn [c0 c1 c2]. field. Qed.
Lemma q_cross : cross qr qv <> vzero.
Proof. intros H. apply (f_equal c2) in H. unfold cross, qr, qv, vzero in H; cbn [c0 c1 c2] in H. lra. Qed.
Lemma q_energy : energy 1 qr qv = - (1 / 2).
Proof. unfold energy. rewrite qr_norm. unfold dot, qv; cbn [c0 c1 c2]. lra. Qed.
Lemma q_alpha : alpha_of (vnorm qr) (vnorm qv) 1 = 1.
Proof. rewrite alpha_of_R, qr_norm, qv_norm. field. Qed.

Lemma q_fails : exists t, 0 < t /\
  exists chi prev, uni_run t 1 1 (- (24 / 25)) 1 default_tol uni_max_iter = Some (uni_max_iter, chi, prev) /\
    solve_kepler_uni t 1 1 (- (24 / 25)) 1 default_tol uni_max_iter = chi /\
    2 < Rabs (kepler_equ_uni chi 1 1 (- (24 / 25)) t 1).
Proof.
  pose proof (uni_elliptic_fails qr qv 1 ltac:(lra) q_cross ltac:(rewrite q_energy; lra)) as H. cbv zeta in H.
  rewrite q_axis, q_ecc, q_sigma, q_alpha, qr_norm, sqrt_1 in H.
  destruct (H ltac:(rewrite Rabs_left by lra; pose proof PI_tight; lra) default_tol uni_max_iter
    ltac:(rewrite default_tol_R; lra) ltac:(unfold uni_max_iter; lia)) as [t [P [chi [prev [A [B C]]]]]].
  exists t. split; [exact P|]. exists chi, prev. split; [exact A|]. split; [exact B|]. lra.
Qed.
