(** * Mean anomalies for which [solve_kepler_elps] never converges (C26, refutation)

    For [e] close to 1 Newton's iteration overshoots from the guess, and from
    then on there are mean anomalies for which the iterates jump for ever
    between [PI, 2 PI] and [-2 PI, -PI].  The mean anomaly is found by
    repeated use of the intermediate value theorem. *)
From Coq Require Import Reals ZArith Lia Lra List Bool Ranalysis.
From Coquelicot Require Import Coquelicot.
From Verif Require Import Num NumR Spec OrbIntegrals KepEqu RLib Ana Atan2 LoopFacts KepRows SolveFacts SolveElps.
Local Open Scope R_scope.

(** Clamp to an interval, continuous by construction. *)
Definition clamp (p q x : R) : R := (Rabs (x - p) - Rabs (x - q) + p + q) / 2.
Lemma clamp_lo p q x : p <= q -> x <= p -> clamp p q x = p.
Proof. intros. unfold clamp. rewrite !Rabs_left1 by lra. lra. Qed.
Lemma clamp_hi p q x : p <= q -> q <= x -> clamp p q x = q.
Proof. intros. unfold clamp. rewrite !Rabs_pos_eq by lra. lra. Qed.
Lemma clamp_in p q x : p <= x <= q -> clamp p q x = x.
Proof. intros. unfold clamp. rewrite (Rabs_pos_eq (x - p)), (Rabs_left1 (x - q)) by lra. lra. Qed.

Lemma cont_const (c : R) : continuity (fun _ : R => c).
Proof. apply continuity_const. now intros x y. Qed.
Lemma cont_id : continuity (fun x : R => x).
Proof. apply derivable_continuous, derivable_id. Qed.
Lemma cont_plus f g : continuity f -> continuity g -> continuity (fun x => f x + g x).
Proof. apply continuity_plus. Qed.
Lemma cont_minus f g : continuity f -> continuity g -> continuity (fun x => f x - g x).
Proof. apply continuity_minus. Qed.
Lemma cont_mult f g : continuity f -> continuity g -> continuity (fun x => f x * g x).
Proof. apply continuity_mult. Qed.
Lemma cont_div f g : continuity f -> continuity g -> (forall x, g x <> 0) -> continuity (fun x => f x / g x).
Proof. apply continuity_div. Qed.
Lemma cont_comp f g : continuity f -> continuity g -> continuity (fun x => g (f x)).
Proof. intros Hf Hg. exact (continuity_comp f g Hf Hg). Qed.

Lemma cont_clamp p q f : continuity f -> continuity (fun x => clamp p q (f x)).
Proof.
  intros Hf. unfold clamp. apply cont_div; [|apply cont_const|intros; lra].
  apply cont_plus; [|apply cont_const]. apply cont_plus; [|apply cont_const].
  apply cont_minus; apply (cont_comp _ Rabs); try apply Rcontinuity_abs;
    apply cont_minus; auto; apply cont_const.
Qed.
Lemma cont_newton e f : 0 <= e < 1 -> continuity f -> continuity (fun M => elps_newton M e (f M)).
Proof.
  intros He Hf.
  change (continuity (fun M => f M - (f M - e * sin (f M) - M) / (1 - e * cos (f M)))).
  assert (Hs : continuity (fun M => e * sin (f M)))
    by (apply cont_mult; [apply cont_const|apply (cont_comp f sin); auto; apply continuity_sin]).
  assert (Hc : continuity (fun M => e * cos (f M)))
    by (apply cont_mult; [apply cont_const|apply (cont_comp f cos); auto; apply continuity_cos]).
  apply cont_minus; auto. apply cont_div.
  - apply cont_minus; [apply cont_minus; auto|apply cont_id].
  - apply cont_minus; [apply cont_const|auto].
  - intros x. pose proof (dE_pos (f x) e He) as D. rewrite dE_R in D. lra.
Qed.
Lemma cont_guess e : continuity (fun M => elps_guess M e).
Proof.
  assert (H : continuity (fun M => M + e * sin M + e ^ 2 * sin (2 * M) / 2)).
  { apply cont_plus; [apply cont_plus; [apply cont_id|]|].
    - apply cont_mult; [apply cont_const|apply continuity_sin].
    - apply cont_div; [|apply cont_const|intros; lra]. apply cont_mult; [apply cont_const|].
      apply (cont_comp (fun M => 2 * M) sin); [|apply continuity_sin].
      apply cont_mult; [apply cont_const|apply cont_id]. }
  intros x. apply (continuity_pt_ext (fun M => M + e * sin M + e ^ 2 * sin (2 * M) / 2)); [|apply H].
  intros y. now rewrite elps_guess_R.
Qed.

Section Horseshoe.
  Variable e : R.
  Hypothesis He : 3 / 4 <= e < 1.
  Let He1 : 0 <= e < 1.
  Proof. lra. Qed.

  Lemma jump_far s M : s = 1 \/ s = -1 -> 0 <= M <= 1 -> 2 * PI < - s * elps_newton M e (s * (2 * PI)).
  Proof using He.
    intros Hs HM. pose proof PI_3 as P.
    assert (S2 : sin (s * (2 * PI)) = 0).
    { destruct Hs as [-> | ->]; [rewrite Rmult_1_l; apply sin_2PI|].
      replace (-1 * (2 * PI)) with (- (2 * PI)) by ring. now rewrite sin_neg, sin_2PI, Ropp_0. }
    assert (C2 : cos (s * (2 * PI)) = 1).
    { destruct Hs as [-> | ->]; [rewrite Rmult_1_l; apply cos_2PI|].
      replace (-1 * (2 * PI)) with (- (2 * PI)) by ring. now rewrite cos_neg, cos_2PI. }
    rewrite elps_newton_R, kepler_equ_elps_R, dE_R, S2, C2.
    assert (SS : s * s = 1) by (destruct Hs as [-> | ->]; ring).
    replace (- s * (s * (2 * PI) - (s * (2 * PI) - e * 0 - M) / (1 - e * 1)))
      with (- (s * s) * (2 * PI) + ((s * s) * (2 * PI) - s * M) / (1 - e)) by (field; lra).
    rewrite SS.
    assert (A : 4 * (2 * PI - 1) <= (1 * (2 * PI) - s * M) / (1 - e)).
    { apply (Rmult_le_reg_r (1 - e)); [lra|].
      replace ((1 * (2 * PI) - s * M) / (1 - e) * (1 - e)) with (2 * PI - s * M) by (field; lra).
      assert (s * M <= 1) by (destruct Hs as [-> | ->]; lra). nra. }
    lra.
  Qed.
  Lemma jump_near s M : s = 1 \/ s = -1 -> 0 <= M <= 1 -> - s * elps_newton M e (s * PI) < PI.
  Proof using He.
    intros Hs HM. pose proof PI_3 as P.
    assert (S2 : sin (s * PI) = 0).
    { destruct Hs as [-> | ->]; [rewrite Rmult_1_l; apply sin_PI|].
      replace (-1 * PI) with (- PI) by ring. now rewrite sin_neg, sin_PI, Ropp_0. }
    assert (C2 : cos (s * PI) = -1).
    { destruct Hs as [-> | ->]; [rewrite Rmult_1_l; apply cos_PI|].
      replace (-1 * PI) with (- PI) by ring. now rewrite cos_neg, cos_PI. }
    rewrite elps_newton_R, kepler_equ_elps_R, dE_R, S2, C2.
    assert (SS : s * s = 1) by (destruct Hs as [-> | ->]; ring).
    replace (- s * (s * PI - (s * PI - e * 0 - M) / (1 - e * -1)))
      with (- (s * s) * PI + ((s * s) * PI - s * M) / (1 + e)) by (field; lra).
    rewrite SS.
    assert (A : (1 * PI - s * M) / (1 + e) <= PI + 1).
    { apply (Rmult_le_reg_r (1 + e)); [lra|].
      replace ((1 * PI - s * M) / (1 + e) * (1 + e)) with (PI - s * M) by (field; lra).
      assert (- 1 <= s * M) by (destruct Hs as [-> | ->]; lra). nra. }
    lra.
  Qed.

  (** [s phi] crosses from below [PI] to above [2 PI]: some mean anomaly keeps
      jumping for [n] more steps. *)
  Lemma horseshoe n : forall (phi : R -> R) (s a b : R), s = 1 \/ s = -1 -> continuity phi ->
    0 <= a <= 1 -> 0 <= b <= 1 -> s * phi a <= PI -> 2 * PI <= s * phi b ->
    exists M, Rmin a b <= M <= Rmax a b /\
      forall k, (k <= n)%nat -> PI <= s * (-1) ^ k * iterate (elps_newton M e) k (phi M) <= 2 * PI.
  Proof using He.
    pose proof PI_RGT_0 as P.
    induction n as [|n IH]; intros phi s a b Hs Hphi Ha Hb La Lb.
    - destruct (IVT_gen (fun x => s * phi x) a b (3 / 2 * PI)) as [M [HM EM]].
      + apply cont_mult; auto. apply cont_const.
      + split; [apply Rle_trans with (s * phi a); [apply Rmin_l|lra]|].
        apply Rle_trans with (s * phi b); [lra|apply Rmax_r].
      + exists M. split; [exact HM|].
        intros k Hk. replace k with 0%nat by lia. cbn [iterate]. simpl pow. rewrite Rmult_1_r, EM. lra.
    - set (psi := fun M => clamp PI (2 * PI) (s * phi M)).
      assert (Hpsi : continuity psi).
      { apply cont_clamp. apply cont_mult; auto. apply cont_const. }
      set (phi' := fun M => elps_newton M e (s * psi M)).
      assert (Hphi' : continuity phi').
      { apply cont_newton; auto. apply cont_mult; auto. apply cont_const. }
      assert (SS : s * s = 1) by (destruct Hs as [-> | ->]; ring).
      destruct (IH phi' (- s) a b) as [M [HM Hk]]; auto.
      + destruct Hs as [-> | ->]; [right|left]; ring.
      + unfold phi', psi. rewrite clamp_lo by lra. pose proof (jump_near s a Hs Ha). lra.
      + unfold phi', psi. rewrite clamp_hi by lra. pose proof (jump_far s b Hs Hb). lra.
      + exists M. split; auto.
        assert (HM1 : 0 <= M <= 1).
        { destruct HM as [M1 M2]. split; [eapply Rle_trans; [|exact M1]; apply Rmin_glb|
            eapply Rle_trans; [exact M2|]; apply Rmax_lub]; lra. }
        pose proof (Hk 0%nat ltac:(lia)) as K0. cbn [iterate] in K0. simpl pow in K0. rewrite Rmult_1_r in K0.
        assert (B : PI <= s * phi M <= 2 * PI).
        { split; apply Rnot_lt_le; intros L; unfold phi', psi in K0.
          - rewrite clamp_lo in K0 by lra. pose proof (jump_near s M Hs HM1). lra.
          - rewrite clamp_hi in K0 by lra. pose proof (jump_far s M Hs HM1). lra. }
        assert (Q : phi' M = elps_newton M e (phi M)).
        { unfold phi', psi. rewrite clamp_in by lra. f_equal. rewrite <- Rmult_assoc, SS. ring. }
        intros [|k] Lk.
        * cbn [iterate]. simpl pow. rewrite Rmult_1_r. exact B.
        * specialize (Hk k ltac:(lia)). rewrite Q in Hk.
          rewrite iterate_S_in in Hk. cbn [iterate]. simpl pow.
          replace (s * (-1 * (-1) ^ k)) with (- s * (-1) ^ k) by ring. exact Hk.
  Qed.

  (** The same when [phi] only reaches [5/3 PI], for [e >= 0.998] and small mean
      anomalies: the next step goes beyond [-2 PI]. *)
  Lemma jump_entry M : 499 / 500 <= e -> 0 <= M <= 1 / 20 -> 2 * PI < - elps_newton M e (5 / 3 * PI).
  Proof using He.
    intros He2 HM. pose proof PI_tight as P.
    assert (S2 : sin (5 / 3 * PI) = - (sqrt 3 / 2)).
    { replace (5 / 3 * PI) with (- (PI / 3) + 2 * PI) by field. rewrite sin_plus, sin_2PI, cos_2PI, sin_neg, sin_PI3. ring. }
    assert (C2 : cos (5 / 3 * PI) = 1 / 2).
    { replace (5 / 3 * PI) with (- (PI / 3) + 2 * PI) by field. rewrite cos_plus, sin_2PI, cos_2PI, cos_neg, cos_PI3. ring. }
    rewrite elps_newton_R, kepler_equ_elps_R, dE_R, S2, C2.
    assert (Q : 17 / 10 <= sqrt 3).
    { apply Rsqr_incr_0; [|lra|apply sqrt_pos]. rewrite Rsqr_sqrt by lra. unfold Rsqr. lra. }
    assert (A : 23 / 6 * PI <= (5 / 3 * PI - e * - (sqrt 3 / 2) - M) / (1 - e * (1 / 2))).
    { apply (Rmult_le_reg_r (1 - e * (1 / 2))); [lra|].
      replace ((5 / 3 * PI - e * - (sqrt 3 / 2) - M) / (1 - e * (1 / 2)) * (1 - e * (1 / 2)))
        with (5 / 3 * PI + e * (sqrt 3 / 2) - M) by (field; lra).
      assert (499 / 500 * (17 / 20) <= e * (sqrt 3 / 2)) by (apply Rmult_le_compat; lra).
      nra. }
    lra.
  Qed.
  Lemma horseshoe_entry n (phi : R -> R) (a b : R) : 499 / 500 <= e -> continuity phi ->
    0 <= a <= 1 / 20 -> 0 <= b <= 1 / 20 -> phi a <= PI -> 5 / 3 * PI <= phi b ->
    exists M, 0 <= M <= 1 / 20 /\
      forall k, (k <= n)%nat -> PI <= (-1) ^ k * iterate (elps_newton M e) k (phi M) <= 2 * PI.
  Proof using He.
    intros He2 Hphi Ha Hb La Lb. pose proof PI_RGT_0 as P.
    set (psi := fun M => clamp PI (5 / 3 * PI) (phi M)).
    assert (Hpsi : continuity psi) by now apply cont_clamp.
    set (phi' := fun M => elps_newton M e (psi M)).
    assert (Hphi' : continuity phi') by (apply cont_newton; auto).
    destruct (horseshoe n phi' (-1) a b) as [M [HM Hk]]; auto; [lra|lra| | |].
    - unfold phi', psi. rewrite clamp_lo by lra.
      pose proof (jump_near 1 a ltac:(auto) ltac:(lra)) as J. rewrite Rmult_1_l in J. lra.
    - unfold phi', psi. rewrite clamp_hi by lra. pose proof (jump_entry b He2 Hb). lra.
    - exists M.
      assert (HM1 : 0 <= M <= 1 / 20).
      { destruct HM as [M1 M2]. split; [eapply Rle_trans; [|exact M1]; apply Rmin_glb|
          eapply Rle_trans; [exact M2|]; apply Rmax_lub]; lra. }
      split; [exact HM1|].
      pose proof (Hk 0%nat ltac:(lia)) as K0. cbn [iterate] in K0. simpl pow in K0. rewrite Rmult_1_r in K0.
      assert (B : PI <= phi M <= 5 / 3 * PI).
      { split; apply Rnot_lt_le; intros L; unfold phi', psi in K0.
        - rewrite clamp_lo in K0 by lra.
          pose proof (jump_near 1 M ltac:(auto) ltac:(lra)) as J. rewrite Rmult_1_l in J. lra.
        - rewrite clamp_hi in K0 by lra. pose proof (jump_entry M He2 HM1). lra. }
      assert (Q : phi' M = elps_newton M e (phi M)).
      { unfold phi', psi. now rewrite clamp_in by lra. }
      intros [|k] Lk.
      + cbn [iterate]. simpl pow. lra.
      + specialize (Hk k ltac:(lia)). rewrite Q in Hk.
        rewrite iterate_S_in in Hk. cbn [iterate]. simpl pow. exact Hk.
  Qed.

  (** The residual at such an iterate is large. *)
  Lemma window_residual M k x : 0 <= M <= 1 -> PI <= (-1) ^ k * x <= 2 * PI ->
    2 < Rabs (kepler_equ_elps x e M).
  Proof using He.
    intros HM Hx. pose proof PI_3 as P3. rewrite kepler_equ_elps_R.
    assert (A : exists s, (s = 1 \/ s = -1) /\ (-1) ^ k = s).
    { exists ((-1) ^ k). split; auto. clear. induction k as [|k [IH|IH]]; [left; reflexivity| |]; simpl; rewrite IH; [right|left]; ring. }
    destruct A as [s [Hs Es]]. rewrite Es in Hx.
    assert (Sg : forall z, PI <= z <= 2 * PI -> sin z <= 0) by (intros; apply sin_le_0; lra).
    destruct Hs as [-> | ->].
    - rewrite Rmult_1_l in Hx. specialize (Sg x Hx). 
      assert (0 <= - (e * sin x)) by nra. rewrite Rabs_pos_eq; lra.
    - specialize (Sg (- x) ltac:(lra)). rewrite sin_neg in Sg.
      assert (0 <= e * sin x) by nra. rewrite Rabs_left; lra.
  Qed.

  Lemma first_step_zero : elps_newton 0 e (elps_guess 0 e) = 0.
  Proof using He.
    assert (G : elps_guess 0 e = 0).
    { rewrite elps_guess_R, Rmult_0_r, sin_0. field. }
    rewrite G, elps_newton_R, kepler_equ_elps_R, dE_R, sin_0, cos_0. field. lra.
  Qed.
  Lemma first_step_small : 499 / 500 <= e ->
    5 / 3 * PI <= elps_newton (213 / 10000) e (elps_guess (213 / 10000) e).
  Proof using He.
    intros He2. set (m := 213 / 10000). set (w := elps_guess m e). pose proof PI_tight as P.
    assert (m3 : m ^ 3 <= 1 / 100000) by (unfold m; lra).
    assert (S1 : m - 1 / 600000 <= sin m <= m).
    { split; [pose proof (sin_ge_cube m ltac:(unfold m; lra)); lra|apply sin_le_id; unfold m; lra]. }
    assert (S2 : 2 * m - 1 / 75000 <= sin (2 * m) <= 2 * m).
    { split; [pose proof (sin_ge_cube (2 * m) ltac:(unfold m; lra)); nra|apply sin_le_id; unfold m; lra]. }
    assert (W : 636 / 10000 <= w <= 639 / 10000).
    { unfold w. rewrite elps_guess_R. unfold m in *.
      assert (996 / 1000 <= e ^ 2 <= 1) by nra.
      assert (e * sin (213 / 10000) <= 1 * (213 / 10000)) by (apply Rmult_le_compat; lra).
      assert (e ^ 2 * sin (2 * (213 / 10000)) <= 1 * (2 * (213 / 10000))) by (apply Rmult_le_compat; lra).
      assert (998 / 1000 * (2129 / 100000) <= e * sin (213 / 10000)) by (apply Rmult_le_compat; lra).
      assert (996 / 1000 * (4257 / 100000) <= e ^ 2 * sin (2 * (213 / 10000))) by (apply Rmult_le_compat; lra).
      lra. }
    pose proof (cos_ge_quad w ltac:(lra)) as Cw. pose proof (sin_ge_cube w ltac:(lra)) as Sw.
    assert (W2 : 404 / 100000 <= w ^ 2 <= 409 / 100000) by nra.
    assert (Cu : cos w <= 1 - w ^ 2 / 2 + w ^ 4 / 24) by (apply cos_le_quart; lra).
    assert (D : 0 < dE w e <= 4045 / 1000000).
    { split; [apply dE_pos; lra|]. rewrite dE_R. nra. }
    rewrite elps_newton_R. apply (Rmult_le_reg_r (dE w e)); [lra|].
    replace ((w - kepler_equ_elps w e m / dE w e) * dE w e) with (w * dE w e - kepler_equ_elps w e m) by (field; lra).
    rewrite kepler_equ_elps_R, dE_R.
    replace (w * (1 - e * cos w) - (w - e * sin w - m)) with (m + e * (sin w - w * cos w)) by ring.
    assert (T : 8 / 100000 <= sin w - w * cos w).
    { assert (w * cos w <= w * (1 - w ^ 2 / 2 + w ^ 4 / 24)) by (apply Rmult_le_compat_l; lra).
      assert (25 / 100000 <= w ^ 3) by nra. assert (w ^ 5 <= 1 / 100000) by nra.
      replace (w * (1 - w ^ 2 / 2 + w ^ 4 / 24)) with (w - w ^ 3 / 2 + w ^ 5 / 24) in * by field. lra. }
    assert (79 / 1000000 <= e * (sin w - w * cos w)) by nra.
    rewrite dE_R in D.
    assert (5 / 3 * PI * (1 - e * cos w) <= 5 / 3 * PI * (4045 / 1000000)) by (apply Rmult_le_compat_l; lra).
    unfold m. lra.
  Qed.

  Lemma never_converges n : 499 / 500 <= e -> exists M, 0 <= M <= 1 / 20 /\
    forall k, (k <= n)%nat ->
      PI <= (-1) ^ k * iterate (elps_newton M e) (S k) (elps_guess M e) <= 2 * PI.
  Proof using He.
    intros He2. pose proof PI_3 as P3.
    destruct (horseshoe_entry n (fun M => elps_newton M e (elps_guess M e)) 0 (213 / 10000)) as [M [HM H]]; auto; try lra.
    - apply cont_newton; auto. apply cont_guess.
    - rewrite first_step_zero. lra.
    - now apply first_step_small.
    - exists M. split; auto. intros k Hk. specialize (H k Hk).
      rewrite iterate_S_in in H. exact H.
  Qed.

  Lemma elps_bad_at (tol : R) (mi : Z) : 499 / 500 <= e -> 0 < tol <= 1 -> (1 <= mi)%Z ->
    exists M, 0 <= M <= 1 / 20 /\
      (exists prev, elps_run M e tol mi = Some (mi, solve_kepler_elps M e tol mi, prev)) /\
      2 < Rabs (kepler_equ_elps (solve_kepler_elps M e tol mi) e M).
  Proof using He.
    intros He2 Ht Hm. destruct (never_converges (Z.to_nat mi) He2) as [M [HM H]]. exists M. split; auto.
    destruct (elps_run_char M e tol mi) as [k [Hk [Hr [_ Hx]]]]. cbv zeta in *.
    assert (S : solve_kepler_elps M e tol mi = iterate (elps_newton M e) k (elps_guess M e))
      by (unfold solve_kepler_elps; now rewrite Hr).
    assert (B : k <> 0%nat -> 2 < Rabs (kepler_equ_elps (solve_kepler_elps M e tol mi) e M)).
    { intros Hk0. rewrite S. destruct k as [|k]; [congruence|]. specialize (H k ltac:(lia)).
      apply (window_residual M k); [lra|exact H]. }
    destruct Hx as [Hx|Hx].
    - assert (Hk0 : k <> 0%nat) by lia. split; [|now apply B].
      rewrite S. subst k. rewrite Z2Nat.id in Hr by lia. eexists. exact Hr.
    - exfalso. apply exceeds_R_false in Hx.
      destruct (elps_converged M e tol mi _ _ _ He1 (proj1 Ht) Hr Hx) as [C _].
      destruct k as [|k].
      + change (Rabs (elps_guess M e - (elps_guess M e + 2 * tol)) <= tol) in Hx.
        replace (elps_guess M e - (elps_guess M e + 2 * tol)) with (- (2 * tol)) in Hx by ring.
        rewrite Rabs_Ropp, Rabs_pos_eq in Hx by lra. lra.
      + specialize (B ltac:(lia)). rewrite S in B.
        assert (tol ^ 2 <= 1) by nra. nra.
  Qed.
End Horseshoe.

Lemma elps_bad_residual (e : R) : 499 / 500 <= e < 1 ->
  forall (tol : R) (mi : Z), 0 < tol <= 1 -> (1 <= mi)%Z ->
  exists M, 0 <= M <= 1 / 20 /\
    (exists prev, elps_run M e tol mi = Some (mi, solve_kepler_elps M e tol mi, prev)) /\
    2 < Rabs (kepler_equ_elps (solve_kepler_elps M e tol mi) e M).
Proof. intros He tol mi. apply elps_bad_at; lra. Qed.
