(** * SolveUni3: the universal solver on parabolas (C28)

    With [x = chi + sigma0] the universal Kepler equation of a parabola is
    [x^3/6 + p x/2 = w], where [w] is [sqrt mu] times the time since periapsis. *)
From Coq Require Import Reals Lra Lia Psatz ZArith List.
From Coquelicot Require Import Coquelicot.
From Verif Require Import Num NumR Spec SpecAnom RLib Ana Uniformulas Lagrange OrbIntegrals KepEqu StateTrans
  PropKepler SeriesU UFacts Atan2 OrbFacts KepState LoopFacts KepMotion TwoBody KepRows SolveFacts
  NewtonConvex SolveUni.
Import ListNotations.
Local Open Scope R_scope.

Definition barker (p x : R) : R := x ^ 3 / 6 + p * x / 2.
Definition bnewton (p w x : R) : R := x - (barker p x - w) / ((x ^ 2 + p) / 2).

Section Cubic.
  Variable p : R.
  Hypothesis Hp : 0 < p.
  Let f0 := barker p.

  Lemma bnewton_eq w x : bnewton p w x = 2 / 3 * (x ^ 3 + 3 * w) / (x ^ 2 + p).
  Proof using Hp. unfold bnewton, barker. field. nra. Qed.
  Lemma bnewton_neg w x : bnewton p (- w) (- x) = - bnewton p w x.
  Proof using Hp. rewrite !bnewton_eq. field. nra. Qed.
  Lemma barker_neg x : barker p (- x) = - barker p x.
  Proof. unfold barker. field. Qed.
  Lemma barker_le x y : x <= y -> f0 x <= f0 y.
  Proof using Hp.
    intros H. unfold f0, barker.
    assert (0 <= (y - x) * (y ^ 2 + x * y + x ^ 2)) by (apply Rmult_le_pos; nra). nra.
  Qed.
  Lemma barker_pos x : 0 <= x -> 0 <= f0 x.
  Proof using Hp. intros H. pose proof (barker_le 0 x H) as L. unfold f0, barker in *. lra. Qed.
  Lemma barker_der w (x : R) : is_derive (fun u : R => f0 u - w) x ((x ^ 2 + p) / 2).
  Proof. unfold f0, barker. auto_derive; auto. field. Qed.
  Lemma barker_der2 (x : R) : is_derive (fun u : R => (u ^ 2 + p) / 2) x x.
  Proof. auto_derive; auto. field. Qed.

  Lemma b_drop w h x : 0 <= w -> 0 <= h <= x -> f0 h = w ->
    h <= bnewton p w x /\ 0 <= f0 (bnewton p w x) - w <= 25 / 64 * (f0 x - w).
  Proof using Hp.
    intros Hw Hx Hr.
    assert (P3 : forall t, h <= t <= x -> (f0 t - w) * t <= ((t ^ 2 + p) / 2) ^ 2).
    { intros t Ht. unfold f0, barker. assert (0 <= w * t) by (apply Rmult_le_pos; lra).
      assert (0 <= t ^ 4) by (apply pow_le; lra). nra. }
    pose proof (drop_between (fun u => f0 u - w) (fun u => (u ^ 2 + p) / 2) (fun u => u) h x (barker_der w) barker_der2
      ltac:(lra) ltac:(cbv beta; lra) ltac:(intros; nra) ltac:(intros; lra)) as B.
    pose proof (drop_value (fun u => f0 u - w) (fun u => (u ^ 2 + p) / 2) (fun u => u) h x (barker_der w) barker_der2
      ltac:(lra) ltac:(cbv beta; lra) ltac:(intros; nra) ltac:(intros; lra) P3) as [V1 V2].
    cbv beta in B, V1, V2. change (x - (f0 x - w) / ((x ^ 2 + p) / 2)) with (bnewton p w x) in B, V1, V2.
    pose proof exp_1_low. split; [lra|]. split; [exact V1|]. nra.
  Qed.

  Section Fixed.
    Variable w : R.
    Hypothesis Hw : 0 <= w.

    Lemma b_root : exists h, 0 <= h <= 2 * w / p /\ f0 h = w.
    Proof using Hp Hw.
      assert (Q : 0 <= 2 * w / p) by (apply Rdiv_le_0_compat; lra).
      assert (E0 : f0 0 = 0) by (unfold f0, barker; field).
      assert (E1 : w <= f0 (2 * w / p)).
      { unfold f0, barker. replace (p * (2 * w / p) / 2) with w by (field; lra).
        assert (0 <= (2 * w / p) ^ 3) by (now apply pow_le). lra. }
      destruct (IVT_gen f0 0 (2 * w / p) w) as [h [Hh E]].
      - intros x. apply derivable_continuous_pt. exists ((x ^ 2 + p) / 2). apply is_derive_Reals.
        unfold f0, barker. auto_derive; auto. field.
      - rewrite E0, Rmin_left, Rmax_right by lra. lra.
      - exists h. rewrite Rmin_left, Rmax_right in Hh by lra. split; [lra|exact E].
    Qed.

    (** from the right of the root *)
    Lemma b_right h x : 0 <= h <= x -> f0 h = w -> forall m,
      h <= iterate (bnewton p w) m x /\ 0 <= f0 (iterate (bnewton p w) m x) - w <= (25 / 64) ^ m * (f0 x - w).
    Proof using Hp Hw.
      intros Hx Hr. induction m as [|m [IH1 IH2]].
      - cbn [iterate]. simpl pow. pose proof (barker_le h x ltac:(lra)). split; lra.
      - cbn [iterate]. destruct (b_drop w h (iterate (bnewton p w) m x) Hw ltac:(lra) Hr) as [A [B C]].
        split; [exact A|]. split; [exact B|]. cbn [pow]. lra.
    Qed.

    (** one step from the left half of the convex part overshoots *)
    Lemma b_over h x : 0 <= h -> f0 h = w -> 0 <= x <= 2 * w / p ->
      h <= bnewton p w x <= 10 / 3 * (w / p).
    Proof using Hp Hw.
      intros Hh Hr Hx.
      assert (D : 0 < x ^ 2 + p) by nra.
      assert (U : bnewton p w x <= 10 / 3 * (w / p)).
      { rewrite bnewton_eq.
        replace (2 / 3 * (x ^ 3 + 3 * w) / (x ^ 2 + p))
          with (2 / 3 * x + (2 * w - 2 / 3 * p * x) / (x ^ 2 + p)) by (field; lra).
        assert ((2 * w - 2 / 3 * p * x) / (x ^ 2 + p) <= 2 * (w / p)).
        { apply (Rmult_le_reg_r (x ^ 2 + p)); [exact D|].
          replace ((2 * w - 2 / 3 * p * x) / (x ^ 2 + p) * (x ^ 2 + p)) with (2 * w - 2 / 3 * p * x) by (field; lra).
          replace (2 * (w / p) * (x ^ 2 + p)) with (2 * w + 2 * (w / p) * x ^ 2) by (field; lra).
          assert (0 <= w / p) by (apply Rdiv_le_0_compat; lra). nra. }
        replace (2 * w / p) with (2 * (w / p)) in Hx by (field; lra). lra. }
      split; [|exact U].
      assert (Pn : 0 <= bnewton p w x).
      { rewrite bnewton_eq. apply Rdiv_le_0_compat; [|exact D].
        assert (0 <= x ^ 3) by (apply pow_le; lra). lra. }
      assert (F : w <= f0 (bnewton p w x)).
      { set (y := bnewton p w x) in *.
        assert (T : f0 x + (x ^ 2 + p) / 2 * (y - x) = w).
        { unfold y, bnewton. fold f0. field. lra. }
        assert (E : f0 y - f0 x - (x ^ 2 + p) / 2 * (y - x) = (y - x) ^ 2 * (y + 2 * x) / 6).
        { unfold f0, barker. field. }
        assert (0 <= (y - x) ^ 2 * (y + 2 * x)) by (apply Rmult_le_pos; [apply pow2_ge_0|lra]). lra. }
      destruct (Rle_lt_dec h (bnewton p w x)) as [L|L]; [exact L|]. exfalso.
      assert (f0 (bnewton p w x) < f0 h); [|lra].
      set (y := bnewton p w x) in *. unfold f0, barker.
      assert (0 < (h - y) * ((h ^ 2 + h * y + y ^ 2) / 6 + p / 2)) by (apply Rmult_lt_0_compat; nra). nra.
    Qed.

    (** [2 + 7 w^2 / p^3] bounds the growth in that step *)
    Let G := 5 / 3 + 7 * (w ^ 2 / p ^ 3).
    Lemma b_entry x : 0 <= x <= 2 * w / p -> forall m,
      0 <= f0 (iterate (bnewton p w) (S m) x) - w <= (25 / 64) ^ m * (w * G).
    Proof using Hp Hw.
      intros Hx m. destruct b_root as [h [Hh Hr]].
      destruct (b_over h x ltac:(lra) Hr Hx) as [A B].
      rewrite iterate_first. destruct (b_right h (bnewton p w x) ltac:(lra) Hr m) as [_ [C D]].
      split; [exact C|]. eapply Rle_trans; [exact D|].
      apply Rmult_le_compat_l; [apply pow_le; lra|].
      pose proof (barker_le _ _ B) as L.
      assert (E : f0 (10 / 3 * (w / p)) <= w * G).
      { unfold f0, barker, G.
        replace ((10 / 3 * (w / p)) ^ 3 / 6 + p * (10 / 3 * (w / p)) / 2)
          with (w * (5 / 3 + 1000 / 162 * (w ^ 2 / p ^ 3))) by (field; lra).
        assert (0 <= w ^ 2 / p ^ 3) by (apply Rdiv_le_0_compat; [apply pow2_ge_0|now apply pow_lt]).
        apply Rmult_le_compat_l; lra. }
      lra.
    Qed.

    (** while the iterates are negative *)
    Lemma b_neg x : x < 0 -> bnewton p w x <= 2 * w / p /\
      (bnewton p w x < 0 -> f0 (- bnewton p w x) <= 25 / 64 * f0 (- x) /\ 3 * w < (- x) ^ 3).
    Proof using Hp Hw.
      intros Hx. assert (D : 0 < x ^ 2 + p) by nra.
      set (y := - x). assert (Hy : 0 < y) by (unfold y; lra).
      assert (E : bnewton p w x = - (2 / 3 * y ^ 3 / (y ^ 2 + p)) + 2 * w / (y ^ 2 + p)).
      { rewrite bnewton_eq. unfold y. field. nra. }
      assert (E0 : bnewton p 0 y = 2 / 3 * y ^ 3 / (y ^ 2 + p)).
      { rewrite bnewton_eq. field. nra. }
      assert (Dy : 0 < y ^ 2 + p) by nra.
      assert (Y3 : 0 < y ^ 3) by (now apply pow_lt).
      assert (Q0 : 0 <= 2 / 3 * y ^ 3 / (y ^ 2 + p)) by (apply Rdiv_le_0_compat; lra).
      assert (Q1 : 0 <= 2 * w / (y ^ 2 + p)) by (apply Rdiv_le_0_compat; lra).
      assert (Q2 : 2 * w / (y ^ 2 + p) <= 2 * w / p).
      { apply Rmult_le_compat_l; [lra|]. apply Rinv_le_contravar; nra. }
      split; [lra|]. intros N. split.
      - destruct (b_drop 0 0 y ltac:(lra) ltac:(lra) ltac:(unfold f0, barker; field)) as [A [B C]].
        eapply Rle_trans; [apply (barker_le (- bnewton p w x) (bnewton p 0 y)); rewrite E, E0; lra|]. lra.
      - rewrite E in N. assert (N' : (- (2 / 3 * y ^ 3 / (y ^ 2 + p)) + 2 * w / (y ^ 2 + p)) * (y ^ 2 + p) < 0) by nra.
        replace ((- (2 / 3 * y ^ 3 / (y ^ 2 + p)) + 2 * w / (y ^ 2 + p)) * (y ^ 2 + p))
          with (- (2 / 3 * y ^ 3) + 2 * w) in N' by (field; lra). lra.
    Qed.

    Variable x0 : R.
    Let xs k := iterate (bnewton p w) k x0.
    Let A := f0 (Rabs x0).

    Lemma b_phase j :
      (forall i, (i <= j)%nat -> xs i < 0 /\ f0 (- xs i) <= (25 / 64) ^ i * A /\
         ((S i <= j)%nat -> 3 * w < (- xs i) ^ 3)) \/
      exists i, (i <= j)%nat /\ 0 <= xs i /\ (i = 0%nat \/ xs i <= 2 * w / p) /\
         ((2 <= i)%nat -> w <= 2 * ((25 / 64) ^ (i - 2) * A)).
    Proof using Hp Hw.
      induction j as [|j IH].
      - destruct (Rle_lt_dec 0 x0) as [P|P].
        + right. exists 0%nat. repeat split; auto; lia.
        + left. intros i Hi. assert (i = 0%nat) by lia. subst i. unfold xs. cbn [iterate pow].
          split; [exact P|]. split; [|lia]. unfold A. rewrite Rabs_left by exact P. lra.
      - destruct IH as [IH|[i [Hi [Pi [Qi Ri]]]]].
        2:{ right. exists i. repeat split; auto. }
        destruct (IH j ltac:(lia)) as [N [F _]]. destruct (b_neg (xs j) N) as [U V].
        change (bnewton p w (xs j)) with (xs (S j)) in U, V.
        destruct (Rle_lt_dec 0 (xs (S j))) as [P|P].
        + right. exists (S j). split; [lia|]. split; [exact P|]. split; [now right|].
          intros J. destruct j as [|j]; [lia|]. replace (S (S j) - 2)%nat with j by lia.
          destruct (IH j ltac:(lia)) as [N' [F' C]]. specialize (C ltac:(lia)).
          assert ((- xs j) ^ 3 / 6 <= f0 (- xs j)) by (unfold f0, barker; nra). lra.
        + left. destruct (V P) as [V1 V2]. intros i Hi.
          destruct (Nat.eq_dec i (S j)) as [->|Ne].
          * split; [exact P|]. split; [|lia]. cbn [pow]. lra.
          * destruct (IH i ltac:(lia)) as [N' [F' C]]. split; [exact N'|]. split; [exact F'|]. intros _.
            destruct (Nat.eq_dec i j) as [->|Ne']; [exact V2|]. apply C. lia.
    Qed.

    Lemma pow_budget a b c : (0 <= c) -> c <= 10 ^ 13 -> (47 <= a + b)%nat ->
      (25 / 64) ^ a * ((25 / 64) ^ b * c) <= / 1000000.
    Proof using.
      intros C0 C H. rewrite <- Rmult_assoc, <- pow_add.
      assert (L : (25 / 64) ^ (a + b) <= (25 / 64) ^ 47).
      { replace (a + b)%nat with (47 + (a + b - 47))%nat by lia. rewrite pow_add.
        assert ((25 / 64) ^ (a + b - 47) <= 1).
        { rewrite <- (pow1 (a + b - 47)). apply pow_incr. lra. }
        pose proof (pow_le (25 / 64) 47 ltac:(lra)). nra. }
      assert (N : (25 / 64) ^ 47 * 10 ^ 13 <= / 1000000) by lra.
      pose proof (pow_le (25 / 64) 47 ltac:(lra)). pose proof (pow_le (25 / 64) (a + b) ltac:(lra)). nra.
    Qed.

    Lemma b_converges : (A + w) * (4 + 14 * (w ^ 2 / p ^ 3)) <= 10 ^ 13 ->
      exists k, (k <= 50)%nat /\ Rabs (f0 (xs k) - w) <= / 1000000.
    Proof using Hp Hw.
      intros HB. assert (PA : 0 <= A) by (apply barker_pos, Rabs_pos).
      assert (Pd : 0 <= w ^ 2 / p ^ 3) by (apply Rdiv_le_0_compat; [apply pow2_ge_0|now apply pow_lt]).
      assert (GA : 0 <= A * (2 * G) <= 10 ^ 13).
      { unfold G. split; [apply Rmult_le_pos; lra|]. eapply Rle_trans; [|exact HB].
        apply Rmult_le_compat; lra. }
      assert (GW : 0 <= w * G <= 10 ^ 13).
      { unfold G. split; [apply Rmult_le_pos; lra|]. eapply Rle_trans; [|exact HB].
        apply Rmult_le_compat; lra. }
      assert (A4 : 3 * A <= 10 ^ 13).
      { eapply Rle_trans; [|exact HB]. assert (A * 4 <= (A + w) * (4 + 14 * (w ^ 2 / p ^ 3))); [|lra].
        apply Rmult_le_compat; lra. }
      assert (Ent : forall i, (i <= 49)%nat -> 0 <= xs i <= 2 * w / p ->
        ((2 <= i)%nat -> w <= 2 * ((25 / 64) ^ (i - 2) * A)) -> Rabs (f0 (xs 50) - w) <= / 1000000).
      { intros i Hi Pi Ri.
        replace (xs 50) with (iterate (bnewton p w) (S (49 - i)) (xs i)).
        2:{ unfold xs. rewrite <- iterate_add. f_equal. lia. }
        destruct (b_entry (xs i) Pi (49 - i)) as [B C]. rewrite Rabs_pos_eq by exact B.
        eapply Rle_trans; [exact C|].
        destruct (le_lt_dec 2 i) as [L|L].
        - specialize (Ri L).
          apply Rle_trans with ((25 / 64) ^ (49 - i) * ((25 / 64) ^ (i - 2) * (A * (2 * G)))).
          + apply Rmult_le_compat_l; [apply pow_le; lra|].
            replace ((25 / 64) ^ (i - 2) * (A * (2 * G))) with (2 * ((25 / 64) ^ (i - 2) * A) * G) by ring.
            apply Rmult_le_compat_r; [unfold G; lra|exact Ri].
          + apply pow_budget; try lra. lia.
        - rewrite <- (Rmult_1_l (w * G)). rewrite <- (pow_O (25 / 64)). apply pow_budget; try lra. lia. }
      destruct (b_phase 49) as [N|[i [Hi [Pi [Qi Ri]]]]].
      - exists 48%nat. split; [lia|]. destruct (N 48%nat ltac:(lia)) as [X [F C]]. specialize (C ltac:(lia)).
        set (y := xs 48) in *. rewrite <- (Ropp_involutive y). unfold f0 at 1. rewrite barker_neg. fold f0.
        assert (Y3 : (- y) ^ 3 / 6 <= f0 (- y)) by (unfold f0, barker; nra).
        pose proof (barker_pos (- y) ltac:(lra)) as PY.
        rewrite Rabs_left1 by lra.
        apply Rle_trans with ((25 / 64) ^ 48 * (3 * A)); [lra|].
        rewrite <- (Rmult_1_l (3 * A)), <- (pow_O (25 / 64)). apply pow_budget; try lra. lia.
      - exists 50%nat. split; [lia|]. destruct Qi as [Qi|Qi]; [|now apply (Ent i)].
        subst i. destruct (Rle_lt_dec x0 (2 * w / p)) as [L|L].
        { apply (Ent 0%nat); [lia|split; [exact Pi|exact L]|lia]. }
        destruct b_root as [h [Hh Hr]]. destruct (b_right h x0 ltac:(lra) Hr 50) as [_ [B C]]. fold (xs 50) in B, C.
        rewrite Rabs_pos_eq by exact B. eapply Rle_trans; [exact C|].
        apply Rle_trans with ((25 / 64) ^ 50 * ((25 / 64) ^ 0 * (3 * A))).
        + apply Rmult_le_compat_l; [apply pow_le; lra|]. simpl pow. unfold A. rewrite Rabs_pos_eq by exact Pi.
          unfold A in PA. rewrite Rabs_pos_eq in PA by exact Pi. lra.
        + apply pow_budget; try lra. lia.
    Qed.
  End Fixed.
End Cubic.

Section Parabola.
  Variables (r0 v0 : vec) (mu : R).
  Hypothesis Hmu : 0 < mu.
  Hypothesis Hh : cross r0 v0 <> vzero.
  Hypothesis HE : energy mu r0 v0 = 0.
  Let Hr : r0 <> vzero := vec_nonzero_l _ _ Hh.
  Let al := alpha_of (vnorm r0) (vnorm v0) mu.
  Let sg := sigma_fn r0 v0 mu.
  Let p := semiparameter (vnorm (angular_momentum r0 v0)) mu.

  Lemma par_alpha : alphaS r0 v0 mu = 0.
  Proof using Hmu Hh HE. unfold alphaS. rewrite axis_energy, HE by assumption. field. lra. Qed.
  Lemma par_p : p = 2 * vnorm r0 - sg ^ 2.
  Proof using Hmu Hh HE.
    unfold p. change (vnorm (angular_momentum r0 v0)) with (vnorm (cross r0 v0)).
    rewrite <- (pS_semiparameter r0 v0 mu), (pS_eq r0 v0 mu) by assumption. rewrite par_alpha.
    change sg with (sigmaS r0 v0 mu). ring.
  Qed.
  Lemma par_p_pos : 0 < p.
  Proof using Hmu Hh. apply p_pos; assumption. Qed.
  Lemma par_rad chi : radS r0 v0 mu chi = ((chi + sg) ^ 2 + p) / 2.
  Proof using Hmu Hh HE.
    unfold radS. rewrite par_alpha, !U_alpha0, par_p. change sg with (sigmaS r0 v0 mu). simpl. field.
  Qed.
  Lemma par_time chi : timeS r0 v0 mu chi = barker p (chi + sg) - barker p sg.
  Proof using Hmu Hh HE.
    unfold timeS, barker. rewrite par_alpha, !U_alpha0, par_p. change sg with (sigmaS r0 v0 mu). simpl. field.
  Qed.
  Lemma par_guess t : uni_guess t al mu = 0.
  Proof using Hmu Hh HE.
    unfold al, uni_guess. rewrite alpha_of_S, par_alpha.
    change (sqrt mu * Rabs 0 * t = 0). rewrite Rabs_R0. ring.
  Qed.
  Lemma par_residual t chi : kepler_equ_uni chi al (vnorm r0) sg t mu
    = barker p (chi + sg) - (barker p sg + sqrt mu * t).
  Proof using Hmu Hh HE. unfold al, sg at 1. rewrite kepler_equ_uni_S, par_time. ring. Qed.
  Lemma par_step t chi : uni_newton t al (vnorm r0) sg mu chi + sg
    = bnewton p (barker p sg + sqrt mu * t) (chi + sg).
  Proof using Hmu Hh HE.
    unfold al, sg at 1. rewrite newton_S, par_time, par_rad. unfold bnewton.
    replace (barker p (chi + sg) - barker p sg - sqrt mu * t)
      with (barker p (chi + sg) - (barker p sg + sqrt mu * t)) by ring.
    unfold Rdiv. ring.
  Qed.
  Lemma par_iter t j : iterate (uni_newton t al (vnorm r0) sg mu) j (uni_guess t al mu) + sg
    = iterate (bnewton p (barker p sg + sqrt mu * t)) j sg.
  Proof using Hmu Hh HE.
    rewrite (iterate_conj (uni_newton t al (vnorm r0) sg mu) (bnewton p (barker p sg + sqrt mu * t)) (fun chi => chi + sg)).
    - f_equal. rewrite par_guess. ring.
    - intros y. apply par_step.
  Qed.

  Lemma par_converges t :
    let tau0 := p * sg / 2 + sg ^ 3 / 6 in
    let tau := tau0 + sqrt mu * t in
    (Rabs tau0 + Rabs tau) * (4 + 14 * (tau ^ 2 / p ^ 3)) <= 10 ^ 13 ->
    exists i chi prev, (i <= 50)%Z /\
      uni_run t al (vnorm r0) sg mu default_tol uni_max_iter = Some (i, chi, prev) /\
      Rabs (kepler_equ_uni chi al (vnorm r0) sg t mu) <= / 1000000.
  Proof using Hmu Hh HE.
    cbv zeta. intros HB. pose proof par_p_pos as Pp.
    assert (E0 : p * sg / 2 + sg ^ 3 / 6 = barker p sg) by (unfold barker; ring).
    rewrite E0 in HB. set (w := barker p sg + sqrt mu * t) in *.
    assert (EA : Rabs (barker p sg) = barker p (Rabs sg)).
    { destruct (Rle_lt_dec 0 sg) as [L|L].
      - rewrite !Rabs_pos_eq; auto. now apply (barker_pos p Pp).
      - rewrite (Rabs_left sg) by exact L. rewrite barker_neg. apply Rabs_left1.
        pose proof (barker_pos p Pp (- sg) ltac:(lra)) as Q. cbv zeta in Q. rewrite barker_neg in Q. lra. }
    assert (C : exists k, (k <= 50)%nat /\ Rabs (barker p (iterate (bnewton p w) k sg) - w) <= / 1000000).
    { destruct (Rle_lt_dec 0 w) as [L|L].
      - apply (b_converges p Pp w L sg). rewrite <- EA. rewrite (Rabs_pos_eq w) in HB by exact L. exact HB.
      - destruct (b_converges p Pp (- w) ltac:(lra) (- sg)) as [k [Hk Q]].
        + cbv zeta. rewrite Rabs_Ropp, <- EA. rewrite (Rabs_left w) in HB by exact L.
          replace ((- w) ^ 2) with (w ^ 2) by ring. exact HB.
        + exists k. split; [exact Hk|]. cbv zeta in Q.
          rewrite <- (iterate_conj (bnewton p w) (bnewton p (- w)) Ropp) in Q.
          2:{ intros y. symmetry. now apply bnewton_neg. }
          rewrite barker_neg in Q.
          replace (- barker p (iterate (bnewton p w) k sg) - - w)
            with (- (barker p (iterate (bnewton p w) k sg) - w)) in Q by ring.
          now rewrite Rabs_Ropp in Q. }
    destruct C as [k [Hk Q]].
    assert (Res : forall j, kepler_equ_uni (iterate (uni_newton t al (vnorm r0) sg mu) j (uni_guess t al mu)) al (vnorm r0) sg t mu
      = barker p (iterate (bnewton p w) j sg) - w).
    { intros j. rewrite par_residual, par_iter. reflexivity. }
    destruct (uni_run_char t al (vnorm r0) sg mu default_tol uni_max_iter) as [m [Hm [Hrun [Hl Hx]]]].
    change (Z.to_nat uni_max_iter) with 50%nat in Hm, Hx.
    do 3 eexists. split; [|split; [exact Hrun|]]; [lia|]. rewrite Res.
    assert (M : (m <= k)%nat).
    { destruct (le_lt_dec m k) as [M|M]; [exact M|]. specialize (Hl k M). apply exceeds_R in Hl.
      rewrite Res, default_tol_R in Hl. lra. }
    destruct Hx as [Hx|Hx].
    - assert (k = m) by lia. subst k. exact Q.
    - apply exceeds_R_false in Hx. rewrite Res, default_tol_R in Hx. lra.
  Qed.

  (** Late times: the first step goes to [sqrt mu t / r0], and every further step
      takes back at most a third (and a constant). *)
  Lemma b_slow w x : 0 <= w -> 0 <= x -> 2 / 3 * x - (1 + p) / 3 <= bnewton p w x.
  Proof using Hmu Hh.
    intros Hw Hx. pose proof par_p_pos as Pp. rewrite bnewton_eq by exact Pp.
    assert (D : 0 < x ^ 2 + p) by nra. apply (Rmult_le_reg_r (x ^ 2 + p)); [exact D|].
    replace (2 / 3 * (x ^ 3 + 3 * w) / (x ^ 2 + p) * (x ^ 2 + p)) with (2 / 3 * x ^ 3 + 2 * w) by (field; lra).
    assert (2 * (p * x) <= (1 + p) * (x ^ 2 + p)); [|nra].
    assert (0 <= (x - p) ^ 2) by apply pow2_ge_0. assert (0 <= p * x ^ 2) by (apply Rmult_le_pos; [lra|apply pow2_ge_0]). nra.
  Qed.

  Lemma par_fails tol B (mi : Z) : (1 <= mi)%Z ->
    exists T, forall t, T <= t ->
      exists chi prev, uni_run t al (vnorm r0) sg mu tol mi = Some (mi, chi, prev) /\
        solve_kepler_uni t al (vnorm r0) sg mu tol mi = chi /\
        B < kepler_equ_uni chi al (vnorm r0) sg t mu.
  Proof using Hmu Hh HE.
    intros Hmi. pose proof par_p_pos as Pp. pose proof (vnorm_pos r0 Hr) as Pr.
    assert (Pm : 0 < sqrt mu) by (apply sqrt_lt_R0; lra).
    set (n := Z.to_nat mi). set (L := (2 / 3) ^ n). set (q := 1 + p).
    assert (PL : 0 < L) by (apply pow_lt; lra).
    set (c1 := vnorm r0 / L). set (c0 := vnorm r0 * (q / L + Rabs sg) + Rabs (barker p sg)).
    assert (P1 : 0 < c1) by (apply Rdiv_lt_0_compat; lra).
    assert (Pq : 0 < q / L) by (apply Rdiv_lt_0_compat; unfold q; lra).
    assert (P0 : 0 <= c0).
    { unfold c0. pose proof (Rabs_pos sg). pose proof (Rabs_pos (barker p sg)).
      assert (0 <= vnorm r0 * (q / L + Rabs sg)) by (apply Rmult_le_pos; lra). lra. }
    set (Y := 6 * (1 + c1 + c0) + Rabs B + Rabs tol + 1).
    pose proof (Rabs_pos B) as PB. pose proof (Rabs_pos tol) as PT.
    exists ((vnorm r0 * ((Y + q) / L + Rabs sg) + Rabs (barker p sg) + Rabs tol + 1) / sqrt mu). intros t Ht.
    set (W := sqrt mu * t).
    assert (HW : vnorm r0 * ((Y + q) / L + Rabs sg) + Rabs (barker p sg) + Rabs tol + 1 <= W).
    { apply (Rmult_le_compat_l (sqrt mu)) in Ht; [|lra].
      replace (sqrt mu * ((vnorm r0 * ((Y + q) / L + Rabs sg) + Rabs (barker p sg) + Rabs tol + 1) / sqrt mu))
        with (vnorm r0 * ((Y + q) / L + Rabs sg) + Rabs (barker p sg) + Rabs tol + 1) in Ht by (field; lra). exact Ht. }
    pose proof (Rle_abs (barker p sg)) as B1. pose proof (Rle_abs (- barker p sg)) as B2. rewrite Rabs_Ropp in B2.
    pose proof (Rle_abs sg) as S1. pose proof (Rle_abs (- sg)) as S2. rewrite Rabs_Ropp in S2.
    pose proof (Rle_abs tol) as T1. pose proof (Rle_abs B) as B3.
    set (w := barker p sg + W).
    assert (PY : 0 < (Y + q) / L) by (apply Rdiv_lt_0_compat; [unfold Y, q; lra|exact PL]).
    assert (Hw : 0 <= w).
    { unfold w. assert (0 <= vnorm r0 * ((Y + q) / L + Rabs sg)) by (apply Rmult_le_pos; lra). lra. }
    set (x1 := W / vnorm r0 + sg).
    assert (X1 : bnewton p w sg = x1).
    { unfold bnewton, x1, w. replace ((sg ^ 2 + p) / 2) with (vnorm r0) by (rewrite par_p; field). field. lra. }
    assert (XL : (Y + q) / L <= x1).
    { assert ((Y + q) / L + Rabs sg <= W / vnorm r0); [|unfold x1; lra].
      apply (Rmult_le_reg_l (vnorm r0)); [exact Pr|]. replace (vnorm r0 * (W / vnorm r0)) with W by (field; lra). lra. }
    assert (It : forall k, (k < n)%nat -> L * (x1 + q) - q <= iterate (bnewton p w) (S k) sg).
    { assert (Low : Y + q <= L * x1).
      { apply (Rmult_le_compat_l L) in XL; [|lra]. replace (L * ((Y + q) / L)) with (Y + q) in XL by (field; lra). exact XL. }
      assert (G : forall k, (k < n)%nat -> (2 / 3) ^ k * (x1 + q) - q <= iterate (bnewton p w) (S k) sg).
      { induction k as [|k IH]; intros Hk.
        - cbn [iterate]. rewrite X1. simpl pow. lra.
        - specialize (IH ltac:(lia)). set (x := iterate (bnewton p w) (S k) sg) in *.
          change (iterate (bnewton p w) (S (S k)) sg) with (bnewton p w x).
          assert (LK : L <= (2 / 3) ^ k).
          { unfold L. replace n with (k + (n - k))%nat by lia. rewrite pow_add.
            assert ((2 / 3) ^ (n - k) <= 1) by (rewrite <- (pow1 (n - k)); apply pow_incr; lra).
            pose proof (pow_le (2 / 3) k ltac:(lra)). nra. }
          assert (Xq : 0 < x1 + q) by (unfold q; lra).
          assert (Px : 0 <= x).
          { assert (L * (x1 + q) <= (2 / 3) ^ k * (x1 + q)) by (apply Rmult_le_compat_r; lra).
            assert (0 < L * q) by (apply Rmult_lt_0_compat; unfold q; lra). unfold Y in Low. lra. }
          pose proof (b_slow w x Hw Px) as S. fold q in S. cbn [pow]. lra. }
      intros k Hk. eapply Rle_trans; [|now apply G]. assert (Xq : 0 < x1 + q) by (unfold q; lra).
      assert (LK : L <= (2 / 3) ^ k).
      { unfold L. replace n with (k + (n - k))%nat by lia. rewrite pow_add.
        assert ((2 / 3) ^ (n - k) <= 1) by (rewrite <- (pow1 (n - k)); apply pow_incr; lra).
        pose proof (pow_le (2 / 3) k ltac:(lra)). nra. }
      assert (L * (x1 + q) <= (2 / 3) ^ k * (x1 + q)) by (apply Rmult_le_compat_r; lra). lra. }
    assert (Big : forall k, (k < n)%nat ->
      Rmax B tol < kepler_equ_uni (iterate (uni_newton t al (vnorm r0) sg mu) (S k) (uni_guess t al mu)) al (vnorm r0) sg t mu).
    { intros k Hk. rewrite par_residual, par_iter. fold W. fold w.
      specialize (It k Hk). set (x := iterate (bnewton p w) (S k) sg) in *. clearbody x.
      assert (Lx : L * x1 <= x + q) by (assert (0 < L * q) by (apply Rmult_lt_0_compat; unfold q; lra); lra).
      assert (XY : Y <= x).
      { apply (Rmult_le_compat_l L) in XL; [|lra]. replace (L * ((Y + q) / L)) with (Y + q) in XL by (field; lra). lra. }
      assert (Lw : w <= c1 * x + c0).
      { assert (x1 <= x / L + q / L).
        { apply (Rmult_le_reg_l L); [exact PL|]. replace (L * (x / L + q / L)) with (x + q) by (field; lra). exact Lx. }
        assert (EW : W = vnorm r0 * (x1 - sg)) by (unfold x1; field; lra).
        assert (W <= vnorm r0 * (x / L + q / L + Rabs sg)).
        { rewrite EW. apply Rmult_le_compat_l; lra. }
        assert (EC : vnorm r0 * (x / L + q / L + Rabs sg) = c1 * x + vnorm r0 * (q / L + Rabs sg)).
        { unfold c1. field. lra. }
        unfold w, c0. lra. }
      assert (X0 : 6 * (1 + c1 + c0) + 1 <= x) by (unfold Y in *; lra).
      assert (X3 : (1 + c1 + c0) * x <= x ^ 3 / 6).
      { assert (H6 : 6 * (1 + c1 + c0) * x <= x ^ 3); [|lra].
        replace (x ^ 3) with (x * x * x) by ring. apply Rmult_le_compat_r; [lra|]. nra. }
      assert (C0 : c0 <= c0 * x) by nra.
      assert (R : x <= barker p x - w).
      { unfold barker. assert (0 <= p * x) by (apply Rmult_le_pos; lra). lra. }
      apply Rmax_lub_lt; unfold Y in *; lra. }
    assert (First : tol < Rabs (kepler_equ_uni (uni_guess t al mu) al (vnorm r0) sg t mu)).
    { rewrite par_residual, par_guess, Rplus_0_l. fold W.
      replace (barker p sg - (barker p sg + W)) with (- W) by ring. rewrite Rabs_Ropp.
      assert (0 <= vnorm r0 * ((Y + q) / L + Rabs sg)) by (apply Rmult_le_pos; lra).
      pose proof (Rabs_pos (barker p sg)). rewrite Rabs_pos_eq by lra. lra. }
    destruct (uni_run_char t al (vnorm r0) sg mu tol mi) as [k [Hk [Hrun [_ Hx]]]]. fold n in Hk, Hx.
    assert (K : k = n).
    { destruct Hx as [Hx|Hx]; [exact Hx|]. exfalso. apply exceeds_R_false in Hx. destruct k as [|k].
      - cbn [iterate] in Hx. lra.
      - specialize (Big k ltac:(lia)). pose proof (Rmax_r B tol).
        pose proof (Rle_abs (kepler_equ_uni (iterate (uni_newton t al (vnorm r0) sg mu) (S k) (uni_guess t al mu)) al (vnorm r0) sg t mu)).
        lra. }
    rewrite K in Hrun. unfold n in Hrun. rewrite Z2Nat.id in Hrun by lia. fold n in Hrun.
    do 2 eexists. split; [exact Hrun|]. split.
    - unfold solve_kepler_uni. rewrite Hrun. reflexivity.
    - destruct n as [|n'] eqn:En; [unfold n in En; lia|].
      eapply Rle_lt_trans; [apply (Rmax_l B tol)|]. apply Big. lia.
  Qed.
End Parabola.

(** A parabola on its way in. *)
Definition ir : vec := mk3 1 0 0.
Definition iv : vec := mk3 (-2) 2 0.
Lemma ir_norm : vnorm ir = 1.
Proof. apply vnorm_unique; [lra|]. unfold dot, ir; cbn [c0 c1 c2]. lra. Qed.
Lemma i_energy : energy 4 ir iv = 0.
Proof. unfold energy. rewrite ir_norm. unfold dot, iv; cbn [c0 c1 c2]. lra. Qed.
Lemma i_cross : cross ir iv <> vzero.
Proof. intros H. apply (f_equal c2) in H. unfold cross, ir, iv, vzero in H; cbn [c0 c1 c2] in H. lra. Qed.
Lemma sqrt_4 : sqrt 4 = 2.
Proof. replace 4 with (2 * 2) by ring. apply sqrt_square. lra. Qed.
Lemma i_sigma : sigma_fn ir iv 4 = -1.
Proof. rewrite sigma_fn_R, sqrt_4. unfold dot, ir, iv; cbn [c0 c1 c2]. field. Qed.
Lemma i_alpha : alpha_of (vnorm ir) (vnorm iv) 4 = 0.
Proof. rewrite alpha_of_S. apply par_alpha; [lra|exact i_cross|exact i_energy]. Qed.
Lemma i_converges : exists i chi prev, (i <= 50)%Z /\
  uni_run 5 0 1 (-1) 4 default_tol uni_max_iter = Some (i, chi, prev) /\
  Rabs (kepler_equ_uni chi 0 1 (-1) 5 4) <= / 1000000.
Proof.
  pose proof (par_converges ir iv 4 ltac:(lra) i_cross i_energy 5) as H. cbv zeta in H.
  pose proof (par_p ir iv 4 ltac:(lra) i_cross i_energy) as P.
  rewrite P in H. rewrite i_sigma, i_alpha, ir_norm, sqrt_4 in H. apply H.
  replace ((2 * 1 - (-1) ^ 2) * -1 / 2 + (-1) ^ 3 / 6) with (- (2 / 3)) by field.
  rewrite Rabs_left by lra. rewrite Rabs_pos_eq by lra. lra.
Qed.
