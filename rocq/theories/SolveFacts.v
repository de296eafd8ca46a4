(** * Facts about the classical Kepler equations and their solvers (C23, C24, C25) *)
From Coq Require Import Reals ZArith Lia Lra List Bool.
From Coquelicot Require Import Coquelicot.
From Verif Require Import Num NumR Spec OrbIntegrals KepEqu RLib Ana LoopFacts KepRows.
Local Open Scope R_scope.

(** ** Elementary inequalities *)
Lemma der_sin (x : R) : is_derive sin x (cos x).
Proof. apply is_derive_Reals, derivable_pt_lim_sin. Qed.
Lemma der_cos (x : R) : is_derive cos x (- sin x).
Proof. apply is_derive_Reals, derivable_pt_lim_cos. Qed.
Lemma der_sinh (x : R) : is_derive sinh x (cosh x).
Proof. apply is_derive_Reals, derivable_pt_lim_sinh. Qed.
Lemma der_cosh (x : R) : is_derive cosh x (sinh x).
Proof. apply is_derive_Reals, derivable_pt_lim_cosh. Qed.

Lemma Rabs_sin x : Rabs (sin x) <= 1.
Proof. apply Rabs_le. pose proof (SIN_bound x). lra. Qed.
Lemma Rabs_cos x : Rabs (cos x) <= 1.
Proof. apply Rabs_le. pose proof (COS_bound x). lra. Qed.

Lemma sin_lip x y : Rabs (sin x - sin y) <= Rabs (x - y).
Proof.
  destruct (mvt sin cos y x der_sin) as [c [_ E]]. rewrite E, Rabs_mult.
  pose proof (Rabs_cos c). pose proof (Rabs_pos (x - y)). nra.
Qed.
Lemma cos_lip x y : Rabs (cos x - cos y) <= Rabs (x - y).
Proof.
  destruct (mvt cos (fun t => - sin t) y x der_cos) as [c [_ E]].
  rewrite E, Rabs_mult, Rabs_Ropp.
  pose proof (Rabs_sin c). pose proof (Rabs_pos (x - y)). nra.
Qed.

Lemma sin_taylor_pos x d : 0 <= d -> Rabs (sin (x + d) - sin x - d * cos x) <= d ^ 2 / 2.
Proof.
  intros Hd.
  assert (Ds : forall t : R, is_derive (fun s : R => sin (x + s) - sin x - s * cos x) t (cos (x + t) - cos x)).
  { intros t. eapply der_eq.
    - apply der_minus; [apply der_minus; [|apply der_const]|apply der_scal_r, der_id].
      apply (der_comp sin (fun s => x + s)); [apply der_sin|].
      apply der_plus; [apply der_const|apply der_id].
    - cbv beta. ring. }
  assert (Dq : forall t : R, is_derive (fun s : R => s ^ 2 / 2) t t).
  { intros t. eapply der_eq. apply der_scal_r. apply (der_pow (fun s => s)), der_id.
    simpl. lra. }
  assert (Q : forall t, 0 <= t -> Rabs (cos (x + t) - cos x) <= t).
  { intros t Ht. pose proof (cos_lip (x + t) x) as L. replace (x + t - x) with t in L by ring.
    rewrite (Rabs_pos_eq t) in L by lra. exact L. }
  apply Rabs_le. split.
  - pose proof (der_nonneg_from (fun s => s ^ 2 / 2 + (sin (x + s) - sin x - s * cos x))
      (fun t => t + (cos (x + t) - cos x)) 0) as P.
    specialize (P ltac:(intros; apply der_plus; auto)
      ltac:(intros t Ht; specialize (Q t Ht); apply Rabs_le_between in Q; lra) 0 d ltac:(lra) Hd).
    cbv beta in P. rewrite Rplus_0_r in P. lra.
  - pose proof (der_nonneg_from (fun s => s ^ 2 / 2 - (sin (x + s) - sin x - s * cos x))
      (fun t => t - (cos (x + t) - cos x)) 0) as P.
    specialize (P ltac:(intros; apply der_minus; auto)
      ltac:(intros t Ht; specialize (Q t Ht); apply Rabs_le_between in Q; lra) 0 d ltac:(lra) Hd).
    cbv beta in P. rewrite Rplus_0_r in P. lra.
Qed.
Lemma sin_taylor x d : Rabs (sin (x + d) - sin x - d * cos x) <= d ^ 2 / 2.
Proof.
  destruct (Rle_dec 0 d) as [H|H]; [now apply sin_taylor_pos|].
  pose proof (sin_taylor_pos (- x) (- d) ltac:(lra)) as P.
  replace (sin (- x + - d) - sin (- x) - - d * cos (- x))
    with (- (sin (x + d) - sin x - d * cos x)) in P.
  - rewrite Rabs_Ropp in P. replace (d ^ 2) with ((- d) ^ 2) by ring. exact P.
  - replace (- x + - d) with (- (x + d)) by ring. rewrite !sin_neg, cos_neg. ring.
Qed.

Lemma some3_inj {A B C : Type} {a a' : A} {b b' : B} {c c' : C} :
  Some (a, b, c) = Some (a', b', c') -> a = a' /\ b = b' /\ c = c'.
Proof. intros H. injection H. auto. Qed.

(** ** The elliptic equation *)
Lemma kepler_equ_elps_R E e M : kepler_equ_elps E e M = E - e * sin E - M.
Proof. reflexivity. Qed.
Lemma dE_R E e : dE E e = 1 - e * cos E.
Proof. reflexivity. Qed.
Lemma elps_guess_R M e : elps_guess M e = M + e * sin M + e ^ 2 * sin (2 * M) / 2.
Proof. unfold elps_guess. unnum. field. Qed.

Lemma elps_deriv (e M E : R) : is_derive (fun E : R => kepler_equ_elps E e M) E (dE E e).
Proof.
  apply (der_eq _ _ (1 - e * cos E - 0)); [|rewrite dE_R; ring].
  apply (der_ext (fun E => E - e * sin E - M)); [intros; reflexivity|].
  apply der_minus; [apply der_minus; [apply der_id|apply der_scal, der_sin]|apply der_const].
Qed.
Lemma dE_lower E e : 0 <= e -> 1 - e <= dE E e.
Proof. intros He. rewrite dE_R. pose proof (COS_bound E). nra. Qed.
Lemma dE_pos E e : 0 <= e < 1 -> 0 < dE E e.
Proof. intros [H1 H2]. pose proof (dE_lower E e H1). lra. Qed.

Lemma elps_newton_R (M e E : R) : elps_newton M e E = E - kepler_equ_elps E e M / dE E e.
Proof. reflexivity. Qed.

(** One Newton step squares the error. *)
Lemma elps_step_residual M e E : 0 <= e < 1 ->
  Rabs (kepler_equ_elps (elps_newton M e E) e M) <= e * (elps_newton M e E - E) ^ 2 / 2.
Proof.
  intros He. set (E' := elps_newton M e E). set (d := E' - E).
  assert (Hd : kepler_equ_elps E e M = - (d * dE E e)).
  { unfold d, E'. pose proof (dE_pos E e He).
    rewrite elps_newton_R. field. lra. }
  assert (A : kepler_equ_elps E' e M = - e * (sin (E + d) - sin E - d * cos E)).
  { replace E' with (E + d) by (unfold d; ring). rewrite kepler_equ_elps_R in *. rewrite dE_R in Hd.
    replace (E + d - e * sin (E + d) - M) with ((E - e * sin E - M) + d - e * (sin (E + d) - sin E)) by ring.
    rewrite Hd. ring. }
  rewrite A, Rabs_mult, Rabs_Ropp, (Rabs_pos_eq e) by lra.
  pose proof (sin_taylor E d). replace (e * d ^ 2 / 2) with (e * (d ^ 2 / 2)) by field.
  apply Rmult_le_compat_l; lra.
Qed.

Lemma elps_residual_dist e M E E' : 0 <= e < 1 -> kepler_equ_elps E' e M = 0 ->
  (1 - e) * Rabs (E - E') <= Rabs (kepler_equ_elps E e M).
Proof.
  intros He Z.
  pose proof (bij_expand (fun E => kepler_equ_elps E e M) (fun E => dE E e) (1 - e) ltac:(lra)
    ltac:(intros; apply elps_deriv) ltac:(intros; apply dE_lower; lra) E E') as B.
  cbv beta in B. rewrite Z, Rminus_0_r in B. exact B.
Qed.

Lemma elps_converged M e tol mi i E prev : 0 <= e < 1 -> 0 < tol ->
  elps_run M e tol mi = Some (i, E, prev) -> Rabs (E - prev) <= tol ->
  Rabs (kepler_equ_elps E e M) <= e * tol ^ 2 / 2 /\
  (forall E', kepler_equ_elps E' e M = 0 -> Rabs (E - E') <= e * tol ^ 2 / (2 * (1 - e))).
Proof.
  intros He Ht Hr Hd.
  destruct (elps_run_char M e tol mi) as [k [_ [Hk _]]]. cbv zeta in Hk. rewrite Hr in Hk.
  destruct (some3_inj Hk) as [-> [-> ->]]. clear Hk.
  assert (B : Rabs (kepler_equ_elps (iterate (elps_newton M e) k (elps_guess M e)) e M) <= e * tol ^ 2 / 2).
  { destruct k as [|k].
    - exfalso. change (Rabs (elps_guess M e - (elps_guess M e + 2 * tol)) <= tol) in Hd.
      replace (elps_guess M e - (elps_guess M e + 2 * tol)) with (- (2 * tol)) in Hd by ring.
      rewrite Rabs_Ropp, Rabs_pos_eq in Hd by lra. lra.
    - cbn [iterate] in *. cbv beta iota in Hd.
      set (x := iterate (elps_newton M e) k (elps_guess M e)) in *.
      eapply Rle_trans; [apply elps_step_residual; auto|].
      set (d := elps_newton M e x - x) in *.
      assert (d ^ 2 <= tol ^ 2).
      { rewrite <- (pow2_abs d). apply pow_incr. split; [apply Rabs_pos|exact Hd]. }
      change (e * d ^ 2 / 2 <= e * tol ^ 2 / 2). nra. }
  split; [exact B|].
  intros E' Z. pose proof (elps_residual_dist e M (iterate (elps_newton M e) k (elps_guess M e)) E' He Z) as D.
  apply (Rmult_le_reg_l (1 - e)); [lra|]. eapply Rle_trans; [exact D|].
  eapply Rle_trans; [exact B|]. right. field. lra.
Qed.

Lemma exceeds_iter M e tol mi i E prev :
  elps_run M e tol mi = Some (i, E, prev) -> (i < mi)%Z -> Rabs (E - prev) <= tol.
Proof.
  intros Hr Hi.
  destruct (elps_run_char M e tol mi) as [k [_ [Hk [_ Hx]]]]. cbv zeta in Hk, Hx. rewrite Hr in Hk.
  destruct (some3_inj Hk) as [-> [-> ->]]. clear Hk. destruct Hx as [Hx|Hx]; [lia|].
  now apply exceeds_R_false in Hx.
Qed.

(** ** Existence, uniqueness, monotonicity, symmetries *)
Lemma elps_unique e M : 0 <= e < 1 -> exists! E, kepler_equ_elps E e M = 0.
Proof.
  intros He.
  assert (H1 : forall x : R, is_derive (fun E : R => kepler_equ_elps E e M) x (dE x e)) by (intros; apply elps_deriv).
  assert (H2 : forall x, 1 - e <= dE x e) by (intros; apply dE_lower; lra).
  assert (H3 : 0 < 1 - e) by lra.
  destruct (bij_root _ _ _ H3 H1 H2 0) as [E HE]. exists E. split; [exact HE|].
  intros E' HE'. apply (bij_inj _ _ _ H3 H1 H2). now rewrite HE, HE'.
Qed.
Lemma elps_near_mean e M E : 0 <= e -> kepler_equ_elps E e M = 0 -> Rabs (E - M) <= e.
Proof.
  rewrite kepler_equ_elps_R. intros He H. replace (E - M) with (e * sin E) by lra.
  rewrite Rabs_mult, (Rabs_pos_eq e) by lra. pose proof (Rabs_sin E). nra.
Qed.
Lemma elps_increasing e M M' E E' : 0 <= e < 1 -> kepler_equ_elps E e M = 0 -> kepler_equ_elps E' e M' = 0 ->
  M < M' -> E < E'.
Proof.
  intros He H H' L. destruct (Rlt_dec E E') as [|N]; auto. exfalso.
  pose proof (der_nonneg_incr (fun E => kepler_equ_elps E e 0) (fun E => dE E e)
    ltac:(intros; apply elps_deriv) ltac:(intros; apply Rlt_le, dE_pos; lra) E' E ltac:(lra)) as P.
  cbv beta in P. rewrite !kepler_equ_elps_R in *. lra.
Qed.
Lemma IZR_pos_INR p : IZR (Z.pos p) = INR (Pos.to_nat p).
Proof. now rewrite INR_IZR_INZ, positive_nat_Z. Qed.
Lemma sin_2kPI x (k : Z) : sin (x + 2 * PI * IZR k) = sin x.
Proof.
  destruct k as [|p|p].
  - rewrite Rmult_0_r, Rplus_0_r. reflexivity.
  - rewrite (IZR_pos_INR p).
    replace (2 * PI * INR (Pos.to_nat p)) with (2 * INR (Pos.to_nat p) * PI) by ring. apply sin_period.
  - change (Z.neg p) with (- Z.pos p)%Z. rewrite opp_IZR, (IZR_pos_INR p).
    rewrite <- (sin_period _ (Pos.to_nat p)). f_equal. ring.
Qed.
Lemma cos_2kPI x (k : Z) : cos (x + 2 * PI * IZR k) = cos x.
Proof.
  destruct k as [|p|p].
  - rewrite Rmult_0_r, Rplus_0_r. reflexivity.
  - rewrite (IZR_pos_INR p).
    replace (2 * PI * INR (Pos.to_nat p)) with (2 * INR (Pos.to_nat p) * PI) by ring. apply cos_period.
  - change (Z.neg p) with (- Z.pos p)%Z. rewrite opp_IZR, (IZR_pos_INR p).
    rewrite <- (cos_period _ (Pos.to_nat p)). f_equal. ring.
Qed.

Lemma elps_equ_shift E e M k :
  kepler_equ_elps (E + 2 * PI * IZR k) e (M + 2 * PI * IZR k) = kepler_equ_elps E e M.
Proof. rewrite !kepler_equ_elps_R, sin_2kPI. ring. Qed.
Lemma elps_equ_neg E e M : kepler_equ_elps (- E) e (- M) = - kepler_equ_elps E e M.
Proof. rewrite !kepler_equ_elps_R, sin_neg. ring. Qed.

Section Equivariance.
  (** An affine symmetry [x -> s x + c] with [|s| = 1] that commutes with the
      guess and the step of a loop that tests the difference of iterates. *)
  Variables (s c : R).
  Hypothesis Hs : Rabs s = 1.
  Variables (M e M' e' tol : R) (mi : Z).
  Let g x := s * x + c.
  Hypothesis Hg : elps_guess M' e' = g (elps_guess M e).
  Hypothesis Hn : forall E, elps_newton M' e' (g E) = g (elps_newton M e E).
  Hypothesis Ht : 0 <= tol.

  Lemma iterate_conj k : iterate (elps_newton M' e') k (elps_guess M' e')
                         = g (iterate (elps_newton M e) k (elps_guess M e)).
  Proof. induction k as [|k IH]; cbn [iterate]; [exact Hg|]. now rewrite IH, Hn. Qed.

  Lemma exceeds_iff (x y : R) : Rabs x = Rabs y -> exceeds x tol = exceeds y tol.
  Proof.
    intros H. destruct (exceeds x tol) eqn:A; destruct (exceeds y tol) eqn:B; auto; exfalso.
    - apply exceeds_R in A. apply exceeds_R_false in B. lra.
    - apply exceeds_R_false in A. apply exceeds_R in B. lra.
  Qed.

  Lemma elps_conj : solve_kepler_elps M' e' tol mi = g (solve_kepler_elps M e tol mi).
  Proof.
    destruct (elps_char M e tol mi) as [k [Hk [E1 [F1 X1]]]].
    destruct (elps_char M' e' tol mi) as [j [Hj [E2 [F2 X2]]]]. cbv zeta in *.
    assert (Hx : forall n, exceeds (iterate (elps_newton M' e') n (elps_guess M' e') -
       match n with O => (elps_guess M' e' + #2 * tol)%num | S m => iterate (elps_newton M' e') m (elps_guess M' e') end) tol
       = exceeds (iterate (elps_newton M e) n (elps_guess M e) -
       match n with O => (elps_guess M e + #2 * tol)%num | S m => iterate (elps_newton M e) m (elps_guess M e) end) tol).
    { intros n. apply exceeds_iff. destruct n as [|n].
      - cbn [iterate]. change (@n_add R Num_R) with Rplus. f_equal. ring.
      - rewrite !iterate_conj. unfold g.
        set (a := iterate _ _ _). set (b := iterate _ _ _).
        replace (s * a + c - (s * b + c)) with (s * (a - b)) by ring.
        now rewrite Rabs_mult, Hs, Rmult_1_l. }
    change (@n_sub R Num_R) with Rminus in *.
    assert (k = j) as <-.
    { destruct (lt_eq_lt_dec k j) as [[L|L]|L]; auto; exfalso.
      - specialize (F2 _ L). rewrite Hx in F2. destruct X1 as [->|X1]; [lia|]. congruence.
      - specialize (F1 _ L). rewrite <- Hx in F1. destruct X2 as [->|X2]; [lia|]. congruence. }
    rewrite E1, E2. apply iterate_conj.
  Qed.
End Equivariance.

Lemma solve_elps_shift M e tol mi k : 0 <= e < 1 -> 0 <= tol ->
  solve_kepler_elps (M + 2 * PI * IZR k) e tol mi = solve_kepler_elps M e tol mi + 2 * PI * IZR k.
Proof.
  intros He Ht. rewrite (elps_conj 1 (2 * PI * IZR k) Rabs_R1 M e (M + 2 * PI * IZR k) e tol mi).
  - ring.
  - rewrite !elps_guess_R, sin_2kPI.
    replace (2 * (M + 2 * PI * IZR k)) with (2 * M + 2 * PI * IZR (2 * k)) by (rewrite mult_IZR; ring).
    rewrite sin_2kPI. ring.
  - intros E. rewrite !elps_newton_R, !Rmult_1_l, elps_equ_shift, !dE_R, cos_2kPI. ring.
Qed.
Lemma solve_elps_neg M e tol mi : 0 <= e < 1 -> 0 <= tol ->
  solve_kepler_elps (- M) e tol mi = - solve_kepler_elps M e tol mi.
Proof.
  intros He Ht. rewrite (elps_conj (-1) 0 ltac:(rewrite Rabs_left; lra) M e (- M) e tol mi).
  - ring.
  - rewrite !elps_guess_R. replace (2 * - M) with (- (2 * M)) by ring. rewrite !sin_neg. field.
  - intros E. rewrite !elps_newton_R. replace (-1 * E + 0) with (- E) by ring.
    rewrite elps_equ_neg, !dE_R, cos_neg. unfold Rdiv. ring.
Qed.

(** ** The hyperbolic equation *)
Lemma kepler_equ_hypb_R H e Nm : kepler_equ_hypb H e Nm = e * sinh H - H - Nm.
Proof. reflexivity. Qed.
Lemma dH_R H e : dH H e = e * cosh H - 1.
Proof. reflexivity. Qed.
Lemma hypb_guess_R Nm e : hypb_guess Nm e = ln (2 * Nm / e + sqrt ((2 * Nm / e) ^ 2 + 1)).
Proof. unfold hypb_guess. unnum. do 4 f_equal. ring. Qed.
Lemma hypb_guess_arcsinh Nm e : hypb_guess Nm e = arcsinh (2 * Nm / e).
Proof. rewrite hypb_guess_R. reflexivity. Qed.

Lemma cosh_ge_1 x : 1 <= cosh x.
Proof.
  unfold cosh. assert (exp x * exp (- x) = 1) by (rewrite <- exp_plus, Rplus_opp_r; apply exp_0).
  pose proof (exp_pos x). pose proof (exp_pos (- x)).
  pose proof (Rle_0_sqr (exp x - exp (- x))). unfold Rsqr in *. nra.
Qed.
Lemma sinh_neg x : sinh (- x) = - sinh x.
Proof. unfold sinh. rewrite Ropp_involutive. field. Qed.
Lemma cosh_neg x : cosh (- x) = cosh x.
Proof. unfold cosh. rewrite Ropp_involutive. field. Qed.
Lemma sinh_incr x y : x <= y -> sinh x <= sinh y.
Proof.
  apply (der_nonneg_incr sinh cosh der_sinh). intros z. pose proof (cosh_ge_1 z). lra.
Qed.
Lemma sinh_arcsinh x : sinh (arcsinh x) = x.
Proof.
  unfold arcsinh, sinh. assert (P : 0 < x + sqrt (x ^ 2 + 1)).
  { assert (0 <= x ^ 2) by nra. assert (Q : Rabs x < sqrt (x ^ 2 + 1)).
    { rewrite <- sqrt_Rsqr_abs. apply sqrt_lt_1; unfold Rsqr; nra. }
    pose proof (Rle_abs (- x)) as W. rewrite Rabs_Ropp in W. lra. }
  rewrite exp_Ropp, exp_ln by auto.
  assert (S : sqrt (x ^ 2 + 1) * sqrt (x ^ 2 + 1) = x ^ 2 + 1) by (apply sqrt_sqrt; nra).
  set (s := sqrt (x ^ 2 + 1)) in *. apply (Rmult_eq_reg_r (2 * (x + s))); [|lra].
  field_simplify; [|lra]. nra.
Qed.
Lemma sinh_inj x y : sinh x = sinh y -> x = y.
Proof.
  intros H. apply (bij_inj sinh cosh 1 Rlt_0_1 der_sinh cosh_ge_1). exact H.
Qed.
Lemma arcsinh_neg x : arcsinh (- x) = - arcsinh x.
Proof. apply sinh_inj. now rewrite sinh_neg, !sinh_arcsinh. Qed.

Lemma hypb_deriv (e Nm H : R) : is_derive (fun H : R => kepler_equ_hypb H e Nm) H (dH H e).
Proof.
  apply (der_eq _ _ (e * cosh H - 1 - 0)); [|rewrite dH_R; ring].
  apply (der_ext (fun H => e * sinh H - H - Nm)); [intros; reflexivity|].
  apply der_minus; [apply der_minus; [apply der_scal, der_sinh|apply der_id]|apply der_const].
Qed.
Lemma dH_lower H e : 0 <= e -> e - 1 <= dH H e.
Proof. intros He. rewrite dH_R. pose proof (cosh_ge_1 H). nra. Qed.
Lemma hypb_unique e Nm : 1 < e -> exists! H, kepler_equ_hypb H e Nm = 0.
Proof.
  intros He.
  assert (H1 : forall x : R, is_derive (fun H : R => kepler_equ_hypb H e Nm) x (dH x e)) by (intros; apply hypb_deriv).
  assert (H2 : forall x, e - 1 <= dH x e) by (intros; apply dH_lower; lra).
  assert (H3 : 0 < e - 1) by lra.
  destruct (bij_root _ _ _ H3 H1 H2 0) as [H HH]. exists H. split; [exact HH|].
  intros H' HH'. apply (bij_inj _ _ _ H3 H1 H2). now rewrite HH, HH'.
Qed.
Lemma hypb_equ_neg H e Nm : kepler_equ_hypb (- H) e (- Nm) = - kepler_equ_hypb H e Nm.
Proof. rewrite !kepler_equ_hypb_R, sinh_neg. ring. Qed.
Lemma hypb_increasing e N N' H H' : 1 < e -> kepler_equ_hypb H e N = 0 -> kepler_equ_hypb H' e N' = 0 ->
  N < N' -> H < H'.
Proof.
  intros He A A' L. destruct (Rlt_dec H H') as [|X]; auto. exfalso.
  pose proof (der_nonneg_incr (fun E => kepler_equ_hypb E e 0) (fun E => dH E e)
    ltac:(intros; apply hypb_deriv) ltac:(intros x; pose proof (dH_lower x e ltac:(lra)); lra) H' H ltac:(lra)) as P.
  cbv beta in P. rewrite !kepler_equ_hypb_R in *. lra.
Qed.
Lemma hypb_residual_dist e Nm H H' : 1 < e -> kepler_equ_hypb H' e Nm = 0 ->
  (e - 1) * Rabs (H - H') <= Rabs (kepler_equ_hypb H e Nm).
Proof.
  intros He Z.
  pose proof (bij_expand (fun H => kepler_equ_hypb H e Nm) (fun H => dH H e) (e - 1) ltac:(lra)
    ltac:(intros; apply hypb_deriv) ltac:(intros; apply dH_lower; lra) H H') as B.
  cbv beta in B. rewrite Z, Rminus_0_r in B. exact B.
Qed.
Lemma hypb_converged Nm e tol mi i H prev : 1 < e ->
  hypb_run Nm e tol mi = Some (i, H, prev) -> (i < mi)%Z ->
  Rabs (kepler_equ_hypb H e Nm) <= tol /\
  (forall H', kepler_equ_hypb H' e Nm = 0 -> Rabs (H - H') <= tol / (e - 1)).
Proof.
  intros He Hr Hi.
  destruct (hypb_run_char Nm e tol mi) as [k [_ [Hk [_ Hx]]]]. cbv zeta in Hk, Hx. rewrite Hr in Hk.
  destruct (some3_inj Hk) as [-> [-> ->]]. clear Hk. destruct Hx as [Hx|Hx]; [lia|].
  apply exceeds_R_false in Hx. split; [exact Hx|].
  intros H' Z. pose proof (hypb_residual_dist e Nm (iterate (hypb_newton Nm e) k (hypb_guess Nm e)) H' He Z) as D.
  apply (Rmult_le_reg_l (e - 1)); [lra|]. eapply Rle_trans; [exact D|].
  eapply Rle_trans; [exact Hx|]. right. field. lra.
Qed.
Lemma hypb_newton_R (Nm e H : R) : hypb_newton Nm e H = H - kepler_equ_hypb H e Nm / dH H e.
Proof. reflexivity. Qed.
Lemma hypb_iter_neg Nm e k :
  iterate (hypb_newton (- Nm) e) k (hypb_guess (- Nm) e) = - iterate (hypb_newton Nm e) k (hypb_guess Nm e).
Proof.
  induction k as [|k IH]; cbn [iterate].
  - rewrite !hypb_guess_arcsinh, <- arcsinh_neg. f_equal. unfold Rdiv. ring.
  - rewrite IH. set (x := iterate _ _ _). rewrite !hypb_newton_R.
    rewrite hypb_equ_neg, !dH_R, cosh_neg. unfold Rdiv. ring.
Qed.
Lemma exceeds_abs (x y tol : R) : Rabs x = Rabs y -> exceeds x tol = exceeds y tol.
Proof.
  intros H. destruct (exceeds x tol) eqn:A; destruct (exceeds y tol) eqn:B; auto; exfalso.
  - apply exceeds_R in A. apply exceeds_R_false in B. lra.
  - apply exceeds_R_false in A. apply exceeds_R in B. lra.
Qed.
Lemma solve_hypb_neg Nm e tol mi : solve_kepler_hypb (- Nm) e tol mi = - solve_kepler_hypb Nm e tol mi.
Proof.
  destruct (hypb_char Nm e tol mi) as [k [Hk [E1 [F1 X1]]]].
  destruct (hypb_char (- Nm) e tol mi) as [j [Hj [E2 [F2 X2]]]]. cbv zeta in *.
  assert (Hx : forall n, exceeds (kepler_equ_hypb (iterate (hypb_newton (- Nm) e) n (hypb_guess (- Nm) e)) e (- Nm)) tol
    = exceeds (kepler_equ_hypb (iterate (hypb_newton Nm e) n (hypb_guess Nm e)) e Nm) tol).
  { intros n. apply exceeds_abs. rewrite hypb_iter_neg, hypb_equ_neg. apply Rabs_Ropp. }
  assert (k = j) as <-.
  { destruct (lt_eq_lt_dec k j) as [[L|L]|L]; auto; exfalso.
    - specialize (F2 _ L). rewrite Hx in F2. destruct X1 as [->|X1]; [lia|]. congruence.
    - specialize (F1 _ L). rewrite <- Hx in F1. destruct X2 as [->|X2]; [lia|]. congruence. }
  rewrite E1, E2. apply hypb_iter_neg.
Qed.
