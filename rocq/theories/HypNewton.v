(** * HypNewton: Newton's method for the hyperbolic Kepler equation when every step carries an error, for e >= 2 (C110) *)
From Coq Require Import Reals Lra Lia Psatz.
From Coquelicot Require Import Coquelicot.
From Verif Require Import Num NumR Ana UFacts SolveFacts SolveHypb.
Local Open Scope R_scope.

Lemma exp_neg_le (x : R) : 0 <= x -> exp (- x) <= 1 - x + x ^ 2 / 2.
Proof.
  intros H. pose proof (der_nonneg_from (fun t => 1 - t + t ^ 2 / 2 - exp (- t)) (fun t => 0 - 1 + t - - exp (- t)) 0) as P.
  specialize (P ltac:(intros t; auto_derive; [exact I|lra])).
  specialize (P ltac:(intros t Ht; pose proof (exp_ineq1_le (- t)); lra) 0 x ltac:(lra) H).
  cbv beta in P. rewrite Ropp_0, exp_0 in P. lra.
Qed.
Lemma exp_mono (a b : R) : a <= b -> exp a <= exp b.
Proof. intros [H|H]; [left; now apply exp_increasing|right; now rewrite H]. Qed.
Lemma exp_le_inv (x : R) : 0 <= x < 1 -> exp x <= / (1 - x).
Proof.
  intros H. rewrite <- (Ropp_involutive x) at 1. rewrite exp_Ropp. apply Rinv_le_contravar; [lra|].
  pose proof (exp_ineq1_le (- x)). lra.
Qed.
Lemma exp_pow (n : nat) (x : R) : exp (INR n * x) = exp x ^ n.
Proof.
  induction n; [rewrite Rmult_0_l, exp_0; reflexivity|].
  rewrite S_INR, Rmult_plus_distr_r, Rmult_1_l, exp_plus, IHn. simpl. ring.
Qed.
Lemma exp_07 : 2 <= exp (7 / 10).
Proof.
  pose proof (exp_neg_le (175 / 1000) ltac:(lra)) as A. pose proof (exp_pow 4 (- (175 / 1000))) as B.
  replace (INR 4 * - (175 / 1000)) with (- (7 / 10)) in B by (simpl; lra).
  assert (C : exp (- (7 / 10)) <= / 2).
  { rewrite B. apply Rle_trans with ((1 - 175 / 1000 + (175 / 1000) ^ 2 / 2) ^ 4); [|lra]. apply pow_incr. split; [left; apply exp_pos|exact A]. }
  rewrite <- (Ropp_involutive (7 / 10)), exp_Ropp. rewrite <- (Rinv_inv 2). apply Rinv_le_contravar; [apply exp_pos|exact C].
Qed.
Lemma exp_072 : exp (72 / 100) <= 22 / 10.
Proof.
  pose proof (exp_le_inv (9 / 100) ltac:(lra)) as A. pose proof (exp_pow 8 (9 / 100)) as B.
  replace (INR 8 * (9 / 100)) with (72 / 100) in B by (simpl; lra).
  rewrite B. apply Rle_trans with ((/ (1 - 9 / 100)) ^ 8); [apply pow_incr; split; [left; apply exp_pos|exact A]|].
  replace (/ (1 - 9 / 100)) with (100 / 91) by lra. lra.
Qed.
Lemma abs_sinh (x : R) : - cosh x <= sinh x <= cosh x.
Proof. unfold sinh, cosh. pose proof (exp_pos x). pose proof (exp_pos (- x)). lra. Qed.
Lemma cosh_shift (x a : R) : 0 <= a -> cosh (x + a) <= exp a * cosh x.
Proof.
  intros H. rewrite cosh_plus. pose proof (abs_sinh x). pose proof (sinh_nonneg a H).
  replace (exp a) with (cosh a + sinh a) by (unfold cosh, sinh; lra). nra.
Qed.
Lemma cosh_shift_l (x a : R) : 0 <= a -> cosh x <= exp a * cosh (x + a).
Proof.
  intros H. pose proof (cosh_shift (- (x + a)) a H) as P. replace (- (x + a) + a) with (- x) in P by ring.
  unfold cosh in *. rewrite !Ropp_involutive in P. rewrite (Rplus_comm (exp x)), (Rplus_comm (exp (x + a))). exact P.
Qed.
Lemma id_le_cosh (x : R) : Rabs x <= cosh x.
Proof.
  assert (Q : forall y, 0 <= y -> y <= cosh y) by (intros y Y; pose proof (cosh_ge_quad y Y); nra).
  destruct (Rle_dec 0 x) as [H|H]; [rewrite Rabs_pos_eq by lra; auto|]. rewrite Rabs_left by lra.
  replace (cosh x) with (cosh (- x)) by (unfold cosh; rewrite Ropp_involutive; lra). apply Q. lra.
Qed.

Section Root.
  Variables (e N X : R).
  Hypotheses (He : 2 <= e) (X0 : 0 <= X) (HX : e * sinh X - X = N).
  Definition nw (e N H : R) : R := H - (e * sinh H - H - N) / (e * cosh H - 1).

  Lemma slope (H : R) : e * cosh H / 2 <= e * cosh H - 1.
  Proof using He. pose proof (SolveFacts.cosh_ge_1 H). nra. Qed.
  Lemma X_le_N : X <= N.
  Proof using He X0 HX. pose proof (sinh_ge_id X X0). rewrite <- HX. nra. Qed.
  (** what one step leaves *)
  Lemma nw_err (H : R) : nw e N H - X = e * ((H - X) * cosh H - (sinh H - sinh X)) / (e * cosh H - 1).
  Proof using He HX.
    pose proof (slope H). pose proof (SolveFacts.cosh_ge_1 H). unfold nw. rewrite <- HX. field. nra.
  Qed.
  Lemma quot (y b H : R) : 0 <= y <= cosh H * b -> 0 <= e * y / (e * cosh H - 1) <= 2 * b.
  Proof using He.
    intros Y. pose proof (slope H) as S. pose proof (SolveFacts.cosh_ge_1 H) as C.
    assert (D : 0 < e * cosh H - 1) by nra. split.
    - apply Rmult_le_pos; [nra|left; apply Rinv_0_lt_compat; exact D].
    - apply Rmult_le_reg_r with (e * cosh H - 1); [exact D|]. unfold Rdiv. rewrite Rmult_assoc, Rinv_l by lra. nra.
  Qed.
  Lemma above (H : R) : X <= H -> 0 <= nw e N H - X <= (H - X) ^ 2.
  Proof using He X0 HX.
    intros L. rewrite nw_err. pose proof (SolveFacts.cosh_ge_1 H) as C.
    replace ((H - X) ^ 2) with (2 * ((H - X) ^ 2 / 2)) by field. apply quot. split.
    - destruct (mvt sinh cosh X H der_sinh) as [c [Hc E]]. rewrite Rmin_left, Rmax_right in Hc by lra.
      pose proof (cosh_incr c H ltac:(lra) ltac:(lra)). nra.
    - set (E := H - X). assert (E0 : 0 <= E) by (unfold E; lra).
      replace X with (H + - E) at 1 by (unfold E; ring). rewrite sinh_plus.
      replace (cosh (- E)) with (cosh E) by (unfold cosh; rewrite Ropp_involutive; lra).
      replace (sinh (- E)) with (- sinh E) by (unfold sinh; rewrite Ropp_involutive; lra).
      pose proof (abs_sinh H) as A. pose proof (SolveFacts.cosh_ge_1 E) as CE.
      pose proof (exp_neg_le E E0) as Q. rewrite <- exp_cosh_sinh in Q. nra.
  Qed.
  Lemma below (H : R) : H <= X <= H + / 4 -> Rabs (nw e N H - X) <= 3 * (H - X) ^ 2.
  Proof using He HX.
    intros L. set (a := X - H). assert (A0 : 0 <= a <= / 4) by (unfold a; lra).
    replace ((H - X) ^ 2) with (a ^ 2) by (unfold a; ring). rewrite nw_err.
    assert (Q : exp a <= 1 + a + 4 / 3 * a ^ 2).
    { apply Rle_trans with (1 := exp_le_inv a ltac:(lra)). apply Rmult_le_reg_r with (1 - a); [lra|]. rewrite Rinv_l by lra. nra. }
    pose proof (SolveFacts.cosh_ge_1 a) as Ca. pose proof (sinh_ge_id a (proj1 A0)) as Sa. pose proof (abs_sinh H) as A. pose proof (SolveFacts.cosh_ge_1 H) as C.
    assert (EQ : (H - X) * cosh H - (sinh H - sinh X) = sinh H * (cosh a - 1) + cosh H * (sinh a - a)).
    { replace X with (H + a) at 2 by (unfold a; ring). rewrite sinh_plus. unfold a. ring. }
    assert (EX : exp a = cosh a + sinh a) by (unfold cosh, sinh; lra).
    rewrite EQ. assert (B : Rabs (sinh H * (cosh a - 1) + cosh H * (sinh a - a)) <= cosh H * (4 / 3 * a ^ 2)).
    { apply Rabs_le. rewrite EX in Q. split; nra. }
    unfold Rdiv. rewrite Rabs_mult, Rabs_mult, (Rabs_pos_eq e), (Rabs_pos_eq (/ _)) by (try lra; left; apply Rinv_0_lt_compat; pose proof (slope H); nra).
    pose proof (quot _ _ H (conj (Rabs_pos _) B)) as P. unfold Rdiv in P. pose proof (pow2_ge_0 a). lra.
  Qed.
  Lemma guess_bounds : X <= arcsinh (2 * N / e) <= X + 7 / 10.
  Proof using He X0 HX.
    assert (T : 2 * N / e = 2 * sinh X - X * (2 / e)) by (rewrite <- HX; field; lra).
    pose proof (sinh_ge_id X X0) as S. assert (E2 : 0 < 2 / e <= 1).
    { split; [apply Rdiv_lt_0_compat; lra|]. apply Rmult_le_reg_r with e; [lra|]. unfold Rdiv. rewrite Rmult_assoc, Rinv_l; lra. }
    split.
    - rewrite <- (arcsinh_sinh X) at 1. apply arcsinh_le. rewrite T. nra.
    - rewrite <- (arcsinh_sinh (X + 7 / 10)). apply arcsinh_le. rewrite T, sinh_plus.
      pose proof exp_07 as Q. replace (exp (7 / 10)) with (cosh (7 / 10) + sinh (7 / 10)) in Q by (unfold cosh, sinh; lra).
      pose proof (abs_sinh X). pose proof (sinh_nonneg (7 / 10) ltac:(lra)). pose proof (SolveFacts.cosh_ge_1 (7 / 10)). nra.
  Qed.
  Lemma resid (H : R) : X <= H -> (H - X) * (e * cosh X / 2) <= e * sinh H - H - N.
  Proof using He X0 HX.
    intros L. destruct (mvt sinh cosh X H der_sinh) as [c [Hc E]]. rewrite Rmin_left, Rmax_right in Hc by lra.
    pose proof (cosh_incr X c X0 ltac:(lra)) as M. pose proof (slope X) as S. pose proof (SolveFacts.cosh_ge_1 X) as C.
    replace (e * sinh H - H - N) with (e * (sinh H - sinh X) - (H - X)) by (rewrite <- HX; ring). rewrite E.
    assert (P : 0 <= (H - X) * (e * (cosh c - cosh X))) by (apply Rmult_le_pos; [lra|apply Rmult_le_pos; lra]).
    assert (P2 : 0 <= (H - X) * (e * cosh X - 1 - e * cosh X / 2)) by (apply Rmult_le_pos; lra). lra.
  Qed.
  Lemma resid_below (H : R) : H <= X <= H + 2 / 100 -> (X - H) * (49 / 100 * (e * cosh X)) <= - (e * sinh H - H - N).
  Proof using He X0 HX.
    intros L. destruct (mvt sinh cosh H X der_sinh) as [c [Hc E]]. rewrite Rmin_left, Rmax_right in Hc by lra.
    pose proof (cosh_shift c (X - c) ltac:(lra)) as P. replace (c + (X - c)) with X in P by ring.
    pose proof (exp_le_inv (X - c) ltac:(lra)) as Q. assert (I1 : / (1 - (X - c)) <= / (98 / 100)) by (apply Rinv_le_contravar; lra).
    pose proof (SolveFacts.cosh_ge_1 c) as C. pose proof (slope c) as S.
    assert (B : cosh X <= / (98 / 100) * cosh c) by (apply Rle_trans with (1 := P); apply Rmult_le_compat_r; lra).
    assert (B' : 98 / 100 * cosh X <= cosh c) by lra. clear P Q I1 B.
    replace (- (e * sinh H - H - N)) with (e * (sinh X - sinh H) - (X - H)) by (rewrite <- HX; ring). rewrite E.
    assert (P : 0 <= (X - H) * (e * cosh c - 1 - e * cosh c / 2)) by (apply Rmult_le_pos; lra).
    assert (P2 : 0 <= (X - H) * (e * (cosh c - 98 / 100 * cosh X))) by (apply Rmult_le_pos; [lra|apply Rmult_le_pos; lra]). lra.
  Qed.
  (** sizes near the root *)
  Lemma N_size (H : R) : X - / 4 <= H -> 0 <= N <= 4 / 3 * (e * cosh H).
  Proof using He X0 HX.
    intros L. pose proof X_le_N as XN. split; [lra|]. pose proof (abs_sinh X) as A. pose proof (SolveFacts.cosh_ge_1 H) as C.
    assert (B : cosh X <= 4 / 3 * cosh H).
    { destruct (Rle_dec X H) as [K|K].
      - pose proof (cosh_incr X H X0 K). lra.
      - pose proof (cosh_shift H (X - H) ltac:(lra)) as P. replace (H + (X - H)) with X in P by ring.
        pose proof (exp_le_inv (X - H) ltac:(lra)) as Q. assert (/ (1 - (X - H)) <= 4 / 3) by (replace (4 / 3) with (/ (3 / 4)) by lra; apply Rinv_le_contravar; lra). nra. }
    rewrite <- HX. nra.
  Qed.
  Lemma D_size (H : R) : Rabs (H - X) <= 72 / 100 -> e * cosh H <= 22 / 10 * (e * cosh X).
  Proof using He.
    intros L. pose proof exp_072 as Q. pose proof (SolveFacts.cosh_ge_1 X) as C.
    assert (cosh H <= 22 / 10 * cosh X); [|nra]. pose proof (Rle_abs (H - X)) as L2. pose proof (Rle_abs (- (H - X))) as L3. rewrite Rabs_Ropp in L3.
    destruct (Rle_dec X H) as [K|K].
    - pose proof (cosh_shift X (H - X) ltac:(lra)) as P. replace (X + (H - X)) with H in P by ring.
      assert (exp (H - X) <= exp (72 / 100)) by (apply exp_mono; lra). nra.
    - pose proof (cosh_shift_l H (X - H) ltac:(lra)) as P. replace (H + (X - H)) with X in P by ring.
      assert (exp (X - H) <= exp (72 / 100)) by (apply exp_mono; lra). nra.
  Qed.
  Lemma D_top (H : R) : Rabs (H - X) <= 72 / 100 -> e * cosh H <= 22 / 10 * (e + 2 * N).
  Proof using He X0 HX.
    intros L. pose proof (D_size H L) as D. pose proof X_le_N as XN.
    assert (e * cosh X <= e + 2 * N); [|lra].
    assert (cosh X <= 1 + sinh X) by (pose proof (exp_cosh_sinh X); assert (exp (- X) <= exp 0) by (apply exp_mono; lra); rewrite exp_0 in *; lra).
    replace N with (e * sinh X - X) in * by lra. nra.
  Qed.
End Root.
