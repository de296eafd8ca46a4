(** * HypNear: Newton's method on the hyperbolic Kepler equation for e >= 6/5, real numbers (proofs for C112) *)
From Coq Require Import Reals Lra Psatz.
From Coquelicot Require Import Coquelicot.
From Verif Require Import Num NumR Ana UFacts SolveFacts SolveHypb HypNewton.
Local Open Scope R_scope.

Lemma two_c_s (c s p q k : R) : 0 <= c -> 0 <= p -> 0 <= k -> c * c - s * s = 1 -> q ^ 2 + k ^ 2 <= p ^ 2 -> k <= p * c - q * s.
Proof.
  intros C P K E H. assert (L : (q * s + k) ^ 2 <= (p * c) ^ 2).
  { replace ((p * c) ^ 2) with (p ^ 2 * (1 + s * s)) by (replace (1 + s * s) with (c * c) by lra; ring).
    assert (0 <= (q - k * s) ^ 2) by apply pow2_ge_0. assert (0 <= s * s) by nra. nra. }
  assert (0 <= p * c) by (apply Rmult_le_pos; lra). nra.
Qed.
Lemma c2_s2 (x : R) : cosh x * cosh x - sinh x * sinh x = 1.
Proof.
  unfold cosh, sinh. assert (exp x * exp (- x) = 1) by (rewrite <- exp_plus; replace (x + - x) with 0 by ring; apply exp_0). nra.
Qed.
(** short arguments *)
Lemma sinh_le_cosh (b : R) : 0 <= b -> sinh b <= b * cosh b.
Proof.
  intros B. destruct (mvt sinh cosh 0 b der_sinh) as [c [Hc E]]. rewrite Rmin_left, Rmax_right in Hc by lra.
  rewrite sinh_0 in E. pose proof (cosh_incr c b ltac:(lra) ltac:(lra)). nra.
Qed.
Lemma short (a : R) : 0 <= a <= 52 / 100 -> 1 <= cosh a <= 1 + 54 / 100 * a ^ 2 /\ a <= sinh a <= a + 14 / 100 * a ^ 2.
Proof.
  intros A. set (b := a / 2). assert (B : 0 <= b <= 26 / 100) by (unfold b; lra).
  pose proof (sinh_le_cosh b (proj1 B)) as S. pose proof (c2_s2 b) as Q. pose proof (SolveFacts.cosh_ge_1 b) as C. pose proof (sinh_nonneg b (proj1 B)) as S0.
  assert (bb : b * b <= 676 / 10000) by nra.
  assert (SS : sinh b * sinh b <= 1073 / 1000 * (b * b)).
  { assert (sinh b * sinh b <= b * cosh b * (b * cosh b)) by (apply Rmult_le_compat; lra).
    assert (CC : cosh b * cosh b * (1 - b * b) <= 1) by lra.
    assert (cosh b * cosh b <= 1073 / 1000) by (assert (0 <= cosh b * cosh b) by nra; nra). assert (0 <= b * b) by nra. nra. }
  assert (E1 : cosh a = 1 + 2 * (sinh b * sinh b)).
  { replace a with (b + b) by (unfold b; field). rewrite cosh_plus. lra. }
  assert (E2 : sinh a = 2 * (sinh b * cosh b)) by (replace a with (b + b) by (unfold b; field); rewrite sinh_plus; ring).
  assert (ab : b * b = a ^ 2 / 4) by (unfold b; field).
  split.
  - rewrite E1. assert (0 <= sinh b * sinh b) by nra. rewrite ab in SS. nra.
  - split; [apply sinh_ge_id; lra|]. rewrite E2.
    assert (sinh b * cosh b <= b * cosh b * cosh b) by (apply Rmult_le_compat_r; lra).
    assert (b * (sinh b * sinh b) <= b * (1073 / 1000 * (b * b))) by (apply Rmult_le_compat_l; lra).
    assert (b * (b * b) <= 26 / 100 * (b * b)) by (apply Rmult_le_compat_r; nra).
    replace (b * cosh b * cosh b) with (b + b * (sinh b * sinh b)) in * by (replace (sinh b * sinh b) with (cosh b * cosh b - 1) by lra; ring).
    assert (2 * b = a) by (unfold b; field). nra.
Qed.

Section Near.
  Variables (e N X : R).
  Hypotheses (He : 6 / 5 <= e) (X0 : 0 <= X) (HX : e * sinh X - X = N).

  Lemma slope6 (H : R) : e * cosh H / 6 <= e * cosh H - 1.
  Proof using He. pose proof (SolveFacts.cosh_ge_1 H). nra. Qed.
  Lemma slope_pos (H : R) : / 5 <= e * cosh H - 1.
  Proof using He. pose proof (SolveFacts.cosh_ge_1 H). nra. Qed.
  Lemma X_le_5N : X <= 5 * N.
  Proof using He X0 HX. pose proof (sinh_ge_id X X0). rewrite <- HX. nra. Qed.
  Lemma nw_err6 (H : R) : nw e N H - X = e * ((H - X) * cosh H - (sinh H - sinh X)) / (e * cosh H - 1).
  Proof using He HX. pose proof (slope_pos H). unfold nw. rewrite <- HX. field. lra. Qed.
  (** y = p sinh H + q cosh H with small p, q *)
  Lemma quot6 (y b H : R) : 0 <= y -> e * y <= b * (e * cosh H - 1) -> 0 <= e * y / (e * cosh H - 1) <= b.
  Proof using He.
    intros Y L. pose proof (slope_pos H) as S. split.
    - apply Rmult_le_pos; [apply Rmult_le_pos; lra|left; apply Rinv_0_lt_compat; lra].
    - apply Rmult_le_reg_r with (e * cosh H - 1); [lra|]. unfold Rdiv. rewrite Rmult_assoc, Rinv_l by lra. lra.
  Qed.
  Lemma above6 (H : R) : X <= H -> 0 <= nw e N H - X <= (H - X) ^ 2.
  Proof using He X0 HX.
    intros L. rewrite nw_err6. pose proof (SolveFacts.cosh_ge_1 H) as C. set (E := H - X). assert (E0 : 0 <= E) by (unfold E; lra).
    assert (Y : 0 <= E * cosh H - (sinh H - sinh X) <= sinh H * (E ^ 2 / 2)).
    { split.
      - destruct (mvt sinh cosh X H der_sinh) as [c [Hc M]]. rewrite Rmin_left, Rmax_right in Hc by lra.
        pose proof (cosh_incr c H ltac:(lra) ltac:(lra)). unfold E. nra.
      - replace X with (H + - E) by (unfold E; ring). rewrite sinh_plus.
        replace (cosh (- E)) with (cosh E) by (unfold cosh; rewrite Ropp_involutive; lra).
        replace (sinh (- E)) with (- sinh E) by (unfold sinh; rewrite Ropp_involutive; lra).
        pose proof (abs_sinh H) as A. pose proof (sinh_nonneg H ltac:(lra)) as S0. pose proof (sinh_ge_id E E0) as SE.
        pose proof (exp_neg_le E E0) as Q. rewrite <- exp_cosh_sinh in Q.
        assert (K1 : sinh H * (cosh E - 1 - E ^ 2 / 2) <= sinh H * (sinh E - E)) by (apply Rmult_le_compat_l; lra).
        assert (K2 : sinh H * (sinh E - E) <= cosh H * (sinh E - E)) by (apply Rmult_le_compat_r; lra). nra. }
    apply quot6; [lra|].
    pose proof (two_c_s (cosh H) (sinh H) 2 1 (17 / 10) ltac:(lra) ltac:(lra) ltac:(lra) (c2_s2 H) ltac:(lra)) as T.
    assert (P : 0 <= E ^ 2) by apply pow2_ge_0.
    assert (G : e * sinh H / 2 <= e * cosh H - 1) by nra.
    apply Rle_trans with (e * (sinh H * (E ^ 2 / 2))); [apply Rmult_le_compat_l; lra|].
    replace (e * (sinh H * (E ^ 2 / 2))) with (E ^ 2 * (e * sinh H / 2)) by field. apply Rmult_le_compat_l; lra.
  Qed.
  Lemma below6 (H : R) : H <= X <= H + 52 / 100 -> Rabs (nw e N H - X) <= 17 / 10 * (H - X) ^ 2 /\ (0 <= H -> 0 <= nw e N H - X).
  Proof using He HX.
    intros L. set (a := X - H). assert (A0 : 0 <= a <= 52 / 100) by (unfold a; lra).
    replace ((H - X) ^ 2) with (a ^ 2) by (unfold a; ring). rewrite nw_err6.
    destruct (short a A0) as [Ca Sa]. pose proof (SolveFacts.cosh_ge_1 H) as C. pose proof (slope_pos H) as SP. pose proof (pow2_ge_0 a) as P.
    assert (EQ : (H - X) * cosh H - (sinh H - sinh X) = sinh H * (cosh a - 1) + cosh H * (sinh a - a)).
    { replace X with (H + a) at 2 by (unfold a; ring). rewrite sinh_plus. unfold a. ring. }
    rewrite EQ.
    assert (Y0 : 0 <= cosh H * (sinh a - a)) by (apply Rmult_le_pos; lra).
    split.
    - set (z := Rabs (sinh H)). pose proof (Rabs_pos (sinh H)) as Z0. fold z in Z0.
      assert (Zz : z * z = sinh H * sinh H) by (unfold z; rewrite <- Rabs_mult; apply Rabs_pos_eq; nra).
      assert (B : Rabs (sinh H * (cosh a - 1) + cosh H * (sinh a - a)) <= a ^ 2 * (54 / 100 * z + 14 / 100 * cosh H)).
      { apply Rle_trans with (1 := Rabs_triang _ _). rewrite (Rabs_pos_eq _ Y0), Rabs_mult, (Rabs_pos_eq (cosh a - 1)) by lra. fold z.
        assert (z * (cosh a - 1) <= z * (54 / 100 * a ^ 2)) by (apply Rmult_le_compat_l; lra).
        assert (cosh H * (sinh a - a) <= cosh H * (14 / 100 * a ^ 2)) by (apply Rmult_le_compat_l; lra). lra. }
      unfold Rdiv. rewrite Rabs_mult, Rabs_mult, (Rabs_pos_eq e), (Rabs_pos_eq (/ _)) by (try lra; left; apply Rinv_0_lt_compat; lra).
      apply (quot6 (Rabs (sinh H * (cosh a - 1) + cosh H * (sinh a - a))) (17 / 10 * a ^ 2) H (Rabs_pos _)).
      pose proof (two_c_s (cosh H) z (156 / 100) (54 / 100) (1442 / 1000) ltac:(lra) ltac:(lra) ltac:(lra) ltac:(rewrite Zz; apply c2_s2) ltac:(lra)) as T.
      apply Rle_trans with (e * (a ^ 2 * (54 / 100 * z + 14 / 100 * cosh H))); [apply Rmult_le_compat_l; lra|].
      replace (e * (a ^ 2 * (54 / 100 * z + 14 / 100 * cosh H))) with (a ^ 2 * (e * (54 / 100 * z + 14 / 100 * cosh H))) by ring.
      replace (17 / 10 * a ^ 2 * (e * cosh H - 1)) with (a ^ 2 * (17 / 10 * (e * cosh H - 1))) by ring. apply Rmult_le_compat_l; [exact P|]. nra.
    - intros H0. apply Rmult_le_pos; [|left; apply Rinv_0_lt_compat; lra]. apply Rmult_le_pos; [lra|].
      pose proof (sinh_nonneg H H0). assert (0 <= sinh H * (cosh a - 1)) by (apply Rmult_le_pos; lra). lra.
  Qed.
  Lemma exp_half : exp (1 / 2) <= 166 / 100.
  Proof using.
    replace (1 / 2) with (INR 32 * (1 / 64)) by (simpl; lra). rewrite exp_pow. apply Rle_trans with ((64 / 63) ^ 32); [|simpl; lra].
    apply pow_incr. split; [left; apply exp_pos|]. apply Rle_trans with (1 := exp_le_inv (1 / 64) ltac:(lra)). right. field.
  Qed.
  Lemma cosh_half : cosh (1 / 2) <= 1133 / 1000.
  Proof using.
    pose proof exp_half as E. pose proof (exp_ineq1_le (1 / 2)) as E1. unfold cosh. rewrite exp_Ropp.
    set (x := exp (1 / 2)) in *. assert (/ x * x = 1) by (apply Rinv_l; lra). assert (0 < / x) by (apply Rinv_0_lt_compat; lra).
    apply Rmult_le_reg_r with x; [lra|]. replace ((x + / x) / 2 * x) with ((x * x + / x * x) / 2) by (field; lra). nra.
  Qed.
  Lemma guess6 : X - 1 / 2 <= arcsinh (2 * N / e) <= X + 7 / 10 /\ 0 <= arcsinh (2 * N / e) /\ X <= 3 * sinh (arcsinh (2 * N / e)).
  Proof using He X0 HX.
    assert (T : 2 * N / e = 2 * sinh X - X * (2 / e)) by (rewrite <- HX; field; lra).
    pose proof (sinh_ge_id X X0) as S. assert (E2 : 0 < 2 / e <= 5 / 3).
    { split; [apply Rdiv_lt_0_compat; lra|]. apply Rmult_le_reg_r with e; [lra|]. unfold Rdiv. rewrite Rmult_assoc, Rinv_l; lra. }
    assert (E3 : X * (2 / e) <= X * (5 / 3)) by (apply Rmult_le_compat_l; lra). assert (E4 : 0 <= X * (2 / e)) by (apply Rmult_le_pos; lra).
    repeat split.
    - rewrite <- (arcsinh_sinh (X - 1 / 2)). apply arcsinh_le. rewrite T. replace (X - 1 / 2) with (X + - (1 / 2)) by ring. rewrite sinh_plus.
      replace (cosh (- (1 / 2))) with (cosh (1 / 2)) by (unfold cosh; rewrite Ropp_involutive; lra).
      replace (sinh (- (1 / 2))) with (- sinh (1 / 2)) by (unfold sinh; rewrite Ropp_involutive; lra).
      pose proof cosh_half as CH. pose proof (sinh_ge_cube (1 / 2) ltac:(lra)) as SH. pose proof (sinh_ge_cube X X0) as SX. pose proof (SolveFacts.cosh_ge_1 X) as CX.
      assert (C2 : 1 + X ^ 2 / 2 <= cosh X).
      { pose proof (sinh_ge_id (X / 2) ltac:(lra)). replace X with (X / 2 + X / 2) at 2 by field. rewrite cosh_plus. pose proof (c2_s2 (X / 2)). nra. }
      assert (K1 : sinh X * cosh (1 / 2) <= sinh X * (1133 / 1000)) by (apply Rmult_le_compat_l; lra).
      assert (K2 : cosh X * (52 / 100) <= cosh X * sinh (1 / 2)) by (apply Rmult_le_compat_l; lra).
      assert (P : 0 <= 52 / 100 - 8 / 10 * X + 26 / 100 * X ^ 2 + 1445 / 10000 * X ^ 3).
      { assert (0 <= X * (X - 1) ^ 2) by (apply Rmult_le_pos; [lra|apply pow2_ge_0]). pose proof (pow2_ge_0 (X - 86 / 100)). nra. }
      simpl pow in *. lra.
    - rewrite <- (arcsinh_sinh (X + 7 / 10)). apply arcsinh_le. rewrite T, sinh_plus.
      pose proof exp_07 as Q. replace (exp (7 / 10)) with (cosh (7 / 10) + sinh (7 / 10)) in Q by (unfold cosh, sinh; lra).
      pose proof (abs_sinh X). pose proof (sinh_nonneg (7 / 10) ltac:(lra)). pose proof (SolveFacts.cosh_ge_1 (7 / 10)). nra.
    - rewrite <- arcsinh_0. apply arcsinh_le. lra.
    - rewrite sinh_arcsinh. lra.
  Qed.
  (** the slope near the root *)
  Lemma slope_near (c : R) : c <= X <= c + 52 / 100 -> (e * cosh X - 1) / 3 <= e * cosh c - 1.
  Proof using He.
    intros L. set (a := X - c). assert (A0 : 0 <= a <= 52 / 100) by (unfold a; lra). destruct (short a A0) as [Ca Sa].
    assert (a2 : a ^ 2 <= 2704 / 10000) by nra.
    replace X with (c + a) by (unfold a; ring). rewrite cosh_plus. pose proof (SolveFacts.cosh_ge_1 c) as C.
    set (z := Rabs (sinh c)). pose proof (Rabs_pos (sinh c)) as Z0. fold z in Z0. pose proof (Rle_abs (sinh c)) as Z1. fold z in Z1.
    assert (Zz : z * z = sinh c * sinh c) by (unfold z; rewrite <- Rabs_mult; apply Rabs_pos_eq; nra).
    assert (K1 : sinh c * sinh a <= z * (56 / 100)) by (apply Rle_trans with (z * sinh a); [apply Rmult_le_compat_r; lra|apply Rmult_le_compat_l; lra]).
    assert (K2 : cosh c * cosh a <= cosh c * (1147 / 1000)) by (apply Rmult_le_compat_l; lra).
    pose proof (two_c_s (cosh c) z (1853 / 1000) (56 / 100) (176 / 100) ltac:(lra) ltac:(lra) ltac:(lra) ltac:(rewrite Zz; apply c2_s2) ltac:(lra)) as T. nra.
  Qed.
  Lemma resid6 (H : R) : X - 52 / 100 <= H -> Rabs (H - X) * ((e * cosh X - 1) / 3) <= Rabs (e * sinh H - H - N).
  Proof using He X0 HX.
    intros L. pose proof (slope_pos X) as SX. destruct (Rle_dec X H) as [K|K].
    - destruct (mvt sinh cosh X H der_sinh) as [c [Hc E]]. rewrite Rmin_left, Rmax_right in Hc by lra.
      pose proof (cosh_incr X c X0 ltac:(lra)) as M. assert (e * cosh X <= e * cosh c) by (apply Rmult_le_compat_l; lra).
      replace (e * sinh H - H - N) with (e * (sinh H - sinh X) - (H - X)) by (rewrite <- HX; ring). rewrite E.
      replace (e * (cosh c * (H - X)) - (H - X)) with ((H - X) * (e * cosh c - 1)) by ring || replace (e * ((H - X) * cosh c) - (H - X)) with ((H - X) * (e * cosh c - 1)) by ring.
      rewrite Rabs_mult, (Rabs_pos_eq (e * cosh c - 1)) by lra. apply Rmult_le_compat_l; [apply Rabs_pos|lra].
    - destruct (mvt sinh cosh H X der_sinh) as [c [Hc E]]. rewrite Rmin_left, Rmax_right in Hc by lra.
      pose proof (slope_near c ltac:(lra)) as M.
      replace (e * sinh H - H - N) with (- (e * (sinh X - sinh H) - (X - H))) by (rewrite <- HX; ring). rewrite E.
      replace (- (e * (cosh c * (X - H)) - (X - H))) with ((H - X) * (e * cosh c - 1)) by ring || replace (- (e * ((X - H) * cosh c) - (X - H))) with ((H - X) * (e * cosh c - 1)) by ring.
      rewrite Rabs_mult, (Rabs_pos_eq (e * cosh c - 1)) by lra. apply Rmult_le_compat_l; [apply Rabs_pos|lra].
  Qed.
  Lemma N_size6 (H : R) : X - 52 / 100 <= H -> 0 <= N <= 18 / 10 * (e * cosh H).
  Proof using He X0 HX.
    intros L. pose proof X_le_5N as XN. split; [lra|]. pose proof (abs_sinh X) as A. pose proof (SolveFacts.cosh_ge_1 H) as C.
    assert (B : cosh X <= 18 / 10 * cosh H).
    { destruct (Rle_dec X H) as [K|K].
      - pose proof (cosh_incr X H X0 K). lra.
      - destruct (short (X - H) ltac:(lra)) as [Ca Sa]. assert ((X - H) ^ 2 <= 2704 / 10000) by nra. pose proof (abs_sinh H) as AH.
        replace X with (H + (X - H)) by ring. rewrite cosh_plus. nra. }
    rewrite <- HX. nra.
  Qed.
  Lemma D_size6 (H : R) : Rabs (H - X) <= 72 / 100 -> e * cosh H <= 22 / 10 * (e * cosh X).
  Proof using He.
    intros L. pose proof exp_072 as Q. pose proof (SolveFacts.cosh_ge_1 X) as C.
    assert (cosh H <= 22 / 10 * cosh X); [|nra]. pose proof (Rle_abs (H - X)) as L2. pose proof (Rle_abs (- (H - X))) as L3. rewrite Rabs_Ropp in L3.
    destruct (Rle_dec X H) as [K|K].
    - pose proof (cosh_shift X (H - X) ltac:(lra)) as P. replace (X + (H - X)) with H in P by ring.
      assert (exp (H - X) <= exp (72 / 100)) by (apply exp_mono; lra). nra.
    - pose proof (cosh_shift_l H (X - H) ltac:(lra)) as P. replace (H + (X - H)) with X in P by ring.
      assert (exp (X - H) <= exp (72 / 100)) by (apply exp_mono; lra). nra.
  Qed.
  Lemma D_top6 (H : R) : Rabs (H - X) <= 72 / 100 -> e * cosh H <= 22 / 10 * (e + 6 * N).
  Proof using He X0 HX.
    intros L. pose proof (D_size6 H L) as D. pose proof X_le_5N as XN.
    assert (e * cosh X <= e + 6 * N); [|lra].
    assert (cosh X <= 1 + sinh X) by (pose proof (exp_cosh_sinh X); assert (exp (- X) <= exp 0) by (apply exp_mono; lra); rewrite exp_0 in *; lra).
    replace N with (e * sinh X - X) in * by lra. nra.
  Qed.
End Near.
