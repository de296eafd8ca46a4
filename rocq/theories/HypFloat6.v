(** * HypFloat6: the hyperbolic Kepler solver in any arithmetic that rounds, for e >= 6/5 (proofs for C112) *)
From Coq Require Import ZArith Reals Lra Lia Psatz Bool.
From Verif Require Import Num Spec KepEqu LoopFacts HypNewton HypNear.
From Verif Require SolveFacts HypFloat.
Import HypFloat (abs_le, abs_inv, sq_le, sq_small, sq_small', mul_small, ln_near).
Local Open Scope R_scope.
Ltac close := repeat match goal with H : Rabs _ <= _ |- _ => apply abs_inv in H end; apply abs_le; lra.

Section Float.
  Variables (F : Type) (NF : Num F) (val : F -> R) (fin : F -> Prop) (u big : R).
  Hypothesis Hu : 0 < u <= / 1000000.
  Hypothesis f_add : forall x y B, fin x -> fin y -> 1 <= B <= big -> Rabs (val x + val y) <= B -> fin (n_add x y) /\ Rabs (val (n_add x y) - (val x + val y)) <= u * B.
  Hypothesis f_sub : forall x y B, fin x -> fin y -> 1 <= B <= big -> Rabs (val x - val y) <= B -> fin (n_sub x y) /\ Rabs (val (n_sub x y) - (val x - val y)) <= u * B.
  Hypothesis f_mul : forall x y B, fin x -> fin y -> 1 <= B <= big -> Rabs (val x * val y) <= B -> fin (n_mul x y) /\ Rabs (val (n_mul x y) - (val x * val y)) <= u * B.
  Hypothesis f_div : forall x y B, fin x -> val y <> 0 -> 1 <= B <= big -> Rabs (val x / val y) <= B -> fin (n_div x y) /\ Rabs (val (n_div x y) - (val x / val y)) <= u * B.
  Hypothesis f_sqrt : forall x B, fin x -> 0 < val x -> 1 <= B <= big -> sqrt (val x) <= B -> fin (n_sqrt x) /\ Rabs (val (n_sqrt x) - sqrt (val x)) <= u * B.
  Hypothesis f_one : fin (n_Z 1) /\ val (n_Z 1) = 1.
  Hypothesis f_two : fin (n_Z 2) /\ val (n_Z 2) = 2.
  Hypothesis f_test : forall x t, fin x -> fin t -> exceeds x t = false -> Rabs (val x) <= val t.
  Variables (Nm e : F) (delta X s : R).
  Hypothesis Hs : s = 1 \/ s = -1.
  Let v := val e.
  Let w := val Nm.
  Hypotheses (Fe : fin e) (FN : fin Nm) (He : 6 / 5 <= v) (X0 : 0 <= X) (HX : v * sinh X - X = s * w).
  Hypothesis Hd : 0 <= delta.
  Let D := delta * (X + 13) + (X + 70) * u.
  Hypothesis HD : D <= / 1000.
  Hypothesis B1 : 9 * (v + 6 * (s * w)) <= big.
  Hypothesis B2 : 3 * (1 + 2 * (s * w) / v) ^ 2 <= big.
  Hypothesis Hsinh : forall x, fin x -> Rabs (val x) <= X + 1 -> fin (n_sinh x) /\ Rabs (val (n_sinh x) - sinh (val x)) <= delta * cosh (val x).
  Hypothesis Hcosh : forall x, fin x -> Rabs (val x) <= X + 1 -> fin (n_cosh x) /\ Rabs (val (n_cosh x) - cosh (val x)) <= delta * cosh (val x).

  Lemma sizes : 0 <= D /\ 0 <= X * u /\ 0 <= delta * X /\ delta <= / 13000 /\ X <= 5 * (s * w).
  Proof using Hu Hd HD He X0 HX.
    assert (0 <= delta * X) by (apply Rmult_le_pos; lra). assert (0 <= X * u) by (apply Rmult_le_pos; lra).
    pose proof (X_le_5N v (s * w) X He X0 HX). unfold D in *. repeat split; lra.
  Qed.
  Lemma abs_s (x : R) : Rabs (s * x) = Rabs x.
  Proof using Hs. destruct Hs as [E | E]; rewrite E; [now rewrite Rmult_1_l|]. replace (-1 * x) with (- x) by ring. apply Rabs_Ropp. Qed.
  Lemma sinh_s (x : R) : sinh (s * x) = s * sinh x.
  Proof using Hs. destruct Hs as [E | E]; rewrite E; [now rewrite !Rmult_1_l|]. replace (-1 * x) with (- x) by ring. unfold sinh. rewrite Ropp_involutive. lra. Qed.
  Lemma cosh_s (x : R) : cosh (s * x) = cosh x.
  Proof using Hs. destruct Hs as [E | E]; rewrite E; [now rewrite Rmult_1_l|]. replace (-1 * x) with (- x) by ring. unfold cosh. rewrite Ropp_involutive. lra. Qed.
  Lemma s_bound (x b : R) : - b <= s * x <= b -> - b <= x <= b.
  Proof using Hs. destruct Hs as [E | E]; rewrite E; lra. Qed.
  Lemma resid_close (H : F) : fin H -> - (52 / 100) <= s * val H - X <= 72 / 100 -> let Q := v * cosh (val H) in
    fin (kepler_equ_hypb H e Nm) /\ Rabs (val (kepler_equ_hypb H e Nm) - (v * sinh (val H) - val H - w)) <= Q * (delta + 7 * u).
  Proof using f_mul f_sub Hu Hs Fe FN He X0 HX Hd HD B1 Hsinh.
    intros FH R Q. destruct sizes as (D0 & Xu & dX & d1 & Xw). set (h := val H) in *.
    pose proof (D_top6 v (s * w) X He X0 HX (s * h) ltac:(apply abs_le; lra)) as T. rewrite cosh_s in T. fold Q in T.
    pose proof (N_size6 v (s * w) X He X0 HX (s * h) ltac:(lra)) as NS. rewrite cosh_s in NS. fold Q in NS.
    assert (wQ := s_bound w (18 / 10 * Q) ltac:(lra)).
    pose proof (SolveFacts.cosh_ge_1 h) as C. pose proof (abs_sinh h) as A. pose proof (id_le_cosh h) as ID.
    assert (Q2 : cosh h <= 5 / 6 * Q) by (unfold Q; nra).
    destruct (Hsinh H FH) as [Fs Es]; [fold h; rewrite <- abs_s; apply abs_le; lra|]. fold h in Es.
    assert (S1 : - Q <= v * sinh h <= Q) by (unfold Q; nra).
    assert (dQ := mul_small delta (/ 13000) Q ltac:(lra) ltac:(lra)). assert (uQ := mul_small u (/ 1000000) Q ltac:(lra) ltac:(lra)).
    assert (Es' : Rabs (v * val (n_sinh H) - v * sinh h) <= delta * Q).
    { rewrite <- Rmult_minus_distr_l, Rabs_mult, (Rabs_pos_eq v) by lra. unfold Q. pose proof (Rabs_pos (val (n_sinh H) - sinh h)). nra. }
    destruct (f_mul e (n_sinh H) (101 / 100 * Q) Fe Fs ltac:(lra)) as [F1 E1]; [fold v; close|]. fold v in E1.
    destruct (f_sub (n_mul e (n_sinh H)) H (19 / 10 * Q) F1 FH ltac:(lra)) as [F2 E2]; [fold h; close|]. fold h in E2.
    destruct (f_sub (n_sub (n_mul e (n_sinh H)) H) Nm (38 / 10 * Q) F2 FN ltac:(lra)) as [F3 E3]; [fold w; close|]. fold w in E3.
    split; [exact F3|]. unfold kepler_equ_hypb. close.
  Qed.
  Lemma step_close (H : F) : fin H -> - (52 / 100) <= s * val H - X <= 72 / 100 ->
    fin (hypb_newton Nm e H) /\ Rabs (s * val (hypb_newton Nm e H) - nw v (s * w) (s * val H)) <= D.
  Proof using f_mul f_sub f_div f_one Hu Hs Fe FN He X0 HX Hd HD B1 Hsinh Hcosh.
    intros FH R. destruct (resid_close H FH R) as [Ff Ef]. destruct sizes as (D0 & Xu & dX & d1 & Xw). set (h := val H) in *. set (Q := v * cosh h) in *.
    pose proof (D_top6 v (s * w) X He X0 HX (s * h) ltac:(apply abs_le; lra)) as T. rewrite cosh_s in T. fold Q in T.
    pose proof (SolveFacts.cosh_ge_1 h) as C. assert (Q2 : cosh h <= 5 / 6 * Q) by (unfold Q; nra).
    assert (hX := s_bound h (X + 72 / 100) ltac:(lra)).
    assert (dQ := mul_small delta (/ 13000) Q ltac:(lra) ltac:(lra)). assert (uQ := mul_small u (/ 1000000) Q ltac:(lra) ltac:(lra)).
    destruct (Hcosh H FH) as [Fc Ec]; [fold h; apply abs_le; lra|]. fold h in Ec.
    assert (Ec' : Rabs (v * val (n_cosh H) - Q) <= delta * Q).
    { unfold Q at 1. rewrite <- Rmult_minus_distr_l, Rabs_mult, (Rabs_pos_eq v) by lra. unfold Q. pose proof (Rabs_pos (val (n_cosh H) - cosh h)). nra. }
    destruct (f_mul e (n_cosh H) (101 / 100 * Q) Fe Fc ltac:(lra)) as [F4 E4]; [fold v; close|]. fold v in E4.
    destruct f_one as [G1 V1].
    destruct (f_sub (n_mul e (n_cosh H)) (n_Z 1) (102 / 100 * Q) F4 G1 ltac:(lra)) as [F5 E5]; [rewrite V1; close|]. rewrite V1 in E5.
    unfold hypb_newton, dH. set (ff := kepler_equ_hypb H e Nm) in *. set (dd := n_sub (n_mul e (n_cosh H)) (n_Z 1)) in *.
    set (f := v * sinh h - h - w) in *. set (d := Q - 1).
    assert (E5' : Rabs (val dd - d) <= delta * Q + 3 * (u * Q)) by (unfold d; close).
    assert (d2 : Q / 6 <= d) by (unfold d; lra).
    assert (d3 : 99 / 100 * d <= val dd) by (apply abs_inv in E5'; lra).
    assert (FD : s * (f / d) = s * h - nw v (s * w) (s * h)).
    { unfold nw. rewrite sinh_s, cosh_s. fold Q d. unfold f. field. lra. }
    assert (Bq : Rabs (f / d) <= 1).
    { rewrite <- abs_s, FD. destruct (Rle_dec X (s * h)) as [K|K].
      - pose proof (above6 v (s * w) X He X0 HX (s * h) K) as P. pose proof (sq_small (s * h - X) (72 / 100) ltac:(lra)). apply abs_le. lra.
      - destruct (below6 v (s * w) X He HX (s * h) ltac:(lra)) as [P _]. pose proof (sq_small' (s * h - X) (52 / 100) ltac:(lra)). close. }
    assert (I1 : 0 < / val dd <= 61 / 10 * / Q).
    { split; [apply Rinv_0_lt_compat; lra|]. replace (61 / 10 * / Q) with (/ (10 / 61 * Q)) by (field; lra). apply Rinv_le_contravar; lra. }
    assert (QQ : Q * / Q = 1) by (field; lra).
    assert (Qd : Rabs (val ff / val dd - f / d) <= 61 / 10 * (delta + 7 * u) + 1 * (61 / 10 * (delta + 3 * u))).
    { replace (val ff / val dd - f / d) with ((val ff - f) * / val dd + f / d * ((d - val dd) * / val dd)) by (field; lra).
      assert (Iq : 0 < / Q) by (apply Rinv_0_lt_compat; lra).
      apply Rle_trans with (1 := Rabs_triang _ _). rewrite !Rabs_mult, (Rabs_pos_eq (/ val dd)) by lra. rewrite (Rabs_minus_sym d).
      pose proof (Rabs_pos (val ff - f)). pose proof (Rabs_pos (val dd - d)). pose proof (Rabs_pos (f / d)).
      apply Rplus_le_compat.
      - apply Rle_trans with (Q * (delta + 7 * u) * (61 / 10 * / Q)); [apply Rmult_le_compat; lra|].
        right. transitivity (61 / 10 * (delta + 7 * u) * (Q * / Q)); [ring|rewrite QQ; ring].
      - apply Rmult_le_compat; [assumption|apply Rmult_le_pos; lra|exact Bq|].
        apply Rle_trans with ((delta * Q + 3 * (u * Q)) * (61 / 10 * / Q)); [apply Rmult_le_compat; lra|].
        right. transitivity (61 / 10 * (delta + 3 * u) * (Q * / Q)); [ring|rewrite QQ; ring]. }
    destruct (f_div ff dd (101 / 100) Ff ltac:(lra) ltac:(lra)) as [F6 E6]; [close|].
    destruct (f_sub H (n_div ff dd) (X + 3) FH F6 ltac:(lra)) as [F7 E7]; [fold h; close|]. fold h in E7.
    split; [exact F7|]. replace (nw v (s * w) (s * h)) with (s * (h - f / d)) by lra.
    rewrite <- Rmult_minus_distr_l, abs_s. unfold D. close.
  Qed.
  (** the start; before periapsis its sum cancels and the error grows by the square of what is left *)
  Let t := 2 * (s * w) / v.
  Let P := match Rle_dec 0 s with left _ => 1 | right _ => (1 + 2 * t) ^ 2 end.
  Hypothesis HP : u * P <= / 3000.
  Hypothesis Hlog : forall x, fin x -> 0 < val x -> (s = 1 -> / 2 <= val x) -> fin (n_log x) /\ Rabs (val (n_log x) - ln (val x)) <= delta * (1 + Rabs (ln (val x))).
  Lemma guess_close : fin (hypb_guess Nm e) /\ Rabs (s * val (hypb_guess Nm e) - arcsinh t) <= / 100.
  Proof using f_add f_mul f_div f_sqrt f_one f_two Hu Hs Fe FN He X0 HX Hd HD B1 B2 HP Hlog.
    destruct sizes as (D0 & Xu & dX & d1 & Xw). pose proof (guess6 v (s * w) X He X0 HX) as (GB & GB0 & _). fold t in GB, GB0, B2.
    assert (Iv : 0 < / v <= 1) by (split; [apply Rinv_0_lt_compat; lra|rewrite <- Rinv_1; apply Rinv_le_contravar; lra]).
    assert (T0 : 0 <= t) by (unfold t; apply Rmult_le_pos; lra).
    assert (tz : 1 <= 1 + t <= (1 + t) ^ 2) by nra. set (z := 1 + t) in *. set (zz := z ^ 2) in *.
    destruct f_two as [G2 V2]. destruct f_one as [G1 V1].
    assert (uz := mul_small u (/ 1000000) z ltac:(lra) ltac:(lra)). assert (uzz := mul_small u (/ 1000000) zz ltac:(lra) ltac:(lra)).
    assert (ws : w = s * (s * w)) by (destruct Hs as [E | E]; rewrite E; ring).
    set (W0 := s * w) in *.
    (* 2 * N *)
    assert (wb := s_bound w W0 ltac:(fold W0; lra)).
    destruct (f_mul (n_Z 2) Nm (1 + 2 * W0) G2 FN ltac:(lra)) as [F1 E1]; [rewrite V2; fold w; apply abs_le; lra|]. rewrite V2 in E1. fold w in E1.
    set (p := n_mul (n_Z 2) Nm) in *.
    assert (sb := s_bound (s * t) t ltac:(destruct Hs as [E | E]; rewrite E; lra)).
    assert (Ep : Rabs (val p / v - s * t) <= u * z).
    { replace (val p / v - s * t) with ((val p - 2 * w) * / v) by (rewrite ws; unfold t; field; lra). rewrite Rabs_mult, (Rabs_pos_eq (/ v)) by lra.
      apply Rle_trans with (u * (1 + 2 * W0) * / v); [apply Rmult_le_compat_r; lra|].
      replace (u * (1 + 2 * W0) * / v) with (u * (/ v + t)) by (unfold t; field; lra). apply Rmult_le_compat_l; unfold z; lra. }
    destruct (f_div p e (101 / 100 * z) F1 ltac:(fold v; lra) ltac:(lra)) as [F2 E2]; [fold v; unfold z in *; close|]. fold v in E2.
    set (y := n_div p e) in *.
    assert (Ey : Rabs (val y - s * t) <= 3 * (u * z)) by close.
    (* the square *)
    assert (Eq : Rabs (val y * val y - t * t) <= 61 / 10 * (u * zz)).
    { replace (t * t) with (s * t * (s * t)) by (destruct Hs as [E | E]; rewrite E; ring).
      replace (val y * val y - s * t * (s * t)) with ((val y - s * t) * (val y + s * t)) by ring. rewrite Rabs_mult.
      assert (Rabs (val y + s * t) <= 201 / 100 * z) by (unfold z in *; close).
      apply Rle_trans with (3 * (u * z) * (201 / 100 * z)); [apply Rmult_le_compat; try apply Rabs_pos; assumption|]. unfold zz. nra. }
    assert (tt : 0 <= t * t <= zz) by (unfold zz, z; nra).
    destruct (f_mul y y (11 / 10 * zz) F2 F2 ltac:(lra)) as [F3 E3]; [close|].
    assert (tt1 : t * t + 1 <= zz) by (unfold zz, z; nra).
    destruct (f_add (n_mul y y) (n_Z 1) (11 / 10 * zz) F3 G1 ltac:(lra)) as [F4 E4]; [rewrite V1; close|]. rewrite V1 in E4.
    set (q := n_add (n_mul y y) (n_Z 1)) in *.
    assert (W1 : zz <= 2 * (t * t + 1)) by (unfold zz, z; pose proof (pow2_ge_0 (t - 1)); nra).
    assert (Ew : Rabs (val q - (t * t + 1)) <= 17 * u * (t * t + 1)) by (assert (u * zz <= 2 * (u * (t * t + 1))) by nra; close).
    set (W := sqrt (t * t + 1)) in *. assert (WW : W * W = t * t + 1) by (apply sqrt_sqrt; lra).
    assert (W2 : 1 <= W) by (unfold W; rewrite <- sqrt_1 at 1; apply sqrt_le_1; lra).
    assert (q0 : 0 < val q) by (apply abs_inv in Ew; assert (X1 := mul_small u (/ 1000000) (t * t + 1) ltac:(lra) ltac:(lra)); lra).
    set (r := sqrt (val q)). assert (rr : r * r = val q) by (apply sqrt_sqrt; lra). assert (r0 : 0 <= r) by apply sqrt_pos.
    assert (Er : Rabs (r - W) <= 17 * u * W).
    { apply Rmult_le_reg_r with W; [lra|].
      apply Rle_trans with (Rabs (r - W) * (r + W)); [apply Rmult_le_compat_l; [apply Rabs_pos|lra]|].
      rewrite <- (Rabs_pos_eq (r + W)) by lra. rewrite <- Rabs_mult. replace ((r - W) * (r + W)) with (val q - (t * t + 1)) by (rewrite <- rr, <- WW; ring).
      rewrite <- WW in Ew at 2. lra. }
    assert (uW : 0 <= u * W <= / 1000000 * W) by (split; [apply Rmult_le_pos; lra|apply Rmult_le_compat_r; lra]).
    assert (tW : t <= W) by (apply sq_le; lra). assert (Wz : W <= z) by (apply sq_le; [unfold z; lra|rewrite WW; unfold z; lra]).
    destruct (f_sqrt q (101 / 100 * W) F4 q0 ltac:(lra)) as [F5 E5]; [fold r; apply abs_inv in Er; lra|]. fold r in E5.
    set (g := t + W). assert (g0 : 1 <= g) by (unfold g; lra). assert (zg : z <= g) by (unfold z, g; lra).
    assert (ug : 0 <= u * g <= / 1000000 * g) by (split; [apply Rmult_le_pos; lra|apply Rmult_le_compat_r; lra]).
    assert (uzg : u * z <= u * g) by (apply Rmult_le_compat_l; lra). assert (uWg : u * W <= u * g) by (apply Rmult_le_compat_l; unfold g; lra).
    destruct (f_add y (n_sqrt q) (11 / 10 * g) F2 F5 ltac:(unfold g in *; lra)) as [F6 E6]; [unfold g in *; close|].
    set (a := n_add y (n_sqrt q)) in *.
    assert (Ea : Rabs (val a - (s * t + W)) <= 22 * u * g) by (unfold g in *; close).
    assert (Lg : ln g = arcsinh t) by (unfold g, W, arcsinh; do 3 f_equal; ring).
    assert (K : 0 < val a /\ Rabs (s * ln (val a) - arcsinh t) <= 23 * / 3000 /\ (s = 1 -> / 2 <= val a)).
    { unfold P in HP. destruct (Rle_dec 0 s) as [S1 | S1].
      - assert (Es : s = 1) by (destruct Hs; lra). rewrite Es, Rmult_1_l in Ea. fold g in Ea.
        destruct (ln_near (val a) g u ltac:(lra) ltac:(lra) Ea) as [A1 A2]. split; [exact A1|]. rewrite Lg in A2. rewrite Es, Rmult_1_l. split; [lra|].
        intros _. apply abs_inv in Ea. lra.
      - assert (Es : s = -1) by (destruct Hs; lra). assert (Ig : s * t + W = / g).
        { rewrite Es. apply Rmult_eq_reg_r with g; [|lra]. rewrite Rinv_l by lra. unfold g. replace ((-1 * t + W) * (t + W)) with (W * W - t * t) by ring. rewrite WW. ring. }
        rewrite Ig in Ea. assert (Ig0 : 0 < / g) by (apply Rinv_0_lt_compat; lra).
        assert (gg : g * g <= (1 + 2 * t) ^ 2) by (replace ((1 + 2 * t) ^ 2) with ((1 + 2 * t) * (1 + 2 * t)) by ring; apply Rmult_le_compat; unfold g; unfold z in Wz; lra).
        assert (ugg : 0 <= u * (g * g) <= / 3000) by (split; [apply Rmult_le_pos; [lra|apply Rmult_le_pos; lra]|apply Rle_trans with (2 := HP); apply Rmult_le_compat_l; lra]).
        destruct (ln_near (val a) (/ g) (u * (g * g)) Ig0 ltac:(lra)) as [A1 A2].
        { replace (22 * (u * (g * g)) * / g) with (22 * u * g) by (field; lra). exact Ea. }
        split; [exact A1|]. split; [|intros; lra]. rewrite ln_Rinv, Lg in A2 by lra. rewrite Es. close. }
    destruct K as (A1 & A2 & A3). destruct (Hlog a F6 A1 A3) as [F7 E7].
    change (hypb_guess Nm e) with (n_log a). split; [exact F7|].
    assert (La : Rabs (ln (val a)) <= X + 8 / 10) by (rewrite <- abs_s; apply abs_inv in A2; apply abs_le; lra).
    assert (E8 : Rabs (val (n_log a) - ln (val a)) <= delta * X + 2 * delta).
    { apply Rle_trans with (1 := E7). replace (delta * X + 2 * delta) with (delta * (X + 2)) by ring. apply Rmult_le_compat_l; lra. }
    assert (E9 : delta * X + 2 * delta <= / 1000) by (unfold D in HD; lra).
    rewrite <- abs_s, Rmult_minus_distr_l in E8. close.
  Qed.

  (** iterate 1 is close; the guess itself may be half a unit below the root *)
  Lemma guess_range : - (51 / 100) <= s * val (hypb_guess Nm e) - X <= 71 / 100 /\ (s * val (hypb_guess Nm e) < 0 -> X <= 31 / 1000 /\ - (42 / 1000) <= s * val (hypb_guess Nm e) - X).
  Proof using f_add f_mul f_div f_sqrt f_one f_two Hu Hs Fe FN He X0 HX Hd HD B1 B2 HP Hlog.
    destruct guess_close as [F0 E]. destruct (guess6 v (s * w) X He X0 HX) as (GB & GB0 & GB1). fold t in GB, GB0, GB1. apply abs_inv in E.
    split; [lra|]. intros K. set (G := arcsinh t) in *. assert (GG : 0 <= G <= / 100) by lra.
    destruct (HypNear.short G ltac:(lra)) as [_ SG]. assert (G ^ 2 <= / 100 * (/ 100)) by (apply sq_small'; lra). split; lra.
  Qed.
  Definition lb (n : nat) : R := / 100 * (2 / 100) ^ n + 105 / 100 * D.
  Fixpoint hb (n : nat) : R := match n with O => 5065 / 10000 | S m => hb m ^ 2 + 2 * D end.
  Lemma lb_all (n : nat) : 105 / 100 * D <= lb n <= 1105 / 100000.
  Proof using Hu Hd HD He X0 HX.
    destruct sizes as (D0 & _). unfold lb. assert (0 <= (2 / 100) ^ n <= 1); [|lra].
    split; [apply pow_le; lra|]. rewrite <- (pow1 n). apply pow_incr. lra.
  Qed.
  Lemma lb_step (n : nat) : 17 / 10 * lb n ^ 2 + D <= lb (S n).
  Proof using Hu Hd HD He X0 HX.
    destruct sizes as (D0 & _). pose proof (lb_all n) as B. assert (17 / 10 * lb n ^ 2 <= 1879 / 100000 * lb n) by (pose proof (sq_small (lb n) (1105 / 100000) ltac:(lra)); lra).
    assert (lb (S n) = 2 / 100 * (lb n - 105 / 100 * D) + 105 / 100 * D) by (unfold lb; simpl; ring). lra.
  Qed.
  Lemma lb_late (n : nat) : (11 <= n)%nat -> lb n <= / 10 ^ 19 + 21 / 10 * D.
  Proof using Hu Hd HD He X0 HX.
    destruct sizes as (D0 & _). intro H. unfold lb. replace n with (11 + (n - 11))%nat by lia. rewrite pow_add. assert (0 <= (2 / 100) ^ (n - 11) <= 1).
    { split; [apply pow_le; lra|]. rewrite <- (pow1 (n - 11)). apply pow_incr. lra. }
    simpl ((2 / 100) ^ 11). simpl (10 ^ 19). nra.
  Qed.
  Lemma hb_pos n : 0 <= hb n.
  Proof using Hu Hd HD He X0 HX. destruct sizes as (D0 & _). destruct n; simpl; [lra|]. pose proof (pow2_ge_0 (hb n)). simpl in *. lra. Qed.
  Lemma hb_step (n : nat) (b c : R) : hb n <= b -> b ^ 2 + 2 / 1000 <= c -> hb (S n) <= c.
  Proof using Hu Hd HD He X0 HX. intros H K. pose proof (hb_pos n). simpl. simpl in K. nra. Qed.
  Lemma hb_3 : hb 3 <= 7 / 1000.
  Proof using Hu Hd HD He X0 HX.
    apply hb_step with (69 / 1000); [|lra]. apply hb_step with (2586 / 10000); [|lra]. apply hb_step with (5065 / 10000); [|lra]. simpl. lra.
  Qed.
  Lemma hb_small (n : nat) : hb (3 + n) <= 7 / 1000.
  Proof using Hu Hd HD He X0 HX. induction n; [exact hb_3|]. apply (hb_step (3 + n) (7 / 1000)); [exact IHn|lra]. Qed.
  Lemma hb_all (n : nat) : hb n <= 5065 / 10000.
  Proof using Hu Hd HD He X0 HX. induction n; [simpl; lra|]. apply (hb_step n (5065 / 10000)); [exact IHn|lra]. Qed.
  Lemma hb_geo (n : nat) : hb (3 + n) <= 7 / 1000 * (7 / 1000) ^ n + 202 / 100 * D.
  Proof using Hu Hd HD He X0 HX.
    destruct sizes as (D0 & _). induction n.
    - pose proof hb_3. simpl (_ ^ 0). change (3 + 0)%nat with 3%nat. lra.
    - pose proof (hb_small n) as Sm. pose proof (hb_pos (3 + n)) as P0.
      change (3 + S n)%nat with (S (3 + n)). change (hb (S (3 + n))) with (hb (3 + n) ^ 2 + 2 * D).
      pose proof (sq_small (hb (3 + n)) (7 / 1000) ltac:(lra)).
      assert (0 <= (7 / 1000) ^ n) by (apply pow_le; lra).
      change ((7 / 1000) ^ S n) with (7 / 1000 * (7 / 1000) ^ n). lra.
  Qed.
  Lemma hb_late (n : nat) : (11 <= n)%nat -> hb n <= / 10 ^ 19 + 21 / 10 * D.
  Proof using Hu Hd HD He X0 HX.
    destruct sizes as (D0 & _). intro H. replace n with (3 + (8 + (n - 11)))%nat by lia.
    apply Rle_trans with (1 := hb_geo _).
    rewrite pow_add. assert (0 <= (7 / 1000) ^ (n - 11) <= 1).
    { split; [apply pow_le; lra|]. rewrite <- (pow1 (n - 11)). apply pow_incr. lra. }
    simpl ((7 / 1000) ^ 8). simpl (10 ^ 19). nra.
  Qed.

  Lemma iterates_close (k : nat) : let x := iterate (hypb_newton Nm e) (S k) (hypb_guess Nm e) in
    fin x /\ - lb k <= s * val x - X <= Rmax (hb k) (lb k).
  Proof using f_add f_sub f_mul f_div f_sqrt f_one f_two Hu Hs Fe FN He X0 HX Hd HD B1 B2 Hsinh Hcosh HP Hlog.
    destruct sizes as (D0 & _). pose proof hb_all as BA. pose proof lb_all as BL.
    induction k as [|k [F0 E]]; cbv zeta.
    - cbn [iterate]. destruct guess_close as [F0 _]. destruct guess_range as [GR GN]. set (x := hypb_guess Nm e) in *.
      destruct (step_close x F0 ltac:(lra)) as [F' E']. split; [exact F'|]. apply abs_inv in E'.
      unfold lb. cbn [hb pow]. pose proof (Rmax_l (5065 / 10000) (/ 100 * 1 + 105 / 100 * D)) as M.
      destruct (Rle_dec X (s * val x)) as [K|K].
      + pose proof (above6 v (s * w) X He X0 HX (s * val x) K) as AB. pose proof (sq_small' (s * val x - X) (71 / 100) ltac:(lra)). lra.
      + destruct (below6 v (s * w) X He HX (s * val x) ltac:(lra)) as [BE BP]. apply abs_inv in BE.
        destruct (Rlt_dec (s * val x) 0) as [Z|Z].
        * destruct (GN Z) as [_ G2]. pose proof (sq_small' (s * val x - X) (42 / 1000) ltac:(lra)). lra.
        * specialize (BP ltac:(lra)). pose proof (sq_small' (s * val x - X) (51 / 100) ltac:(lra)). lra.
    - change (iterate (hypb_newton Nm e) (S (S k)) (hypb_guess Nm e)) with (hypb_newton Nm e (iterate (hypb_newton Nm e) (S k) (hypb_guess Nm e))) || cbn [iterate] in *.
      set (x := iterate (hypb_newton Nm e) (S k) (hypb_guess Nm e)) in *. pose proof (BA k) as BAk. pose proof (BL k) as BLk. pose proof (BL (S k)) as BLs.
      assert (M : Rmax (hb k) (lb k) <= 5065 / 10000) by (apply Rmax_lub; lra).
      destruct (step_close x F0 ltac:(lra)) as [F' E']. split; [exact F'|]. apply abs_inv in E'.
      pose proof (lb_step k) as LS. pose proof (pow2_ge_0 (lb k)) as L2.
      pose proof (Rmax_l (hb (S k)) (lb (S k))) as M1. pose proof (Rmax_r (hb (S k)) (lb (S k))) as M2. cbn [hb] in M1, M2.
      destruct (Rle_dec X (s * val x)) as [K|K].
      + pose proof (above6 v (s * w) X He X0 HX (s * val x) K) as AB. split; [lra|].
        assert (C : (s * val x - X) ^ 2 <= hb k ^ 2 \/ (s * val x - X) ^ 2 <= lb k ^ 2).
        { destruct (Rle_dec (hb k) (lb k)) as [Z|Z]; [rewrite Rmax_right in E by lra; right|rewrite Rmax_left in E by lra; left]; apply pow_incr; lra. }
        cbn [hb]. destruct C; lra.
      + destruct (below6 v (s * w) X He HX (s * val x) ltac:(lra)) as [BE _]. apply abs_inv in BE.
        assert ((s * val x - X) ^ 2 <= lb k ^ 2) by (replace (lb k ^ 2) with (lb k * lb k) by ring; apply sq_small'; lra). cbn [hb]. lra.
  Qed.
  Lemma all_close (k : nat) : let x := iterate (hypb_newton Nm e) k (hypb_guess Nm e) in fin x /\ - (52 / 100) <= s * val x - X <= 72 / 100.
  Proof using f_add f_sub f_mul f_div f_sqrt f_one f_two Hu Hs Fe FN He X0 HX Hd HD B1 B2 Hsinh Hcosh HP Hlog.
    destruct k as [|k]; cbv zeta.
    - cbn [iterate]. destruct guess_close as [F0 _]. destruct guess_range as [GR _]. split; [exact F0|lra].
    - destruct (iterates_close k) as [F0 E]. cbv zeta in F0, E. split; [exact F0|]. pose proof (hb_all k). pose proof (lb_all k).
      assert (Rmax (hb k) (lb k) <= 5065 / 10000) by (apply Rmax_lub; lra). destruct sizes as (D0 & _). lra.
  Qed.

  Lemma solver_close (tol : F) (max_iter : Z) : fin tol -> 0 <= val tol -> (12 <= max_iter)%Z ->
    let H := solve_kepler_hypb Nm e tol max_iter in
    fin H /\ Rabs (s * val H - X) <= 3 * (val tol / (v * cosh X - 1)) + / 10 ^ 19 + 4 * D.
  Proof using f_add f_sub f_mul f_div f_sqrt f_one f_two f_test Hu Hs Fe FN He X0 HX Hd HD B1 B2 Hsinh Hcosh HP Hlog.
    intros Ft T0 Hi H. destruct sizes as (D0 & Xu & dX & d1 & Xw).
    destruct (hypb_char Nm e tol max_iter) as [k [Hk C]]. cbv zeta in C. destruct C as [C1 [C2 C3]].
    unfold H. rewrite C1. destruct (all_close k) as [Fk Ek]. cbv zeta in Fk, Ek. split; [exact Fk|].
    pose proof (slope_pos v He X) as SX. pose proof (slope6 v He X) as S6. set (c := v * cosh X - 1) in *.
    assert (G0 : 0 <= val tol / c) by (apply Rmult_le_pos; [lra|left; apply Rinv_0_lt_compat; lra]).
    assert (S0 : 0 < / 10 ^ 19) by (apply Rinv_0_lt_compat; simpl; lra).
    destruct (le_lt_dec 12 k) as [K|K].
    - destruct k as [|k]; [lia|]. destruct (iterates_close k) as [_ E]. cbv zeta in E.
      pose proof (hb_late k ltac:(lia)) as L1. pose proof (lb_late k ltac:(lia)) as L2.
      assert (Rmax (hb k) (lb k) <= / 10 ^ 19 + 21 / 10 * D) by (apply Rmax_lub; lra). apply abs_le. lra.
    - destruct C3 as [C3|C3]; [lia|]. set (x := iterate (hypb_newton Nm e) k (hypb_guess Nm e)) in *.
      destruct (resid_close x Fk ltac:(lra)) as [Ff Ef]. pose proof (f_test _ _ Ff Ft C3) as T.
      pose proof (D_size6 v X He (s * val x) ltac:(apply abs_le; lra)) as DS. rewrite cosh_s in DS.
      assert (FS : v * sinh (s * val x) - s * val x - s * w = s * (v * sinh (val x) - val x - w)) by (rewrite sinh_s; ring).
      pose proof (resid6 v (s * w) X He X0 HX (s * val x) ltac:(lra)) as RR. fold c in RR. rewrite FS, abs_s in RR.
      set (f := v * sinh (val x) - val x - w) in *. set (Q := v * cosh (val x)) in *.
      assert (QB : Q * (delta + 7 * u) <= 132 / 10 * c * (delta + 7 * u)) by (apply Rmult_le_compat_r; lra).
      assert (Z : Rabs (s * val x - X) * (c / 3) <= val tol + 132 / 10 * c * (delta + 7 * u)) by (apply Rle_trans with (1 := RR); close).
      assert (Y : Rabs (s * val x - X) <= 3 * (val tol / c) + 396 / 10 * (delta + 7 * u)).
      { apply Rmult_le_reg_r with (c / 3); [lra|]. apply Rle_trans with (1 := Z). right. field. lra. }
      apply Rle_trans with (1 := Y). unfold D in *. lra.
  Qed.
End Float.
