(** * HypFloat: the hyperbolic Kepler solver in any arithmetic that rounds, for e >= 2 (proofs for C110) *)
From Coq Require Import ZArith Reals Lra Lia Psatz Bool.
From Verif Require Import Num Spec KepEqu LoopFacts HypNewton.
From Verif Require SolveFacts.
Local Open Scope R_scope.

Lemma abs_le (a b : R) : - b <= a <= b -> Rabs a <= b.
Proof. intros. apply Rabs_le. lra. Qed.
Lemma abs_inv (a b : R) : Rabs a <= b -> - b <= a <= b.
Proof. intros H. pose proof (Rle_abs a). pose proof (Rle_abs (- a)). rewrite Rabs_Ropp in *. lra. Qed.
Lemma sq_le (a b : R) : 0 <= b -> a * a <= b * b -> a <= b.
Proof. intros. nra. Qed.
Lemma sq_small (x c : R) : 0 <= x <= c -> x ^ 2 <= c * x.
Proof. intros. nra. Qed.
Lemma sq_small' (x c : R) : - c <= x <= c -> x ^ 2 <= c * c.
Proof. intros. nra. Qed.
Lemma mul_small (x c d : R) : 0 <= x <= c -> 0 <= d -> 0 <= x * d <= c * d.
Proof. intros. split; [apply Rmult_le_pos; lra|apply Rmult_le_compat_r; lra]. Qed.
Ltac close := repeat match goal with H : Rabs _ <= _ |- _ => apply abs_inv in H end; apply abs_le; lra.

(** ** Error bounds after n steps *)
Fixpoint hbnd (D : R) (n : nat) : R := match n with O => 71 / 100 | S m => hbnd D m ^ 2 + 2 * D end.
Section Bounds.
  Variable D : R.
  Hypothesis HD : 0 <= D <= / 1000.
  Lemma hbnd_pos n : 0 <= hbnd D n.
  Proof using HD. destruct n; simpl; [lra|]. pose proof (pow2_ge_0 (hbnd D n)). nra. Qed.
  Lemma hstep (n : nat) (b c : R) : hbnd D n <= b -> b ^ 2 + 2 / 1000 <= c -> hbnd D (S n) <= c.
  Proof using HD. intros H K. pose proof (hbnd_pos n). simpl. simpl in K. nra. Qed.
  Lemma hbnd_4 : hbnd D 4 <= 7 / 1000.
  Proof using HD.
    apply hstep with (69 / 1000); [|lra]. apply hstep with (2586 / 10000); [|lra].
    apply hstep with (5065 / 10000); [|lra]. apply hstep with (71 / 100); [|lra]. simpl. lra.
  Qed.
  Lemma hbnd_small (n : nat) : hbnd D (4 + n) <= 7 / 1000.
  Proof using HD. induction n; [exact hbnd_4|]. apply (hstep (4 + n) (7 / 1000)); [exact IHn|lra]. Qed.
  Lemma hbnd_all (n : nat) : hbnd D n <= 71 / 100.
  Proof using HD. induction n; [simpl; lra|]. apply (hstep n (71 / 100)); [exact IHn|lra]. Qed.
  Lemma hbnd_geo (n : nat) : hbnd D (4 + n) <= 7 / 1000 * (7 / 1000) ^ n + 202 / 100 * D.
  Proof using HD.
    induction n.
    - pose proof hbnd_4. simpl (_ ^ 0). change (4 + 0)%nat with 4%nat. lra.
    - pose proof (hbnd_small n) as Sm. pose proof (hbnd_pos (4 + n)) as P.
      change (4 + S n)%nat with (S (4 + n)). change (hbnd D (S (4 + n))) with (hbnd D (4 + n) ^ 2 + 2 * D).
      assert (hbnd D (4 + n) ^ 2 <= 7 / 1000 * hbnd D (4 + n)) by nra.
      assert (0 <= (7 / 1000) ^ n) by (apply pow_le; lra).
      change ((7 / 1000) ^ S n) with (7 / 1000 * (7 / 1000) ^ n). nra.
  Qed.
  Lemma hbnd_late (n : nat) : (12 <= n)%nat -> hbnd D n <= / 10 ^ 19 + 21 / 10 * D.
  Proof using HD.
    intro H. replace n with (4 + (8 + (n - 12)))%nat by lia.
    apply Rle_trans with (1 := hbnd_geo _).
    rewrite pow_add. assert (0 <= (7 / 1000) ^ (n - 12) <= 1).
    { split; [apply pow_le; lra|]. rewrite <- (pow1 (n - 12)). apply pow_incr. lra. }
    simpl ((7 / 1000) ^ 8). simpl (10 ^ 19). nra.
  Qed.
  (** how far below the root *)
  Definition lbnd (n : nat) : R := / 100 * (34 / 1000) ^ n + 105 / 100 * D.
  Lemma lbnd_all (n : nat) : 105 / 100 * D <= lbnd n <= 1105 / 100000.
  Proof using HD.
    unfold lbnd. assert (0 <= (34 / 1000) ^ n <= 1); [|lra].
    split; [apply pow_le; lra|]. rewrite <- (pow1 n). apply pow_incr. lra.
  Qed.
  Lemma lbnd_step (n : nat) : 3 * lbnd n ^ 2 + D <= lbnd (S n).
  Proof using HD.
    pose proof (lbnd_all n) as B. assert (3 * lbnd n ^ 2 <= 332 / 10000 * lbnd n) by nra.
    assert (lbnd (S n) = 34 / 1000 * (lbnd n - 105 / 100 * D) + 105 / 100 * D) by (unfold lbnd; simpl; ring). nra.
  Qed.
  Lemma lbnd_late (n : nat) : (12 <= n)%nat -> lbnd n <= / 10 ^ 19 + 21 / 10 * D.
  Proof using HD.
    intro H. unfold lbnd. replace n with (12 + (n - 12))%nat by lia. rewrite pow_add. assert (0 <= (34 / 1000) ^ (n - 12) <= 1).
    { split; [apply pow_le; lra|]. rewrite <- (pow1 (n - 12)). apply pow_incr. lra. }
    simpl ((34 / 1000) ^ 12). simpl (10 ^ 19). nra.
  Qed.
End Bounds.

Section Float.
  Variables (F : Type) (NF : Num F) (val : F -> R) (fin : F -> Prop) (u big : R).
  Hypothesis Hu : 0 < u <= / 1000000.
  Hypothesis f_add : forall x y B, fin x -> fin y -> 1 <= B <= big -> Rabs (val x + val y) <= B -> fin (n_add x y) /\ Rabs (val (n_add x y) - (val x + val y)) <= u * B.
  Hypothesis f_sub : forall x y B, fin x -> fin y -> 1 <= B <= big -> Rabs (val x - val y) <= B -> fin (n_sub x y) /\ Rabs (val (n_sub x y) - (val x - val y)) <= u * B.
  Hypothesis f_mul : forall x y B, fin x -> fin y -> 1 <= B <= big -> Rabs (val x * val y) <= B -> fin (n_mul x y) /\ Rabs (val (n_mul x y) - (val x * val y)) <= u * B.
  Hypothesis f_div : forall x y B, fin x -> val y <> 0 -> 1 <= B <= big -> Rabs (val x / val y) <= B -> fin (n_div x y) /\ Rabs (val (n_div x y) - (val x / val y)) <= u * B.
  Hypothesis f_sqrt : forall x B, fin x -> 0 < val x -> 1 <= B <= big -> sqrt (val x) <= B -> fin (n_sqrt x) /\ Rabs (val (n_sqrt x) - sqrt (val x)) <= u * B.
  Hypothesis f_one : fin (n_Z 1) /\ val (n_Z 1) = 1.
  Hypothesis f_two : fin (n_Z 2) /\ val (n_Z 2) = 2.
  Hypothesis f_test : forall x t, fin x -> fin t -> exceeds x t = false -> Rabs (val x) <= val t.
  Variables (Nm e : F) (delta X s : R).
  Hypothesis Hs : s = 1 \/ s = -1.
  Let v := val e.
  Let w := val Nm.
  Hypotheses (Fe : fin e) (FN : fin Nm) (He : 2 <= v) (X0 : 0 <= X) (HX : v * sinh X - X = s * w).
  Hypothesis Hd : 0 <= delta.
  Let D := delta * (X + 4) + (X + 31) * u.
  Hypothesis HD : D <= / 1000.
  Hypothesis B1 : 7 * (v + 2 * (s * w)) <= big.
  Hypothesis B2 : 3 * (1 + 2 * (s * w) / v) ^ 2 <= big.
  Hypothesis Hsinh : forall x, fin x -> Rabs (val x) <= X + 1 -> fin (n_sinh x) /\ Rabs (val (n_sinh x) - sinh (val x)) <= delta * cosh (val x).
  Hypothesis Hcosh : forall x, fin x -> Rabs (val x) <= X + 1 -> fin (n_cosh x) /\ Rabs (val (n_cosh x) - cosh (val x)) <= delta * cosh (val x).

  Lemma sizes : 0 <= D /\ 0 <= X * u /\ 0 <= delta * X /\ delta <= / 4000 /\ X <= s * w.
  Proof using Hu Hd HD He X0 HX.
    assert (0 <= delta * X) by (apply Rmult_le_pos; lra). assert (0 <= X * u) by (apply Rmult_le_pos; lra).
    pose proof (X_le_N v (s * w) X He X0 HX). unfold D in *. repeat split; lra.
  Qed.
  Lemma abs_s (x : R) : Rabs (s * x) = Rabs x.
  Proof using Hs. destruct Hs as [E | E]; rewrite E; [now rewrite Rmult_1_l|]. replace (-1 * x) with (- x) by ring. apply Rabs_Ropp. Qed.
  Lemma sinh_s (x : R) : sinh (s * x) = s * sinh x.
  Proof using Hs. destruct Hs as [E | E]; rewrite E; [now rewrite !Rmult_1_l|]. replace (-1 * x) with (- x) by ring. unfold sinh. rewrite Ropp_involutive. lra. Qed.
  Lemma cosh_s (x : R) : cosh (s * x) = cosh x.
  Proof using Hs. destruct Hs as [E | E]; rewrite E; [now rewrite Rmult_1_l|]. replace (-1 * x) with (- x) by ring. unfold cosh. rewrite Ropp_involutive. lra. Qed.
  Lemma s_bound (x b : R) : - b <= s * x <= b -> - b <= x <= b.
  Proof using Hs. destruct Hs as [E | E]; rewrite E; lra. Qed.
  Lemma resid_close (H : F) : fin H -> - / 4 <= s * val H - X <= 72 / 100 -> let Q := v * cosh (val H) in
    fin (kepler_equ_hypb H e Nm) /\ Rabs (val (kepler_equ_hypb H e Nm) - (v * sinh (val H) - val H - w)) <= Q * (delta + 6 * u).
  Proof using f_mul f_sub Hu Hs Fe FN He X0 HX Hd HD B1 Hsinh.
    intros FH R Q. destruct sizes as (D0 & Xu & dX & d1 & Xw). set (h := val H) in *.
    pose proof (D_top v (s * w) X He X0 HX (s * h) ltac:(apply abs_le; lra)) as T. rewrite cosh_s in T. fold Q in T.
    pose proof (N_size v (s * w) X He X0 HX (s * h) ltac:(lra)) as NS. rewrite cosh_s in NS. fold Q in NS.
    assert (wQ := s_bound w (4 / 3 * Q) ltac:(lra)).
    pose proof (SolveFacts.cosh_ge_1 h) as C. pose proof (abs_sinh h) as A. pose proof (id_le_cosh h) as ID.
    assert (Q2 : cosh h <= Q / 2) by (unfold Q; nra).
    destruct (Hsinh H FH) as [Fs Es]; [fold h; rewrite <- abs_s; apply abs_le; lra|]. fold h in Es.
    assert (S1 : - Q <= v * sinh h <= Q) by (unfold Q; nra).
    assert (dQ := mul_small delta (/ 4000) Q ltac:(lra) ltac:(lra)). assert (uQ := mul_small u (/ 1000000) Q ltac:(lra) ltac:(lra)).
    assert (Es' : Rabs (v * val (n_sinh H) - v * sinh h) <= delta * Q).
    { rewrite <- Rmult_minus_distr_l, Rabs_mult, (Rabs_pos_eq v) by lra. unfold Q. pose proof (Rabs_pos (val (n_sinh H) - sinh h)). nra. }
    destruct (f_mul e (n_sinh H) (101 / 100 * Q) Fe Fs ltac:(lra)) as [F1 E1]; [fold v; close|]. fold v in E1.
    destruct (f_sub (n_mul e (n_sinh H)) H (16 / 10 * Q) F1 FH ltac:(lra)) as [F2 E2]; [fold h; close|]. fold h in E2.
    destruct (f_sub (n_sub (n_mul e (n_sinh H)) H) Nm (3 * Q) F2 FN ltac:(lra)) as [F3 E3]; [fold w; close|]. fold w in E3.
    split; [exact F3|]. unfold kepler_equ_hypb. close.
  Qed.
  Lemma step_close (H : F) : fin H -> - / 4 <= s * val H - X <= 72 / 100 ->
    fin (hypb_newton Nm e H) /\ Rabs (s * val (hypb_newton Nm e H) - nw v (s * w) (s * val H)) <= D.
  Proof using f_mul f_sub f_div f_one Hu Hs Fe FN He X0 HX Hd HD B1 Hsinh Hcosh.
    intros FH R. destruct (resid_close H FH R) as [Ff Ef]. destruct sizes as (D0 & Xu & dX & d1 & Xw). set (h := val H) in *. set (Q := v * cosh h) in *.
    pose proof (D_top v (s * w) X He X0 HX (s * h) ltac:(apply abs_le; lra)) as T. rewrite cosh_s in T. fold Q in T.
    pose proof (SolveFacts.cosh_ge_1 h) as C. assert (Q2 : cosh h <= Q / 2) by (unfold Q; nra).
    assert (hX := s_bound h (X + 72 / 100) ltac:(lra)).
    assert (dQ := mul_small delta (/ 4000) Q ltac:(lra) ltac:(lra)). assert (uQ := mul_small u (/ 1000000) Q ltac:(lra) ltac:(lra)).
    destruct (Hcosh H FH) as [Fc Ec]; [fold h; apply abs_le; lra|]. fold h in Ec.
    assert (Ec' : Rabs (v * val (n_cosh H) - Q) <= delta * Q).
    { unfold Q at 1. rewrite <- Rmult_minus_distr_l, Rabs_mult, (Rabs_pos_eq v) by lra. unfold Q. pose proof (Rabs_pos (val (n_cosh H) - cosh h)). nra. }
    destruct (f_mul e (n_cosh H) (101 / 100 * Q) Fe Fc ltac:(lra)) as [F4 E4]; [fold v; close|]. fold v in E4.
    destruct f_one as [G1 V1].
    destruct (f_sub (n_mul e (n_cosh H)) (n_Z 1) (102 / 100 * Q) F4 G1 ltac:(lra)) as [F5 E5]; [rewrite V1; close|]. rewrite V1 in E5.
    unfold hypb_newton, dH. set (ff := kepler_equ_hypb H e Nm) in *. set (dd := n_sub (n_mul e (n_cosh H)) (n_Z 1)) in *.
    set (f := v * sinh h - h - w) in *. set (d := Q - 1).
    assert (E5' : Rabs (val dd - d) <= delta * Q + 3 * (u * Q)) by (unfold d; close).
    assert (d2 : Q / 2 <= d) by (unfold d; lra).
    assert (d3 : 99 / 100 * d <= val dd) by (apply abs_inv in E5'; lra).
    assert (FD : s * (f / d) = s * h - nw v (s * w) (s * h)).
    { unfold nw. rewrite sinh_s, cosh_s. fold Q d. unfold f. field. lra. }
    assert (Bq : Rabs (f / d) <= 3 / 4).
    { rewrite <- abs_s, FD. destruct (Rle_dec X (s * h)) as [K|K].
      - pose proof (above v (s * w) X He X0 HX (s * h) K) as P. pose proof (sq_small (s * h - X) (72 / 100) ltac:(lra)). apply abs_le. lra.
      - pose proof (below v (s * w) X He HX (s * h) ltac:(lra)) as P. pose proof (sq_small' (s * h - X) (/ 4) ltac:(lra)). close. }
    assert (I1 : 0 < / val dd <= 2030 / 1000 * / Q).
    { split; [apply Rinv_0_lt_compat; lra|]. replace (2030 / 1000 * / Q) with (/ (1000 / 2030 * Q)) by (field; lra). apply Rinv_le_contravar; lra. }
    assert (QQ : Q * / Q = 1) by (field; lra).
    assert (Qd : Rabs (val ff / val dd - f / d) <= 2030 / 1000 * (delta + 6 * u) + 3 / 4 * (2030 / 1000 * (delta + 3 * u))).
    { replace (val ff / val dd - f / d) with ((val ff - f) * / val dd + f / d * ((d - val dd) * / val dd)) by (field; lra).
      assert (Iq : 0 < / Q) by (apply Rinv_0_lt_compat; lra).
      apply Rle_trans with (1 := Rabs_triang _ _). rewrite !Rabs_mult, (Rabs_pos_eq (/ val dd)) by lra. rewrite (Rabs_minus_sym d).
      pose proof (Rabs_pos (val ff - f)). pose proof (Rabs_pos (val dd - d)). pose proof (Rabs_pos (f / d)).
      apply Rplus_le_compat.
      - apply Rle_trans with (Q * (delta + 6 * u) * (2030 / 1000 * / Q)); [apply Rmult_le_compat; lra|].
        right. transitivity (2030 / 1000 * (delta + 6 * u) * (Q * / Q)); [ring|rewrite QQ; ring].
      - apply Rmult_le_compat; [assumption|apply Rmult_le_pos; lra|exact Bq|].
        apply Rle_trans with ((delta * Q + 3 * (u * Q)) * (2030 / 1000 * / Q)); [apply Rmult_le_compat; lra|].
        right. transitivity (2030 / 1000 * (delta + 3 * u) * (Q * / Q)); [ring|rewrite QQ; ring]. }
    destruct (f_div ff dd 1 Ff ltac:(lra) ltac:(lra)) as [F6 E6]; [close|].
    destruct (f_sub H (n_div ff dd) (X + 2) FH F6 ltac:(lra)) as [F7 E7]; [fold h; close|]. fold h in E7.
    split; [exact F7|]. replace (nw v (s * w) (s * h)) with (s * (h - f / d)) by lra.
    rewrite <- Rmult_minus_distr_l, abs_s. unfold D. close.
  Qed.
  Lemma ln_near (a g p : R) : 0 < g -> 0 <= p <= / 1000 -> Rabs (a - g) <= 22 * p * g -> 0 < a /\ Rabs (ln a - ln g) <= 23 * p.
  Proof using.
    intros G HP H. apply abs_inv in H.
    assert (P : 0 < a) by nra. split; [exact P|].
    assert (Q : forall z, 0 < z -> ln z <= z - 1) by (intros z Z; pose proof (exp_ineq1_le (ln z)); rewrite exp_ln in *; lra).
    assert (ln_div : forall x y, 0 < x -> 0 < y -> ln (x / y) = ln x - ln y).
    { intros x y Px Py. unfold Rdiv. rewrite ln_mult, ln_Rinv by (try apply Rinv_0_lt_compat; assumption). ring. }
    assert (E1 : ln a - ln g = ln (a / g)) by (symmetry; apply ln_div; assumption).
    assert (E2 : ln g - ln a = ln (g / a)) by (symmetry; apply ln_div; assumption).
    pose proof (Q (a / g) ltac:(apply Rdiv_lt_0_compat; assumption)) as Q1. pose proof (Q (g / a) ltac:(apply Rdiv_lt_0_compat; assumption)) as Q2.
    assert (pg : 0 <= p * g <= / 1000 * g) by (split; [apply Rmult_le_pos; lra|apply Rmult_le_compat_r; lra]).
    assert (ppg : p * (p * g) <= / 1000 * (p * g)) by (apply Rmult_le_compat_r; lra).
    assert (L1 : a / g - 1 <= 23 * p).
    { apply Rmult_le_reg_r with g; [exact G|]. replace ((a / g - 1) * g) with (a - g) by (field; lra). lra. }
    assert (L2 : g / a - 1 <= 23 * p).
    { apply Rmult_le_reg_r with a; [exact P|]. replace ((g / a - 1) * a) with (g - a) by (field; lra). assert (p * (g - 22 * p * g) <= p * a) by (apply Rmult_le_compat_l; lra). lra. }
    apply abs_le. lra.
  Qed.
  (** the start; before periapsis its sum cancels and the error grows by the square of what is left *)
  Let t := 2 * (s * w) / v.
  Let P := match Rle_dec 0 s with left _ => 1 | right _ => (1 + 2 * t) ^ 2 end.
  Hypothesis HP : u * P <= / 3000.
  Hypothesis Hlog : forall x, fin x -> 0 < val x -> (s = 1 -> / 2 <= val x) -> fin (n_log x) /\ Rabs (val (n_log x) - ln (val x)) <= delta * (1 + Rabs (ln (val x))).
  Lemma guess_close : fin (hypb_guess Nm e) /\ Rabs (s * val (hypb_guess Nm e) - arcsinh t) <= / 100.
  Proof using f_add f_mul f_div f_sqrt f_one f_two Hu Hs Fe FN He X0 HX Hd HD B1 B2 HP Hlog.
    destruct sizes as (D0 & Xu & dX & d1 & Xw). pose proof (guess_bounds v (s * w) X He X0 HX) as GB. fold t in GB, B2.
    assert (Iv : 0 < / v <= / 2) by (split; [apply Rinv_0_lt_compat; lra|apply Rinv_le_contravar; lra]).
    assert (T0 : 0 <= t) by (unfold t; apply Rmult_le_pos; lra).
    assert (tz : 1 <= 1 + t <= (1 + t) ^ 2) by nra. set (z := 1 + t) in *. set (zz := z ^ 2) in *.
    destruct f_two as [G2 V2]. destruct f_one as [G1 V1].
    assert (uz := mul_small u (/ 1000000) z ltac:(lra) ltac:(lra)). assert (uzz := mul_small u (/ 1000000) zz ltac:(lra) ltac:(lra)).
    assert (ws : w = s * (s * w)) by (destruct Hs as [E | E]; rewrite E; ring).
    set (W0 := s * w) in *.
    (* 2 * N *)
    assert (wb := s_bound w W0 ltac:(fold W0; lra)).
    destruct (f_mul (n_Z 2) Nm (1 + 2 * W0) G2 FN ltac:(lra)) as [F1 E1]; [rewrite V2; fold w; apply abs_le; lra|]. rewrite V2 in E1. fold w in E1.
    set (p := n_mul (n_Z 2) Nm) in *.
    assert (sb := s_bound (s * t) t ltac:(destruct Hs as [E | E]; rewrite E; lra)).
    assert (Ep : Rabs (val p / v - s * t) <= u * z).
    { replace (val p / v - s * t) with ((val p - 2 * w) * / v) by (rewrite ws; unfold t; field; lra). rewrite Rabs_mult, (Rabs_pos_eq (/ v)) by lra.
      apply Rle_trans with (u * (1 + 2 * W0) * / v); [apply Rmult_le_compat_r; lra|].
      replace (u * (1 + 2 * W0) * / v) with (u * (/ v + t)) by (unfold t; field; lra). apply Rmult_le_compat_l; unfold z; lra. }
    destruct (f_div p e (101 / 100 * z) F1 ltac:(fold v; lra) ltac:(lra)) as [F2 E2]; [fold v; unfold z in *; close|]. fold v in E2.
    set (y := n_div p e) in *.
    assert (Ey : Rabs (val y - s * t) <= 3 * (u * z)) by close.
    (* the square *)
    assert (Eq : Rabs (val y * val y - t * t) <= 61 / 10 * (u * zz)).
    { replace (t * t) with (s * t * (s * t)) by (destruct Hs as [E | E]; rewrite E; ring).
      replace (val y * val y - s * t * (s * t)) with ((val y - s * t) * (val y + s * t)) by ring. rewrite Rabs_mult.
      assert (Rabs (val y + s * t) <= 201 / 100 * z) by (unfold z in *; close).
      apply Rle_trans with (3 * (u * z) * (201 / 100 * z)); [apply Rmult_le_compat; try apply Rabs_pos; assumption|]. unfold zz. nra. }
    assert (tt : 0 <= t * t <= zz) by (unfold zz, z; nra).
    destruct (f_mul y y (11 / 10 * zz) F2 F2 ltac:(lra)) as [F3 E3]; [close|].
    assert (tt1 : t * t + 1 <= zz) by (unfold zz, z; nra).
    destruct (f_add (n_mul y y) (n_Z 1) (11 / 10 * zz) F3 G1 ltac:(lra)) as [F4 E4]; [rewrite V1; close|]. rewrite V1 in E4.
    set (q := n_add (n_mul y y) (n_Z 1)) in *.
    assert (W1 : zz <= 2 * (t * t + 1)) by (unfold zz, z; pose proof (pow2_ge_0 (t - 1)); nra).
    assert (Ew : Rabs (val q - (t * t + 1)) <= 17 * u * (t * t + 1)) by (assert (u * zz <= 2 * (u * (t * t + 1))) by nra; close).
    set (W := sqrt (t * t + 1)) in *. assert (WW : W * W = t * t + 1) by (apply sqrt_sqrt; lra).
    assert (W2 : 1 <= W) by (unfold W; rewrite <- sqrt_1 at 1; apply sqrt_le_1; lra).
    assert (q0 : 0 < val q) by (apply abs_inv in Ew; assert (X1 := mul_small u (/ 1000000) (t * t + 1) ltac:(lra) ltac:(lra)); lra).
    set (r := sqrt (val q)). assert (rr : r * r = val q) by (apply sqrt_sqrt; lra). assert (r0 : 0 <= r) by apply sqrt_pos.
    assert (Er : Rabs (r - W) <= 17 * u * W).
    { apply Rmult_le_reg_r with W; [lra|].
      apply Rle_trans with (Rabs (r - W) * (r + W)); [apply Rmult_le_compat_l; [apply Rabs_pos|lra]|].
      rewrite <- (Rabs_pos_eq (r + W)) by lra. rewrite <- Rabs_mult. replace ((r - W) * (r + W)) with (val q - (t * t + 1)) by (rewrite <- rr, <- WW; ring).
      rewrite <- WW in Ew at 2. lra. }
    assert (uW : 0 <= u * W <= / 1000000 * W) by (split; [apply Rmult_le_pos; lra|apply Rmult_le_compat_r; lra]).
    assert (tW : t <= W) by (apply sq_le; lra). assert (Wz : W <= z) by (apply sq_le; [unfold z; lra|rewrite WW; unfold z; lra]).
    destruct (f_sqrt q (101 / 100 * W) F4 q0 ltac:(lra)) as [F5 E5]; [fold r; apply abs_inv in Er; lra|]. fold r in E5.
    set (g := t + W). assert (g0 : 1 <= g) by (unfold g; lra). assert (zg : z <= g) by (unfold z, g; lra).
    assert (ug : 0 <= u * g <= / 1000000 * g) by (split; [apply Rmult_le_pos; lra|apply Rmult_le_compat_r; lra]).
    assert (uzg : u * z <= u * g) by (apply Rmult_le_compat_l; lra). assert (uWg : u * W <= u * g) by (apply Rmult_le_compat_l; unfold g; lra).
    destruct (f_add y (n_sqrt q) (11 / 10 * g) F2 F5 ltac:(unfold g in *; lra)) as [F6 E6]; [unfold g in *; close|].
    set (a := n_add y (n_sqrt q)) in *.
    assert (Ea : Rabs (val a - (s * t + W)) <= 22 * u * g) by (unfold g in *; close).
    assert (Lg : ln g = arcsinh t) by (unfold g, W, arcsinh; do 3 f_equal; ring).
    assert (K : 0 < val a /\ Rabs (s * ln (val a) - arcsinh t) <= 23 * / 3000 /\ (s = 1 -> / 2 <= val a)).
    { unfold P in HP. destruct (Rle_dec 0 s) as [S1 | S1].
      - assert (Es : s = 1) by (destruct Hs; lra). rewrite Es, Rmult_1_l in Ea. fold g in Ea.
        destruct (ln_near (val a) g u ltac:(lra) ltac:(lra) Ea) as [A1 A2]. split; [exact A1|]. rewrite Lg in A2. rewrite Es, Rmult_1_l. split; [lra|].
        intros _. apply abs_inv in Ea. lra.
      - assert (Es : s = -1) by (destruct Hs; lra). assert (Ig : s * t + W = / g).
        { rewrite Es. apply Rmult_eq_reg_r with g; [|lra]. rewrite Rinv_l by lra. unfold g. replace ((-1 * t + W) * (t + W)) with (W * W - t * t) by ring. rewrite WW. ring. }
        rewrite Ig in Ea. assert (Ig0 : 0 < / g) by (apply Rinv_0_lt_compat; lra).
        assert (gg : g * g <= (1 + 2 * t) ^ 2) by (replace ((1 + 2 * t) ^ 2) with ((1 + 2 * t) * (1 + 2 * t)) by ring; apply Rmult_le_compat; unfold g; unfold z in Wz; lra).
        assert (ugg : 0 <= u * (g * g) <= / 3000) by (split; [apply Rmult_le_pos; [lra|apply Rmult_le_pos; lra]|apply Rle_trans with (2 := HP); apply Rmult_le_compat_l; lra]).
        destruct (ln_near (val a) (/ g) (u * (g * g)) Ig0 ltac:(lra)) as [A1 A2].
        { replace (22 * (u * (g * g)) * / g) with (22 * u * g) by (field; lra). exact Ea. }
        split; [exact A1|]. split; [|intros; lra]. rewrite ln_Rinv, Lg in A2 by lra. rewrite Es. close. }
    destruct K as (A1 & A2 & A3). destruct (Hlog a F6 A1 A3) as [F7 E7].
    change (hypb_guess Nm e) with (n_log a). split; [exact F7|].
    assert (La : Rabs (ln (val a)) <= X + 8 / 10) by (rewrite <- abs_s; apply abs_inv in A2; apply abs_le; lra).
    assert (E8 : Rabs (val (n_log a) - ln (val a)) <= delta * X + 2 * delta).
    { apply Rle_trans with (1 := E7). replace (delta * X + 2 * delta) with (delta * (X + 2)) by ring. apply Rmult_le_compat_l; lra. }
    assert (E9 : delta * X + 2 * delta <= / 1000) by (unfold D in HD; lra).
    rewrite <- abs_s, Rmult_minus_distr_l in E8. close.
  Qed.

  Lemma iterates_close (k : nat) : let x := iterate (hypb_newton Nm e) k (hypb_guess Nm e) in
    fin x /\ - lbnd D k <= s * val x - X <= Rmax (hbnd D k) (lbnd D k).
  Proof using f_add f_sub f_mul f_div f_sqrt f_one f_two Hu Hs Fe FN He X0 HX Hd HD B1 B2 Hsinh Hcosh HP Hlog.
    destruct sizes as (D0 & _). pose proof (hbnd_all D ltac:(lra)) as BA. pose proof (lbnd_all D ltac:(lra)) as BL.
    induction k as [|k [F0 E]]; cbv zeta.
    - cbn [iterate]. destruct guess_close as [F0 E]. split; [exact F0|].
      pose proof (guess_bounds v (s * w) X He X0 HX) as GB. fold t in GB. unfold lbnd. cbn [hbnd pow]. apply abs_inv in E.
      split; [lra|]. apply Rle_trans with (2 := Rmax_l _ _). lra.
    - cbn [iterate]. set (x := iterate (hypb_newton Nm e) k (hypb_guess Nm e)) in *. pose proof (BA k) as BAk. pose proof (BL k) as BLk. pose proof (BL (S k)) as BLs.
      assert (M : Rmax (hbnd D k) (lbnd D k) <= 71 / 100) by (apply Rmax_lub; lra).
      destruct (step_close x F0 ltac:(lra)) as [F' E']. split; [exact F'|]. apply abs_inv in E'.
      pose proof (lbnd_step D ltac:(lra) k) as LS. pose proof (pow2_ge_0 (lbnd D k)) as L2.
      pose proof (Rmax_l (hbnd D (S k)) (lbnd D (S k))) as M1. pose proof (Rmax_r (hbnd D (S k)) (lbnd D (S k))) as M2. cbn [hbnd] in M1, M2.
      destruct (Rle_dec X (s * val x)) as [K|K].
      + pose proof (above v (s * w) X He X0 HX (s * val x) K) as AB. split; [lra|].
        assert (C : (s * val x - X) ^ 2 <= hbnd D k ^ 2 \/ (s * val x - X) ^ 2 <= lbnd D k ^ 2).
        { destruct (Rle_dec (hbnd D k) (lbnd D k)) as [Z|Z]; [rewrite Rmax_right in E by lra; right|rewrite Rmax_left in E by lra; left]; apply pow_incr; lra. }
        cbn [hbnd]. destruct C; lra.
      + pose proof (below v (s * w) X He HX (s * val x) ltac:(lra)) as BE. apply abs_inv in BE.
        assert ((s * val x - X) ^ 2 <= lbnd D k ^ 2) by (replace (lbnd D k ^ 2) with (lbnd D k * lbnd D k) by ring; apply sq_small'; lra). cbn [hbnd]. lra.
  Qed.

  Lemma solver_close (tol : F) (max_iter : Z) : fin tol -> 0 <= val tol -> (12 <= max_iter)%Z ->
    let H := solve_kepler_hypb Nm e tol max_iter in
    fin H /\ Rabs (s * val H - X) <= 21 / 10 * (val tol / (v * cosh X)) + / 10 ^ 19 + 21 / 10 * D.
  Proof using f_add f_sub f_mul f_div f_sqrt f_one f_two f_test Hu Hs Fe FN He X0 HX Hd HD B1 B2 Hsinh Hcosh HP Hlog.
    intros Ft T0 Hi H. destruct sizes as (D0 & Xu & dX & d1 & Xw).
    destruct (hypb_char Nm e tol max_iter) as [k [Hk C]]. cbv zeta in C. destruct C as [C1 [C2 C3]].
    unfold H. rewrite C1. destruct (iterates_close k) as [Fk Ek]. cbv zeta in Fk, Ek. split; [exact Fk|].
    pose proof (SolveFacts.cosh_ge_1 X) as CX. assert (Q0 : 0 < v * cosh X) by nra.
    assert (G0 : 0 <= val tol / (v * cosh X)) by (apply Rmult_le_pos; [lra|left; apply Rinv_0_lt_compat; lra]).
    assert (S0 : 0 < / 10 ^ 19) by (apply Rinv_0_lt_compat; simpl; lra).
    set (x := iterate (hypb_newton Nm e) k (hypb_guess Nm e)) in *.
    destruct (le_lt_dec 12 k) as [K|K].
    - pose proof (hbnd_late D ltac:(lra) k K) as L1. pose proof (lbnd_late D ltac:(lra) k K) as L2.
      assert (Rmax (hbnd D k) (lbnd D k) <= / 10 ^ 19 + 21 / 10 * D) by (apply Rmax_lub; lra). apply abs_le. lra.
    - destruct C3 as [C3|C3]; [lia|]. pose proof (hbnd_all D ltac:(lra) k) as BA. pose proof (lbnd_all D ltac:(lra) k) as BL.
      assert (M : Rmax (hbnd D k) (lbnd D k) <= 71 / 100) by (apply Rmax_lub; lra).
      destruct (resid_close x Fk ltac:(lra)) as [Ff Ef]. pose proof (f_test _ _ Ff Ft C3) as T.
      pose proof (D_size v X He (s * val x) ltac:(apply abs_le; lra)) as DS. rewrite cosh_s in DS.
      assert (FS : v * sinh (s * val x) - s * val x - s * w = s * (v * sinh (val x) - val x - w)) by (rewrite sinh_s; ring).
      set (f := v * sinh (val x) - val x - w) in *. set (c := v * cosh X) in *. set (Q := v * cosh (val x)) in *.
      assert (QB : Q * (delta + 6 * u) <= 22 / 10 * c * (delta + 6 * u)) by (apply Rmult_le_compat_r; lra).
      assert (fb : Rabs (s * f) <= val tol + 22 / 10 * c * (delta + 6 * u)) by (rewrite abs_s; close).
      assert (Z : Rabs (s * val x - X) * (49 / 100 * c) <= val tol + 22 / 10 * c * (delta + 6 * u)).
      { apply Rle_trans with (2 := fb). destruct (Rle_dec X (s * val x)) as [O|O].
        - pose proof (resid v (s * w) X He X0 HX (s * val x) O) as RR. fold c in RR. rewrite FS in RR. rewrite Rabs_pos_eq by lra.
          assert (0 <= (s * val x - X) * c) by (apply Rmult_le_pos; lra). pose proof (Rle_abs (s * f)). lra.
        - pose proof (resid_below v (s * w) X He X0 HX (s * val x) ltac:(lra)) as RR. fold c in RR. rewrite FS in RR. rewrite Rabs_left by lra.
          pose proof (Rle_abs (- (s * f))) as A. rewrite Rabs_Ropp in A. lra. }
      assert (Y : Rabs (s * val x - X) <= 100 / 49 * (val tol / c) + 220 / 49 * (delta + 6 * u)).
      { apply Rmult_le_reg_r with (49 / 100 * c); [lra|]. apply Rle_trans with (1 := Z). right. field. lra. }
      apply Rle_trans with (1 := Y). unfold D in *. lra.
  Qed.
End Float.
