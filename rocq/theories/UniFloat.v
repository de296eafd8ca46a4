(** * UniFloat: Newton's method for the universal Kepler equation of an ellipse when every step carries an error (C113). *)
From Coq Require Import Reals Lra Lia Psatz ZArith.
From Coquelicot Require Import Coquelicot.
From Verif Require Import Num NumR Spec SpecFlV KepEqu RLib LoopFacts SolveFacts SolveElps Atan2 UfReal.
Local Open Scope R_scope.

(** ** In the scaled anomaly x = sqrt alpha * chi *)
Section Root.
  Variables (e ph m X : R).
  Hypothesis He : 0 <= e <= 3 / 5.
  Let G (x : R) : R := x - e * sin (x + ph) + e * sin ph - m.
  Let S (x : R) : R := 1 - e * cos (x + ph).
  Hypothesis HX : G X = 0.

  Lemma slope6 (x : R) : 2 / 5 <= S x <= 8 / 5.
  Proof using He. unfold S. pose proof (COS_bound (x + ph)). nra. Qed.
  Lemma quad6 (x : R) : Rabs (x - G x / S x - X) <= 3 / 4 * (x - X) ^ 2.
  Proof using He HX.
    pose proof (slope6 x) as P.
    assert (N : (x - G x / S x - X) * S x = - (e * (sin (X + ph) - sin (x + ph) - (X - x) * cos (x + ph)))).
    { transitivity ((x - X) * S x - G x + G X); [field_simplify; [rewrite HX; ring|lra]|]. unfold G, S. ring. }
    apply (f_equal Rabs) in N.
    pose proof (sin_taylor (x + ph) (X - x)) as T. replace (x + ph + (X - x)) with (X + ph) in T by ring.
    replace ((X - x) ^ 2 / 2) with ((x - X) ^ 2 / 2) in T by field.
    rewrite Rabs_Ropp, !Rabs_mult, (Rabs_pos_eq e), (Rabs_pos_eq (S x)) in N by lra.
    set (W := Rabs (sin (X + ph) - sin (x + ph) - (X - x) * cos (x + ph))) in *. assert (S0 : 0 <= W) by apply Rabs_pos.
    pose proof (pow2_ge_0 (x - X)) as Q.
    set (V := Rabs (x - G x / S x - X)) in *. assert (0 <= V) by apply Rabs_pos. nra.
  Qed.
  Lemma gap6 (x : R) : 2 / 5 * Rabs (x - X) <= Rabs (G x) <= 8 / 5 * Rabs (x - X).
  Proof using He HX.
    assert (E : G x = (x - X) - e * (sin (x + ph) - sin (X + ph))) by (transitivity (G x - G X); [rewrite HX; ring|unfold G; ring]).
    pose proof (sin_lip (x + ph) (X + ph)) as T. replace (x + ph - (X + ph)) with (x - X) in T by ring.
    assert (K : Rabs (e * (sin (x + ph) - sin (X + ph))) <= 3 / 5 * Rabs (x - X)).
    { rewrite Rabs_mult, (Rabs_pos_eq e) by lra. apply Rmult_le_compat; try apply Rabs_pos; lra. }
    rewrite E. set (w := e * _) in *. clearbody w. unfold Rabs in *. repeat destruct Rcase_abs; lra.
  Qed.
  Lemma start6 : Rabs (m - X) <= 3 / 5 * Rabs X /\ Rabs (m - X) <= 6 / 5.
  Proof using He HX.
    assert (E : m - X = - (e * (sin (X + ph) - sin ph))) by (unfold G in HX; lra).
    rewrite E, Rabs_Ropp, Rabs_mult, (Rabs_pos_eq e) by lra. split.
    - pose proof (sin_lip (X + ph) ph) as T. replace (X + ph - ph) with X in T by ring. apply Rmult_le_compat; try apply Rabs_pos; lra.
    - pose proof (SIN_bound (X + ph)). pose proof (SIN_bound ph). assert (Rabs (sin (X + ph) - sin ph) <= 2) by (apply Rabs_le; lra).
      replace (6 / 5) with (3 / 5 * 2) by field. apply Rmult_le_compat; try apply Rabs_pos; lra.
  Qed.
End Root.

Fixpoint bd (D : R) (k : nat) : R := match k with O => 121 / 100 | S k => 3 / 4 * bd D k ^ 2 + D end.
Section Bounds.
  Variable D : R.
  Hypothesis HD : 0 <= D <= / 200.
  Lemma bd_pos (k : nat) : 0 <= bd D k.
  Proof using HD. induction k; cbn [bd]; [lra|]. pose proof (pow2_ge_0 (bd D k)). lra. Qed.
  Lemma bd_step (k : nat) (b c : R) : bd D k <= b -> 3 / 4 * b ^ 2 + / 200 <= c -> bd D (S k) <= c.
  Proof using HD. intros H1 H2. cbn [bd]. pose proof (bd_pos k). assert (bd D k ^ 2 <= b ^ 2) by (apply pow_incr; lra). lra. Qed.
  Lemma bd_all (k : nat) : bd D k <= 121 / 100.
  Proof using HD. induction k; [cbn; lra|]. apply bd_step with (1 := IHk). lra. Qed.
  Lemma bd_5 (k : nat) : bd D (5 + k) <= 83 / 1000.
  Proof using HD.
    induction k as [|k IH]; [|rewrite Nat.add_succ_r; apply bd_step with (1 := IH); lra].
    apply bd_step with (32 / 100); [|lra]. apply bd_step with (64 / 100); [|lra]. apply bd_step with (92 / 100); [|lra].
    apply bd_step with (1104 / 1000); [|lra]. apply bd_step with (121 / 100); [|lra]. cbn. lra.
  Qed.
  Lemma bd_geo (k : nat) : bd D (5 + k) <= 83 / 1000 * (63 / 1000) ^ k + 107 / 100 * D.
  Proof using HD.
    induction k as [|k IH]; [pose proof (bd_5 0); simpl pow; lra|].
    rewrite Nat.add_succ_r. pose proof (bd_5 k) as B. pose proof (bd_pos (5 + k)) as P. cbn [bd pow]. set (b := bd D (5 + k)) in *.
    assert (b * (b * 1) <= 83 / 1000 * b) by nra. lra.
  Qed.
  Lemma bd_late (k : nat) : (20 <= k)%nat -> bd D k <= / 10 ^ 19 + 107 / 100 * D.
  Proof using HD.
    intro K. replace k with (5 + (15 + (k - 20)))%nat by lia. apply Rle_trans with (1 := bd_geo _). rewrite pow_add.
    assert ((63 / 1000) ^ (k - 20) <= 1) by (rewrite <- (pow1 (k - 20)); apply pow_incr; lra).
    assert (0 < (63 / 1000) ^ (k - 20)) by (apply pow_lt; lra).
    assert ((63 / 1000) ^ 15 <= / 10 ^ 18) by (simpl; lra). assert (0 < (63 / 1000) ^ 15) by (apply pow_lt; lra).
    assert ((63 / 1000) ^ 15 * (63 / 1000) ^ (k - 20) <= (63 / 1000) ^ 15) by nra.
    assert (83 / 1000 * / 10 ^ 18 <= / 10 ^ 19) by (simpl; lra). lra.
  Qed.
End Bounds.

(** a rounded quotient of a rounded residual and a rounded slope *)
Lemma quot6 (g s g' s' rho sig : R) : 2 / 5 <= s <= 8 / 5 -> Rabs (g / s) <= 232 / 100 -> Rabs (g' - g) <= rho -> Rabs (s' - s) <= sig -> sig <= / 1000 ->
  399 / 1000 <= s' /\ Rabs (g' / s' - g / s) <= 251 / 100 * (rho + 232 / 100 * sig).
Proof.
  intros Hs Hq Hg Hd Hsig. assert (P : 399 / 1000 <= s') by (apply Rabs_le_between in Hd; lra). split; [exact P|].
  replace (g' / s' - g / s) with (((g' - g) - g / s * (s' - s)) * / s') by (field; lra).
  rewrite Rabs_mult, (Rabs_pos_eq (/ s')) by (left; apply Rinv_0_lt_compat; lra).
  assert (I : / s' <= 251 / 100).
  { apply Rmult_le_reg_r with s'; [lra|]. rewrite Rinv_l by lra. lra. }
  assert (0 < / s') by (apply Rinv_0_lt_compat; lra).
  rewrite Rmult_comm. apply Rmult_le_compat; try apply Rabs_pos; try lra.
  unfold Rminus at 1. apply Rle_trans with (1 := Rabs_triang _ _). rewrite Rabs_Ropp, Rabs_mult.
  assert (Rabs (g / s) * Rabs (s' - s) <= 232 / 100 * sig) by (apply Rmult_le_compat; try apply Rabs_pos; assumption). lra.
Qed.

(** ** The scaled equation *)
Section Scale.
  Variables (al r0 s0 n : R).
  Hypothesis Hal : 0 < al.
  Let q := sqrt al.
  Let m := q ^ 3 * n.
  Hypothesis Hecc : (1 - al * r0) ^ 2 + al * s0 ^ 2 <= 9 / 25.
  Lemma q_pos : 0 < q. Proof using Hal. apply sqrt_lt_R0, Hal. Qed.
  Lemma q_sq : q * q = al. Proof using Hal. apply sqrt_sqrt. lra. Qed.
  Lemma phase : exists e ph, 0 <= e <= 3 / 5 /\ 1 - al * r0 = e * cos ph /\ q * s0 = e * sin ph.
  Proof using Hal Hecc.
    set (A := 1 - al * r0). set (B := q * s0). assert (E : A ^ 2 + B ^ 2 <= 9 / 25) by (unfold A, B; replace ((q * s0) ^ 2) with (q * q * s0 ^ 2) by ring; rewrite q_sq; lra).
    assert (P : 0 <= A ^ 2 + B ^ 2) by (pose proof (pow2_ge_0 A); pose proof (pow2_ge_0 B); lra).
    assert (R1 : sqrt (A ^ 2 + B ^ 2) <= 3 / 5) by (rewrite <- (sqrt_pow2 (3 / 5)) by lra; apply sqrt_le_1; lra).
    destruct (Req_dec A 0) as [KA|KA].
    - destruct (Req_dec B 0) as [KB|KB].
      + exists 0, 0. split; [lra|]. split; lra.
      + destruct (cos_sin_atan2 B A (or_intror KB)) as [C S]. assert (0 < A ^ 2 + B ^ 2) by (pose proof (pow2_ge_0 A); pose proof (Rsqr_pos_lt B KB); unfold Rsqr in *; nra).
        exists (sqrt (A ^ 2 + B ^ 2)), (atan2 B A). rewrite C, S. assert (0 < sqrt (A ^ 2 + B ^ 2)) by (apply sqrt_lt_R0; lra).
        split; [lra|]. split; field; lra.
    - destruct (cos_sin_atan2 B A (or_introl KA)) as [C S]. assert (0 < A ^ 2 + B ^ 2) by (pose proof (pow2_ge_0 B); pose proof (Rsqr_pos_lt A KA); unfold Rsqr in *; nra).
      exists (sqrt (A ^ 2 + B ^ 2)), (atan2 B A). rewrite C, S. assert (0 < sqrt (A ^ 2 + B ^ 2)) by (apply sqrt_lt_R0; lra).
      split; [lra|]. split; field; lra.
  Qed.
  Variables (e ph : R).
  Hypothesis HA : 1 - al * r0 = e * cos ph.
  Hypothesis HB : q * s0 = e * sin ph.
  Lemma scale_res (chi : R) : q ^ 3 * (r0 * universal 1 chi al + s0 * universal 2 chi al + universal 3 chi al - n)
    = q * chi - e * sin (q * chi + ph) + e * sin ph - m.
  Proof using Hal HA HB.
    pose proof (uf_pos chi al Hal) as U. cbv zeta in U. rewrite (Rabs_pos_eq al) in U by lra. fold q in U. destruct U as (_ & U1 & U2 & U3 & _). rewrite U1, U2, U3.
    pose proof q_pos as Q. pose proof q_sq as Q2. rewrite sin_plus. unfold m. clear m Hecc. clearbody q. subst al.
    transitivity (q * q * r0 * sin (q * chi) + q * s0 * (1 - cos (q * chi)) + (q * chi - sin (q * chi)) - q ^ 3 * n); [field; lra|].
    replace (q * q * r0) with (1 - e * cos ph) by lra. rewrite HB. ring.
  Qed.
  Lemma scale_rad (chi : R) : q ^ 2 * (r0 * universal 0 chi al + s0 * universal 1 chi al + universal 2 chi al) = 1 - e * cos (q * chi + ph).
  Proof using Hal HA HB.
    pose proof (uf_pos chi al Hal) as U. cbv zeta in U. rewrite (Rabs_pos_eq al) in U by lra. fold q in U. destruct U as (U0 & U1 & U2 & _). rewrite U0, U1, U2.
    pose proof q_pos as Q. pose proof q_sq as Q2. rewrite cos_plus. clear m Hecc. clearbody q. subst al.
    transitivity (q * q * r0 * cos (q * chi) + q * s0 * sin (q * chi) + (1 - cos (q * chi))); [field; lra|].
    replace (q * q * r0) with (1 - e * cos ph) by lra. rewrite HB. ring.
  Qed.
  Lemma root6 : 0 <= e <= 3 / 5 -> exists X, X - e * sin (X + ph) + e * sin ph - m = 0.
  Proof using.
    intro He. destruct (elps_unique e (m + ph - e * sin ph) ltac:(lra)) as [E [HE _]]. rewrite kepler_equ_elps_R in HE.
    exists (E - ph). replace (E - ph + ph) with E by ring. lra.
  Qed.
End Scale.

(** ** The size of the rounding errors, scaled *)
Section Size.
  Variables (al r0 s0 n chi : R).
  Hypothesis Hal : 0 < al.
  Hypothesis Hr : 0 < r0.
  Let q := sqrt al.
  Let m := q ^ 3 * n.
  Hypothesis Hecc : (1 - al * r0) ^ 2 + al * s0 ^ 2 <= 9 / 25.
  Hypothesis Hchi : q * Rabs chi <= Rabs m + 241 / 100.
  Lemma uf_scaled (k : nat) : uf_size k chi al = 2 * (1 + q * Rabs chi) / q ^ k.
  Proof using Hal.
    unfold uf_size, spread. destruct (Req_EM_T al 0); [lra|]. destruct (Rlt_dec al 0); [lra|]. rewrite (Rabs_pos_eq al) by lra. fold q. rewrite Rmult_1_r. reflexivity.
  Qed.
  Lemma parts6 : 0 < q /\ 0 < q * q * r0 <= 8 / 5 /\ q * Rabs s0 <= 3 / 5.
  Proof using Hal Hr Hecc.
    pose proof (q_pos al Hal) as Q. pose proof (q_sq al Hal) as Q2. fold q in Q, Q2. split; [exact Q|]. rewrite Q2. split.
    - split; [apply Rmult_lt_0_compat; lra|]. pose proof (pow2_ge_0 s0). assert (0 <= al * s0 ^ 2) by (apply Rmult_le_pos; lra). nra.
    - rewrite <- (Rabs_pos_eq q) at 1 by lra. rewrite <- Rabs_mult. apply Rabs_le. pose proof (pow2_ge_0 (1 - al * r0)).
      assert ((q * s0) * (q * s0) <= 9 / 25) by (replace (q * s0 * (q * s0)) with (q * q * s0 ^ 2) by ring; rewrite Q2; lra). nra.
  Qed.
  Lemma size_res : q ^ 3 * (r0 * uf_size 1 chi al + Rabs s0 * uf_size 2 chi al + uf_size 3 chi al + Rabs n) <= 23 * (1 + Rabs m).
  Proof using Hal Hr Hecc Hchi.
    destruct parts6 as (Q & P1 & P2). rewrite !uf_scaled. set (h := 1 + q * Rabs chi) in *.
    replace (q ^ 3 * (r0 * (2 * h / q ^ 1) + Rabs s0 * (2 * h / q ^ 2) + 2 * h / q ^ 3 + Rabs n))
      with (2 * h * (q * q * r0 + q * Rabs s0 + 1) + q ^ 3 * Rabs n) by (field; lra).
    assert (Em : q ^ 3 * Rabs n = Rabs m) by (unfold m; rewrite Rabs_mult, (Rabs_pos_eq (q ^ 3)) by (apply pow_le; lra); reflexivity).
    rewrite Em. pose proof (Rabs_pos m). pose proof (Rabs_pos chi). assert (0 <= q * Rabs chi) by (apply Rmult_le_pos; lra).
    assert (2 * h * (q * q * r0 + q * Rabs s0 + 1) <= 2 * h * (32 / 10)) by (apply Rmult_le_compat_l; unfold h; lra). unfold h in *. lra.
  Qed.
  Lemma size_rad : q ^ 2 * (r0 * uf_size 0 chi al + Rabs s0 * uf_size 1 chi al + uf_size 2 chi al) <= 22 * (1 + Rabs m).
  Proof using Hal Hr Hecc Hchi.
    destruct parts6 as (Q & P1 & P2). rewrite !uf_scaled. set (h := 1 + q * Rabs chi) in *.
    replace (q ^ 2 * (r0 * (2 * h / q ^ 0) + Rabs s0 * (2 * h / q ^ 1) + 2 * h / q ^ 2))
      with (2 * h * (q * q * r0 + q * Rabs s0 + 1)) by (field; lra).
    pose proof (Rabs_pos m). pose proof (Rabs_pos chi). assert (0 <= q * Rabs chi) by (apply Rmult_le_pos; lra).
    assert (2 * h * (q * q * r0 + q * Rabs s0 + 1) <= 2 * h * (32 / 10)) by (apply Rmult_le_compat_l; unfold h; lra). unfold h in *. lra.
  Qed.
End Size.

Section Float.
  Variables (F : Type) (NF : Num F) (val : F -> R) (fin : F -> Prop) (u lo big : R).
  Hypothesis Hu : 0 < u <= / 1000000.
  Hypothesis f_sub : forall x y B, fin x -> fin y -> lo <= B <= big -> Rabs (val x - val y) <= B -> fin (n_sub x y) /\ Rabs (val (n_sub x y) - (val x - val y)) <= u * B.
  Hypothesis f_mul : forall x y B, fin x -> fin y -> lo <= B <= big -> Rabs (val x * val y) <= B -> fin (n_mul x y) /\ Rabs (val (n_mul x y) - (val x * val y)) <= u * B.
  Hypothesis f_div : forall x y B, fin x -> val y <> 0 -> lo <= B <= big -> Rabs (val x / val y) <= B -> fin (n_div x y) /\ Rabs (val (n_div x y) - (val x / val y)) <= u * B.
  Hypothesis f_sqrt : forall x B, fin x -> 0 < val x -> lo <= B <= big -> sqrt (val x) <= B -> fin (n_sqrt x) /\ Rabs (val (n_sqrt x) - sqrt (val x)) <= u * B.
  Hypothesis f_abs : forall x, fin x -> fin (n_abs x) /\ val (n_abs x) = Rabs (val x).
  Hypothesis f_test : forall x t, fin x -> fin t -> exceeds x t = false -> Rabs (val x) <= val t.
  Variables (t al r0 s0 mu : F).
  Hypotheses (Ft : fin t) (Fa : fin al) (Fm : fin mu) (Hal : 0 < val al) (Hmu : 0 < val mu) (Hr : 0 < val r0).
  Let a := val al.
  Let q := sqrt a.
  Let w := sqrt (val mu).
  Let n := w * val t.
  Let m := q ^ 3 * n.
  Let T := 1 + Rabs m.
  Hypothesis Hecc : (1 - a * val r0) ^ 2 + a * val s0 ^ 2 <= 9 / 25.
  Hypothesis L1 : lo <= w <= big.
  Hypothesis L2 : lo <= 2 * (w * a) <= big.
  Hypothesis L3 : lo <= 2 * (w * a * Rabs (val t)) <= big.
  Hypothesis L4 : lo <= 3 / q <= big.
  Hypothesis L5 : lo <= (T + 5) / q <= big.
  Variables (e ph X kap : R).
  Hypothesis He : 0 <= e <= 3 / 5.
  Hypothesis HA : 1 - a * val r0 = e * cos ph.
  Hypothesis HB : q * val s0 = e * sin ph.
  Let G (x : R) : R := x - e * sin (x + ph) + e * sin ph - m.
  Let S (x : R) : R := 1 - e * cos (x + ph).
  Hypothesis HX : G X = 0.
  Hypothesis Hk : 15 * u <= kap.
  Hypothesis Hk' : / 10 ^ 19 <= kap.
  Let D := 190 * (kap * T).
  Hypothesis HD : D <= / 200.
  Hypothesis HDX : D <= / 25 * Rabs X.
  Definition near6 (x : R) : Prop := Rabs (x - X) <= 121 / 100 /\ Rabs (x - X) <= 61 / 100 * Rabs X.
  Hypothesis Hkep : forall x, fin x -> near6 (q * val x) ->
    (fin (kepler_equ_uni x al r0 s0 t mu) /\ Rabs (q ^ 3 * val (kepler_equ_uni x al r0 s0 t mu) - G (q * val x)) <= 23 * (kap * T)) /\
    (fin (dchi x al r0 s0) /\ Rabs (q ^ 2 * val (dchi x al r0 s0) - S (q * val x)) <= 22 * (kap * T)).

  Let T1 : 1 <= T. Proof using. unfold T. pose proof (Rabs_pos m). lra. Qed.
  Let Q0 : 0 < q. Proof using Hal. apply sqrt_lt_R0, Hal. Qed.
  Let kT : 15 * (u * T) <= kap * T /\ 0 < u * T. Proof using Hk Hu. split; [rewrite <- Rmult_assoc; apply Rmult_le_compat_r; lra|apply Rmult_lt_0_compat; lra]. Qed.

  Lemma guess6 : fin (uni_guess t al mu) /\ near6 (q * val (uni_guess t al mu)).
  Proof using f_mul f_sqrt f_abs Hu Ft Fa Fm Hal Hmu L1 L2 L3 He HX Hk HD.
    destruct kT as [K1 K2]. assert (w0 : 0 < w) by (apply sqrt_lt_R0, Hmu). assert (a0 : 0 < a) by exact Hal.
    destruct (f_sqrt mu w Fm Hmu L1 ltac:(unfold w; lra)) as [F1 E1]. fold w in E1. set (c1 := n_sqrt mu) in *.
    destruct (f_abs al Fa) as [F2 E2]. fold a in E2. rewrite Rabs_pos_eq in E2 by lra. set (c2 := n_abs al) in *.
    assert (wa : 0 < w * a) by (apply Rmult_lt_0_compat; assumption).
    assert (E3 : Rabs (val c1 * val c2 - w * a) <= u * (w * a)).
    { rewrite E2. replace (val c1 * a - w * a) with ((val c1 - w) * a) by ring. rewrite Rabs_mult, (Rabs_pos_eq a) by lra. rewrite <- Rmult_assoc. apply Rmult_le_compat_r; lra. }
    assert (uwa : u * (w * a) <= / 1000000 * (w * a)) by (apply Rmult_le_compat_r; lra).
    destruct (f_mul c1 c2 (2 * (w * a)) F1 F2 L2) as [F4 E4]; [apply Rabs_le_between in E3; apply Rabs_le; lra|].
    set (c4 := n_mul c1 c2) in *. assert (E5 : Rabs (val c4 - w * a) <= 3 * u * (w * a)) by (apply Rabs_le_between in E3; apply Rabs_le_between in E4; apply Rabs_le; lra).
    set (tt := Rabs (val t)) in *. assert (t0 : 0 <= tt) by apply Rabs_pos. assert (wat : 0 <= w * a * tt) by (apply Rmult_le_pos; lra).
    assert (uwat : 0 <= u * (w * a * tt) <= / 1000000 * (w * a * tt)) by (split; [apply Rmult_le_pos; lra|apply Rmult_le_compat_r; lra]).
    assert (E6 : Rabs (val c4 * val t - w * a * val t) <= 3 * u * (w * a) * tt).
    { replace (val c4 * val t - w * a * val t) with ((val c4 - w * a) * val t) by ring. rewrite Rabs_mult. fold tt. apply Rmult_le_compat_r; lra. }
    assert (A0 : Rabs (w * a * val t) = w * a * tt) by (rewrite Rabs_mult, (Rabs_pos_eq (w * a)) by lra; reflexivity).
    destruct (f_mul c4 t (2 * (w * a * tt)) F4 Ft L3) as [F7 E7].
    { replace (val c4 * val t) with (val c4 * val t - w * a * val t + w * a * val t) by ring. apply Rle_trans with (1 := Rabs_triang _ _). lra. }
    change (uni_guess t al mu) with (n_mul c4 t). split; [exact F7|]. set (c := n_mul c4 t) in *.
    assert (E8 : Rabs (val c - w * a * val t) <= 5 * u * (w * a * tt)).
    { replace (val c - w * a * val t) with ((val c - val c4 * val t) + (val c4 * val t - w * a * val t)) by ring. apply Rle_trans with (1 := Rabs_triang _ _). lra. }
    assert (qq : q * q = a) by (apply sqrt_sqrt; lra).
    assert (mq : m = q * (w * a * val t)) by (unfold m, n; rewrite <- qq; ring).
    assert (am : Rabs m = q * (w * a * tt)) by (rewrite mq, Rabs_mult, (Rabs_pos_eq q) by lra; rewrite A0; reflexivity).
    assert (E9 : Rabs (q * val c - m) <= 5 * (u * Rabs m)).
    { rewrite am, mq, <- Rmult_minus_distr_l, Rabs_mult, (Rabs_pos_eq q) by lra. apply Rle_trans with (q * (5 * u * (w * a * tt))); [apply Rmult_le_compat_l; lra|right; ring]. }
    destruct (start6 e ph m X He HX) as [S1 S2].
    assert (mX : Rabs m <= 8 / 5 * Rabs X) by (replace m with (m - X + X) by ring; apply Rle_trans with (1 := Rabs_triang _ _); lra).
    assert (N1 : Rabs (q * val c - X) <= 5 * (u * Rabs m) + Rabs (m - X)) by (replace (q * val c - X) with (q * val c - m + (m - X)) by ring; apply Rle_trans with (1 := Rabs_triang _ _); lra).
    pose proof (Rabs_pos m). assert (u * Rabs m <= / 1000000 * Rabs m) by (apply Rmult_le_compat_r; lra). assert (u * Rabs m <= u * T) by (apply Rmult_le_compat_l; unfold T; lra).
    split; [unfold D in HD; lra|lra].
  Qed.

  Lemma close6 (x : F) : fin x -> near6 (q * val x) -> fin (uni_newton t al r0 s0 mu x) /\
    Rabs (q * val (uni_newton t al r0 s0 mu x) - X) <= 3 / 4 * (q * val x - X) ^ 2 + D.
  Proof using f_sub f_div Hu Hal L4 L5 He HX Hk HD Hkep.
    intros Fx [N1 N2]. destruct kT as [K1 K2]. destruct (Hkep x Fx (conj N1 N2)) as [[F1 E1] [F2 E2]].
    set (ff := kepler_equ_uni x al r0 s0 t mu) in *. set (dd := dchi x al r0 s0) in *. set (th := q * val x) in *.
    assert (QD : Rabs (th - G th / S th - X) <= 3 / 4 * (th - X) ^ 2) by exact (quad6 e ph m X He HX th).
    assert (SL : 2 / 5 <= S th <= 8 / 5) by exact (slope6 e ph He th).
    assert (SQ : (th - X) ^ 2 <= (121 / 100) ^ 2) by (rewrite <- (pow2_abs (th - X)); apply pow_incr; split; [apply Rabs_pos|exact N1]).
    assert (GS : Rabs (G th / S th) <= 232 / 100) by (apply Rabs_le_between in QD; apply Rabs_le_between in N1; apply Rabs_le; lra).
    unfold D in HD.
    destruct (quot6 (G th) (S th) (q ^ 3 * val ff) (q ^ 2 * val dd) _ _ SL GS E1 E2 ltac:(lra)) as [DP QT].
    assert (dd0 : val dd <> 0) by (intro Z; rewrite Z in DP; lra).
    assert (QE : q ^ 3 * val ff / (q ^ 2 * val dd) = q * (val ff / val dd)) by (field; split; [exact dd0|lra]). rewrite QE in QT.
    assert (Iq : 0 < / q) by (apply Rinv_0_lt_compat; lra).
    assert (sc : forall y B, Rabs (q * y) <= B -> Rabs y <= B / q).
    { intros y B H. apply Rmult_le_reg_l with q; [lra|]. replace (q * (B / q)) with B by (field; lra). rewrite Rabs_mult, (Rabs_pos_eq q) in H by lra. exact H. }
    destruct (f_div ff dd (3 / q) F1 dd0 L4) as [F3 E3]; [apply sc; apply Rabs_le_between in QT; apply Rabs_le_between in GS; apply Rabs_le; lra|].
    assert (up : forall y B, Rabs y <= u * (B / q) -> Rabs (q * y) <= u * B).
    { intros y B H. rewrite Rabs_mult, (Rabs_pos_eq q) by lra. apply Rle_trans with (q * (u * (B / q))); [apply Rmult_le_compat_l; lra|right; field; lra]. }
    apply up in E3. rewrite Rmult_minus_distr_l in E3. set (z := n_div ff dd) in *.
    destruct (start6 e ph m X He HX) as [_ S2].
    assert (uu : u <= u * T) by (rewrite <- (Rmult_1_r u) at 1; apply Rmult_le_compat_l; lra).
    destruct (f_sub x z ((T + 5) / q) Fx F3 L5) as [F4 E4].
    { apply sc. rewrite Rmult_minus_distr_l. fold th. unfold T. pose proof (Rle_abs m). pose proof (Rle_abs (- m)). rewrite Rabs_Ropp in *.
      apply Rabs_le_between in E3. apply Rabs_le_between in QT. apply Rabs_le_between in QD. apply Rabs_le_between in S2. apply Rabs_le_between in N1. apply Rabs_le. lra. }
    change (uni_newton t al r0 s0 mu x) with (n_sub x z). split; [exact F4|].
    apply up in E4. rewrite !Rmult_minus_distr_l in E4. fold th in E4.
    apply Rabs_le_between in E4. apply Rabs_le_between in E3. apply Rabs_le_between in QT. apply Rabs_le_between in QD. apply Rabs_le. unfold D. lra.
  Qed.
  Lemma iter6 (k : nat) : let x := iterate (uni_newton t al r0 s0 mu) k (uni_guess t al mu) in
    fin x /\ Rabs (q * val x - X) <= bd D k /\ near6 (q * val x).
  Proof using f_sub f_mul f_div f_sqrt f_abs Hu Ft Fa Fm Hal Hmu L1 L2 L3 L4 L5 He HX Hk HD HDX Hkep.
    assert (D0 : 0 <= D <= / 200) by (destruct kT; unfold D in *; lra).
    induction k as [|k (F0 & B0 & N0)]; cbv zeta; cbn [iterate].
    - destruct guess6 as [A [B C]]. split; [exact A|]. split; [exact B|split; assumption].
    - set (x := iterate _ k _) in *. destruct (close6 x F0 N0) as [A B]. split; [exact A|]. set (y := uni_newton t al r0 s0 mu x) in *.
      destruct N0 as [N1 N2]. pose proof (bd_all D D0 (Datatypes.S k)) as BA. cbn [bd] in BA |- *.
      rewrite <- (pow2_abs (q * val x - X)) in B. set (d := Rabs (q * val x - X)) in *. assert (d0 : 0 <= d) by apply Rabs_pos.
      assert (d ^ 2 <= bd D k ^ 2) by (apply pow_incr; lra). assert (d ^ 2 <= 121 / 100 * d) by nra.
      split; [lra|]. split; lra.
  Qed.
  Lemma solver6 (tol : F) (max_iter : Z) : fin tol -> 0 <= val tol -> (20 <= max_iter)%Z ->
    let x := solve_kepler_uni t al r0 s0 mu tol max_iter in
    fin x /\ near6 (q * val x) /\ Rabs (G (q * val x)) <= q ^ 3 * val tol + 330 * (kap * T) /\ Rabs (q * val x - X) <= 5 / 2 * (q ^ 3 * val tol) + 204 * (kap * T) + / 10 ^ 19.
  Proof using f_sub f_mul f_div f_sqrt f_abs f_test Hu Ft Fa Fm Hal Hmu L1 L2 L3 L4 L5 He HX Hk Hk' HD HDX Hkep.
    intros Fo T0 Hi x. assert (D0 : 0 <= D <= / 200) by (destruct kT; unfold D in *; lra). destruct kT as [K1 K2].
    destruct (uni_char t al r0 s0 mu tol max_iter) as [k [Hkk C]]. cbv zeta in C. destruct C as [C1 [C2 C3]].
    unfold x. rewrite C1. destruct (iter6 k) as (Fk & Bk & Nk). cbv zeta in Fk, Bk, Nk. split; [exact Fk|]. split; [exact Nk|].
    assert (G0 : 0 <= q ^ 3 * val tol) by (apply Rmult_le_pos; [apply pow_le; lra|lra]).
    assert (S0 : 0 < / 10 ^ 19) by (apply Rinv_0_lt_compat; simpl; lra).
    set (y := iterate _ k _) in *. destruct C3 as [C3|C3].
    - pose proof (bd_late D D0 k ltac:(lia)) as LT. unfold D in LT. unfold D in Bk. split; [|lra].
      assert (GP : Rabs (G (q * val y)) <= 8 / 5 * Rabs (q * val y - X)) by exact (proj2 (gap6 e ph m X He HX (q * val y))).
      assert (/ 10 ^ 19 <= kap * T) by (apply Rle_trans with (1 := Hk'); rewrite <- (Rmult_1_r kap) at 1; apply Rmult_le_compat_l; lra). lra.
    - destruct (Hkep y Fk Nk) as [[F1 E1] _]. pose proof (f_test _ _ F1 Fo C3) as TT.
      assert (GP : 2 / 5 * Rabs (q * val y - X) <= Rabs (G (q * val y))) by exact (proj1 (gap6 e ph m X He HX (q * val y))).
      assert (A : Rabs (q ^ 3 * val (kepler_equ_uni y al r0 s0 t mu)) <= q ^ 3 * val tol).
      { rewrite Rabs_mult, (Rabs_pos_eq (q ^ 3)) by (apply pow_le; lra). apply Rmult_le_compat_l; [apply pow_le; lra|exact TT]. }
      assert (Rabs (G (q * val y)) <= q ^ 3 * val tol + 23 * (kap * T)) by (apply Rabs_le_between in A; apply Rabs_le_between in E1; apply Rabs_le; lra). split; lra.
  Qed.
  (** a tolerance above the rounding errors of the residual is met within 20 steps *)
  Hypothesis f_under : forall x t, fin x -> fin t -> Rabs (val x) <= val t -> exceeds x t = false.
  Lemma stops6 (tol : F) (max_iter : Z) : fin tol -> (20 < max_iter)%Z -> 350 * (kap * T) <= q ^ 3 * val tol ->
    exists k prev, uni_run t al r0 s0 mu tol max_iter = Some (k, solve_kepler_uni t al r0 s0 mu tol max_iter, prev) /\ (0 <= k <= 20)%Z.
  Proof using f_sub f_mul f_div f_sqrt f_abs f_under Hu Ft Fa Fm Hal Hmu L1 L2 L3 L4 L5 He HX Hk Hk' HD HDX Hkep.
    intros Fo Hi HT. assert (D0 : 0 <= D <= / 200) by (destruct kT; unfold D in *; lra). destruct kT as [K1 K2].
    destruct (uni_run_char t al r0 s0 mu tol max_iter) as [k [Hkk C]]. cbv zeta in C. destruct C as [C1 [C2 C3]].
    exists (Z.of_nat k). eexists. split; [unfold solve_kepler_uni; rewrite C1; reflexivity|].
    destruct (le_lt_dec k 20) as [K|K]; [lia|exfalso]. specialize (C2 20%nat K).
    destruct (iter6 20) as (Fk & Bk & Nk). cbv zeta in Fk, Bk, Nk. set (y := iterate _ 20 _) in *.
    destruct (Hkep y Fk Nk) as [[F1 E1] _].
    assert (GP : Rabs (G (q * val y)) <= 8 / 5 * Rabs (q * val y - X)) by exact (proj2 (gap6 e ph m X He HX (q * val y))).
    pose proof (bd_late D D0 20 ltac:(lia)) as LT.
    assert (q3 : 0 < q ^ 3) by (apply pow_lt; lra).
    assert (A : Rabs (val (kepler_equ_uni y al r0 s0 t mu)) <= val tol).
    { apply Rmult_le_reg_l with (q ^ 3); [exact q3|]. apply Rle_trans with (2 := HT).
      rewrite <- (Rabs_pos_eq (q ^ 3)) at 1 by lra. rewrite <- Rabs_mult.
      replace (q ^ 3 * val (kepler_equ_uni y al r0 s0 t mu)) with (q ^ 3 * val (kepler_equ_uni y al r0 s0 t mu) - G (q * val y) + G (q * val y)) by ring.
      apply Rle_trans with (1 := Rabs_triang _ _). assert (/ 10 ^ 19 <= kap * T) by (apply Rle_trans with (1 := Hk'); rewrite <- (Rmult_1_r kap) at 1; apply Rmult_le_compat_l; lra). unfold D in *. lra. }
    rewrite (f_under _ _ F1 Fo A) in C2. discriminate C2.
  Qed.
End Float.
