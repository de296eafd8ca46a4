(** * AngReal: directions of nearby vectors (exact arithmetic), for [B64Ang] and [B32Ang] *)
From Coq Require Import ZArith Reals Lra Lia Psatz.
From Flocq Require Import Core.
From Verif Require Import Spec RoundAn RoundFn.
Local Open Scope R_scope.

Definition hyp (x y : R) : R := sqrt (x ^ 2 + y ^ 2).
Lemma hyp_pos (x y : R) : 0 <= hyp x y. Proof. apply sqrt_pos. Qed.

Lemma hyp_moved (x y x' y' a b : R) : Rabs (x' - x) <= a -> Rabs (y' - y) <= b -> Rabs (hyp x' y' - hyp x y) <= a + b.
Proof.
  intros A B. pose proof (norm_lip x' y' 0 x y 0) as N. rewrite !Rmult_0_l, !Rplus_0_r in N.
  unfold hyp. replace (x' ^ 2 + y' ^ 2) with (x' * x' + y' * y') by ring. replace (x ^ 2 + y ^ 2) with (x * x + y * y) by ring.
  apply Rle_trans with (1 := N). rewrite Rminus_0_r, Rmult_0_l, Rplus_0_r.
  pose proof (Rabs_pos (x' - x)). pose proof (Rabs_pos (y' - y)).
  rewrite <- (sqrt_square (a + b)) by lra. apply sqrt_le_1_alt.
  apply Rabs_le_inv in A. apply Rabs_le_inv in B. nra.
Qed.

Lemma hyp_le (x y m : R) : Rabs x <= m -> Rabs y <= m -> hyp x y <= 2 * m.
Proof.
  intros A B. pose proof (hyp_moved 0 0 x y m m) as H. rewrite !Rminus_0_r in H. specialize (H A B).
  assert (Z : hyp 0 0 = 0) by (unfold hyp; replace (0 ^ 2 + 0 ^ 2) with 0 by ring; apply sqrt_0).
  rewrite Z, Rminus_0_r in H. apply Rabs_le_inv in H. lra.
Qed.

(** the direction [g] of (x', y') is that of (x, y) *)
Lemma polar_moved (x y x' y' g a b k : R) : 0 <= k -> Rabs (x' - x) <= a -> Rabs (y' - y) <= b ->
  Rabs (hyp x' y' * cos g - x') <= k * hyp x' y' -> Rabs (hyp x' y' * sin g - y') <= k * hyp x' y' ->
  Rabs (hyp x y * cos g - x) <= 2 * a + b + k * (hyp x y + a + b) /\ Rabs (hyp x y * sin g - y) <= a + 2 * b + k * (hyp x y + a + b).
Proof.
  intros K A B C S. pose proof (hyp_moved x y x' y' a b A B) as D. set (q := hyp x y) in *. set (q' := hyp x' y') in *.
  assert (Q : k * q' <= k * (q + a + b)) by (apply Rmult_le_compat_l; [exact K |]; apply Rabs_le_inv in D; lra).
  assert (T : forall t w w' d, Rabs t <= 1 -> Rabs (w' - w) <= d -> Rabs (q' * t - w') <= k * q' -> Rabs (q * t - w) <= (a + b) + k * q' + d).
  { intros t w w' d Ht Hw Hq. replace (q * t - w) with (- ((q' - q) * t) + (q' * t - w') + (w' - w)) by ring.
    apply Rle_trans with (1 := Rabs_triang _ _). apply Rplus_le_compat; [| exact Hw]. apply Rle_trans with (1 := Rabs_triang _ _).
    apply Rplus_le_compat; [| exact Hq]. rewrite Rabs_Ropp, Rabs_mult. pose proof (Rabs_pos (q' - q)). pose proof (Rabs_pos t). nra. }
  pose proof (COS_bound g) as Bc. pose proof (SIN_bound g) as Bs. split.
  - pose proof (T (cos g) x x' a ltac:(apply Rabs_le; lra) A C). lra.
  - pose proof (T (sin g) y y' b ltac:(apply Rabs_le; lra) B S). lra.
Qed.

Lemma polar_turned (q x y g g' d m : R) (j : nat) : 0 <= q -> Rabs (g' - (g + 2 * INR j * PI)) <= d ->
  Rabs (q * cos g - x) <= m -> Rabs (q * sin g - y) <= m -> Rabs (q * cos g' - x) <= m + q * d /\ Rabs (q * sin g' - y) <= m + q * d.
Proof.
  intros Q D C S. rewrite <- (cos_period g j) in C. rewrite <- (sin_period g j) in S. set (h := g + 2 * INR j * PI) in *.
  assert (T : forall a b w, Rabs (a - b) <= d -> Rabs (q * b - w) <= m -> Rabs (q * a - w) <= m + q * d).
  { intros a b w Ha Hb. replace (q * a - w) with ((q * b - w) + q * (a - b)) by ring. apply Rle_trans with (1 := Rabs_triang _ _).
    apply Rplus_le_compat; [exact Hb |]. rewrite Rabs_mult, (Rabs_pos_eq q) by exact Q. apply Rmult_le_compat_l; [exact Q | exact Ha]. }
  split.
  - apply (T _ (cos h)); [apply Rle_trans with (1 := cos_lip' _ _); exact D | exact C].
  - apply (T _ (sin h)); [apply Rle_trans with (1 := sin_lip' _ _); exact D | exact S].
Qed.

(** two angles with nearby directions differ by little, up to full turns *)
Lemma sin_jordan (x : R) : 0 <= x <= PI / 2 -> 2 / PI * x <= sin x.
Proof.
  intro H. pose proof PI_RGT_0 as P. destruct (Req_dec x 0) as [-> | Nz]; [rewrite sin_0; lra |].
  (* sin is concave on [0, pi/2] *)
  destruct (Rle_dec (2 / PI * x) (sin x)) as [Q | Q]; [exact Q | exfalso]. apply Rnot_le_lt in Q.
  assert (D : forall c, derivable_pt_lim (fun t => sin t - 2 / PI * t) c (cos c - 2 / PI)).
  { intro c. apply derivable_pt_lim_minus; [apply derivable_pt_lim_sin |].
    replace (2 / PI) with (2 / PI * 1) at 2 by ring. apply derivable_pt_lim_scal. apply derivable_pt_lim_id. }
  assert (X1 : x < PI / 2) by (destruct H as [_ [H | H]]; [exact H | subst x; rewrite sin_PI2 in Q; assert (2 / PI * (PI / 2) = 1) by (field; lra); lra]).
  destruct (MVT_cor2 (fun t => sin t - 2 / PI * t) (fun c => cos c - 2 / PI) 0 x ltac:(lra) (fun c _ => D c)) as [c1 [E1 I1]].
  destruct (MVT_cor2 (fun t => sin t - 2 / PI * t) (fun c => cos c - 2 / PI) x (PI / 2) X1 (fun c _ => D c)) as [c2 [E2 I2]].
  rewrite sin_0 in E1. rewrite sin_PI2 in E2. assert (2 / PI * (PI / 2) = 1) by (field; lra).
  assert (L1 : cos c1 - 2 / PI < 0) by nra. assert (L2 : 0 < cos c2 - 2 / PI) by nra.
  pose proof (cos_decreasing_1 c1 c2 ltac:(lra) ltac:(lra) ltac:(lra) ltac:(lra) ltac:(lra)). lra.
Qed.

Lemma turn_into (t : R) : exists k : Z, Rabs (t - 2 * IZR k * PI) <= PI.
Proof.
  pose proof PI_RGT_0 as P. exists (up (t / (2 * PI) - 1 / 2)). destruct (archimed (t / (2 * PI) - 1 / 2)) as [A B].
  set (k := IZR (up (t / (2 * PI) - 1 / 2))) in *. assert (E : t = t / (2 * PI) * (2 * PI)) by (field; lra).
  set (w := t / (2 * PI)) in *. rewrite E. apply Rabs_le. split; nra.
Qed.

Lemma period_Z (t : R) (k : Z) : cos (t + 2 * IZR k * PI) = cos t /\ sin (t + 2 * IZR k * PI) = sin t.
Proof.
  destruct (Z_le_dec 0 k) as [H | H].
  - rewrite <- (Z2Nat.id k H), <- INR_IZR_INZ. split; [apply cos_period | apply sin_period].
  - set (s := t + 2 * IZR k * PI). replace t with (s + 2 * INR (Z.to_nat (- k)) * PI).
    + split; symmetry; [apply cos_period | apply sin_period].
    + rewrite INR_IZR_INZ, Z2Nat.id by lia. rewrite opp_IZR. unfold s. ring.
Qed.

Lemma polar_angle (q g phi d : R) : 0 < q -> Rabs (q * cos g - q * cos phi) <= d -> Rabs (q * sin g - q * sin phi) <= d ->
  exists k : Z, Rabs (g - phi - 2 * IZR k * PI) <= 3 * d / q.
Proof.
  intros Q C S. destruct (turn_into (g - phi)) as [k K]. exists k. set (t := g - phi - 2 * IZR k * PI) in *.
  assert (D0 : 0 <= d) by (pose proof (Rabs_pos (q * cos g - q * cos phi)); lra).
  assert (Ct : cos (g - phi) = cos t /\ sin (g - phi) = sin t).
  { replace (g - phi) with (t + 2 * IZR k * PI) by (unfold t; ring). apply period_Z. }
  assert (H : 2 * q * Rabs (sin (t / 2)) <= sqrt 2 * d).
  { rewrite <- (Rabs_pos_eq (2 * q)) by lra. rewrite <- Rabs_mult. rewrite <- sqrt_Rsqr_abs. rewrite <- (sqrt_square d) by exact D0. rewrite <- sqrt_mult by nra.
    apply sqrt_le_1_alt. unfold Rsqr.
    assert (E : 2 * q * sin (t / 2) * (2 * q * sin (t / 2)) = (q * cos g - q * cos phi) ^ 2 + (q * sin g - q * sin phi) ^ 2).
    { replace ((q * cos g - q * cos phi) ^ 2 + (q * sin g - q * sin phi) ^ 2)
        with (q ^ 2 * ((Rsqr (sin g) + Rsqr (cos g)) + (Rsqr (sin phi) + Rsqr (cos phi)) - 2 * (cos g * cos phi + sin g * sin phi))) by (unfold Rsqr; ring).
      rewrite !sin2_cos2, <- cos_minus. rewrite (proj1 Ct). replace t with (2 * (t / 2)) at 3 by field. rewrite cos_2a_sin. ring. }
    rewrite E. apply Rabs_le_inv in C. apply Rabs_le_inv in S. nra. }
  pose proof PI_RGT_0 as P. assert (J : 2 / PI * (Rabs t / 2) <= Rabs (sin (t / 2))).
  { pose proof (Rabs_pos t). pose proof (sin_jordan (Rabs t / 2) ltac:(lra)) as J. apply Rle_trans with (1 := J).
    unfold Rabs at 1. destruct (Rcase_abs t) as [T | T]; [| apply Rle_abs].
    replace (- t / 2) with (- (t / 2)) by field. rewrite sin_neg, <- (Rabs_Ropp (sin (t / 2))). apply Rle_abs. }
  assert (S2 : sqrt 2 <= 142 / 100) by (rewrite <- (sqrt_square (142 / 100)) by lra; apply sqrt_le_1_alt; lra).
  pose proof PI_4 as P4. pose proof (sqrt_pos 2).
  apply Rmult_le_reg_r with q; [exact Q |]. replace (3 * d / q * q) with (3 * d) by (field; lra).
  assert (J2 : Rabs t <= PI * Rabs (sin (t / 2))).
  { apply Rmult_le_reg_l with (/ PI); [apply Rinv_0_lt_compat; exact P |]. rewrite <- Rmult_assoc, Rinv_l by lra. replace (/ PI * Rabs t) with (2 / PI * (Rabs t / 2)) by (field; lra). lra. }
  assert (B1 : 2 * (Rabs t * q) <= PI * (sqrt 2 * d)) by (pose proof (Rabs_pos (sin (t / 2))); nra).
  assert (B2 : sqrt 2 * d <= 142 / 100 * d) by (apply Rmult_le_compat_r; lra).
  assert (0 <= sqrt 2 * d) by (apply Rmult_le_pos; lra). nra.
Qed.
