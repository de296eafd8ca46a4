(** * NewtonFl: Newton's method for Kepler's equation when every step carries an error, for e <= 3/4 (C77). *)
From Coq Require Import Reals Lra Lia Psatz.
From Flocq Require Import Core.
From Verif Require Import Num NumR SolveFacts SolveElps.
Local Open Scope R_scope.

Section Root.
  Variables (e M X : R).
  Hypothesis He : 0 <= e <= 3 / 4.
  Hypothesis HX : X - e * sin X = M.

  Lemma newton_err (x : R) : Rabs (x - (x - e * sin x - M) / (1 - e * cos x) - X) <= 3 / 2 * (x - X) ^ 2.
  Proof using He HX.
    pose proof (COS_bound x) as [C1 C2].
    assert (P : 1 / 4 <= 1 - e * cos x) by nra.
    replace (x - (x - e * sin x - M) / (1 - e * cos x) - X)
      with (- (e * (sin X - sin x - (X - x) * cos x)) / (1 - e * cos x)) by (rewrite <- HX; field; lra).
    pose proof (sin_taylor x (X - x)) as T. replace (x + (X - x)) with X in T by ring.
    replace ((X - x) ^ 2 / 2) with ((x - X) ^ 2 / 2) in T by field.
    unfold Rdiv. rewrite Rabs_mult, Rabs_Ropp, Rabs_mult, (Rabs_pos_eq e), Rabs_inv, (Rabs_pos_eq (1 - _)) by lra.
    set (S := Rabs (sin X - sin x - (X - x) * cos x)) in *. assert (S0 : 0 <= S) by apply Rabs_pos.
    pose proof (pow2_ge_0 (x - X)) as Q.
    apply Rmult_le_reg_r with (1 - e * cos x); [lra |]. rewrite Rmult_assoc, Rinv_l by lra. nra.
  Qed.

  Lemma residual_err (x : R) : Rabs (x - e * sin x - M) <= 7 / 4 * Rabs (x - X).
  Proof using He HX.
    replace (x - e * sin x - M) with ((x - X) - e * (sin x - sin X)) by (rewrite <- HX; ring).
    apply Rle_trans with (Rabs (x - X) + Rabs (e * (sin x - sin X))).
    - unfold Rminus at 1. apply Rle_trans with (1 := Rabs_triang _ _). rewrite Rabs_Ropp. lra.
    - rewrite Rabs_mult, (Rabs_pos_eq e) by lra. pose proof (sin_lip x X). pose proof (Rabs_pos (sin x - sin X)). nra.
  Qed.

  Lemma root_near : Rabs (X - M) <= 3 / 4.
  Proof using He HX.
    replace (X - M) with (e * sin X) by (rewrite <- HX; ring).
    pose proof (SIN_bound X). apply Rabs_le. nra.
  Qed.

  Lemma guess_err : Rabs (M + e * sin M + e ^ 2 * sin (2 * M) / 2 - X) <= 56 / 100.
  Proof using He HX.
    set (s := e * sin X).
    assert (Hs : Rabs s <= 3 / 4).
    { unfold s. pose proof (SIN_bound X). apply Rabs_le. nra. }
    assert (EX : X = M + s) by (unfold s; rewrite <- HX; ring).
    assert (SX : sin X = sin M * cos s + cos M * sin s) by (rewrite EX; apply sin_plus).
    set (k := 1 - cos s). set (d := s - sin s).
    assert (E : M + e * sin M + e ^ 2 * sin (2 * M) / 2 - X
      = e * (1 + e * cos M) * sin M * k - e ^ 2 * cos M ^ 2 * sin s + e * cos M * d).
    { rewrite EX, sin_2a. unfold k, d.
      replace (M + e * sin M + e ^ 2 * (2 * sin M * cos M) / 2 - (M + s))
        with (e * sin M + e ^ 2 * sin M * cos M - e * sin X + e * cos M * s - e * cos M * (e * sin X))
        by (unfold s; field).
      rewrite SX. ring. }
    rewrite E.
    assert (K : 0 <= k <= 9 / 32).
    { unfold k. pose proof (COS_bound s). split; [lra |].
      assert (Q : 1 - s ^ 2 / 2 <= cos s).
      { destruct (Rle_dec 0 s) as [P | P]; [apply cos_ge_quad; exact P |].
        rewrite <- cos_neg. replace (s ^ 2) with ((- s) ^ 2) by ring. apply cos_ge_quad. lra. }
      assert (s ^ 2 <= 9 / 16) by (apply Rabs_le_inv in Hs; nra). lra. }
    assert (D : Rabs d <= 9 / 128).
    { assert (forall y, 0 <= y <= 3 / 4 -> 0 <= y - sin y <= 9 / 128) as G.
      { intros y Hy. pose proof (sin_le_id y ltac:(lra)). pose proof (sin_ge_cube y ltac:(lra)).
        assert (y ^ 3 <= 27 / 64) by nra. lra. }
      unfold d. apply Rabs_le_inv in Hs. destruct (Rle_dec 0 s) as [P | P].
      - pose proof (G s ltac:(lra)). apply Rabs_le. lra.
      - pose proof (G (- s) ltac:(lra)) as Q. rewrite sin_neg in Q. apply Rabs_le. lra. }
    assert (S : Rabs (sin s) <= 3 / 4).
    { pose proof (sin_lip s 0) as T. rewrite sin_0, !Rminus_0_r in T. lra. }
    pose proof (sin2_cos2 M) as P. unfold Rsqr in P.
    pose proof (COS_bound M) as C.
    set (u := Rabs (sin M)). assert (U : 0 <= u) by apply Rabs_pos.
    assert (U2 : u ^ 2 = 1 - cos M ^ 2) by (unfold u; rewrite <- Rsqr_pow2, <- Rsqr_abs; unfold Rsqr; lra).
    assert (T1 : Rabs (e * (1 + e * cos M) * sin M * k) <= 189 / 512 * u).
    { rewrite !Rabs_mult. fold u.
      rewrite (Rabs_pos_eq e), (Rabs_pos_eq (1 + _)), (Rabs_pos_eq k) by nra.
      assert (e * (1 + e * cos M) <= 21 / 16) by nra. assert (0 <= e * (1 + e * cos M)) by nra.
      apply Rle_trans with (21 / 16 * u * k); [| nra].
      apply Rmult_le_compat_r; [lra |]. apply Rmult_le_compat_r; lra. }
    assert (T2 : Rabs (e ^ 2 * cos M ^ 2 * sin s) <= 27 / 64 * cos M ^ 2).
    { rewrite Rabs_mult, Rabs_pos_eq by (apply Rmult_le_pos; apply pow2_ge_0).
      assert (e ^ 2 <= 9 / 16) by nra. pose proof (pow2_ge_0 (cos M)). pose proof (pow2_ge_0 e).
      pose proof (Rabs_pos (sin s)).
      apply Rle_trans with (9 / 16 * cos M ^ 2 * (3 / 4)); [| lra].
      apply Rmult_le_compat; nra. }
    assert (T3 : Rabs (e * cos M * d) <= 27 / 512 * (1 - u ^ 2 / 2)).
    { rewrite !Rabs_mult, (Rabs_pos_eq e) by lra.
      assert (Rabs (cos M) <= 1 - u ^ 2 / 2).
      { rewrite U2. assert (Q : Rabs (cos M) ^ 2 = cos M ^ 2) by (rewrite <- !Rsqr_pow2; symmetry; apply Rsqr_abs).
        pose proof (pow2_ge_0 (Rabs (cos M) - 1)). rewrite <- Q. nra. }
      pose proof (Rabs_pos (cos M)). pose proof (Rabs_pos d).
      apply Rle_trans with (3 / 4 * (1 - u ^ 2 / 2) * (9 / 128)); [| lra].
      apply Rmult_le_compat; [nra | lra | | exact D]. apply Rmult_le_compat; lra. }
    apply Rle_trans with (189 / 512 * u + 27 / 64 * cos M ^ 2 + 27 / 512 * (1 - u ^ 2 / 2)).
    - apply Rle_trans with (1 := Rabs_triang _ _). apply Rplus_le_compat; [| exact T3].
      unfold Rminus. apply Rle_trans with (1 := Rabs_triang _ _). rewrite Rabs_Ropp. lra.
    - replace (cos M ^ 2) with (1 - u ^ 2) by lra. pose proof (pow2_ge_0 (u - 41 / 100)). assert (u <= 1) by (pose proof (pow2_ge_0 (cos M)); nra). lra.
  Qed.
End Root.

(** ** Error bounds after n steps *)
Fixpoint bnd (D : R) (n : nat) : R := match n with O => 56 / 100 + D | S m => 3 / 2 * bnd D m ^ 2 + D end.

Section Bounds.
  Variable D : R.
  Hypothesis HD : 0 <= D <= / 1000.

  Lemma bnd_pos n : 0 <= bnd D n.
  Proof using HD. destruct n; simpl; [lra |]. pose proof (pow2_ge_0 (bnd D n)). nra. Qed.

  Lemma bnd_1 : bnd D 1 <= 48 / 100. Proof using HD. simpl. nra. Qed.
  Lemma step_le (n : nat) (b c : R) : bnd D n <= b -> 3 / 2 * b ^ 2 + / 1000 <= c -> bnd D (S n) <= c.
  Proof using HD. intros H K. pose proof (bnd_pos n). simpl. simpl in K. nra. Qed.
  Lemma bnd_5 : bnd D 5 <= 6 / 1000.
  Proof using HD.
    apply step_le with (57 / 1000); [| lra]. apply step_le with (19 / 100); [| lra].
    apply step_le with (35 / 100); [| lra]. apply step_le with (48 / 100); [| lra]. exact bnd_1.
  Qed.
  Lemma bnd_small (n : nat) : bnd D (5 + n) <= 6 / 1000.
  Proof using HD. induction n; [exact bnd_5 |]. apply (step_le (5 + n) (6 / 1000)); [exact IHn | lra]. Qed.
  Lemma bnd_all (n : nat) : bnd D n <= 561 / 1000.
  Proof using HD.
    destruct n as [| n]; [simpl; lra |].
    induction n; [pose proof bnd_1; lra |]. apply (step_le (S n) (561 / 1000)); [exact IHn | lra].
  Qed.
  Lemma bnd_geo (n : nat) : bnd D (5 + n) <= 6 / 1000 * (9 / 1000) ^ n + 102 / 100 * D.
  Proof using HD.
    induction n.
    - pose proof bnd_5. simpl (_ ^ 0). change (5 + 0)%nat with 5%nat. lra.
    - pose proof (bnd_small n) as Sm. pose proof (bnd_pos (5 + n)) as P.
      change (5 + S n)%nat with (S (5 + n)). change (bnd D (S (5 + n))) with (3 / 2 * bnd D (5 + n) ^ 2 + D).
      assert (3 / 2 * bnd D (5 + n) ^ 2 <= 9 / 1000 * bnd D (5 + n)) by nra.
      assert (0 <= (9 / 1000) ^ n) by (apply pow_le; lra).
      change ((9 / 1000) ^ S n) with (9 / 1000 * (9 / 1000) ^ n). nra.
  Qed.
  Lemma bnd_late (n : nat) : (10 <= n)%nat -> bnd D n <= / 200000000000 + 11 / 10 * D.
  Proof using HD.
    intro H. replace n with (5 + (5 + (n - 10)))%nat by lia.
    apply Rle_trans with (1 := bnd_geo _).
    rewrite pow_add. assert (0 <= (9 / 1000) ^ (n - 10) <= 1).
    { split; [apply pow_le; lra |]. rewrite <- (pow1 (n - 10)). apply pow_incr. lra. }
    simpl ((9 / 1000) ^ 5). nra.
  Qed.

  (** what a small last step says *)
  Lemma posterior (a b T : R) : 0 <= a <= 561 / 1000 -> b <= 3 / 2 * a ^ 2 + D -> a <= b + T -> 0 <= T <= 12 / 10000000 ->
    b <= / 200000000000 + 11 / 10 * D.
  Proof using HD.
    intros A B C HT.
    assert (H1 : a <= 64 / 10 * (T + D)) by nra.
    assert (H2 : a ^ 2 <= (64 / 10 * (T + D)) ^ 2) by (apply pow_incr; lra).
    assert (H3 : (T + D) ^ 2 <= 1002 / 1000000 * (T + D)) by nra.
    assert (H4 : a <= 107 / 100 * (T + D)) by nra.
    assert (H5 : a ^ 2 <= (107 / 100 * (T + D)) ^ 2) by (apply pow_incr; lra).
    assert (H6 : (T + D) ^ 2 <= 2 * (T * T) + 2 * (D * D)) by (pose proof (pow2_ge_0 (T - D)); lra).
    assert (T * T <= 144 / 100000000000000) by nra. assert (D * D <= / 1000 * D) by nra. nra.
  Qed.
End Bounds.
