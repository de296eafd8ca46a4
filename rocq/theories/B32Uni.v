(** * B32Uni: the universal solver and the universal functions in single precision. *)
From Coq Require Import ZArith Reals Lra Lia Psatz Bool List.
From Flocq Require Import Core IEEE754.BinarySingleNaN.
From Verif Require Import Num NumB32 Spec OrbIntegrals Uniformulas KepEqu RLib Ana LoopFacts KepRows SolveFacts SolveElps SolveHypb
  B32Lib B32Facts B32Kep.
Local Open Scope R_scope.

Lemma elps_early {T : Type} {N : Num T} (M e tol : T) (mi i : Z) (E prev : T) :
  elps_run M e tol mi = Some (i, E, prev) -> (i < mi)%Z -> exceeds (n_sub E prev) tol = false.
Proof.
  intros R I. destruct (elps_run_char M e tol mi) as [k [Hk [Q [_ D]]]].
  cbv zeta in Q, D. rewrite Q in R. inversion R; subst. destruct D as [D | D]; [lia | exact D].
Qed.

Lemma cosh_le_small (z : R) : 0 <= z <= 1 -> cosh z - 1 <= 2 * z ^ 2.
Proof.
  intros [H0 H1].
  destruct (mvt cosh sinh 0 z der_cosh) as [c [Hc Ec]].
  rewrite Rmin_left, Rmax_right in Hc by lra. rewrite cosh_0 in Ec.
  destruct (mvt sinh cosh 0 c der_sinh) as [d [Hd Ed]].
  rewrite Rmin_left, Rmax_right in Hd by lra. rewrite sinh_0 in Ed.
  assert (C1 : cosh d <= 2).
  { apply Rle_trans with (cosh 1); [apply cosh_incr; lra |].
    unfold cosh. pose proof exp_le_3. pose proof (exp_increasing (- (1)) 0 ltac:(lra)) as E.
    rewrite exp_0 in E. lra. }
  pose proof (cosh_ge_1 d). rewrite Ec. rewrite !Rminus_0_r in *.
  assert (sinh c <= 2 * z) by nra. nra.
Qed.

Section Uni.
  Variable L : libm.
  Notation tol32 := (@default_tol _ (Num_B32 L)).

  Lemma uni_stops (dt al r0 s0 mu : b32) (mi : Z) :
    let rhs := b32_mul (b32_sqrt mu) dt in
    is_finite rhs = true -> 32 <= Rabs (B2R rhs) ->
    let chi := @solve_kepler_uni _ (Num_B32 L) dt al r0 s0 mu tol32 mi in
    let lhs := b32_add (b32_add (b32_mul r0 (@ufunc1 _ (Num_B32 L) chi al))
                 (b32_mul s0 (@ufunc2 _ (Num_B32 L) chi al))) (@ufunc3 _ (Num_B32 L) chi al) in
    chi = iterate (@uni_newton _ (Num_B32 L) dt al r0 s0 mu) (Z.to_nat mi)
            (@uni_guess _ (Num_B32 L) dt al mu)
    \/ is_nan lhs = true \/ (is_finite lhs = true /\ B2R lhs = B2R rhs).
  Proof using.
    intros rhs F H chi lhs.
    destruct (@uni_char _ (Num_B32 L) dt al r0 s0 mu tol32 mi) as [k [Hk [E [_ D]]]].
    fold chi in E. rewrite <- E in D. destruct D as [D | D].
    - left. rewrite E, D. reflexivity.
    - right. apply (proj1 (stop_exact L lhs rhs F H)). exact D.
  Qed.

  Lemma hypb_stops (Nm e : b32) (mi : Z) :
    is_finite Nm = true -> 32 <= Rabs (B2R Nm) ->
    let H := @solve_kepler_hypb _ (Num_B32 L) Nm e tol32 mi in
    let lhs := b32_sub (b32_mul e (m_sinh L H)) H in
    H = iterate (@hypb_newton _ (Num_B32 L) Nm e) (Z.to_nat mi) (@hypb_guess _ (Num_B32 L) Nm e)
    \/ is_nan lhs = true \/ (is_finite lhs = true /\ B2R lhs = B2R Nm).
  Proof using.
    intros F B H lhs.
    destruct (@hypb_char _ (Num_B32 L) Nm e tol32 mi) as [k [Hk [E [_ D]]]].
    fold H in E. rewrite <- E in D. destruct D as [D | D].
    - left. rewrite E, D. reflexivity.
    - right. apply (proj1 (stop_exact L lhs Nm F B)). exact D.
  Qed.

  Lemma elps_stops (M e : b32) (mi i : Z) (E prev : b32) :
    @elps_run _ (Num_B32 L) M e tol32 mi = Some (i, E, prev) ->
    (i < mi)%Z -> is_finite prev = true -> 32 <= Rabs (B2R prev) ->
    is_nan E = true \/ (is_finite E = true /\ B2R E = B2R prev).
  Proof using.
    intros R I F B. apply (proj1 (stop_exact L E prev F B)).
    exact (@elps_early _ (Num_B32 L) M e tol32 mi i E prev R I).
  Qed.

  (** ** The second universal function near zero energy *)
  Lemma one_minus (c : b32) :
    is_finite c = true -> B2R c = 1 \/ / 16777216 <= Rabs (1 - B2R c).
  Proof using.
    intro Fc. destruct (Req_dec (B2R c) 1) as [E | E]; [left; exact E | right].
    assert (F1 : F32 1) by (apply F32_int; simpl; lia).
    destruct (Rtotal_order (B2R c) 1) as [B | [B | B]]; [| contradiction |].
    - pose proof (pred_ge_gt radix2 fx (B2R c) 1 (F32_B2R c) F1 B) as P.
      assert (pred radix2 fx 1 = 1 - / 16777216).
      { change 1 with (bpow radix2 0) at 1. rewrite pred_bpow.
        change (fx 0) with (-24)%Z. simpl. lra. }
      rewrite Rabs_pos_eq; lra.
    - pose proof (succ_le_lt radix2 fx 1 (B2R c) F1 (F32_B2R c) B) as P.
      rewrite succ_eq_pos in P by lra.
      assert (ulp radix2 fx 1 = / 8388608).
      { change 1 with (bpow radix2 0). rewrite ulp_bpow.
        change (fx (0 + 1)) with (-23)%Z. simpl. lra. }
      rewrite Rabs_left; lra.
  Qed.

  Lemma sub_finite (x y : b32) :
    is_finite (b32_sub x y) = true ->
    is_finite x = true /\ is_finite y = true /\ B2R (b32_sub x y) = rnd (B2R x - B2R y).
  Proof using.
    intro H.
    assert (F : is_finite x = true /\ is_finite y = true).
    { destruct x as [s | s | | s m e B]; destruct y as [s' | s' | | s' m' e' B'];
        try (destruct s; destruct s'; discriminate H); try discriminate H; split; reflexivity. }
    destruct F as [Fx Fy]. split; [exact Fx |]. split; [exact Fy |].
    pose proof (Bminus_correct 24 128 _ _ mode_NE x y Fx Fy) as K.
    fold (b32_sub x y) in K.
    change (round radix2 (SpecFloat.fexp 24 128) (round_mode mode_NE) (B2R x - B2R y))
      with (rnd (B2R x - B2R y)) in K.
    destruct (Rlt_bool (Rabs (rnd (B2R x - B2R y))) (bpow radix2 128)); [apply K |].
    destruct K as [K _]. rewrite <- is_finite_SF_B2SF, K in H. discriminate H.
  Qed.

  Lemma div_finite (x y : b32) :
    B2R y <> 0 -> is_finite (b32_div x y) = true ->
    is_finite x = true /\ B2R (b32_div x y) = rnd (B2R x / B2R y).
  Proof using.
    intros Hy H. pose proof (Bdiv_correct 24 128 _ _ mode_NE x y Hy) as K.
    fold (b32_div x y) in K.
    change (round radix2 (SpecFloat.fexp 24 128) (round_mode mode_NE) (B2R x / B2R y))
      with (rnd (B2R x / B2R y)) in K.
    destruct (Rlt_bool (Rabs (rnd (B2R x / B2R y))) (bpow radix2 128)).
    - destruct K as [K1 [K2 _]]. rewrite H in K2. split; [symmetry; exact K2 | exact K1].
    - rewrite <- is_finite_SF_B2SF, K in H. discriminate H.
  Qed.

  (** A quotient of something that is zero or at least 2^-24 *)
  Lemma quot_gap (d a : b32) :
    0 < Rabs (B2R a) <= 1 -> B2R d = 0 \/ / 16777216 <= Rabs (B2R d) ->
    is_finite (b32_div d a) = true ->
    B2R (b32_div d a) = 0 \/ / 33554432 / Rabs (B2R a) <= Rabs (B2R (b32_div d a)).
  Proof using.
    intros Ha Hd F.
    assert (Na : B2R a <> 0) by (intro K; rewrite K, Rabs_R0 in Ha; lra).
    destruct (div_finite d a Na F) as [_ K]. rewrite K.
    destruct Hd as [Hd | Hd].
    - left. rewrite Hd. unfold Rdiv. rewrite Rmult_0_l. apply rnd_id, F32_0.
    - right. destruct (mag radix2 (B2R a)) as [k Hk]. simpl in Hk. specialize (Hk Na).
      destruct Hk as [Hk1 Hk2].
      assert (Kle : (k <= 1)%Z).
      { assert (k - 1 < 1)%Z; [| lia]. apply (lt_bpow radix2).
        apply Rle_lt_trans with (1 := Hk1). simpl. lra. }
      assert (Kge : (-149 < k)%Z).
      { pose proof (abs_B2R_ge_emin 24 128 a) as G.
        assert (Fs : is_finite_strict a = true) by (apply is_finite_strict_B2R; exact Na).
        specialize (G Fs). change (SpecFloat.emin 24 128) with (-149)%Z in G.
        apply (lt_bpow radix2). apply Rle_lt_trans with (1 := G). exact Hk2. }
      set (b := bpow radix2 (-24 - k)).
      assert (Fb : F32 b).
      { unfold b. replace (bpow radix2 (-24 - k)) with (IZR 1 * bpow radix2 (-24 - k)) by ring.
        apply F32_scaled; [reflexivity | lia]. }
      assert (B1 : b * bpow radix2 k = / 16777216).
      { unfold b. rewrite <- bpow_plus. replace (-24 - k + k)%Z with (-24)%Z by ring. simpl. lra. }
      assert (B0 : 0 < b) by apply bpow_gt_0.
      assert (B2 : bpow radix2 (k - 1) = bpow radix2 k / 2).
      { unfold Z.sub. rewrite bpow_plus. simpl. lra. }
      assert (Q1 : b <= Rabs (B2R d / B2R a)).
      { unfold Rdiv. rewrite Rabs_mult, Rabs_inv. apply Rmult_le_reg_r with (Rabs (B2R a)); [lra |].
        rewrite Rmult_assoc, Rinv_l, Rmult_1_r by lra. nra. }
      assert (Q2 : b <= Rabs (rnd (B2R d / B2R a))).
      { destruct (Rle_dec 0 (B2R d / B2R a)) as [P | P].
        - rewrite Rabs_pos_eq in Q1 by lra. pose proof (rnd_ge _ _ Fb Q1).
          rewrite Rabs_pos_eq; lra.
        - rewrite Rabs_left in Q1 by lra. pose proof (rnd_le (B2R d / B2R a) _ (F32_opp _ Fb) ltac:(lra)).
          rewrite Rabs_left1; lra. }
      apply Rle_trans with (2 := Q2).
      apply Rmult_le_reg_r with (Rabs (B2R a)); [lra |].
      unfold Rdiv. rewrite Rmult_assoc, Rinv_l, Rmult_1_r by lra. nra.
  Qed.

  Lemma one_value : B2R (b32_Z 1) = 1 /\ is_finite (b32_Z 1) = true.
  Proof using.
    destruct (value (b32_Z 1) false 8388608 (-23) ltac:(vm_compute; reflexivity)) as [F K].
    split; [rewrite K; simpl; lra | exact F].
  Qed.

  Lemma zero_value : B2R (b32_Z 0) = 0 /\ is_finite (b32_Z 0) = true.
  Proof using. split; reflexivity. Qed.

  Lemma gap_sub (c : b32) :
    (is_finite (b32_sub (b32_Z 1) c) = true ->
       B2R (b32_sub (b32_Z 1) c) = 0 \/ / 16777216 <= Rabs (B2R (b32_sub (b32_Z 1) c))) /\
    (is_finite (b32_sub c (b32_Z 1)) = true ->
       B2R (b32_sub c (b32_Z 1)) = 0 \/ / 16777216 <= Rabs (B2R (b32_sub c (b32_Z 1)))).
  Proof using.
    destruct one_value as [V1 F1].
    assert (FG : F32 (/ 16777216)) by (apply (rep 1 (-24)); [simpl; lia | lia | simpl; lra]).
    assert (R : forall x, / 16777216 <= Rabs x -> / 16777216 <= Rabs (rnd x)).
    { intros x Hx. destruct (Rle_dec 0 x) as [P | P].
      - rewrite Rabs_pos_eq in Hx by lra. pose proof (rnd_ge _ _ FG Hx). rewrite Rabs_pos_eq; lra.
      - rewrite Rabs_left in Hx by lra. pose proof (rnd_le x _ (F32_opp _ FG) ltac:(lra)).
        rewrite Rabs_left1; lra. }
    split; intro H; apply sub_finite in H; destruct H as [A [B C]]; rewrite C, V1.
    - destruct (one_minus c B) as [E | E].
      + left. rewrite E. replace (1 - 1) with 0 by ring. apply rnd_id, F32_0.
      + right. apply R, E.
    - destruct (one_minus c A) as [E | E].
      + left. rewrite E. replace (1 - 1) with 0 by ring. apply rnd_id, F32_0.
      + right. apply R. rewrite <- Rabs_Ropp. replace (- (B2R c - 1)) with (1 - B2R c) by ring. exact E.
  Qed.

  Lemma u2_lost (chi alpha : b32) :
    is_finite alpha = true -> 0 < B2R alpha <= 1 ->
    B2R alpha * (B2R chi) ^ 2 <= / 67108864 ->
    let u := @ufunc2 _ (Num_B32 L) chi alpha in
    let U2 := (1 - cos (sqrt (B2R alpha) * B2R chi)) / B2R alpha in
    is_finite u = true -> U2 <= Rabs (B2R u - U2).
  Proof using.
    intros Fa Ha Hz u U2 Fu.
    set (a := B2R alpha) in *. set (x := B2R chi) in *.
    assert (Hu : u = b32_div (b32_sub (b32_Z 1) (m_cos L (b32_mul (b32_sqrt alpha) chi))) alpha).
    { unfold u, ufunc2, where_.
      assert (G : @n_gt _ (Num_B32 L) alpha (@n_Z _ (Num_B32 L) 0) = true).
      { change (Bltb (b32_Z 0) alpha = true). destruct zero_value as [V0 F0].
        rewrite lt_exact by assumption. rewrite V0. apply Rlt_bool_true. exact (proj1 Ha). }
      rewrite G. reflexivity. }
    set (c := m_cos L (b32_mul (b32_sqrt alpha) chi)) in *.
    assert (T0 : 0 <= U2 <= / 67108864 / a).
    { unfold U2. set (z := sqrt a * x).
      assert (Z2 : z ^ 2 <= / 67108864).
      { unfold z. rewrite Rpow_mult_distr, pow2_sqrt by lra. exact Hz. }
      assert (C : 1 - cos z <= z ^ 2).
      { destruct (Rle_dec 0 z) as [P | P].
        - pose proof (cos_ge_quad z P). nra.
        - pose proof (cos_ge_quad (- z) ltac:(lra)) as Q. rewrite cos_neg in Q. nra. }
      pose proof (COS_bound z). unfold Rdiv.
      assert (0 < / a) by (apply Rinv_0_lt_compat; lra). split; nra. }
    rewrite Hu in Fu |- *.
    assert (Na : a <> 0) by lra.
    destruct (div_finite _ alpha Na Fu) as [Fd _].
    destruct (quot_gap _ alpha ltac:(rewrite Rabs_pos_eq; fold a; lra) (proj1 (gap_sub c) Fd) Fu) as [E | E].
    - rewrite E. replace (0 - U2) with (- U2) by ring. rewrite Rabs_Ropp, Rabs_pos_eq; lra.
    - fold a in E. rewrite (Rabs_pos_eq a) in E by lra.
      assert (D : / 33554432 / a = 2 * (/ 67108864 / a)) by (field; lra).
      set (w := B2R (b32_div (b32_sub (b32_Z 1) c) alpha)) in *.
      pose proof (Rabs_triang_inv w U2) as Q. rewrite (Rabs_pos_eq U2) in Q; lra.
  Qed.

  Lemma u2_lost_hyperbolic (chi alpha : b32) :
    is_finite alpha = true -> -1 <= B2R alpha < 0 ->
    - B2R alpha * (B2R chi) ^ 2 <= / 134217728 ->
    let u := @ufunc2 _ (Num_B32 L) chi alpha in
    let U2 := (cosh (sqrt (- B2R alpha) * B2R chi) - 1) / (- B2R alpha) in
    is_finite u = true -> U2 <= Rabs (B2R u - U2).
  Proof using.
    intros Fa Ha Hz u U2 Fu.
    set (a := B2R alpha) in *. set (x := B2R chi) in *.
    assert (Hu : u = b32_div (b32_sub (m_cosh L (b32_mul (b32_sqrt (Bopp alpha)) chi)) (b32_Z 1)) (Bopp alpha)).
    { unfold u, ufunc2, where_. destruct zero_value as [V0 F0].
      assert (G1 : @n_gt _ (Num_B32 L) alpha (@n_Z _ (Num_B32 L) 0) = false).
      { change (Bltb (b32_Z 0) alpha = false).
        rewrite lt_exact by assumption. rewrite V0. apply Rlt_bool_false. fold a. lra. }
      assert (G2 : @n_lt _ (Num_B32 L) alpha (@n_Z _ (Num_B32 L) 0) = true).
      { change (Bltb alpha (b32_Z 0) = true).
        rewrite lt_exact by assumption. rewrite V0. apply Rlt_bool_true. exact (proj2 Ha). }
      rewrite G1, G2. reflexivity. }
    set (c := m_cosh L (b32_mul (b32_sqrt (Bopp alpha)) chi)) in *.
    assert (T0 : 0 <= U2 <= / 67108864 / (- a)).
    { unfold U2. set (z := sqrt (- a) * x).
      assert (Z2 : z ^ 2 <= / 134217728).
      { unfold z. rewrite Rpow_mult_distr, pow2_sqrt by lra. exact Hz. }
      assert (C : cosh z - 1 <= 2 * z ^ 2).
      { destruct (Rle_dec 0 z) as [P | P].
        - apply cosh_le_small. split; [exact P | nra].
        - pose proof (cosh_le_small (- z) ltac:(nra)) as Q. rewrite cosh_neg in Q. nra. }
      pose proof (cosh_ge_1 z). unfold Rdiv.
      assert (0 < / (- a)) by (apply Rinv_0_lt_compat; lra). split; nra. }
    rewrite Hu in Fu |- *.
    assert (Na : B2R (Bopp alpha) <> 0) by (rewrite B2R_Bopp; fold a; lra).
    destruct (div_finite _ (Bopp alpha) Na Fu) as [Fd _].
    destruct (quot_gap _ (Bopp alpha) ltac:(rewrite B2R_Bopp, Rabs_pos_eq; fold a; lra)
                (proj2 (gap_sub c) Fd) Fu) as [E | E].
    - rewrite E. replace (0 - U2) with (- U2) by ring. rewrite Rabs_Ropp, Rabs_pos_eq; lra.
    - rewrite B2R_Bopp in E. fold a in E. rewrite (Rabs_pos_eq (- a)) in E by lra.
      assert (D : / 33554432 / (- a) = 2 * (/ 67108864 / (- a))) by (field; lra).
      set (w := B2R (b32_div (b32_sub c (b32_Z 1)) (Bopp alpha))) in *.
      pose proof (Rabs_triang_inv w U2) as Q. rewrite (Rabs_pos_eq U2) in Q; lra.
  Qed.
End Uni.
