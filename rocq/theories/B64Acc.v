(** * B64Acc: how accurate ufunc2 is in double precision, and how ufunc3 cancels. *)
From Coq Require Import ZArith Reals Lra Lia Psatz Bool List.
From Flocq Require Import Core IEEE754.BinarySingleNaN.
From Verif Require Import Num NumB64 Spec OrbIntegrals Uniformulas RLib Ana SolveFacts SolveElps SolveHypb
  B32Uni AccLib B64Lib B64Kep B64Uni.
Local Open Scope R_scope.

Definition eps : R := / 9007199254740992.
Definition tiny : R := / 1606938044258990275541962092341162602522202993782792835301376.  (* 2^-200 *)

Lemma eps_small : 0 < eps <= / 1000.
Proof. unfold eps. lra. Qed.

Lemma rel (x : R) : tiny <= Rabs x -> exists t, Rabs t <= eps /\ rnd x = x * (1 + t).
Proof.
  intro H.
  assert (X : 0 < Rabs x) by (unfold tiny in H; lra).
  assert (X0 : x <> 0) by (intro K; rewrite K, Rabs_R0 in X; lra).
  assert (E : Rabs (rnd x - x) <= eps * Rabs x).
  { pose proof (error_le_half_ulp radix2 fx (fun z => negb (Z.even z)) x) as E.
    change (round radix2 fx ZnearestE x) with (rnd x) in E.
    assert (U : ulp radix2 fx x <= Rabs x * bpow radix2 (1 - 53)).
    { apply (ulp_FLT_le radix2 (-1074) 53). apply Rle_trans with (2 := H).
      apply Rle_trans with (bpow radix2 (-200)); [apply bpow_le; lia | unfold tiny; simpl; lra]. }
    assert (B : bpow radix2 (1 - 53) = 2 * eps) by (unfold eps; simpl; lra).
    rewrite B in U. lra. }
  exists ((rnd x - x) / x). split; [| field; exact X0].
  unfold Rdiv. rewrite Rabs_mult, Rabs_inv.
  apply Rmult_le_reg_r with (Rabs x); [exact X |].
  rewrite Rmult_assoc, Rinv_l, Rmult_1_r by lra. exact E.
Qed.

(** two different floats are at least [eps] times the first apart *)
Lemma ulp_big (x : R) : F64 x -> 0 < x -> eps * x <= ulp radix2 fx x.
Proof.
  intros Fx X. rewrite ulp_neq_0 by lra. unfold cexp.
  destruct (mag radix2 x) as [k Hk]. simpl. specialize (Hk ltac:(lra)).
  rewrite Rabs_pos_eq in Hk by lra.
  apply Rle_trans with (bpow radix2 (k - 53)).
  - unfold Z.sub. rewrite bpow_plus. replace (bpow radix2 (- (53))) with eps by (unfold eps; simpl; lra).
    assert (0 < eps) by apply eps_small. nra.
  - apply bpow_le. change (fx k) with (Z.max (k - 53) (-1074)). lia.
Qed.

Lemma ulp_zero : ulp radix2 fx 0 = bpow radix2 (-1074).
Proof. exact (ulp_FLT_0 radix2 (-1074) 53). Qed.

Lemma pred_far (p : R) : F64 p -> 0 < p -> eps * p <= p - pred radix2 fx p.
Proof.
  intros Fp P.
  pose proof (pred_plus_ulp radix2 fx p P Fp) as Q.
  set (y := pred radix2 fx p) in *.
  assert (Fy : F64 y) by (apply generic_format_pred; [exact fx_valid | exact Fp]).
  assert (Y : 0 <= y) by (apply pred_ge_0; [exact fx_valid | exact P | exact Fp]).
  pose proof eps_small as E.
  destruct Y as [Y | Y].
  - assert (U : ulp radix2 fx y >= bpow radix2 (mag radix2 y - 53)).
    { rewrite ulp_neq_0 by lra. unfold cexp. apply Rle_ge, bpow_le.
      change (fx (mag radix2 y)) with (Z.max (mag radix2 y - 53) (-1074)). lia. }
    assert (B : y < bpow radix2 (mag radix2 y)).
    { pose proof (bpow_mag_gt radix2 y) as K. rewrite Rabs_pos_eq in K by lra. exact K. }
    pose proof (id_p_ulp_le_bpow radix2 fx y _ Y Fy B) as I.
    unfold Z.sub in U. rewrite bpow_plus in U.
    replace (bpow radix2 (- (53))) with eps in U by (unfold eps; simpl; lra).
    nra.
  - rewrite <- Y in Q. rewrite <- Y. nra.
Qed.

Lemma apart_rel_pos (p q : R) : F64 p -> F64 q -> 0 < p -> p <> q -> eps * p <= Rabs (p - q).
Proof.
  intros Fp Fq P N. destruct (Rtotal_order q p) as [B | [B | B]]; [| lra |].
  - pose proof (pred_ge_gt radix2 fx q p Fq Fp B) as K. pose proof (pred_far p Fp P).
    rewrite Rabs_pos_eq; lra.
  - pose proof (succ_le_lt radix2 fx p q Fp Fq B) as K. rewrite succ_eq_pos in K by lra.
    pose proof (ulp_big p Fp P). rewrite Rabs_left; lra.
Qed.

Lemma apart_rel (p q : R) : F64 p -> F64 q -> p <> q -> eps * Rabs p <= Rabs (p - q).
Proof.
  intros Fp Fq N. pose proof eps_small as E.
  destruct (Rtotal_order p 0) as [B | [B | B]].
  - rewrite (Rabs_left p) by lra. rewrite <- Rabs_Ropp. replace (- (p - q)) with (- p - - q) by ring.
    apply apart_rel_pos; try apply F64_opp; auto; lra.
  - subst. rewrite Rabs_R0, Rmult_0_r. apply Rabs_pos.
  - rewrite (Rabs_pos_eq p) by lra. apply apart_rel_pos; auto.
Qed.

Lemma sqrt_value (a : b64) : is_finite a = true -> 0 < B2R a ->
  B2R (b64_sqrt a) = rnd (sqrt (B2R a)) /\ is_finite (b64_sqrt a) = true.
Proof.
  intros Fa Ha. destruct (Bsqrt_correct 53 1024 _ _ mode_NE a) as [K1 [K2 _]].
  split; [exact K1 |]. unfold b64_sqrt. rewrite K2.
  destruct a as [s | s | | s m e H]; try discriminate Fa; [reflexivity |].
  destruct s; [| reflexivity]. exfalso. simpl in Ha.
  apply Rlt_not_le in Ha. apply Ha. unfold F2R. simpl.
  pose proof (bpow_gt_0 radix2 e). assert (IZR (Z.neg m) <= 0) by (apply IZR_le; lia). nra.
Qed.

(** z = sqrt a * x, for [2^-100 <= a x^2] and [a <= 1] *)
Lemma z_facts (a x : R) : 0 < a <= 1 -> / 1267650600228229401496703205376 <= a * x ^ 2 ->
  let z := sqrt a * x in z ^ 2 = a * x ^ 2 /\ / 1125899906842624 <= Rabs z /\ z <> 0 /\ 0 < sqrt a <= 1.
Proof.
  intros Ha H z.
  assert (Z2 : z ^ 2 = a * x ^ 2) by (unfold z; rewrite Rpow_mult_distr, pow2_sqrt by lra; ring).
  assert (S : 0 < sqrt a <= 1).
  { split; [apply sqrt_lt_R0; lra |]. rewrite <- sqrt_1. apply sqrt_le_1; lra. }
  assert (A : / 1125899906842624 <= Rabs z).
  { pose proof (Rabs_pos z) as P.
    assert (Rabs z * Rabs z = z ^ 2) by (rewrite <- Rabs_mult, Rabs_pos_eq; nra). nra. }
  repeat split; try tauto; try lra.
  intro K. rewrite K, Rabs_R0 in A. lra.
Qed.

(** the argument handed to the transcendental function; 2^-200 <= a so that its root is not tiny *)
Lemma arg_value (a x : b64) :
  is_finite a = true -> tiny <= B2R a <= 1 -> is_finite x = true ->
  / 1267650600228229401496703205376 <= B2R a * B2R x ^ 2 <= 9 ->
  exists t1 t2, Rabs t1 <= eps /\ Rabs t2 <= eps /\
    B2R (b64_sqrt a) = sqrt (B2R a) * (1 + t1) /\
    B2R (b64_mul (b64_sqrt a) x) = sqrt (B2R a) * (1 + t1) * B2R x * (1 + t2) /\
    is_finite (b64_mul (b64_sqrt a) x) = true /\ Rabs (B2R (b64_mul (b64_sqrt a) x)) <= 4.
Proof.
  intros Fa Ha Fx Hz.
  assert (T : 0 < tiny <= / 1125899906842624) by (unfold tiny; lra).
  destruct (z_facts (B2R a) (B2R x) ltac:(lra) ltac:(lra)) as [Z2 [Zb [Z0 S]]].
  set (z := sqrt (B2R a) * B2R x) in *.
  destruct (sqrt_value a Fa ltac:(lra)) as [V1 F1].
  assert (SL : tiny <= sqrt (B2R a)).
  { pose proof (sqrt_sqrt (B2R a) ltac:(lra)). nra. }
  destruct (rel (sqrt (B2R a))) as [t1 [A1 E1]]; [rewrite Rabs_pos_eq; lra |].
  pose proof eps_small as E. pose proof A1 as A1'. apply Rabs_le_inv in A1'.
  assert (M : B2R (b64_sqrt a) * B2R x = z * (1 + t1)) by (rewrite V1, E1; unfold z; ring).
  assert (Za : Rabs z <= 3).
  { pose proof (Rabs_pos z) as P.
    assert (Rabs z * Rabs z = z ^ 2) by (rewrite <- Rabs_mult, Rabs_pos_eq; nra). nra. }
  assert (Ma : Rabs (z * (1 + t1)) <= 3.003 /\ tiny <= Rabs (z * (1 + t1))).
  { rewrite Rabs_mult, (Rabs_pos_eq (1 + t1)) by lra. unfold tiny in *. split; nra. }
  destruct (rel (z * (1 + t1)) ltac:(lra)) as [t2 [A2 E2]].
  destruct (mul_exact (b64_sqrt a) x F1 Fx) as [V2 F2].
  { rewrite M. apply Rle_trans with 4; [lra | apply IZR_le; lia]. }
  exists t1, t2. split; [exact A1 |]. split; [exact A2 |]. split; [rewrite V1; exact E1 |].
  assert (V : B2R (b64_mul (b64_sqrt a) x) = sqrt (B2R a) * (1 + t1) * B2R x * (1 + t2)).
  { rewrite V2, M, E2. unfold z. ring. }
  split; [exact V |]. split; [exact F2 |].
  rewrite V2, M, E2, Rabs_mult. apply Rabs_le_inv in A2. rewrite (Rabs_pos_eq (1 + t2)) by lra. nra.
Qed.

(** a rounded difference from one, divided: both errors are relative *)
Lemma quotient (w a : b64) :
  0 < Rabs (B2R a) <= 1 -> B2R w = 0 \/ tiny <= Rabs (B2R w) ->
  is_finite (b64_div w a) = true ->
  exists t, Rabs t <= eps /\ B2R (b64_div w a) = B2R w / B2R a * (1 + t).
Proof.
  intros Ha Hw F. pose proof eps_small as E.
  assert (Na : B2R a <> 0) by (intro K; rewrite K, Rabs_R0 in Ha; lra).
  destruct (div_finite w a Na F) as [_ K]. rewrite K. destruct Hw as [Hw | Hw].
  - exists 0. rewrite Rabs_R0. split; [lra |]. rewrite Hw. unfold Rdiv. rewrite !Rmult_0_l.
    apply rnd_id, F64_0.
  - apply rel. unfold Rdiv. rewrite Rabs_mult, Rabs_inv.
    assert (1 <= / Rabs (B2R a)).
    { rewrite <- Rinv_1. apply Rinv_le_contravar; lra. }
    assert (0 < tiny) by (unfold tiny; lra). nra.
Qed.

Lemma difference (x y : b64) :
  is_finite (b64_sub x y) = true -> tiny <= eps * Rabs (B2R x) ->
  exists t, Rabs t <= eps /\ B2R (b64_sub x y) = (B2R x - B2R y) * (1 + t) /\
    (B2R x - B2R y = 0 \/ eps * Rabs (B2R x) <= Rabs (B2R x - B2R y)).
Proof.
  intros F B. pose proof eps_small as E. destruct (sub_finite x y F) as [_ [_ K]]. rewrite K.
  destruct (Req_dec (B2R x) (B2R y)) as [Q | Q].
  - exists 0. rewrite Rabs_R0, Q. split; [lra |].
    replace (B2R y - B2R y) with 0 by ring. split; [rewrite Rmult_0_l; apply rnd_id, F64_0 | left; ring].
  - pose proof (apart_rel _ _ (F64_B2R x) (F64_B2R y) Q) as A.
    destruct (rel (B2R x - B2R y)) as [t [T1 T2]]; [lra |].
    exists t. split; [exact T1 |]. split; [exact T2 | right; exact A].
Qed.

Lemma difference_size (x y : b64) (t : R) :
  Rabs t <= eps -> B2R (b64_sub x y) = (B2R x - B2R y) * (1 + t) ->
  (B2R x - B2R y = 0 \/ eps * Rabs (B2R x) <= Rabs (B2R x - B2R y)) ->
  B2R (b64_sub x y) = 0 \/ / 2 * (eps * Rabs (B2R x)) <= Rabs (B2R (b64_sub x y)).
Proof.
  intros Ht K D. pose proof eps_small as E. apply Rabs_le_inv in Ht. rewrite K.
  destruct D as [D | D]; [left; rewrite D; ring | right].
  rewrite Rabs_mult, (Rabs_pos_eq (1 + t)) by lra.
  pose proof (Rabs_pos (B2R x)). pose proof (Rabs_pos (B2R x - B2R y)).
  apply Rle_trans with (/ 2 * Rabs (B2R x - B2R y)); [lra |]. nra.
Qed.

(** with [tiny <= a] neither the difference nor the quotient overflows *)
Lemma diff_fin (x y a : b64) :
  is_finite x = true -> is_finite y = true -> tiny <= Rabs (B2R a) -> Rabs (B2R x - B2R y) <= 90 ->
  is_finite (b64_sub x y) = true /\ is_finite (b64_div (b64_sub x y) a) = true.
Proof.
  intros Fx Fy Ha H.
  assert (Tp : 0 < tiny) by (unfold tiny; lra).
  assert (Na : B2R a <> 0) by (intro K; rewrite K, Rabs_R0 in Ha; lra).
  assert (B : / tiny * 90 <= IZR (2 ^ 1023)) by (unfold tiny; rewrite Rinv_inv; rewrite <- mult_IZR; apply IZR_le; lia).
  assert (T1 : 1 <= / tiny) by (unfold tiny; rewrite Rinv_inv; lra).
  destruct (sub_exact x y Fx Fy ltac:(lra)) as [V1 F1]. split; [exact F1 |].
  assert (D : Rabs (B2R (b64_sub x y)) <= 90).
  { rewrite V1. apply Rabs_le_inv in H. apply Rabs_le.
    assert (F90 : F64 90) by (apply F64_int; simpl; lia).
    split; [apply (rnd_ge _ (- (90))); [apply F64_opp; exact F90 | lra] | apply rnd_le; [exact F90 | lra]]. }
  apply div_exact; [exact F1 | exact Na |].
  apply Rle_trans with (2 := B). unfold Rdiv. rewrite Rabs_mult, Rabs_inv, Rmult_comm.
  apply Rmult_le_compat; [| apply Rabs_pos | | exact D].
  - left. apply Rinv_0_lt_compat. lra.
  - apply Rinv_le_contravar; lra.
Qed.

Lemma cosh_4 (x : R) : Rabs x <= 4 -> cosh x <= 81.
Proof.
  intro H. assert (Q : forall y, 0 <= y <= 4 -> cosh y <= 81).
  { intros y Y. unfold cosh. assert (E : exp (- y) <= exp y) by (destruct (Req_dec y 0);
      [subst; rewrite Ropp_0; lra | left; apply exp_increasing; lra]).
    assert (E4 : exp y <= exp 4) by (destruct (Req_dec y 4); [subst; lra | left; apply exp_increasing; lra]).
    assert (exp 4 <= 81).
    { replace 4 with (1 + 1 + 1 + 1) by ring. rewrite !exp_plus. pose proof exp_le_3. pose proof (exp_pos 1).
      assert (exp 1 * exp 1 <= 9) by nra. assert (0 <= exp 1 * exp 1) by nra.
      replace (exp 1 * exp 1 * exp 1 * exp 1) with ((exp 1 * exp 1) * (exp 1 * exp 1)) by ring. nra. }
    lra. }
  destruct (Rle_dec 0 x) as [P | P].
  - rewrite Rabs_pos_eq in H by lra. apply Q. lra.
  - rewrite Rabs_left in H by lra. rewrite <- cosh_neg. apply Q. lra.
Qed.

Lemma opp_value (a : b64) : B2R (Bopp a) = - B2R a.
Proof. apply B2R_Bopp. Qed.

Section Acc.
  Variable L : libm64.

  Lemma branch_pos (a : b64) (X : Type) (p q : X) : is_finite a = true -> 0 < B2R a ->
    where_ (@n_gt _ (Num_B64 L) a (@n_Z _ (Num_B64 L) 0)) p q = p.
  Proof using.
    intros Fa Ha.
    assert (G : @n_gt _ (Num_B64 L) a (@n_Z _ (Num_B64 L) 0) = true).
    { change (Bltb (b64_Z 0) a = true). destruct zero_value as [V0 F0].
      rewrite lt_exact by assumption. rewrite V0. apply Rlt_bool_true. exact Ha. }
    rewrite G. reflexivity.
  Qed.

  Lemma branch_neg (a : b64) (X : Type) (p q r : X) : is_finite a = true -> B2R a < 0 ->
    where_ (@n_gt _ (Num_B64 L) a (@n_Z _ (Num_B64 L) 0)) p
      (where_ (@n_lt _ (Num_B64 L) a (@n_Z _ (Num_B64 L) 0)) q r) = q.
  Proof using.
    intros Fa Ha. destruct zero_value as [V0 F0].
    assert (G1 : @n_gt _ (Num_B64 L) a (@n_Z _ (Num_B64 L) 0) = false).
    { change (Bltb (b64_Z 0) a = false).
      rewrite lt_exact by assumption. rewrite V0. apply Rlt_bool_false. lra. }
    assert (G2 : @n_lt _ (Num_B64 L) a (@n_Z _ (Num_B64 L) 0) = true).
    { change (Bltb a (b64_Z 0) = true).
      rewrite lt_exact by assumption. rewrite V0. apply Rlt_bool_true. exact Ha. }
    rewrite G1, G2. reflexivity.
  Qed.

  Lemma u2_accurate (chi alpha : b64) (delta : R) :
    is_finite alpha = true -> tiny <= B2R alpha <= 1 -> is_finite chi = true ->
    eps <= B2R alpha * B2R chi ^ 2 <= 9 -> 0 <= delta <= 1 ->
    (forall x, is_finite x = true -> Rabs (B2R x) <= 4 ->
       is_finite (d_cos L x) = true /\ Rabs (B2R (d_cos L x) - cos (B2R x)) <= delta) ->
    let u := @ufunc2 _ (Num_B64 L) chi alpha in
    let U2 := (1 - cos (sqrt (B2R alpha) * B2R chi)) / B2R alpha in
    is_finite u = true /\
    Rabs (B2R u - U2) <= (9 * delta / (B2R alpha * B2R chi ^ 2) + 42 * eps) * U2.
  Proof using.
    intros Fa Ha Fx Hz Hd good u U2. pose proof eps_small as E.
    assert (Tp : 0 < tiny) by (unfold tiny; lra).
    assert (Ee : / 1267650600228229401496703205376 <= eps) by (unfold eps; lra).
    assert (Hu : u = b64_div (b64_sub (b64_Z 1) (d_cos L (b64_mul (b64_sqrt alpha) chi))) alpha).
    { unfold u, ufunc2. apply branch_pos; [exact Fa | lra]. }
    destruct (arg_value alpha chi Fa Ha Fx ltac:(lra)) as [t1 [t2 [T1 [T2 [_ [V [Fp Bp]]]]]]].
    set (p := b64_mul (b64_sqrt alpha) chi) in *.
    destruct (good p Fp Bp) as [Fc C].
    set (c := d_cos L p) in *.
    destruct one_value as [V1 F1].
    assert (Na : B2R alpha <> 0) by lra.
    assert (Bc : Rabs (B2R (b64_Z 1) - B2R c) <= 90).
    { rewrite V1. pose proof (COS_bound (B2R p)). apply Rabs_le_inv in C. apply Rabs_le. lra. }
    destruct (diff_fin (b64_Z 1) c alpha F1 Fc ltac:(rewrite Rabs_pos_eq; lra) Bc) as [Fd Fu].
    rewrite V in C. rewrite Hu. split; [exact Fu |].
    destruct (difference (b64_Z 1) c Fd) as [t3 [T3 [D1 D2]]].
    { rewrite V1, Rabs_R1. unfold tiny, eps. lra. }
    assert (DS := difference_size (b64_Z 1) c t3 T3 D1 D2). rewrite V1, Rabs_R1 in DS.
    assert (DT : tiny <= / 2 * (eps * 1)) by (unfold tiny, eps; lra).
    destruct (quotient (b64_sub (b64_Z 1) c) alpha ltac:(rewrite Rabs_pos_eq; lra)
        ltac:(destruct DS; [left | right]; lra) Fu)
      as [t4 [T4 Q]].
    rewrite Q, D1, V1.
    apply (u2_error (B2R alpha) (B2R chi) eps delta (B2R c) t1 t2 t3 t4); auto; lra.
  Qed.

  Lemma u2_accurate_hyperbolic (chi alpha : b64) (delta : R) :
    is_finite alpha = true -> tiny <= - B2R alpha <= 1 -> is_finite chi = true ->
    eps <= - B2R alpha * B2R chi ^ 2 <= / 2 -> 0 <= delta <= 1 ->
    (forall x, is_finite x = true -> Rabs (B2R x) <= 4 ->
       is_finite (d_cosh L x) = true /\ Rabs (B2R (d_cosh L x) - cosh (B2R x)) <= delta) ->
    let u := @ufunc2 _ (Num_B64 L) chi alpha in
    let U2 := (cosh (sqrt (- B2R alpha) * B2R chi) - 1) / (- B2R alpha) in
    is_finite u = true /\
    Rabs (B2R u - U2) <= (9 * delta / (- B2R alpha * B2R chi ^ 2) + 42 * eps) * U2.
  Proof using.
    intros Fa Ha Fx Hz Hd good u U2. pose proof eps_small as E.
    assert (Tp : 0 < tiny) by (unfold tiny; lra).
    assert (Ee : / 1267650600228229401496703205376 <= eps) by (unfold eps; lra).
    assert (Hu : u = b64_div (b64_sub (d_cosh L (b64_mul (b64_sqrt (Bopp alpha)) chi)) (b64_Z 1)) (Bopp alpha)).
    { unfold u, ufunc2. apply branch_neg; [exact Fa | lra]. }
    assert (Fb : is_finite (Bopp alpha) = true) by (rewrite is_finite_Bopp; exact Fa).
    rewrite <- (opp_value alpha) in Ha, Hz.
    assert (HU : U2 = (cosh (sqrt (B2R (Bopp alpha)) * B2R chi) - 1) / B2R (Bopp alpha))
      by (unfold U2; rewrite opp_value; reflexivity).
    rewrite HU, <- (opp_value alpha). clear HU U2.
    set (beta := Bopp alpha) in *.
    destruct (arg_value beta chi Fb Ha Fx ltac:(lra)) as [t1 [t2 [T1 [T2 [_ [V [Fp Bp]]]]]]].
    set (p := b64_mul (b64_sqrt beta) chi) in *.
    destruct (good p Fp Bp) as [Fc C].
    set (c := d_cosh L p) in *.
    destruct one_value as [V1 F1].
    assert (Na : B2R beta <> 0) by lra.
    assert (Bc : Rabs (B2R c - B2R (b64_Z 1)) <= 90).
    { rewrite V1. pose proof (cosh_4 (B2R p) Bp). pose proof (cosh_ge_1 (B2R p)).
      apply Rabs_le_inv in C. apply Rabs_le. lra. }
    destruct (diff_fin c (b64_Z 1) beta Fc F1 ltac:(rewrite Rabs_pos_eq; lra) Bc) as [Fd Fu].
    rewrite V in C. rewrite Hu. split; [exact Fu |].
    assert (Alt : exists t3, Rabs t3 <= eps /\ B2R (b64_sub c (b64_Z 1)) = (B2R c - 1) * (1 + t3) /\
      (B2R (b64_sub c (b64_Z 1)) = 0 \/ tiny <= Rabs (B2R (b64_sub c (b64_Z 1))))).
    { destruct (sub_finite c (b64_Z 1) Fd) as [_ [_ K]]. rewrite K, V1.
      destruct (Req_dec (B2R c) 1) as [Q | Q].
      - exists 0. rewrite Rabs_R0, Q. replace (1 - 1) with 0 by ring.
        rewrite (rnd_id 0 F64_0). split; [lra |]. split; [ring | left; reflexivity].
      - assert (F1' : F64 1) by (rewrite <- V1; apply F64_B2R).
        pose proof (apart_rel _ _ F1' (F64_B2R c) (not_eq_sym Q)) as A. rewrite Rabs_R1 in A.
        rewrite Rabs_minus_sym in A.
        destruct (rel (B2R c - 1)) as [t [K1 K2]]; [unfold tiny, eps in *; lra |].
        exists t. split; [exact K1 |]. split; [exact K2 | right].
        rewrite K2, Rabs_mult. apply Rabs_le_inv in K1. rewrite (Rabs_pos_eq (1 + t)) by lra.
        assert (tiny <= eps / 2) by (unfold tiny, eps; lra). nra. }
    destruct Alt as [t3 [T3 [D1 DS]]].
    destruct (quotient _ beta ltac:(rewrite Rabs_pos_eq; lra) DS Fu) as [t4 [T4 Q]].
    rewrite Q, D1.
    apply (u2_error_hyperbolic (B2R beta) (B2R chi) eps delta (B2R c) t1 t2 t3 t4); auto; lra.
  Qed.

  (** ** ufunc3 *)
  (** both branches: the computed value with the relative errors of its operations; [s] is any float *)
  Lemma u3_value (chi a d s : b64) :
    is_finite a = true -> tiny <= B2R a <= 1 -> is_finite chi = true ->
    / 1267650600228229401496703205376 <= B2R a * B2R chi ^ 2 <= 9 ->
    Rabs (B2R d) = B2R a ->
    let p := b64_mul (b64_sqrt a) chi in
    let u := b64_div (b64_div (b64_sub p s) d) (b64_sqrt a) in
    is_finite u = true ->
    exists t1 t2 t3 t4 t5, Rabs t1 <= eps /\ Rabs t2 <= eps /\ Rabs t3 <= eps /\ Rabs t4 <= eps /\
      Rabs t5 <= eps /\ is_finite p = true /\ Rabs (B2R p) <= 4 /\
      B2R p = sqrt (B2R a) * B2R chi * (1 + t1) * (1 + t2) /\
      B2R u = (B2R p - B2R s) * (1 + t3) / B2R d * (1 + t4) / (sqrt (B2R a) * (1 + t1)) * (1 + t5) /\
      (B2R p - B2R s = 0 \/ eps * Rabs (B2R p) <= Rabs (B2R p - B2R s)).
  Proof using.
    intros Fa Ha Fx Hz Hd p u Fu. pose proof eps_small as E.
    assert (Tp : 0 < tiny) by (unfold tiny; lra).
    destruct (arg_value a chi Fa Ha Fx Hz) as [t1 [t2 [T1 [T2 [VS [V [Fp Bp]]]]]]].
    destruct (z_facts (B2R a) (B2R chi) ltac:(lra) ltac:(lra)) as [Z2 [Zb [Z0 S]]].
    fold p in V, Fp, Bp. set (z := sqrt (B2R a) * B2R chi) in *.
    assert (Na : B2R d <> 0) by (intro K; rewrite K, Rabs_R0 in Hd; lra).
    pose proof T1 as T1'. apply Rabs_le_inv in T1'. pose proof T2 as T2'. apply Rabs_le_inv in T2'.
    assert (SR : 0 < B2R (b64_sqrt a) <= 1).
    { split; [rewrite VS; nra |]. destruct (sqrt_value a Fa ltac:(lra)) as [K _]. rewrite K.
      apply rnd_le; [apply F64_int; simpl; lia | lra]. }
    assert (NS : B2R (b64_sqrt a) <> 0) by lra.
    assert (P : B2R p = z * (1 + t1) * (1 + t2)) by (rewrite V; unfold z; ring).
    assert (PB : / 2251799813685248 <= Rabs (B2R p)).
    { rewrite P, !Rabs_mult, (Rabs_pos_eq (1 + t1)), (Rabs_pos_eq (1 + t2)) by lra.
      apply Rle_trans with (/ 1125899906842624 * 0.999 * 0.999); [lra |].
      apply Rmult_le_compat; [lra | lra | apply Rmult_le_compat; lra | lra]. }
    assert (BT : 2 * tiny <= / 2 * (eps * Rabs (B2R p))) by (unfold tiny, eps; lra).
    unfold u in Fu |- *. clear u.
    destruct (div_finite _ (b64_sqrt a) NS Fu) as [Fv _].
    destruct (div_finite _ d Na Fv) as [Fw _].
    destruct (difference p s Fw ltac:(lra)) as [t3 [T3 [D1 D2]]].
    assert (DS := difference_size p s t3 T3 D1 D2).
    destruct (quotient (b64_sub p s) d ltac:(lra) ltac:(destruct DS; [left | right]; lra) Fv) as [t4 [T4 Q]].
    pose proof T4 as T4'. apply Rabs_le_inv in T4'.
    assert (QS : B2R (b64_div (b64_sub p s) d) = 0 \/ tiny <= Rabs (B2R (b64_div (b64_sub p s) d))).
    { rewrite Q. destruct DS as [DS | DS]; [left; rewrite DS; unfold Rdiv; ring | right].
      unfold Rdiv. rewrite !Rabs_mult, Rabs_inv, Hd, (Rabs_pos_eq (1 + t4)) by lra.
      assert (1 <= / B2R a) by (rewrite <- Rinv_1; apply Rinv_le_contravar; lra).
      apply Rle_trans with (2 * tiny * 1 * / 2); [lra |].
      apply Rmult_le_compat; [lra | lra | apply Rmult_le_compat; lra | lra]. }
    destruct (quotient _ (b64_sqrt a) ltac:(rewrite Rabs_pos_eq; lra) QS Fu) as [t5 [T5 Q5]].
    exists t1, t2, t3, t4, t5. repeat (split; [assumption |]).
    split; [| exact D2]. rewrite Q5, Q, D1, VS. reflexivity.
  Qed.

  (** a sign in the divisor changes no absolute value *)
  Lemma sign_free (b d q X Y T K : R) : 0 < b -> 0 < q -> Rabs d = b ->
    (Rabs (Y / b / q) <= Rabs (X / b * T - Y / b / q) -> Rabs (Y / d / q) <= Rabs (X / d * T - Y / d / q)) /\
    (Rabs (X / b * T - Y / b / q) <= K * Rabs (Y / b / q) -> Rabs (X / d * T - Y / d / q) <= K * Rabs (Y / d / q)).
  Proof using.
    intros Hb Hq Hd. destruct (Rle_dec 0 d) as [B | B].
    - rewrite Rabs_pos_eq in Hd by exact B. subst d. tauto.
    - rewrite Rabs_left in Hd by lra. assert (D : d = - b) by lra. subst d.
      replace (Y / - b / q) with (- (Y / b / q)) by (field; lra).
      replace (X / - b * T - - (Y / b / q)) with (- (X / b * T - Y / b / q)) by (field; lra).
      rewrite !Rabs_Ropp. tauto.
  Qed.

  Lemma u3_lost_common (chi a d : b64) (s : b64) (Ue : R) :
    is_finite a = true -> tiny <= B2R a <= 1 -> is_finite chi = true ->
    / 1267650600228229401496703205376 <= B2R a * B2R chi ^ 2 <= 9 ->
    Rabs Ue <= 0.49 * eps * Rabs (sqrt (B2R a) * B2R chi) ->
    Rabs (B2R d) = B2R a ->
    let p := b64_mul (b64_sqrt a) chi in
    let u := b64_div (b64_div (b64_sub p s) d) (b64_sqrt a) in
    is_finite u = true ->
    Rabs (Ue / B2R d / sqrt (B2R a)) <= Rabs (B2R u - Ue / B2R d / sqrt (B2R a)).
  Proof using.
    intros Fa Ha Fx Hz HU Hd p u Fu. pose proof eps_small as E.
    assert (Tp : 0 < tiny) by (unfold tiny; lra).
    destruct (z_facts (B2R a) (B2R chi) ltac:(lra) ltac:(lra)) as [Z2 [Zb [Z0 S]]].
    destruct (u3_value chi a d s Fa Ha Fx Hz Hd Fu)
      as [t1 [t2 [t3 [t4 [t5 [T1 [T2 [T3 [T4 [T5 [Fp [Bp [P [V D]]]]]]]]]]]]]].
    fold p in Fp, Bp, P, V, D. fold u in V. rewrite V.
    set (z := sqrt (B2R a) * B2R chi) in *. set (q := sqrt (B2R a)) in *.
    destruct D as [D | D].
    - rewrite D. unfold Rdiv. rewrite !Rmult_0_l, Rminus_0_l, Rabs_Ropp. lra.
    - pose proof T1 as T1'. apply Rabs_le_inv in T1'.
      replace ((B2R p - B2R s) * (1 + t3) / B2R d * (1 + t4) / (q * (1 + t1)) * (1 + t5))
        with ((B2R p - B2R s) * (1 + t3) / B2R d * ((1 + t4) / (q * (1 + t1)) * (1 + t5))) by (unfold Rdiv; ring).
      apply (proj1 (sign_free (B2R a) (B2R d) q _ _ _ 0 ltac:(lra) ltac:(lra) Hd)).
      replace ((B2R p - B2R s) * (1 + t3) / B2R a * ((1 + t4) / (q * (1 + t1)) * (1 + t5)))
        with ((B2R p - B2R s) * (1 + t3) / B2R a * (1 + t4) / (q * (1 + t1)) * (1 + t5)) by (unfold Rdiv; ring).
      apply (u3_gone (B2R a) q eps (B2R p - B2R s) z Ue t1 t2 t3 t4 t5); auto; try lra.
      rewrite <- P. exact D.
  Qed.

  Lemma u3_accurate_common (chi a d : b64) (s : b64) (delta N lo hi kw K : R) :
    is_finite a = true -> tiny <= B2R a <= 1 -> is_finite chi = true ->
    / 1267650600228229401496703205376 <= B2R a * B2R chi ^ 2 <= 9 ->
    Rabs (B2R d) = B2R a -> 0 <= delta ->
    let z := sqrt (B2R a) * B2R chi in
    lo * Rabs z ^ 3 <= Rabs N <= hi * Rabs z ^ 3 -> 0 <= hi <= 2 -> 0 <= kw <= 4.1 -> / 11 <= lo ->
    1.02 * kw + 4.05 * hi <= K * lo ->
    let p := b64_mul (b64_sqrt a) chi in
    (forall th, Rabs th <= 2.001 * eps -> B2R p = z * (1 + th) -> is_finite p = true -> Rabs (B2R p) <= 4 ->
       Rabs ((B2R p - B2R s) - N) <= delta + kw * eps * Rabs z ^ 3) ->
    let u := b64_div (b64_div (b64_sub p s) d) (b64_sqrt a) in
    is_finite u = true ->
    Rabs (B2R u - N / B2R d / sqrt (B2R a)) <= (12 * delta / Rabs z ^ 3 + K * eps) * Rabs (N / B2R d / sqrt (B2R a)).
  Proof using.
    intros Fa Ha Fx Hz Hd Hdel z HN Hhi Hkw Hlo HK p Hw u Fu. pose proof eps_small as E.
    assert (Tp : 0 < tiny) by (unfold tiny; lra).
    destruct (z_facts (B2R a) (B2R chi) ltac:(lra) ltac:(lra)) as [Z2 [Zb [Z0 S]]].
    destruct (u3_value chi a d s Fa Ha Fx Hz Hd Fu)
      as [t1 [t2 [t3 [t4 [t5 [T1 [T2 [T3 [T4 [T5 [Fp [Bp [P [V D]]]]]]]]]]]]]].
    fold p in Fp, Bp, P, V, D. fold u in V. rewrite V. fold z in P, Z2, Zb, Z0.
    set (q := sqrt (B2R a)) in *.
    assert (HW : Rabs ((B2R p - B2R s) - N) <= delta + kw * eps * Rabs z ^ 3).
    { apply (Hw (t1 + t2 + t1 * t2)); auto.
      - apply two_errors; auto; lra.
      - rewrite P. ring. }
    pose proof T1 as T1'. apply Rabs_le_inv in T1'.
    replace ((B2R p - B2R s) * (1 + t3) / B2R d * (1 + t4) / (q * (1 + t1)) * (1 + t5))
      with ((B2R p - B2R s) * (1 + t3) / B2R d * ((1 + t4) / (q * (1 + t1)) * (1 + t5))) by (unfold Rdiv; ring).
    apply (proj2 (sign_free (B2R a) (B2R d) q _ _ _ (12 * delta / Rabs z ^ 3 + K * eps) ltac:(lra) ltac:(lra) Hd)).
    replace ((B2R p - B2R s) * (1 + t3) / B2R a * ((1 + t4) / (q * (1 + t1)) * (1 + t5)))
      with ((B2R p - B2R s) * (1 + t3) / B2R a * (1 + t4) / (q * (1 + t1)) * (1 + t5)) by (unfold Rdiv; ring).
    apply (u3_near eps delta (B2R a) q z (B2R p - B2R s) N lo hi kw K t1 t3 t4 t5); auto; lra.
  Qed.

  Lemma u3_accurate (chi alpha : b64) (delta : R) :
    is_finite alpha = true -> tiny <= B2R alpha <= 1 -> is_finite chi = true ->
    / 1267650600228229401496703205376 <= B2R alpha * B2R chi ^ 2 <= 9 -> 0 <= delta ->
    (forall x, is_finite x = true -> Rabs (B2R x) <= 4 ->
       Rabs (B2R (d_sin L x) - sin (B2R x)) <= delta) ->
    let u := @ufunc3 _ (Num_B64 L) chi alpha in
    let z := sqrt (B2R alpha) * B2R chi in
    let U3 := (z - sin z) / B2R alpha / sqrt (B2R alpha) in
    is_finite u = true ->
    Rabs (B2R u - U3) <= (12 * delta / Rabs z ^ 3 + 20 * eps) * Rabs U3.
  Proof using.
    intros Fa Ha Fx Hz Hd good u z U3 Fu. pose proof eps_small as E.
    assert (Tp : 0 < tiny) by (unfold tiny; lra).
    destruct (z_facts (B2R alpha) (B2R chi) ltac:(lra) ltac:(lra)) as [Z2 [Zb [Z0 S]]].
    fold z in Z2, Zb, Z0.
    assert (Hu : u = b64_div (b64_div (b64_sub (b64_mul (b64_sqrt alpha) chi)
      (d_sin L (b64_mul (b64_sqrt alpha) chi))) alpha) (b64_sqrt alpha)).
    { unfold u, ufunc3. apply branch_pos; [exact Fa | lra]. }
    rewrite Hu in Fu |- *.
    apply (u3_accurate_common chi alpha alpha _ delta (z - sin z) (/ 11) (/ 6) 1.1 20); auto; try lra.
    - rewrite Rabs_pos_eq; lra.
    - exact (sin_excess_low z ltac:(lra)).
    - intros th Ht Pv Fp Bp. pose proof (good _ Fp Bp) as G.
      set (p := b64_mul (b64_sqrt alpha) chi) in *. fold z in Pv |- *.
      pose proof (sin_excess_near z th eps ltac:(lra) Ht) as K. rewrite <- Pv in K.
      apply Rabs_le_inv in G. apply Rabs_le_inv in K. apply Rabs_le. lra.
  Qed.

  Lemma u3_accurate_hyperbolic (chi alpha : b64) (delta : R) :
    is_finite alpha = true -> tiny <= - B2R alpha <= 1 -> is_finite chi = true ->
    / 1267650600228229401496703205376 <= - B2R alpha * B2R chi ^ 2 <= / 2 -> 0 <= delta ->
    (forall x, is_finite x = true -> Rabs (B2R x) <= 4 ->
       Rabs (B2R (d_sinh L x) - sinh (B2R x)) <= delta) ->
    let u := @ufunc3 _ (Num_B64 L) chi alpha in
    let z := sqrt (- B2R alpha) * B2R chi in
    let U3 := (z - sinh z) / B2R alpha / sqrt (- B2R alpha) in
    is_finite u = true ->
    Rabs (B2R u - U3) <= (12 * delta / Rabs z ^ 3 + 74 * eps) * Rabs U3.
  Proof using.
    intros Fa Ha Fx Hz Hd good u z U3 Fu. pose proof eps_small as E.
    assert (Tp : 0 < tiny) by (unfold tiny; lra).
    assert (Hu : u = b64_div (b64_div (b64_sub (b64_mul (b64_sqrt (Bopp alpha)) chi)
      (d_sinh L (b64_mul (b64_sqrt (Bopp alpha)) chi))) alpha) (b64_sqrt (Bopp alpha))).
    { unfold u, ufunc3. apply branch_neg; [exact Fa | lra]. }
    rewrite Hu in Fu |- *.
    assert (Fb : is_finite (Bopp alpha) = true) by (rewrite is_finite_Bopp; exact Fa).
    unfold U3, z. clear U3 z.
    assert (RA : Rabs (B2R alpha) = - B2R alpha) by (apply Rabs_left; lra).
    rewrite <- (opp_value alpha) in Ha, Hz, RA |- *.
    set (beta := Bopp alpha) in *.
    destruct (z_facts (B2R beta) (B2R chi) ltac:(lra) ltac:(lra)) as [Z2 [Zb [Z0 S]]].
    set (z := sqrt (B2R beta) * B2R chi) in *.
    apply (u3_accurate_common chi beta alpha _ delta (z - sinh z) (/ 6) 2 4.1 74); auto; try lra.
    - exact (sinh_excess_low z ltac:(lra)).
    - intros th Ht Pv Fp Bp. pose proof (good _ Fp Bp) as G.
      set (p := b64_mul (b64_sqrt beta) chi) in *. fold z in Pv |- *.
      pose proof (sinh_excess_near z th eps ltac:(lra) Ht ltac:(lra)) as K. rewrite <- Pv in K.
      apply Rabs_le_inv in G. apply Rabs_le_inv in K. apply Rabs_le. lra.
  Qed.

  Lemma u3_lost (chi alpha : b64) :
    is_finite alpha = true -> tiny <= B2R alpha <= 1 -> is_finite chi = true ->
    / 1267650600228229401496703205376 <= B2R alpha * B2R chi ^ 2 <= 2 * eps ->
    let u := @ufunc3 _ (Num_B64 L) chi alpha in
    let z := sqrt (B2R alpha) * B2R chi in
    let U3 := (z - sin z) / B2R alpha / sqrt (B2R alpha) in
    is_finite u = true -> Rabs U3 <= Rabs (B2R u - U3).
  Proof using.
    intros Fa Ha Fx Hz u z U3 Fu. pose proof eps_small as E.
    assert (Tp : 0 < tiny) by (unfold tiny; lra).
    destruct (z_facts (B2R alpha) (B2R chi) ltac:(lra) ltac:(lra)) as [Z2 [Zb [Z0 S]]].
    fold z in Z2, Zb, Z0.
    assert (Hu : u = b64_div (b64_div (b64_sub (b64_mul (b64_sqrt alpha) chi)
      (d_sin L (b64_mul (b64_sqrt alpha) chi))) alpha) (b64_sqrt alpha)).
    { unfold u, ufunc3. apply branch_pos; [exact Fa | lra]. }
    rewrite Hu in Fu |- *.
    apply (u3_lost_common chi alpha alpha); auto; [lra | | rewrite Rabs_pos_eq; lra].
    fold z. apply Rle_trans with (1 := sin_excess z).
    pose proof (Rabs_pos z) as P.
    assert (Rabs z * Rabs z = z ^ 2) by (rewrite <- Rabs_mult, Rabs_pos_eq; nra).
    replace (Rabs z ^ 3) with (Rabs z * (Rabs z * Rabs z)) by ring. nra.
  Qed.

  Lemma u3_lost_hyperbolic (chi alpha : b64) :
    is_finite alpha = true -> tiny <= - B2R alpha <= 1 -> is_finite chi = true ->
    / 1267650600228229401496703205376 <= - B2R alpha * B2R chi ^ 2 <= / 8 * eps ->
    let u := @ufunc3 _ (Num_B64 L) chi alpha in
    let z := sqrt (- B2R alpha) * B2R chi in
    let U3 := (z - sinh z) / B2R alpha / sqrt (- B2R alpha) in
    is_finite u = true -> Rabs U3 <= Rabs (B2R u - U3).
  Proof using.
    intros Fa Ha Fx Hz u z U3 Fu. pose proof eps_small as E.
    assert (Tp : 0 < tiny) by (unfold tiny; lra).
    assert (Hu : u = b64_div (b64_div (b64_sub (b64_mul (b64_sqrt (Bopp alpha)) chi)
      (d_sinh L (b64_mul (b64_sqrt (Bopp alpha)) chi))) alpha) (b64_sqrt (Bopp alpha))).
    { unfold u, ufunc3. apply branch_neg; [exact Fa | lra]. }
    rewrite Hu in Fu |- *.
    assert (Fb : is_finite (Bopp alpha) = true) by (rewrite is_finite_Bopp; exact Fa).
    unfold U3, z. clear U3 z.
    assert (RA : Rabs (B2R alpha) = - B2R alpha) by (apply Rabs_left; lra).
    rewrite <- (opp_value alpha) in Ha, Hz, RA |- *.
    set (beta := Bopp alpha) in *.
    destruct (z_facts (B2R beta) (B2R chi) ltac:(lra) ltac:(lra)) as [Z2 [Zb [Z0 S]]].
    apply (u3_lost_common chi beta alpha); auto; [lra |].
    set (z := sqrt (B2R beta) * B2R chi) in *.
    apply Rle_trans with (1 := sinh_excess z ltac:(lra)).
    pose proof (Rabs_pos z) as P.
    assert (Rabs z * Rabs z = z ^ 2) by (rewrite <- Rabs_mult, Rabs_pos_eq; nra).
    replace (Rabs z ^ 3) with (Rabs z * (Rabs z * Rabs z)) by ring. nra.
  Qed.
End Acc.
