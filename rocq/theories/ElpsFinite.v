(** * ElpsFinite: no step of the elliptic Newton iteration overflows (proofs for C109), for any IEEE format *)
From Coq Require Import ZArith Reals Lra Lia Bool.
From Flocq Require Import Core IEEE754.BinarySingleNaN.
From Verif Require Import Num Spec KepEqu LoopFacts.
From Verif Require UnitCalc.
Local Open Scope R_scope.

Section Fin.
  Context {prec emax : Z} (Hp : FLX.Prec_gt_0 prec) (Hm : Prec_lt_emax prec emax).
  Notation bf := (binary_float prec emax).
  Notation fx := (SpecFloat.fexp prec emax).
  Notation fmt := (generic_format radix2 fx).
  Context (N : Num bf) (I : UnitCalc.ieee Hp Hm N) (p3 : (3 <= prec)%Z).

  (** finite and at most [c] in size *)
  Definition up (c : R) (x : bf) : Prop := is_finite x = true /\ Rabs (B2R x) <= c.
  Lemma e3 : (3 < emax)%Z. Proof using Hm p3. red in Hm. lia. Qed.
  Lemma fmt_pow (k : Z) : (- emax < k)%Z -> fmt (bpow radix2 k).
  Proof using Hp Hm p3. intros H. apply generic_format_bpow. unfold SpecFloat.fexp, SpecFloat.emin. red in Hp, Hm. lia. Qed.
  Lemma fmt_3pow (k : Z) : (0 <= k)%Z -> fmt (3 * bpow radix2 k).
  Proof using Hp Hm p3.
    intros H. change (3 * bpow radix2 k) with (F2R (Float radix2 3 k)). apply generic_format_F2R. intros _. unfold cexp.
    rewrite mag_F2R by discriminate. rewrite <- Zdigits_mag by discriminate. change (Zdigits radix2 3) with 2%Z.
    unfold SpecFloat.fexp, SpecFloat.emin. red in Hp, Hm. lia.
  Qed.
  Lemma rnd_le (r c : R) : fmt c -> Rabs r <= c -> Rabs (round radix2 fx ZnearestE r) <= c.
  Proof using Hp Hm. intros F H. apply abs_round_le_generic; [apply fexp_correct, Hp|apply valid_rnd_N|exact F|exact H]. Qed.
  Ltac opn T F L H := pose proof T; match goal with C : context [Rlt_bool] |- _ => rewrite Rlt_bool_true in C by (apply Rle_lt_trans with (2 := L); apply rnd_le; assumption) end.
  Lemma u_add (c : R) (x y : bf) : is_finite x = true -> is_finite y = true -> fmt c -> c < bpow radix2 emax -> Rabs (B2R x + B2R y) <= c -> up c (@n_add _ N x y).
  Proof using I. intros Fx Fy F L H. opn (Bplus_correct _ _ Hp Hm mode_NE x y Fx Fy) F L H. destruct H0 as (C & F' & _). rewrite (UnitCalc.i_add _ _ _ I). split; [exact F'|rewrite C; now apply rnd_le]. Qed.
  Lemma u_sub (c : R) (x y : bf) : is_finite x = true -> is_finite y = true -> fmt c -> c < bpow radix2 emax -> Rabs (B2R x - B2R y) <= c -> up c (@n_sub _ N x y).
  Proof using I. intros Fx Fy F L H. opn (Bminus_correct _ _ Hp Hm mode_NE x y Fx Fy) F L H. destruct H0 as (C & F' & _). rewrite (UnitCalc.i_sub _ _ _ I). split; [exact F'|rewrite C; now apply rnd_le]. Qed.
  Lemma u_mul (c : R) (x y : bf) : is_finite x = true -> is_finite y = true -> fmt c -> c < bpow radix2 emax -> Rabs (B2R x * B2R y) <= c ->
    up c (@n_mul _ N x y) /\ B2R (@n_mul _ N x y) = round radix2 fx ZnearestE (B2R x * B2R y).
  Proof using I.
    intros Fx Fy F L H. opn (Bmult_correct _ _ Hp Hm mode_NE x y) F L H. destruct H0 as (C & F' & _). rewrite Fx, Fy in F'. rewrite (UnitCalc.i_mul _ _ _ I).
    split; [split; [exact F'|rewrite C; now apply rnd_le]|exact C].
  Qed.
  Lemma u_div (c : R) (x y : bf) : is_finite x = true -> B2R y <> 0 -> fmt c -> c < bpow radix2 emax -> Rabs (B2R x / B2R y) <= c -> up c (@n_div _ N x y).
  Proof using I. intros Fx Fy F L H. opn (Bdiv_correct _ _ Hp Hm mode_NE x y Fy) F L H. destruct H0 as (C & F' & _). rewrite Fx in F'. rewrite (UnitCalc.i_div _ _ _ I). split; [exact F'|rewrite C; now apply rnd_le]. Qed.

  (** the library: a finite number of size at most 1 *)
  Context (S1 : forall x : bf, is_finite x = true -> up 1 (@n_sin _ N x)) (C1 : forall x : bf, is_finite x = true -> up 1 (@n_cos _ N x)).
  Context (one : bf) (two : bf) (E1 : @n_Z _ N 1 = one) (E2 : @n_Z _ N 2 = two) (V1 : is_finite one = true /\ B2R one = 1) (V2 : is_finite two = true /\ B2R two = 2).
  Context (k : Z) (K : (1 <= k < prec)%Z) (e : bf) (He : up (1 - bpow radix2 (- k)) e).

  Lemma pow_lt (a b : Z) : (a < b)%Z -> bpow radix2 a < bpow radix2 b. Proof using. apply bpow_lt. Qed.
  Lemma pow2 (a : Z) : bpow radix2 (a + 1) = 2 * bpow radix2 a. Proof using. rewrite bpow_plus. change (bpow radix2 1) with 2. ring. Qed.
  Lemma pow_ge1 (a : Z) : (0 <= a)%Z -> 1 <= bpow radix2 a. Proof using. intros H. change 1 with (bpow radix2 0). now apply bpow_le. Qed.
  Lemma fmt_1k : fmt (1 - bpow radix2 (- k)).
  Proof using Hp Hm K p3.
    replace (1 - bpow radix2 (- k)) with (F2R (Float radix2 (2 ^ k - 1) (- k))).
    2:{ unfold F2R. cbn [Fnum Fexp]. rewrite minus_IZR. change (2 ^ k)%Z with (radix2 ^ k)%Z. rewrite IZR_Zpower by lia. rewrite Rmult_minus_distr_r, <- bpow_plus, Z.add_opp_diag_r. cbn [bpow]. ring. }
    apply generic_format_F2R. intros Z. unfold cexp. rewrite mag_F2R by exact Z.
    assert (D : (mag radix2 (IZR (2 ^ k - 1)) <= k)%Z).
    { apply mag_le_bpow; [now apply IZR_neq|]. rewrite <- IZR_Zpower by lia. change (radix2 ^ k)%Z with (2 ^ k)%Z. rewrite <- abs_IZR. apply IZR_lt. assert (0 < 2 ^ k)%Z by (apply Z.pow_pos_nonneg; lia). lia. }
    unfold SpecFloat.fexp, SpecFloat.emin. red in Hp, Hm. lia.
  Qed.
  Lemma one_lt : 1 < bpow radix2 emax. Proof using Hp Hm p3. change 1 with (bpow radix2 0). apply bpow_lt. red in Hp, Hm. lia. Qed.
  Lemma k_pos : 0 < bpow radix2 (- k) <= / 2.
  Proof using K. split; [apply bpow_gt_0|]. change (/ 2) with (bpow radix2 (-1)). apply bpow_le. lia. Qed.
  (** the product of e with a sine or cosine *)
  Lemma e_times (s : bf) : up 1 s -> up (1 - bpow radix2 (- k)) (@n_mul _ N e s).
  Proof using I He K p3.
    intros [Fs Bs]. destruct He as [Fe Be]. pose proof k_pos. pose proof one_lt. apply u_mul; try assumption; [apply fmt_1k|lra|].
    rewrite Rabs_mult. pose proof (Rabs_pos (B2R e)). pose proof (Rabs_pos (B2R s)). nra.
  Qed.
  Lemma D_low (E : bf) : is_finite E = true -> is_finite (@dE _ N E e) = true /\ bpow radix2 (- k) <= B2R (@dE _ N E e).
  Proof using I He K C1 E1 V1 p3.
    intros FE. destruct (e_times _ (C1 E FE)) as [Fc Bc]. destruct V1 as [Fo Vo]. unfold dE. rewrite E1. pose proof k_pos as Kp. pose proof one_lt.
    apply Rabs_le_inv in Bc. set (c := @n_mul _ N e (@n_cos _ N E)) in *.
    pose proof (Bminus_correct _ _ Hp Hm mode_NE one c Fo Fc) as Q. rewrite (UnitCalc.i_sub _ _ _ I), Vo in *.
    assert (B : Rabs (1 - B2R c) <= 2) by (apply Rabs_le; lra).
    assert (F2 : fmt 2) by (apply (fmt_pow 1); red in Hp, Hm; lia).
    assert (L2 : 2 < bpow radix2 emax) by (apply (bpow_lt radix2 1); pose proof e3; lia).
    rewrite Rlt_bool_true in Q by (apply Rle_lt_trans with (2 := L2); now apply rnd_le). destruct Q as (Q & Fq & _). split; [exact Fq|]. rewrite Q.
    apply round_ge_generic; [apply fexp_correct, Hp|apply valid_rnd_N|apply fmt_pow; red in Hp, Hm; lia|]. cbn [round_mode]. lra.
  Qed.
  Context (m : Z) (M0 : (1 <= m)%Z) (ME : (m + 2 < emax)%Z) (M : bf) (HM : up (bpow radix2 m) M).
  Lemma step (b : Z) (E : bf) : (m + 1 <= b)%Z -> (b + k + 2 < emax)%Z -> up (bpow radix2 b) E -> up (bpow radix2 (b + (k + 2))) (@elps_newton _ N M e E).
  Proof using I He HM K M0 ME C1 S1 E1 V1 p3.
    intros B L [FE BE]. destruct HM as [FM BM]. destruct (e_times _ (S1 E FE)) as [Fs Bs]. destruct (D_low E FE) as [FD BD].
    pose proof k_pos as Kp. pose proof e3 as Q3. unfold elps_newton, kepler_equ_elps. set (s := @n_mul _ N e (@n_sin _ N E)) in *.
    assert (P1 : bpow radix2 b = 2 * bpow radix2 (b - 1)) by (rewrite <- pow2; f_equal; lia).
    assert (Pm : bpow radix2 m <= bpow radix2 (b - 1)) by (apply bpow_le; lia).
    assert (P0 : 2 <= bpow radix2 (b - 1)) by (change 2 with (bpow radix2 1); apply bpow_le; lia).
    assert (A1 : up (3 * bpow radix2 (b - 1)) (@n_sub _ N E s)).
    { apply u_sub; try assumption; [apply fmt_3pow; lia| |].
      - apply Rlt_trans with (bpow radix2 (b + 1)); [rewrite pow2; lra|apply bpow_lt; lia].
      - apply Rabs_le_inv in BE. apply Rabs_le_inv in Bs. apply Rabs_le. lra. }
    destruct A1 as [F1 B1].
    assert (A2 : up (bpow radix2 (b + 1)) (@n_sub _ N (@n_sub _ N E s) M)).
    { apply u_sub; try assumption; [apply fmt_pow; lia|apply bpow_lt; lia|]. apply Rabs_le_inv in B1. apply Rabs_le_inv in BM. apply Rabs_le. rewrite pow2. lra. }
    destruct A2 as [F2 B2].
    assert (A3 : up (bpow radix2 (b + 1 + k)) (@n_div _ N (@n_sub _ N (@n_sub _ N E s) M) (@dE _ N E e))).
    { assert (D0 : 0 < B2R (@dE _ N E e)) by lra. apply u_div; [exact F2|lra|apply fmt_pow; lia|apply bpow_lt; lia|].
      unfold Rdiv. rewrite Rabs_mult, bpow_plus. apply Rmult_le_compat; try apply Rabs_pos; [exact B2|].
      rewrite Rabs_right by (apply Rle_ge, Rlt_le, Rinv_0_lt_compat; exact D0). replace (bpow radix2 k) with (/ bpow radix2 (- k)) by (rewrite bpow_opp, Rinv_inv; reflexivity).
      apply Rinv_le_contravar; [apply Kp|exact BD]. }
    destruct A3 as [F3 B3]. apply u_sub; try assumption; [apply fmt_pow; lia|apply bpow_lt; lia|].
    replace (b + (k + 2))%Z with (b + 1 + k + 1)%Z by lia. rewrite pow2. assert (Pb : bpow radix2 b <= bpow radix2 (b + 1 + k)) by (apply bpow_le; lia).
    apply Rabs_le_inv in BE. apply Rabs_le_inv in B3. apply Rabs_le. lra.
  Qed.
  Lemma guess : up (bpow radix2 (m + 1)) (@elps_guess _ N M e).
  Proof using I He HM K M0 ME S1 E2 V2 p3.
    destruct HM as [FM BM]. destruct (e_times _ (S1 M FM)) as [F1 B1]. destruct V2 as [Ft Vt]. pose proof k_pos as Kp. pose proof e3 as Q3. pose proof He as [Fe Be]. pose proof one_lt.
    assert (P0 : 2 <= bpow radix2 m) by (change 2 with (bpow radix2 1); apply bpow_le; lia).
    unfold elps_guess. rewrite E2.
    destruct (u_mul (bpow radix2 (m + 1)) two M) as [[F2 _] _]; try assumption; [apply fmt_pow; lia|apply bpow_lt; lia|rewrite Vt, Rabs_mult, pow2, (Rabs_right 2) by lra; lra|].
    assert (fl1 : fmt 1) by (apply (fmt_pow 0); lia).
    assert (A3 : up 1 (@npow _ N e 2)). { unfold npow. cbn. pose proof (Rabs_pos (B2R e)). apply (u_mul 1 e e); try assumption. rewrite Rabs_mult. nra. }
    destruct A3 as [F3 B3]. destruct (S1 _ F2) as [F4 B4].
    assert (A5 : up 1 (@n_mul _ N (@npow _ N e 2) (@n_sin _ N (@n_mul _ N two M)))).
    { apply u_mul; try assumption. rewrite Rabs_mult. pose proof (Rabs_pos (B2R (@npow _ N e 2))). pose proof (Rabs_pos (B2R (@n_sin _ N (@n_mul _ N two M)))). nra. }
    destruct A5 as [F5 B5].
    assert (A6 : up (/ 2) (@n_div _ N (@n_mul _ N (@npow _ N e 2) (@n_sin _ N (@n_mul _ N two M))) two)).
    { apply u_div; [exact F5|rewrite Vt; lra|apply (fmt_pow (-1)); lia|lra|]. rewrite Vt. unfold Rdiv. rewrite Rabs_mult, (Rabs_right (/ 2)) by lra. lra. }
    destruct A6 as [F6 B6].
    assert (A7 : up (3 * bpow radix2 (m - 1)) (@n_add _ N M (@n_mul _ N e (@n_sin _ N M)))).
    { assert (Pm : bpow radix2 m = 2 * bpow radix2 (m - 1)) by (rewrite <- pow2; f_equal; lia). apply u_add; try assumption; [apply fmt_3pow; lia| |].
      - apply Rlt_trans with (bpow radix2 (m + 1)); [rewrite pow2; lra|apply bpow_lt; lia].
      - apply Rabs_le_inv in BM. apply Rabs_le_inv in B1. apply Rabs_le. lra. }
    destruct A7 as [F7 B7]. apply u_add; try assumption; [apply fmt_pow; lia|apply bpow_lt; lia|].
    assert (Pm : bpow radix2 m = 2 * bpow radix2 (m - 1)) by (rewrite <- pow2; f_equal; lia). rewrite pow2. apply Rabs_le_inv in B7. apply Rabs_le_inv in B6. apply Rabs_le. lra.
  Qed.
  Lemma iter (n : nat) : (m + 1 + Z.of_nat n * (k + 2) < emax)%Z -> up (bpow radix2 (m + 1 + Z.of_nat n * (k + 2))) (iterate (@elps_newton _ N M e) n (@elps_guess _ N M e)).
  Proof using I He HM K M0 ME S1 C1 E1 V1 E2 V2 p3.
    induction n as [|n IH]; intros L.
    - rewrite Z.mul_0_l, Z.add_0_r. exact guess.
    - cbn [iterate]. replace (m + 1 + Z.of_nat (S n) * (k + 2))%Z with (m + 1 + Z.of_nat n * (k + 2) + (k + 2))%Z by lia. apply step; [lia|lia|apply IH; lia].
  Qed.
  Lemma elps_finite (tol : bf) (max_iter : Z) : (m + 1 + Z.max 0 max_iter * (k + 2) < emax)%Z ->
    up (bpow radix2 (m + 1 + Z.max 0 max_iter * (k + 2))) (@solve_kepler_elps _ N M e tol max_iter).
  Proof using I He HM K M0 ME S1 C1 E1 V1 E2 V2 p3.
    intros L. destruct (elps_run_char M e tol max_iter) as (n & Hn & R & _). cbv beta zeta in R. unfold solve_kepler_elps. rewrite R.
    assert (Hn' : (Z.of_nat n <= Z.max 0 max_iter)%Z) by lia. clear R.
    destruct (iter n) as [F B]; [nia|]. split; [exact F|]. eapply Rle_trans; [exact B|]. apply bpow_le. nia.
  Qed.
End Fin.
