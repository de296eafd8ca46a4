(** * B64Far: solve_kepler_elps in double precision at a mean anomaly of eight billion revolutions. *)
From Coq Require Import ZArith Reals Lra Lia Psatz Bool List.
From Flocq Require Import Core IEEE754.BinarySingleNaN.
From Verif Require Import Num NumB64 Spec KepEqu RLib Ana LoopFacts SolveElps B32Kep B64Lib B64Facts B64Kep.
Local Open Scope R_scope.

Lemma F64_double (x : R) : F64 x -> F64 (2 * x).
Proof.
  intro H. assert (G : FLT_format radix2 (-1074) 53 x) by (apply FLT_format_generic; [reflexivity | exact H]).
  destruct G as [f E1 E2 E3]. rewrite E1. unfold F2R.
  replace (2 * (IZR (Fnum f) * bpow radix2 (Fexp f))) with (IZR (Fnum f) * bpow radix2 (Fexp f + 1)).
  - apply F64_scaled; [exact E2 | lia].
  - rewrite bpow_plus. change (bpow radix2 1) with 2. ring.
Qed.

(** 8 * 10^9 revolutions *)
Definition turns : R := 16000000000 * PI.

Lemma turns_INR : turns = 2 * INR (Z.to_nat 8000000000) * PI.
Proof. unfold turns. rewrite INR_IZR_INZ, Z2Nat.id by lia. ring. Qed.

Lemma sin_far (x : R) : sin x = - sin (turns - x).
Proof.
  rewrite <- (sin_turns x (Z.to_nat 8000000000)), <- turns_INR.
  replace (turns - x) with (- (x - turns)) by ring. rewrite sin_neg. ring.
Qed.

Lemma turns_size : 50000000000 <= turns <= 51000000000.
Proof. unfold turns. pose proof PI_tight. lra. Qed.

(** a double within 2^-17 of [turns - 0.531] *)
Definition far_M : b64 :=
  binary_normalize 53 1024 _ _ mode_NE (up ((turns - 0.531) * 131072)) (-17) false.

Lemma far_M_value : is_finite far_M = true /\
  turns - 0.531 <= B2R far_M <= turns - 0.531 + / 131072.
Proof.
  set (n := up ((turns - 0.531) * 131072)).
  destruct (archimed ((turns - 0.531) * 131072)) as [A1 A2]. fold n in A1, A2.
  pose proof turns_size as T.
  assert (N : (Z.abs n < 2 ^ 53)%Z).
  { assert (0 < n)%Z by (apply lt_IZR; lra). rewrite Z.abs_eq by lia.
    apply lt_IZR. change (IZR (2 ^ 53)) with 9007199254740992. lra. }
  assert (F : F64 (IZR n * bpow radix2 (-17))) by (apply F64_scaled; [exact N | lia]).
  pose proof (binary_normalize_correct 53 1024 _ _ mode_NE n (-17) false) as K.
  assert (V : F2R (Float radix2 n (-17)) = IZR n * bpow radix2 (-17)) by reflexivity.
  cbv zeta in K. rewrite V in K.
  change (round radix2 (SpecFloat.fexp 53 1024) (round_mode mode_NE) (IZR n * bpow radix2 (-17)))
    with (rnd (IZR n * bpow radix2 (-17))) in K.
  rewrite (rnd_id _ F) in K.
  assert (P : bpow radix2 (-17) = / 131072) by (simpl; lra). rewrite P in K.
  assert (B : 0 <= IZR n * / 131072 <= 60000000000) by lra.
  rewrite Rlt_bool_true in K.
  - destruct K as [K1 [K2 _]]. split; [exact K2 |]. unfold far_M. fold n. rewrite K1. lra.
  - rewrite Rabs_pos_eq by lra. rewrite max64. apply Rle_lt_trans with 60000000000; [lra |].
    apply IZR_lt. lia.
Qed.

Lemma rnd_near (x : R) : Rabs x < 68719476736 -> Rabs (rnd x - x) <= / 131072.
Proof.
  intro H. pose proof (error_le_half_ulp radix2 fx (fun z => negb (Z.even z)) x) as E.
  change (round radix2 fx ZnearestE x) with (rnd x) in E.
  assert (ulp radix2 fx x <= bpow radix2 (36 - 53)).
  { apply ulp64_le; [lia |]. replace (bpow radix2 36) with 68719476736 by (simpl; lra). exact H. }
  simpl in H0. lra.
Qed.

Section Far.
  Variable L : libm64.
  Hypothesis good : forall x, is_finite x = true -> Rabs (B2R x) <= 137438953472 ->
    is_finite (d_sin L x) = true /\ Rabs (B2R (d_sin L x) - sin (B2R x)) <= 1 / 1024.

  Lemma guess_at_far :
    let g := @elps_guess _ (Num_B64 L) far_M (b64_dec 1 2) in
    is_finite g = true /\ B2R far_M - 750 / 2048 <= B2R g <= B2R far_M - 731 / 2048.
  Proof using good.
    pose proof turns_size as T. destruct far_M_value as [FM VM].
    set (M := far_M) in *.
    assert (Big : 200000000000 <= IZR (2 ^ 1023)) by (apply IZR_le; lia).
    assert (VD : B2R (b64_mul (b64_Z 2) M) = 2 * B2R M /\ is_finite (b64_mul (b64_Z 2) M) = true).
    { destruct (value (b64_Z 2) false 4503599627370496 (-51) ltac:(vm_compute; reflexivity)) as [F2 K].
      assert (V2 : B2R (b64_Z 2) = 2) by (rewrite K; simpl; lra).
      destruct (mul_exact (b64_Z 2) M F2 FM) as [A1 A2].
      { rewrite V2. apply Rabs_le. lra. }
      split; [| exact A2]. rewrite A1, V2. apply rnd_id.
      apply F64_double, F64_B2R. }
    destruct VD as [VD FD].
    destruct (good M FM ltac:(apply Rabs_le; lra)) as [F1 A1].
    destruct (good _ FD ltac:(rewrite VD; apply Rabs_le; lra)) as [F2 A2].
    rewrite VD in A2.
    apply Rabs_le_inv in A1. apply Rabs_le_inv in A2.
    assert (S1 : - 0.5068 <= sin (B2R M) <= - 0.505).
    { rewrite sin_far. set (y := turns - B2R M). assert (Y : 0.53098 <= y <= 0.531) by (unfold y; lra).
      pose proof (sin_ge_cube y ltac:(lra)). pose proof (sin_le_quint y ltac:(lra)).
      pose proof (cube_le y 0.531 ltac:(lra)). pose proof (quint_le y 0.531 ltac:(lra)).
      pose proof (cube_ge y 0.53098 ltac:(lra)). lra. }
    assert (S2 : - 0.8745 <= sin (2 * B2R M) <= - 0.8605).
    { set (y := 2 * turns - 2 * B2R M).
      assert (E : sin (2 * B2R M) = - sin y).
      { replace (- sin y) with (sin (- y)) by apply sin_neg.
        rewrite <- (sin_turns (2 * B2R M) (Z.to_nat 16000000000)).
        f_equal. unfold y, turns. rewrite INR_IZR_INZ, Z2Nat.id by lia. ring. }
      rewrite E. assert (Y : 1.06196 <= y <= 1.062) by (unfold y; lra).
      pose proof (sin_ge_cube y ltac:(lra)). pose proof (sin_le_quint y ltac:(lra)).
      pose proof (cube_le y 1.062 ltac:(lra)). pose proof (quint_le y 1.062 ltac:(lra)).
      pose proof (cube_ge y 1.06196 ltac:(lra)). lra. }
    destruct (value (b64_dec 1 2) false 4503599627370496 (-53) ltac:(vm_compute; reflexivity)) as [Fe Ve].
    assert (Ve' : B2R (b64_dec 1 2) = 1 / 2) by (rewrite Ve; simpl; lra). clear Ve.
    set (e := b64_dec 1 2) in *.
    cbv zeta. change (@elps_guess _ (Num_B64 L) M e) with
      (b64_add (b64_add M (b64_mul e (d_sin L M)))
        (b64_div (b64_mul (b64_mul e e) (d_sin L (b64_mul (b64_Z 2) M))) (b64_Z 2))).
    set (s1 := d_sin L M) in *. set (s2 := d_sin L (b64_mul (b64_Z 2) M)) in *.
    assert (W1 : within (-131 / 512) (-128 / 512) (b64_mul e s1)).
    { apply mul_in; auto; [| | lra | lra | rewrite Ve'; lra].
      - apply (rep (-131) (-9)); [simpl; lia | lia | simpl; lra].
      - apply (rep (-128) (-9)); [simpl; lia | lia | simpl; lra]. }
    destruct W1 as [G1 B1].
    assert (W3 : within (1 / 4) (1 / 4) (b64_mul e e)).
    { assert (F64 (1 / 4)) by (apply (rep 1 (-2)); [simpl; lia | lia | simpl; lra]).
      apply mul_in; auto; [lra | lra | rewrite Ve'; lra]. }
    destruct W3 as [G3 B3].
    assert (W4 : within (-225 / 1024) (-220 / 1024) (b64_mul (b64_mul e e) s2)).
    { assert (Q : B2R (b64_mul e e) = 1 / 4) by lra.
      apply mul_in; auto; [| | lra | lra | rewrite Q; lra].
      - apply (rep (-225) (-10)); [simpl; lia | lia | simpl; lra].
      - apply (rep (-220) (-10)); [simpl; lia | lia | simpl; lra]. }
    destruct W4 as [G4 B4].
    assert (V2 : B2R (b64_Z 2) = 2).
    { destruct (value (b64_Z 2) false 4503599627370496 (-51) ltac:(vm_compute; reflexivity)) as [_ K].
      rewrite K. simpl. lra. }
    assert (W5 : within (-225 / 2048) (-220 / 2048) (b64_div (b64_mul (b64_mul e e) s2) (b64_Z 2))).
    { apply div_in; auto; [| | lra | lra | lra | rewrite V2; lra].
      - apply (rep (-225) (-11)); [simpl; lia | lia | simpl; lra].
      - apply (rep (-220) (-11)); [simpl; lia | lia | simpl; lra]. }
    destruct W5 as [G5 B5].
    set (a := b64_mul e s1) in *. set (d := b64_div (b64_mul (b64_mul e e) s2) (b64_Z 2)) in *.
    destruct (add_exact M a FM G1 ltac:(apply Rabs_le; lra)) as [K1 K2].
    pose proof (rnd_near (B2R M + B2R a) ltac:(apply Rabs_lt; lra)) as R1.
    rewrite <- K1 in R1. apply Rabs_le_inv in R1.
    set (c := b64_add M a) in *.
    destruct (add_exact c d K2 G5 ltac:(apply Rabs_le; lra)) as [K3 K4].
    pose proof (rnd_near (B2R c + B2R d) ltac:(apply Rabs_lt; lra)) as R2.
    rewrite <- K3 in R2. apply Rabs_le_inv in R2.
    split; [exact K4 | lra].
  Qed.

  Lemma elps_at_far (mi : Z) :
    let E := B2R (@solve_kepler_elps _ (Num_B64 L) far_M (b64_dec 1 2) (@default_tol _ (Num_B64 L)) mi) in
    1 / 50 <= E - 1 / 2 * sin E - B2R far_M.
  Proof using good.
    destruct guess_at_far as [G B]. pose proof turns_size as T. destruct far_M_value as [FM VM].
    rewrite elps_stuck by (intros [_ K]; lra).
    set (E := B2R (@elps_guess _ (Num_B64 L) far_M (b64_dec 1 2))) in *. cbv zeta.
    rewrite (sin_far E). set (y := turns - E).
    assert (Y : 0 <= y <= 0.89723) by (unfold y; lra).
    pose proof (sin_ge_cube y ltac:(lra)). pose proof (cube_le y 0.89723 Y).
    assert (E = turns - y) by (unfold y; ring). lra.
  Qed.
End Far.

Lemma elps_far_exists (L : libm64) :
  (forall x, is_finite x = true -> Rabs (B2R x) <= 137438953472 ->
    is_finite (d_sin L x) = true /\ Rabs (B2R (d_sin L x) - sin (B2R x)) <= 1 / 1024) ->
  exists M, is_finite M = true /\ 34359738370 <= B2R M <= 51000000000 /\ forall mi : Z,
    let E := B2R (@solve_kepler_elps _ (Num_B64 L) M (b64_dec 1 2) (@default_tol _ (Num_B64 L)) mi) in
    1 / 50 <= E - 1 / 2 * sin E - B2R M.
Proof.
  intro good. exists far_M. destruct far_M_value as [FM VM]. pose proof turns_size as T.
  split; [exact FM |]. split; [lra |]. intro mi. apply elps_at_far. exact good.
Qed.

(** ** A libm that meets the assumption: every function rounded from the exact one to 40 fractional bits *)
Definition near40 (x : R) : b64 :=
  binary_normalize 53 1024 _ _ mode_NE (up (x * 1099511627776)) (-40) false.

Lemma near40_value (x : R) : Rabs x <= 4096 ->
  is_finite (near40 x) = true /\ x <= B2R (near40 x) <= x + / 1099511627776.
Proof.
  intro H. apply Rabs_le_inv in H.
  set (n := up (x * 1099511627776)).
  destruct (archimed (x * 1099511627776)) as [A1 A2]. fold n in A1, A2.
  assert (N : (Z.abs n < 2 ^ 53)%Z).
  { apply Z.abs_lt. split; apply lt_IZR;
    rewrite ?opp_IZR; change (IZR (2 ^ 53)) with 9007199254740992; lra. }
  assert (F : F64 (IZR n * bpow radix2 (-40))) by (apply F64_scaled; [exact N | lia]).
  pose proof (binary_normalize_correct 53 1024 _ _ mode_NE n (-40) false) as K.
  assert (V : F2R (Float radix2 n (-40)) = IZR n * bpow radix2 (-40)) by reflexivity.
  cbv zeta in K. rewrite V in K.
  change (round radix2 (SpecFloat.fexp 53 1024) (round_mode mode_NE) (IZR n * bpow radix2 (-40)))
    with (rnd (IZR n * bpow radix2 (-40))) in K.
  rewrite (rnd_id _ F) in K.
  assert (P : bpow radix2 (-40) = / 1099511627776) by (simpl; lra). rewrite P in K.
  rewrite Rlt_bool_true in K.
  - destruct K as [K1 [K2 _]]. split; [exact K2 |]. unfold near40. fold n. rewrite K1. lra.
  - rewrite max64. apply Rle_lt_trans with 8192; [apply Rabs_le; lra |].
    apply IZR_lt. lia.
Qed.

Definition exact_libm : libm64 := {|
  d_cbrt := fun x => x;
  d_sin := fun x => near40 (sin (B2R x));
  d_cos := fun x => near40 (cos (B2R x));
  d_sinh := fun x => near40 (sinh (B2R x));
  d_cosh := fun x => near40 (cosh (B2R x));
  d_log := fun x => near40 (ln (B2R x));
  d_arccos := fun x => near40 (acos (B2R x));
  d_arctan2 := fun y x => near40 (atan (B2R y / B2R x))
|}.

Lemma exact_libm_sin (x : b64) :
  is_finite (d_sin exact_libm x) = true /\ Rabs (B2R (d_sin exact_libm x) - sin (B2R x)) <= 1 / 1024.
Proof.
  pose proof (SIN_bound (B2R x)) as S.
  destruct (near40_value (sin (B2R x)) ltac:(apply Rabs_le; lra)) as [F V].
  split; [exact F |]. apply Rabs_le. simpl. lra.
Qed.
