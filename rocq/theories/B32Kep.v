(** * B32Kep: solve_kepler_elps in single precision at M = 100, e = 1/2, and the
    other stopping tests. *)
From Coq Require Import ZArith Reals Lra Lia Psatz Bool List.
From Flocq Require Import Core IEEE754.BinarySingleNaN.
From Verif Require Import Num NumB32 Spec KepEqu RLib Ana LoopFacts KepRows SolveFacts SolveElps B32Lib B32Facts.
Local Open Scope R_scope.

Lemma sin_le_quint x : 0 <= x -> sin x <= x - x ^ 3 / 6 + x ^ 5 / 120.
Proof.
  intros H.
  pose proof (der_nonneg_from (fun t => t - t ^ 3 / 6 + t ^ 5 / 120 - sin t)
    (fun t => 1 - t ^ 2 / 2 + t ^ 4 / 24 - cos t) 0) as P.
  specialize (P ltac:(intros t; apply der_minus; [|apply der_sin]; apply der_plus; [apply der_minus; [apply der_id|]|];
    (eapply der_eq; [apply der_scal_r; apply (der_pow (fun s => s)), der_id|simpl; lra]))
    ltac:(intros t Ht; pose proof (cos_le_quart t Ht); lra) 0 x ltac:(lra) H).
  cbv beta in P. rewrite sin_0 in P. lra.
Qed.

Lemma sin_turns (x : R) (k : nat) : sin (x - 2 * INR k * PI) = sin x.
Proof.
  rewrite <- (sin_period (x - 2 * INR k * PI) k). f_equal. ring.
Qed.

Lemma cube_le (x b : R) : 0 <= x <= b -> x ^ 3 <= b ^ 3.
Proof. intros H. apply pow_incr. exact H. Qed.

Lemma quint_le (x b : R) : 0 <= x <= b -> x ^ 5 <= b ^ 5.
Proof. intros H. apply pow_incr. exact H. Qed.

Lemma cube_ge (x a : R) : 0 <= a <= x -> a ^ 3 <= x ^ 3.
Proof. intros H. apply pow_incr. exact H. Qed.

Lemma sin_100 : - 0.5068 <= sin 100 <= - 0.505.
Proof.
  pose proof PI_tight as HP.
  pose proof (sin_turns 100 16) as K. simpl INR in K.
  set (y := 32 * PI - 100). assert (Y : 0.53 <= y <= 0.5313) by (unfold y; lra).
  replace (100 - 2 * (1+1+1+1+1+1+1+1+1+1+1+1+1+1+1+1) * PI) with (- y) in K by (unfold y; ring).
  rewrite sin_neg in K.
  assert (Y2 : 0.53088 <= y) by (unfold y; lra).
  pose proof (sin_ge_cube y ltac:(lra)). pose proof (sin_le_quint y ltac:(lra)).
  pose proof (cube_le y 0.5313 ltac:(lra)). pose proof (quint_le y 0.5313 ltac:(lra)).
  pose proof (cube_ge y 0.53088 ltac:(lra)). lra.
Qed.

Lemma sin_200 : - 0.8745 <= sin 200 <= - 0.8605.
Proof.
  pose proof PI_tight as HP.
  pose proof (sin_turns 200 32) as K. simpl INR in K.
  set (y := 64 * PI - 200). assert (Y : 1.0617 <= y <= 1.0625) by (unfold y; lra).
  replace (200 - 2 * (1+1+1+1+1+1+1+1+1+1+1+1+1+1+1+1+1+1+1+1+1+1+1+1+1+1+1+1+1+1+1+1) * PI) with (- y) in K by (unfold y; ring).
  rewrite sin_neg in K.
  pose proof (sin_ge_cube y ltac:(lra)). pose proof (sin_le_quint y ltac:(lra)).
  pose proof (cube_le y 1.0625 ltac:(lra)). pose proof (quint_le y 1.0625 ltac:(lra)).
  pose proof (cube_ge y 1.0617 ltac:(lra)). lra.
Qed.

Lemma residual_100 (E : R) :
  100 - 749 / 2048 <= E <= 100 - 732 / 2048 -> 1 / 50 <= E - 1 / 2 * sin E - 100.
Proof.
  intro H. pose proof PI_tight as HP.
  pose proof (sin_turns E 16) as K. simpl INR in K.
  set (y := 32 * PI - E).
  replace (E - 2 * (1+1+1+1+1+1+1+1+1+1+1+1+1+1+1+1) * PI) with (- y) in K by (unfold y; ring).
  rewrite sin_neg in K.
  assert (Y : 0 <= y <= 0.89693) by (unfold y; lra).
  pose proof (sin_ge_cube y ltac:(lra)). pose proof (cube_le y 0.89693 Y).
  assert (E = 32 * PI - y) by (unfold y; ring). lra.
Qed.

(** representable bounds *)
Lemma rep (m : Z) (e : Z) (x : R) : (Z.abs m < 2 ^ 24)%Z -> (-149 <= e)%Z ->
  x = IZR m * bpow radix2 e -> F32 x.
Proof. intros H1 H2 ->. apply F32_scaled; assumption. Qed.

Section Refuted.
  Variable L : libm.

  Lemma guess_100 :
    is_finite (m_sin L (b32_Z 100)) = true -> is_finite (m_sin L (b32_Z 200)) = true ->
    Rabs (B2R (m_sin L (b32_Z 100)) - sin 100) <= 1 / 1024 ->
    Rabs (B2R (m_sin L (b32_Z 200)) - sin 200) <= 1 / 1024 ->
    within (100 - 749 / 2048) (100 - 732 / 2048)
      (@elps_guess _ (Num_B32 L) (b32_Z 100) (b32_dec 1 2)).
  Proof using.
    intros F1 F2 A1 A2.
    pose proof sin_100 as S1. pose proof sin_200 as S2.
    apply Rabs_le_inv in A1. apply Rabs_le_inv in A2.
    assert (Big : 1000 <= IZR (2 ^ 127)) by (apply IZR_le; lia).
    destruct (value (b32_dec 1 2) false 8388608 (-24) ltac:(vm_compute; reflexivity)) as [Fe Ve].
    destruct (value (b32_Z 100) false 13107200 (-17) ltac:(vm_compute; reflexivity)) as [FM VM].
    assert (Ve' : B2R (b32_dec 1 2) = 1 / 2) by (rewrite Ve; simpl; lra). clear Ve.
    assert (VM' : B2R (b32_Z 100) = 100) by (rewrite VM; simpl; lra). clear VM.
    set (e := b32_dec 1 2) in *. set (M := b32_Z 100) in *.
    change (@elps_guess _ (Num_B32 L) M e) with
      (b32_add (b32_add M (b32_mul e (m_sin L M)))
        (b32_div (b32_mul (b32_mul e e) (m_sin L (b32_mul (b32_Z 2) M))) (b32_Z 2))).
    replace (b32_mul (b32_Z 2) M) with (b32_Z 200) by (apply B2SF_inj; vm_compute; reflexivity).
    set (s1 := m_sin L M) in *. set (s2 := m_sin L (b32_Z 200)) in *.
    assert (W1 : within (-131 / 512) (-128 / 512) (b32_mul e s1)).
    { apply mul_in; auto; [| | lra | lra | rewrite Ve'; lra].
      - apply (rep (-131) (-9)); [simpl; lia | lia | simpl; lra].
      - apply (rep (-128) (-9)); [simpl; lia | lia | simpl; lra]. }
    destruct W1 as [G1 B1].
    assert (W2 : within (100 - 131 / 512) (100 - 128 / 512) (b32_add M (b32_mul e s1))).
    { apply add_in; auto; [| | lra | lra | lra].
      - apply (rep (51200 - 131) (-9)); [simpl; lia | lia | simpl; lra].
      - apply (rep (51200 - 128) (-9)); [simpl; lia | lia | simpl; lra]. }
    destruct W2 as [G2 B2].
    assert (W3 : within (1 / 4) (1 / 4) (b32_mul e e)).
    { assert (F32 (1 / 4)) by (apply (rep 1 (-2)); [simpl; lia | lia | simpl; lra]).
      apply mul_in; auto; [lra | lra | rewrite Ve'; lra]. }
    destruct W3 as [G3 B3].
    assert (W4 : within (-225 / 1024) (-220 / 1024) (b32_mul (b32_mul e e) s2)).
    { assert (Q : B2R (b32_mul e e) = 1 / 4) by lra.
      apply mul_in; auto; [| | lra | lra | rewrite Q; lra].
      - apply (rep (-225) (-10)); [simpl; lia | lia | simpl; lra].
      - apply (rep (-220) (-10)); [simpl; lia | lia | simpl; lra]. }
    destruct W4 as [G4 B4].
    assert (V2 : B2R (b32_Z 2) = 2).
    { destruct (value (b32_Z 2) false 8388608 (-22) ltac:(vm_compute; reflexivity)) as [_ K].
      rewrite K. simpl. lra. }
    assert (W5 : within (-225 / 2048) (-220 / 2048) (b32_div (b32_mul (b32_mul e e) s2) (b32_Z 2))).
    { apply div_in; auto; [| | lra | lra | lra | rewrite V2; lra].
      - apply (rep (-225) (-11)); [simpl; lia | lia | simpl; lra].
      - apply (rep (-220) (-11)); [simpl; lia | lia | simpl; lra]. }
    destruct W5 as [G5 B5].
    apply add_in; auto; [| | lra | lra | lra].
    - apply (rep (204800 - 749) (-11)); [simpl; lia | lia | simpl; lra].
    - apply (rep (204800 - 732) (-11)); [simpl; lia | lia | simpl; lra].
  Qed.
End Refuted.

Lemma While_case {S : Type} (c : S -> bool) (b : S -> S) (s s' : S) :
  While c b s s' -> (c s = false /\ s' = s) \/ (c s = true /\ While c b (b s) s').
Proof. destruct 1; auto. Qed.

Lemma elps_zero {T : Type} {N : Num T} (M e tol : T) (mi : Z) :
  elps_cond tol mi (elps_init M e tol) = false -> solve_kepler_elps M e tol mi = elps_guess M e.
Proof.
  intro H. unfold solve_kepler_elps, elps_run, loop_fuel, while_fuel. rewrite H. reflexivity.
Qed.

Section Loops.
  Variable L : libm.
  Notation tol32 := (@default_tol _ (Num_B32 L)).
  Notation guess32 := (@elps_guess _ (Num_B32 L)).

  Lemma elps_index (c : loop_state (T := b32) -> bool) (M e : b32) (s s' : loop_state (T := b32)) :
    While c (@elps_body _ (Num_B32 L) M e) s s' -> (fst (fst s) <= fst (fst s'))%Z.
  Proof using.
    induction 1 as [s H | s s' H W IH]; [lia |].
    destruct s as [[i E] p]. simpl in *. lia.
  Qed.

  Lemma elps_steps (M e : b32) (mi i : Z) (E prev : b32) :
    While (@elps_cond _ (Num_B32 L) tol32 mi) (@elps_body _ (Num_B32 L) M e)
      (@elps_init _ (Num_B32 L) M e tol32) (i, E, prev) ->
    (1 <= i)%Z <-> (0 < mi)%Z /\ is_finite (guess32 M e) = true /\ -64 <= B2R (guess32 M e) < 64.
  Proof using.
    intro W. pose proof (elps_test_B32 L M e mi) as T.
    destruct (While_case _ _ _ _ W) as [[H Hs] | [H W']].
    - assert (i = 0%Z) by (unfold elps_init in Hs; congruence).
      rewrite H in T. split; [lia |].
      intros [A [B C]]. exfalso.
      unfold moving in T. rewrite B, (proj2 (Z.ltb_lt 0 mi) A) in T.
      rewrite Rle_bool_true, Rlt_bool_true in T by lra. discriminate T.
    - rewrite H in T. symmetry in T. apply andb_prop in T. destruct T as [T1 T2].
      unfold moving in T1. apply andb_prop in T1. destruct T1 as [T1 T3].
      apply andb_prop in T1. destruct T1 as [T1 T4].
      split; [intros _ | intros _].
      + split; [apply Z.ltb_lt; exact T2 |]. split; [exact T1 |]. split.
        * destruct (Rle_bool_spec (-64) (B2R (guess32 M e))); [assumption | discriminate].
        * destruct (Rlt_bool_spec (B2R (guess32 M e)) 64); [assumption | discriminate].
      + apply elps_index in W'. simpl in W'. exact W'.
  Qed.

  Lemma elps_stuck (M e : b32) (mi : Z) :
    ~ (is_finite (guess32 M e) = true /\ -64 <= B2R (guess32 M e) < 64) ->
    @solve_kepler_elps _ (Num_B32 L) M e tol32 mi = guess32 M e.
  Proof using.
    intro H. pose proof (elps_test_B32 L M e mi) as T.
    replace (moving (guess32 M e)) with false in T.
    - apply elps_zero. exact T.
    - symmetry. unfold moving.
      destruct (is_finite (guess32 M e)); [| reflexivity].
      destruct (Rle_bool_spec (-64) (B2R (guess32 M e))); [| reflexivity].
      destruct (Rlt_bool_spec (B2R (guess32 M e)) 64); [| reflexivity].
      exfalso. apply H. split; [reflexivity | lra].
  Qed.

  (** every mean anomaly of at least 66 *)
  Lemma guess_far (M e : b32) :
    is_finite M = true -> 66 <= Rabs (B2R M) <= IZR (2 ^ 126) ->
    is_finite e = true -> 0 <= B2R e < 1 ->
    is_finite (m_sin L M) = true -> Rabs (B2R (m_sin L M)) <= 1 ->
    is_finite (m_sin L (b32_mul (b32_Z 2) M)) = true ->
    Rabs (B2R (m_sin L (b32_mul (b32_Z 2) M))) <= 1 ->
    64 <= Rabs (B2R (guess32 M e)) /\ B2R (guess32 M e) <> -64.
  Proof using.
    intros FM HM Fe He F1 H1 F2 H2.
    assert (Big : 1000 <= IZR (2 ^ 126)) by (apply IZR_le; lia).
    assert (Dbl : IZR (2 ^ 127) = 2 * IZR (2 ^ 126)) by (rewrite <- mult_IZR; f_equal; reflexivity).
    apply Rabs_le_inv in H1. apply Rabs_le_inv in H2.
    change (guess32 M e) with
      (b32_add (b32_add M (b32_mul e (m_sin L M)))
        (b32_div (b32_mul (b32_mul e e) (m_sin L (b32_mul (b32_Z 2) M))) (b32_Z 2))).
    set (s1 := m_sin L M) in *. set (s2 := m_sin L (b32_mul (b32_Z 2) M)) in *.
    assert (I1 : F32 1) by (apply F32_int; simpl; lia).
    assert (I0 : F32 0) by apply F32_0.
    assert (W1 : within (-1) 1 (b32_mul e s1)).
    { apply mul_in; auto; [apply F32_int; simpl; lia | lra | lra | nra]. }
    destruct W1 as [G1 B1].
    assert (W3 : within 0 1 (b32_mul e e)).
    { apply mul_in; auto; [lra | lra | nra]. }
    destruct W3 as [G3 B3].
    assert (W4 : within (-1) 1 (b32_mul (b32_mul e e) s2)).
    { apply mul_in; auto; [apply F32_int; simpl; lia | lra | lra | nra]. }
    destruct W4 as [G4 B4].
    assert (V2 : B2R (b32_Z 2) = 2).
    { destruct (value (b32_Z 2) false 8388608 (-22) ltac:(vm_compute; reflexivity)) as [_ K].
      rewrite K. simpl. lra. }
    assert (W5 : within (-1) 1 (b32_div (b32_mul (b32_mul e e) s2) (b32_Z 2))).
    { apply div_in; auto; [apply F32_int; simpl; lia | lra | lra | lra | rewrite V2; lra]. }
    destruct W5 as [G5 B5].
    set (a := b32_mul e s1) in *. set (d := b32_div (b32_mul (b32_mul e e) s2) (b32_Z 2)) in *.
    destruct HM as [HM1 HM2]. apply Rabs_le_inv in HM2.
    destruct (add_exact M a FM G1 ltac:(apply Rabs_le; lra)) as [K1 K2].
    set (c := b32_add M a) in *.
    assert (J : forall n : Z, (Z.abs n < 2 ^ 24)%Z -> F32 (IZR n)) by exact F32_int.
    assert (U : Rabs (B2R c) <= IZR (2 ^ 126) * 3 / 2).
    { rewrite K1. apply Rabs_le.
      assert (FU : F32 (IZR (2 ^ 126) * 3 / 2)).
      { apply (rep 3 125); [simpl; lia | lia | simpl; lra]. }
      apply rnd_in; [apply F32_opp in FU; exact FU | exact FU | lra]. }
    apply Rabs_le_inv in U.
    destruct (add_exact c d K2 G5 ltac:(apply Rabs_le; lra)) as [K3 K4].
    rewrite K3.
    assert (D : 66 <= B2R M \/ B2R M <= -66).
    { destruct (Rle_dec 0 (B2R M)); [rewrite Rabs_pos_eq in HM1 by lra; lra |
        rewrite Rabs_left in HM1 by lra; lra]. }
    assert (D' : B2R d <= 1 / 2 /\ - (1 / 2) <= B2R d).
    { assert (W6 : within (- (1 / 2)) (1 / 2) d).
      { unfold d. apply div_in; auto; [| | lra | lra | lra | rewrite V2; lra].
        - apply (rep (-1) (-1)); [simpl; lia | lia | simpl; lra].
        - apply (rep 1 (-1)); [simpl; lia | lia | simpl; lra]. }
      destruct W6 as [_ W6]. lra. }
    destruct D as [D | D].
    - assert (65 <= B2R c) by (rewrite K1; apply rnd_ge; [apply (J 65%Z); simpl; lia | lra]).
      assert (64 <= rnd (B2R c + B2R d)) by (apply rnd_ge; [apply (J 64%Z); simpl; lia | lra]).
      split; [rewrite Rabs_pos_eq by lra | ]; lra.
    - assert (B2R c <= -65) by (rewrite K1; apply rnd_le; [apply (J (-65)%Z); simpl; lia | lra]).
      assert (rnd (B2R c + B2R d) <= - (129 / 2)).
      { apply rnd_le; [| lra]. apply (rep (-129) (-1)); [simpl; lia | lia | simpl; lra]. }
      split; [rewrite Rabs_left by lra | ]; lra.
  Qed.

  Lemma elps_far (M e : b32) (mi : Z) :
    is_finite M = true -> 66 <= Rabs (B2R M) <= IZR (2 ^ 126) ->
    is_finite e = true -> 0 <= B2R e < 1 ->
    (forall x, is_finite x = true -> is_finite (m_sin L x) = true /\ -1 <= B2R (m_sin L x) <= 1) ->
    @solve_kepler_elps _ (Num_B32 L) M e tol32 mi = guess32 M e.
  Proof using.
    intros FM HM Fe He HL. apply elps_stuck. intros [G1 G2].
    assert (Dbl : IZR (2 ^ 127) = 2 * IZR (2 ^ 126)) by (rewrite <- mult_IZR; f_equal; reflexivity).
    destruct (value (b32_Z 2) false 8388608 (-22) ltac:(vm_compute; reflexivity)) as [F2 K].
    assert (V2 : B2R (b32_Z 2) = 2) by (rewrite K; simpl; lra).
    destruct (mul_exact (b32_Z 2) M F2 FM) as [_ FD].
    { rewrite V2, Rabs_mult, (Rabs_pos_eq 2), Dbl; lra. }
    destruct (HL M FM) as [A1 A2]. destruct (HL _ FD) as [A3 A4].
    destruct (guess_far M e FM HM Fe He A1 ltac:(apply Rabs_le; lra) A3 ltac:(apply Rabs_le; lra)) as [P Q].
    destruct (Rle_dec 0 (B2R (guess32 M e))).
    - rewrite Rabs_pos_eq in P by lra. lra.
    - rewrite Rabs_left in P by lra. lra.
  Qed.

  Lemma elps_100 (mi : Z) :
    is_finite (m_sin L (b32_Z 100)) = true -> is_finite (m_sin L (b32_Z 200)) = true ->
    Rabs (B2R (m_sin L (b32_Z 100)) - sin 100) <= 1 / 1024 ->
    Rabs (B2R (m_sin L (b32_Z 200)) - sin 200) <= 1 / 1024 ->
    let E := B2R (@solve_kepler_elps _ (Num_B32 L) (b32_Z 100) (b32_dec 1 2) tol32 mi) in
    1 / 50 <= E - 1 / 2 * sin E - 100.
  Proof using.
    intros F1 F2 A1 A2. destruct (guess_100 L F1 F2 A1 A2) as [G B].
    rewrite elps_stuck by (intros [_ K]; lra).
    apply residual_100. exact B.
  Qed.

  (** *** The residual tests *)
  Lemma tol_ok : is_finite tol32 = true /\ 0 <= B2R tol32 < / 524288.
  Proof using. split; [exact tol_finite | pose proof tol_value as K; unfold tol in K]. 
    change tol32 with (b32_dec 1 1000000). rewrite K. lra. Qed.

  (** [abs(x - y) > tol] with [y] at least 32 in size is false exactly when the two
      are equal or the difference is NaN. *)
  Lemma stop_exact (x y : b32) :
    is_finite y = true -> 32 <= Rabs (B2R y) ->
    (@exceeds _ (Num_B32 L) (b32_sub x y) tol32 = false
     <-> is_nan x = true \/ (is_finite x = true /\ B2R x = B2R y)).
  Proof using.
    intros Fy Hy. destruct tol_ok as [T1 T2].
    change (Bltb tol32 (Babs (b32_sub x y)) = false
     <-> is_nan x = true \/ (is_finite x = true /\ B2R x = B2R y)).
    destruct (is_finite x) eqn:Fx.
    - rewrite (sub_small x y tol32 Fx Fy T1 Hy T2).
      destruct x; try discriminate Fx; simpl; intuition discriminate.
    - destruct x as [s | s | | s m e H]; try discriminate Fx.
      + (* infinity *)
        assert (K : Bltb tol32 (Babs (b32_sub (B754_infinity s) y)) = true).
        { destruct y as [s' | s' | | s' m' e' H']; try discriminate Fy; destruct s; vm_compute; reflexivity. }
        rewrite K. split; [discriminate | intros [A | [A _]]; discriminate].
      + split; [intros _; left; reflexivity | intros _].
        destruct y as [s' | s' | | s' m' e' H']; try discriminate Fy; vm_compute; reflexivity.
  Qed.
End Loops.
