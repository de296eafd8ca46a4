(** * B64Kep: the stopping tests of the Kepler solvers in double precision. *)
From Coq Require Import ZArith Reals Lra Lia Psatz Bool List.
From Flocq Require Import Core IEEE754.BinarySingleNaN.
From Verif Require Import Num NumB64 Spec KepEqu RLib Ana LoopFacts KepRows SolveFacts SolveElps B32Kep B64Lib B64Facts.
Local Open Scope R_scope.

(** representable bounds *)
Lemma rep (m : Z) (e : Z) (x : R) : (Z.abs m < 2 ^ 53)%Z -> (-1074 <= e)%Z ->
  x = IZR m * bpow radix2 e -> F64 x.
Proof. intros H1 H2 ->. apply F64_scaled; assumption. Qed.

Section Loops.
  Variable L : libm64.
  Notation tol64 := (@default_tol _ (Num_B64 L)).
  Notation guess64 := (@elps_guess _ (Num_B64 L)).

  Lemma elps_index (c : loop_state (T := b64) -> bool) (M e : b64) (s s' : loop_state (T := b64)) :
    While c (@elps_body _ (Num_B64 L) M e) s s' -> (fst (fst s) <= fst (fst s'))%Z.
  Proof using.
    induction 1 as [s H | s s' H W IH]; [lia |].
    destruct s as [[i E] p]. simpl in *. lia.
  Qed.

  Lemma elps_steps (M e : b64) (mi i : Z) (E prev : b64) :
    While (@elps_cond _ (Num_B64 L) tol64 mi) (@elps_body _ (Num_B64 L) M e)
      (@elps_init _ (Num_B64 L) M e tol64) (i, E, prev) ->
    (1 <= i)%Z <-> (0 < mi)%Z /\ is_finite (guess64 M e) = true /\ -34359738368 <= B2R (guess64 M e) < 34359738368.
  Proof using.
    intro W. pose proof (elps_test_B64 L M e mi) as T.
    destruct (While_case _ _ _ _ W) as [[H Hs] | [H W']].
    - assert (i = 0%Z) by (unfold elps_init in Hs; congruence).
      rewrite H in T. split; [lia |].
      intros [A [B C]]. exfalso.
      unfold moving in T. rewrite B, (proj2 (Z.ltb_lt 0 mi) A) in T.
      rewrite Rle_bool_true, Rlt_bool_true in T by lra. discriminate T.
    - rewrite H in T. symmetry in T. apply andb_prop in T. destruct T as [T1 T2].
      unfold moving in T1. apply andb_prop in T1. destruct T1 as [T1 T3].
      apply andb_prop in T1. destruct T1 as [T1 T4].
      split; [intros _ | intros _].
      + split; [apply Z.ltb_lt; exact T2 |]. split; [exact T1 |]. split.
        * destruct (Rle_bool_spec (-34359738368) (B2R (guess64 M e))); [assumption | discriminate].
        * destruct (Rlt_bool_spec (B2R (guess64 M e)) 34359738368); [assumption | discriminate].
      + apply elps_index in W'. simpl in W'. exact W'.
  Qed.

  Lemma elps_stuck (M e : b64) (mi : Z) :
    ~ (is_finite (guess64 M e) = true /\ -34359738368 <= B2R (guess64 M e) < 34359738368) ->
    @solve_kepler_elps _ (Num_B64 L) M e tol64 mi = guess64 M e.
  Proof using.
    intro H. pose proof (elps_test_B64 L M e mi) as T.
    replace (moving (guess64 M e)) with false in T.
    - apply elps_zero. exact T.
    - symmetry. unfold moving.
      destruct (is_finite (guess64 M e)); [| reflexivity].
      destruct (Rle_bool_spec (-34359738368) (B2R (guess64 M e))); [| reflexivity].
      destruct (Rlt_bool_spec (B2R (guess64 M e)) 34359738368); [| reflexivity].
      exfalso. apply H. split; [reflexivity | lra].
  Qed.

  (** every mean anomaly of at least 2^35 + 2 *)
  Lemma guess_far (M e : b64) :
    is_finite M = true -> 34359738370 <= Rabs (B2R M) <= IZR (2 ^ 1022) ->
    is_finite e = true -> 0 <= B2R e < 1 ->
    is_finite (d_sin L M) = true -> Rabs (B2R (d_sin L M)) <= 1 ->
    is_finite (d_sin L (b64_mul (b64_Z 2) M)) = true ->
    Rabs (B2R (d_sin L (b64_mul (b64_Z 2) M))) <= 1 ->
    34359738368 <= Rabs (B2R (guess64 M e)) /\ B2R (guess64 M e) <> -34359738368.
  Proof using.
    intros FM HM Fe He F1 H1 F2 H2.
    assert (Big : 200000000000 <= IZR (2 ^ 1022)) by (apply IZR_le; lia).
    assert (Dbl : IZR (2 ^ 1023) = 2 * IZR (2 ^ 1022)) by (rewrite <- mult_IZR; f_equal; reflexivity).
    apply Rabs_le_inv in H1. apply Rabs_le_inv in H2.
    change (guess64 M e) with
      (b64_add (b64_add M (b64_mul e (d_sin L M)))
        (b64_div (b64_mul (b64_mul e e) (d_sin L (b64_mul (b64_Z 2) M))) (b64_Z 2))).
    set (s1 := d_sin L M) in *. set (s2 := d_sin L (b64_mul (b64_Z 2) M)) in *.
    assert (I1 : F64 1) by (apply F64_int; simpl; lia).
    assert (I0 : F64 0) by apply F64_0.
    assert (W1 : within (-1) 1 (b64_mul e s1)).
    { apply mul_in; auto; [apply F64_int; simpl; lia | lra | lra | nra]. }
    destruct W1 as [G1 B1].
    assert (W3 : within 0 1 (b64_mul e e)).
    { apply mul_in; auto; [lra | lra | nra]. }
    destruct W3 as [G3 B3].
    assert (W4 : within (-1) 1 (b64_mul (b64_mul e e) s2)).
    { apply mul_in; auto; [apply F64_int; simpl; lia | lra | lra | nra]. }
    destruct W4 as [G4 B4].
    assert (V2 : B2R (b64_Z 2) = 2).
    { destruct (value (b64_Z 2) false 4503599627370496 (-51) ltac:(vm_compute; reflexivity)) as [_ K].
      rewrite K. simpl. lra. }
    assert (W5 : within (-1) 1 (b64_div (b64_mul (b64_mul e e) s2) (b64_Z 2))).
    { apply div_in; auto; [apply F64_int; simpl; lia | lra | lra | lra | rewrite V2; lra]. }
    destruct W5 as [G5 B5].
    set (a := b64_mul e s1) in *. set (d := b64_div (b64_mul (b64_mul e e) s2) (b64_Z 2)) in *.
    destruct HM as [HM1 HM2]. apply Rabs_le_inv in HM2.
    destruct (add_exact M a FM G1 ltac:(apply Rabs_le; lra)) as [K1 K2].
    set (c := b64_add M a) in *.
    assert (J : forall n : Z, (Z.abs n < 2 ^ 53)%Z -> F64 (IZR n)) by exact F64_int.
    assert (U : Rabs (B2R c) <= IZR (2 ^ 1022) * 3 / 2).
    { rewrite K1. apply Rabs_le.
      assert (FU : F64 (IZR (2 ^ 1022) * 3 / 2)).
      { apply (rep 3 1021); [simpl; lia | lia | simpl; lra]. }
      apply rnd_in; [apply F64_opp in FU; exact FU | exact FU | lra]. }
    apply Rabs_le_inv in U.
    destruct (add_exact c d K2 G5 ltac:(apply Rabs_le; lra)) as [K3 K4].
    rewrite K3.
    assert (D : 34359738370 <= B2R M \/ B2R M <= -34359738370).
    { destruct (Rle_dec 0 (B2R M)); [rewrite Rabs_pos_eq in HM1 by lra; lra |
        rewrite Rabs_left in HM1 by lra; lra]. }
    assert (D' : B2R d <= 1 / 2 /\ - (1 / 2) <= B2R d).
    { assert (W6 : within (- (1 / 2)) (1 / 2) d).
      { unfold d. apply div_in; auto; [| | lra | lra | lra | rewrite V2; lra].
        - apply (rep (-1) (-1)); [simpl; lia | lia | simpl; lra].
        - apply (rep 1 (-1)); [simpl; lia | lia | simpl; lra]. }
      destruct W6 as [_ W6]. lra. }
    destruct D as [D | D].
    - assert (34359738369 <= B2R c) by (rewrite K1; apply rnd_ge; [apply (J 34359738369%Z); simpl; lia | lra]).
      assert (34359738368 <= rnd (B2R c + B2R d)) by (apply rnd_ge; [apply (J 34359738368%Z); simpl; lia | lra]).
      split; [rewrite Rabs_pos_eq by lra | ]; lra.
    - assert (B2R c <= -34359738369) by (rewrite K1; apply rnd_le; [apply (J (-34359738369)%Z); simpl; lia | lra]).
      assert (rnd (B2R c + B2R d) <= - (68719476737 / 2)).
      { apply rnd_le; [| lra]. apply (rep (-68719476737) (-1)); [simpl; lia | lia | simpl; lra]. }
      split; [rewrite Rabs_left by lra | ]; lra.
  Qed.

  Lemma elps_far (M e : b64) (mi : Z) :
    is_finite M = true -> 34359738370 <= Rabs (B2R M) <= IZR (2 ^ 1022) ->
    is_finite e = true -> 0 <= B2R e < 1 ->
    (forall x, is_finite x = true -> is_finite (d_sin L x) = true /\ -1 <= B2R (d_sin L x) <= 1) ->
    @solve_kepler_elps _ (Num_B64 L) M e tol64 mi = guess64 M e.
  Proof using.
    intros FM HM Fe He HL. apply elps_stuck. intros [G1 G2].
    assert (Dbl : IZR (2 ^ 1023) = 2 * IZR (2 ^ 1022)) by (rewrite <- mult_IZR; f_equal; reflexivity).
    destruct (value (b64_Z 2) false 4503599627370496 (-51) ltac:(vm_compute; reflexivity)) as [F2 K].
    assert (V2 : B2R (b64_Z 2) = 2) by (rewrite K; simpl; lra).
    destruct (mul_exact (b64_Z 2) M F2 FM) as [_ FD].
    { rewrite V2, Rabs_mult, (Rabs_pos_eq 2), Dbl; lra. }
    destruct (HL M FM) as [A1 A2]. destruct (HL _ FD) as [A3 A4].
    destruct (guess_far M e FM HM Fe He A1 ltac:(apply Rabs_le; lra) A3 ltac:(apply Rabs_le; lra)) as [P Q].
    destruct (Rle_dec 0 (B2R (guess64 M e))).
    - rewrite Rabs_pos_eq in P by lra. lra.
    - rewrite Rabs_left in P by lra. lra.
  Qed.

  (** *** The residual tests *)
  Lemma tol_ok : is_finite tol64 = true /\ 0 <= B2R tol64 < / 524288.
  Proof using. split; [exact tol_finite | pose proof tol_value as K; unfold tol in K]. 
    change tol64 with (b64_dec 1 1000000). rewrite K. lra. Qed.

  (** [abs(x - y) > tol] with [y] at least 2^34 in size is false exactly when the two
      are equal or the difference is NaN. *)
  Lemma stop_exact (x y : b64) :
    is_finite y = true -> 17179869184 <= Rabs (B2R y) ->
    (@exceeds _ (Num_B64 L) (b64_sub x y) tol64 = false
     <-> is_nan x = true \/ (is_finite x = true /\ B2R x = B2R y)).
  Proof using.
    intros Fy Hy. destruct tol_ok as [T1 T2].
    change (Bltb tol64 (Babs (b64_sub x y)) = false
     <-> is_nan x = true \/ (is_finite x = true /\ B2R x = B2R y)).
    destruct (is_finite x) eqn:Fx.
    - rewrite (sub_small x y tol64 Fx Fy T1 Hy T2).
      destruct x; try discriminate Fx; simpl; intuition discriminate.
    - destruct x as [s | s | | s m e H]; try discriminate Fx.
      + (* infinity *)
        assert (K : Bltb tol64 (Babs (b64_sub (B754_infinity s) y)) = true).
        { destruct y as [s' | s' | | s' m' e' H']; try discriminate Fy; destruct s; vm_compute; reflexivity. }
        rewrite K. split; [discriminate | intros [A | [A _]]; discriminate].
      + split; [intros _; left; reflexivity | intros _].
        destruct y as [s' | s' | | s' m' e' H']; try discriminate Fy; vm_compute; reflexivity.
  Qed.
End Loops.
