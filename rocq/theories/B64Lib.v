(** * B64Lib: rounding facts of double precision used by [B64Facts]. *)
From Coq Require Import ZArith Reals Lra Lia Psatz Bool.
From Flocq Require Import Core IEEE754.BinarySingleNaN.
From Verif Require Import Num NumB64.
Local Open Scope R_scope.

Definition fx : Z -> Z := SpecFloat.fexp 53 1024.
Definition F64 (x : R) : Prop := generic_format radix2 fx x.
Definition rnd (x : R) : R := round radix2 fx (round_mode mode_NE) x.

#[global] Instance fx_valid : Valid_exp fx.
Proof. exact (fexp_correct 53 1024 _). Qed.
#[global] Instance fx_mono : Monotone_exp fx.
Proof. exact (fexp_monotone 53 1024). Qed.

Lemma F64_B2R (x : b64) : F64 (B2R x).
Proof. exact (generic_format_B2R 53 1024 x). Qed.

Lemma F64_scaled (m e : Z) :
  (Z.abs m < 2 ^ 53)%Z -> (-1074 <= e)%Z -> F64 (IZR m * bpow radix2 e).
Proof.
  intros Hm He. unfold F64.
  assert (H : FLT_format radix2 (-1074) 53 (IZR m * bpow radix2 e)).
  { exists (Float radix2 m e); [reflexivity | exact Hm | exact He]. }
  apply generic_format_FLT in H. exact H.
Qed.

Lemma ulp64 (x : R) (e : Z) :
  bpow radix2 (e - 1) <= Rabs x < bpow radix2 e -> ulp radix2 fx x = bpow radix2 (fx e).
Proof.
  intros [H1 H2].
  rewrite ulp_neq_0.
  - unfold cexp. rewrite (mag_unique radix2 x e); [reflexivity | split; assumption].
  - intro K. rewrite K, Rabs_R0 in H1. pose proof (bpow_gt_0 radix2 (e - 1)). lra.
Qed.

Lemma ulp64_ge (x y : R) : Rabs x <= Rabs y -> ulp radix2 fx x <= ulp radix2 fx y.
Proof. intro H. apply ulp_le; [exact fx_valid | exact fx_mono | exact H]. Qed.

Lemma ulp_35 : ulp radix2 fx 34359738368 = / 131072.
Proof.
  replace 34359738368 with (bpow radix2 35) by (simpl; lra).
  rewrite ulp_bpow. change (fx (35 + 1)) with (-17)%Z. simpl. lra.
Qed.

Lemma ulp_33 : ulp radix2 fx 8589934592 = / 524288.
Proof.
  replace 8589934592 with (bpow radix2 33) by (simpl; lra).
  rewrite ulp_bpow. change (fx (33 + 1)) with (-19)%Z. simpl. lra.
Qed.

Lemma ulp64_le (x : R) (e : Z) :
  (-1021 <= e)%Z -> Rabs x < bpow radix2 e -> ulp radix2 fx x <= bpow radix2 (e - 53).
Proof.
  intros He H. destruct (Req_dec x 0) as [Z | Z].
  - subst x. replace (ulp radix2 fx 0) with (bpow radix2 (-1074)).
    + apply bpow_le. lia.
    + symmetry. exact (ulp_FLT_0 radix2 (-1074) 53).
  - rewrite ulp_neq_0 by exact Z. apply bpow_le. unfold cexp.
    pose proof (mag_le_bpow radix2 x e Z H) as M.
    change (fx (mag radix2 x)) with (Z.max (mag radix2 x - 53) (-1074)). lia.
Qed.

Lemma succ_gap (x : R) :
  F64 x -> (8589934592 <= x < 34359738368 \/ -34359738368 <= x < -8589934592) ->
  / 524288 <= succ radix2 fx x - x <= / 262144.
Proof.
  intros Hx H.
  assert (U : forall y, 8589934592 <= y < 34359738368 -> / 524288 <= ulp radix2 fx y <= / 262144).
  { intros y Hy. split.
    - rewrite <- ulp_33. apply ulp64_ge. rewrite !Rabs_pos_eq; lra.
    - replace (/ 262144) with (bpow radix2 (35 - 53)) by (simpl; lra).
      apply ulp64_le; [lia |]. rewrite Rabs_pos_eq by lra. simpl. lra. }
  destruct H as [H | H].
  - rewrite succ_eq_pos by lra.
    replace (x + ulp radix2 fx x - x) with (ulp radix2 fx x) by ring. apply U. exact H.
  - replace (succ radix2 fx x) with (- pred radix2 fx (- x))
      by (rewrite <- succ_opp; f_equal; ring).
    assert (P : 8589934592 <= pred radix2 fx (- x)).
    { apply pred_ge_gt; [exact fx_valid | | apply generic_format_opp; exact Hx | lra].
      replace 8589934592 with (IZR 8589934592 * bpow radix2 0) by (simpl; lra).
      apply F64_scaled; simpl; lia. }
    pose proof (pred_lt_id radix2 fx (- x) ltac:(lra)) as P'.
    pose proof (pred_plus_ulp radix2 fx (- x) ltac:(lra) (generic_format_opp _ _ _ Hx)) as Q.
    pose proof (U (pred radix2 fx (- x)) ltac:(lra)). lra.
Qed.

Lemma rnd_mono (x y : R) : x <= y -> rnd x <= rnd y.
Proof. intro H. apply round_le; [exact fx_valid | apply valid_rnd_round_mode | exact H]. Qed.

Lemma rnd_id (x : R) : F64 x -> rnd x = x.
Proof. intro H. apply round_generic; [apply valid_rnd_round_mode | exact H]. Qed.

Lemma F64_0 : F64 0.
Proof. apply generic_format_0. Qed.

Lemma F64_opp (x : R) : F64 x -> F64 (- x).
Proof. apply generic_format_opp. Qed.

Lemma rnd_opp (x : R) : rnd (- x) = - rnd x.
Proof. unfold rnd. simpl. apply round_NE_opp. Qed.

(** Bounds by representable numbers survive rounding. *)
Lemma rnd_le (x b : R) : F64 b -> x <= b -> rnd x <= b.
Proof. intros Hb H. rewrite <- (rnd_id b Hb). apply rnd_mono; exact H. Qed.

Lemma rnd_ge (x b : R) : F64 b -> b <= x -> b <= rnd x.
Proof. intros Hb H. rewrite <- (rnd_id b Hb). apply rnd_mono; exact H. Qed.

Lemma max64 : bpow radix2 1024 = IZR (2 ^ 1024).
Proof. reflexivity. Qed.

Lemma big_F64 : F64 (IZR (2 ^ 1023)).
Proof.
  replace (IZR (2 ^ 1023)) with (IZR 1 * bpow radix2 1023).
  - apply F64_scaled; simpl; lia.
  - rewrite Rmult_1_l. reflexivity.
Qed.

Lemma no_overflow (x : R) : Rabs x <= IZR (2 ^ 1023) -> Rabs (rnd x) < bpow radix2 1024.
Proof.
  intro H. rewrite max64. apply Rle_lt_trans with (IZR (2 ^ 1023)).
  - apply Rabs_le. apply Rabs_le_inv in H. split.
    + apply rnd_ge; [apply F64_opp, big_F64 | lra].
    + apply rnd_le; [apply big_F64 | lra].
  - apply IZR_lt. reflexivity.
Qed.

Lemma add_exact (x y : b64) :
  is_finite x = true -> is_finite y = true ->
  Rabs (B2R x + B2R y) <= IZR (2 ^ 1023) ->
  B2R (b64_add x y) = rnd (B2R x + B2R y) /\ is_finite (b64_add x y) = true.
Proof.
  intros Hx Hy H. pose proof (Bplus_correct 53 1024 _ _ mode_NE x y Hx Hy) as K.
  pose proof (no_overflow _ H) as O.
  rewrite Rlt_bool_true in K by exact O.
  destruct K as [K1 [K2 _]]. split; assumption.
Qed.

Lemma sub_exact (x y : b64) :
  is_finite x = true -> is_finite y = true ->
  Rabs (B2R x - B2R y) <= IZR (2 ^ 1023) ->
  B2R (b64_sub x y) = rnd (B2R x - B2R y) /\ is_finite (b64_sub x y) = true.
Proof.
  intros Hx Hy H. pose proof (Bminus_correct 53 1024 _ _ mode_NE x y Hx Hy) as K.
  pose proof (no_overflow _ H) as O.
  rewrite Rlt_bool_true in K by exact O.
  destruct K as [K1 [K2 _]]. split; assumption.
Qed.

Lemma mul_exact (x y : b64) :
  is_finite x = true -> is_finite y = true ->
  Rabs (B2R x * B2R y) <= IZR (2 ^ 1023) ->
  B2R (b64_mul x y) = rnd (B2R x * B2R y) /\ is_finite (b64_mul x y) = true.
Proof.
  intros Hx Hy H. pose proof (Bmult_correct 53 1024 _ _ mode_NE x y) as K.
  pose proof (no_overflow _ H) as O.
  rewrite Rlt_bool_true in K by exact O.
  destruct K as [K1 [K2 _]]. split; [exact K1 |].
  unfold b64_mul. rewrite K2, Hx, Hy. reflexivity.
Qed.

Lemma div_exact (x y : b64) :
  is_finite x = true -> B2R y <> 0 ->
  Rabs (B2R x / B2R y) <= IZR (2 ^ 1023) ->
  B2R (b64_div x y) = rnd (B2R x / B2R y) /\ is_finite (b64_div x y) = true.
Proof.
  intros Hx Hy H. pose proof (Bdiv_correct 53 1024 _ _ mode_NE x y Hy) as K.
  pose proof (no_overflow _ H) as O.
  rewrite Rlt_bool_true in K by exact O.
  destruct K as [K1 [K2 _]]. split; [exact K1 |].
  unfold b64_div. rewrite K2. exact Hx.
Qed.

Lemma lt_exact (x y : b64) :
  is_finite x = true -> is_finite y = true -> Bltb x y = Rlt_bool (B2R x) (B2R y).
Proof. intros Hx Hy. apply Bltb_correct; assumption. Qed.

(** A number at least 2^35 (or below -2^35) absorbs anything below half its spacing. *)
Lemma absorb (x t : R) :
  F64 x -> 0 < t < / 262144 -> 34359738368 <= x \/ x < -34359738368 -> rnd (x + t) = x.
Proof.
  intros Hx Ht H. apply Rle_antisym.
  - unfold rnd. apply round_N_le_midp; [exact fx_valid | exact Hx |].
    assert (G : / 131072 <= succ radix2 fx x - x).
    { destruct H as [H | H].
      - rewrite succ_eq_pos by lra.
        replace (x + ulp radix2 fx x - x) with (ulp radix2 fx x) by ring.
        rewrite <- ulp_35. apply ulp64_ge. rewrite !Rabs_pos_eq; lra.
      - replace x with (- (- x)) by ring. rewrite succ_opp.
        assert (P : 34359738368 <= pred radix2 fx (- x)).
        { apply pred_ge_gt; [exact fx_valid | | apply F64_opp; exact Hx | lra].
          replace 34359738368 with (IZR 34359738368 * bpow radix2 0) by (simpl; lra).
          apply F64_scaled; simpl; lia. }
        pose proof (pred_plus_ulp radix2 fx (- x) ltac:(lra) (F64_opp _ Hx)) as Q.
        assert (/ 131072 <= ulp radix2 fx (pred radix2 fx (- x))).
        { rewrite <- ulp_35. apply ulp64_ge. rewrite !Rabs_pos_eq; lra. }
        lra. }
    lra.
  - rewrite <- (rnd_id x Hx) at 1. apply rnd_mono. lra.
Qed.

(** Between, the sum moves by more than 17/2^24. *)
Lemma moves (x t : R) :
  F64 x -> / 524288 < t < / 262144 -> / 1048576 + 17 / 16777216 <= t ->
  -34359738368 <= x < 34359738368 -> 17 / 16777216 <= rnd (x + t) - x.
Proof.
  intros Hx Ht Ht' H.
  destruct (Rle_dec 8589934592 x) as [B | B]; [| destruct (Rlt_dec x (-8589934592)) as [C | C]].
  3: { (* |x| <= 2^33: the rounding error is below 2^-20 *)
    pose proof (error_le_half_ulp radix2 fx (fun z => negb (Z.even z)) (x + t)) as E.
    assert (ulp radix2 fx (x + t) <= bpow radix2 (34 - 53)).
    { apply ulp64_le; [lia |]. apply Rabs_lt. simpl. lra. }
    change (round radix2 fx ZnearestE (x + t)) with (rnd (x + t)) in E.
    apply Rabs_le_inv in E. simpl in H0. lra. }
  all: assert (G := succ_gap x Hx ltac:(lra)).
  all: assert (Q : succ radix2 fx x <= rnd (x + t)).
  all: try (unfold rnd; apply round_N_ge_midp; [exact fx_valid | apply generic_format_succ; [exact fx_valid | exact Hx] |
         rewrite pred_succ by (exact fx_valid || exact Hx); lra]).
  all: lra.
Qed.

(** Interval bounds with representable ends survive each operation. *)
Definition within (lo hi : R) (x : b64) : Prop := is_finite x = true /\ lo <= B2R x <= hi.

Lemma rnd_in (lo hi x : R) :
  F64 lo -> F64 hi -> lo <= x <= hi -> lo <= rnd x <= hi.
Proof. intros H1 H2 [H3 H4]. split; [apply rnd_ge | apply rnd_le]; assumption. Qed.

Lemma abs_in (lo hi x : R) :
  - IZR (2 ^ 1023) <= lo -> hi <= IZR (2 ^ 1023) -> lo <= x <= hi -> Rabs x <= IZR (2 ^ 1023).
Proof. intros H1 H2 [H3 H4]. apply Rabs_le. lra. Qed.

Section Within.
  Variables lo hi : R.
  Hypothesis Flo : F64 lo.
  Hypothesis Fhi : F64 hi.
  Hypothesis Blo : - IZR (2 ^ 1023) <= lo.
  Hypothesis Bhi : hi <= IZR (2 ^ 1023).

  Lemma add_in (x y : b64) :
    is_finite x = true -> is_finite y = true -> lo <= B2R x + B2R y <= hi ->
    within lo hi (b64_add x y).
  Proof using Flo Fhi Blo Bhi.
    intros Hx Hy H. destruct (add_exact x y Hx Hy (abs_in _ _ _ Blo Bhi H)) as [K1 K2].
    split; [exact K2 |]. rewrite K1. apply rnd_in; assumption.
  Qed.

  Lemma sub_in (x y : b64) :
    is_finite x = true -> is_finite y = true -> lo <= B2R x - B2R y <= hi ->
    within lo hi (b64_sub x y).
  Proof using Flo Fhi Blo Bhi.
    intros Hx Hy H. destruct (sub_exact x y Hx Hy (abs_in _ _ _ Blo Bhi H)) as [K1 K2].
    split; [exact K2 |]. rewrite K1. apply rnd_in; assumption.
  Qed.

  Lemma mul_in (x y : b64) :
    is_finite x = true -> is_finite y = true -> lo <= B2R x * B2R y <= hi ->
    within lo hi (b64_mul x y).
  Proof using Flo Fhi Blo Bhi.
    intros Hx Hy H. destruct (mul_exact x y Hx Hy (abs_in _ _ _ Blo Bhi H)) as [K1 K2].
    split; [exact K2 |]. rewrite K1. apply rnd_in; assumption.
  Qed.

  Lemma div_in (x y : b64) :
    is_finite x = true -> B2R y <> 0 -> lo <= B2R x / B2R y <= hi ->
    within lo hi (b64_div x y).
  Proof using Flo Fhi Blo Bhi.
    intros Hx Hy H. destruct (div_exact x y Hx Hy (abs_in _ _ _ Blo Bhi H)) as [K1 K2].
    split; [exact K2 |]. rewrite K1. apply rnd_in; assumption.
  Qed.
End Within.

(** The value of a concrete number. *)
Lemma value (x : b64) (s : bool) (m : positive) (e : Z) :
  B2SF x = SpecFloat.S754_finite s m e ->
  is_finite x = true /\ B2R x = IZR (cond_Zopp s (Zpos m)) * bpow radix2 e.
Proof.
  intro H. split.
  - rewrite <- is_finite_SF_B2SF, H. reflexivity.
  - rewrite <- SF2R_B2SF, H. reflexivity.
Qed.

(** ** The test [abs(x - y) > tol] when y is at least 2^34 in size *)
Lemma F64_int (m : Z) : (Z.abs m < 2 ^ 53)%Z -> F64 (IZR m).
Proof.
  intro H. replace (IZR m) with (IZR m * bpow radix2 0) by (simpl; ring).
  apply F64_scaled; [exact H | lia].
Qed.

Lemma apart_pos (x y : R) :
  F64 x -> F64 y -> 17179869184 <= y -> x <> y -> / 524288 <= Rabs (x - y).
Proof.
  intros Hx Hy H N.
  destruct (Rlt_dec x 8589934592) as [A | A].
  - rewrite Rabs_left by lra. lra.
  - assert (U : forall z, 8589934592 <= z -> / 524288 <= ulp radix2 fx z).
    { intros z Hz. rewrite <- ulp_33. apply ulp64_ge. rewrite !Rabs_pos_eq; lra. }
    destruct (Rtotal_order x y) as [B | [B | B]]; [| contradiction |].
    + pose proof (succ_le_lt radix2 fx x y Hx Hy B) as S.
      rewrite succ_eq_pos in S by lra. pose proof (U x ltac:(lra)).
      rewrite Rabs_left by lra. lra.
    + pose proof (succ_le_lt radix2 fx y x Hy Hx B) as S.
      rewrite succ_eq_pos in S by lra. pose proof (U y ltac:(lra)).
      rewrite Rabs_right by lra. lra.
Qed.

Lemma apart (x y : R) :
  F64 x -> F64 y -> 17179869184 <= Rabs y -> x <> y -> / 524288 <= Rabs (x - y).
Proof.
  intros Hx Hy H N. destruct (Rle_dec 0 y) as [P | P].
  - apply apart_pos; auto. rewrite Rabs_pos_eq in H; lra.
  - rewrite <- Rabs_Ropp. replace (- (x - y)) with (- x - - y) by ring.
    apply apart_pos; auto using F64_opp; [| lra].
    rewrite Rabs_left in H by lra. exact H.
Qed.

Lemma sub_small (x y : b64) (tol : b64) :
  is_finite x = true -> is_finite y = true -> is_finite tol = true ->
  17179869184 <= Rabs (B2R y) -> 0 <= B2R tol < / 524288 ->
  (Bltb tol (Babs (b64_sub x y)) = false <-> B2R x = B2R y).
Proof.
  intros Hx Hy Ht Y T. split.
  - intro H. destruct (Req_dec (B2R x) (B2R y)) as [E | E]; [exact E | exfalso].
    pose proof (apart _ _ (F64_B2R x) (F64_B2R y) Y E) as A.
    assert (FD : F64 (/ 524288)).
    { replace (/ 524288) with (IZR 1 * bpow radix2 (-19)) by (simpl; lra). apply F64_scaled; simpl; lia. }
    assert (R1 : / 524288 <= Rabs (rnd (B2R x - B2R y))).
    { destruct (Rle_dec 0 (B2R x - B2R y)) as [P | P].
      - rewrite Rabs_pos_eq in A by lra. pose proof (rnd_ge _ _ FD A).
        rewrite Rabs_pos_eq; lra.
      - rewrite Rabs_left in A by lra. pose proof (rnd_le (B2R x - B2R y) _ (F64_opp _ FD) ltac:(lra)).
        rewrite Rabs_left1; lra. }
    pose proof (Bminus_correct 53 1024 _ _ mode_NE x y Hx Hy) as K.
    fold (b64_sub x y) in K.
    change (round radix2 (SpecFloat.fexp 53 1024) (round_mode mode_NE) (B2R x - B2R y))
      with (rnd (B2R x - B2R y)) in K.
    destruct (Rlt_bool (Rabs (rnd (B2R x - B2R y))) (bpow radix2 1024)).
    + destruct K as [K1 [K2 _]].
      rewrite lt_exact in H by (rewrite ?is_finite_Babs; assumption).
      rewrite B2R_Babs, K1 in H. rewrite Rlt_bool_true in H by lra. discriminate.
    + destruct K as [K _].
      assert (I : exists s, b64_sub x y = B754_infinity s).
      { destruct (b64_sub x y); try discriminate K. eexists; reflexivity. }
      destruct I as [s I]. rewrite I in H.
      destruct tol as [s' | s' | | s' m' e' H']; try discriminate Ht; try (simpl in H; discriminate H).
  - intro E. destruct (sub_exact x y Hx Hy) as [K1 K2].
    { rewrite E. replace (B2R y - B2R y) with 0 by ring. rewrite Rabs_R0. apply IZR_le. lia. }
    rewrite lt_exact by (rewrite ?is_finite_Babs; assumption).
    rewrite B2R_Babs, K1, E. replace (B2R y - B2R y) with 0 by ring.
    rewrite (rnd_id 0 F64_0), Rabs_R0. apply Rlt_bool_false. lra.
Qed.
