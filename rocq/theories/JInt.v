(** * JInt: int32 arrays and large Python ints in the closed formulas. *)
From Coq Require Import ZArith Reals Lra Lia List Bool.
From Flocq Require Import Core IEEE754.BinarySingleNaN.
From Verif Require Import Num NumB32 NumB64 SpecFl SpecFl32 RelLib B32Lib B32Acc B32Rel B32Closed JFacts
  OrbIntegrals KepEqu Uniformulas NumJ SpecJ.
Local Open Scope Z_scope.

Lemma wrap_residue (z : Z) : wrap z = residue z.
Proof.
  unfold wrap, residue. pose proof (Z.mod_pos_bound z (2 ^ 32) ltac:(lia)) as Hb.
  pose proof (Z.div_mod z (2 ^ 32) ltac:(lia)) as E. set (w := z mod 2 ^ 32) in *. set (q := z / 2 ^ 32) in *.
  destruct (Z.ltb_spec w (2 ^ 31)) as [H | H].
  - replace (z + 2 ^ 31) with (w + 2 ^ 31 + q * 2 ^ 32) by lia. rewrite Z_mod_plus_full, Z.mod_small by lia. lia.
  - replace (z + 2 ^ 31) with (w - 2 ^ 31 + (q + 1) * 2 ^ 32) by lia. rewrite Z_mod_plus_full, Z.mod_small by lia. lia.
Qed.

Lemma residue_bound (z : Z) : - 2 ^ 31 <= residue z < 2 ^ 31.
Proof.
  unfold residue. pose proof (Z.mod_pos_bound z (2 ^ 32) ltac:(lia)) as Hb.
  destruct (Z.ltb_spec (z mod 2 ^ 32) (2 ^ 31)); lia.
Qed.

Lemma residue_mod (z : Z) : residue z mod 2 ^ 32 = z mod 2 ^ 32.
Proof.
  unfold residue. pose proof (Z.mod_pos_bound z (2 ^ 32) ltac:(lia)) as Hb. destruct (Z.ltb_spec (z mod 2 ^ 32) (2 ^ 31)).
  - apply Z.mod_mod. lia.
  - replace (z mod 2 ^ 32 - 2 ^ 32) with (z mod 2 ^ 32 + (-1) * 2 ^ 32) by lia. rewrite Z_mod_plus_full.
    apply Z.mod_mod. lia.
Qed.

Lemma residue_of_mod (a b : Z) : a mod 2 ^ 32 = b mod 2 ^ 32 -> residue a = residue b.
Proof. intro H. unfold residue. rewrite H. reflexivity. Qed.

Lemma wrap_mul (a b : Z) : wrap (a * wrap b) = wrap (a * b).
Proof.
  rewrite !wrap_residue. apply residue_of_mod.
  rewrite Zmult_mod, residue_mod, <- Zmult_mod. reflexivity.
Qed.

Lemma residue_small (z : Z) : - 2 ^ 31 <= z < 2 ^ 31 -> residue z = z.
Proof.
  intro H. rewrite <- wrap_residue. unfold wrap. rewrite Z.mod_small by lia. lia.
Qed.

Lemma fits_ok (z : Z) : - 2 ^ 31 <= z < 2 ^ 31 -> fits z = true.
Proof. intro H. unfold fits. apply andb_true_intro. split; [apply Z.leb_le | apply Z.ltb_lt]; lia. Qed.

Lemma fits_not (z : Z) : 2 ^ 31 <= z -> fits z = false.
Proof. intro H. unfold fits. rewrite (proj2 (Z.ltb_ge z (2 ^ 31)) H). apply andb_false_r. Qed.

Local Open Scope R_scope.

Lemma Fl_int31 (z : Z) : (- 2 ^ 31 <= z < 2 ^ 31)%Z -> Fl 1 (b32_Z z) (IZR z).
Proof.
  intro H. pose proof (binary_normalize_correct 24 128 _ _ mode_NE z 0 false) as K.
  cbv zeta in K. change (F2R (Float radix2 z 0)) with (IZR z * 1) in K. rewrite Rmult_1_r in K.
  change (round radix2 (SpecFloat.fexp 24 128) (round_mode mode_NE) (IZR z)) with (rnd (IZR z)) in K.
  apply (rounded 0 _ (IZR z)); [lia | apply near_refl, eps_range | |].
  - destruct (Z.eq_dec z 0) as [-> | Z0]; [left; reflexivity | right]. rewrite <- abs_IZR.
    pose proof (two_pow_inv 125 ltac:(lia)). split.
    + apply Rle_trans with 1; [lra | apply IZR_le; lia].
    + apply IZR_le. lia.
  - intros _. rewrite Rlt_bool_true in K.
    + destruct K as [E [F _]]. split; [exact E | exact F].
    + apply no_overflow. rewrite <- abs_IZR. apply IZR_le. lia.
Qed.

Lemma Fl_to32 (x : b64) : is_finite x = true -> in_range 100 (B2R x) -> Fl 1 (to32 x) (B2R x).
Proof.
  intros F R. destruct x as [s | s | | s m e H]; try discriminate F.
  - split; [reflexivity | apply near_mono with (j := 0%nat); [exact eps_range | lia | apply near_refl, eps_range]].
  - unfold to32. pose proof (binary_normalize_correct 24 128 _ _ mode_NE (cond_Zopp s (Zpos m)) e s) as K.
    cbv zeta in K. change (F2R (Float radix2 (cond_Zopp s (Z.pos m)) e)) with (B2R (B754_finite s m e H)) in K.
    set (y := B2R (B754_finite s m e H)) in *.
    change (round radix2 (SpecFloat.fexp 24 128) (round_mode mode_NE) y) with (rnd y) in K.
    apply (rounded 0 _ y); [lia | apply near_refl, eps_range | exact (range_mono 100 125 _ ltac:(lia) R) |].
    intro Y. rewrite Rlt_bool_true in K by (apply no_overflow; exact Y).
    destruct K as [E [G _]]. split; assumption.
Qed.

(** ** An int32 operand with any number *)
Lemma j_div_int (mu : val) (m : R) : stands mu m -> in_range 100 m ->
  exists y, Fl 1 y m /\ (forall w, j_div (I32 w) mu = F32 (b32_div (b32_Z w) y)) /\
            (forall w, j_div mu (I32 w) = F32 (b32_div y (b32_Z w))).
Proof.
  intros S R. destruct mu as [z | f | z | f | e]; cbn in S; [| | | | contradiction]; destruct S as [-> S].
  - exists (b32_Z z). split; [apply Fl_int31; exact S |]. unfold j_div, meet. rewrite (fits_ok z S). split; reflexivity.
  - exists (to32 f). split; [apply Fl_to32; assumption |]. split; reflexivity.
  - exists (b32_Z z). split; [apply Fl_int31; exact S |]. split; reflexivity.
  - exists f. split; [apply (Fl_mono 0); [lia | apply Fl_exact; exact S] |]. split; reflexivity.
Qed.

Lemma Fl_sign (k : nat) (x : b32) (v : R) : (k <= 64)%nat -> Fl k x v -> v < 0 -> B2R x < 0.
Proof.
  intros K [_ N] V. destruct N as [t [-> [T _]]].
  assert (P : 0 < / (1 + eps) ^ k) by (apply Rinv_0_lt_compat, pow_lt; pose proof eps_range; lra).
  assert (0 < (- v) * t) by (apply Rmult_lt_0_compat; lra). lra.
Qed.

Lemma sqrt_neg (x : b32) : is_finite x = true -> B2R x < 0 -> b32_sqrt x = B754_nan.
Proof.
  intros F N. destruct x as [s | s | | s m e H]; try discriminate F.
  - cbn in N. lra.
  - destruct s; [reflexivity |]. exfalso.
    assert (0 < B2R (B754_finite false m e H)) by (apply F2R_gt_0; reflexivity). lra.
Qed.

Lemma mul_nan (x : b32) : b32_mul x B754_nan = B754_nan.
Proof. destruct x; reflexivity. Qed.
Lemma nan_mul (x : b32) : b32_mul B754_nan x = B754_nan.
Proof. destruct x; reflexivity. Qed.

Lemma cube_int (L : libm) (a : Z) : @npow _ (Num_J L) (I32 a) 3 = I32 (residue (a ^ 3)).
Proof.
  unfold npow. cbn [npow_aux mul_opt Num_J n_mul]. unfold ring_op, meet. rewrite wrap_mul, wrap_residue.
  do 2 f_equal. ring.
Qed.

Lemma square_int (L : libm) (a : Z) : @npow _ (Num_J L) (I32 a) 2 = I32 (residue (a ^ 2)).
Proof.
  unfold npow. cbn [npow_aux mul_opt Num_J n_mul]. unfold ring_op, meet. rewrite wrap_residue.
  do 2 f_equal. ring.
Qed.

Lemma range_int (w : Z) : (- 2 ^ 31 <= w < 2 ^ 31)%Z -> in_range 31 (IZR w).
Proof.
  intro H. destruct (Z.eq_dec w 0) as [-> | W]; [left; reflexivity | right]. rewrite <- abs_IZR.
  pose proof (two_pow_inv 31 ltac:(lia)). split.
  - apply Rle_trans with 1; [lra | apply IZR_le; lia].
  - apply IZR_le. lia.
Qed.

Section I.
Variable L : libm.
Notation J := (Num_J L).

Lemma period_int (a : Z) (mu : val) (m : R) : stands mu m -> in_range 60 m -> 0 < m ->
  let s := residue (a ^ 3) in let P := @orb_period _ J (I32 a) mu in
  ((s < 0)%Z -> P = F32 B754_nan) /\
  ((0 < s)%Z -> exists p, P = F32 p /\ off 8 (2 * PI * sqrt (IZR s / m)) p (2 * PI * sqrt (IZR s / m))) /\
  (s = 0%Z -> exists p, P = F32 p /\ is_finite p = true /\ B2R p = 0).
Proof.
  intros S R M s P. destruct (j_div_int mu m S (range_mono 60 100 _ ltac:(lia) R)) as [y [Fy [D _]]].
  assert (EP : P = F32 (b32_mul (b32_mul (b32_Z 2) b32_pi) (b32_sqrt (b32_div (b32_Z s) y)))).
  { unfold P, orb_period. rewrite cube_int. fold s. cbn [Num_J n_div n_sqrt n_mul n_Z n_pi]. rewrite D.
    unfold ring_op, meet, j_fun. rewrite two_pi32. reflexivity. }
  pose proof (residue_bound (a ^ 3)) as Bs. fold s in Bs.
  assert (Rq : in_range 91 (IZR s / m)) by (apply (range_div 31 60); [lia | lia | apply range_int; exact Bs | exact R]).
  assert (Fq : Fl 3 (b32_div (b32_Z s) y) (IZR s / m)).
  { apply (Fl_div 1 1); [lia | lra | apply Fl_int31; exact Bs | exact Fy | exact (range_mono 91 125 _ ltac:(lia) Rq)]. }
  rewrite EP. split; [| split].
  - intro N. rewrite sqrt_neg.
    + rewrite mul_nan. reflexivity.
    + exact (proj1 Fq).
    + apply (Fl_sign 3 _ (IZR s / m)); [lia | exact Fq |]. apply IZR_lt in N.
      pose proof (Rinv_0_lt_compat m M). unfold Rdiv. nra.
  - intro N. eexists. split; [reflexivity |]. assert (Q : 0 < IZR s / m) by (apply Rdiv_lt_0_compat; [apply IZR_lt |]; assumption).
    assert (G : Fl 6 (b32_mul (b32_mul (b32_Z 2) b32_pi) (b32_sqrt (b32_div (b32_Z s) y))) (2 * PI * sqrt (IZR s / m))).
    { apply (Fl_mul 2 3); [lia | exact Fl_two_pi | |].
      - apply (Fl_sqrt 2); [lia | exact Q | apply (Fl_mono 3); [lia | exact Fq] | exact (range_mono 91 125 _ ltac:(lia) Rq)].
      - apply (range_mono 66 125); [lia |]. apply (range_mul 3 63); [lia | lia | exact two_pi_range |].
        apply range_sqrt; [lia | exact Q | exact (range_mono 91 126 _ ltac:(lia) Rq)]. }
    destruct (Fl_close 6 _ _ ltac:(lia) G) as [G1 G2]. split; [exact G1 |].
    unfold SpecFl.close in G2. rewrite (Rabs_pos_eq (2 * PI * _)) in G2
      by (pose proof PI_RGT_0; pose proof (sqrt_pos (IZR s / m)); nra).
    apply Rle_trans with (1 := G2). rewrite (INR_IZR_INZ 6).
    apply Rmult_le_compat_r; [pose proof PI_RGT_0; pose proof (sqrt_pos (IZR s / m)); nra |].
    change (/ IZR (2 ^ 24)) with eps. pose proof eps_range. simpl. lra.
  - intro N. eexists. split; [reflexivity |].
    destruct Fq as [F1 [t [F2 _]]]. rewrite N in F2 at 2. replace (0 / m * t) with 0 in F2 by (unfold Rdiv; ring).
    pose proof (Bsqrt_correct 24 128 _ _ mode_NE (b32_div (b32_Z s) y)) as [K1 [K2 _]].
    fold b32_sqrt in K1, K2. cbv zeta in K1. fold (b32_sqrt (b32_div (b32_Z s) y)) in K1, K2.
    rewrite F2, sqrt_0, round_0 in K1 by apply valid_rnd_round_mode.
    assert (F3 : is_finite (b32_sqrt (b32_div (b32_Z s) y)) = true).
    { rewrite K2. destruct (b32_div (b32_Z s) y) as [b | b | | b q e H]; try discriminate F1; [reflexivity |].
      exfalso. cbn in F2. apply eq_0_F2R in F2. destruct b; discriminate F2. }
    destruct (mul_exact (b32_mul (b32_Z 2) b32_pi) (b32_sqrt (b32_div (b32_Z s) y))) as [M1 M2].
    + exact (proj1 Fl_two_pi).
    + exact F3.
    + rewrite K1, Rmult_0_r, Rabs_R0. apply IZR_le. lia.
    + split; [exact M2 |]. rewrite M1, K1, Rmult_0_r. apply rnd_id, F32_0.
Qed.

Lemma semiparameter_int (h : Z) (mu : val) (m : R) : stands mu m -> in_range 60 m -> 0 < m ->
  let s := residue (h ^ 2) in exists p, @semiparameter _ J (I32 h) mu = F32 p /\ off 4 (Rabs (IZR s / m)) p (IZR s / m) /\
  ((s < 0)%Z -> B2R p < 0).
Proof.
  intros S R M s. destruct (j_div_int mu m S (range_mono 60 100 _ ltac:(lia) R)) as [y [Fy [D _]]].
  exists (b32_div (b32_Z s) y). split.
  { unfold semiparameter. rewrite square_int. fold s. cbn [Num_J n_div]. apply D. }
  pose proof (residue_bound (h ^ 2)) as Bs. fold s in Bs.
  assert (Rq : in_range 91 (IZR s / m)) by (apply (range_div 31 60); [lia | lia | apply range_int; exact Bs | exact R]).
  assert (Fq : Fl 3 (b32_div (b32_Z s) y) (IZR s / m)).
  { apply (Fl_div 1 1); [lia | lra | apply Fl_int31; exact Bs | exact Fy | exact (range_mono 91 125 _ ltac:(lia) Rq)]. }
  split.
  - destruct (Fl_close 3 _ _ ltac:(lia) Fq) as [G1 G2]. split; [exact G1 |]. unfold SpecFl.close in G2.
    apply Rle_trans with (1 := G2). rewrite (INR_IZR_INZ 3). change (/ IZR (2 ^ 24)) with eps.
    apply Rmult_le_compat_r; [apply Rabs_pos |]. simpl. lra.
  - intro N. apply (Fl_sign 3 _ (IZR s / m)); [lia | exact Fq |]. apply IZR_lt in N.
    pose proof (Rinv_0_lt_compat m M). unfold Rdiv. nra.
Qed.

Lemma mean_anomaly_int (a : Z) (dt mu : val) (m t : R) : stands mu m -> in_range 60 m -> 0 < m -> stands dt t ->
  (residue (a ^ 3) < 0)%Z -> @mean_anomaly_elps _ J (I32 a) dt mu = F32 B754_nan.
Proof.
  intros S R M T N. destruct (j_div_int mu m S (range_mono 60 100 _ ltac:(lia) R)) as [y [Fy [_ D]]].
  unfold mean_anomaly_elps. rewrite cube_int. cbn [Num_J n_div n_sqrt n_mul]. rewrite D.
  pose proof (residue_bound (a ^ 3)) as Bs. set (s := residue (a ^ 3)) in *.
  assert (Rq : in_range 91 (m / IZR s)) by (apply (range_div 60 31); [lia | lia | exact R | apply range_int; exact Bs]).
  assert (s0 : IZR s < 0) by (apply IZR_lt; exact N).
  assert (Fq : Fl 3 (b32_div y (b32_Z s)) (m / IZR s)).
  { apply (Fl_div 1 1); [lia | lra | exact Fy | apply Fl_int31; exact Bs | exact (range_mono 91 125 _ ltac:(lia) Rq)]. }
  unfold j_fun. rewrite sqrt_neg.
  - destruct dt as [z | f | z | f | e]; cbn in T; [| | | | contradiction]; unfold ring_op, meet;
    try rewrite (fits_ok z (proj2 T)); rewrite nan_mul; reflexivity.
  - exact (proj1 Fq).
  - apply (Fl_sign 3 _ (m / IZR s)); [lia | exact Fq |]. pose proof (Rinv_lt_0_compat _ s0). unfold Rdiv. nra.
Qed.

(** Python ints beyond int32 *)
Lemma big_mu (x v : V3 b32) (a : b32) (dt : val) (t : R) (mu : Z) : (2 ^ 31 <= mu)%Z -> stands dt t ->
  @sigma_fn _ J (vmap3 F32 x) (vmap3 F32 v) (PyI mu) = Exc OverflowError /\
  @orb_period _ J (F32 a) (PyI mu) = Exc OverflowError /\
  @mean_anomaly_elps _ J (F32 a) dt (PyI mu) = Exc OverflowError /\
  @semiparameter _ J (F32 a) (PyI mu) = Exc OverflowError.
Proof.
  intros H T. unfold sigma_fn, orb_period, mean_anomaly_elps, semiparameter, npow.
  cbn [Num_J n_div n_sqrt n_mul n_Z n_pi npow_aux mul_opt vmap3 vinner c0 c1 c2 n_add].
  unfold ring_op, j_div, j_fun, meet. rewrite (fits_not mu H).
  destruct dt as [z | f | z | f | e]; cbn in T; [| | | | contradiction]; repeat split.
Qed.

Lemma period_cases (a : Z) (mu : val) (m : R) : stands mu m -> in_range 60 m -> 0 < m ->
  ((1 <= a <= 1290)%Z -> exists p, @orb_period _ J (I32 a) mu = F32 p /\
     off 8 (2 * PI * sqrt (IZR a ^ 3 / m)) p (2 * PI * sqrt (IZR a ^ 3 / m))) /\
  ((1291 <= a <= 1625)%Z -> @orb_period _ J (I32 a) mu = F32 B754_nan) /\
  (a = 2048%Z -> exists p, @orb_period _ J (I32 a) mu = F32 p /\ B2R p = 0) /\
  (a = 7000%Z -> @orb_period _ J (I32 a) mu = F32 B754_nan).
Proof.
  intros S R M. pose proof (period_int a mu m S R M) as [H1 [H2 H3]]. split; [| split; [| split]].
  - intro A. assert (E : residue (a ^ 3) = (a ^ 3)%Z) by (apply residue_small; nia).
    rewrite E in H2. replace (IZR (a ^ 3)) with (IZR a ^ 3) in H2 by (rewrite (pow_IZR a 3); reflexivity).
    apply H2. nia.
  - intro A. apply H1. unfold residue. rewrite Z.mod_small by nia. destruct (Z.ltb_spec (a ^ 3) (2 ^ 31)); nia.
  - intros ->. destruct H3 as [p [E [_ Q]]]; [vm_compute; reflexivity |]. exists p. split; assumption.
  - intros ->. apply H1. vm_compute. reflexivity.
Qed.
End I.

Lemma mu64 : is_finite (b64_Z 398600) = true /\ B2R (b64_Z 398600) = 398600.
Proof.
  pose proof (binary_normalize_correct 53 1024 _ _ mode_NE 398600 0 false) as K.
  cbv zeta in K. change (F2R (Float radix2 398600 0)) with (398600 * 1) in K. rewrite Rmult_1_r in K.
  rewrite round_generic in K.
  - rewrite Rlt_bool_true in K.
    + destruct K as [E [G _]]. split; assumption.
    + rewrite Rabs_pos_eq by lra. apply Rlt_trans with (bpow radix2 20); [simpl; lra | apply bpow_lt; lia].
  - apply valid_rnd_round_mode.
  - apply (generic_format_FLT radix2 (-1074) 53). exists (Float radix2 398600 0); [unfold F2R; simpl; lra | simpl; lia | simpl; lia].
Qed.

Lemma low_orbit (L : libm) : @orb_period _ (Num_J L) (I32 7000) (PyF (b64_Z 398600)) = F32 B754_nan.
Proof.
  destruct mu64 as [F V]. apply (period_cases L 7000 (PyF (b64_Z 398600)) 398600).
  - split; [symmetry; exact V | exact F].
  - right. rewrite Rabs_pos_eq by lra. pose proof (two_pow_inv 60 ltac:(lia)). split; [lra | apply IZR_le; lia].
  - lra.
  - reflexivity.
Qed.

Lemma momentum (L : libm) : exists p, @semiparameter _ (Num_J L) (I32 53000) (I32 398600) = F32 p /\ B2R p < 0.
Proof.
  destruct (semiparameter_int L 53000 (I32 398600) 398600) as [p [E [_ N]]].
  - split; [reflexivity | lia].
  - right. rewrite Rabs_pos_eq by lra. pose proof (two_pow_inv 60 ltac:(lia)). split; [lra | apply IZR_le; lia].
  - lra.
  - exists p. split; [exact E | apply N; vm_compute; reflexivity].
Qed.
