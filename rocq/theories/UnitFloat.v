(** * UnitFloat: rounding commutes with powers of two inside the range. *)
From Coq Require Import ZArith Reals Bool Lia Lra.
From Flocq Require Import Core IEEE754.BinarySingleNaN Plus_error.
From Verif Require Import Num NumW SpecUnits.
Local Open Scope R_scope.

Section Generic.
  Context (prec emax : Z) (Hp : FLX.Prec_gt_0 prec) (Hm : Prec_lt_emax prec emax).
  Notation bf := (binary_float prec emax).
  Notation fx := (SpecFloat.fexp prec emax).
  Notation rnd := (round radix2 fx ZnearestE).
  Notation emin := (3 - emax - prec)%Z.
  Notation bp := (bpow radix2).

  Lemma fx_normal (e : Z) : (emin + prec <= e)%Z -> fx e = (e - prec)%Z.
  Proof using. intros H. unfold SpecFloat.fexp, SpecFloat.emin. lia. Qed.
  Lemma round_scale (x : R) (k : Z) : bp (2 - emax) <= Rabs x -> bp (2 - emax) <= Rabs (x * bp k) -> rnd (x * bp k) = rnd x * bp k.
  Proof using.
    intros H1 H2. assert (x0 : x <> 0). { intros ->. rewrite Rabs_R0 in H1. pose proof (bpow_gt_0 radix2 (2 - emax)). lra. }
    assert (M1 : (2 - emax < mag radix2 x)%Z) by now apply mag_gt_bpow.
    assert (M2 : (2 - emax < mag radix2 (x * bp k))%Z) by now apply mag_gt_bpow.
    rewrite mag_mult_bpow in M2 by exact x0.
    unfold round, scaled_mantissa, F2R, cexp; cbn [Fnum Fexp]. rewrite mag_mult_bpow by exact x0. rewrite !fx_normal by lia.
    replace (x * bp k * bp (- (mag radix2 x + k - prec))) with (x * bp (- (mag radix2 x - prec))).
    - replace (mag radix2 x + k - prec)%Z with ((mag radix2 x - prec) + k)%Z by ring. rewrite (bpow_plus _ (_ - prec)). ring.
    - rewrite Rmult_assoc, <- bpow_plus. do 2 f_equal. ring.
  Qed.
  Lemma lead_bounds (s : bool) (m : positive) (e : Z) (H : SpecFloat.bounded prec emax m e = true) :
    bp (lead m e) <= Rabs (B2R (B754_finite s m e H)) < bp (lead m e + 1).
  Proof using.
    unfold lead. cbn [B2R]. rewrite <- F2R_Zabs, abs_cond_Zopp. cbn [Z.abs].
    pose proof (Z.log2_spec (Zpos m) ltac:(lia)) as [A B]. unfold F2R; cbn [Fnum Fexp].
    assert (P : (0 <= Z.log2 (Z.pos m))%Z) by apply Z.log2_nonneg.
    replace (e + Z.log2 (Z.pos m) + 1)%Z with (Z.succ (Z.log2 (Z.pos m)) + e)%Z by lia. rewrite (Z.add_comm e), !bpow_plus.
    rewrite <- (IZR_Zpower radix2 (Z.log2 (Zpos m))), <- (IZR_Zpower radix2 (Z.succ (Z.log2 (Zpos m)))) by lia. pose proof (bpow_gt_0 radix2 e). change (Zpower radix2) with (Z.pow 2).
    split; [apply Rmult_le_compat_r; [lra|now apply IZR_le]|apply Rmult_lt_compat_r; [lra|now apply IZR_lt]].
  Qed.
  Lemma inside_R (K : Z) (x : bf) : inside K x = true -> is_finite x = true /\ bp (3 - emax + K) <= Rabs (B2R x) < bp (emax - K).
  Proof using.
    destruct x as [s|s| |s m e H]; try discriminate. intros I. apply andb_true_iff in I. destruct I as [A B]. apply Z.ltb_lt in A. apply Z.ltb_lt in B.
    split; [reflexivity|]. destruct (lead_bounds s m e H) as [L U]. split.
    - eapply Rle_trans; [|exact L]. apply bpow_le. lia.
    - eapply Rlt_le_trans; [exact U|]. apply bpow_le. lia.
  Qed.
  Lemma zero_R (x : bf) : is_zero x = true -> is_finite x = true /\ B2R x = 0.
  Proof using. destruct x; try discriminate. now split. Qed.
  Lemma nan_B (x : bf) : is_nan x = true -> is_finite x = false. Proof using. now destruct x. Qed.

  (** a rounded result in the window: the exact one scales *)
  Lemma in_window (K k : Z) (P r : R) : (0 <= K)%Z -> (Z.abs k <= K)%Z -> r = rnd P -> bp (3 - emax + K) <= Rabs r < bp (emax - K) ->
    rnd (P * bp k) = r * bp k /\ Rabs (r * bp k) < bp emax.
  Proof using Hp Hm.
    intros K0 Hk -> [L U].
    assert (V : Valid_exp fx) by (apply (fexp_correct prec emax Hp)).
    assert (A : bp (2 - emax + K) <= Rabs P).
    { apply Rnot_lt_le. intros C. assert (Rabs (rnd P) <= bp (2 - emax + K)).
      { apply abs_round_le_generic; [exact V|apply valid_rnd_N| |lra]. apply generic_format_bpow. rewrite fx_normal by (red in Hp; lia). red in Hp. lia. }
      assert (bp (2 - emax + K) < bp (3 - emax + K)) by (apply bpow_lt; lia). lra. }
    assert (B : bp (2 - emax) <= Rabs (P * bp k)).
    { rewrite Rabs_mult, (Rabs_pos_eq (bp k)) by apply bpow_ge_0. apply Rle_trans with (bp (2 - emax + K) * bp k).
      - rewrite <- bpow_plus. apply bpow_le. lia.
      - apply Rmult_le_compat_r; [apply bpow_ge_0|exact A]. }
    split.
    - apply round_scale; [|exact B]. eapply Rle_trans; [|exact A]. apply bpow_le. lia.
    - rewrite Rabs_mult, (Rabs_pos_eq (bp k)) by apply bpow_ge_0. apply Rlt_le_trans with (bp (emax - K) * bp k).
      + apply Rmult_lt_compat_r; [apply bpow_gt_0|exact U].
      + rewrite <- bpow_plus. apply bpow_le. lia.
  Qed.
  Lemma scaled_refl (a : bf) : is_finite a = true -> scaled 0 a a.
  Proof using. intros H. repeat split; try assumption. simpl. ring. Qed.
  Lemma scaled_0 (a b : bf) : scaled 0 a b -> b = a.
  Proof using. intros (A & B & C & D). apply B2R_Bsign_inj; try assumption. rewrite D. simpl. ring. Qed.
  Lemma scaled_zero (k : Z) (s : bool) : scaled k (B754_zero s : bf) (B754_zero s).
  Proof using. repeat split. simpl. ring. Qed.
  Lemma scaled_is_zero (k : Z) (a b : bf) : scaled k a b -> is_zero a = true -> b = a.
  Proof using.
    intros (A & B & C & D) Z. destruct (zero_R a Z) as [_ E]. apply B2R_Bsign_inj; try assumption. rewrite D, E. ring.
  Qed.

  Lemma ovf_inf (s : bool) (x : bf) : B2SF x = binary_overflow prec emax mode_NE s -> is_finite x = false.
  Proof using. destruct x; try reflexivity; unfold binary_overflow; cbn; discriminate. Qed.
  Lemma mul_R (x y : bf) : is_finite (Bmult mode_NE x y) = true -> B2R (Bmult mode_NE x y) = rnd (B2R x * B2R y) /\ Bsign (Bmult mode_NE x y) = xorb (Bsign x) (Bsign y).
  Proof using.
    intros F. pose proof (Bmult_correct prec emax Hp Hm mode_NE x y) as C. destruct (Rlt_bool _ _).
    - destruct C as (A & B & D). split; [exact A|]. apply D. destruct (Bmult mode_NE x y); (reflexivity || discriminate).
    - apply ovf_inf in C. congruence.
  Qed.
  Lemma mul_fit (x y : bf) : is_finite x = true -> is_finite y = true -> Rabs (rnd (B2R x * B2R y)) < bp emax ->
    is_finite (Bmult mode_NE x y) = true.
  Proof using.
    intros X Y F. pose proof (Bmult_correct prec emax Hp Hm mode_NE x y) as C. rewrite Rlt_bool_true in C by exact F.
    destruct C as (A & B & D). rewrite B, X, Y. reflexivity.
  Qed.
  Lemma sc_mul (K j k : Z) (a b c d : bf) : (0 <= K)%Z -> (Z.abs (j + k) <= K)%Z -> scaled j a b -> scaled k c d ->
    let r := Bmult mode_NE a c in is_zero r && (is_zero a || is_zero c) || inside K r = true -> scaled (j + k) r (Bmult mode_NE b d).
  Proof using.
    intros K0 Hk S1 S2 r Ok. apply orb_true_iff in Ok. destruct Ok as [Z|I].
    - apply andb_true_iff in Z. destruct Z as [Zr Z]. destruct S2 as (F2 & G2 & E2 & R2), S1 as (F1 & G1 & E1 & R1).
      destruct (zero_R r Zr) as [Fr Rr]. destruct (mul_R a c Fr) as [_ Sr].
      assert (P : B2R b * B2R d = 0). { rewrite R1, R2. apply orb_true_iff in Z. destruct Z as [Z|Z]; destruct (zero_R _ Z) as [_ E]; rewrite E; ring. }
      assert (F : is_finite (Bmult mode_NE b d) = true).
      { apply mul_fit; try assumption. rewrite P, round_0 by apply valid_rnd_N. rewrite Rabs_R0. apply bpow_gt_0. }
      destruct (mul_R b d F) as [Rb Sb]. split; [exact Fr|]. split; [exact F|]. split; [fold r in Sr; rewrite Sb, Sr, E1, E2; reflexivity|].
      rewrite Rb, P, Rr, round_0 by apply valid_rnd_N. ring.
    - destruct (inside_R K r I) as [Fr W]. destruct (mul_R a c Fr) as [Rr Sr]. destruct S2 as (F2 & G2 & E2 & R2), S1 as (F1 & G1 & E1 & R1).
      destruct (in_window K (j + k) (B2R a * B2R c) (B2R r) K0 Hk Rr W) as [Q1 Q2].
      assert (P : B2R b * B2R d = B2R a * B2R c * bp (j + k)) by (rewrite R1, R2, bpow_plus; ring).
      assert (F : is_finite (Bmult mode_NE b d) = true) by (apply mul_fit; try assumption; rewrite P, Q1; exact Q2).
      destruct (mul_R b d F) as [Rb Sb]. split; [exact Fr|]. split; [exact F|]. split; [fold r in Sr; rewrite Sb, Sr, E1, E2; reflexivity|].
      rewrite Rb, P. exact Q1.
  Qed.
  Lemma div_R (x y : bf) : B2R y <> 0 -> is_finite (Bdiv mode_NE x y) = true -> B2R (Bdiv mode_NE x y) = rnd (B2R x / B2R y) /\ Bsign (Bdiv mode_NE x y) = xorb (Bsign x) (Bsign y).
  Proof using.
    intros Y F. pose proof (Bdiv_correct prec emax Hp Hm mode_NE x y Y) as C. destruct (Rlt_bool _ _).
    - destruct C as (A & B & D). split; [exact A|]. apply D. destruct (Bdiv mode_NE x y); (reflexivity || discriminate).
    - apply ovf_inf in C. congruence.
  Qed.
  Lemma div_fit (x y : bf) : B2R y <> 0 -> is_finite x = true -> Rabs (rnd (B2R x / B2R y)) < bp emax ->
    is_finite (Bdiv mode_NE x y) = true.
  Proof using.
    intros Y X F. pose proof (Bdiv_correct prec emax Hp Hm mode_NE x y Y) as C. rewrite Rlt_bool_true in C by exact F.
    destruct C as (A & B & D). rewrite B, X. reflexivity.
  Qed.
  Lemma div_by_zero (x y : bf) : is_finite y = true -> B2R y = 0 -> is_finite (Bdiv mode_NE x y) = false.
  Proof using.
    destruct y as [s|s| |s m e H]; try discriminate.
    - intros _ _. destruct x; reflexivity.
    - intros _ E. cbn [B2R] in E. apply eq_0_F2R in E. destruct s; discriminate.
  Qed.
  Lemma sc_div (K j k : Z) (a b c d : bf) : (0 <= K)%Z -> (Z.abs (j - k) <= K)%Z -> scaled j a b -> scaled k c d ->
    let r := Bdiv mode_NE a c in is_zero r && is_zero a || inside K r = true -> scaled (j - k) r (Bdiv mode_NE b d).
  Proof using.
    intros K0 Hk S1 S2 r Ok. destruct S2 as (F2 & G2 & E2 & R2), S1 as (F1 & G1 & E1 & R1).
    assert (Fr : is_finite r = true). { apply orb_true_iff in Ok. destruct Ok as [Z|I]; [apply andb_true_iff in Z; now apply zero_R|now apply (inside_R K)]. }
    assert (C0 : B2R c <> 0) by (intros C; unfold r in Fr; rewrite div_by_zero in Fr by assumption; discriminate).
    assert (D0 : B2R d <> 0). { rewrite R2. apply Rmult_integral_contrapositive_currified; [exact C0|]. pose proof (bpow_gt_0 radix2 k). lra. }
    destruct (div_R a c C0 Fr) as [Rr Sr]. fold r in Rr, Sr.
    assert (P : B2R b / B2R d = B2R a / B2R c * bp (j - k)).
    { rewrite R1, R2. unfold Zminus. rewrite bpow_plus, bpow_opp. field. split; [|exact C0]. pose proof (bpow_gt_0 radix2 k). lra. }
    assert (Q : rnd (B2R b / B2R d) = B2R r * bp (j - k) /\ Rabs (B2R r * bp (j - k)) < bp emax).
    { apply orb_true_iff in Ok. destruct Ok as [Z|I].
      - apply andb_true_iff in Z. destruct Z as [Zr Z]. destruct (zero_R r Zr) as [_ E]. destruct (zero_R a Z) as [_ Ea]. rewrite P, E, Ea.
        replace (0 / B2R c * bp (j - k)) with 0 by (field; exact C0). rewrite round_0 by apply valid_rnd_N. rewrite Rmult_0_l, Rabs_R0. split; [reflexivity|apply bpow_gt_0].
      - destruct (inside_R K r I) as [_ W]. rewrite P. exact (in_window K (j - k) _ _ K0 Hk Rr W). }
    destruct Q as [Q1 Q2].
    assert (F : is_finite (Bdiv mode_NE b d) = true) by (apply div_fit; try assumption; rewrite Q1; exact Q2).
    destruct (div_R b d D0 F) as [Rb Sb]. split; [exact Fr|]. split; [exact F|]. split; [rewrite Sb, Sr, E1, E2; reflexivity|]. rewrite Rb. exact Q1.
  Qed.
  Definition zsign (x y : bf) (s : R) : bool := match Rcompare s 0 with Eq => andb (Bsign x) (Bsign y) | Lt => true | Gt => false end.
  Lemma add_R (x y : bf) : is_finite x = true -> is_finite y = true -> is_finite (Bplus mode_NE x y) = true ->
    B2R (Bplus mode_NE x y) = rnd (B2R x + B2R y) /\ Bsign (Bplus mode_NE x y) = zsign x y (B2R x + B2R y).
  Proof using.
    intros X Y F. pose proof (Bplus_correct prec emax Hp Hm mode_NE x y X Y) as C. destruct (Rlt_bool _ _).
    - destruct C as (A & B & D). split; [exact A|]. exact D.
    - destruct C as [C _]. apply ovf_inf in C. congruence.
  Qed.
  Lemma add_fit (x y : bf) : is_finite x = true -> is_finite y = true -> Rabs (rnd (B2R x + B2R y)) < bp emax -> is_finite (Bplus mode_NE x y) = true.
  Proof using.
    intros X Y F. pose proof (Bplus_correct prec emax Hp Hm mode_NE x y X Y) as C. rewrite Rlt_bool_true in C by exact F. apply C.
  Qed.
  Lemma Rcompare_scale (x p : R) : 0 < p -> Rcompare (x * p) 0 = Rcompare x 0.
  Proof using. intros H. replace 0 with (0 * p) at 1 by ring. now apply Rcompare_mult_r. Qed.
  Lemma sum_zero (x y : bf) : rnd (B2R x + B2R y) = 0 -> B2R x + B2R y = 0.
  Proof using Hp Hm.
    intros H. destruct (Req_dec (B2R x + B2R y) 0) as [E|E]; [exact E|]. exfalso.
    assert (V : Valid_exp fx) by (apply (fexp_correct prec emax Hp)).
    revert H. apply (round_plus_neq_0 radix2 fx ZnearestE); try apply generic_format_B2R; try exact E.
  Qed.
  Lemma sc_add (K k : Z) (a b c d : bf) : (0 <= K)%Z -> (Z.abs k <= K)%Z -> scaled k a b -> scaled k c d ->
    let r := Bplus mode_NE a c in is_zero r || inside K r = true -> scaled k r (Bplus mode_NE b d).
  Proof using.
    intros K0 Hk S1 S2 r Ok. destruct S2 as (F2 & G2 & E2 & R2), S1 as (F1 & G1 & E1 & R1).
    assert (Fr : is_finite r = true). { apply orb_true_iff in Ok. destruct Ok as [Z|I]; [now apply zero_R|now apply (inside_R K)]. }
    destruct (add_R a c F1 F2 Fr) as [Rr Sr]. fold r in Rr, Sr.
    assert (P : B2R b + B2R d = (B2R a + B2R c) * bp k) by (rewrite R1, R2; ring).
    assert (Q : rnd (B2R b + B2R d) = B2R r * bp k /\ Rabs (B2R r * bp k) < bp emax).
    { apply orb_true_iff in Ok. destruct Ok as [Z|I].
      - destruct (zero_R r Z) as [_ E]. rewrite E in Rr. symmetry in Rr. apply sum_zero in Rr. rewrite P, E, Rr, Rmult_0_l, round_0 by apply valid_rnd_N.
        rewrite Rabs_R0. split; [reflexivity|apply bpow_gt_0].
      - destruct (inside_R K r I) as [_ W]. rewrite P. exact (in_window K k _ _ K0 Hk Rr W). }
    destruct Q as [Q1 Q2].
    assert (F : is_finite (Bplus mode_NE b d) = true) by (apply add_fit; try assumption; rewrite Q1; exact Q2).
    destruct (add_R b d G1 G2 F) as [Rb Sb]. split; [exact Fr|]. split; [exact F|]. split; [|rewrite Rb; exact Q1].
    rewrite Sb, Sr. unfold zsign. rewrite P, Rcompare_scale by apply bpow_gt_0. rewrite E1, E2. reflexivity.
  Qed.
  Lemma sc_neg (k : Z) (a b : bf) : scaled k a b -> scaled k (Bopp a) (Bopp b).
  Proof using.
    intros (F & G & E & Q). repeat split; rewrite ?is_finite_Bopp, ?B2R_Bopp; try assumption; [|rewrite Q; ring].
    rewrite !Bsign_Bopp, E; [reflexivity|destruct a; (reflexivity||discriminate)|destruct b; (reflexivity||discriminate)].
  Qed.
  Lemma sc_abs (k : Z) (a b : bf) : scaled k a b -> scaled k (Babs a) (Babs b).
  Proof using.
    intros (F & G & E & Q). repeat split; rewrite ?is_finite_Babs, ?B2R_Babs; try assumption.
    - destruct a, b; try discriminate; reflexivity.
    - rewrite Q, Rabs_mult, (Rabs_pos_eq (bp k)) by apply bpow_ge_0. reflexivity.
  Qed.
  Lemma sub_add' (a b : bf) : is_finite a = true -> Bminus mode_NE a b = Bplus mode_NE a (Bopp b).
  Proof using. intros _. destruct a as [[]|[]| |sa ma ea Ha], b as [[]|[]| |sb mb eb Hb]; try reflexivity. Qed.
  Lemma sc_sub (K k : Z) (a b c d : bf) : (0 <= K)%Z -> (Z.abs k <= K)%Z -> scaled k a b -> scaled k c d ->
    let r := Bminus mode_NE a c in is_zero r || inside K r = true -> scaled k r (Bminus mode_NE b d).
  Proof using.
    intros K0 Hk S1 S2. rewrite !sub_add' by apply S1. apply sc_add; try assumption. now apply sc_neg.
  Qed.
  Lemma sc_sqrt (K k : Z) (a b : bf) : (0 <= K)%Z -> (Z.abs k <= K)%Z -> scaled (k + k) a b ->
    let r := Bsqrt mode_NE a in is_zero r && is_zero a || inside K r = true -> scaled k r (Bsqrt mode_NE b).
  Proof using.
    intros K0 Hk (F & G & E & Q) r Ok.
    assert (Fr : is_finite r = true). { apply orb_true_iff in Ok. destruct Ok as [Z|I]; [apply andb_true_iff in Z; now apply zero_R|now apply (inside_R K)]. }
    destruct (Bsqrt_correct prec emax Hp Hm mode_NE a) as (A1 & A2 & A3). fold r in A1, A2, A3.
    destruct (Bsqrt_correct prec emax Hp Hm mode_NE b) as (B1 & B2 & B3).
    assert (Nr : is_nan r = false) by (destruct r; (reflexivity||discriminate)). specialize (A3 Nr).
    assert (P : sqrt (B2R b) = sqrt (B2R a) * bp k).
    { rewrite Q, sqrt_mult_alt.
      - rewrite bpow_plus, sqrt_square by apply bpow_ge_0. reflexivity.
      - destruct a as [s|s| |s m e H]; try discriminate; [apply Rle_refl|]. destruct s; [rewrite Fr in A2; discriminate|].
        cbn [B2R]. apply F2R_ge_0. cbn. lia. }
    assert (W : rnd (sqrt (B2R b)) = B2R r * bp k).
    { rewrite P. apply orb_true_iff in Ok. destruct Ok as [Z|I].
      - apply andb_true_iff in Z. destruct Z as [Z Za]. destruct (zero_R r Z) as [_ E0]. destruct (zero_R a Za) as [_ Ea]. rewrite E0, Ea, sqrt_0, !Rmult_0_l. apply round_0, valid_rnd_N.
      - destruct (inside_R K r I) as [_ W]. exact (proj1 (in_window K k _ _ K0 Hk A1 W)). }
    assert (Fb : is_finite (Bsqrt mode_NE b) = true).
    { rewrite B2. destruct a as [s|s| |s m e H], b as [s'|s'| |s' m' e' H']; try discriminate; try reflexivity; cbn [Bsign] in E; subst s'; destruct s; try reflexivity; try (rewrite Fr in A2; discriminate).
      all: exfalso; cbn [B2R] in Q; rewrite Rmult_0_l in Q; apply eq_0_F2R in Q; discriminate. }
    split; [exact Fr|]. split; [exact Fb|]. split; [|rewrite B1; exact W].
    rewrite B3, A3; [exact E|]. destruct (Bsqrt mode_NE b); (reflexivity||discriminate).
  Qed.
  Lemma sc_lt (k : Z) (a b c d : bf) : scaled k a b -> scaled k c d -> Bltb b d = Bltb a c.
  Proof using.
    intros (F1 & G1 & E1 & R1) (F2 & G2 & E2 & R2). rewrite !Bltb_correct by assumption. rewrite R1, R2.
    unfold Rlt_bool. rewrite Rcompare_mult_r by apply bpow_gt_0. reflexivity.
  Qed.
End Generic.
