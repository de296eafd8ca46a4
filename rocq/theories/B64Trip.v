(** * B64Trip: conversions there and back, and whole revolutions, in double precision *)
From Coq Require Import ZArith Reals Lra Lia Psatz Bool.
From Flocq Require Import Core IEEE754.BinarySingleNaN.
From Verif Require Import Num NumB64 SpecFl SpecFl64 SpecFlV RelLib OrbIntegrals KepEqu PathCheck B64Lib B64Acc B64Rel B64Closed B64Path.
Local Open Scope R_scope.

Lemma F64_below_1 : F64 (1 - eps).
Proof.
  replace (1 - eps) with (IZR 9007199254740991 * bpow radix2 (-53)) by (unfold eps; simpl; lra).
  apply F64_scaled; simpl; lia.
Qed.
Lemma F64_above_1 : F64 (1 + 2 * eps).
Proof.
  replace (1 + 2 * eps) with (IZR 4503599627370497 * bpow radix2 (-52)) by (unfold eps; simpl; lra).
  apply F64_scaled; simpl; lia.
Qed.
Lemma F64_1 : F64 1.
Proof. apply (F64_int 1). lia. Qed.
Lemma F64_eps : F64 eps.
Proof.
  replace eps with (IZR 1 * bpow radix2 (-53)) by (unfold eps; simpl; lra). apply F64_scaled; simpl; lia.
Qed.
Lemma eps_pos : 0 < eps.
Proof. exact (proj1 eps_range). Qed.

(** a rounded square is one only for the square of one *)
Lemma square_not_1 (e : b64) : Rabs (B2R e) <> 1 -> rnd (B2R e * B2R e) <> 1.
Proof.
  intro N. pose proof eps_range as P.
  assert (Fa : F64 (Rabs (B2R e))).
  { unfold Rabs. destruct Rcase_abs; [apply F64_opp |]; apply F64_B2R. }
  replace (B2R e * B2R e) with (Rabs (B2R e) * Rabs (B2R e)) by (rewrite <- Rabs_mult; apply Rabs_pos_eq; nra).
  pose proof (Rabs_pos (B2R e)) as Z. set (x := Rabs (B2R e)) in *. clearbody x.
  pose proof (apart_rel 1 x F64_1 Fa (not_eq_sym N)) as A. rewrite Rabs_R1 in A.
  destruct (Rle_or_lt x 1) as [H | H].
  - rewrite Rabs_pos_eq in A by lra. assert (K : rnd (x * x) <= 1 - eps) by (apply rnd_le; [exact F64_below_1 | nra]). lra.
  - rewrite Rabs_left in A by lra. assert (K : 1 + 2 * eps <= rnd (x * x)) by (apply rnd_ge; [exact F64_above_1 | nra]). lra.
Qed.

Definition one_less (e : b64) : b64 := b64_sub (b64_Z 1) (b64_mul e e).

Lemma one_less_ok (e : b64) : is_finite e = true -> Rabs (B2R e) <= IZR (2 ^ 400) -> Rabs (B2R e) <> 1 ->
  is_finite (one_less e) = true /\ in_range 801 (B2R (one_less e)) /\ B2R (one_less e) <> 0.
Proof.
  intros F H N. pose proof eps_pos as P.
  assert (S : 0 <= B2R e * B2R e <= IZR (2 ^ 800)).
  { split; [nra |]. replace (IZR (2 ^ 800)) with (IZR (2 ^ 400) * IZR (2 ^ 400)) by (rewrite <- mult_IZR; reflexivity).
    rewrite <- (Rabs_pos_eq (B2R e * B2R e)) by nra. rewrite Rabs_mult. pose proof (Rabs_pos (B2R e)). apply Rmult_le_compat; assumption. }
  assert (B : IZR (2 ^ 800) <= IZR (2 ^ 1023)) by (apply IZR_le; vm_compute; discriminate).
  destruct (mul_exact e e F F ltac:(rewrite Rabs_pos_eq by lra; lra)) as [Vs Fs].
  pose proof (square_not_1 e N) as Ns. rewrite <- Vs in Ns.
  assert (F8 : F64 (IZR (2 ^ 800))).
  { replace (IZR (2 ^ 800)) with (IZR 1 * bpow radix2 800) by (rewrite Rmult_1_l; reflexivity). apply F64_scaled; simpl; lia. }
  assert (Bs : 0 <= B2R (b64_mul e e) <= IZR (2 ^ 800)).
  { rewrite Vs. split; [apply rnd_ge; [exact F64_0 | lra] | apply rnd_le; [exact F8 | lra]]. }
  destruct (Fl_int 1 ltac:(lia)) as [F1 E1]. assert (V1 : B2R (b64_Z 1) = 1).
  { destruct E1 as [t [E1 [L1 L2]]]. simpl pow in L1, L2. rewrite Rinv_1 in L1. nra. }
  clear E1. assert (B1 : 1 <= IZR (2 ^ 800)) by (apply IZR_le; vm_compute; discriminate).
  assert (B2 : IZR (2 ^ 801) = 2 * IZR (2 ^ 800)) by (rewrite <- mult_IZR; reflexivity).
  assert (B3 : IZR (2 ^ 801) <= IZR (2 ^ 1023)) by (apply IZR_le; vm_compute; discriminate).
  assert (F9 : F64 (IZR (2 ^ 801))).
  { replace (IZR (2 ^ 801)) with (IZR 1 * bpow radix2 801) by (rewrite Rmult_1_l; reflexivity). apply F64_scaled; simpl; lia. }
  assert (A : eps <= Rabs (1 - B2R (b64_mul e e))).
  { pose proof (apart_rel 1 (B2R (b64_mul e e)) F64_1 (F64_B2R _) (not_eq_sym Ns)) as A. rewrite Rabs_R1 in A. lra. }
  assert (M : Rabs (1 - B2R (b64_mul e e)) <= IZR (2 ^ 801)) by (apply Rabs_le; lra).
  destruct (sub_exact (b64_Z 1) (b64_mul e e) F1 Fs ltac:(rewrite V1; lra)) as [V Fq]. rewrite V1 in V.
  fold (one_less e) in V, Fq. set (d := 1 - B2R (b64_mul e e)) in *. clearbody d.
  assert (R : eps <= Rabs (B2R (one_less e)) <= IZR (2 ^ 801)).
  { rewrite V. unfold Rabs in A, M. destruct (Rcase_abs d) as [D | D].
    - assert (K : rnd d <= - eps) by (apply rnd_le; [apply F64_opp, F64_eps | lra]).
      assert (K' : - IZR (2 ^ 801) <= rnd d) by (apply rnd_ge; [apply F64_opp, F9 | lra]).
      rewrite Rabs_left by lra. lra.
    - assert (K : eps <= rnd d) by (apply rnd_ge; [apply F64_eps | lra]).
      assert (K' : rnd d <= IZR (2 ^ 801)) by (apply rnd_le; [apply F9 | lra]).
      rewrite Rabs_pos_eq by lra. lra. }
  split; [exact Fq | split].
  - right. split; [| apply R]. apply Rle_trans with (2 := proj1 R). unfold eps.
    apply Rinv_le_contravar; [lra |]. apply IZR_le. vm_compute. discriminate.
  - intro K. rewrite K, Rabs_R0 in R. lra.
Qed.

Section Trip.
  Variable L : libm64.
  Let N : Num b64 := Num_B64 L.

  Lemma axis_trip (a e : b64) : good64 200 a -> is_finite e = true -> Rabs (B2R e) <= IZR (2 ^ 400) -> Rabs (B2R e) <> 1 ->
    off64 3 (Rabs (B2R a)) (@a_from_pe _ N (@semipara_from_ae _ N a e) e) (B2R a).
  Proof using.
    intros [Fa Ra] Fe He Ne. destruct (one_less_ok e Fe He Ne) as [Fq [Rq Zq]].
    change (@a_from_pe _ N (@semipara_from_ae _ N a e) e) with (b64_div (b64_mul a (one_less e)) (one_less e)).
    set (q := one_less e) in *. clearbody q.
    assert (K : Fl 2 (b64_div (b64_mul a q) q) (B2R a)).
    { replace (B2R a) with (B2R a * B2R q / B2R q) by (field; exact Zq).
      apply (Fl_div 1 0); [lia | exact Zq | | apply Fl_exact; exact Fq |].
      - apply (Fl_mul 0 0); [lia | apply Fl_exact; exact Fa | apply Fl_exact; exact Fq |].
        apply (range_mono (200 + 801) 1020); [lia |]. apply (range_mul 200 801); [lia | lia | exact Ra | exact Rq].
      - replace (B2R a * B2R q / B2R q) with (B2R a) by (field; exact Zq). apply (range_mono 200 1020); [lia | exact Ra]. }
    apply (Fl_close 2) in K; [| lia]. destruct K as [F K]. split; [exact F |].
    replace (INR 2 + 1) with 3 in K by (rewrite INR_IZR_INZ; simpl; lra). exact K.
  Qed.

  Lemma semiparameter_trip (p e : b64) : good64 200 p -> is_finite e = true -> Rabs (B2R e) <= IZR (2 ^ 400) -> Rabs (B2R e) <> 1 ->
    off64 3 (Rabs (B2R p)) (@semipara_from_ae _ N (@a_from_pe _ N p e) e) (B2R p).
  Proof using.
    intros [Fa Ra] Fe He Ne. destruct (one_less_ok e Fe He Ne) as [Fq [Rq Zq]].
    change (@semipara_from_ae _ N (@a_from_pe _ N p e) e) with (b64_mul (b64_div p (one_less e)) (one_less e)).
    set (q := one_less e) in *. clearbody q.
    assert (K : Fl 2 (b64_mul (b64_div p q) q) (B2R p)).
    { replace (B2R p) with (B2R p / B2R q * B2R q) by (field; exact Zq).
      apply (Fl_mul 1 0); [lia | | apply Fl_exact; exact Fq |].
      - apply (Fl_div 0 0); [lia | exact Zq | apply Fl_exact; exact Fa | apply Fl_exact; exact Fq |].
        apply (range_mono (200 + 801) 1020); [lia |]. apply (range_div 200 801); [lia | lia | exact Ra | exact Rq].
      - replace (B2R p / B2R q * B2R q) with (B2R p) by (field; exact Zq). apply (range_mono 200 1020); [lia | exact Ra]. }
    apply (Fl_close 2) in K; [| lia]. destruct K as [F K]. split; [exact F |].
    replace (INR 2 + 1) with 3 in K by (rewrite INR_IZR_INZ; simpl; lra). exact K.
  Qed.

  (** for a parabola neither conversion can be undone *)
  Lemma zero_of_one (e : b64) : is_finite e = true -> Rabs (B2R e) = 1 -> one_less e = B754_zero false.
  Proof using.
    intros F H. assert (Q : B2R e * B2R e = 1) by (unfold Rabs in H; destruct Rcase_abs; nra).
    destruct (mul_exact e e F F ltac:(rewrite Q, Rabs_R1; apply IZR_le; vm_compute; discriminate)) as [V Fm].
    rewrite Q in V. rewrite (rnd_id 1 F64_1) in V.
    assert (E : b64_mul e e = b64_Z 1).
    { apply B2R_inj; [apply is_finite_strict_B2R; lra | vm_compute; reflexivity |].
      rewrite V. symmetry. destruct (Fl_int 1 ltac:(lia)) as [_ [t [E1 [L1 L2]]]]. simpl pow in L1, L2. rewrite Rinv_1 in L1. nra. }
    unfold one_less. rewrite E. vm_compute. reflexivity.
  Qed.

  Lemma parabola_trips (x e : b64) : is_finite e = true -> Rabs (B2R e) = 1 ->
    @a_from_pe _ N (@semipara_from_ae _ N x e) e = B754_nan /\ @semipara_from_ae _ N (@a_from_pe _ N x e) e = B754_nan.
  Proof using.
    intros F H.
    change (@a_from_pe _ N (@semipara_from_ae _ N x e) e) with (b64_div (b64_mul x (one_less e)) (one_less e)).
    change (@semipara_from_ae _ N (@a_from_pe _ N x e) e) with (b64_mul (b64_div x (one_less e)) (one_less e)).
    rewrite (zero_of_one e F H). destruct x; split; reflexivity.
  Qed.

  (** the mean anomaly gathered over one computed period *)
  Lemma one_period (a mu : b64) : good64 300 a -> good64 100 mu -> 0 < B2R a -> 0 < B2R mu ->
    off64 11 (2 * PI) (@mean_anomaly_elps _ N a (@orb_period _ N a mu) mu) (2 * PI).
  Proof using.
    intros [Fa Ra] [Fm Rm] Pa Pm. pose proof PI_RGT_0 as PP.
    assert (P3 : 0 < B2R a ^ 3) by (apply pow_lt; exact Pa).
    assert (Q : 0 < B2R a ^ 3 / B2R mu) by (apply Rdiv_lt_0_compat; assumption).
    assert (Q' : 0 < B2R mu / B2R a ^ 3) by (apply Rdiv_lt_0_compat; assumption).
    assert (R1 : in_range 900 (B2R a ^ 3)).
    { replace (B2R a ^ 3) with (B2R a * (B2R a * B2R a)) by ring. apply (range_mul 300 600); [lia | lia | exact Ra |].
      apply (range_mul 300 300); [lia | lia | exact Ra | exact Ra]. }
    assert (R2 : in_range 1000 (B2R a ^ 3 / B2R mu)) by (apply (range_div 900 100); [lia | lia | exact R1 | exact Rm]).
    assert (R3 : in_range 1000 (B2R mu / B2R a ^ 3)) by (apply (range_div 100 900); [lia | lia | exact Rm | exact R1]).
    pose proof (range_mono 900 1020 _ ltac:(lia) R1) as R1'. pose proof (range_mono 1000 1020 _ ltac:(lia) R2) as R2'.
    pose proof (range_mono 1000 1020 _ ltac:(lia) R3) as R3'.
    assert (E : sqrt (B2R mu / B2R a ^ 3) * (2 * PI * sqrt (B2R a ^ 3 / B2R mu)) = 2 * PI).
    { replace (sqrt (B2R mu / B2R a ^ 3) * (2 * PI * sqrt (B2R a ^ 3 / B2R mu)))
        with (2 * PI * (sqrt (B2R mu / B2R a ^ 3) * sqrt (B2R a ^ 3 / B2R mu))) by ring.
      rewrite <- sqrt_mult by lra. replace (B2R mu / B2R a ^ 3 * (B2R a ^ 3 / B2R mu)) with 1 by (field; lra).
      rewrite sqrt_1. ring. }
    assert (FP : Fl 6 (@orb_period _ N a mu) (2 * PI * sqrt (B2R a ^ 3 / B2R mu))).
    { change (@orb_period _ N a mu) with (b64_mul (b64_mul (b64_Z 2) b64_pi) (b64_sqrt (b64_div (b64_mul a (b64_mul a a)) mu))).
      apply (Fl_mul 2 3); [lia | exact Fl_two_pi | |].
      - apply (Fl_sqrt 2); [lia | exact Q | | exact R2'].
        apply (Fl_mono 3); [lia |]. apply (Fl_div 2 0); [lia | lra | | apply Fl_exact; exact Fm | exact R2'].
        apply (Fl_cube 0); [lia | apply Fl_exact; exact Fa | exact R1'].
      - apply (range_mono 503 1020); [lia |]. apply (range_mul 3 500); [lia | lia | exact two_pi_range |].
        apply range_sqrt; [lia | exact Q | exact R2]. }
    assert (FM : Fl 10 (@mean_anomaly_elps _ N a (@orb_period _ N a mu) mu) (2 * PI)).
    { set (P := @orb_period _ N a mu) in *. clearbody P. rewrite <- E.
      change (@mean_anomaly_elps _ N a P mu) with (b64_mul (b64_sqrt (b64_div mu (b64_mul a (b64_mul a a)))) P).
      apply (Fl_mul 3 6); [lia | | exact FP | rewrite E; apply (range_mono 3 1020 _ ltac:(lia) two_pi_range)].
      apply (Fl_sqrt 2); [lia | exact Q' | | exact R3']. apply (Fl_mono 3); [lia |].
      apply (Fl_div 0 2); [lia | lra | apply Fl_exact; exact Fm | | exact R3'].
      apply (Fl_cube 0); [lia | apply Fl_exact; exact Fa | exact R1']. }
    apply (Fl_close 10) in FM; [| lia]. destruct FM as [F K]. split; [exact F |].
    replace (INR 10 + 1) with 11 in K by (rewrite INR_IZR_INZ; simpl; lra).
    unfold close in K. rewrite (Rabs_pos_eq (2 * PI)) in K by lra. exact K.
  Qed.

  (** whole revolutions: a margin of thirteen units is enough, and never more than that is lost *)
  Lemma revolutions_margin (rp r1 r2 tof mu : b64) : good64 100 rp -> good64 100 r1 -> good64 100 r2 -> good64 100 tof -> good64 100 mu ->
    0 < B2R rp -> 0 < B2R r1 -> 0 < B2R r2 -> 0 < B2R mu -> 0 <= B2R tof ->
    forall a P : R, a = (Rmax (B2R r1) (B2R r2) + B2R rp) / 2 -> P = 2 * PI * sqrt (a ^ 3 / B2R mu) ->
    forall n : Z, (0 <= n)%Z ->
      (IZR n * P * (1 + 13 * / IZR (2 ^ 53)) <= B2R tof -> IZR n <= B2R (@nmax_by_periapsis _ N rp r1 r2 tof mu)) /\
      (IZR n <= B2R (@nmax_by_periapsis _ N rp r1 r2 tof mu) -> IZR n * P <= B2R tof * (1 + 13 * / IZR (2 ^ 53))).
  Proof using.
    intros Gp G1 G2 Gt Gm Pp P1 P2 Pm Pt a P Ea EP n Hn.
    destruct (nmax_ok L rp r1 r2 tof mu Gp G1 G2 Gt Gm Pp P1 P2 Pm) as [_ [k [Vk [y [Hy Hk]]]]].
    rewrite <- Ea, <- EP in Hy. fold N in Vk. rewrite Vk. clear Vk.
    assert (A : 0 < a) by (rewrite Ea; unfold Rmax; destruct Rle_dec; lra).
    assert (PP : 0 < P).
    { rewrite EP. pose proof PI_RGT_0. apply Rmult_lt_0_compat; [lra |]. apply sqrt_lt_R0. apply Rdiv_lt_0_compat; [apply pow_lt; exact A | exact Pm]. }
    set (x := B2R tof / P) in *. assert (Ex : B2R tof = x * P) by (unfold x; field; lra). rewrite Ex.
    assert (X : 0 <= x) by (apply Rmult_le_reg_r with P; [exact PP | lra]). clearbody x.
    rewrite (Rabs_pos_eq x X) in Hy. apply Rabs_le_inv in Hy.
    assert (U : 0 < / IZR (2 ^ 53) <= / 100000) by exact eps_range.
    set (u := / IZR (2 ^ 53)) in *. clearbody u. pose proof (IZR_le _ _ Hn) as N0.
    split; intro H.
    - assert (K : IZR n * (1 + 13 * u) <= x) by (apply Rmult_le_reg_r with P; [exact PP | lra]).
      assert (K1 : IZR n <= y).
      { apply Rle_trans with (x * (1 - 12 * u)); [| lra].
        apply Rle_trans with (IZR n * (1 + 13 * u) * (1 - 12 * u)).
        - replace (IZR n * (1 + 13 * u) * (1 - 12 * u)) with (IZR n * (1 + (u - 156 * u * u))) by ring.
          rewrite <- (Rmult_1_r (IZR n)) at 1. apply Rmult_le_compat_l; [exact N0 |]. nra.
        - apply Rmult_le_compat_r; [lra | exact K]. }
      apply IZR_le. assert (L1 : IZR n < IZR (k + 1)) by (rewrite plus_IZR; lra). apply lt_IZR in L1. lia.
    - assert (K : IZR n <= x * (1 + 12 * u)) by lra.
      replace (x * P * (1 + 13 * u)) with (x * (1 + 13 * u) * P) by ring. apply Rmult_le_compat_r; [lra |].
      apply Rle_trans with (1 := K). apply Rmult_le_compat_l; [exact X | lra].
  Qed.
End Trip.
