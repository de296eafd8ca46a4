(** * B32Past: the hyperbolic Kepler solver at negative mean anomalies in single precision (proofs for C94) *)
From Coq Require Import ZArith Reals Lra Lia Psatz Bool List.
From Flocq Require Import Core IEEE754.BinarySingleNaN.
From Verif Require Import Num NumB32 Spec KepEqu LoopFacts SqrtSqr2 B32Lib B32Acc B32An B32Fl.
Local Open Scope R_scope.

Section Past.
  Variable L : libm.
  Let N : Num b32 := Num_B32 L.
  Variables (Nm e : b32).
  Hypothesis FN : is_finite Nm = true.
  Hypothesis Fe : is_finite e = true.
  Hypothesis He : 0 < B2R e.
  Hypothesis HN : Rabs (B2R Nm) <= IZR (2 ^ 120).
  Variable sg : R.
  Hypothesis Hsg : sg = 1 \/ sg = -1.
  Hypothesis Hr : IZR (2 ^ 12) * B2R e <= sg * B2R Nm <= IZR (2 ^ 59) * B2R e.

  Let x : b32 := @n_div _ N (@n_mul _ N (@n_Z _ N 2) Nm) e.
  Lemma F_pow (k : Z) : (0 <= k < 127)%Z -> F32 (IZR (2 ^ k)).
  Proof using. intro H. change (2 ^ k)%Z with (Zpower radix2 k). rewrite IZR_Zpower by lia. apply generic_format_bpow. unfold fx, SpecFloat.fexp, SpecFloat.emin. lia. Qed.
  Lemma pow_S (k : Z) : (0 <= k)%Z -> IZR (2 ^ (k + 1)) = 2 * IZR (2 ^ k).
  Proof using. intro H. rewrite Z.pow_add_r, mult_IZR by lia. change (IZR (2 ^ 1)) with 2. ring. Qed.
  Lemma F_sg (u : R) : F32 u -> F32 (sg * u).
  Proof using Hsg. clear - Hsg. intro H. destruct Hsg as [-> | ->]; [now rewrite Rmult_1_l|]. replace (-1 * u) with (- u) by ring. now apply F32_opp. Qed.
  Lemma rnd_sg (u : R) : sg * rnd u = rnd (sg * u).
  Proof using Hsg. clear - Hsg. destruct Hsg as [-> | ->]; [now rewrite !Rmult_1_l|]. replace (-1 * u) with (- u) by ring. rewrite rnd_opp. ring. Qed.
  Lemma abs_sg (u : R) : 0 <= sg * u -> Rabs u = sg * u.
  Proof using Hsg. clear - Hsg. destruct Hsg as [-> | ->]; intro H; [rewrite Rabs_pos_eq | rewrite Rabs_left1]; lra. Qed.
  Lemma x_val : is_finite x = true /\ B2R x = rnd (2 * B2R Nm / B2R e) /\ IZR (2 ^ (12 + 1)) <= sg * B2R x <= IZR (2 ^ (59 + 1)).
  Proof using FN Fe He HN Hsg Hr.
    destruct (int_val 2 ltac:(lia)) as [V2 F2].
    assert (P : 0 < IZR (2 ^ 120)) by (apply IZR_lt; reflexivity).
    assert (Q : 2 * IZR (2 ^ 120) <= IZR (2 ^ 127)) by (rewrite <- mult_IZR; apply IZR_le; lia).
    destruct (mul_exact (b32_Z 2) Nm F2 FN) as [Vm Fm].
    { rewrite V2, Rabs_mult, (Rabs_pos_eq (IZR 2)) by lra. change (IZR 2) with 2. lra. }
    assert (Vm' : B2R (b32_mul (b32_Z 2) Nm) = 2 * B2R Nm).
    { rewrite Vm, V2. apply rnd_id. apply (double_format 24 (-149) ltac:(lia) (fun x => negb (Z.even x))). apply F32_B2R. }
    assert (R1 : IZR (2 ^ (12 + 1)) <= sg * (2 * B2R Nm / B2R e) <= IZR (2 ^ (59 + 1))).
    { rewrite !pow_S by lia. unfold Rdiv.
      replace (sg * (2 * B2R Nm * / B2R e)) with (2 * (sg * B2R Nm * / B2R e)) by ring.
      assert (sg * B2R Nm * / B2R e * B2R e = sg * B2R Nm) by (field; lra). set (q := sg * B2R Nm * / B2R e) in *. split.
      - apply Rmult_le_compat_l; [lra|]. apply Rmult_le_reg_r with (B2R e); lra.
      - apply Rmult_le_compat_l; [lra|]. apply Rmult_le_reg_r with (B2R e); lra. }
    assert (Bk : IZR (2 ^ (59 + 1)) <= IZR (2 ^ 127)) by (apply IZR_le; lia).
    assert (Bt : 0 < IZR (2 ^ (12 + 1))) by (apply IZR_lt; reflexivity).
    destruct (div_exact (b32_mul (b32_Z 2) Nm) e Fm ltac:(lra)) as [Vd Fd].
    { rewrite Vm'. rewrite abs_sg; lra. }
    rewrite Vm' in Vd. split; [exact Fd|]. change x with (b32_div (b32_mul (b32_Z 2) Nm) e). split; [exact Vd|].
    rewrite Vd, rnd_sg. split.
    - apply rnd_ge; [apply F_pow; lia | lra].
    - apply rnd_le; [apply F_pow; lia | lra].
  Qed.

  Let root : b32 := @n_sqrt _ N (@n_add _ N (@n_mul _ N x x) (@n_Z _ N 1)).
  Lemma root_val : is_finite root = true /\ B2R root = sg * B2R x.
  Proof using FN Fe He HN Hsg Hr.
    destruct x_val as [Fx [_ [X1 X2]]]. set (z := sg * B2R x) in *.
    assert (Bt : IZR 1 <= IZR (2 ^ (12 + 1))) by (apply IZR_le; lia).
    assert (Fz : F32 z) by (unfold z; apply F_sg, F32_B2R).
    assert (Zz : B2R x * B2R x = z * z) by (unfold z; destruct Hsg as [-> | ->]; ring).
    assert (U : z * z <= IZR (2 ^ (59 + 1)) * IZR (2 ^ (59 + 1))) by (apply Rmult_le_compat; lra).
    rewrite <- mult_IZR in U. assert (U2 : IZR (2 ^ (59 + 1) * 2 ^ (59 + 1)) + 1 <= IZR (2 ^ 127)) by (rewrite <- (plus_IZR _ 1); apply IZR_le; lia).
    destruct (mul_exact x x Fx Fx) as [Vs Fs]; [rewrite Zz, Rabs_pos_eq; nra|]. rewrite Zz in Vs.
    assert (Lo : IZR (2 ^ (24 + 1)) <= B2R (b32_mul x x)).
    { rewrite Vs. apply rnd_ge; [apply F_pow; lia|]. apply Rle_trans with (IZR (2 ^ (12 + 1)) * IZR (2 ^ (12 + 1))).
      - rewrite <- mult_IZR. apply IZR_le. lia.
      - apply Rmult_le_compat; lra. }
    assert (Up : B2R (b32_mul x x) <= IZR (2 ^ (2 * 59 + 2))).
    { rewrite Vs. apply rnd_le; [apply F_pow; lia|]. apply Rle_trans with (1 := U). apply IZR_le. lia. }
    assert (P0 : 1 <= IZR (2 ^ (24 + 1))) by (apply (IZR_le 1); lia).
    destruct (int_val 1 ltac:(lia)) as [V1 F1].
    assert (U3 : IZR (2 ^ (2 * 59 + 2)) + 1 <= IZR (2 ^ 127)) by (rewrite <- (plus_IZR _ 1); apply IZR_le; lia).
    destruct (add_exact (b32_mul x x) (b32_Z 1) Fs F1) as [Va Fa]; [rewrite V1, Rabs_pos_eq; lra|].
    assert (Va' : B2R (b32_add (b32_mul x x) (b32_Z 1)) = rnd (z * z)).
    { rewrite Va, V1, <- Vs. apply (absorb_one 24 (-149) ltac:(lia) (fun x => negb (Z.even x))); [apply F32_B2R|].
      apply Rle_trans with (2 := Lo). right. symmetry. exact (IZR_Zpower radix2 (24 + 1) ltac:(lia)). }
    destruct (f_sqrt' L _ Fa) as [Vq Fq]; [rewrite Va', <- Vs; lra|]. rewrite Va' in Vq.
    assert (Vq' : B2R (@n_sqrt _ N (b32_add (b32_mul x x) (b32_Z 1))) = z).
    { unfold N. rewrite Vq. set (k := mag radix2 z : Z). assert (Kz : bpow radix2 (k - 1) <= Rabs z < bpow radix2 k).
      { unfold k. destruct (mag radix2 z) as [k' Hk]. simpl. apply Hk. lra. }
      rewrite Rabs_pos_eq in Kz by lra.
      assert (Hk : (0 < k)%Z). { apply (lt_bpow radix2). apply Rle_lt_trans with (2 := proj2 Kz). simpl. lra. }
      apply (sqrt_sqr_eq 24 (-149) ltac:(lia) (fun x => negb (Z.even x)) z k Fz Kz); lia. }
    split; [exact Fq | exact Vq'].
  Qed.
End Past.

Section Lost.
  Variable L : libm.
  Let N : Num b32 := Num_B32 L.
  Variables (Nm e : b32).
  Hypothesis FN : is_finite Nm = true.
  Hypothesis Fe : is_finite e = true.
  Hypothesis He : 0 < B2R e.
  Hypothesis HN : Rabs (B2R Nm) <= IZR (2 ^ 120).
  Let x : b32 := @n_div _ N (@n_mul _ N (@n_Z _ N 2) Nm) e.
  Let sum : b32 := @n_add _ N x (@n_sqrt _ N (@n_add _ N (@n_mul _ N x x) (@n_Z _ N 1))).

  Lemma future_kept : IZR (2 ^ 12) * B2R e <= B2R Nm <= IZR (2 ^ 59) * B2R e ->
    exists y : b32, @hypb_guess _ N Nm e = m_log L y /\ is_finite y = true /\ B2R y = 2 * rnd (2 * B2R Nm / B2R e).
  Proof using FN Fe He HN.
    intro Hr. rewrite <- (Rmult_1_l (B2R Nm)) in Hr.
    destruct (x_val L Nm e FN Fe He HN 1 (or_introl eq_refl) Hr) as [Fx [Vx [X1 X2]]].
    destruct (root_val L Nm e FN Fe He HN 1 (or_introl eq_refl) Hr) as [Fq Vq].
    rewrite Rmult_1_l in X1, X2, Vq. exists sum. split; [reflexivity|].
    assert (Bt : 0 < IZR (2 ^ (12 + 1))) by (apply IZR_lt; reflexivity).
    assert (Bk : 2 * IZR (2 ^ (59 + 1)) <= IZR (2 ^ 127)) by (rewrite <- mult_IZR; apply IZR_le; lia).
    destruct (add_exact _ _ Fx Fq) as [Vt Ft]; [rewrite Vq, Rabs_pos_eq; lra|].
    split; [exact Ft|]. unfold sum. etransitivity; [exact Vt|]. rewrite Vq, Vx.
    replace (rnd (2 * B2R Nm / B2R e) + rnd (2 * B2R Nm / B2R e)) with (2 * rnd (2 * B2R Nm / B2R e)) by ring.
    apply rnd_id. apply (double_format 24 (-149) ltac:(lia) (fun x => negb (Z.even x))). rewrite <- Vx. apply F32_B2R.
  Qed.

  Hypothesis Hr : - (IZR (2 ^ 59) * B2R e) <= B2R Nm <= - (IZR (2 ^ 12) * B2R e).
  Lemma sum_zero : is_finite sum = true /\ B2R sum = 0.
  Proof using All.
    assert (Hr' : IZR (2 ^ 12) * B2R e <= -1 * B2R Nm <= IZR (2 ^ 59) * B2R e) by lra.
    destruct (x_val L Nm e FN Fe He HN (-1) (or_intror eq_refl) Hr') as [Fx [Vx [X1 X2]]].
    destruct (root_val L Nm e FN Fe He HN (-1) (or_intror eq_refl) Hr') as [Fq Vq].
    destruct (add_exact _ _ Fx Fq) as [Vt Ft].
    { rewrite Vq. replace (_ + _) with 0 by ring. rewrite Rabs_R0. apply IZR_le. lia. }
    split; [exact Ft|]. unfold sum. etransitivity; [exact Vt|]. rewrite Vq. replace (_ + _) with 0 by ring. apply rnd_id, F32_0.
  Qed.

  Hypothesis Hlog : forall s, m_log L (B754_zero s) = B754_infinity true.
  Hypothesis Hsinh : m_sinh L (B754_infinity true) = B754_infinity true.
  Lemma guess_lost : @hypb_guess _ N Nm e = B754_infinity true.
  Proof using All.
    change (@hypb_guess _ N Nm e) with (m_log L sum). destruct sum_zero as [F Z].
    destruct sum as [s | s | | s m k B]; try discriminate F; [apply Hlog|].
    exfalso. apply (F2R_neq_0 radix2 (Float radix2 (cond_Zopp s (Z.pos m)) k)); [destruct s; discriminate | exact Z].
  Qed.
  Lemma past_lost (tol : b32) (max_iter : Z) : 
    (exists prev, @hypb_run _ N Nm e tol max_iter = Some (0%Z, B754_infinity true, prev)) /\
    @solve_kepler_hypb _ N Nm e tol max_iter = B754_infinity true.
  Proof using All.
    assert (Kn : @kepler_equ_hypb _ N (B754_infinity true) e Nm = B754_nan).
    { change (b32_sub (b32_sub (b32_mul e (m_sinh L (B754_infinity true))) (B754_infinity true)) Nm = B754_nan). rewrite Hsinh.
      destruct e as [s | s | | s m k B]; try discriminate Fe; [simpl in He; lra|].
      destruct s; [exfalso; revert He; apply Rle_not_lt; apply F2R_le_0; discriminate|].
      destruct Nm; try discriminate FN; reflexivity. }
    assert (G : exists prev, @hypb_run _ N Nm e tol max_iter = Some (0%Z, B754_infinity true, prev)).
    { destruct (hypb_run_char (N := N) Nm e tol max_iter) as [k [_ [H [Ht _]]]]. cbv zeta in *.
      assert (k = 0%nat) as ->.
      { destruct k as [|k]; [reflexivity|]. exfalso. specialize (Ht 0%nat ltac:(lia)). 
        change (@exceeds _ N (@kepler_equ_hypb _ N (@hypb_guess _ N Nm e) e Nm) tol = true) in Ht. rewrite guess_lost, Kn in Ht. destruct tol; discriminate Ht. }
      eexists. rewrite <- guess_lost at 1. exact H. }
    split; [exact G|]. destruct G as [prev G]. unfold solve_kepler_hypb. rewrite G. reflexivity.
  Qed.
End Lost.
