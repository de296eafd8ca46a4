(** * SqrtSqr2: in binary floating point the rounded root of the rounded square of z is |z|, and a large number absorbs 1 *)
From Coq Require Import ZArith Reals Lra Lia Psatz.
From Flocq Require Import Core.
From Verif Require Import SqrtSqr.
Local Open Scope R_scope.

Section SqrtSqr2.
  Variables (prec emin : Z).
  Hypothesis Hp : (1 < prec)%Z.
  Let fx : Z -> Z := FLT_exp emin prec.
  Variable choice : Z -> bool.
  Let rd (x : R) : R := round radix2 fx (Znearest choice) x.
  Instance prec_gt2 : Prec_gt_0 prec. Proof using Hp. unfold Prec_gt_0. lia. Qed.
  Let vfx : Valid_exp fx := FLT_exp_valid emin prec.
  Let mfx : Monotone_exp fx := FLT_exp_monotone emin prec.

  Lemma sqrt_sqr_eq (z : R) (e : Z) : generic_format radix2 fx z -> bpow radix2 (e - 1) <= z < bpow radix2 e ->
    (emin <= 2 * e - 1 - prec)%Z -> (emin <= e - prec)%Z -> rd (sqrt (rd (z * z))) = z.
  Proof using All.
    intros Fz B He1 He2. apply Rle_antisym; [|exact (sqrt_sqr_pos prec emin Hp choice z e Fz B He1 He2)].
    pose proof (bpow_gt_0 radix2 (e - 1)) as P1. assert (Hz : 0 < z) by lra.
    assert (Mz : mag radix2 z = e :> Z) by (apply mag_unique; rewrite Rabs_pos_eq by lra; exact B).
    set (d := bpow radix2 (e - prec)). pose proof (bpow_gt_0 radix2 (e - prec)) as Pd. fold d in Pd.
    assert (Uz : ulp radix2 fx z = d) by (rewrite ulp_neq_0 by lra; unfold cexp; rewrite Mz; unfold fx, FLT_exp, d; f_equal; lia).
    apply round_N_le_midp; [exact vfx | exact Fz |]. rewrite succ_eq_pos, Uz by lra.
    replace ((z + (z + d)) / 2) with (z + d / 2) by field.
    rewrite <- (sqrt_pow2 (z + d / 2)) by lra. apply sqrt_lt_1_alt.
    assert (Q : Rabs (rd (z * z) - z * z) <= / 2 * ulp radix2 fx (z * z)) by (apply error_le_half_ulp; exact vfx).
    assert (U : ulp radix2 fx (z * z) <= 2 * (bpow radix2 (e - 1) * d)).
    { apply Rle_trans with (bpow radix2 (2 * e - prec)).
      - rewrite ulp_neq_0 by nra. apply bpow_le. unfold cexp, fx, FLT_exp.
        assert (mag radix2 (z * z) <= 2 * e)%Z; [|lia]. apply mag_le_bpow; [nra|]. rewrite Rabs_pos_eq by nra.
        replace (2 * e)%Z with (e + e)%Z by lia. rewrite bpow_plus. nra.
      - right. unfold d. replace 2 with (bpow radix2 1) by (simpl; lra). rewrite <- !bpow_plus. f_equal. lia. }
    assert (W : bpow radix2 (e - 1) * d <= z * d) by (apply Rmult_le_compat_r; lra).
    apply Rabs_le_inv in Q. split.
    - apply round_ge_generic; [exact vfx | apply valid_rnd_N | apply generic_format_0 | nra].
    - nra.
  Qed.

  Lemma absorb_one (y : R) : generic_format radix2 fx y -> bpow radix2 (prec + 1) <= y -> rd (y + 1) = y.
  Proof using All.
    intros Fy B. pose proof (bpow_gt_0 radix2 (prec + 1)) as P. apply Rle_antisym.
    - apply round_N_le_midp; [exact vfx | exact Fy |]. rewrite succ_eq_pos by lra.
      assert (U : 4 <= ulp radix2 fx y).
      { replace 4 with (bpow radix2 2) by (simpl; lra). rewrite ulp_neq_0 by lra. apply bpow_le. unfold cexp, fx, FLT_exp.
        assert (prec + 2 <= mag radix2 y)%Z; [|lia]. apply mag_ge_bpow. rewrite Rabs_pos_eq by lra.
        replace (prec + 2 - 1)%Z with (prec + 1)%Z by lia. exact B. }
      lra.
    - apply round_ge_generic; [exact vfx | apply valid_rnd_N | exact Fy | lra].
  Qed.

  Lemma double_format (y : R) : generic_format radix2 fx y -> generic_format radix2 fx (2 * y).
  Proof using All.
    intro F. apply FLT_format_generic in F; [|exact prec_gt2]. destruct F as [f E1 E2 E3].
    apply generic_format_FLT. exists (Float radix2 (Fnum f) (Fexp f + 1)); cbn [Fnum Fexp]; [|exact E2|lia].
    rewrite E1. unfold F2R. cbn [Fnum Fexp]. rewrite bpow_plus. change (bpow radix2 1) with 2. ring.
  Qed.
End SqrtSqr2.
