(** * SqrtSqr: in binary floating point the rounded root of the rounded square of z is not below |z| *)
From Coq Require Import ZArith Reals Lra Lia Psatz.
From Flocq Require Import Core.
Local Open Scope R_scope.

Section SqrtSqr.
  Variables (prec emin : Z).
  Hypothesis Hp : (1 < prec)%Z.
  Let fx : Z -> Z := FLT_exp emin prec.
  Variable choice : Z -> bool.
  Let rd (x : R) : R := round radix2 fx (Znearest choice) x.
  Instance prec_gt : Prec_gt_0 prec. Proof using Hp. unfold Prec_gt_0. lia. Qed.
  Let vfx : Valid_exp fx := FLT_exp_valid emin prec.
  Let mfx : Monotone_exp fx := FLT_exp_monotone emin prec.

  Lemma sqrt_sqr_pos (z : R) (e : Z) : generic_format radix2 fx z -> bpow radix2 (e - 1) <= z < bpow radix2 e ->
    (emin <= 2 * e - 1 - prec)%Z -> (emin <= e - prec)%Z -> z <= rd (sqrt (rd (z * z))).
  Proof using All.
    intros Fz B He1 He2. pose proof (bpow_gt_0 radix2 (e - 1)) as P1.
    assert (Hz : 0 < z) by lra.
    assert (Mz : mag radix2 z = e :> Z) by (apply mag_unique; rewrite Rabs_pos_eq by lra; exact B).
    assert (Ce : fx e = (e - prec)%Z) by (unfold fx, FLT_exp; lia).
    set (d := bpow radix2 (e - prec)). pose proof (bpow_gt_0 radix2 (e - prec)) as Pd. fold d in Pd.
    assert (Uz : ulp radix2 fx z = d) by (rewrite ulp_neq_0 by lra; unfold cexp; rewrite Mz, Ce; reflexivity).
    destruct (Req_dec z (bpow radix2 (e - 1))) as [Q | Q].
    - assert (rd (z * z) = z * z) as ->.
      { apply round_generic; [apply valid_rnd_N |]. rewrite Q, <- bpow_plus. apply generic_format_bpow. unfold fx, FLT_exp. lia. }
      rewrite sqrt_square by lra. right. symmetry. apply round_generic; [apply valid_rnd_N | exact Fz].
    - assert (Pz : pred radix2 fx z = z - d).
      { rewrite pred_eq_pos by lra. unfold pred_pos. rewrite Mz, Req_bool_false by exact Q. rewrite Uz. reflexivity. }
      assert (Zd : bpow radix2 (e - 1) + d <= z).
      { assert (K : bpow radix2 (e - 1) <= pred radix2 fx z).
        { apply pred_ge_gt; [exact vfx | | exact Fz | lra]. apply generic_format_bpow. unfold fx, FLT_exp. lia. }
        rewrite Pz in K. lra. }
      apply round_N_ge_midp; [exact vfx | exact Fz |]. rewrite Pz.
      replace ((z + (z - d)) / 2) with (z - d / 2) by field.
      assert (Zd2 : 0 <= z - d / 2) by lra. rewrite <- (sqrt_square (z - d / 2)) by exact Zd2. apply sqrt_lt_1_alt. split; [nra |].
      assert (Hzz : 0 < z * z) by nra.
      assert (Uzz : ulp radix2 fx (z * z) <= d * bpow radix2 e).
      { unfold d. rewrite <- bpow_plus. rewrite ulp_neq_0 by lra. apply bpow_le. unfold cexp.
        assert (M : (mag radix2 (z * z) <= 2 * e)%Z).
        { apply mag_le_bpow; [lra |]. rewrite Rabs_pos_eq by lra. replace (2 * e)%Z with (e + e)%Z by lia. rewrite bpow_plus. nra. }
        unfold fx, FLT_exp. lia. }
      pose proof (error_le_half_ulp radix2 fx choice (z * z)) as E. apply Rabs_le_inv in E. fold (rd (z * z)) in E.
      assert (Be : bpow radix2 e = 2 * bpow radix2 (e - 1)).
      { replace e with (e - 1 + 1)%Z at 1 by lia. rewrite bpow_plus. simpl. lra. }
      rewrite Be in Uzz. set (b := bpow radix2 (e - 1)) in *. nra.
  Qed.

  (** the same with a larger sum under the root and either sign *)
  Lemma sqrt_sqr (z s : R) (e : Z) : generic_format radix2 fx z -> bpow radix2 (e - 1) <= Rabs z < bpow radix2 e ->
    (emin <= 2 * e - 1 - prec)%Z -> (emin <= e - prec)%Z -> rd (z * z) <= s -> Rabs z <= rd (sqrt s).
  Proof using All.
    intros Fz B H1 H2 S. apply Rle_trans with (rd (sqrt (rd (Rabs z * Rabs z)))).
    - apply sqrt_sqr_pos with e; try assumption. apply generic_format_abs. exact Fz.
    - apply round_le; [exact vfx | apply valid_rnd_N |]. apply sqrt_le_1_alt.
      rewrite <- Rabs_mult, Rabs_pos_eq by nra. exact S.
  Qed.
End SqrtSqr.
