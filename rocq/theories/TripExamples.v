(** * TripExamples: one computed period that does not count as a revolution, and cases of C103 *)
From Coq Require Import ZArith Reals Lra Lia.
From Flocq Require Import Core IEEE754.BinarySingleNaN.
From Verif Require Import Num NumR NumB32 NumB64 SpecFl SpecFlV OrbIntegrals KepEqu PathCheck B64Rel B32Rel PathFacts.
Local Open Scope R_scope.

Lemma whole64 (z : Z) : (0 < z < 2 ^ 20)%Z -> good64 100 (b64_Z z) /\ B2R (b64_Z z) = IZR z.
Proof.
  intro Z. destruct (B64Rel.Fl_int z ltac:(lia)) as [F E]. assert (V : B2R (b64_Z z) = IZR z).
  { destruct E as [t [E [L1 L2]]]. simpl pow in L1, L2. rewrite Rinv_1 in L1. replace t with 1 in E by lra. lra. }
  split; [split; [exact F |] | exact V]. right. rewrite V. rewrite Rabs_pos_eq by (apply IZR_le; lia). split.
  - apply Rle_trans with 1; [| apply IZR_le; lia]. rewrite <- Rinv_1. apply Rinv_le_contravar; [lra | apply IZR_le; vm_compute; discriminate].
  - apply IZR_le. lia.
Qed.
Lemma whole32 (z : Z) : (0 < z < 2 ^ 20)%Z -> good32 20 (b32_Z z) /\ B2R (b32_Z z) = IZR z.
Proof.
  intro Z. destruct (B32Rel.Fl_int z ltac:(lia)) as [F E]. assert (V : B2R (b32_Z z) = IZR z).
  { destruct E as [t [E [L1 L2]]]. simpl pow in L1, L2. rewrite Rinv_1 in L1. replace t with 1 in E by lra. lra. }
  split; [split; [exact F |] | exact V]. right. rewrite V. rewrite Rabs_pos_eq by (apply IZR_le; lia). split.
  - apply Rle_trans with 1; [| apply IZR_le; lia]. rewrite <- Rinv_1. apply Rinv_le_contravar; [lra | apply IZR_le; vm_compute; discriminate].
  - apply IZR_le. lia.
Qed.

(** in exact arithmetic [n] periods count as [n] revolutions *)
Lemma exact_count (rp r1 r2 mu : R) (n : Z) : 0 < rp -> 0 < r1 -> 0 < r2 -> 0 < mu ->
  nmax_by_periapsis rp r1 r2 (IZR n * (2 * PI * sqrt (((Rmax r1 r2 + rp) / 2) ^ 3 / mu))) mu = IZR n.
Proof.
  intros Hp H1 H2 Hm. set (P := 2 * PI * sqrt (((Rmax r1 r2 + rp) / 2) ^ 3 / mu)).
  assert (PP : 0 < P).
  { pose proof PI_RGT_0. pose proof (Rmax_l r1 r2). apply Rmult_lt_0_compat; [lra |]. apply sqrt_lt_R0.
    apply Rdiv_lt_0_compat; [apply pow_lt; lra | exact Hm]. }
  destruct (nmax_is_largest rp r1 r2 (IZR n * P) mu Hp H1 H2) as [[k Ek] H]; try assumption.
  fold P in H. rewrite Ek in *. apply f_equal. apply Z.le_antisymm.
  - apply le_IZR. apply Rmult_le_reg_r with P; [exact PP |]. apply (H k). lra.
  - apply le_IZR. apply (H n). lra.
Qed.

Lemma lost_double (L : libm64) : let a := b64_Z 6601 in let mu := b64_Z 398600 in
  B2SF (@nmax_by_periapsis _ (Num_B64 L) a a a (@orb_period _ (Num_B64 L) a mu) mu) = SpecFloat.S754_zero false.
Proof. vm_compute. reflexivity. Qed.
Lemma lost_single (L : libm) : let a := b32_Z 6600 in let mu := b32_Z 398600 in
  B2SF (@nmax_by_periapsis _ (Num_B32 L) a a a (@orb_period _ (Num_B32 L) a mu) mu) = SpecFloat.S754_zero false.
Proof. vm_compute. reflexivity. Qed.

Lemma zero_value (prec emax : Z) (x : binary_float prec emax) : B2SF x = SpecFloat.S754_zero false -> B2R x = 0.
Proof. intro H. rewrite <- SF2R_B2SF, H. reflexivity. Qed.

Lemma double_refuted : ~ exists L : libm64, forall a mu : b64, good64 100 a -> good64 100 mu -> 0 < B2R a -> 0 < B2R mu ->
  1 <= B2R (@nmax_by_periapsis _ (Num_B64 L) a a a (@orb_period _ (Num_B64 L) a mu) mu).
Proof.
  intros [L H]. destruct (whole64 6601 ltac:(lia)) as [Ga Va], (whole64 398600 ltac:(lia)) as [Gm Vm].
  specialize (H _ _ Ga Gm ltac:(rewrite Va; lra) ltac:(rewrite Vm; lra)).
  rewrite (zero_value _ _ _ (lost_double L)) in H. lra.
Qed.
Lemma single_refuted : ~ exists L : libm, forall a mu : b32, good32 20 a -> good32 20 mu -> 0 < B2R a -> 0 < B2R mu ->
  1 <= B2R (@nmax_by_periapsis _ (Num_B32 L) a a a (@orb_period _ (Num_B32 L) a mu) mu).
Proof.
  intros [L H]. destruct (whole32 6600 ltac:(lia)) as [Ga Va], (whole32 398600 ltac:(lia)) as [Gm Vm].
  specialize (H _ _ Ga Gm ltac:(rewrite Va; lra) ltac:(rewrite Vm; lra)).
  rewrite (zero_value _ _ _ (lost_single L)) in H. lra.
Qed.
