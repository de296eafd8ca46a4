(** * B32Facts: the stopping tests of the Newton loops in single precision. *)
From Coq Require Import ZArith Reals Lra Lia Psatz Bool List.
From Flocq Require Import Core IEEE754.BinarySingleNaN.
From Verif Require Import Num NumB32 KepEqu LoopFacts B32Lib.
Local Open Scope R_scope.

Section Libm.
  Variable L : libm.

  Definition tol : b32 := b32_dec 1 1000000.

  Lemma tol_finite : is_finite tol = true.
  Proof using. vm_compute. reflexivity. Qed.

  Lemma tol_value : B2R tol = 8796093 / 8796093022208.
  Proof using.
    rewrite <- SF2R_B2SF.
    replace (B2SF tol) with (SpecFloat.S754_finite false 8796093 (-43)) by (vm_compute; reflexivity).
    unfold SF2R, F2R. simpl. lra.
  Qed.

  Definition two_tol : b32 := b32_mul (b32_Z 2) tol.

  Lemma two_tol_finite : is_finite two_tol = true.
  Proof using. vm_compute. reflexivity. Qed.

  Lemma two_tol_value : B2R two_tol = 8796093 / 4398046511104.
  Proof using.
    rewrite <- SF2R_B2SF.
    replace (B2SF two_tol) with (SpecFloat.S754_finite false 8796093 (-42)) by (vm_compute; reflexivity).
    unfold SF2R, F2R. simpl. lra.
  Qed.

  (** the largest finite number is below 2^128 *)
  Lemma finite_bound (x : b32) : Rabs (B2R x) <= IZR (2 ^ 128) - IZR (2 ^ 104).
  Proof using.
    pose proof (abs_B2R_le_emax_minus_prec 24 128 _ x) as H.
    replace (bpow radix2 128 - bpow radix2 (128 - 24)) with (IZR (2 ^ 128) - IZR (2 ^ 104)) in H
      by reflexivity.
    exact H.
  Qed.

  Lemma big_absorb (x : b32) : 
    is_finite x = true -> 64 <= B2R x \/ B2R x < -64 -> b32_add x two_tol = x.
  Proof using.
    intros Hx H.
    pose proof (Bplus_correct 24 128 _ _ mode_NE x two_tol Hx two_tol_finite) as K.
    change (round radix2 (SpecFloat.fexp 24 128) (round_mode mode_NE) (B2R x + B2R two_tol))
      with (rnd (B2R x + B2R two_tol)) in K.
    rewrite absorb in K; [| apply F32_B2R | rewrite two_tol_value; lra | exact H].
    rewrite Rlt_bool_true in K by (apply abs_B2R_lt_emax).
    destruct K as [K1 [K2 _]].
    apply B2R_inj.
    - apply is_finite_strict_B2R. fold b32_add. unfold b32_add. rewrite K1. lra.
    - apply is_finite_strict_B2R. lra.
    - exact K1.
  Qed.

  Lemma sub_self (x : b32) : is_finite x = true -> B2R (b32_sub x x) = 0 /\ is_finite (b32_sub x x) = true.
  Proof using.
    intro Hx. destruct (sub_exact x x Hx Hx) as [K1 K2].
    - replace (B2R x - B2R x) with 0 by ring. rewrite Rabs_R0. apply IZR_le. lia.
    - split; [| exact K2]. rewrite K1. replace (B2R x - B2R x) with 0 by ring.
      apply rnd_id, F32_0.
  Qed.

  Definition moving (x : b32) : bool :=
    (is_finite x && Rle_bool (-64) (B2R x) && Rlt_bool (B2R x) 64)%bool.

  Lemma first_test (x : b32) :
    @exceeds _ (Num_B32 L) (b32_sub x (b32_add x two_tol)) tol = moving x.
  Proof using.
    unfold moving. destruct (is_finite x) eqn:Hx.
    2: { simpl. destruct x as [s | s | | s m e H]; try discriminate Hx; try destruct s; vm_compute; reflexivity. }
    simpl. change (Bltb tol (Babs (b32_sub x (b32_add x two_tol)))
      = (Rle_bool (-64) (B2R x) && Rlt_bool (B2R x) 64)%bool).
    destruct (Rle_bool_spec (-64) (B2R x)) as [A | A].
    2: { rewrite big_absorb by (auto; lra). destruct (sub_self x Hx) as [K1 K2].
         rewrite lt_exact by (rewrite ?is_finite_Babs; auto using tol_finite).
         rewrite B2R_Babs, K1, tol_value, Rabs_R0. apply Rlt_bool_false. lra. }
    destruct (Rlt_bool_spec (B2R x) 64) as [B | B].
    2: { rewrite big_absorb by (auto; lra). destruct (sub_self x Hx) as [K1 K2].
         rewrite lt_exact by (rewrite ?is_finite_Babs; auto using tol_finite).
         rewrite B2R_Babs, K1, tol_value, Rabs_R0. apply Rlt_bool_false. lra. }
    pose proof two_tol_value as TT.
    assert (Big : 200 <= IZR (2 ^ 127)) by (apply IZR_le; lia).
    destruct (add_exact x two_tol Hx two_tol_finite) as [K1 K2].
    { rewrite TT. apply Rabs_le. lra. }
    pose proof (moves (B2R x) (B2R two_tol) (F32_B2R x) ltac:(rewrite TT; lra)
                  ltac:(rewrite TT; lra) ltac:(lra)) as M.
    assert (F65 : F32 65).
    { replace 65 with (IZR 65 * bpow radix2 0) by (simpl; lra). apply F32_scaled; simpl; lia. }
    assert (U : rnd (B2R x + B2R two_tol) <= 65) by (apply rnd_le; [exact F65 | rewrite TT; lra]).
    destruct (sub_exact x (b32_add x two_tol) Hx K2) as [K3 K4].
    { rewrite K1. apply Rabs_le. lra. }
    rewrite lt_exact by (rewrite ?is_finite_Babs; auto using tol_finite).
    rewrite B2R_Babs, K3, K1, tol_value. apply Rlt_bool_true.
    assert (FD : F32 (- (17 / 16777216))).
    { apply F32_opp. replace (17 / 16777216) with (IZR 17 * bpow radix2 (-24)) by (simpl; lra).
      apply F32_scaled; simpl; lia. }
    pose proof (rnd_le (B2R x - rnd (B2R x + B2R two_tol)) _ FD ltac:(lra)) as R1.
    rewrite Rabs_left by lra. lra.
  Qed.

  Lemma elps_test_B32 (M e : b32) (mi : Z) :
    @elps_cond _ (Num_B32 L) (@default_tol _ (Num_B32 L)) mi
      (@elps_init _ (Num_B32 L) M e (@default_tol _ (Num_B32 L)))
    = (moving (@elps_guess _ (Num_B32 L) M e) && Z.ltb 0 mi)%bool.
  Proof using. rewrite <- first_test. reflexivity. Qed.

  (** A difference of two numbers above 32 (one of them at least 32) is a multiple of 2^-19. *)
End Libm.
