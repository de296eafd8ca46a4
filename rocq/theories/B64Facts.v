(** * B64Facts: the stopping tests of the Newton loops in double precision. *)
From Coq Require Import ZArith Reals Lra Lia Psatz Bool List.
From Flocq Require Import Core IEEE754.BinarySingleNaN.
From Verif Require Import Num NumB64 KepEqu LoopFacts B64Lib.
Local Open Scope R_scope.

Section Libm.
  Variable L : libm64.

  Definition tol : b64 := b64_dec 1 1000000.

  Lemma tol_finite : is_finite tol = true.
  Proof using. vm_compute. reflexivity. Qed.

  Lemma tol_value : B2R tol = 4722366482869645 / 4722366482869645213696.
  Proof using.
    rewrite <- SF2R_B2SF.
    replace (B2SF tol) with (SpecFloat.S754_finite false 4722366482869645 (-72)) by (vm_compute; reflexivity).
    unfold SF2R, F2R. simpl. lra.
  Qed.

  Definition two_tol : b64 := b64_mul (b64_Z 2) tol.

  Lemma two_tol_finite : is_finite two_tol = true.
  Proof using. vm_compute. reflexivity. Qed.

  Lemma two_tol_value : B2R two_tol = 4722366482869645 / 2361183241434822606848.
  Proof using.
    rewrite <- SF2R_B2SF.
    replace (B2SF two_tol) with (SpecFloat.S754_finite false 4722366482869645 (-71)) by (vm_compute; reflexivity).
    unfold SF2R, F2R. simpl. lra.
  Qed.

  Lemma big_absorb (x : b64) : 
    is_finite x = true -> 34359738368 <= B2R x \/ B2R x < -34359738368 -> b64_add x two_tol = x.
  Proof using.
    intros Hx H.
    pose proof (Bplus_correct 53 1024 _ _ mode_NE x two_tol Hx two_tol_finite) as K.
    change (round radix2 (SpecFloat.fexp 53 1024) (round_mode mode_NE) (B2R x + B2R two_tol))
      with (rnd (B2R x + B2R two_tol)) in K.
    rewrite absorb in K; [| apply F64_B2R | rewrite two_tol_value; lra | exact H].
    rewrite Rlt_bool_true in K by (apply abs_B2R_lt_emax).
    destruct K as [K1 [K2 _]].
    apply B2R_inj.
    - apply is_finite_strict_B2R. fold b64_add. unfold b64_add. rewrite K1. lra.
    - apply is_finite_strict_B2R. lra.
    - exact K1.
  Qed.

  Lemma sub_self (x : b64) : is_finite x = true -> B2R (b64_sub x x) = 0 /\ is_finite (b64_sub x x) = true.
  Proof using.
    intro Hx. destruct (sub_exact x x Hx Hx) as [K1 K2].
    - replace (B2R x - B2R x) with 0 by ring. rewrite Rabs_R0. apply IZR_le. lia.
    - split; [| exact K2]. rewrite K1. replace (B2R x - B2R x) with 0 by ring.
      apply rnd_id, F64_0.
  Qed.

  Definition moving (x : b64) : bool :=
    (is_finite x && Rle_bool (-34359738368) (B2R x) && Rlt_bool (B2R x) 34359738368)%bool.

  Lemma first_test (x : b64) :
    @exceeds _ (Num_B64 L) (b64_sub x (b64_add x two_tol)) tol = moving x.
  Proof using.
    unfold moving. destruct (is_finite x) eqn:Hx.
    2: { simpl. destruct x as [s | s | | s m e H]; try discriminate Hx; try destruct s; vm_compute; reflexivity. }
    simpl. change (Bltb tol (Babs (b64_sub x (b64_add x two_tol)))
      = (Rle_bool (-34359738368) (B2R x) && Rlt_bool (B2R x) 34359738368)%bool).
    destruct (Rle_bool_spec (-34359738368) (B2R x)) as [A | A].
    2: { rewrite big_absorb by (auto; lra). destruct (sub_self x Hx) as [K1 K2].
         rewrite lt_exact by (rewrite ?is_finite_Babs; auto using tol_finite).
         rewrite B2R_Babs, K1, tol_value, Rabs_R0. apply Rlt_bool_false. lra. }
    destruct (Rlt_bool_spec (B2R x) 34359738368) as [B | B].
    2: { rewrite big_absorb by (auto; lra). destruct (sub_self x Hx) as [K1 K2].
         rewrite lt_exact by (rewrite ?is_finite_Babs; auto using tol_finite).
         rewrite B2R_Babs, K1, tol_value, Rabs_R0. apply Rlt_bool_false. lra. }
    pose proof two_tol_value as TT.
    assert (Big : 200000000000 <= IZR (2 ^ 1023)) by (apply IZR_le; lia).
    destruct (add_exact x two_tol Hx two_tol_finite) as [K1 K2].
    { rewrite TT. apply Rabs_le. lra. }
    pose proof (moves (B2R x) (B2R two_tol) (F64_B2R x) ltac:(rewrite TT; lra)
                  ltac:(rewrite TT; lra) ltac:(lra)) as M.
    assert (F65 : F64 34359738369).
    { replace 34359738369 with (IZR 34359738369 * bpow radix2 0) by (simpl; lra). apply F64_scaled; simpl; lia. }
    assert (U : rnd (B2R x + B2R two_tol) <= 34359738369) by (apply rnd_le; [exact F65 | rewrite TT; lra]).
    destruct (sub_exact x (b64_add x two_tol) Hx K2) as [K3 K4].
    { rewrite K1. apply Rabs_le. lra. }
    rewrite lt_exact by (rewrite ?is_finite_Babs; auto using tol_finite).
    rewrite B2R_Babs, K3, K1, tol_value. apply Rlt_bool_true.
    assert (FD : F64 (- (17 / 16777216))).
    { apply F64_opp. replace (17 / 16777216) with (IZR 17 * bpow radix2 (-24)) by (simpl; lra).
      apply F64_scaled; simpl; lia. }
    pose proof (rnd_le (B2R x - rnd (B2R x + B2R two_tol)) _ FD ltac:(lra)) as R1.
    rewrite Rabs_left by lra. lra.
  Qed.

  Lemma elps_test_B64 (M e : b64) (mi : Z) :
    @elps_cond _ (Num_B64 L) (@default_tol _ (Num_B64 L)) mi
      (@elps_init _ (Num_B64 L) M e (@default_tol _ (Num_B64 L)))
    = (moving (@elps_guess _ (Num_B64 L) M e) && Z.ltb 0 mi)%bool.
  Proof using. rewrite <- first_test. reflexivity. Qed.

End Libm.
