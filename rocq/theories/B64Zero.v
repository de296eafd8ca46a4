(** * B64Zero: [kepler] and [dxdx0] at time zero in double precision (proofs for C95) *)
From Coq Require Import ZArith Reals Lra Lia Psatz Bool List.
From Coquelicot Require Import Coquelicot.
From Flocq Require Import Core IEEE754.BinarySingleNaN.
From Verif Require Import Num NumB64 NumR Spec SpecFl SpecFl64 SpecFlV SpecFlStm RLib RelLib RoundAn B64Lib B64Acc B64Rel B64An B64Geo B64Newton B64Fl.
From Verif Require Import OrbIntegrals Uniformulas Lagrange KepEqu LoopFacts StateTrans PropKepler B64Back.
Local Open Scope R_scope.

Definition zr (x : b64) : Prop := is_finite x = true /\ B2R x = 0.
Definition vl (x : b64) (r : R) : Prop := is_finite x = true /\ B2R x = r.
Definition nz (x : b64) : Prop := match x with B754_finite _ _ _ _ | B754_infinity _ => True | _ => False end.
Definition bd (k : Z) (x : b64) : Prop := is_finite x = true /\ Rabs (B2R x) <= IZR (2 ^ k).
Definition lw (k : Z) (x : b64) : Prop := / IZR (2 ^ k) <= Rabs (B2R x).

Lemma finite_val (s : bool) (m : positive) (e : Z) (B : _) : B2R (B754_finite s m e B : b64) <> 0.
Proof. apply (F2R_neq_0 radix2 (Float radix2 (cond_Zopp s (Z.pos m)) e)). destruct s; discriminate. Qed.
Lemma zr_inv (x : b64) : zr x -> exists s, x = B754_zero s.
Proof. intros [F Z]. destruct x as [s | s | | s m e B]; try discriminate F; [eauto | exfalso; exact (finite_val s m e B Z)]. Qed.
Lemma zr_zero (s : bool) : zr (B754_zero s). Proof. split; reflexivity. Qed.
Lemma nz_val (x : b64) : is_finite x = true -> B2R x <> 0 -> nz x.
Proof. intros F Z. destruct x; try discriminate F; simpl; [exact (Z eq_refl) | exact I]. Qed.
Lemma zr_mul_l (x y : b64) : zr x -> is_finite y = true -> zr (b64_mul x y).
Proof. intros Hx Fy. destruct (zr_inv x Hx) as [s ->]. destruct y; try discriminate Fy; apply zr_zero. Qed.
Lemma zr_mul_r (x y : b64) : is_finite x = true -> zr y -> zr (b64_mul x y).
Proof. intros Fx Hy. destruct (zr_inv y Hy) as [s ->]. destruct x; try discriminate Fx; apply zr_zero. Qed.
Lemma zr_add (x y : b64) : zr x -> zr y -> zr (b64_add x y).
Proof. intros Hx Hy. destruct (zr_inv x Hx) as [s ->]. destruct (zr_inv y Hy) as [s' ->]. destruct s, s'; apply zr_zero. Qed.
Lemma zr_sub (x y : b64) : zr x -> zr y -> zr (b64_sub x y).
Proof. intros Hx Hy. destruct (zr_inv x Hx) as [s ->]. destruct (zr_inv y Hy) as [s' ->]. destruct s, s'; apply zr_zero. Qed.
Lemma zr_neg (x : b64) : zr x -> zr (Bopp x).
Proof. intro Hx. destruct (zr_inv x Hx) as [s ->]. apply zr_zero. Qed.
Lemma zr_div (x y : b64) : zr x -> nz y -> zr (b64_div x y).
Proof. intros Hx Ny. destruct (zr_inv x Hx) as [s ->]. destruct y; try contradiction Ny; apply zr_zero. Qed.
Lemma vl_add_zr (x y : b64) (r : R) : vl x r -> zr y -> vl (b64_add x y) r.
Proof. intros [F V] Hy. destruct (zr_inv y Hy) as [s ->]. destruct x as [t | t | | t m e B]; try discriminate F; [destruct t, s; split; [reflexivity | exact V | reflexivity | exact V | reflexivity | exact V | reflexivity | exact V] | split; [reflexivity | exact V]]. Qed.
Lemma zr_add_vl (x y : b64) (r : R) : zr x -> vl y r -> vl (b64_add x y) r.
Proof. intros Hx [F V]. destruct (zr_inv x Hx) as [s ->]. destruct y as [t | t | | t m e B]; try discriminate F; [destruct t, s; split; [reflexivity | exact V | reflexivity | exact V | reflexivity | exact V | reflexivity | exact V] | split; [reflexivity | exact V]]. Qed.
Lemma vl_sub_zr (x y : b64) (r : R) : vl x r -> zr y -> vl (b64_sub x y) r.
Proof. intros [F V] Hy. destruct (zr_inv y Hy) as [s ->]. destruct x as [t | t | | t m e B]; try discriminate F; [destruct t, s; split; [reflexivity | exact V | reflexivity | exact V | reflexivity | exact V | reflexivity | exact V] | split; [reflexivity | exact V]]. Qed.
Lemma zr_same (x y : b64) : is_finite x = true -> is_finite y = true -> B2R x = B2R y -> zr (b64_sub x y).
Proof.
  intros Fx Fy E. destruct (sub_exact x y Fx Fy) as [V F].
  - rewrite E. unfold Rminus. rewrite Rplus_opp_r, Rabs_R0. apply IZR_le. lia.
  - split; [exact F|]. rewrite V, E. unfold Rminus. rewrite Rplus_opp_r. apply rnd_id, F64_0.
Qed.
Lemma vl_one : vl (b64_Z 1) 1.
Proof. destruct (int_val 1 ltac:(lia)) as [V F]. split; assumption. Qed.
Lemma zr_int0 : zr (b64_Z 0).
Proof. destruct (int_val 0 ltac:(lia)) as [V F]. split; assumption. Qed.
Lemma nz_int (n : Z) : (0 < n < 1000)%Z -> nz (b64_Z n).
Proof. intro H. destruct (int_val n ltac:(lia)) as [V F]. apply nz_val; [exact F|]. rewrite V. apply IZR_neq. lia. Qed.
Lemma one_mul (k x : b64) (r : R) : vl k 1 -> vl x r -> Rabs r <= IZR (2 ^ 1023) -> vl (b64_mul k x) r.
Proof.
  intros [Fk Vk] [Fx Vx] H. destruct (mul_exact k x Fk Fx) as [V F]; [rewrite Vk, Vx, Rmult_1_l; exact H|].
  split; [exact F|]. rewrite V, Vk, Rmult_1_l, Vx. apply rnd_id. rewrite <- Vx. apply F64_B2R.
Qed.
Lemma one_div (k x : b64) (r : R) : vl k 1 -> vl x r -> Rabs r <= IZR (2 ^ 1023) -> vl (b64_div x k) r.
Proof.
  intros [Fk Vk] [Fx Vx] H. destruct (div_exact x k Fx ltac:(lra)) as [V F]; [rewrite Vk, Vx, Rdiv_1; exact H|].
  split; [exact F|]. rewrite V, Vk, Rdiv_1, Vx. apply rnd_id. rewrite <- Vx. apply F64_B2R.
Qed.

Lemma P2 (k : Z) : (0 <= k)%Z -> 0 < IZR (2 ^ k).
Proof. intro H. apply IZR_lt. apply Z.pow_pos_nonneg; lia. Qed.
Lemma P2_add (j k : Z) : (0 <= j)%Z -> (0 <= k)%Z -> IZR (2 ^ j) * IZR (2 ^ k) = IZR (2 ^ (j + k)).
Proof. intros H H'. rewrite <- mult_IZR, Z.pow_add_r by lia. reflexivity. Qed.
Lemma P2_le (j k : Z) : (j <= k)%Z -> IZR (2 ^ j) <= IZR (2 ^ k).
Proof. intro H. apply IZR_le. apply Z.pow_le_mono_r; lia. Qed.
Lemma F_pow (k : Z) : (0 <= k <= 1023)%Z -> F64 (IZR (2 ^ k)).
Proof. intro H. change (2 ^ k)%Z with (Zpower radix2 k). rewrite IZR_Zpower by lia. apply generic_format_bpow. unfold fx, SpecFloat.fexp, SpecFloat.emin. lia. Qed.
Lemma F_inv (k : Z) : (0 <= k <= 1023 + 20)%Z -> F64 (/ IZR (2 ^ k)).
Proof. intro H. change (2 ^ k)%Z with (Zpower radix2 k). rewrite IZR_Zpower, <- bpow_opp by lia. apply generic_format_bpow. unfold fx, SpecFloat.fexp, SpecFloat.emin. lia. Qed.
Lemma rnd_up (k : Z) (r : R) : (0 <= k <= 1023)%Z -> Rabs r <= IZR (2 ^ k) -> Rabs (rnd r) <= IZR (2 ^ k).
Proof. intros Hk H. apply Rabs_le_inv in H. apply Rabs_le. split; [apply rnd_ge; [apply F64_opp, F_pow, Hk | lra] | apply rnd_le; [apply F_pow, Hk | lra]]. Qed.
Lemma rnd_low (k : Z) (r : R) : (0 <= k <= 1023 + 20)%Z -> / IZR (2 ^ k) <= Rabs r -> / IZR (2 ^ k) <= Rabs (rnd r).
Proof.
  intros Hk H. destruct (Rle_or_lt 0 r) as [P | P].
  - rewrite Rabs_pos_eq in H by exact P. apply Rle_trans with (2 := Rle_abs _). apply rnd_ge; [apply F_inv, Hk | exact H].
  - rewrite Rabs_left in H by exact P. rewrite <- Rabs_Ropp, <- rnd_opp. apply Rle_trans with (2 := Rle_abs _). apply rnd_ge; [apply F_inv, Hk | exact H].
Qed.
Lemma bd_fin (k : Z) (x : b64) : bd k x -> is_finite x = true. Proof. intros [F _]. exact F. Qed.
Lemma bd_mono (j k : Z) (x : b64) : bd j x -> (j <= k)%Z -> bd k x.
Proof. intros [F H] L. split; [exact F|]. apply Rle_trans with (1 := H). apply P2_le. exact L. Qed.
Lemma zr_bd (x : b64) : zr x -> bd 0 x.
Proof. intros [F Z]. split; [exact F|]. rewrite Z, Rabs_R0. change (IZR (2 ^ 0)) with 1. lra. Qed.
Lemma bd_mul (j k : Z) (x y : b64) : bd j x -> bd k y -> (0 <= j)%Z -> (0 <= k)%Z -> (j + k <= 1023)%Z -> bd (j + k) (b64_mul x y).
Proof.
  intros [Fx Hx] [Fy Hy] Pj Pk S. assert (B : Rabs (B2R x * B2R y) <= IZR (2 ^ (j + k))).
  { rewrite Rabs_mult, <- P2_add by assumption. apply Rmult_le_compat; auto using Rabs_pos. }
  destruct (mul_exact x y Fx Fy) as [V F]; [apply Rle_trans with (1 := B), P2_le, S|]. split; [exact F|]. rewrite V. apply rnd_up; [lia | exact B].
Qed.
Lemma bd_div (j k : Z) (x y : b64) : bd j x -> lw k y -> (0 <= j)%Z -> (0 <= k)%Z -> (j + k <= 1023)%Z -> bd (j + k) (b64_div x y).
Proof.
  intros [Fx Hx] Hy Pj Pk S. pose proof (Rinv_0_lt_compat _ (P2 k Pk)) as Ip. unfold lw in Hy. assert (Ny : B2R y <> 0) by (intro Z; rewrite Z, Rabs_R0 in Hy; lra).
  assert (B : Rabs (B2R x / B2R y) <= IZR (2 ^ (j + k))).
  { unfold Rdiv. rewrite Rabs_mult, Rabs_inv, <- P2_add by assumption. apply Rmult_le_compat; auto using Rabs_pos.
    - left. apply Rinv_0_lt_compat. lra.
    - rewrite <- (Rinv_inv (IZR (2 ^ k))). apply Rinv_le_contravar; assumption. }
  destruct (div_exact x y Fx Ny) as [V F]; [apply Rle_trans with (1 := B), P2_le, S|]. split; [exact F|]. rewrite V. apply rnd_up; [lia | exact B].
Qed.
Lemma bd_add (k : Z) (x y : b64) : bd k x -> bd k y -> (0 <= k < 1023)%Z -> bd (k + 1) (b64_add x y).
Proof.
  intros [Fx Hx] [Fy Hy] S. assert (B : Rabs (B2R x + B2R y) <= IZR (2 ^ (k + 1))).
  { apply Rle_trans with (1 := Rabs_triang _ _). rewrite <- P2_add by lia. change (IZR (2 ^ 1)) with 2. lra. }
  destruct (add_exact x y Fx Fy) as [V F]; [apply Rle_trans with (1 := B), P2_le; lia|]. split; [exact F|]. rewrite V. apply rnd_up; [lia | exact B].
Qed.
Lemma bd_sub (k : Z) (x y : b64) : bd k x -> bd k y -> (0 <= k < 1023)%Z -> bd (k + 1) (b64_sub x y).
Proof.
  intros [Fx Hx] [Fy Hy] S. assert (B : Rabs (B2R x - B2R y) <= IZR (2 ^ (k + 1))).
  { unfold Rminus. apply Rle_trans with (1 := Rabs_triang _ _). rewrite Rabs_Ropp, <- P2_add by lia. change (IZR (2 ^ 1)) with 2. lra. }
  destruct (sub_exact x y Fx Fy) as [V F]; [apply Rle_trans with (1 := B), P2_le; lia|]. split; [exact F|]. rewrite V. apply rnd_up; [lia | exact B].
Qed.
Lemma lw_mul (j k : Z) (x y : b64) : is_finite x = true -> is_finite y = true -> Rabs (B2R x * B2R y) <= IZR (2 ^ 1023) ->
  lw j x -> lw k y -> (0 <= j)%Z -> (0 <= k)%Z -> (j + k <= 1023 + 20)%Z -> lw (j + k) (b64_mul x y).
Proof.
  intros Fx Fy U Hx Hy Pj Pk S. destruct (mul_exact x y Fx Fy U) as [V F]. unfold lw. rewrite V. apply rnd_low; [lia|].
  rewrite Rabs_mult, <- P2_add, Rinv_mult by lia. apply Rmult_le_compat; try assumption; left; apply Rinv_0_lt_compat, P2; assumption.
Qed.
Lemma lw_nz (k : Z) (x : b64) : is_finite x = true -> lw k x -> (0 <= k)%Z -> nz x.
Proof. intros F H K. apply nz_val; [exact F|]. intro Z. unfold lw in H. rewrite Z, Rabs_R0 in H. pose proof (Rinv_0_lt_compat _ (P2 k K)). lra. Qed.
Lemma mul_nz (k : Z) (x y : b64) : is_finite x = true -> is_finite y = true -> (0 <= k <= 1023 + 20)%Z -> / IZR (2 ^ k) <= Rabs (B2R x * B2R y) ->
  nz (b64_mul x y) /\ (is_finite (b64_mul x y) = true -> lw k (b64_mul x y)).
Proof.
  intros Fx Fy K H. generalize (Bmult_correct 53 1024 _ _ mode_NE x y). fold b64_mul. change (round radix2 (SpecFloat.fexp 53 1024) (round_mode mode_NE) (B2R x * B2R y)) with (rnd (B2R x * B2R y)).
  destruct (Rlt_bool_spec (Rabs (rnd (B2R x * B2R y))) (bpow radix2 1024)) as [_ | _]; intro C.
  - destruct C as [V [F _]]. rewrite Fx, Fy in F. change (Bmult mode_NE x y) with (b64_mul x y) in V, F.
    assert (W : lw k (b64_mul x y)) by (unfold lw; rewrite V; apply rnd_low; assumption).
    split; [apply (lw_nz k _ F W); lia | intros _; exact W].
  - change (Bmult mode_NE x y) with (b64_mul x y) in C. destruct (b64_mul x y) as [s | s | | s m e B]; try discriminate C; split; try exact I; discriminate.
Qed.
Lemma mul_inf (x y : b64) : is_finite x = true -> nz x -> nz y -> is_finite y = false -> nz (b64_mul x y).
Proof. intros Fx Nx Ny Fy. destruct x; try contradiction Nx; try discriminate Fx. destruct y; try contradiction Ny; try discriminate Fy. exact I. Qed.
Lemma lw_sqrt (k : Z) (x : b64) : is_finite x = true -> 0 < B2R x -> lw k x -> (0 <= k <= 1023 + 20)%Z ->
  is_finite (b64_sqrt x) = true /\ lw k (b64_sqrt x) /\ 0 <= B2R (b64_sqrt x).
Proof.
  intros F P H K. destruct (sqrt_value x F P) as [V Fs]. change (@n_sqrt _ _ x) with (b64_sqrt x) in *. split; [exact Fs|]. unfold lw in *. rewrite V.
  assert (0 <= rnd (sqrt (B2R x))) by (apply rnd_ge; [apply F64_0 | apply sqrt_pos]). split; [|assumption].
  apply rnd_low; [exact K|]. rewrite Rabs_pos_eq by apply sqrt_pos. rewrite Rabs_pos_eq in H by lra. set (q := / IZR (2 ^ k)) in *.
  assert (Pq : 0 < q) by (apply Rinv_0_lt_compat, P2; lia).
  assert (Q1 : q <= 1). { unfold q. rewrite <- Rinv_1. apply Rinv_le_contravar; [lra|]. change 1 with (IZR (2 ^ 0)). apply P2_le. lia. }
  rewrite <- (sqrt_square q) by lra. apply sqrt_le_1_alt. apply Rle_trans with (2 := H). rewrite <- (Rmult_1_r q) at 3. apply Rmult_le_compat_l; lra.
Qed.
Lemma bd_sqrt (k : Z) (x : b64) : bd k x -> 0 < B2R x -> (0 <= k <= 1023)%Z -> bd k (b64_sqrt x).
Proof.
  intros [F H] P K. destruct (sqrt_value x F P) as [V Fs]. change (@n_sqrt _ _ x) with (b64_sqrt x) in *. split; [exact Fs|]. rewrite V. apply rnd_up; [exact K|].
  rewrite Rabs_pos_eq by apply sqrt_pos. rewrite Rabs_pos_eq in H by lra. assert (1 <= IZR (2 ^ k)) by (change 1 with (IZR (2 ^ 0)); apply P2_le; lia).
  rewrite <- (sqrt_square (IZR (2 ^ k))) by lra. apply sqrt_le_1_alt. apply Rle_trans with (1 := H). rewrite <- (Rmult_1_r (IZR (2 ^ k))) at 1. apply Rmult_le_compat_l; lra.
Qed.

Section Zero.
  Variable L : libm64.
  Let N : Num b64 := Num_B64 L.
  Hypothesis Hsin : forall s, d_sin L (B754_zero s) = B754_zero s.
  Hypothesis Hcos : forall s, d_cos L (B754_zero s) = b64_Z 1.
  Hypothesis Hsinh : forall s, d_sinh L (B754_zero s) = B754_zero s.
  Hypothesis Hcosh : forall s, d_cosh L (B754_zero s) = b64_Z 1.

  Lemma zr_sin (x : b64) : zr x -> zr (@n_sin _ N x).
  Proof using Hsin. intro H. destruct (zr_inv x H) as [s ->]. change (zr (d_sin L (B754_zero s))). rewrite Hsin. apply zr_zero. Qed.
  Lemma zr_sinh (x : b64) : zr x -> zr (@n_sinh _ N x).
  Proof using Hsinh. intro H. destruct (zr_inv x H) as [s ->]. change (zr (d_sinh L (B754_zero s))). rewrite Hsinh. apply zr_zero. Qed.
  Lemma vl_cos (x : b64) : zr x -> vl (@n_cos _ N x) 1.
  Proof using Hcos. intro H. destruct (zr_inv x H) as [s ->]. change (vl (d_cos L (B754_zero s)) 1). rewrite Hcos. apply vl_one. Qed.
  Lemma vl_cosh (x : b64) : zr x -> vl (@n_cosh _ N x) 1.
  Proof using Hcosh. intro H. destruct (zr_inv x H) as [s ->]. change (vl (d_cosh L (B754_zero s)) 1). rewrite Hcosh. apply vl_one. Qed.
  Lemma one_less (x : b64) : vl x 1 -> zr (b64_sub (b64_Z 1) x).
  Proof using. intros [F V]. destruct vl_one as [F1 V1]. apply zr_same; [exact F1 | exact F | congruence]. Qed.
  Lemma less_one (x : b64) : vl x 1 -> zr (b64_sub x (b64_Z 1)).
  Proof using. intros [F V]. destruct vl_one as [F1 V1]. apply zr_same; [exact F | exact F1 | congruence]. Qed.

  Variable al : b64.
  Hypothesis Gal : good64 303 al.
  Let nal := @n_neg _ N al.
  Lemma sign_cases : (@n_gt _ N al (@n_Z _ N 0) = true /\ 0 < B2R al) \/
    (@n_gt _ N al (@n_Z _ N 0) = false /\ @n_lt _ N al (@n_Z _ N 0) = true /\ 0 < B2R nal) \/
    (@n_gt _ N al (@n_Z _ N 0) = false /\ @n_lt _ N al (@n_Z _ N 0) = false /\ B2R al = 0).
  Proof using Gal.
    destruct Gal as [F _]. destruct zr_int0 as [F0 V0].
    change (@n_gt _ N al (@n_Z _ N 0)) with (Bltb (b64_Z 0) al). change (@n_lt _ N al (@n_Z _ N 0)) with (Bltb al (b64_Z 0)).
    rewrite !lt_exact, V0 by assumption. change nal with (Bopp al). rewrite B2R_Bopp.
    destruct (Rlt_bool_spec 0 (B2R al)); [left; auto|]. right. destruct (Rlt_bool_spec (B2R al) 0); [left | right]; repeat split; lra.
  Qed.
  Lemma al_low : B2R al <> 0 -> lw 303 al.
  Proof using Gal. intro H. destruct Gal as [_ [Z | [Q _]]]; [contradiction | exact Q]. Qed.
  Lemma al_bd : bd 303 al.
  Proof using Gal. destruct Gal as [F [Z | [_ Q]]]; split; auto. rewrite Z, Rabs_R0. apply IZR_le. lia. Qed.
  Lemma sq_ok (b : b64) : is_finite b = true -> Rabs (B2R b) = Rabs (B2R al) -> 0 < B2R b -> is_finite (b64_sqrt b) = true /\ nz (b64_sqrt b) /\ nz b /\ bd 303 (b64_sqrt b).
  Proof using Gal.
    intros F E P. assert (Q : B2R al <> 0) by (intro Z; rewrite Z, Rabs_R0, Rabs_pos_eq in E; lra). pose proof (al_low Q) as W. unfold lw in W. rewrite <- E in W.
    destruct (lw_sqrt 303 b F P W ltac:(lia)) as [F1 [W1 _]]. split; [exact F1|]. split; [exact (lw_nz 303 _ F1 W1 ltac:(lia))|]. split; [exact (lw_nz 303 _ F W ltac:(lia))|].
    apply bd_sqrt; [|exact P | lia]. split; [exact F|]. rewrite E. apply al_bd.
  Qed.

  Variable chi : b64.
  Hypothesis Hchi : zr chi.
  Lemma u_zero : vl (@ufunc0 _ N chi al) 1 /\ zr (@ufunc1 _ N chi al) /\ zr (@ufunc2 _ N chi al) /\ zr (@ufunc3 _ N chi al).
  Proof using Hsin Hcos Hsinh Hcosh Gal Hchi.
    destruct Gal as [Fal _]. pose proof (proj1 Hchi) as Fc.
    assert (Fn : is_finite nal = true) by (change nal with (Bopp al); rewrite is_finite_Bopp; exact Fal).
    assert (En : Rabs (B2R nal) = Rabs (B2R al)) by (change nal with (Bopp al); rewrite B2R_Bopp; apply Rabs_Ropp).
    unfold ufunc0, ufunc1, ufunc2, ufunc3, where_.
    destruct sign_cases as [[G P] | [[G [G' P]] | [G [G' Z]]]]; rewrite G; try rewrite G'.
    - destruct (sq_ok al Fal eq_refl P) as [Fs [Ns [Na _]]].
      assert (Zt : zr (b64_mul (b64_sqrt al) chi)) by (apply zr_mul_r; assumption).
      split; [exact (vl_cos _ Zt)|]. split; [apply zr_div; [exact (zr_sin _ Zt) | exact Ns]|].
      split; [apply zr_div; [apply one_less; exact (vl_cos _ Zt) | exact Na]|].
      apply zr_div; [apply zr_div; [apply zr_sub; [exact Zt | exact (zr_sin _ Zt)] | exact Na] | exact Ns].
    - destruct (sq_ok nal Fn En P) as [Fs [Ns [Na _]]].
      assert (Na' : nz al) by (destruct al; try contradiction Na; exact I).
      assert (Zt : zr (b64_mul (b64_sqrt nal) chi)) by (apply zr_mul_r; assumption).
      split; [exact (vl_cosh _ Zt)|]. split; [apply zr_div; [exact (zr_sinh _ Zt) | exact Ns]|].
      split; [apply zr_div; [apply less_one; exact (vl_cosh _ Zt) | exact Na]|].
      apply zr_div; [apply zr_div; [apply zr_sub; [exact Zt | exact (zr_sinh _ Zt)] | exact Na'] | exact Ns].
    - split; [apply vl_one|]. split; [exact Hchi|]. split; (apply zr_div; [|apply nz_int; lia]).
      + apply zr_mul_l; assumption.
      + apply zr_mul_l; [assumption|]. apply (zr_mul_l chi chi); assumption.
  Qed.
  Lemma pow2_eq (x : b64) : @npow _ N x 2 = b64_mul x x. Proof using. reflexivity. Qed.
  Lemma pow3_eq (x : b64) : @npow _ N x 3 = b64_mul x (b64_mul x x). Proof using. reflexivity. Qed.
  Lemma u45_zero : zr (@ufunc4 _ N chi al) /\ zr (@ufunc5 _ N chi al).
  Proof using Hsin Hcos Hsinh Hcosh Gal Hchi.
    destruct Gal as [Fal _]. pose proof (proj1 Hchi) as Fc.
    assert (Fn : is_finite nal = true) by (change nal with (Bopp al); rewrite is_finite_Bopp; exact Fal).
    assert (En : Rabs (B2R nal) = Rabs (B2R al)) by (change nal with (Bopp al); rewrite B2R_Bopp; apply Rabs_Ropp).
    assert (Zc2 : zr (b64_mul chi chi)) by (apply zr_mul_l; assumption).
    assert (Zc3 : zr (b64_mul chi (b64_mul chi chi))) by (apply zr_mul_l; [exact Hchi | exact (proj1 Zc2)]).
    pose proof al_bd as Ba. pose proof (bd_mul 303 303 al al Ba Ba ltac:(lia) ltac:(lia) ltac:(lia)) as Ba2.
    destruct (int_val 2 ltac:(lia)) as [V2 F2]. destruct (int_val 6 ltac:(lia)) as [V6 F6].
    assert (B6 : bd 3 (b64_Z 6)) by (split; [exact F6 | rewrite V6, Rabs_pos_eq by lra; change (IZR (2 ^ 3)) with 8; lra]).
    assert (Den : B2R al <> 0 -> nz (b64_mul (b64_Z 2) (b64_mul al al)) /\ nz (b64_mul (b64_Z 6) (b64_mul al (b64_mul al al)))).
    { intro Q. pose proof (al_low Q) as W.
      assert (W2 : lw (303 + 303) (b64_mul al al)) by (apply lw_mul; try assumption; try lia; rewrite Rabs_mult; apply Rle_trans with (IZR (2 ^ 303) * IZR (2 ^ 303)); [apply Rmult_le_compat; try apply Rabs_pos; apply Ba | rewrite P2_add by lia; apply P2_le; lia]).
      assert (I2 : 0 < / IZR (2 ^ (303 + 303))) by (apply Rinv_0_lt_compat, P2; lia).
      split.
      - apply (mul_nz (303 + 303)); [exact F2 | apply Ba2 | lia |]. unfold lw in W2. rewrite V2, Rabs_mult, (Rabs_pos_eq 2) by lra. lra.
      - destruct (mul_nz (303 + 303 + 303) al (b64_mul al al) Fal (proj1 Ba2) ltac:(lia)) as [N3 W3].
        { rewrite Rabs_mult, <- P2_add, Rinv_mult, Rmult_comm by lia. apply Rmult_le_compat; try assumption; left; apply Rinv_0_lt_compat, P2; lia. }
        destruct (is_finite (b64_mul al (b64_mul al al))) eqn:F3; [|apply mul_inf; [exact F6 | apply nz_int; lia | exact N3 | exact F3]].
        specialize (W3 eq_refl). apply (mul_nz (303 + 303 + 303)); [exact F6 | exact F3 | lia |]. unfold lw in W3. rewrite V6, Rabs_mult, (Rabs_pos_eq 6) by lra.
        assert (I3 : 0 < / IZR (2 ^ (303 + 303 + 303))) by (apply Rinv_0_lt_compat, P2; lia). lra. }
    assert (Tw : forall c, vl c 1 -> zr (b64_add (b64_sub (b64_mul al (b64_mul chi chi)) (b64_Z 2)) (b64_mul (b64_Z 2) c))).
    { intros c [Fcc Vc]. pose proof (zr_mul_r al (b64_mul chi chi) Fal Zc2) as Z0.
      destruct (sub_exact _ _ (proj1 Z0) F2) as [Vs Fs]; [rewrite (proj2 Z0), V2, Rabs_left by lra; replace (- (0 - 2)) with 2 by ring; apply IZR_le; lia|].
      destruct (mul_exact _ _ F2 Fcc) as [Vm Fm]; [rewrite Vc, V2, Rabs_pos_eq by lra; rewrite Rmult_1_r; apply IZR_le; lia|].
      rewrite (proj2 Z0), V2 in Vs. replace (0 - 2) with (IZR (-2)) in Vs by (simpl; lra). rewrite rnd_id in Vs by (apply F64_int; lia).
      rewrite Vc, V2, Rmult_1_r, rnd_id in Vm by (apply F64_int; lia).
      destruct (add_exact _ _ Fs Fm) as [Va Fa]; [rewrite Vs, Vm; replace (-2 + 2) with 0 by ring; rewrite Rabs_R0; apply IZR_le; lia|].
      split; [exact Fa|]. rewrite Va, Vs, Vm. replace (-2 + 2) with 0 by ring. apply rnd_id, F64_0. }
    assert (B6a : is_finite (b64_mul (b64_Z 6) al) = true) by (apply (bd_fin (3 + 303)), bd_mul; try assumption; lia).
    assert (Zn : zr (b64_sub (b64_mul (b64_mul al al) (b64_mul chi (b64_mul chi chi))) (b64_mul (b64_mul (b64_Z 6) al) chi))).
    { apply zr_sub; apply zr_mul_r; try assumption. apply Ba2. }
    unfold ufunc4, ufunc5, where_. rewrite !pow2_eq, !pow3_eq.
    destruct sign_cases as [[G P] | [[G [G' P]] | [G [G' Z]]]]; rewrite G; try rewrite G'.
    - destruct (Den ltac:(lra)) as [N2 N3]. destruct (sq_ok al Fal eq_refl P) as [Fs [_ [_ Bs]]].
      assert (Zt : zr (b64_mul (b64_sqrt al) chi)) by (apply zr_mul_r; assumption).
      split; (apply zr_div; [|assumption]).
      + apply Tw. exact (vl_cos _ Zt).
      + apply zr_add; [exact Zn|]. apply zr_mul_r; [apply (bd_fin (3 + 303)), bd_mul; try assumption; lia | exact (zr_sin _ Zt)].
    - assert (Q : B2R al <> 0) by (change nal with (Bopp al) in P; rewrite B2R_Bopp in P; lra).
      destruct (Den Q) as [N2 N3]. destruct (sq_ok nal Fn En P) as [Fs [_ [_ Bs]]].
      assert (Zt : zr (b64_mul (b64_sqrt nal) chi)) by (apply zr_mul_r; assumption).
      split; (apply zr_div; [|assumption]).
      + apply Tw. exact (vl_cosh _ Zt).
      + apply zr_sub; [exact Zn|]. apply zr_mul_r; [apply (bd_fin (3 + 303)), bd_mul; try assumption; lia | exact (zr_sinh _ Zt)].
    - split; (apply zr_div; [|apply nz_int; lia]).
      + apply (zr_mul_l (b64_mul chi chi)); [exact Zc2 | apply Zc2].
      + apply (zr_mul_l chi); [exact Hchi | apply (zr_mul_l (b64_mul chi chi)); [exact Zc2 | apply Zc2]].
  Qed.
End Zero.

Lemma mul_one (k x : b64) (r : R) : vl k 1 -> vl x r -> Rabs r <= IZR (2 ^ 1023) -> vl (b64_mul x k) r.
Proof.
  intros [Fk Vk] [Fx Vx] H. destruct (mul_exact x k Fx Fk) as [V F]; [rewrite Vk, Vx, Rmult_1_r; exact H|].
  split; [exact F|]. rewrite V, Vk, Rmult_1_r, Vx. apply rnd_id. rewrite <- Vx. apply F64_B2R.
Qed.
Lemma one_minus (x y : b64) : vl x 1 -> zr y -> vl (b64_sub x y) 1.
Proof. apply vl_sub_zr. Qed.

Lemma classic_v (a : vec) : a = vzero \/ a <> vzero.
Proof. destruct a as [a b c]. unfold vzero. destruct (Req_dec a 0) as [-> | H]; [|right; intro E; injection E; lra]. destruct (Req_dec b 0) as [-> | H]; [|right; intro E; injection E; lra]. destruct (Req_dec c 0) as [-> | H]; [left; reflexivity | right; intro E; injection E; lra]. Qed.
Definition all3 {A : Type} (P : A -> Prop) (a : V3 A) : Prop := P (c0 a) /\ P (c1 a) /\ P (c2 a).
Definition allm (P : b64 -> Prop) (A : M3 b64) : Prop := all3 (all3 P) A.

Section State.
  Variable L : libm64.
  Let N : Num b64 := Num_B64 L.
  Hypothesis Hsin : forall s, d_sin L (B754_zero s) = B754_zero s.
  Hypothesis Hcos : forall s, d_cos L (B754_zero s) = b64_Z 1.
  Hypothesis Hsinh : forall s, d_sinh L (B754_zero s) = B754_zero s.
  Hypothesis Hcosh : forall s, d_cosh L (B754_zero s) = b64_Z 1.
  Variables (x v : V3 b64) (mu : b64).
  Hypotheses (Gx : good64v 100 x) (Gv : good64v 100 v) (Gm : good64 100 mu) (Pm : 0 < B2R mu).
  Hypotheses (Nx : real64 x <> vzero).
  Let r0 := @vector_norm _ N x.
  Let v0 := @vector_norm _ N v.
  Let s0 := @sigma_fn _ N x v mu.
  Let al := @alpha_of _ N r0 v0 mu.
  Let sm := b64_sqrt mu.

  Lemma mu_bd : bd 100 mu /\ lw 100 mu /\ nz mu.
  Proof using Gm Pm.
    destruct Gm as [F [Z | [Q1 Q2]]]; [lra|]. split; [split; assumption|]. split; [exact Q1|]. apply (lw_nz 100 _ F Q1). lia.
  Qed.
  Lemma sm_ok : bd 100 sm /\ nz sm.
  Proof using Gm Pm.
    destruct mu_bd as [B [W _]]. split; [apply bd_sqrt; try assumption; lia|]. destruct (lw_sqrt 100 mu (proj1 B) Pm W ltac:(lia)) as [F [W' _]]. exact (lw_nz 100 _ F W' ltac:(lia)).
  Qed.
  Lemma r0_ok : bd (100 + 1) r0 /\ lw (100 + 1) r0 /\ nz r0.
  Proof using Gx Nx.
    pose proof (Ev_norm0 L 100 x Gx Nx ltac:(lia) ltac:(lia)) as [F [E [_ [R _]]]]. fold N r0 in F, E. pose proof (vnorm_pos _ Nx) as P. set (X := vnorm (real64 x)) in *.
    assert (G : gam u64 3 <= / 1000) by (unfold gam, u64, eps; simpl; lra).
    assert (gam u64 3 * X <= / 1000 * X) by (apply Rmult_le_compat_r; lra). apply Rabs_le_between in E.
    destruct R as [Z | [R1 R2]]; [lra|]. rewrite Rabs_pos_eq in R1, R2 by lra.
    assert (W : lw (100 + 1) r0).
    { unfold lw. rewrite Rabs_pos_eq by lra. rewrite <- P2_add, Rinv_mult by lia. change (IZR (2 ^ 1)) with 2. lra. }
    split; [split; [exact F|]; rewrite Rabs_pos_eq, <- P2_add by (lra || lia); change (IZR (2 ^ 1)) with 2; lra|]. split; [exact W | exact (lw_nz _ _ F W ltac:(lia))].
  Qed.
  Lemma comps (k : Z) (a : V3 b64) : good64v k a -> all3 (bd k) a.
  Proof using.
    intros [[F0 [F1 F2]] R]. destruct (comp_le (real64 a)) as [A0 [A1 A2]]. cbn [c0 c1 c2 real64] in A0, A1, A2.
    assert (B : vnorm (real64 a) <= IZR (2 ^ k)).
    { destruct R as [Z | [_ R]]; [|rewrite Rabs_pos_eq in R; [exact R | apply sqrt_pos]]. rewrite Z. apply IZR_le. apply Z.pow_nonneg. lia. }
    repeat split; try assumption; lra.
  Qed.
  Lemma s0_fin : is_finite s0 = true.
  Proof using Gx Gv Gm Pm. exact (proj1 (geo_sigma L x v Gx Gv mu Gm Pm)). Qed.
  Lemma zero_speed : real64 v = vzero -> zr v0.
  Proof using Gv.
    intro Z. unfold real64, vzero in Z. injection Z as Z0 Z1 Z2.
    assert (H : forall c : b64, B2R c = 0 -> is_finite c = true -> zr c) by (split; assumption).
    destruct Gv as [[F0 [F1 F2]] _]. pose proof (H _ Z0 F0) as Y0. pose proof (H _ Z1 F1) as Y1. pose proof (H _ Z2 F2) as Y2.
    assert (S : zr (@vinner _ N v v)).
    { apply zr_add; [apply zr_add|]; apply zr_mul_l; assumption. }
    unfold v0, vector_norm. destruct (zr_inv _ S) as [s Es]. rewrite Es. apply zr_zero.
  Qed.
  Lemma al_good : good64 303 al.
  Proof using Gx Gv Gm Pm Nx.
    set (d := @n_sub _ N (@n_div _ N (@n_Z _ N 2) r0) (@n_div _ N (@n_mul _ N v0 v0) mu)).
    assert (Gd : good64 302 d).
    { destruct (classic_v (real64 v)) as [Z | Nv]; [|exact (d_good L x v mu Gx Gv Gm Pm Nx Nv)].
      pose proof (zero_speed Z) as Zv. destruct mu_bd as [_ [_ Nm]]. destruct r0_ok as [Br [Wr _]]. destruct (int_val 2 ltac:(lia)) as [V2 F2].
      assert (Zq : zr (b64_div (b64_mul v0 v0) mu)) by (apply zr_div; [apply zr_mul_l; [exact Zv | apply Zv] | exact Nm]).
      assert (B2 : bd 1 (b64_Z 2)) by (split; [exact F2 | rewrite V2, Rabs_pos_eq by lra; change (IZR (2 ^ 1)) with 2; lra]).
      pose proof (bd_div 1 (100 + 1) _ _ B2 Wr ltac:(lia) ltac:(lia) ltac:(lia)) as Bq.
      destruct (vl_sub_zr (b64_div (b64_Z 2) r0) _ (B2R (b64_div (b64_Z 2) r0)) (conj (proj1 Bq) eq_refl) Zq) as [Fd Vd].
      split; [exact Fd|]. right. change (B2R d) with (B2R (b64_sub (b64_div (b64_Z 2) r0) (b64_div (b64_mul v0 v0) mu))). rewrite Vd. split.
      - apply Rle_trans with (/ IZR (2 ^ (100 + 1))); [apply Rinv_le_contravar; [apply P2; lia | apply P2_le; lia]|].
        assert (N0 : B2R r0 <> 0) by (intro Q; unfold lw in Wr; rewrite Q, Rabs_R0 in Wr; pose proof (Rinv_0_lt_compat _ (P2 (100 + 1) ltac:(lia))); lra).
        pose proof (Rabs_pos_lt _ N0) as Pr.
        destruct (div_exact (b64_Z 2) r0 F2 N0) as [V _].
        { unfold Rdiv. rewrite Rabs_mult, Rabs_inv, V2, (Rabs_pos_eq 2) by lra. apply Rle_trans with (2 * IZR (2 ^ (100 + 1))).
          - apply Rmult_le_compat_l; [lra|]. rewrite <- (Rinv_inv (IZR (2 ^ (100 + 1)))). apply Rinv_le_contravar; [apply Rinv_0_lt_compat, P2; lia | exact Wr].
          - rewrite <- mult_IZR. apply IZR_le. lia. }
        rewrite V. apply rnd_low; [lia|]. unfold Rdiv. rewrite Rabs_mult, Rabs_inv, V2, (Rabs_pos_eq 2) by lra.
        assert (/ IZR (2 ^ (100 + 1)) <= / Rabs (B2R r0)) by (apply Rinv_le_contravar; [exact Pr | apply Br]). assert (0 < / Rabs (B2R r0)) by (apply Rinv_0_lt_compat; exact Pr). lra.
      - apply Rle_trans with (1 := proj2 Bq). apply P2_le. lia. }
    destruct (twice_inverse L d Gd) as [Fa [Ea _]]. change (@n_div _ _ _ _) with al in Fa, Ea. split; [exact Fa|].
    assert (G : gam u64 4 <= / 1000) by (unfold gam, u64, eps; simpl; lra).
    pose proof (Rabs_pos (B2R d)) as Pd. assert (gam u64 4 * Rabs (B2R d) <= / 1000 * Rabs (B2R d)) by (apply Rmult_le_compat_r; lra).
    pose proof (Rabs_triang_inv (B2R d) (B2R d - B2R al)) as T1. replace (B2R d - (B2R d - B2R al)) with (B2R al) in T1 by ring. rewrite (Rabs_minus_sym (B2R d) (B2R al)) in T1.
    pose proof (Rabs_triang (B2R d) (B2R al - B2R d)) as T2. replace (B2R d + (B2R al - B2R d)) with (B2R al) in T2 by ring.
    destruct Gd as [_ [Z | [D1 D2]]].
    - left. rewrite Z, Rabs_R0 in *. assert (Q : Rabs (B2R al) <= 0) by lra. pose proof (Rabs_pos (B2R al)). apply Rabs_eq_0. lra.
    - right. replace 303%Z with (302 + 1)%Z by reflexivity. rewrite <- P2_add, Rinv_mult by lia. change (IZR (2 ^ 1)) with 2. pose proof (Rinv_0_lt_compat _ (P2 302 ltac:(lia))). split; lra.
  Qed.

  Lemma run_zero (s : bool) : exists chi prev, zr chi /\ @uni_run _ N (B754_zero s) al r0 s0 mu (@default_tol _ N) uni_max_iter = Some (0%Z, chi, prev).
  Proof using Hsin Hcos Hsinh Hcosh Gx Gv Gm Pm Nx.
    destruct sm_ok as [Bs _]. pose proof al_good as Ga. pose proof (al_bd al Ga) as Ba. destruct r0_ok as [Br _]. pose proof s0_fin as Fs.
    assert (Bab : bd 303 (Babs al)) by (split; [rewrite is_finite_Babs; apply Ba | rewrite B2R_Babs, Rabs_Rabsolu; apply Ba]).
    assert (Zc : zr (@uni_guess _ N (B754_zero s) al mu)).
    { change (zr (b64_mul (b64_mul sm (Babs al)) (B754_zero s))). apply zr_mul_r; [apply (bd_fin (100 + 303)), bd_mul; try assumption; lia | apply zr_zero]. }
    set (chi := @uni_guess _ N (B754_zero s) al mu) in *. exists chi.
    destruct (u_zero L Hsin Hcos Hsinh Hcosh al Ga chi Zc) as [_ [U1 [U2 U3]]].
    assert (Zk : zr (@kepler_equ_uni _ N chi al r0 s0 (B754_zero s) mu)).
    { apply zr_sub; [|apply (zr_mul_r sm); [apply Bs | apply zr_zero]]. apply zr_add; [apply zr_add|exact U3]; apply zr_mul_r; try assumption. apply Br. }
    destruct (uni_run_char (N := N) (B754_zero s) al r0 s0 mu (@default_tol _ N) uni_max_iter) as [k [_ [H [Ht _]]]]. cbv zeta in H, Ht.
    assert (k = 0%nat) as ->; [|eexists; split; [exact Zc | exact H]].
    destruct k as [|k]; [reflexivity|]. exfalso. specialize (Ht 0%nat ltac:(lia)).
    change (@exceeds _ N (@kepler_equ_uni _ N chi al r0 s0 (B754_zero s) mu) (@default_tol _ N) = true) in Ht.
    destruct (zr_inv _ Zk) as [s' E]. rewrite E in Ht. destruct (tol_small L) as [Ft [Pt _]].
    change (Bltb (@default_tol _ N) (B754_zero false) = true) in Ht. rewrite lt_exact in Ht by (assumption || reflexivity).
    destruct (Rlt_bool_spec (B2R (@default_tol _ N)) (B2R (B754_zero false : b64))) as [Q | Q]; [exact (Rlt_not_le _ _ Q Pt) | discriminate].
  Qed.

  Lemma bd_vl (k : Z) (a : b64) : bd k a -> (k <= 1023)%Z -> vl a (B2R a) /\ Rabs (B2R a) <= IZR (2 ^ 1023).
  Proof using. intros [F B] K. split; [split; [exact F | reflexivity]|]. apply Rle_trans with (1 := B), P2_le, K. Qed.

  Section AtZero.
    Variable chi : b64.
    Hypothesis Zc : zr chi.
    Let F := @lagrange_F _ N (@ufunc2 _ N chi al) r0.
    Let G := @lagrange_G _ N (@ufunc1 _ N chi al) (@ufunc2 _ N chi al) s0 r0 mu.
    Let r := @equ_of_orb_uvi _ N (@ufunc0 _ N chi al) (@ufunc1 _ N chi al) (@ufunc2 _ N chi al) r0 s0.
    Lemma F_one : vl F 1.
    Proof using Hsin Hcos Hsinh Hcosh Gx Gv Gm Pm Nx Zc.
      destruct (u_zero L Hsin Hcos Hsinh Hcosh al al_good chi Zc) as [_ [_ [U2 _]]]. apply vl_sub_zr; [apply vl_one|]. apply zr_div; [exact U2 | apply r0_ok].
    Qed.
    Lemma G_zero : zr G.
    Proof using Hsin Hcos Hsinh Hcosh Gx Gv Gm Pm Nx Zc.
      destruct (u_zero L Hsin Hcos Hsinh Hcosh al al_good chi Zc) as [_ [U1 [U2 _]]]. apply zr_div; [|apply sm_ok].
      apply zr_add; apply zr_mul_r; try assumption; [apply r0_ok | apply s0_fin].
    Qed.
    Lemma r_same : vl r (B2R r0).
    Proof using Hsin Hcos Hsinh Hcosh Gx Gv Gm Pm Nx Zc.
      destruct (u_zero L Hsin Hcos Hsinh Hcosh al al_good chi Zc) as [U0 [U1 [U2 _]]]. destruct r0_ok as [Br _]. destruct (bd_vl _ _ Br ltac:(lia)) as [Vr Br'].
      apply vl_add_zr; [apply vl_add_zr|exact U2]; [apply (mul_one (@ufunc0 _ N chi al)); assumption | apply zr_mul_r; [apply s0_fin | exact U1]].
    Qed.
    Lemma Ft_zero (q : b64) : vl q (B2R r0) -> zr (@lagrange_Ft _ N (@ufunc1 _ N chi al) q r0 mu).
    Proof using Hsin Hcos Hsinh Hcosh Gx Gv Gm Pm Nx Zc.
      intros [_ Vq]. destruct (u_zero L Hsin Hcos Hsinh Hcosh al al_good chi Zc) as [_ [U1 _]]. destruct r0_ok as [_ [Wr Nr]]. destruct sm_ok as [Bs _].
      apply zr_div; [|exact Nr]. apply zr_mul_r; [|exact U1]. apply (bd_fin (100 + (100 + 1))). apply (bd_div 100 (100 + 1) (Bopp sm) q); try lia.
      - split; [rewrite is_finite_Bopp; apply Bs | rewrite B2R_Bopp, Rabs_Ropp; apply Bs].
      - unfold lw. rewrite Vq. exact Wr.
    Qed.
    Lemma Gt_one (q : b64) : vl q (B2R r0) -> vl (@lagrange_Gt _ N (@ufunc2 _ N chi al) q) 1.
    Proof using Hsin Hcos Hsinh Hcosh Gx Gv Gm Pm Nx Zc.
      intros [Fq Vq]. destruct (u_zero L Hsin Hcos Hsinh Hcosh al al_good chi Zc) as [_ [_ [U2 _]]]. apply vl_sub_zr; [apply vl_one|]. apply zr_div; [exact U2|].
      apply (lw_nz (100 + 1)); [exact Fq | | lia]. unfold lw. rewrite Vq. apply r0_ok.
    Qed.
    Lemma state_same : let st := @state_at_chi _ N chi al s0 r0 x v mu in
      off64v 0 0 (fst st) (real64 x) /\ off64v 0 0 (snd st) (real64 v).
    Proof using Hsin Hcos Hsinh Hcosh Gx Gv Gm Pm Nx Zc.
      pose proof F_one as HF. pose proof G_zero as HG. pose proof (Ft_zero r r_same) as HFt. pose proof (Gt_one r r_same) as HGt.
      destruct (comps _ _ Gx) as [X0 [X1 X2]]. destruct (comps _ _ Gv) as [V0 [V1 V2]].
      assert (Of : forall (g : b64) (a : R), vl g a -> off64 0 0 g a) by (intros g a [Fg Vg]; split; [exact Fg | rewrite Vg; unfold Rminus; rewrite Rplus_opp_r, Rabs_R0, Rmult_0_r; lra]).
      assert (Row1 : forall a b : b64, bd 100 a -> bd 100 b -> off64 0 0 (b64_add (b64_mul F a) (b64_mul G b)) (B2R a)).
      { intros a b Ba Bb. apply Of. destruct (bd_vl _ _ Ba ltac:(lia)) as [Va La]. apply vl_add_zr; [apply one_mul; assumption | apply zr_mul_l; [assumption | apply Bb]]. }
      assert (Row2 : forall a b : b64, bd 100 a -> bd 100 b -> off64 0 0 (b64_add (b64_mul (@lagrange_Ft _ N (@ufunc1 _ N chi al) r r0 mu) a) (b64_mul (@lagrange_Gt _ N (@ufunc2 _ N chi al) r) b)) (B2R b)).
      { intros a b Ba Bb. apply Of. destruct (bd_vl _ _ Bb ltac:(lia)) as [Va La]. apply zr_add_vl; [apply zr_mul_l; [assumption | apply Ba] | apply one_mul; assumption]. }
      cbv zeta. split; (split; [|split]); [apply Row1 | apply Row1 | apply Row1 | apply Row2 | apply Row2 | apply Row2]; assumption.
    Qed.
  End AtZero.

  Lemma kepler_zero (ts : list b64) (i : nat) (s : bool) : nth_error ts i = Some (B754_zero s) ->
    exists P Q : V3 b64, nth_error (@kepler _ N ts x v mu) i = Some (P, Q) /\ off64v 0 0 P (real64 x) /\ off64v 0 0 Q (real64 v).
  Proof using Hsin Hcos Hsinh Hcosh Gx Gv Gm Pm Nx.
    intro Ht. destruct (run_zero s) as [chi [prev [Zc Run]]].
    pose proof (kepler_row _ N ts i (B754_zero s) x v mu 0 chi prev Ht Run) as Row. destruct (state_same chi Zc) as [S1 S2].
    fold r0 v0 s0 al in Row. destruct (@state_at_chi _ N chi al s0 r0 x v mu) as [P Q]. exists P, Q. split; [exact Row | split; assumption].
  Qed.

  Lemma am_scale (P Q : b64 -> Prop) (k : b64) (A : M3 b64) : (forall a, P a -> Q (b64_mul k a)) -> allm P A -> allm Q (@mscale _ N k A).
  Proof using. intros H [[A0 [A1 A2]] [[A3 [A4 A5]] [A6 [A7 A8]]]]. repeat split; apply H; assumption. Qed.
  Lemma am_add (P P' Q : b64 -> Prop) (A B : M3 b64) : (forall a b, P a -> P' b -> Q (b64_add a b)) -> allm P A -> allm P' B -> allm Q (@madd _ N A B).
  Proof using. intros H [[A0 [A1 A2]] [[A3 [A4 A5]] [A6 [A7 A8]]]] [[B0 [B1 B2]] [[B3 [B4 B5]] [B6 [B7 B8]]]]. repeat split; apply H; assumption. Qed.
  Lemma am_sub (P P' Q : b64 -> Prop) (A B : M3 b64) : (forall a b, P a -> P' b -> Q (b64_sub a b)) -> allm P A -> allm P' B -> allm Q (@msub _ N A B).
  Proof using. intros H [[A0 [A1 A2]] [[A3 [A4 A5]] [A6 [A7 A8]]]] [[B0 [B1 B2]] [[B3 [B4 B5]] [B6 [B7 B8]]]]. repeat split; apply H; assumption. Qed.
  Lemma am_outer (P P' Q : b64 -> Prop) (a b : V3 b64) : (forall a b, P a -> P' b -> Q (b64_mul a b)) -> all3 P a -> all3 P' b -> allm Q (@outer _ N a b).
  Proof using. intros H [A0 [A1 A2]] [B0 [B1 B2]]. repeat split; apply H; assumption. Qed.
  Lemma am_outer_bd (j k : Z) (a b : V3 b64) : all3 (bd j) a -> all3 (bd k) b -> (0 <= j)%Z -> (0 <= k)%Z -> (j + k <= 1023)%Z -> allm (bd (j + k)) (@outer _ N a b).
  Proof using. intros Ha Hb J K S. apply (am_outer (bd j) (bd k)); [|exact Ha | exact Hb]. intros c d Hc Hd. apply bd_mul; assumption. Qed.
  Lemma am_divs (P Q : b64 -> Prop) (A : M3 b64) (k : b64) : (forall a, P a -> Q (b64_div a k)) -> allm P A -> allm Q (@mdivs _ N A k).
  Proof using. intros H [[A0 [A1 A2]] [[A3 [A4 A5]] [A6 [A7 A8]]]]. repeat split; apply H; assumption. Qed.
  Lemma am_right (P Q : b64 -> Prop) (A : M3 b64) (k : b64) : (forall a, P a -> Q (b64_mul a k)) -> allm P A -> allm Q (vmap3 (fun row => vmap3 (fun a => @n_mul _ N a k) row) A).
  Proof using. intros H [[A0 [A1 A2]] [[A3 [A4 A5]] [A6 [A7 A8]]]]. repeat split; apply H; assumption. Qed.
  Lemma am_neg (P Q : b64 -> Prop) (A : M3 b64) : (forall a, P a -> Q (Bopp a)) -> allm P A -> allm Q (@mneg _ N A).
  Proof using. intros H [[A0 [A1 A2]] [[A3 [A4 A5]] [A6 [A7 A8]]]]. repeat split; apply H; assumption. Qed.
  Lemma am_imp (P Q : b64 -> Prop) (A : M3 b64) : (forall a, P a -> Q a) -> allm P A -> allm Q A.
  Proof using. intros H [[A0 [A1 A2]] [[A3 [A4 A5]] [A6 [A7 A8]]]]. repeat split; apply H; assumption. Qed.
  Lemma a3_divs (P Q : b64 -> Prop) (a : V3 b64) (k : b64) : (forall a, P a -> Q (b64_div a k)) -> all3 P a -> all3 Q (@vdivs _ N a k).
  Proof using. intros H [A0 [A1 A2]]. repeat split; apply H; assumption. Qed.
  Lemma a3_self (k : Z) (a : V3 b64) : all3 (bd k) a -> all3 zr (@vsub _ N a a).
  Proof using. intros [[A0 _] [[A1 _] [A2 _]]]. repeat split; apply zr_same; auto. Qed.
  Lemma am_mul_zero (A B : M3 b64) : allm (fun a => is_finite a = true) A -> allm zr B -> allm zr (@mmul _ N A B).
  Proof using.
    intros [[A0 [A1 A2]] [[A3 [A4 A5]] [A6 [A7 A8]]]] [[B0 [B1 B2]] [[B3 [B4 B5]] [B6 [B7 B8]]]].
    repeat split; apply (zr_add _ _); try apply (zr_add _ _); apply zr_mul_r; assumption.
  Qed.
  Definition vlm (A : M3 b64) (B : mat) : Prop := off64m 0 0 A B.
  Lemma vl_off (g : b64) (a : R) : vl g a -> off64 0 0 g a.
  Proof using. intros [Fg Vg]. split; [exact Fg | rewrite Vg; unfold Rminus; rewrite Rplus_opp_r, Rabs_R0, Rmult_0_r; lra]. Qed.
  Lemma zm_off (A : M3 b64) : allm zr A -> vlm A (mk3 vzero vzero vzero).
  Proof using.
    intros [[A0 [A1 A2]] [[A3 [A4 A5]] [A6 [A7 A8]]]]. repeat split; try (apply (vl_off _ 0); assumption).
  Qed.
  Lemma eye_off (A : M3 b64) (k : b64) : allm zr A -> vl k 1 -> vlm (@madd _ N A (@mscale _ N k (@eye3 _ N))) ident.
  Proof using.
    intros [[A0 [A1 A2]] [[A3 [A4 A5]] [A6 [A7 A8]]]] Hk.
    assert (One : forall a, zr a -> off64 0 0 (b64_add a (b64_mul k (b64_Z 1))) 1).
    { intros a Za. apply vl_off. apply zr_add_vl; [exact Za|]. apply one_mul; [exact Hk | apply vl_one|]. rewrite Rabs_R1. apply IZR_le. lia. }
    assert (Nul : forall a, zr a -> off64 0 0 (b64_add a (b64_mul k (b64_Z 0))) 0).
    { intros a Za. apply vl_off. apply (zr_add a); [exact Za|]. apply zr_mul_r; [apply Hk | apply zr_int0]. }
    repeat (split; [repeat (split; [(apply One || apply Nul); assumption|]); (apply One || apply Nul); assumption|]).
    repeat (split; [(apply One || apply Nul); assumption|]). (apply One || apply Nul); assumption.
  Qed.

  Lemma dxdx0_zero (s : bool) : let M := @dxdx0 _ N x v x v (B754_zero s) mu in
    off64m 0 0 (b_rr M) ident /\ off64m 0 0 (b_rv M) (mk3 vzero vzero vzero) /\
    off64m 0 0 (b_vr M) (mk3 vzero vzero vzero) /\ off64m 0 0 (b_vv M) ident.
  Proof using Hsin Hcos Hsinh Hcosh Gx Gv Gm Pm Nx.
    destruct sm_ok as [Bs Ns]. destruct mu_bd as [Bm [Wm Nm]]. destruct r0_ok as [Br [Wr Nr]]. pose proof s0_fin as Fs. pose proof al_good as Ga. pose proof (al_bd al Ga) as Ba.
    pose proof (comps _ _ Gx) as Cx. pose proof (comps _ _ Gv) as Cv.
    assert (Zc : zr (@generalized_anomaly _ N al s0 s0 (B754_zero s) mu)).
    { assert (Z1 : zr (b64_mul (b64_mul al sm) (B754_zero s))) by (apply zr_mul_r; [apply (bd_fin (303 + 100)), bd_mul; try assumption; lia | apply zr_zero]).
      destruct (zr_add_vl _ s0 (B2R s0) Z1 (conj Fs eq_refl)) as [Fa Va]. exact (zr_same _ s0 Fa Fs Va). }
    set (chi := @generalized_anomaly _ N al s0 s0 (B754_zero s) mu) in *.
    destruct (u_zero L Hsin Hcos Hsinh Hcosh al Ga chi Zc) as [U0 [U1 [U2 U3]]]. destruct (u45_zero L Hsin Hcos Hsinh Hcosh al Ga chi Zc) as [U4 U5].
    destruct (int_val 3 ltac:(lia)) as [_ F3].
    assert (ZC : zr (@C_func _ N chi (@ufunc2 _ N chi al) (@ufunc4 _ N chi al) (@ufunc5 _ N chi al) (B754_zero s) mu)).
    { apply zr_div; [|exact Ns]. apply zr_sub; [apply zr_sub|].
      - apply zr_mul_r; [exact F3 | exact U5].
      - apply zr_mul_l; [exact Zc | apply U4].
      - apply zr_mul_r; [|exact U2]. apply (zr_mul_r sm); [apply Bs | apply zr_zero]. }
    pose proof (F_one chi Zc) as HF. pose proof (G_zero chi Zc) as HG. pose proof (Ft_zero chi Zc r0 (conj (proj1 Br) eq_refl)) as HFt. pose proof (Gt_one chi Zc r0 (conj (proj1 Br) eq_refl)) as HGt.
    set (C := @C_func _ N chi _ _ _ _ _) in *. set (F := @lagrange_F _ N _ _) in *. set (G := @lagrange_G _ N _ _ _ _ _) in *.
    set (Ft := @lagrange_Ft _ N _ _ _ _) in *. set (Gt := @lagrange_Gt _ N _ _) in *.
    assert (F1 : zr (b64_sub (b64_Z 1) F)) by (apply one_less; exact HF).
    pose proof (a3_self _ _ Cv) as Zdv. pose proof (a3_self _ _ Cx) as Zdx.
    set (dv := @vsub _ N v v) in *. set (dx := @vsub _ N x x) in *.
    assert (Fdv : all3 (fun a => is_finite a = true) dv) by (destruct Zdv as [[? _] [[? _] [? _]]]; repeat split; assumption).
    pose proof (bd_mul _ _ _ _ Br Br ltac:(lia) ltac:(lia) ltac:(lia)) as Br2.
    assert (Wr2 : lw (100 + 1 + (100 + 1)) (b64_mul r0 r0)).
    { apply lw_mul; try assumption; try lia; try apply Br. rewrite Rabs_mult. apply Rle_trans with (IZR (2 ^ (100 + 1)) * IZR (2 ^ (100 + 1))); [apply Rmult_le_compat; try apply Rabs_pos; apply Br | rewrite P2_add by lia; apply P2_le; lia]. }
    assert (Nr2 : nz (b64_mul r0 r0)) by (apply (lw_nz _ _ (proj1 Br2) Wr2); lia).
    assert (Cu : all3 (bd (100 + (100 + 1))) (@vdivs _ N x r0)) by (apply (a3_divs (bd 100)); [intros a Ha; apply bd_div; try assumption; lia | exact Cx]).
    set (u := @vdivs _ N x r0) in *.
    assert (Cw : all3 (fun a => is_finite a = true) (@vdivs _ N x (b64_mul r0 r0))).
    { apply (a3_divs (bd 100)); [|exact Cx]. intros a Ha. apply (bd_fin (100 + (100 + 1 + (100 + 1)))). apply bd_div; try assumption; lia. }
    assert (Fv : all3 (fun a => is_finite a = true) v) by (destruct Cv as [[? _] [[? _] [? _]]]; repeat split; assumption).
    assert (Fx : all3 (fun a => is_finite a = true) x) by (destruct Cx as [[? _] [[? _] [? _]]]; repeat split; assumption).
    assert (Rm : is_finite (b64_div r0 mu) = true) by (apply (bd_fin (100 + 1 + 100)), bd_div; try assumption; lia).
    assert (Zvv : allm zr (@outer _ N dv dv)) by (apply (am_outer zr (fun a => is_finite a = true)); [apply zr_mul_l | exact Zdv | exact Fdv]).
    assert (Buu : allm (bd (100 + (100 + 1) + (100 + (100 + 1)))) (@outer _ N u u)) by (apply (am_outer_bd _ _ _ _ Cu Cu ltac:(lia) ltac:(lia) ltac:(lia))).
    assert (Fuu : allm (fun a => is_finite a = true) (@outer _ N u u)) by (apply (am_imp _ _ _ (bd_fin _) Buu)).
    assert (Fvu : allm (fun a => is_finite a = true) (@outer _ N v u)) by (apply (am_imp _ _ _ (bd_fin _) (am_outer_bd _ _ _ _ Cv Cu ltac:(lia) ltac:(lia) ltac:(lia)))).
    assert (Fuv : allm (fun a => is_finite a = true) (@outer _ N u v)) by (apply (am_imp _ _ _ (bd_fin _) (am_outer_bd _ _ _ _ Cu Cv ltac:(lia) ltac:(lia) ltac:(lia)))).
    assert (Fww : allm (fun a => is_finite a = true) (@outer _ N v v)) by (apply (am_imp _ _ _ (bd_fin _) (am_outer_bd _ _ _ _ Cv Cv ltac:(lia) ltac:(lia) ltac:(lia)))).
    pose proof (am_outer_bd _ _ _ _ Cx Cv ltac:(lia) ltac:(lia) ltac:(lia)) as Bxv.
    pose proof (am_outer_bd _ _ _ _ Cv Cx ltac:(lia) ltac:(lia) ltac:(lia)) as Bvx.
    assert (ZA : forall (k : b64) A, zr k -> allm (fun a => is_finite a = true) A -> allm zr (@mscale _ N k A)) by (intros k A Hk; apply am_scale; intros a Fa; apply zr_mul_l; assumption).
    assert (ZB : forall (k : b64) A, is_finite k = true -> allm zr A -> allm zr (@mscale _ N k A)) by (intros k A Hk; apply am_scale; intros a Fa; apply zr_mul_r; assumption).
    assert (ZR : zr (b64_div C (b64_mul r0 r0))) by (apply zr_div; assumption).
    assert (Zlv : forall a, all3 (fun c => is_finite c = true) a -> allm zr (@outer _ N dv a)) by (intros a Fa; apply (am_outer zr (fun a => is_finite a = true)); [apply zr_mul_l | exact Zdv | exact Fa]).
    assert (Zrv : forall a, all3 (fun c => is_finite c = true) a -> allm zr (@outer _ N a dv)) by (intros a Fa; apply (am_outer (fun a => is_finite a = true) zr); [apply zr_mul_r | exact Fa | exact Zdv]).
    split; [|split; [|split]].
    - apply eye_off; [|exact HF]. apply (am_add zr zr); [apply zr_add | apply (am_add zr zr); [apply zr_add | |] |].
      + apply ZB; assumption.
      + apply ZA; assumption.
      + apply ZA; assumption.
    - apply zm_off. apply (am_add zr zr); [apply zr_add | apply (am_add zr zr); [apply zr_add | |] |].
      + apply ZB; [apply (zr_mul_r (b64_div r0 mu)); assumption|]. apply (am_sub zr zr); [apply zr_sub | | exact (Zlv x Fx)].
        apply (am_outer zr (fun a => is_finite a = true)); [apply zr_mul_l | exact Zdx | exact Fv].
      + apply ZA; [apply zr_div; assumption | exact Fww].
      + apply ZA; [exact HG|]. repeat split; apply int_val; lia.
    - apply zm_off. apply (am_sub zr zr); [apply zr_sub | apply (am_add zr zr); [apply zr_add | apply (am_sub zr zr); [apply zr_sub | |] |] |].
      + apply (am_neg zr); [apply zr_neg | exact (Zlv _ Cw)].
      + exact (Zrv _ Cw).
      + apply ZA; [exact HFt|].
        assert (B1 : allm (bd (100 + (100 + 1) + (100 + (100 + 1)))) (@eye3 _ N)).
        { assert (forall n : Z, (n = 0 \/ n = 1)%Z -> bd (100 + (100 + 1) + (100 + (100 + 1))) (b64_Z n)) as Hb.
          { intros n Hn. destruct (int_val n ltac:(lia)) as [Vn Fn]. split; [exact Fn|]. rewrite Vn. rewrite Rabs_pos_eq by (apply IZR_le; lia). apply IZR_le. lia. }
          split; [|split]; (split; [|split]); apply Hb; auto. }
        apply (am_imp _ _ _ (bd_fin (100 + (100 + 1) + (100 + (100 + 1)) + 1 + 1))). apply (am_add (bd (100 + (100 + 1) + (100 + (100 + 1)) + 1)) zr (bd (100 + (100 + 1) + (100 + (100 + 1)) + 1 + 1))).
        { intros a b Ha Hb. apply bd_add; [exact Ha | apply (bd_mono 0); [apply zr_bd; exact Hb | lia] | lia]. }
        * apply (am_sub (bd (100 + (100 + 1) + (100 + (100 + 1)))) (bd (100 + (100 + 1) + (100 + (100 + 1))))); [|exact B1 | exact Buu]. intros a b Ha Hb. apply bd_sub; try assumption; lia.
        * apply am_mul_zero.
          -- apply (am_imp _ _ _ (bd_fin (100 + 100 + 1 + 100))). apply (am_divs (bd (100 + 100 + 1))); [intros a Ha; apply bd_div; try assumption; lia|].
             apply (am_sub (bd (100 + 100)) (bd (100 + 100))); [intros a b Ha Hb; apply bd_sub; try assumption; lia | exact Bxv|].
             apply (am_imp (bd (100 + 100))); [|exact Bvx]. intros a Ha. apply (bd_mono (100 + 100)); [exact Ha | lia].
          -- apply (Zrv u). destruct Cu as [[? _] [[? _] [? _]]]; repeat split; assumption.
      + apply ZA; [|exact Fuu]. apply zr_div; [|exact Nr2]. apply (zr_mul_r (b64_div mu (b64_mul r0 r0))); [|exact ZC].
        apply (bd_fin (100 + (100 + 1 + (100 + 1)))). apply bd_div; try assumption; lia.
    - apply eye_off; [|exact HGt]. apply (am_sub zr zr); [apply zr_sub | apply (am_add zr zr); [apply zr_add | |] |].
      + apply ZB; assumption.
      + apply (am_divs zr); [intros a Ha; apply zr_div; assumption|].
        apply (am_right zr); [intros a Ha; apply zr_mul_l; [exact Ha | apply Br] | exact (ZA _ _ F1 Fuu)].
      + apply ZA; assumption.
  Qed.
End State.
