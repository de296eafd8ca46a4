(** * B32Hyp: the hyperbolic Kepler solver in single precision (proofs for C110) *)
From Coq Require Import ZArith Reals Lra Lia Psatz Bool.
From Flocq Require Import Core IEEE754.BinarySingleNaN.
From Verif Require Import Num NumR NumB32 Spec KepEqu LoopFacts SolveFacts SolveHypb HypNewton HypFloat B32Lib B32Facts B32Acc B32Rel B32Newton.
Local Open Scope R_scope.

Lemma hyp_ops (L : libm) : let N := Num_B32 L in
  let fin := fun x : b32 => is_finite x = true in let big := IZR (2 ^ 127) in
  (forall x y B, fin x -> fin y -> 1 <= B <= big -> Rabs (B2R x + B2R y) <= B -> fin (n_add x y) /\ Rabs (B2R (n_add x y) - (B2R x + B2R y)) <= un * B) /\
  (forall x y B, fin x -> fin y -> 1 <= B <= big -> Rabs (B2R x - B2R y) <= B -> fin (n_sub x y) /\ Rabs (B2R (n_sub x y) - (B2R x - B2R y)) <= un * B) /\
  (forall x y B, fin x -> fin y -> 1 <= B <= big -> Rabs (B2R x * B2R y) <= B -> fin (n_mul x y) /\ Rabs (B2R (n_mul x y) - (B2R x * B2R y)) <= un * B) /\
  (forall x y B, fin x -> B2R y <> 0 -> 1 <= B <= big -> Rabs (B2R x / B2R y) <= B -> fin (n_div x y) /\ Rabs (B2R (n_div x y) - (B2R x / B2R y)) <= un * B) /\
  (forall x B, fin x -> 0 < B2R x -> 1 <= B <= big -> sqrt (B2R x) <= B -> fin (n_sqrt x) /\ Rabs (B2R (n_sqrt x) - sqrt (B2R x)) <= un * B) /\
  (forall x t, fin x -> fin t -> exceeds x t = false -> Rabs (B2R x) <= B2R t).
Proof.
  intros N fin big. repeat split; intros.
  1, 2: destruct (add_exact x y H H0 ltac:(unfold big in *; lra)) as [E Fn].
  3, 4: destruct (sub_exact x y H H0 ltac:(unfold big in *; lra)) as [E Fn].
  5, 6: destruct (mul_exact x y H H0 ltac:(unfold big in *; lra)) as [E Fn].
  7, 8: destruct (div_exact x y H H0 ltac:(unfold big in *; lra)) as [E Fn].
  9, 10: destruct (sqrt_value x H H0) as [E Fn].
  1, 3, 5, 7, 9: exact Fn.
  - change (n_add x y) with (b32_add x y). rewrite E. apply rnd_un; [assumption|lra].
  - change (n_sub x y) with (b32_sub x y). rewrite E. apply rnd_un; [assumption|lra].
  - change (n_mul x y) with (b32_mul x y). rewrite E. apply rnd_un; [assumption|lra].
  - change (n_div x y) with (b32_div x y). rewrite E. apply rnd_un; [assumption|lra].
  - change (n_sqrt x) with (b32_sqrt x). rewrite E. apply rnd_un; [rewrite Rabs_pos_eq by apply sqrt_pos; assumption|lra].
  - change (Bltb t (Babs x) = false) in H1. rewrite lt_exact in H1 by (rewrite ?is_finite_Babs; assumption).
    rewrite B2R_Babs in H1. destruct (Rlt_bool_spec (B2R t) (Rabs (B2R x))) as [Q|Q]; [discriminate H1|exact Q].
Qed.

(** where the root is *)
Lemma root_top (e N X : R) (k : nat) : 2 <= e -> 0 <= X -> e * sinh X - X = N -> N <= 2 ^ k * e -> X <= 7 / 10 * INR (3 + k).
Proof.
  intros He X0 HX HN. pose proof (X_le_N e N X He X0 HX) as XN.
  assert (S : sinh X <= 2 * 2 ^ k) by (assert (e * sinh X <= e * (2 * 2 ^ k)) by lra; apply Rmult_le_reg_l with e; lra).
  assert (P : 1 <= 2 ^ k) by (apply pow_R1_Rle; lra).
  assert (E : exp X <= 2 ^ (3 + k)).
  { assert (exp X = 2 * sinh X + exp (- X)) by (unfold sinh; lra). assert (exp (- X) <= exp 0) by (apply exp_mono; lra). rewrite exp_0 in *.
    rewrite pow_add. simpl (2 ^ 3). lra. }
  rewrite Rmult_comm. apply Rnot_lt_le. intros K. apply exp_increasing in K. rewrite exp_pow in K.
  assert (2 ^ (3 + k) <= exp (7 / 10) ^ (3 + k)) by (apply pow_incr; split; [lra|exact exp_07]). lra.
Qed.

Lemma hyp_both (L : libm) (Nm e tol : b32) (delta s : R) (max_iter : Z) : let N := Num_B32 L in
  s = 1 \/ s = -1 -> is_finite Nm = true -> is_finite e = true -> is_finite tol = true -> 0 <= B2R tol ->
  2 <= B2R e <= 2 ^ 100 -> 0 <= s * B2R Nm <= 2 ^ 100 -> s * B2R Nm <= 2 ^ 40 * B2R e -> (s = -1 -> - B2R Nm <= 2 ^ 4 * B2R e) ->
  0 <= delta <= / 100000 ->
  (forall x, is_finite x = true -> Rabs (B2R x) <= 40 ->
    (is_finite (m_sinh L x) = true /\ Rabs (B2R (m_sinh L x) - sinh (B2R x)) <= delta * cosh (B2R x)) /\
    (is_finite (m_cosh L x) = true /\ Rabs (B2R (m_cosh L x) - cosh (B2R x)) <= delta * cosh (B2R x))) ->
  (forall x, is_finite x = true -> 0 < B2R x -> (s = 1 -> / 2 <= B2R x) ->
    is_finite (m_log L x) = true /\ Rabs (B2R (m_log L x) - ln (B2R x)) <= delta * (1 + Rabs (ln (B2R x)))) ->
  (12 <= max_iter)%Z ->
  let H := @solve_kepler_hypb _ N Nm e tol max_iter in
  is_finite H = true /\
  exists X, 0 <= X /\ B2R e * sinh X - X = s * B2R Nm /\
    Rabs (s * B2R H - X) <= 22 / 10 * (B2R tol / (B2R e * cosh X) + delta * (X + 4) + (X + 31) * / IZR (2 ^ 24)) + / 10 ^ 19.
Proof.
  intros N Hs FN Fe Ft T0 [He He'] [HN HN'] HNe HNb Hd Hy Hl Hi H.
  destruct (hypb_unique (B2R e) (s * B2R Nm) ltac:(lra)) as [X [HX _]]. rewrite kepler_equ_hypb_R in HX.
  assert (HX' : B2R e * sinh X - X = s * B2R Nm) by lra.
  assert (X0 : 0 <= X).
  { apply Rnot_lt_le. intros K. pose proof (sinh_ge_id (- X) ltac:(lra)) as S. replace (sinh (- X)) with (- sinh X) in S by (unfold sinh; rewrite Ropp_involutive; lra). nra. }
  pose proof (root_top (B2R e) (s * B2R Nm) X 40 He X0 HX' HNe) as XT. replace (INR (3 + 40)) with 43 in XT by (rewrite INR_IZR_INZ; reflexivity).
  assert (U : 0 < un <= / 1000000 /\ un = 101 / 100 * / IZR (2 ^ 24) /\ 43 * un <= / 10000) by (unfold un, eps; simpl; lra).
  destruct U as (U1 & U2 & U3).
  assert (DX : 0 <= delta * (X + 4) <= / 100000 * (7 / 10 * 43 + 4)) by (split; [apply Rmult_le_pos; lra|apply Rmult_le_compat; lra]).
  assert (UX : (X + 31) * un <= (7 / 10 * 43 + 31) * un) by (apply Rmult_le_compat_r; lra).
  assert (P1 : 2 ^ 100 <= / 21 * IZR (2 ^ 127)).
  { apply Rmult_le_reg_l with 21; [lra|]. rewrite <- Rmult_assoc, Rinv_r, Rmult_1_l, pow_IZR, <- mult_IZR by lra. apply IZR_le. apply Z.leb_le. vm_compute. reflexivity. }
  destruct (hyp_ops L) as (A1 & A2 & A3 & A4 & A5 & A6).
  destruct (const_val 1 ltac:(lia)) as [V1 G1]. destruct (const_val 2 ltac:(lia)) as [V2 G2].
  assert (TT : forall k, s * B2R Nm <= k * B2R e -> 0 <= 2 * (s * B2R Nm) / B2R e <= 2 * k).
  { intros k Hk. assert (0 < / B2R e) by (apply Rinv_0_lt_compat; lra). split; [apply Rmult_le_pos; lra|]. apply Rmult_le_reg_r with (B2R e); [lra|]. unfold Rdiv. rewrite Rmult_assoc, Rinv_l; lra. }
  assert (BT : 3 * (1 + 2 * (s * B2R Nm) / B2R e) ^ 2 <= IZR (2 ^ 127)).
  { pose proof (TT _ HNe) as T.
    apply Rle_trans with (3 * (1 + 2 * 2 ^ 40) ^ 2).
    - apply Rmult_le_compat_l; [lra|]. apply pow_incr. lra.
    - rewrite (pow_IZR 2 40), <- mult_IZR, <- (plus_IZR 1), pow_IZR, <- mult_IZR. apply IZR_le. apply Z.leb_le. vm_compute. reflexivity. }
  assert (BP : un * match Rle_dec 0 s with left _ => 1 | right _ => (1 + 2 * (2 * (s * B2R Nm) / B2R e)) ^ 2 end <= / 3000).
  { destruct (Rle_dec 0 s) as [S|S]; [lra|]. assert (Es : s = -1) by (destruct Hs; lra). pose proof (TT (2 ^ 4) ltac:(rewrite Es; specialize (HNb Es); lra)) as T.
    apply Rle_trans with (un * (1 + 4 * 2 ^ 4) ^ 2); [apply Rmult_le_compat_l; [lra|]; apply pow_incr; lra|]. unfold un, eps. simpl. lra. }
  destruct (HypFloat.solver_close b32 N B2R (fun x => is_finite x = true) un (IZR (2 ^ 127)) U1 A1 A2 A3 A4 A5 (conj G1 V1) (conj G2 V2) A6
    Nm e delta X s Hs Fe FN He X0 HX' (proj1 Hd) ltac:(lra) ltac:(lra) BT
    ltac:(intros x Fx Bx; apply (Hy x Fx); lra) ltac:(intros x Fx Bx; apply (Hy x Fx); lra) BP Hl tol max_iter Ft T0 Hi) as [FH C].
  split; [exact FH|]. exists X. split; [exact X0|]. split; [exact HX'|]. change (solve_kepler_hypb Nm e tol max_iter) with H in C.
  apply Rle_trans with (1 := C). rewrite U2.
  assert (0 < / IZR (2 ^ 24)) by (apply Rinv_0_lt_compat, IZR_lt; reflexivity).
  assert (0 <= X * / IZR (2 ^ 24)) by (apply Rmult_le_pos; lra).
  assert (0 <= B2R tol / (B2R e * cosh X)).
  { pose proof (SolveFacts.cosh_ge_1 X). apply Rmult_le_pos; [lra|]. left. apply Rinv_0_lt_compat. nra. }
  lra.
Qed.

Lemma hyp_float (L : libm) (Nm e tol : b32) (delta : R) (max_iter : Z) : let N := Num_B32 L in
  is_finite Nm = true -> is_finite e = true -> is_finite tol = true -> 0 <= B2R tol -> 2 <= B2R e <= 2 ^ 100 -> 0 <= B2R Nm <= 2 ^ 100 -> B2R Nm <= 2 ^ 40 * B2R e ->
  0 <= delta <= / 100000 ->
  (forall x, is_finite x = true -> Rabs (B2R x) <= 40 ->
    (is_finite (m_sinh L x) = true /\ Rabs (B2R (m_sinh L x) - sinh (B2R x)) <= delta * cosh (B2R x)) /\
    (is_finite (m_cosh L x) = true /\ Rabs (B2R (m_cosh L x) - cosh (B2R x)) <= delta * cosh (B2R x))) ->
  (forall x, is_finite x = true -> / 2 <= B2R x ->
    is_finite (m_log L x) = true /\ Rabs (B2R (m_log L x) - ln (B2R x)) <= delta * (1 + Rabs (ln (B2R x)))) ->
  (12 <= max_iter)%Z ->
  let H := @solve_kepler_hypb _ N Nm e tol max_iter in
  is_finite H = true /\
  exists X, B2R e * sinh X - X = B2R Nm /\
    Rabs (B2R H - X) <= 22 / 10 * (B2R tol / (B2R e * cosh X) + delta * (Rabs X + 4) + (Rabs X + 31) * / IZR (2 ^ 24)) + / 10 ^ 19.
Proof.
  intros N FN Fe Ft T0 He HN HNe Hd Hy Hl Hi H.
  destruct (hyp_both L Nm e tol delta 1 max_iter (or_introl eq_refl) FN Fe Ft T0 He ltac:(lra) ltac:(lra) ltac:(intros; lra) Hd Hy
    ltac:(intros x Fx _ Bx; exact (Hl x Fx (Bx eq_refl))) Hi) as [A [X [X0 [HX B]]]].
  split; [exact A|]. exists X. rewrite !Rmult_1_l in *. rewrite (Rabs_pos_eq X) by exact X0. split; [exact HX|exact B].
Qed.
Lemma hyp_float_before (L : libm) (Nm e tol : b32) (delta : R) (max_iter : Z) : let N := Num_B32 L in
  is_finite Nm = true -> is_finite e = true -> is_finite tol = true -> 0 <= B2R tol -> 2 <= B2R e <= 2 ^ 100 -> - 2 ^ 100 <= B2R Nm <= 0 -> - (2 ^ 4 * B2R e) <= B2R Nm ->
  0 <= delta <= / 100000 ->
  (forall x, is_finite x = true -> Rabs (B2R x) <= 40 ->
    (is_finite (m_sinh L x) = true /\ Rabs (B2R (m_sinh L x) - sinh (B2R x)) <= delta * cosh (B2R x)) /\
    (is_finite (m_cosh L x) = true /\ Rabs (B2R (m_cosh L x) - cosh (B2R x)) <= delta * cosh (B2R x))) ->
  (forall x, is_finite x = true -> 0 < B2R x ->
    is_finite (m_log L x) = true /\ Rabs (B2R (m_log L x) - ln (B2R x)) <= delta * (1 + Rabs (ln (B2R x)))) ->
  (12 <= max_iter)%Z ->
  let H := @solve_kepler_hypb _ N Nm e tol max_iter in
  is_finite H = true /\
  exists X, B2R e * sinh X - X = B2R Nm /\
    Rabs (B2R H - X) <= 22 / 10 * (B2R tol / (B2R e * cosh X) + delta * (Rabs X + 4) + (Rabs X + 31) * / IZR (2 ^ 24)) + / 10 ^ 19.
Proof.
  intros N FN Fe Ft T0 He HN HNe Hd Hy Hl Hi H.
  assert (K : 2 ^ 4 <= 2 ^ 40) by (apply Rle_pow; [lra|lia]).
  destruct (hyp_both L Nm e tol delta (-1) max_iter (or_intror eq_refl) FN Fe Ft T0 He ltac:(lra) ltac:(pose proof (Rmult_le_compat_r (B2R e) _ _ ltac:(lra) K); lra) ltac:(intros; lra) Hd Hy
    ltac:(intros x Fx Px _; exact (Hl x Fx Px)) Hi) as [A [X [X0 [HX B]]]].
  split; [exact A|]. exists (- X). rewrite Rabs_Ropp, (Rabs_pos_eq X) by exact X0.
  replace (sinh (- X)) with (- sinh X) by (unfold sinh; rewrite Ropp_involutive; lra). replace (cosh (- X)) with (cosh X) by (unfold cosh; rewrite Ropp_involutive; lra).
  split; [lra|]. change (@solve_kepler_hypb _ _ Nm e tol max_iter) with H in B.
  replace (B2R H - - X) with (- (-1 * B2R H - X)) by ring. rewrite Rabs_Ropp. exact B.
Qed.

(** ** A library: the correctly rounded functions *)
Definition fl32 (x : R) : b32 := binary_normalize 24 128 _ _ mode_NE (ZnearestE (scaled_mantissa radix2 fx x)) (cexp radix2 fx x) false.
Lemma fl32_value (x : R) : Rabs x <= IZR (2 ^ 127) -> is_finite (fl32 x) = true /\ B2R (fl32 x) = rnd x.
Proof.
  intros H. pose proof (binary_normalize_correct 24 128 _ _ mode_NE (ZnearestE (scaled_mantissa radix2 fx x)) (cexp radix2 fx x) false) as K.
  assert (R : round radix2 (SpecFloat.fexp 24 128) (round_mode mode_NE) (F2R (Float radix2 (ZnearestE (scaled_mantissa radix2 fx x)) (cexp radix2 fx x))) = rnd x).
  { apply (rnd_id (rnd x)). apply generic_format_round; [apply fexp_correct; reflexivity|apply valid_rnd_N]. }
  cbv zeta in K. rewrite R in K.
  rewrite Rlt_bool_true in K.
  - destruct K as [K1 [K2 _]]. split; [exact K2|exact K1].
  - rewrite max32. apply abs_inv in H. assert (B : F32 (IZR (2 ^ 127))) by exact big_F32.
    apply Rle_lt_trans with (IZR (2 ^ 127)); [|apply IZR_lt; reflexivity].
    apply abs_round_le_generic; [apply fexp_correct; reflexivity|apply valid_rnd_N|exact B|apply abs_le; lra].
Qed.
Definition round_libm32 : libm := {|
  m_cbrt := fun x => x; m_sin := fun x => fl32 (sin (B2R x)); m_cos := fun x => fl32 (cos (B2R x));
  m_sinh := fun x => fl32 (sinh (B2R x)); m_cosh := fun x => fl32 (cosh (B2R x)); m_log := fun x => fl32 (ln (B2R x));
  m_arccos := fun x => fl32 (acos (B2R x)); m_arctan2 := fun y x => fl32 (atan (B2R y / B2R x)) |}.
Lemma fl32_close (x m : R) : Rabs x <= m -> 1 <= m -> m <= IZR (2 ^ 127) -> is_finite (fl32 x) = true /\ Rabs (B2R (fl32 x) - x) <= un * m.
Proof. intros H1 H2 H3. destruct (fl32_value x ltac:(lra)) as [Fn V]. split; [exact Fn|]. rewrite V. now apply rnd_un. Qed.
Lemma cosh_top (x : R) : Rabs x <= 40 -> cosh x <= IZR (2 ^ 127).
Proof.
  intros H. apply abs_inv in H. pose proof (exp_mono x (INR 40 * 1) ltac:(rewrite INR_IZR_INZ; simpl; lra)) as A. pose proof (exp_mono (- x) (INR 40 * 1) ltac:(rewrite INR_IZR_INZ; simpl; lra)) as B.
  rewrite exp_pow in A, B. assert (C : exp 1 ^ 40 <= IZR (2 ^ 127)).
  { apply Rle_trans with (3 ^ 40); [apply pow_incr; split; [left; apply exp_pos|exact exp_le_3]|]. rewrite pow_IZR. apply IZR_le. apply Z.leb_le. vm_compute. reflexivity. }
  unfold cosh. lra.
Qed.
Lemma ln_top (x : b32) : 0 < B2R x -> 1 + Rabs (ln (B2R x)) <= IZR (2 ^ 127).
Proof.
  intros P. pose proof (abs_B2R_lt_emax 24 128 x) as M. change (bpow radix2 128) with (IZR (2 ^ 128)) in M.
  pose proof (Rle_abs (B2R x)) as A.
  assert (U : ln (B2R x) <= INR 128 * 1).
  { apply Rnot_lt_le. intros K. apply exp_increasing in K. rewrite exp_ln, exp_pow in K by exact P.
    assert (2 ^ 128 <= exp 1 ^ 128) by (apply pow_incr; pose proof (exp_ineq1_le 1); lra).
    rewrite pow_IZR in *. change (2 ^ Z.of_nat 128)%Z with (2 ^ 128)%Z in *. lra. }
  assert (D : - (INR 149 * 1) <= ln (B2R x)).
  { apply Rnot_lt_le. intros K. apply exp_increasing in K. rewrite exp_ln, exp_Ropp, exp_pow in K by exact P.
    assert (Y : B2R x >= bpow radix2 (Z.opp 149)).
    { apply Rle_ge. pose proof (abs_B2R_ge_emin 24 128 x) as G. rewrite (Rabs_pos_eq (B2R x)) in G by lra. change (SpecFloat.emin 24 128) with (Z.opp 149) in G.
      apply G. destruct x as [sx|sx| |sx mx ex bx]; try reflexivity; simpl in P; lra. }
    apply Rge_le in Y. rewrite bpow_opp in Y. assert (/ exp 1 ^ 149 <= / bpow radix2 149).
    { apply Rinv_le_contravar; [apply bpow_gt_0|]. change (bpow radix2 149) with (IZR (2 ^ Z.of_nat 149)). rewrite <- pow_IZR. apply pow_incr. pose proof (exp_ineq1_le 1). lra. }
    lra. }
  rewrite !INR_IZR_INZ in *. change (Z.of_nat 128) with 128%Z in *. change (Z.of_nat 149) with 149%Z in *.
  apply Rle_trans with (1 + IZR 149); [apply Rplus_le_compat_l, abs_le; lra|].
  rewrite <- (plus_IZR 1). apply IZR_le. apply Z.leb_le. vm_compute. reflexivity.
Qed.
Lemma round_libm32_hyp : (forall x, is_finite x = true -> Rabs (B2R x) <= 40 ->
    (is_finite (m_sinh round_libm32 x) = true /\ Rabs (B2R (m_sinh round_libm32 x) - sinh (B2R x)) <= un * cosh (B2R x)) /\
    (is_finite (m_cosh round_libm32 x) = true /\ Rabs (B2R (m_cosh round_libm32 x) - cosh (B2R x)) <= un * cosh (B2R x))) /\
  (forall x, is_finite x = true -> 0 < B2R x ->
    is_finite (m_log round_libm32 x) = true /\ Rabs (B2R (m_log round_libm32 x) - ln (B2R x)) <= un * (1 + Rabs (ln (B2R x)))).
Proof.
  split; intros x _ H.
  - pose proof (cosh_top _ H) as T. pose proof (SolveFacts.cosh_ge_1 (B2R x)) as C. pose proof (abs_sinh (B2R x)) as S.
    split; apply fl32_close; try apply abs_le; lra.
  - pose proof (ln_top x H) as T. pose proof (Rabs_pos (ln (B2R x))). apply fl32_close; lra.
Qed.
(** e = 2, N = 3 and N = -3 *)
Lemma root_3 (X : R) : 2 * sinh X - X = 3 -> 1 <= X <= 2.
Proof.
  intros HX. assert (X0 : 0 <= X).
  { apply Rnot_lt_le. intros K. pose proof (sinh_ge_id (- X) ltac:(lra)) as S. replace (sinh (- X)) with (- sinh X) in S by (unfold sinh; rewrite Ropp_involutive; lra). lra. }
  pose proof (sinh_ge_cube X X0). split; [|nra]. apply Rnot_lt_le. intros K.
  assert (sinh X < sinh 1) by (apply sinh_lt; exact K). assert (sinh 1 <= 3 / 2) by (unfold sinh; pose proof exp_le_3; pose proof (exp_pos (- (1))); lra). lra.
Qed.
Lemma small_bound (X : R) : 1 <= Rabs X <= 2 -> let N := Num_B32 round_libm32 in
  22 / 10 * (B2R (@default_tol _ N) / (2 * cosh X) + un * (Rabs X + 4) + (Rabs X + 31) * / IZR (2 ^ 24)) + / 10 ^ 19 <= / 100000.
Proof.
  intros S1 N. destruct (tol_small round_libm32) as [Ft [T0 Tt]]. change (0 <= B2R (@default_tol _ N)) in T0. change (B2R (@default_tol _ N) <= 101 / 100000000) in Tt.
  pose proof (SolveFacts.cosh_ge_1 X) as C.
  assert (G : B2R (@default_tol _ N) / (2 * cosh X) <= B2R (@default_tol _ N) / 2).
  { apply Rmult_le_reg_r with (2 * cosh X); [lra|]. unfold Rdiv. rewrite Rmult_assoc, Rinv_l by lra. nra. }
  assert (U : 0 < un <= / 16000000 /\ / IZR (2 ^ 24) <= / 16000000) by (unfold un, eps; simpl; lra).
  assert (un * (Rabs X + 4) <= / 16000000 * 6) by (apply Rmult_le_compat; lra).
  assert (0 < / IZR (2 ^ 24)) by (apply Rinv_0_lt_compat, IZR_lt; reflexivity).
  assert ((Rabs X + 31) * / IZR (2 ^ 24) <= 33 * / 16000000) by (apply Rmult_le_compat; lra).
  assert (/ 10 ^ 19 <= / 10 ^ 18) by (simpl; lra). simpl (10 ^ 18) in *. lra.
Qed.
Lemma hyp_float_example : let N := Num_B32 round_libm32 in
  let H := @solve_kepler_hypb _ N (b32_Z 3) (b32_Z 2) (@default_tol _ N) hypb_max_iter in
  is_finite H = true /\ exists X, 1 <= X <= 2 /\ 2 * sinh X - X = 3 /\ Rabs (B2R H - X) <= / 100000.
Proof.
  intros N H. destruct (const_val 3 ltac:(lia)) as [V3 F3]. destruct (const_val 2 ltac:(lia)) as [V2 F2].
  destruct round_libm32_hyp as [Hy Hl]. destruct (tol_small round_libm32) as [Ft [T0 Tt]].
  destruct (hyp_float round_libm32 (b32_Z 3) (b32_Z 2) (@default_tol _ N) un hypb_max_iter F3 F2 Ft T0) as [A [X [HX B]]]; auto.
  - rewrite V2. split; [lra|]. simpl. lra.
  - rewrite V3. split; [lra|]. simpl. lra.
  - rewrite V2, V3. simpl. lra.
  - unfold un, eps. lra.
  - intros x Fx Bx. apply Hl; [exact Fx|lra].
  - unfold hypb_max_iter. lia.
  - split; [exact A|]. exists X. change (@solve_kepler_hypb _ _ (b32_Z 3) (b32_Z 2) (@default_tol _ N) hypb_max_iter) with H in B. clearbody H.
    rewrite V2, V3 in *. pose proof (root_3 X HX) as S1. split; [exact S1|]. split; [exact HX|]. apply Rle_trans with (1 := B).
    apply small_bound. rewrite Rabs_pos_eq; lra.
Qed.
Lemma hyp_before_example : let N := Num_B32 round_libm32 in
  let H := @solve_kepler_hypb _ N (b32_Z (-3)) (b32_Z 2) (@default_tol _ N) hypb_max_iter in
  is_finite H = true /\ exists X, -2 <= X <= -1 /\ 2 * sinh X - X = -3 /\ Rabs (B2R H - X) <= / 100000.
Proof.
  intros N H. destruct (const_val (-3) ltac:(lia)) as [V3 F3]. destruct (const_val 2 ltac:(lia)) as [V2 F2].
  destruct round_libm32_hyp as [Hy Hl]. destruct (tol_small round_libm32) as [Ft [T0 Tt]].
  destruct (hyp_float_before round_libm32 (b32_Z (-3)) (b32_Z 2) (@default_tol _ N) un hypb_max_iter F3 F2 Ft T0) as [A [X [HX B]]]; auto.
  - rewrite V2. split; [lra|]. simpl. lra.
  - rewrite V3. split; [simpl; lra|lra].
  - rewrite V2, V3. simpl. lra.
  - unfold un, eps. lra.
  - unfold hypb_max_iter. lia.
  - split; [exact A|]. exists X. change (@solve_kepler_hypb _ _ (b32_Z (-3)) (b32_Z 2) (@default_tol _ N) hypb_max_iter) with H in B. clearbody H.
    rewrite V2, V3 in *.
    assert (S1 := root_3 (- X) ltac:(replace (sinh (- X)) with (- sinh X) by (unfold sinh; rewrite Ropp_involutive; lra); lra)). split; [lra|]. split; [exact HX|]. apply Rle_trans with (1 := B).
    apply small_bound. rewrite Rabs_left; lra.
Qed.
