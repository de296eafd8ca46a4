(** * B64Hyp6: the hyperbolic Kepler solver in double precision for e >= 6/5 (proofs for C112) *)
From Coq Require Import ZArith Reals Lra Lia Psatz Bool.
From Flocq Require Import Core IEEE754.BinarySingleNaN.
From Verif Require Import Num NumR NumB64 Spec KepEqu LoopFacts SolveFacts SolveHypb HypNewton HypNear HypFloat6 B64Lib B64Facts B64Acc B64Rel B64Newton B64Hyp.
From Verif Require HypFloat.
Import HypFloat (abs_le, abs_inv).
Local Open Scope R_scope.

Lemma root_top6 (e N X : R) (k : nat) : 6 / 5 <= e -> 0 <= X -> e * sinh X - X = N -> N <= 2 ^ k * e -> X <= 7 / 10 * INR (4 + k).
Proof.
  intros He X0 HX HN. pose proof (X_le_5N e N X He X0 HX) as XN.
  assert (S : sinh X <= 6 * 2 ^ k) by (assert (e * sinh X <= e * (6 * 2 ^ k)) by lra; apply Rmult_le_reg_l with e; lra).
  assert (P : 1 <= 2 ^ k) by (apply pow_R1_Rle; lra).
  assert (E : exp X <= 2 ^ (4 + k)).
  { assert (exp X = 2 * sinh X + exp (- X)) by (unfold sinh; lra). assert (exp (- X) <= exp 0) by (apply exp_mono; lra). rewrite exp_0 in *.
    rewrite pow_add. simpl (2 ^ 4). lra. }
  rewrite Rmult_comm. apply Rnot_lt_le. intros K. apply exp_increasing in K. rewrite exp_pow in K.
  assert (2 ^ (4 + k) <= exp (7 / 10) ^ (4 + k)) by (apply pow_incr; split; [lra|exact exp_07]). lra.
Qed.

Lemma hyp6_both (L : libm64) (Nm e tol : b64) (delta s : R) (max_iter : Z) : let N := Num_B64 L in
  s = 1 \/ s = -1 -> is_finite Nm = true -> is_finite e = true -> is_finite tol = true -> 0 <= B2R tol ->
  6 / 5 <= B2R e <= 2 ^ 1000 -> 0 <= s * B2R Nm <= 2 ^ 1000 -> s * B2R Nm <= 2 ^ 100 * B2R e -> (s = -1 -> - B2R Nm <= 2 ^ 18 * B2R e) ->
  0 <= delta <= / 100000 ->
  (forall x, is_finite x = true -> Rabs (B2R x) <= 100 ->
    (is_finite (d_sinh L x) = true /\ Rabs (B2R (d_sinh L x) - sinh (B2R x)) <= delta * cosh (B2R x)) /\
    (is_finite (d_cosh L x) = true /\ Rabs (B2R (d_cosh L x) - cosh (B2R x)) <= delta * cosh (B2R x))) ->
  (forall x, is_finite x = true -> 0 < B2R x -> (s = 1 -> / 2 <= B2R x) ->
    is_finite (d_log L x) = true /\ Rabs (B2R (d_log L x) - ln (B2R x)) <= delta * (1 + Rabs (ln (B2R x)))) ->
  (12 <= max_iter)%Z ->
  let H := @solve_kepler_hypb _ N Nm e tol max_iter in
  is_finite H = true /\
  exists X, 0 <= X /\ B2R e * sinh X - X = s * B2R Nm /\
    Rabs (s * B2R H - X) <= 3 * (B2R tol / (B2R e * cosh X - 1)) + 41 / 10 * (delta * (X + 13) + (X + 70) * / IZR (2 ^ 53)) + / 10 ^ 19.
Proof.
  intros N Hs FN Fe Ft T0 [He He'] [HN HN'] HNe HNb Hd Hy Hl Hi H.
  destruct (hypb_unique (B2R e) (s * B2R Nm) ltac:(lra)) as [X [HX _]]. rewrite kepler_equ_hypb_R in HX.
  assert (HX' : B2R e * sinh X - X = s * B2R Nm) by lra.
  assert (X0 : 0 <= X).
  { apply Rnot_lt_le. intros K. pose proof (sinh_ge_id (- X) ltac:(lra)) as S. replace (sinh (- X)) with (- sinh X) in S by (unfold sinh; rewrite Ropp_involutive; lra). nra. }
  pose proof (root_top6 (B2R e) (s * B2R Nm) X 100 He X0 HX' HNe) as XT. replace (INR (4 + 100)) with 104 in XT by (rewrite INR_IZR_INZ; reflexivity).
  assert (U : 0 < un <= / 1000000 /\ un = 101 / 100 * / IZR (2 ^ 53) /\ 104 * un <= / 10000) by (unfold un, eps; simpl; lra).
  destruct U as (U1 & U2 & U3).
  assert (DX : 0 <= delta * (X + 13) <= / 100000 * (7 / 10 * 104 + 13)) by (split; [apply Rmult_le_pos; lra|apply Rmult_le_compat; lra]).
  assert (UX : (X + 70) * un <= (7 / 10 * 104 + 70) * un) by (apply Rmult_le_compat_r; lra).
  assert (P1 : 2 ^ 1000 <= / 63 * IZR (2 ^ 1023)).
  { apply Rmult_le_reg_l with 63; [lra|]. rewrite <- Rmult_assoc, Rinv_r, Rmult_1_l, pow_IZR, <- mult_IZR by lra. apply IZR_le. apply Z.leb_le. vm_compute. reflexivity. }
  destruct (hyp_ops L) as (A1 & A2 & A3 & A4 & A5 & A6).
  destruct (const_val 1 ltac:(lia)) as [V1 G1]. destruct (const_val 2 ltac:(lia)) as [V2 G2].
  assert (TT : forall k, s * B2R Nm <= k * B2R e -> 0 <= 2 * (s * B2R Nm) / B2R e <= 2 * k).
  { intros k Hk. assert (0 < / B2R e) by (apply Rinv_0_lt_compat; lra). split; [apply Rmult_le_pos; lra|]. apply Rmult_le_reg_r with (B2R e); [lra|]. unfold Rdiv. rewrite Rmult_assoc, Rinv_l; lra. }
  assert (BT : 3 * (1 + 2 * (s * B2R Nm) / B2R e) ^ 2 <= IZR (2 ^ 1023)).
  { pose proof (TT _ HNe) as T.
    apply Rle_trans with (3 * (1 + 2 * 2 ^ 100) ^ 2).
    - apply Rmult_le_compat_l; [lra|]. apply pow_incr. lra.
    - rewrite (pow_IZR 2 100), <- mult_IZR, <- (plus_IZR 1), pow_IZR, <- mult_IZR. apply IZR_le. apply Z.leb_le. vm_compute. reflexivity. }
  assert (BP : un * match Rle_dec 0 s with left _ => 1 | right _ => (1 + 2 * (2 * (s * B2R Nm) / B2R e)) ^ 2 end <= / 3000).
  { destruct (Rle_dec 0 s) as [S|S]; [lra|]. assert (Es : s = -1) by (destruct Hs; lra). pose proof (TT (2 ^ 18) ltac:(rewrite Es; specialize (HNb Es); lra)) as T.
    apply Rle_trans with (un * (1 + 4 * 2 ^ 18) ^ 2); [apply Rmult_le_compat_l; [lra|]; apply pow_incr; lra|]. unfold un, eps. simpl. lra. }
  destruct (HypFloat6.solver_close b64 N B2R (fun x => is_finite x = true) un (IZR (2 ^ 1023)) U1 A1 A2 A3 A4 A5 (conj G1 V1) (conj G2 V2) A6
    Nm e delta X s Hs Fe FN He X0 HX' (proj1 Hd) ltac:(lra) ltac:(lra) BT
    ltac:(intros x Fx Bx; apply (Hy x Fx); lra) ltac:(intros x Fx Bx; apply (Hy x Fx); lra) BP Hl tol max_iter Ft T0 Hi) as [FH C].
  split; [exact FH|]. exists X. split; [exact X0|]. split; [exact HX'|]. change (solve_kepler_hypb Nm e tol max_iter) with H in C.
  apply Rle_trans with (1 := C). rewrite U2.
  assert (0 < / IZR (2 ^ 53)) by (apply Rinv_0_lt_compat, IZR_lt; reflexivity).
  assert (0 <= X * / IZR (2 ^ 53)) by (apply Rmult_le_pos; lra).
  assert (0 <= B2R tol / (B2R e * cosh X - 1)).
  { pose proof (SolveFacts.cosh_ge_1 X). apply Rmult_le_pos; [lra|]. left. apply Rinv_0_lt_compat. nra. }
  lra.
Qed.

Lemma hyp6_float (L : libm64) (Nm e tol : b64) (delta : R) (max_iter : Z) : let N := Num_B64 L in
  is_finite Nm = true -> is_finite e = true -> is_finite tol = true -> 0 <= B2R tol -> 6 / 5 <= B2R e <= 2 ^ 1000 -> 0 <= B2R Nm <= 2 ^ 1000 -> B2R Nm <= 2 ^ 100 * B2R e ->
  0 <= delta <= / 100000 ->
  (forall x, is_finite x = true -> Rabs (B2R x) <= 100 ->
    (is_finite (d_sinh L x) = true /\ Rabs (B2R (d_sinh L x) - sinh (B2R x)) <= delta * cosh (B2R x)) /\
    (is_finite (d_cosh L x) = true /\ Rabs (B2R (d_cosh L x) - cosh (B2R x)) <= delta * cosh (B2R x))) ->
  (forall x, is_finite x = true -> / 2 <= B2R x ->
    is_finite (d_log L x) = true /\ Rabs (B2R (d_log L x) - ln (B2R x)) <= delta * (1 + Rabs (ln (B2R x)))) ->
  (12 <= max_iter)%Z ->
  let H := @solve_kepler_hypb _ N Nm e tol max_iter in
  is_finite H = true /\
  exists X, B2R e * sinh X - X = B2R Nm /\
    Rabs (B2R H - X) <= 3 * (B2R tol / (B2R e * cosh X - 1)) + 41 / 10 * (delta * (Rabs X + 13) + (Rabs X + 70) * / IZR (2 ^ 53)) + / 10 ^ 19.
Proof.
  intros N FN Fe Ft T0 He HN HNe Hd Hy Hl Hi H.
  destruct (hyp6_both L Nm e tol delta 1 max_iter (or_introl eq_refl) FN Fe Ft T0 He ltac:(lra) ltac:(lra) ltac:(intros; lra) Hd Hy
    ltac:(intros x Fx _ Bx; exact (Hl x Fx (Bx eq_refl))) Hi) as [A [X [X0 [HX B]]]].
  split; [exact A|]. exists X. rewrite !Rmult_1_l in *. rewrite (Rabs_pos_eq X) by exact X0. split; [exact HX|exact B].
Qed.
Lemma hyp6_float_before (L : libm64) (Nm e tol : b64) (delta : R) (max_iter : Z) : let N := Num_B64 L in
  is_finite Nm = true -> is_finite e = true -> is_finite tol = true -> 0 <= B2R tol -> 6 / 5 <= B2R e <= 2 ^ 1000 -> - 2 ^ 1000 <= B2R Nm <= 0 -> - (2 ^ 18 * B2R e) <= B2R Nm ->
  0 <= delta <= / 100000 ->
  (forall x, is_finite x = true -> Rabs (B2R x) <= 100 ->
    (is_finite (d_sinh L x) = true /\ Rabs (B2R (d_sinh L x) - sinh (B2R x)) <= delta * cosh (B2R x)) /\
    (is_finite (d_cosh L x) = true /\ Rabs (B2R (d_cosh L x) - cosh (B2R x)) <= delta * cosh (B2R x))) ->
  (forall x, is_finite x = true -> 0 < B2R x ->
    is_finite (d_log L x) = true /\ Rabs (B2R (d_log L x) - ln (B2R x)) <= delta * (1 + Rabs (ln (B2R x)))) ->
  (12 <= max_iter)%Z ->
  let H := @solve_kepler_hypb _ N Nm e tol max_iter in
  is_finite H = true /\
  exists X, B2R e * sinh X - X = B2R Nm /\
    Rabs (B2R H - X) <= 3 * (B2R tol / (B2R e * cosh X - 1)) + 41 / 10 * (delta * (Rabs X + 13) + (Rabs X + 70) * / IZR (2 ^ 53)) + / 10 ^ 19.
Proof.
  intros N FN Fe Ft T0 He HN HNe Hd Hy Hl Hi H.
  assert (K : 2 ^ 18 <= 2 ^ 100) by (apply Rle_pow; [lra|lia]).
  destruct (hyp6_both L Nm e tol delta (-1) max_iter (or_intror eq_refl) FN Fe Ft T0 He ltac:(lra) ltac:(pose proof (Rmult_le_compat_r (B2R e) _ _ ltac:(lra) K); lra) ltac:(intros; lra) Hd Hy
    ltac:(intros x Fx Px _; exact (Hl x Fx Px)) Hi) as [A [X [X0 [HX B]]]].
  split; [exact A|]. exists (- X). rewrite Rabs_Ropp, (Rabs_pos_eq X) by exact X0.
  replace (sinh (- X)) with (- sinh X) by (unfold sinh; rewrite Ropp_involutive; lra). replace (cosh (- X)) with (cosh X) by (unfold cosh; rewrite Ropp_involutive; lra).
  split; [lra|]. change (@solve_kepler_hypb _ _ Nm e tol max_iter) with H in B.
  replace (B2R H - - X) with (- (-1 * B2R H - X)) by ring. rewrite Rabs_Ropp. exact B.
Qed.

(** e = 3/2, N = 3 and N = -3 *)
Lemma three_halves : B2R (b64_dec 3 2) = 3 / 2 /\ is_finite (b64_dec 3 2) = true.
Proof.
  split; [|vm_compute; reflexivity]. rewrite <- SF2R_B2SF. replace (B2SF (b64_dec 3 2)) with (SpecFloat.S754_finite false 6755399441055744 (Z.opp 52)) by (vm_compute; reflexivity).
  unfold SF2R, F2R. simpl. lra.
Qed.
Lemma root6_3 (X : R) : 3 / 2 * sinh X - X = 3 -> 1 <= X <= 2.
Proof.
  intros HX. assert (X0 : 0 <= X).
  { apply Rnot_lt_le. intros K. pose proof (sinh_ge_id (- X) ltac:(lra)) as S. replace (sinh (- X)) with (- sinh X) in S by (unfold sinh; rewrite Ropp_involutive; lra). lra. }
  pose proof (sinh_ge_cube X X0). split; [|nra]. apply Rnot_lt_le. intros K.
  assert (sinh X < sinh 1) by (apply sinh_lt; exact K). assert (sinh 1 <= 3 / 2) by (unfold sinh; pose proof exp_le_3; pose proof (exp_pos (- (1))); lra). lra.
Qed.
Lemma small6_bound (X : R) : 1 <= Rabs X <= 2 -> let N := Num_B64 round_libm64 in
  3 * (B2R (@default_tol _ N) / (3 / 2 * cosh X - 1)) + 41 / 10 * (un * (Rabs X + 13) + (Rabs X + 70) * / IZR (2 ^ 53)) + / 10 ^ 19 <= / 100000.
Proof.
  intros S1 N. destruct (tol_small round_libm64) as [Ft [T0 Tt]]. change (0 <= B2R (@default_tol _ N)) in T0. change (B2R (@default_tol _ N) <= 101 / 100000000) in Tt.
  pose proof (SolveFacts.cosh_ge_1 X) as C.
  assert (G : B2R (@default_tol _ N) / (3 / 2 * cosh X - 1) <= B2R (@default_tol _ N) / (1 / 2)).
  { apply Rmult_le_reg_r with (3 / 2 * cosh X - 1); [lra|]. unfold Rdiv. rewrite Rmult_assoc, Rinv_l by lra. nra. }
  assert (U : 0 < un <= / 1000000000000000 /\ / IZR (2 ^ 53) <= / 1000000000000000) by (unfold un, eps; simpl; lra).
  assert (un * (Rabs X + 13) <= / 1000000000000000 * 15) by (apply Rmult_le_compat; lra).
  assert (0 < / IZR (2 ^ 53)) by (apply Rinv_0_lt_compat, IZR_lt; reflexivity).
  assert ((Rabs X + 70) * / IZR (2 ^ 53) <= 72 * / 1000000000000000) by (apply Rmult_le_compat; lra).
  assert (/ 10 ^ 19 <= / 10 ^ 18) by (simpl; lra). simpl (10 ^ 18) in *. lra.
Qed.
Lemma hyp6_float_example : let N := Num_B64 round_libm64 in
  let H := @solve_kepler_hypb _ N (b64_Z 3) (b64_dec 3 2) (@default_tol _ N) hypb_max_iter in
  is_finite H = true /\ exists X, 1 <= X <= 2 /\ 3 / 2 * sinh X - X = 3 /\ Rabs (B2R H - X) <= / 100000.
Proof.
  intros N H. destruct (const_val 3 ltac:(lia)) as [V3 F3]. destruct three_halves as [V2 F2].
  destruct round_libm64_hyp as [Hy Hl]. destruct (tol_small round_libm64) as [Ft [T0 Tt]].
  destruct (hyp6_float round_libm64 (b64_Z 3) (b64_dec 3 2) (@default_tol _ N) un hypb_max_iter F3 F2 Ft T0) as [A [X [HX B]]]; auto.
  - rewrite V2. split; [lra|]. simpl. lra.
  - rewrite V3. split; [lra|]. simpl. lra.
  - rewrite V2, V3. simpl. lra.
  - unfold un, eps. lra.
  - intros x Fx Bx. apply Hl; [exact Fx|lra].
  - unfold hypb_max_iter. lia.
  - split; [exact A|]. exists X. change (@solve_kepler_hypb _ _ (b64_Z 3) (b64_dec 3 2) (@default_tol _ N) hypb_max_iter) with H in B. clearbody H.
    rewrite V2, V3 in *. pose proof (root6_3 X HX) as S1. split; [exact S1|]. split; [exact HX|]. apply Rle_trans with (1 := B).
    apply small6_bound. rewrite Rabs_pos_eq; lra.
Qed.
Lemma hyp6_before_example : let N := Num_B64 round_libm64 in
  let H := @solve_kepler_hypb _ N (b64_Z (-3)) (b64_dec 3 2) (@default_tol _ N) hypb_max_iter in
  is_finite H = true /\ exists X, -2 <= X <= -1 /\ 3 / 2 * sinh X - X = -3 /\ Rabs (B2R H - X) <= / 100000.
Proof.
  intros N H. destruct (const_val (-3) ltac:(lia)) as [V3 F3]. destruct three_halves as [V2 F2].
  destruct round_libm64_hyp as [Hy Hl]. destruct (tol_small round_libm64) as [Ft [T0 Tt]].
  destruct (hyp6_float_before round_libm64 (b64_Z (-3)) (b64_dec 3 2) (@default_tol _ N) un hypb_max_iter F3 F2 Ft T0) as [A [X [HX B]]]; auto.
  - rewrite V2. split; [lra|]. simpl. lra.
  - rewrite V3. split; [simpl; lra|lra].
  - rewrite V2, V3. simpl. lra.
  - unfold un, eps. lra.
  - unfold hypb_max_iter. lia.
  - split; [exact A|]. exists X. change (@solve_kepler_hypb _ _ (b64_Z (-3)) (b64_dec 3 2) (@default_tol _ N) hypb_max_iter) with H in B. clearbody H.
    rewrite V2, V3 in *.
    assert (S1 := root6_3 (- X) ltac:(replace (sinh (- X)) with (- sinh X) by (unfold sinh; rewrite Ropp_involutive; lra); lra)). split; [lra|]. split; [exact HX|]. apply Rle_trans with (1 := B).
    apply small6_bound. rewrite Rabs_left; lra.
Qed.
