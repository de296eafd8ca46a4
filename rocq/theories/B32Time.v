(** * B32Time: from the elapsed time to the eccentric anomaly in single precision (proofs for C111) *)
From Coq Require Import ZArith Reals Lra Lia Psatz Bool.
From Flocq Require Import Core IEEE754.BinarySingleNaN.
From Verif Require Import Num NumR NumB32 Spec SpecFl SpecFl32 KepEqu SolveFacts SolveHypb HypNewton TimeReal B32Examples2 B32Lib.
From Verif Require B32Closed B32Newton B32Hyp.
Local Open Scope R_scope.

Lemma split5 (x v : R) : Rabs (x - v) <= 5 * / IZR (2 ^ 24) * Rabs v -> Rabs x <= 1000001 / 1000000 * Rabs v + 0.
Proof.
  intros H. replace x with (v + (x - v)) by ring. pose proof (Rabs_triang v (x - v)). pose proof (Rabs_pos v).
  assert (5 * / IZR (2 ^ 24) <= / 1000000) by (simpl; lra).
  assert (5 * / IZR (2 ^ 24) * Rabs v <= / 1000000 * Rabs v) by (apply Rmult_le_compat_r; lra). lra.
Qed.
Lemma ellipse : forall (L : libm) (a dt mu e : b32) (delta : R) (max_iter : Z), let N := Num_B32 L in
  is_finite a = true -> is_finite dt = true -> is_finite mu = true -> 0 < B2R a -> 0 < B2R mu ->
  in_range 125 (B2R a ^ 3) -> in_range 125 (B2R mu / B2R a ^ 3) -> let M := sqrt (B2R mu / B2R a ^ 3) * B2R dt in in_range 125 M ->
  Rabs M <= 50 -> is_finite e = true -> 0 <= B2R e <= 3 / 4 -> 0 <= delta ->
  (forall x, is_finite x = true -> Rabs (B2R x) <= 3 * Rabs M + 3 ->
    is_finite (m_sin L x) = true /\ Rabs (B2R (m_sin L x) - sin (B2R x)) <= delta /\
    is_finite (m_cos L x) = true /\ Rabs (B2R (m_cos L x) - cos (B2R x)) <= delta) ->
  26 * delta + (8 * Rabs M + 115) * / IZR (2 ^ 24) <= / 1000 -> (10 <= max_iter)%Z ->
  let E := @solve_kepler_elps _ N (mean_anomaly_elps a dt mu) e (@default_tol _ N) max_iter in
  is_finite E = true /\
  exists X, X - B2R e * sin X = M /\ Rabs (B2R E - X) <= / 200000000000 + 29 * delta + (29 * Rabs M + 127) * / IZR (2 ^ 24).
Proof.
  intros L a dt mu e delta max_iter N Fa Ft Fm Ha Hm R1 R2 M R3 HM Fe He Hd Htrig HD Hi E.
  destruct (B32Closed.anomaly_elps_close L a dt mu Fa Ft Fm Ha Hm R1 R2 R3) as [FM CM].
  match type of CM with close _ ?x ?v => change (Rabs (x - v) <= 5 * / IZR (2 ^ 24) * Rabs v) in CM end.
  change (sqrt (B2R mu / B2R a ^ 3) * B2R dt) with M in CM. fold N in FM, CM.
  unfold E. clear E. set (m := @mean_anomaly_elps _ N a dt mu) in *. clearbody m M.
  pose proof (split5 _ _ CM) as S. pose proof (Rabs_pos M) as P.
  assert (U : 0 < / IZR (2 ^ 24)) by (apply Rinv_0_lt_compat, IZR_lt; reflexivity).
  assert (PU : 0 <= Rabs M * / IZR (2 ^ 24)) by (apply Rmult_le_pos; lra).
  assert (SU : Rabs (B2R m) * / IZR (2 ^ 24) <= 1000001 / 1000000 * Rabs M * / IZR (2 ^ 24)) by (apply Rmult_le_compat_r; lra).
  destruct (B32Newton.elps_float L m e delta max_iter FM) as [A [[X' [HX' B]] _]]; try assumption; try lra.
  - intros x Fx Bx. apply Htrig; [exact Fx|lra].
  - split; [exact A|]. destruct (elps_unique (B2R e) M ltac:(lra)) as [X [HX _]]. rewrite kepler_equ_elps_R in HX.
    exists X. split; [lra|].
    pose proof (elps_follow (B2R e) X X' M (B2R m) He ltac:(lra) HX') as F.
    change (@solve_kepler_elps _ (Num_B32 L) m e (@default_tol _ (Num_B32 L)) max_iter) with (@solve_kepler_elps _ N m e (@default_tol _ N) max_iter) in B.
    set (E := @solve_kepler_elps _ N m e (@default_tol _ N) max_iter) in *. clearbody E.
    replace (B2R E - X) with ((B2R E - X') + (X' - X)) by ring. pose proof (Rabs_triang (B2R E - X') (X' - X)). lra.
Qed.
Lemma hyperbola : forall (L : libm) (a dt mu e tol : b32) (delta : R) (max_iter : Z), let N := Num_B32 L in
  is_finite a = true -> is_finite dt = true -> is_finite mu = true -> B2R a < 0 -> 0 < B2R mu ->
  in_range 125 (B2R a ^ 3) -> in_range 125 (B2R mu / (- B2R a ^ 3)) -> let M := sqrt (B2R mu / (- B2R a ^ 3)) * B2R dt in in_range 125 M ->
  is_finite e = true -> is_finite tol = true -> 0 <= B2R tol -> 2 <= B2R e <= 2 ^ 100 -> Rabs M <= 2 ^ 99 ->
  - (2 ^ 3 * B2R e) <= M <= 2 ^ 39 * B2R e -> 0 <= delta <= / 100000 ->
  (forall x, is_finite x = true -> Rabs (B2R x) <= 40 ->
    (is_finite (m_sinh L x) = true /\ Rabs (B2R (m_sinh L x) - sinh (B2R x)) <= delta * cosh (B2R x)) /\
    (is_finite (m_cosh L x) = true /\ Rabs (B2R (m_cosh L x) - cosh (B2R x)) <= delta * cosh (B2R x))) ->
  (forall x, is_finite x = true -> 0 < B2R x ->
    is_finite (m_log L x) = true /\ Rabs (B2R (m_log L x) - ln (B2R x)) <= delta * (1 + Rabs (ln (B2R x)))) ->
  (12 <= max_iter)%Z ->
  let H := @solve_kepler_hypb _ N (mean_anomaly_hypb a dt mu) e tol max_iter in
  is_finite H = true /\
  exists X, B2R e * sinh X - X = M /\
    Rabs (B2R H - X) <= 23 / 10 * (B2R tol / (B2R e * cosh X) + delta * (Rabs X + 4) + (Rabs X + 36) * / IZR (2 ^ 24)) + / 10 ^ 19.
Proof.
  intros L a dt mu e tol delta max_iter N Fa Ft Fm Ha Hm R1 R2 M R3 Fe Fl Hl He HM [HM1 HM2] Hd Hy Hlog Hi H.
  destruct (B32Closed.anomaly_hypb_close L a dt mu Fa Ft Fm Ha Hm R1 R2 R3) as [FM CM].
  match type of CM with close _ ?x ?v => change (Rabs (x - v) <= 5 * / IZR (2 ^ 24) * Rabs v) in CM end.
  change (sqrt (B2R mu / (- B2R a ^ 3)) * B2R dt) with M in CM. fold N in FM, CM.
  unfold H. clear H. set (m := @mean_anomaly_hypb _ N a dt mu) in *. clearbody m M.
  pose proof (split5 _ _ CM) as S. pose proof (Rabs_pos M) as P.
  assert (U : 0 < 5 * / IZR (2 ^ 24) <= / 1000000) by (simpl; lra).
  assert (W : Rabs (B2R m - M) <= / 1000000 * Rabs M) by (apply Rle_trans with (1 := CM); apply Rmult_le_compat_r; lra).
  assert (W' : - (/ 1000000 * Rabs M) <= B2R m - M <= / 1000000 * Rabs M) by (unfold Rabs at 2 in W; destruct (Rcase_abs (B2R m - M)) in W; unfold Rabs in *; destruct (Rcase_abs (B2R m - M)) in W; lra).
  assert (E1 : 2 ^ 100 = 2 * 2 ^ 99) by (change 100%nat with (Datatypes.S 99); reflexivity).
  assert (E2 : 2 ^ 4 = 2 * 2 ^ 3) by (change 4%nat with (Datatypes.S 3); reflexivity).
  assert (E3 : 2 ^ 40 = 2 * 2 ^ 39) by (change 40%nat with (Datatypes.S 39); reflexivity).
  assert (Q1 : 0 < 2 ^ 99) by (apply pow_lt; lra). assert (Q2 : 0 < 2 ^ 3) by (apply pow_lt; lra). assert (Q3 : 0 < 2 ^ 39) by (apply pow_lt; lra).
  assert (Q2' : 0 <= 2 ^ 3 * B2R e) by (apply Rmult_le_pos; lra). assert (Q3' : 0 <= 2 ^ 39 * B2R e) by (apply Rmult_le_pos; lra).
  assert (Z : is_finite (@solve_kepler_hypb _ N m e tol max_iter) = true /\ exists X', B2R e * sinh X' - X' = B2R m /\
    Rabs (B2R (@solve_kepler_hypb _ N m e tol max_iter) - X') <= 22 / 10 * (B2R tol / (B2R e * cosh X') + delta * (Rabs X' + 4) + (Rabs X' + 31) * / IZR (2 ^ 24)) + / 10 ^ 19).
  { destruct (Rle_or_lt 0 M) as [C|C].
    - rewrite (Rabs_pos_eq M) in * by exact C. apply (B32Hyp.hyp_float L); try assumption; try lra.
      intros x Fx Bx. apply Hlog; [exact Fx|lra].
    - rewrite (Rabs_left M) in * by exact C. apply (B32Hyp.hyp_float_before L); try assumption; try lra. }
  destruct Z as [A [X' [HX' B]]]. split; [exact A|].
  destruct (hypb_unique (B2R e) M ltac:(lra)) as [X [HX _]]. rewrite kepler_equ_hypb_R in HX.
  exists X. split; [lra|].
  pose proof (hypb_follow (B2R e) X X' M (B2R m) (5 * / IZR (2 ^ 24)) (proj1 He) ltac:(lra) HX' ltac:(lra) CM) as F.
  apply (hypb_total (B2R e) X X'); try assumption; lra.
Qed.

Lemma one_root (x : R) : x = 1 -> sqrt x = 1.
Proof. intros ->. exact sqrt_1. Qed.
Lemma pow2_range (k : Z) (v : R) : (0 <= k <= 20)%Z -> v = IZR (2 ^ k) -> in_range 125 v.
Proof.
  intros Hk ->. right. rewrite Rabs_pos_eq by (apply IZR_le, Z.pow_nonneg; lia). split.
  - apply Rle_trans with 1; [rewrite <- Rinv_1; apply Rinv_le_contravar; [lra|]; apply IZR_le; apply Z.leb_le; vm_compute; reflexivity|].
    apply IZR_le. pose proof (Z.pow_pos_nonneg 2 k ltac:(lia) ltac:(lia)). lia.
  - apply IZR_le, Z.pow_le_mono_r; lia.
Qed.
Lemma small_range (v : R) : 1 <= Rabs v <= 1000 -> in_range 125 v.
Proof.
  intros [A B]. right. split.
  - apply Rle_trans with 1; [rewrite <- Rinv_1; apply Rinv_le_contravar; [lra|]; apply IZR_le; apply Z.leb_le; vm_compute; reflexivity|exact A].
  - apply Rle_trans with (1 := B). apply IZR_le. apply Z.leb_le. vm_compute. reflexivity.
Qed.
Lemma ellipse_case : let N := Num_B32 exact_libm32 in
  let E := @solve_kepler_elps _ N (@mean_anomaly_elps _ N (b32_Z 4) (b32_Z 1) (b32_Z 64)) (b32_dec 1 2) (@default_tol _ N) elps_max_iter in
  is_finite E = true /\ exists X, X - 1 / 2 * sin X = 1 /\ Rabs (B2R E - X) <= / 10000.
Proof.
  intros N E.
  destruct (B32Newton.const_val 4 ltac:(lia)) as [V4 F4]. destruct (B32Newton.const_val 1 ltac:(lia)) as [V1 F1]. destruct (B32Newton.const_val 64 ltac:(lia)) as [V64 F64].
  assert (HV : B2R (b32_dec 1 2) = 1 / 2 /\ is_finite (b32_dec 1 2) = true) by (split; [rewrite <- SF2R_B2SF; replace (B2SF (b32_dec 1 2)) with (SpecFloat.S754_finite false 8388608 (-24)) by (vm_compute; reflexivity); unfold SF2R, F2R; simpl; lra|vm_compute; reflexivity]).
  destruct HV as [VH FH].
  assert (Q : sqrt (B2R (b32_Z 64) / B2R (b32_Z 4) ^ 3) * B2R (b32_Z 1) = 1) by (rewrite V64, V4, V1, (one_root (64 / 4 ^ 3)) by lra; lra).
  destruct (ellipse exact_libm32 (b32_Z 4) (b32_Z 1) (b32_Z 64) (b32_dec 1 2) (/ 1048576) elps_max_iter F4 F1 F64) as [A [X [HX B]]].
  - rewrite V4. lra.
  - rewrite V64. lra.
  - apply small_range. rewrite V4, Rabs_pos_eq; lra.
  - apply small_range. rewrite V4, V64, Rabs_pos_eq; lra.
  - rewrite Q. apply small_range. rewrite Rabs_R1. lra.
  - rewrite Q, Rabs_R1. simpl. lra.
  - exact FH.
  - rewrite VH. lra.
  - lra.
  - intros x _ _. apply B32Newton.exact_libm32_trig.
  - rewrite Q, Rabs_R1. simpl. lra.
  - unfold elps_max_iter. lia.
  - split; [exact A|]. exists X. change (@solve_kepler_elps _ _ (@mean_anomaly_elps _ _ (b32_Z 4) (b32_Z 1) (b32_Z 64)) (b32_dec 1 2) _ elps_max_iter) with E in B. clearbody E.
    rewrite VH, Q, Rabs_R1 in *. split; [exact HX|]. apply Rle_trans with (1 := B). simpl. lra.
Qed.
Lemma hyperbola_case : let N := Num_B32 B32Hyp.round_libm32 in
  let H := @solve_kepler_hypb _ N (@mean_anomaly_hypb _ N (b32_Z (-4)) (b32_Z (-3)) (b32_Z 64)) (b32_Z 2) (@default_tol _ N) hypb_max_iter in
  is_finite H = true /\ exists X, -2 <= X <= -1 /\ 2 * sinh X - X = -3 /\ Rabs (B2R H - X) <= / 100000.
Proof.
  intros N H.
  destruct (B32Newton.const_val (-4) ltac:(lia)) as [V4 F4]. destruct (B32Newton.const_val (-3) ltac:(lia)) as [V3 F3]. destruct (B32Newton.const_val 64 ltac:(lia)) as [V64 F64].
  destruct (B32Newton.const_val 2 ltac:(lia)) as [V2 F2]. destruct B32Hyp.round_libm32_hyp as [Hy Hl]. destruct (B32Newton.tol_small B32Hyp.round_libm32) as [Ft [T0 Tt]].
  assert (Q : sqrt (B2R (b32_Z 64) / (- B2R (b32_Z (-4)) ^ 3)) * B2R (b32_Z (-3)) = -3) by (rewrite V64, V4, V3, (one_root (64 / (- (-4) ^ 3))) by (simpl; field); lra).
  assert (A3 : Rabs (-3) = 3) by (rewrite Rabs_left; lra).
  destruct (hyperbola B32Hyp.round_libm32 (b32_Z (-4)) (b32_Z (-3)) (b32_Z 64) (b32_Z 2) (@default_tol _ N) B32Newton.un hypb_max_iter F4 F3 F64) as [A [X [HX B]]]; auto.
  - rewrite V4. lra.
  - rewrite V64. lra.
  - apply small_range. rewrite V4, Rabs_left; lra.
  - apply small_range. rewrite V4, V64. replace (64 / (- (-4) ^ 3)) with 1 by (simpl; field). rewrite Rabs_R1. lra.
  - rewrite Q. apply small_range. rewrite A3. lra.
  - rewrite V2. split; [lra|]. simpl. lra.
  - rewrite Q, A3. simpl. lra.
  - rewrite Q, V2. simpl. lra.
  - unfold B32Newton.un, B32Acc.eps. lra.
  - unfold hypb_max_iter. lia.
  - split; [exact A|]. exists X. change (@solve_kepler_hypb _ _ (@mean_anomaly_hypb _ _ (b32_Z (-4)) (b32_Z (-3)) (b32_Z 64)) (b32_Z 2) _ hypb_max_iter) with H in B. clearbody H.
    rewrite V2, Q in *.
    assert (S1 := B32Hyp.root_3 (- X) ltac:(replace (sinh (- X)) with (- sinh X) by (unfold sinh; rewrite Ropp_involutive; lra); lra)). split; [lra|]. split; [exact HX|]. apply Rle_trans with (1 := B).
    assert (AX : 1 <= Rabs X <= 2) by (rewrite Rabs_left; lra).
    pose proof (cosh_ge_1 X) as C. change (0 <= B2R (@default_tol _ N)) in T0. change (B2R (@default_tol _ N) <= 101 / 100000000) in Tt.
    assert (G : B2R (@default_tol _ N) / (2 * cosh X) <= B2R (@default_tol _ N) / 2).
    { apply Rmult_le_reg_r with (2 * cosh X); [lra|]. unfold Rdiv. rewrite Rmult_assoc, Rinv_l by lra. nra. }
    assert (U : 0 < B32Newton.un <= / 10 ^ 7 /\ / IZR (2 ^ 24) <= / 10 ^ 7) by (unfold B32Newton.un, B32Acc.eps; simpl; lra).
    assert (B32Newton.un * (Rabs X + 4) <= / 10 ^ 7 * 6) by (apply Rmult_le_compat; lra).
    assert (0 < / IZR (2 ^ 24)) by (apply Rinv_0_lt_compat, IZR_lt; reflexivity).
    assert ((Rabs X + 36) * / IZR (2 ^ 24) <= 38 * / 10 ^ 7) by (apply Rmult_le_compat; lra).
    assert (/ 10 ^ 19 <= / 10 ^ 18) by (simpl; lra). simpl (10 ^ 18) in *. lra.
Qed.
