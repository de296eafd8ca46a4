(** * B32Time9: from the elapsed time to the eccentric anomaly in single precision for e <= 9/10 (proofs for C111) *)
From Coq Require Import ZArith Reals Lra Lia Psatz Bool.
From Flocq Require Import Core IEEE754.BinarySingleNaN.
From Verif Require Import Num NumR NumB32 Spec SpecFl SpecFl32 KepEqu SolveFacts ElpsNine B32Examples2 B32Lib.
From Verif Require B32Closed B32Newton B32Time B32Nine.
Local Open Scope R_scope.

Lemma ellipse9 : forall (L : libm) (a dt mu e : b32) (delta : R) (max_iter : Z), let N := Num_B32 L in
  is_finite a = true -> is_finite dt = true -> is_finite mu = true -> 0 < B2R a -> 0 < B2R mu ->
  in_range 125 (B2R a ^ 3) -> in_range 125 (B2R mu / B2R a ^ 3) -> let M := sqrt (B2R mu / B2R a ^ 3) * B2R dt in in_range 125 M ->
  Rabs M <= 50 -> is_finite e = true -> 0 <= B2R e <= 9 / 10 -> 0 <= delta ->
  (forall x, is_finite x = true -> Rabs (B2R x) <= 3 * Rabs M + 5 ->
    is_finite (m_sin L x) = true /\ Rabs (B2R (m_sin L x) - sin (B2R x)) <= delta /\
    is_finite (m_cos L x) = true /\ Rabs (B2R (m_cos L x) - cos (B2R x)) <= delta) ->
  44 * delta + (14 * Rabs M + 260) * / IZR (2 ^ 24) <= / 1000 -> (17 <= max_iter)%Z ->
  let E := @solve_kepler_elps _ N (mean_anomaly_elps a dt mu) e (@default_tol _ N) max_iter in
  is_finite E = true /\
  exists X, X - B2R e * sin X = M /\ Rabs (B2R E - X) <= / 50000000000 + 49 * delta + (65 * Rabs M + 287) * / IZR (2 ^ 24).
Proof.
  intros L a dt mu e delta max_iter N Fa Ft Fm Ha Hm R1 R2 M R3 HM Fe He Hd Htrig HD Hi E.
  destruct (B32Closed.anomaly_elps_close L a dt mu Fa Ft Fm Ha Hm R1 R2 R3) as [FM CM].
  match type of CM with close _ ?x ?v => change (Rabs (x - v) <= 5 * / IZR (2 ^ 24) * Rabs v) in CM end.
  change (sqrt (B2R mu / B2R a ^ 3) * B2R dt) with M in CM. fold N in FM, CM.
  unfold E. clear E. set (m := @mean_anomaly_elps _ N a dt mu) in *. clearbody m M.
  pose proof (B32Time.split5 _ _ CM) as S. pose proof (Rabs_pos M) as P.
  assert (U : 0 < / IZR (2 ^ 24)) by (apply Rinv_0_lt_compat, IZR_lt; reflexivity).
  assert (PU : 0 <= Rabs M * / IZR (2 ^ 24)) by (apply Rmult_le_pos; lra).
  assert (SU : Rabs (B2R m) * / IZR (2 ^ 24) <= 1000001 / 1000000 * Rabs M * / IZR (2 ^ 24)) by (apply Rmult_le_compat_r; lra).
  destruct (B32Nine.elps_float9 L m e delta max_iter FM) as [A [[X' [HX' B]] _]]; try assumption; try lra.
  - intros x Fx Bx. apply Htrig; [exact Fx|lra].
  - split; [exact A|]. destruct (elps_unique (B2R e) M ltac:(lra)) as [X [HX _]]. rewrite kepler_equ_elps_R in HX.
    exists X. split; [lra|].
    pose proof (elps_follow9 (B2R e) X X' M (B2R m) He ltac:(lra) HX') as F.
    change (@solve_kepler_elps _ (Num_B32 L) m e (@default_tol _ (Num_B32 L)) max_iter) with (@solve_kepler_elps _ N m e (@default_tol _ N) max_iter) in B.
    set (E := @solve_kepler_elps _ N m e (@default_tol _ N) max_iter) in *. clearbody E.
    replace (B2R E - X) with ((B2R E - X') + (X' - X)) by ring. pose proof (Rabs_triang (B2R E - X') (X' - X)). lra.
Qed.
Lemma ellipse9_case : let N := Num_B32 exact_libm32 in
  let E := @solve_kepler_elps _ N (@mean_anomaly_elps _ N (b32_Z 4) (b32_Z 1) (b32_Z 64)) (b32_dec 7 8) (@default_tol _ N) elps_max_iter in
  is_finite E = true /\ exists X, X - 7 / 8 * sin X = 1 /\ Rabs (B2R E - X) <= / 5000.
Proof.
  intros N E.
  destruct (B32Newton.const_val 4 ltac:(lia)) as [V4 F4]. destruct (B32Newton.const_val 1 ltac:(lia)) as [V1 F1]. destruct (B32Newton.const_val 64 ltac:(lia)) as [V64 F64].
  assert (HV : B2R (b32_dec 7 8) = 7 / 8 /\ is_finite (b32_dec 7 8) = true) by (split; [rewrite <- SF2R_B2SF; replace (B2SF (b32_dec 7 8)) with (SpecFloat.S754_finite false 14680064 (-24)) by (vm_compute; reflexivity); unfold SF2R, F2R; simpl; lra|vm_compute; reflexivity]).
  destruct HV as [VH FH].
  assert (Q : sqrt (B2R (b32_Z 64) / B2R (b32_Z 4) ^ 3) * B2R (b32_Z 1) = 1) by (rewrite V64, V4, V1, (B32Time.one_root (64 / 4 ^ 3)) by lra; lra).
  destruct (ellipse9 exact_libm32 (b32_Z 4) (b32_Z 1) (b32_Z 64) (b32_dec 7 8) (/ 1048576) elps_max_iter F4 F1 F64) as [A [X [HX B]]].
  - rewrite V4. lra.
  - rewrite V64. lra.
  - apply B32Time.small_range. rewrite V4, Rabs_pos_eq; lra.
  - apply B32Time.small_range. rewrite V4, V64, Rabs_pos_eq; lra.
  - rewrite Q. apply B32Time.small_range. rewrite Rabs_R1. lra.
  - rewrite Q, Rabs_R1. simpl. lra.
  - exact FH.
  - rewrite VH. lra.
  - lra.
  - intros x _ _. apply B32Newton.exact_libm32_trig.
  - rewrite Q, Rabs_R1. simpl. lra.
  - unfold elps_max_iter. lia.
  - split; [exact A|]. exists X. change (@solve_kepler_elps _ _ (@mean_anomaly_elps _ _ (b32_Z 4) (b32_Z 1) (b32_Z 64)) (b32_dec 7 8) _ elps_max_iter) with E in B. clearbody E.
    rewrite VH, Q, Rabs_R1 in *. split; [exact HX|]. apply Rle_trans with (1 := B). simpl. lra.
Qed.
