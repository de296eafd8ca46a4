(** * AdGuess: the time derivative of the propagator where the starting guess is accepted *)
From Coq Require Import Reals Lra Lia Psatz List ZArith.
From Verif Require Import Num NumR NumD Spec SpecAnom SpecAd StateTrans RLib Ana SeriesU UFacts OrbIntegrals Uniformulas KepEqu OrbFacts PropKepler AccLib.
From Verif Require Import KepState SolveFacts SolveElps Classical AdOps AdFacts AdKep AdMore StmFacts LoopFacts KepRows TraceLib.
Import ListNotations.
Local Open Scope R_scope.

Lemma guess_rows : forall (mu : R) (r0 v0 : vec), 0 < mu -> cross r0 v0 <> vzero ->
  let a := 2 / vnorm r0 - vnorm v0 ^ 2 / mu in let s0 := dot r0 v0 / sqrt mu in
  let e := vnorm (eccentricity_vector r0 v0 mu) in
  let time chi := vnorm r0 * universal 1 chi a + s0 * universal 2 chi a + universal 3 chi a in
  forall (ts : list R) (i : nat) (t : R), nth_error ts i = Some t ->
  Rabs (time (sqrt mu * Rabs a * t) - sqrt mu * t) <= / 1000000 ->
  exists o, nth_error (@kepler _ Num_D (map (fun t => mkD t 1) ts) (vmap3 konst r0) (vmap3 konst v0) (konst mu)) i = Some o /\
    nth_error (kepler ts r0 v0 mu) i = Some (vval (fst o), vval (snd o)) /\
    let k := Rabs a * vnorm (vval (fst o)) in
    vtang (fst o) = smul k (vval (snd o)) /\ vtang (snd o) = smul k (gravity mu (vval (fst o))) /\
    (e < 1 -> Rabs (k - 1) <= e) /\ (e = 1 -> k = 0) /\ (1 < e -> e - 1 <= k).
Proof.
  intros mu r0 v0 Hmu Hh a s0 e time ts i t Hi Hres.
  assert (ET : forall chi, time chi = timeS r0 v0 mu chi).
  { intros chi. unfold time, timeS. destruct (ufunc_universal chi (alphaS r0 v0 mu)) as (_ & B & C & D & _).
    change a with (alphaS r0 v0 mu). rewrite <- B, <- C, <- D. now rewrite ufunc1_U, ufunc2_U, ufunc3_U. }
  rewrite ET in Hres. clear ET time.
  destruct (rate_rows mu r0 v0 Hmu Hh ts i t Hi) as (o & n & x & k & H1 & H2 & H3 & H4 & H5 & H6 & H7 & _ & H9 & _).
  change (alphaS r0 v0 mu) with a in H6, H7.
  assert (N0 : n = 0%nat). { destruct n as [|n]; [reflexivity|]. specialize (H9 0%nat ltac:(lia)). rewrite H6 in H9. lra. }
  subst n. rewrite H7 in H4, H5.
  assert (PN : vnorm (vval (fst o)) = radS r0 v0 mu (x 0%nat)).
  { pose proof H3 as K3. rewrite (kepler_row ts r0 v0 mu i t Hi) in K3.
    assert (E : solver_chi t r0 v0 mu = x 0%nat).
    { unfold solver_chi.
      destruct (uni_char t (alpha_of (vnorm r0) (vnorm v0) mu) (vnorm r0) (sigma_fn r0 v0 mu) mu default_tol uni_max_iter) as [n [_ [E [L _]]]].
      cbv zeta in E, L. assert (Z0 : n = 0%nat).
      { destruct n as [|n]; [reflexivity|]. specialize (L 0%nat ltac:(lia)). cbn [iterate] in L. rewrite kepler_equ_uni_S, uni_guess_R, alpha_of_S in L.
        apply exceeds_R in L. rewrite default_tol_R in L. change (alphaS r0 v0 mu) with a in L. lra. }
      subst n. cbn [iterate] in E. rewrite E, uni_guess_R, alpha_of_S, H6. reflexivity. }
    rewrite E in K3. apply (f_equal (option_map fst)) in K3. cbn [option_map fst] in K3. assert (K4 : posS r0 v0 mu (x 0%nat) = vval (fst o)) by congruence. rewrite <- K4. apply pos_norm; [exact Hmu | exact (vec_nonzero_l _ _ Hh) | exact Hh]. }
  exists o. split; [exact H2|]. split; [exact H3|]. cbv zeta. rewrite PN. split; [exact H4|]. split; [exact H5|].
  assert (Hr : r0 <> vzero) by exact (vec_nonzero_l _ _ Hh).
  assert (Pe : 0 <= e) by apply vnorm_nonneg.
  pose proof (ecc_norm_sq r0 v0 mu Hr Hmu) as EN. fold e in EN. pose proof (p_pos r0 v0 mu Hmu Hh) as Pp.
  pose proof (radS_pos r0 v0 mu Hmu Hr Hh (x 0%nat)) as Pr.
  split; [|split].
  - intro He. assert (HE : energy mu r0 v0 < 0) by (apply (conic_kind r0 v0 mu Hmu Hh); exact He).
    destruct (ea_exists r0 v0 mu Hmu Hh HE) as [E0 [_ HE0]].
    pose proof (s_pos r0 v0 mu Hmu Hh HE) as Ps. pose proof (al_s r0 v0 mu Hmu Hh HE) as AL. change (alphaS r0 v0 mu) with a in AL.
    rewrite (rad_E r0 v0 mu Hmu Hh HE E0 HE0). fold e. set (s := sqrt (semimajor_axis (vnorm r0) (vnorm v0) mu)) in *. rewrite AL.
    rewrite (Rabs_pos_eq (/ (s * s))) by (left; apply Rinv_0_lt_compat; nra).
    match goal with |- Rabs ?u <= _ => replace u with (- (e * cos (E0 + x 0%nat / s))) by (field; lra) end.
    pose proof (COS_bound (E0 + x 0%nat / s)). apply Rabs_le. nra.
  - intro He. rewrite He in EN. assert (Z : a = 0) by (unfold a; nra). rewrite Z, Rabs_R0. ring.
  - intro He. pose proof (radS_lower r0 v0 mu Hmu Hr Hh (x 0%nat)) as RL. rewrite radius_periapsis_R in RL. fold e in RL.
    set (p := semiparameter _ _) in *. change (e ^ 2 = 1 - p * a) in EN. assert (An : a < 0) by nra. rewrite Rabs_left by exact An.
    assert (p <= radS r0 v0 mu (x 0%nat) * (1 + e)).
    { apply Rmult_le_compat_r with (r := 1 + e) in RL; [|lra]. unfold Rdiv in RL. rewrite Rmult_assoc, Rinv_l in RL by lra. lra. }
    set (r := radS _ _ _ _) in *. clearbody r p a. assert (- a * p <= - a * (r * (1 + e))) by (apply Rmult_le_compat_l; lra).
    assert ((e - 1) * (1 + e) <= - a * r * (1 + e)) by nra. apply Rmult_le_reg_r with (1 + e); lra.
Qed.

(** On a parabola the derivatives vanish there, although the body moves with unit speed. *)
Lemma guess_parabola : let r0 := mk3 2 0 0 in let v0 := mk3 0 1 0 in
  exists o, @kepler _ Num_D [mkD (/ 1000000) 1] (vmap3 konst r0) (vmap3 konst v0) (konst 1) = [o] /\
    vtang (fst o) = vzero /\ vtang (snd o) = vzero.
Proof.
  intros r0 v0.
  assert (N0 : vnorm r0 = 2) by (apply vnorm_unique; [lra|]; unfold dot, r0; cbn [c0 c1 c2]; lra).
  assert (N1 : vnorm v0 = 1) by (apply vnorm_unique; [lra|]; unfold dot, v0; cbn [c0 c1 c2]; lra).
  assert (Hh : cross r0 v0 <> vzero).
  { intros H. apply (f_equal c2) in H. unfold cross, r0, v0, vzero in H; cbn [c0 c1 c2] in H. lra. }
  pose proof (guess_rows 1 r0 v0 ltac:(lra) Hh [/ 1000000] 0%nat (/ 1000000) eq_refl) as G. cbv zeta in G.
  rewrite N0, N1 in G. replace (2 / 2 - 1 ^ 2 / 1) with 0 in G by field. rewrite Rabs_R0, sqrt_1 in G.
  destruct G as (o & H1 & _ & H2 & H3 & _).
  - replace (1 * 0 * / 1000000) with 0 by ring.
    destruct (ufunc_universal 0 0) as (_ & B & C & D & _). rewrite <- B, <- C, <- D, ufunc1_U, ufunc2_U, ufunc3_U.
    rewrite !U_zero. cbn [Nat.eqb]. rewrite Rabs_left; lra.
  - exists o. split; [|rewrite H2, H3; split; unfold smul, vzero; f_equal; ring].
    cbn [map] in H1. rewrite kepler_map in H1 |- *. cbn [map] in *. cbn in H1. injection H1 as <-. reflexivity.
Qed.
