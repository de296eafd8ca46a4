(** * AdCirc: the time derivative of the propagator on nearly circular orbits *)
From Coq Require Import Reals Lra Lia Psatz List.
From Verif Require Import Num NumR NumD Spec SpecAnom SpecAd RLib Ana SeriesU UFacts OrbIntegrals Uniformulas KepEqu OrbFacts PropKepler AccLib.
From Verif Require Import KepState SolveFacts SolveElps Classical AdOps AdFacts AdKep AdMore StmFacts LoopFacts KepRows TraceLib.
Import ListNotations.
Local Open Scope R_scope.

(** ** Newton's iteration and the factor on the derivative, as sequences of reals *)
Section Seq.
  Variables (e M : R) (y k : nat -> R).
  Hypothesis He : 0 <= e <= 1 / 4.
  Let f (x : R) : R := x - e * sin x - M.
  Let rho (x : R) : R := 1 - e * cos x.
  Hypothesis Hf : Rabs (f (y 0%nat)) <= 2 * e.
  Hypothesis Hk0 : k 0%nat = rho (y 0%nat).
  Hypothesis Hy : forall j, y (S j) = y j - f (y j) / rho (y j).
  Hypothesis Hk : forall j, k (S j) = rho (y (S j)) / rho (y j) * (1 + f (y j) * (e * sin (y j)) / rho (y j) ^ 2 * k j).

  Lemma rho_range x : 1 - e <= rho x <= 1 + e.
  Proof using He. unfold rho. pose proof (COS_bound x). nra. Qed.
  Lemma rho_lip x d : Rabs (rho (x - d) - rho x) <= e * Rabs d.
  Proof using He.
    unfold rho. replace (1 - e * cos (x - d) - (1 - e * cos x)) with (e * (cos x - cos (x - d))) by ring.
    rewrite Rabs_mult, (Rabs_pos_eq e) by lra. apply Rmult_le_compat_l; [lra |].
    rewrite form2. rewrite !Rabs_mult. replace (Rabs (-2)) with 2 by (rewrite Rabs_left; lra).
    replace ((x - (x - d)) / 2) with (d / 2) by field.
    pose proof (abs_sin_le (d / 2)) as A. unfold Rdiv in A at 2. rewrite Rabs_mult, (Rabs_pos_eq (/ 2)) in A by lra.
    pose proof (SIN_bound ((x + (x - d)) / 2)) as B. assert (C : Rabs (sin ((x + (x - d)) / 2)) <= 1) by (apply Rabs_le; lra).
    pose proof (Rabs_pos (sin (d / 2))). pose proof (Rabs_pos (sin ((x + (x - d)) / 2))). nra.
  Qed.

  (** the residual after a step *)
  Lemma step_residual j : Rabs (f (y (S j))) <= 11 / 18 * e * (f (y j) / rho (y j)) ^ 2 \/ 2 / 3 < Rabs (f (y j) / rho (y j)).
  Proof using Hy He.
    destruct (Rle_or_lt (Rabs (f (y j) / rho (y j))) (2 / 3)) as [D | D]; [left | right; exact D].
    rewrite Hy. pose proof (rho_range (y j)) as Q. set (x := y j) in *. clearbody x.
    set (d := f x / rho x) in *. assert (Ed : f x = rho x * d) by (unfold d; field; lra).
    assert (E : f (x - d) = e * (sin x * (1 - cos d) - cos x * (d - sin d))).
    { replace (f (x - d)) with (f x - d + e * sin x - e * sin (x - d)) by (unfold f; ring).
      rewrite sin_minus, Ed. unfold rho. ring. }
    rewrite E. clear E Ed Q. clearbody d. rewrite Rabs_mult, (Rabs_pos_eq e) by lra.
    replace (11 / 18 * e * d ^ 2) with (e * (11 / 18 * d ^ 2)) by ring. apply Rmult_le_compat_l; [lra |].
    assert (C1 : Rabs (1 - cos d) <= d ^ 2 / 2).
    { pose proof (COS_bound d) as B. rewrite Rabs_pos_eq by lra. unfold Rabs in D. destruct (Rcase_abs d) as [S | S].
      - pose proof (cos_ge_quad (- d) ltac:(lra)) as K. rewrite cos_neg in K. nra.
      - pose proof (cos_ge_quad d ltac:(lra)) as K. lra. }
    pose proof (sin_excess d) as C2.
    assert (C3 : Rabs d ^ 3 <= 2 / 3 * d ^ 2).
    { replace (Rabs d ^ 3) with (Rabs d * Rabs d ^ 2) by ring. rewrite pow2_abs. apply Rmult_le_compat_r; [nra | exact D]. }
    pose proof (SIN_bound x) as B1. pose proof (COS_bound x) as B2.
    apply Rle_trans with (1 := Rabs_triang _ _). rewrite Rabs_Ropp, !Rabs_mult.
    assert (S1 : Rabs (sin x) <= 1) by (apply Rabs_le; lra). assert (S2 : Rabs (cos x) <= 1) by (apply Rabs_le; lra).
    pose proof (Rabs_pos (sin x)). pose proof (Rabs_pos (cos x)). pose proof (Rabs_pos (1 - cos d)). pose proof (Rabs_pos (d - sin d)). nra.
  Qed.

  Lemma delta_bound j : Rabs (f (y j)) <= 2 * e -> Rabs (f (y j) / rho (y j)) <= 2 * e / (1 - e) <= 2 / 3.
  Proof using He.
    intro H. pose proof (rho_range (y j)) as Q. split.
    - unfold Rdiv. rewrite Rabs_mult, Rabs_inv, (Rabs_pos_eq (rho (y j))) by lra.
      apply Rmult_le_compat; [apply Rabs_pos | left; apply Rinv_0_lt_compat; lra | exact H | apply Rinv_le_contravar; lra].
    - apply Rmult_le_reg_r with (1 - e); [lra |]. unfold Rdiv. rewrite Rmult_assoc, Rinv_l by lra. lra.
  Qed.

  Lemma residual_bound j : Rabs (f (y j)) <= 2 * e.
  Proof using All.
    clear k Hk0 Hk. induction j as [| j IH]; [exact Hf |].
    pose proof (delta_bound j IH) as [D1 D2].
    destruct (step_residual j) as [T | T]; [| lra]. apply Rle_trans with (1 := T).
    rewrite <- pow2_abs. pose proof (Rabs_pos (f (y j) / rho (y j))). set (d := Rabs (f (y j) / rho (y j))) in *. clearbody d.
    assert (D3 : d <= 2 / 3) by lra. assert (D4 : d ^ 2 <= 4 / 9) by (clear D1 D2; nra).
    replace (11 / 18 * e * d ^ 2) with (e * (11 / 18 * d ^ 2)) by ring. rewrite (Rmult_comm 2). apply Rmult_le_compat_l; lra.
  Qed.

  Let q (j : nat) : R := e * Rabs (f (y j) / rho (y j)) / rho (y j).

  Lemma q_bound j : 0 <= q j <= 2 * e ^ 2 / (1 - e) ^ 2 /\ 2 * e ^ 2 / (1 - e) ^ 2 <= 2 / 9.
  Proof using All.
    pose proof (delta_bound j (residual_bound j)) as [D1 D2]. pose proof (rho_range (y j)) as Q. unfold q.
    pose proof (Rabs_pos (f (y j) / rho (y j))) as P. set (d := Rabs (f (y j) / rho (y j))) in *. clearbody d. set (r := rho (y j)) in *. clearbody r.
    assert (P1 : 0 < / r) by (apply Rinv_0_lt_compat; lra).
    assert (P2 : / r <= / (1 - e)) by (apply Rinv_le_contravar; lra). split; [split |].
    - unfold Rdiv. apply Rmult_le_pos; nra.
    - replace (2 * e ^ 2 / (1 - e) ^ 2) with (e * (2 * e / (1 - e)) / (1 - e)) by (field; lra).
      unfold Rdiv at 1. unfold Rdiv at 2. apply Rmult_le_compat; [nra | lra | | exact P2]. apply Rmult_le_compat_l; lra.
    - apply Rmult_le_reg_r with ((1 - e) ^ 2); [apply pow_lt; lra |]. unfold Rdiv. rewrite Rmult_assoc, Rinv_l by (apply pow_nonzero; lra). nra.
  Qed.

  Lemma k_step j K : Rabs (k j) <= K -> Rabs (k (S j) - 1) <= q j * (1 + (1 + q j) * K).
  Proof using All.
    intro HK. rewrite Hk. pose proof (rho_range (y j)) as Q. pose proof (rho_lip (y j) (f (y j) / rho (y j))) as Li. rewrite <- Hy in Li.
    pose proof (q_bound j) as [B _]. fold (q j) in *.
    assert (Eq : q j = e * Rabs (f (y j) / rho (y j)) / rho (y j)) by reflexivity.
    set (r := rho (y j)) in *. set (r1 := rho (y (S j))) in *. set (F := f (y j)) in *.
    assert (R0 : 0 < r) by lra.
    assert (A : Rabs (r1 / r - 1) <= q j).
    { replace (r1 / r - 1) with ((r1 - r) / r) by (field; lra). unfold Rdiv at 1. rewrite Rabs_mult, Rabs_inv, (Rabs_pos_eq r) by lra.
      rewrite Eq. unfold Rdiv at 2. apply Rmult_le_compat_r; [left; apply Rinv_0_lt_compat; exact R0 | exact Li]. }
    assert (C : Rabs (F * (e * sin (y j)) / r ^ 2 * k j) <= q j * K).
    { rewrite Rabs_mult. apply Rmult_le_compat; try apply Rabs_pos; [| exact HK].
      replace (F * (e * sin (y j)) / r ^ 2) with (e * (F / r) / r * sin (y j)) by (field; lra).
      rewrite Rabs_mult. unfold Rdiv at 1. rewrite !Rabs_mult, (Rabs_pos_eq e), Rabs_inv, (Rabs_pos_eq r) by lra.
      pose proof (SIN_bound (y j)) as S. assert (S1 : Rabs (sin (y j)) <= 1) by (apply Rabs_le; lra).
      rewrite <- (Rmult_1_r (q j)), Eq. pose proof (Rabs_pos (sin (y j))). apply Rmult_le_compat; [| assumption | right; reflexivity | exact S1].
      repeat apply Rmult_le_pos; try apply Rabs_pos; [lra | left; apply Rinv_0_lt_compat; exact R0]. }
    set (X := r1 / r) in *. set (Y := F * (e * sin (y j)) / r ^ 2 * k j) in *. clearbody X Y.
    replace (X * (1 + Y) - 1) with ((X - 1) + X * Y) by ring.
    apply Rle_trans with (1 := Rabs_triang _ _). rewrite Rabs_mult.
    assert (X1 : Rabs X <= 1 + q j).
    { replace X with ((X - 1) + 1) by ring. apply Rle_trans with (1 := Rabs_triang _ _). rewrite Rabs_R1. lra. }
    pose proof (Rabs_pos X). pose proof (Rabs_pos Y). set (qq := q j) in *. clearbody qq.
    assert (Rabs X * Rabs Y <= (1 + qq) * (qq * K)) by (apply Rmult_le_compat; assumption). nra.
  Qed.

  Lemma k_bound j : Rabs (k j) <= 17 / 10.
  Proof using All.
    induction j as [| j IH].
    - rewrite Hk0. pose proof (rho_range (y 0%nat)). rewrite Rabs_pos_eq by lra. lra.
    - pose proof (k_step j _ IH) as T. pose proof (q_bound j) as [[B0 B1] B2].
      set (qq := q j) in *. clearbody qq. assert (qq <= 2 / 9) by lra.
      replace (k (S j)) with ((k (S j) - 1) + 1) by ring. apply Rle_trans with (1 := Rabs_triang _ _). rewrite Rabs_R1. nra.
  Qed.

  Lemma k_close j : Rabs (k (S j) - 1) <= 7 * (e / (1 - e)) ^ 2.
  Proof using All.
    pose proof (k_step j _ (k_bound j)) as T. pose proof (q_bound j) as [[B0 B1] B2].
    replace (7 * (e / (1 - e)) ^ 2) with (7 / 2 * (2 * e ^ 2 / (1 - e) ^ 2)) by (field; lra).
    set (qq := q j) in *. clearbody qq. nra.
  Qed.

  (** after two steps the factor is right to the fourth order *)
  Lemma k_closer j : Rabs (k (S (S j)) - 1) <= 9 * (e / (1 - e)) ^ 4.
  Proof using All.
    pose proof (k_step (S j) _ (k_bound (S j))) as T0. pose proof (q_bound (S j)) as [[B0 B1] B2].
    pose proof (delta_bound j (residual_bound j)) as [D1 D2].
    destruct (step_residual j) as [T | T]; [| lra].
    pose proof (rho_range (y (S j))) as Q.
    assert (Dn : (f (y j) / rho (y j)) ^ 2 <= 4 * (e / (1 - e)) ^ 2).
    { rewrite <- pow2_abs. replace (4 * (e / (1 - e)) ^ 2) with ((2 * e / (1 - e)) ^ 2) by (field; lra). apply pow_incr. split; [apply Rabs_pos | exact D1]. }
    assert (T' : Rabs (f (y (S j))) <= 22 / 9 * e * (e / (1 - e)) ^ 2).
    { apply Rle_trans with (1 := T). replace (22 / 9 * e * (e / (1 - e)) ^ 2) with (11 / 18 * e * (4 * (e / (1 - e)) ^ 2)) by (field; lra).
      apply Rmult_le_compat_l; [lra | exact Dn]. }
    assert (V : q (S j) <= 22 / 9 * (e / (1 - e)) ^ 4).
    { unfold q. unfold Rdiv at 2. rewrite Rabs_mult, Rabs_inv, (Rabs_pos_eq (rho (y (S j)))) by lra.
      set (F := Rabs (f (y (S j)))) in *. assert (F0 : 0 <= F) by apply Rabs_pos. clearbody F. set (r := rho (y (S j))) in *. clearbody r.
      assert (P1 : 0 < / r) by (apply Rinv_0_lt_compat; lra).
      assert (P2 : / r <= / (1 - e)) by (apply Rinv_le_contravar; lra).
      replace (e * (F * / r) / r) with (e * F * (/ r * / r)) by (field; lra).
      replace (22 / 9 * (e / (1 - e)) ^ 4) with (e * (22 / 9 * e * (e / (1 - e)) ^ 2) * (/ (1 - e) * / (1 - e))) by (field; lra).
      apply Rmult_le_compat; [nra | nra | apply Rmult_le_compat_l; lra | apply Rmult_le_compat; lra]. }
    set (qq := q (S j)) in *. clearbody qq. set (z := (e / (1 - e)) ^ 4) in *. clearbody z. nra.
  Qed.

  Lemma k_start : Rabs (k 0%nat - 1) <= e.
  Proof using All. rewrite Hk0. pose proof (rho_range (y 0%nat)). apply Rabs_le. lra. Qed.
End Seq.

Section Circ.
  Variable mu : R.
  Variables r0 v0 : vec.
  Hypothesis Hmu : 0 < mu.
  Hypothesis Hh : cross r0 v0 <> vzero.
  Let e := vnorm (eccentricity_vector r0 v0 mu).
  Hypothesis He : e <= 1 / 4.

  Lemma circ_rows ts i t : nth_error ts i = Some t ->
    exists o (n : nat) (k : R),
      nth_error (@kepler _ Num_D (map (fun t => mkD t 1) ts) (vmap3 konst r0) (vmap3 konst v0) (konst mu)) i = Some o /\
      nth_error (kepler ts r0 v0 mu) i = Some (vval (fst o), vval (snd o)) /\
      vtang (fst o) = smul k (vval (snd o)) /\ vtang (snd o) = smul k (gravity mu (vval (fst o))) /\
      let F chi := timeS r0 v0 mu chi - sqrt mu * t in
      let x0 := sqrt mu * Rabs (alphaS r0 v0 mu) * t in let x1 := x0 - F x0 / radS r0 v0 mu x0 in
      (n = 0%nat <-> Rabs (F x0) <= / 1000000) /\
      (/ 1000000 < Rabs (F x0) -> / 1000000 < Rabs (F x1) -> (2 <= n)%nat) /\
      (n = 0%nat -> Rabs (k - 1) <= e) /\
      (n <> 0%nat -> Rabs (k - 1) <= 7 * (e / (1 - e)) ^ 2) /\
      ((2 <= n)%nat -> Rabs (k - 1) <= 9 * (e / (1 - e)) ^ 4).
  Proof using All.
    intro Hi. destruct (rate_rows mu r0 v0 Hmu Hh ts i t Hi) as (o & n & x & k & H1 & H2 & H3 & H4 & H5 & H6 & H7 & H8 & H9 & H10).
    exists o, n, (k n). split; [exact H2|]. split; [exact H3|]. split; [exact H4|]. split; [exact H5|].
    assert (Pe : 0 <= e) by apply vnorm_nonneg.
    assert (HE : energy mu r0 v0 < 0) by (apply (conic_kind r0 v0 mu Hmu Hh); fold e; lra).
    destruct (ea_exists r0 v0 mu Hmu Hh HE) as [E0 [_ HE0]].
    set (a := semimajor_axis (vnorm r0) (vnorm v0) mu) in *.
    pose proof (s_pos r0 v0 mu Hmu Hh HE) as Ps. fold a in Ps. set (s := sqrt a) in *.
    set (M := E0 - e * sin E0 + mean_anomaly_elps a t mu).
    assert (AL : alphaS r0 v0 mu = / (s * s)) by exact (al_s r0 v0 mu Hmu Hh HE).
    assert (RA : forall chi, radS r0 v0 mu chi = s * s * (1 - e * cos (E0 + chi / s))) by exact (rad_E r0 v0 mu Hmu Hh HE E0 HE0).
    assert (SI : forall chi, sigS r0 v0 mu chi = s * e * sin (E0 + chi / s)) by exact (sig_E r0 v0 mu Hmu Hh HE E0 HE0).
    assert (TI : forall chi, timeS r0 v0 mu chi - sqrt mu * t = s * s * s * (E0 + chi / s - e * sin (E0 + chi / s) - M)).
    { intro chi. rewrite (uni_elps r0 v0 mu Hmu Hh HE E0 HE0 chi t). rewrite kepler_equ_elps_R. fold a e. fold s. unfold M. ring. }
    assert (ME : sqrt mu * t = s * s * s * mean_anomaly_elps a t mu) by exact (mean_E r0 v0 mu Hmu Hh HE t).
    assert (PA : 0 < / (s * s)) by (apply Rinv_0_lt_compat; nra).
    set (y := fun j => E0 + x j / s).
    assert (Y0 : y 0%nat = E0 + mean_anomaly_elps a t mu).
    { unfold y. rewrite H6, AL, (Rabs_pos_eq _ (Rlt_le _ _ PA)).
      replace (sqrt mu * / (s * s) * t / s) with (sqrt mu * t / (s * s * s)) by (field; lra). rewrite ME. field. lra. }
    assert (RP : forall z, 0 < 1 - e * cos z) by (intro z; pose proof (COS_bound z); nra).
    assert (F0 : Rabs (y 0%nat - e * sin (y 0%nat) - M) <= 2 * e).
    { unfold M. rewrite Y0. match goal with |- Rabs ?u <= _ => replace u with (e * (sin E0 - sin (E0 + mean_anomaly_elps a t mu))) by ring end.
      rewrite Rabs_mult, (Rabs_pos_eq e) by exact Pe. rewrite (Rmult_comm 2). apply Rmult_le_compat_l; [exact Pe|].
      pose proof (SIN_bound E0). pose proof (SIN_bound (E0 + mean_anomaly_elps a t mu)). apply Rabs_le. lra. }
    assert (K0 : k 0%nat = 1 - e * cos (y 0%nat)).
    { rewrite H7, AL, (Rabs_pos_eq _ (Rlt_le _ _ PA)), RA. fold (y 0%nat). field. lra. }
    assert (YS : forall j, y (S j) = y j - (y j - e * sin (y j) - M) / (1 - e * cos (y j))).
    { intro j. destruct (H8 j) as [A _]. rewrite TI, RA in A. fold (y j) in A. pose proof (RP (y j)). unfold y at 1. rewrite A.
      replace (x j) with (s * (y j - E0)) by (unfold y; field; lra). field. lra. }
    assert (KS : forall j, k (S j) = (1 - e * cos (y (S j))) / (1 - e * cos (y j)) * (1 + (y j - e * sin (y j) - M) * (e * sin (y j)) / (1 - e * cos (y j)) ^ 2 * k j)).
    { intro j. destruct (H8 j) as [_ B]. rewrite TI, !RA, SI in B. fold (y j) (y (S j)) in B. rewrite B. pose proof (RP (y j)). field. lra. }
    cbv beta zeta. rewrite <- H6. split.
    { split; intro Z.
      - rewrite Z in H10. destruct H10 as [H10 | H10]; [discriminate | exact H10].
      - destruct n as [| n]; [reflexivity|]. specialize (H9 0%nat ltac:(lia)). lra. }
    split.
    { intros Z0 Z1. destruct (H8 0%nat) as [A _]. rewrite <- A in Z1. destruct n as [| [| n]]; [exfalso | exfalso | lia].
      - destruct H10 as [H10 | H10]; [discriminate | lra].
      - destruct H10 as [H10 | H10]; [discriminate | lra]. }
    split; [| split].
    - intro Z. rewrite Z. exact (k_start e M y k (conj Pe He) F0 K0 YS KS).
    - intro Z. destruct n as [| n]; [congruence|]. exact (k_close e M y k (conj Pe He) F0 K0 YS KS n).
    - intro Z. destruct n as [| [| n]]; [lia | lia |]. exact (k_closer e M y k (conj Pe He) F0 K0 YS KS n).
  Qed.
End Circ.

(** The same in terms of the series. *)
Lemma circ_rows_spec : forall (mu : R) (r0 v0 : vec), 0 < mu -> cross r0 v0 <> vzero ->
  let a := 2 / vnorm r0 - vnorm v0 ^ 2 / mu in let s0 := dot r0 v0 / sqrt mu in
  let e := vnorm (eccentricity_vector r0 v0 mu) in
  let time chi := vnorm r0 * universal 1 chi a + s0 * universal 2 chi a + universal 3 chi a in
  let rad chi := vnorm r0 * universal 0 chi a + s0 * universal 1 chi a + universal 2 chi a in
  e <= 1 / 4 ->
  forall (ts : list R) (i : nat) (t : R), nth_error ts i = Some t ->
  let x0 := sqrt mu * Rabs a * t in let x1 := x0 - (time x0 - sqrt mu * t) / rad x0 in
  exists o (k : R),
    nth_error (@kepler _ Num_D (map (fun t => mkD t 1) ts) (vmap3 konst r0) (vmap3 konst v0) (konst mu)) i = Some o /\
    nth_error (kepler ts r0 v0 mu) i = Some (vval (fst o), vval (snd o)) /\
    vtang (fst o) = smul k (vval (snd o)) /\ vtang (snd o) = smul k (gravity mu (vval (fst o))) /\
    (Rabs (time x0 - sqrt mu * t) <= / 1000000 -> Rabs (k - 1) <= e) /\
    (/ 1000000 < Rabs (time x0 - sqrt mu * t) -> Rabs (k - 1) <= 7 * (e / (1 - e)) ^ 2) /\
    (/ 1000000 < Rabs (time x0 - sqrt mu * t) -> / 1000000 < Rabs (time x1 - sqrt mu * t) -> Rabs (k - 1) <= 9 * (e / (1 - e)) ^ 4).
Proof.
  intros mu r0 v0 Hmu Hh a s0 e time rad He ts i t Hi.
  assert (UU : forall al chi, U 0 chi al = universal 0 chi al /\ U 1 chi al = universal 1 chi al /\ U 2 chi al = universal 2 chi al /\ U 3 chi al = universal 3 chi al).
  { intros al chi. destruct (ufunc_universal chi al) as (A & B & C & D & _). rewrite <- A, <- B, <- C, <- D. now rewrite ufunc0_U, ufunc1_U, ufunc2_U, ufunc3_U. }
  assert (ET : forall chi, time chi = timeS r0 v0 mu chi).
  { intros chi. unfold time, timeS. destruct (UU (alphaS r0 v0 mu) chi) as (A & B & C & D). now rewrite B, C, D. }
  assert (ER : forall chi, rad chi = radS r0 v0 mu chi).
  { intros chi. unfold rad, radS. destruct (UU (alphaS r0 v0 mu) chi) as (A & B & C & D). now rewrite A, B, C. }
  clearbody time rad.
  destruct (circ_rows mu r0 v0 Hmu Hh He ts i t Hi) as (o & n & k & H1 & H2 & H3 & H4 & H). cbv beta zeta in H.
  change (alphaS r0 v0 mu) with a in H.
  rewrite <- !ET, <- !ER in H. destruct H as (H5 & H6 & H7 & H8 & H9).
  intros x0 x1. exists o, k. split; [exact H1|]. split; [exact H2|]. split; [exact H3|]. split; [exact H4|]. split; [|split].
  - intro Z. apply H7, H5. exact Z.
  - intro Z. apply H8. intro N. apply H5 in N. unfold x0 in Z. lra.
  - intros Z0 Z1. apply H9, H6; assumption.
Qed.

(** Up to an eccentricity of a tenth the relative error never exceeds the eccentricity. *)
Lemma circ_uniform : forall (mu : R) (r0 v0 : vec), 0 < mu -> cross r0 v0 <> vzero ->
  let e := vnorm (eccentricity_vector r0 v0 mu) in e <= 1 / 10 ->
  forall (ts : list R) (i : nat) (t : R), nth_error ts i = Some t ->
  exists o, nth_error (@kepler _ Num_D (map (fun t => mkD t 1) ts) (vmap3 konst r0) (vmap3 konst v0) (konst mu)) i = Some o /\
    nth_error (kepler ts r0 v0 mu) i = Some (vval (fst o), vval (snd o)) /\
    let r := vval (fst o) in let v := vval (snd o) in
    vnorm (vminus (vtang (fst o)) v) <= e * vnorm v /\ vnorm (vminus (vtang (snd o)) (gravity mu r)) <= e * vnorm (gravity mu r).
Proof.
  intros mu r0 v0 Hmu Hh e He ts i t Hi.
  destruct (circ_rows_spec mu r0 v0 Hmu Hh ltac:(cbv zeta; fold e; lra) ts i t Hi) as (o & k & H1 & H2 & H3 & H4 & H5 & H6 & _).
  fold e in H5, H6. exists o. split; [exact H1|]. split; [exact H2|]. intros r v. fold r v in H3, H4. assert (Pe : 0 <= e) by apply vnorm_nonneg.
  assert (K : Rabs (k - 1) <= e).
  { match type of H5 with Rabs ?u <= _ -> _ => destruct (Rle_or_lt (Rabs u) (/ 1000000)) as [L | L] end; [exact (H5 L)|].
      apply Rle_trans with (1 := H6 L). replace (7 * (e / (1 - e)) ^ 2) with (e * (7 * e * / (1 - e) ^ 2)) by (field; lra).
      rewrite <- (Rmult_1_r e) at 4. apply Rmult_le_compat_l; [exact Pe|].
      apply Rmult_le_reg_r with ((1 - e) ^ 2); [apply pow_lt; lra|]. rewrite Rmult_assoc, Rinv_l by (apply pow_nonzero; lra). nra. }
  assert (G : forall w : vec, vnorm (vminus (smul k w) w) <= e * vnorm w).
  { intro w. replace (vminus (smul k w) w) with (smul (k - 1) w) by (destruct w; unfold vminus, smul; simpl; f_equal; ring).
    rewrite vnorm_smul. apply Rmult_le_compat_r; [apply vnorm_nonneg | exact K]. }
  rewrite H3, H4. split; apply G.
Qed.

(** At periapsis and epoch the bound is attained. *)
Lemma circ_attained : let r0 := mk3 1 0 0 in let v0 := mk3 0 (41 / 40) 0 in
  vnorm (eccentricity_vector r0 v0 1) = 81 / 1600 /\
  exists o, @kepler _ Num_D [mkD 0 1] (vmap3 konst r0) (vmap3 konst v0) (konst 1) = [o] /\
    vnorm (vminus (vtang (fst o)) v0) = 81 / 1600 * vnorm v0.
Proof.
  intros r0 v0.
  assert (N0 : vnorm r0 = 1) by (apply vnorm_unique; [lra|]; unfold dot, r0; cbn [c0 c1 c2]; lra).
  assert (N1 : vnorm v0 = 41 / 40) by (apply vnorm_unique; [lra|]; unfold dot, v0; cbn [c0 c1 c2]; lra).
  split.
  { rewrite eccentricity_vector_R, N0. apply vnorm_unique; [lra|]. unfold r0, v0, vminus, smul, cross, dot; cbn [c0 c1 c2]. field. }
  assert (Hh : cross r0 v0 <> vzero).
  { intros H. apply (f_equal c2) in H. unfold cross, r0, v0, vzero in H; cbn [c0 c1 c2] in H. lra. }
  destruct (rate_0 1 r0 v0 [0] 0%nat ltac:(lra) Hh eq_refl) as (o & H1 & _ & _ & H2 & _).
  cbv zeta in H2. rewrite N0, N1 in H2.
  exists o. split.
  - cbn [map] in H1. rewrite kepler_map in H1 |- *. cbn [map] in *. cbn in H1. injection H1 as <-. reflexivity.
  - rewrite H2. replace (vminus _ v0) with (smul (- (81 / 1600)) v0).
    + rewrite vnorm_smul, Rabs_Ropp, Rabs_pos_eq by lra. reflexivity.
    + replace (Rabs (2 / 1 - (41 / 40) ^ 2 / 1)) with (1519 / 1600) by (rewrite Rabs_pos_eq; lra).
      unfold v0, vminus, smul; cbn [c0 c1 c2]. f_equal; lra.
Qed.
