(** * AdFloor: derivatives of the count of revolutions, which is a step function *)
From Coq Require Import Reals Lra Lia ZArith List.
From Coquelicot Require Import Coquelicot.
From Verif Require Import Num NumR NumD NumV Spec SpecAd SpecRev RLib OrbIntegrals PathCheck PathFacts RevOps SolveElps.
Local Open Scope R_scope.

Lemma floor_still (g : R -> R) (s : R) : continuous g s -> (forall k : Z, g s <> IZR k) -> locally s (fun u => floorR (g u) = floorR (g s)).
Proof.
  intros C N. pose proof (floorR_bounds (g s)) as B. destruct (floorR_int (g s)) as [k Ek].
  assert (Lo : IZR k < g s) by (rewrite Ek in B; destruct (proj1 B) as [H|H]; [exact H|exfalso; exact (N k (eq_sym H))]).
  assert (Hi : g s < IZR k + 1) by (rewrite Ek in B; apply B).
  assert (A : locally (g s) (fun y => IZR k < y < IZR k + 1)) by (apply (open_and (fun y : R => IZR k < y) (fun y => y < IZR k + 1) (open_gt _) (open_lt _)); split; assumption).
  generalize (C _ A). unfold filtermap. apply filter_imp. intros u [U1 U2]. rewrite Ek.
  pose proof (floorR_bounds (g u)) as [V1 V2]. destruct (floorR_int (g u)) as [m Em]. rewrite Em in *.
  assert (IZR k < IZR m + 1) by lra. assert (IZR m < IZR k + 1) by lra. f_equal.
  assert ((k < m + 1)%Z) by (apply lt_IZR; rewrite plus_IZR; exact H). assert ((m < k + 1)%Z) by (apply lt_IZR; rewrite plus_IZR; exact H0). lia.
Qed.
Lemma Rmax_abs a b : Rmax a b = / 2 * ((a + b) + Rabs (a - b)).
Proof. unfold Rmax. destruct (Rle_dec a b); [rewrite Rabs_left1|rewrite Rabs_right]; lra. Qed.
Lemma c_ct (x : R -> R) s d : carries x s d -> continuous x s.
Proof. intros [_ H]. apply (ex_derive_continuous (K := R_AbsRing) (V := R_NormedModule)). eexists; exact H. Qed.

Section Steps.
  Variables (s : R) (rp r1 r2 tof mu : R -> R).
  Hypotheses (C1 : continuous rp s) (C2 : continuous r1 s) (C3 : continuous r2 s) (C4 : continuous tof s) (C5 : continuous mu s).
  Hypotheses (Hmu : 0 < mu s) (Ha : 0 < Rmax (r1 s) (r2 s) + rp s).
  Hypothesis NI : forall k : Z, tof s <> IZR k * (2 * PI * sqrt (((Rmax (r1 s) (r2 s) + rp s) / 2) ^ 3 / mu s)).
  Let g (u : R) := tof u / (2 * PI) * sqrt (mu u / ((Rmax (r1 u) (r2 u) + rp u) / 2) ^ 3).
  Lemma g_cont : continuous g s.
  Proof using C1 C2 C3 C4 C5 Hmu Ha.
    assert (M : continuous (fun u : R => (Rmax (r1 u) (r2 u) + rp u) / 2) s).
    { apply continuous_ext with (fun u : R => (/ 2 * ((r1 u + r2 u) + Rabs (r1 u - r2 u)) + rp u) * / 2);
        [intros u; rewrite Rmax_abs; reflexivity|].
      apply (continuous_mult (K := R_AbsRing)); [|apply continuous_const]. apply (continuous_plus (V := R_NormedModule)); [|exact C1].
      apply (continuous_mult (K := R_AbsRing)); [apply continuous_const|]. apply (continuous_plus (V := R_NormedModule)).
      - apply (continuous_plus (V := R_NormedModule)); assumption.
      - apply (continuous_comp (fun u => r1 u - r2 u) Rabs); [apply (continuous_minus (V := R_NormedModule)); assumption|apply continuous_Rabs]. }
    unfold g. apply (continuous_mult (K := R_AbsRing)).
    - apply (continuous_mult (K := R_AbsRing)); [exact C4|apply continuous_const].
    - apply continuous_comp; [|apply continuity_pt_filterlim, continuity_pt_sqrt; apply Rlt_le, Rdiv_lt_0_compat; [exact Hmu|apply pow_lt; lra]].
      apply (continuous_mult (K := R_AbsRing)); [exact C5|]. apply (continuous_comp (fun u => ((Rmax (r1 u) (r2 u) + rp u) / 2) ^ 3) Rinv).
      + cbn [pow]. apply (continuous_mult (K := R_AbsRing)); [exact M|]. apply (continuous_mult (K := R_AbsRing)); [exact M|].
        apply (continuous_mult (K := R_AbsRing)); [exact M|apply continuous_const].
      + apply continuous_Rinv. apply pow_nonzero. lra.
  Qed.
  Lemma g_off : forall k : Z, g s <> IZR k.
  Proof using Hmu Ha NI.
    intros k E. apply (NI k). rewrite <- E. unfold g. set (a := (Rmax (r1 s) (r2 s) + rp s) / 2).
    assert (A : 0 < a) by (unfold a; lra). assert (P3 : 0 < a ^ 3) by now apply pow_lt. clearbody a. pose proof PI_RGT_0.
    assert (X : sqrt (mu s / a ^ 3) * sqrt (a ^ 3 / mu s) = 1).
    { rewrite <- sqrt_mult; [|apply Rlt_le, Rdiv_lt_0_compat; assumption..]. replace (mu s / a ^ 3 * (a ^ 3 / mu s)) with 1 by (field; lra). apply sqrt_1. }
    set (X1 := sqrt (mu s / a ^ 3)) in *. set (X2 := sqrt (a ^ 3 / mu s)) in *.
    replace (tof s / (2 * PI) * X1 * (2 * PI * X2)) with (tof s * (X1 * X2)) by (field; lra). rewrite X. ring.
  Qed.
  Lemma nmax_still : locally s (fun u => nmax_by_periapsis (rp u) (r1 u) (r2 u) (tof u) (mu u) = nmax_by_periapsis (rp s) (r1 s) (r2 s) (tof s) (mu s)).
  Proof using C1 C2 C3 C4 C5 Hmu Ha NI.
    generalize (floor_still g s g_cont g_off). apply filter_imp. intros u H. rewrite !nmax_by_periapsis_R.
    assert (Q : forall x : R, 1 / 2 * x = x / 2) by (intros; field). rewrite !Q. exact H.
  Qed.
End Steps.

Lemma ad_nmax (s : R) rp r1 r2 tof mu d1 d2 d3 d4 d5 :
  carries rp s d1 -> carries r1 s d2 -> carries r2 s d3 -> carries tof s d4 -> carries mu s d5 ->
  0 < mu s -> 0 < Rmax (r1 s) (r2 s) + rp s ->
  (forall k : Z, tof s <> IZR k * (2 * PI * sqrt (((Rmax (r1 s) (r2 s) + rp s) / 2) ^ 3 / mu s))) ->
  carries (fun u => nmax_by_periapsis (rp u) (r1 u) (r2 u) (tof u) (mu u)) s (@nmax_by_periapsis _ Num_D d1 d2 d3 d4 d5).
Proof.
  intros C1 C2 C3 C4 C5 Hmu Ha NI. split.
  - destruct C1 as [-> _], C2 as [-> _], C3 as [-> _], C4 as [-> _], C5 as [-> _]. reflexivity.
  - change (tang (@nmax_by_periapsis _ Num_D d1 d2 d3 d4 d5)) with 0.
    apply is_derive_ext_loc with (fun _ : R => nmax_by_periapsis (rp s) (r1 s) (r2 s) (tof s) (mu s)).
    + generalize (nmax_still s rp r1 r2 tof mu (c_ct _ _ _ C1) (c_ct _ _ _ C2) (c_ct _ _ _ C3) (c_ct _ _ _ C4) (c_ct _ _ _ C5) Hmu Ha NI).
      apply filter_imp. intros u H. symmetry. exact H.
    + apply (is_derive_const (K := R_AbsRing) (V := R_NormedModule)).
Qed.
Lemma rev_nmax (nin : nat) (speed : nat -> R) (s : R) rp r1 r2 tof mu d1 d2 d3 d4 d5 :
  pulls nin speed rp s d1 -> pulls nin speed r1 s d2 -> pulls nin speed r2 s d3 -> pulls nin speed tof s d4 -> pulls nin speed mu s d5 ->
  0 < mu s -> 0 < Rmax (r1 s) (r2 s) + rp s ->
  (forall k : Z, tof s <> IZR k * (2 * PI * sqrt (((Rmax (r1 s) (r2 s) + rp s) / 2) ^ 3 / mu s))) ->
  pulls nin speed (fun u => nmax_by_periapsis (rp u) (r1 u) (r2 u) (tof u) (mu u)) s (@nmax_by_periapsis _ Num_V d1 d2 d3 d4 d5).
Proof.
  intros P1 P2 P3 P4 P5 Hmu Ha NI.
  apply (pulls_of nin speed _ s _ (@nmax_by_periapsis _ Num_D (the_dual nin speed d1) (the_dual nin speed d2) (the_dual nin speed d3) (the_dual nin speed d4) (the_dual nin speed d5))).
  - apply ad_nmax; try apply pulls_carries; assumption.
  - split; [reflexivity|]. intros ct. change (pairing nin (fun _ => 0) speed = ct * 0). rewrite Rmult_0_r. clear. induction nin as [|n IH]; [reflexivity|]. cbn [pairing]. rewrite IH. ring.
Qed.
(** the hypothesis of both holds beside the jumps; at a jump no derivative exists and both modes still return 0 *)
Lemma nmax_jump : let n tof := nmax_by_periapsis 1 1 1 tof 1 in
  tang (@nmax_by_periapsis _ Num_D (konst 1) (konst 1) (konst 1) (mkD (2 * PI) 1) (konst 1)) = 0 /\ ~ ex_derive n (2 * PI) /\
  carries n 7 (@nmax_by_periapsis _ Num_D (konst 1) (konst 1) (konst 1) (mkD 7 1) (konst 1)) /\ n 7 = 1.
Proof.
  cbv zeta. pose proof PI_tight as P. set (n := fun tof => nmax_by_periapsis 1 1 1 tof 1).
  assert (V : forall u, n u = floorR (u / (2 * PI))).
  { intros u. unfold n. rewrite nmax_by_periapsis_R. rewrite Rmax_left by lra. replace (1 / (1 / 2 * (1 + 1)) ^ 3) with 1 by field.
    rewrite sqrt_1, Rmult_1_r. reflexivity. }
  assert (F : forall (k : Z) u, IZR k * (2 * PI) <= u < IZR (k + 1) * (2 * PI) -> n u = IZR k).
  { intros k u [U1 U2]. rewrite V. assert (Q : u / (2 * PI) * (2 * PI) = u) by (field; lra). set (q := u / (2 * PI)) in *.
    assert (IZR k <= q) by (apply Rmult_le_reg_r with (2 * PI); lra). assert (q < IZR (k + 1)) by (apply Rmult_lt_reg_r with (2 * PI); lra).
    pose proof (floorR_bounds q) as [B1 B2]. pose proof (floorR_max q k H) as B3. destruct (floorR_int q) as [m Em]. rewrite Em in *. f_equal.
    apply le_IZR in B3. assert ((m < k + 1)%Z) by (apply lt_IZR; lra). lia. }
  split; [reflexivity|]. split; [|split].
  - intros D. pose proof (ex_derive_continuous (K := R_AbsRing) (V := R_NormedModule) n (2 * PI) D) as C.
    assert (N1 : n (2 * PI) = 1) by (apply (F 1%Z); cbn; lra).
    assert (O : locally (n (2 * PI)) (fun y : R => / 2 < y)) by (apply (open_gt (/ 2)); rewrite N1; lra).
    destruct (C _ O) as [eps He]. unfold filtermap in He. set (d := Rmin (eps / 2) 1). pose proof (cond_pos eps).
    assert (Dp : 0 < d <= 1) by (unfold d; split; [apply Rmin_glb_lt; lra|apply Rmin_r]). assert (De : d < eps) by (unfold d; pose proof (Rmin_l (eps / 2) 1); lra).
    specialize (He (2 * PI - d)). assert (Bl : ball (2 * PI) eps (2 * PI - d)).
    { change (Rabs (2 * PI - d - 2 * PI) < eps). replace (2 * PI - d - 2 * PI) with (- d) by ring. rewrite Rabs_Ropp, Rabs_pos_eq by lra. exact De. }
    specialize (He Bl). rewrite (F 0%Z (2 * PI - d)) in He by (cbn; lra). lra.
  - apply (ad_nmax 7 (fun _ => 1) (fun _ => 1) (fun _ => 1) (fun u => u) (fun _ => 1)); try (split; [reflexivity|]).
    1-3,5: apply (is_derive_const (K := R_AbsRing) (V := R_NormedModule)).
    + apply (is_derive_id (K := R_AbsRing)).
    + lra.
    + rewrite Rmax_left; lra.
    + intros k E. rewrite Rmax_left in E by lra. replace (((1 + 1) / 2) ^ 3 / 1) with 1 in E by field. rewrite sqrt_1, Rmult_1_r in E.
      assert (IZR 1 < IZR k) by (apply Rmult_lt_reg_r with (2 * PI); lra). assert (IZR k < IZR 2) by (apply Rmult_lt_reg_r with (2 * PI); lra).
      apply lt_IZR in H. apply lt_IZR in H0. lia.
  - apply (F 1%Z). cbn. lra.
Qed.
