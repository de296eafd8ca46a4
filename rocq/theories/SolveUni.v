(** * SolveUni: convergence of the universal solver (proofs for C28) *)
From Coq Require Import Reals Lra Lia Psatz ZArith List.
From Coquelicot Require Import Coquelicot.
From Verif Require Import Num NumR Spec SpecAnom RLib Ana Uniformulas Lagrange OrbIntegrals KepEqu StateTrans
  PropKepler SeriesU UFacts Atan2 OrbFacts KepState LoopFacts KepMotion TwoBody KepRows SolveFacts SolveElps
  SolveHypb Classical.
Import ListNotations.
Local Open Scope R_scope.

Lemma uni_newton_R t al r0 s0 mu chi : uni_newton t al r0 s0 mu chi
  = chi - kepler_equ_uni chi al r0 s0 t mu / dchi chi al r0 s0.
Proof. reflexivity. Qed.
Lemma iterate_conj {A B} (f : A -> A) (g : B -> B) (phi : A -> B) k x :
  (forall y, phi (f y) = g (phi y)) -> phi (iterate f k x) = iterate g k (phi x).
Proof. intros H. induction k as [|k IH]; cbn [iterate]; [reflexivity|]. now rewrite H, IH. Qed.

Section Both.
  Variables (r0 v0 : vec) (mu : R).
  Hypothesis Hmu : 0 < mu.
  Hypothesis Hh : cross r0 v0 <> vzero.
  Let Hr : r0 <> vzero := vec_nonzero_l _ _ Hh.
  Let al := alpha_of (vnorm r0) (vnorm v0) mu.
  Let sg0 := sigma_fn r0 v0 mu.
  Let a := semimajor_axis (vnorm r0) (vnorm v0) mu.
  Let e := vnorm (eccentricity_vector r0 v0 mu).

  Lemma newton_S t chi : uni_newton t al (vnorm r0) sg0 mu chi
    = chi - (timeS r0 v0 mu chi - sqrt mu * t) / radS r0 v0 mu chi.
  Proof. rewrite uni_newton_R. unfold al, sg0. rewrite kepler_equ_uni_S, dchi_S. reflexivity. Qed.

  Section Ell.
    Hypothesis HE : energy mu r0 v0 < 0.
    Variable E0 : R.
    Hypothesis H0 : eccentric_anomaly mu a e r0 v0 E0.
    Variable t : R.
    Let M := E0 - e * sin E0 + mean_anomaly_elps a t mu.
    Let s := sqrt a.
    Let phi (chi : R) : R := E0 + chi / s.
    Let Ps : 0 < s.
    Proof. apply (s_pos r0 v0 mu); auto. Qed.

    Lemma ell_step chi : phi (uni_newton t al (vnorm r0) sg0 mu chi) = elps_newton M e (phi chi).
    Proof.
      rewrite newton_S, elps_newton_R, (uni_elps r0 v0 mu Hmu Hh HE E0 H0), (rad_E r0 v0 mu Hmu Hh HE E0 H0).
      fold a. fold s. fold (phi chi). fold e. fold M. rewrite <- (dE_R (phi chi) e).
      assert (D : 0 < dE (phi chi) e).
      { apply dE_pos. split; [apply vnorm_nonneg|]. apply (e_elps r0 v0 mu); auto. }
      set (q := kepler_equ_elps (phi chi) e M). set (d := dE (phi chi) e) in *. clearbody q d.
      unfold phi. field. lra.
    Qed.
    Lemma ell_guess : phi (uni_guess t al mu) = E0 + mean_anomaly_elps a t mu.
    Proof.
      unfold phi. rewrite uni_guess_R. unfold al. rewrite alpha_of_S.
      pose proof (al_pos r0 v0 mu Hmu Hh HE) as P. rewrite (Rabs_pos_eq _ (Rlt_le _ _ P)).
      rewrite (al_s r0 v0 mu Hmu Hh HE). fold a. fold s.
      pose proof (mean_E r0 v0 mu Hmu Hh HE t) as Q. fold a in Q. fold s in Q.
      replace (sqrt mu * / (s * s) * t / s) with ((sqrt mu * t) / (s * s * s)) by (field; lra).
      rewrite Q. field. lra.
    Qed.
    Lemma ell_residual chi : kepler_equ_uni chi al (vnorm r0) sg0 t mu
      = s ^ 3 * kepler_equ_elps (phi chi) e M.
    Proof.
      unfold al, sg0. rewrite kepler_equ_uni_S, (uni_elps r0 v0 mu Hmu Hh HE E0 H0). fold a. fold s e.
      fold (phi chi). fold M. ring.
    Qed.
  End Ell.

  Section Hyp.
    Hypothesis HE : 0 < energy mu r0 v0.
    Variable H0 : R.
    Hypothesis HH : hyperbolic_anomaly mu a e r0 v0 H0.
    Variable t : R.
    Let M := e * sinh H0 - H0 + mean_anomaly_hypb a t mu.
    Let s := sqrt (- a).
    Let phi (chi : R) : R := H0 + chi / s.
    Let Ps : 0 < s.
    Proof. apply (hs_pos r0 v0 mu); auto. Qed.

    Lemma hyp_rad chi : radS r0 v0 mu chi = s * s * dH (phi chi) e.
    Proof.
      pose proof (ha_at r0 v0 mu Hmu Hh HE H0 HH chi) as [A _].
      rewrite (pos_norm r0 v0 mu Hmu Hr Hh) in A. rewrite A. pose proof (hs_sq r0 v0 mu Hmu Hh HE) as S.
      fold a in S |- *. fold s in S |- *. fold e. rewrite dH_R. unfold phi. replace a with (- (s * s)) by lra. ring.
    Qed.
    Lemma hyp_step chi : phi (uni_newton t al (vnorm r0) sg0 mu chi) = hypb_newton M e (phi chi).
    Proof.
      rewrite newton_S, hypb_newton_R, (uni_hypb r0 v0 mu Hmu Hh HE H0 HH), hyp_rad.
      fold a. fold s. fold (phi chi). fold e. fold M.
      assert (D : dH (phi chi) e <> 0).
      { pose proof (radS_pos r0 v0 mu Hmu Hr Hh chi) as P. rewrite hyp_rad in P. nra. }
      set (q := kepler_equ_hypb (phi chi) e M). set (d := dH (phi chi) e) in *. clearbody q d.
      unfold phi. field. lra.
    Qed.
    Lemma hyp_guess : phi (uni_guess t al mu) = H0 + mean_anomaly_hypb a t mu.
    Proof.
      unfold phi. rewrite uni_guess_R. unfold al. rewrite alpha_of_S.
      pose proof (al_neg r0 v0 mu Hmu Hh HE) as P. rewrite (Rabs_left _ P).
      rewrite (al_hs r0 v0 mu Hmu Hh HE). fold a. fold s.
      pose proof (hmean r0 v0 mu Hmu Hh HE t) as Q. fold a in Q. fold s in Q.
      replace (sqrt mu * - - / (s * s) * t / s) with ((sqrt mu * t) / (s * s * s)) by (field; lra).
      rewrite Q. field. lra.
    Qed.
    Lemma hyp_residual chi : kepler_equ_uni chi al (vnorm r0) sg0 t mu
      = s ^ 3 * kepler_equ_hypb (phi chi) e M.
    Proof.
      unfold al, sg0. rewrite kepler_equ_uni_S, (uni_hypb r0 v0 mu Hmu Hh HE H0 HH). fold a. fold s e.
      fold (phi chi). fold M. ring.
    Qed.
    (** Every Newton step moves the hyperbolic anomaly left by at most 1. *)
    Lemma hyp_slow k : 0 <= M -> INR k < H0 + mean_anomaly_hypb a t mu ->
      H0 + mean_anomaly_hypb a t mu - INR k
      <= phi (iterate (uni_newton t al (vnorm r0) sg0 mu) k (uni_guess t al mu)).
    Proof.
      intros PM. rewrite (iterate_conj _ (hypb_newton M e) phi) by (intros; apply hyp_step). rewrite hyp_guess.
      pose proof (e_hypb r0 v0 mu Hmu Hh HE) as Pe. fold e in Pe.
      induction k as [|k IH]; intros L; [simpl; lra|].
      rewrite S_INR in *. cbn [iterate]. specialize (IH ltac:(lra)).
      set (x := iterate _ k _) in *. pose proof (hypb_step_slow M e x ltac:(lra) PM ltac:(lra)). lra.
    Qed.
  End Hyp.
End Both.

(** ** Ellipses up to e = 3/5 *)
Lemma nine_tenths : (9 / 10) ^ (2 ^ 13) <= / 10 ^ 320.
Proof.
  assert (Q : forall x y, 0 <= x -> x <= y -> x ^ 2 <= y ^ 2) by (intros; apply pow_incr; lra).
  assert (P : forall n, (9 / 10) ^ (2 ^ S n) = ((9 / 10) ^ (2 ^ n)) ^ 2).
  { intros n. rewrite <- pow_mult. f_equal. simpl. lia. }
  assert (N : forall n, 0 <= (9 / 10) ^ n) by (intros; apply pow_le; lra).
  assert (A6 : (9 / 10) ^ (2 ^ 6) <= / 800).
  { rewrite !P. change (2 ^ 0)%nat with 1%nat. rewrite pow_1.
    apply Rle_trans with ((((431 / 1000) ^ 2) ^ 2) ^ 2); [|lra].
    repeat apply Q; try (repeat apply pow_le; lra). }
  assert (A7 : (9 / 10) ^ (2 ^ 7) <= / 10 ^ 5).
  { rewrite P. apply Rle_trans with ((/ 800) ^ 2); [apply Q; auto|lra]. }
  assert (D : forall n m, (9 / 10) ^ (2 ^ n) <= / 10 ^ m -> (9 / 10) ^ (2 ^ S n) <= / 10 ^ (m + m)).
  { intros n m H. rewrite P. apply Rle_trans with ((/ 10 ^ m) ^ 2); [apply Q; auto|].
    right. rewrite pow_add, Rinv_mult. simpl. ring. }
  apply D in A7. apply D in A7. apply D in A7. apply D in A7. apply D in A7. apply D in A7. exact A7.
Qed.

Section Quad.
  Variables (e M E x0 : R).
  Hypothesis He : 0 <= e <= 3 / 5.
  Hypothesis Hroot : kepler_equ_elps E e M = 0.
  Hypothesis Hx0 : Rabs (x0 - E) <= 2 * e.
  Lemma quad_err k : 3 / 4 * Rabs (iterate (elps_newton M e) k x0 - E) <= (9 / 10) ^ (2 ^ k).
  Proof.
    induction k as [|k IH].
    - cbn [iterate]. change (2 ^ 0)%nat with 1%nat. lra.
    - cbn [iterate]. set (x := iterate _ k _) in *.
      pose proof (newton_quadratic e M E ltac:(lra) Hroot x) as Q.
      assert (C : e / (2 * (1 - e)) <= 3 / 4).
      { apply (Rmult_le_reg_r (2 * (1 - e))); [lra|].
        replace (e / (2 * (1 - e)) * (2 * (1 - e))) with e by (field; lra). lra. }
      assert (N : (9 / 10) ^ (2 ^ S k) = (9 / 10) ^ (2 ^ k) * (9 / 10) ^ (2 ^ k)).
      { rewrite <- pow_add. f_equal. simpl. lia. }
      rewrite N. pose proof (Rabs_pos (x - E)) as PA.
      replace ((x - E) ^ 2) with (Rabs (x - E) * Rabs (x - E)) in Q by (rewrite <- Rabs_mult, Rabs_pos_eq; [ring|apply Rle_0_sqr]).
      set (d := Rabs (x - E)) in *. set (q := (9 / 10) ^ (2 ^ k)) in *.
      assert (e / (2 * (1 - e)) * (d * d) <= 3 / 4 * (d * d)) by (apply Rmult_le_compat_r; nra).
      assert (3 / 4 * d * (3 / 4 * d) <= q * q) by (apply Rmult_le_compat; lra). lra.
  Qed.
End Quad.

Lemma elps_residual_lip e M E x : 0 <= e < 1 -> kepler_equ_elps E e M = 0 ->
  Rabs (kepler_equ_elps x e M) <= 2 * Rabs (x - E).
Proof.
  intros He Z. destruct (mvt (fun t => kepler_equ_elps t e M) (fun t => dE t e) E x
      ltac:(intros; apply elps_deriv)) as [c [_ Ec]]. cbv beta in Ec. rewrite Z in Ec.
  replace (kepler_equ_elps x e M) with (dE c e * (x - E)) by lra. rewrite Rabs_mult.
  apply Rmult_le_compat_r; [apply Rabs_pos|]. rewrite Rabs_pos_eq by (apply Rlt_le, dE_pos; lra).
  rewrite dE_R. pose proof (COS_bound c). nra.
Qed.

Lemma uni_elliptic_converges r0 v0 mu t : 0 < mu -> cross r0 v0 <> vzero ->
  let a := semimajor_axis (vnorm r0) (vnorm v0) mu in
  let alpha := alpha_of (vnorm r0) (vnorm v0) mu in
  let sigma0 := sigma_fn r0 v0 mu in
  vnorm (eccentricity_vector r0 v0 mu) <= 3 / 5 -> a <= 10 ^ 200 ->
  exists i chi prev, (i <= 13)%Z /\
    uni_run t alpha (vnorm r0) sigma0 mu default_tol uni_max_iter = Some (i, chi, prev) /\
    Rabs (kepler_equ_uni chi alpha (vnorm r0) sigma0 t mu) <= / 1000000.
Proof.
  intros Hmu Hh. cbv zeta. set (a := semimajor_axis _ _ _). set (e := vnorm (eccentricity_vector r0 v0 mu)).
  intros He Ha. assert (HE : energy mu r0 v0 < 0) by (apply (conic_kind r0 v0 mu Hmu Hh); fold e; lra).
  assert (Pe : 0 <= e) by apply vnorm_nonneg.
  destruct (ea_exists r0 v0 mu Hmu Hh HE) as [E0 [_ H0]].
  set (al := alpha_of _ _ _). set (sg := sigma_fn _ _ _).
  destruct (uni_run_char t al (vnorm r0) sg mu default_tol uni_max_iter) as [k [Hk [Hrun [Hj Hx]]]].
  set (M := E0 - e * sin E0 + mean_anomaly_elps a t mu).
  destruct (elps_unique e M ltac:(lra)) as [E [HE0 _]].
  pose proof (s_pos r0 v0 mu Hmu Hh HE) as Ps. fold a in Ps.
  assert (S3 : sqrt a ^ 3 <= 10 ^ 300).
  { pose proof (a_pos r0 v0 mu Hmu Hh HE) as Pa. fold a in Pa.
    assert (sqrt a <= 10 ^ 100).
    { rewrite <- (sqrt_pow2 (10 ^ 100)) by (apply pow_le; lra). apply sqrt_le_1_alt. rewrite <- pow_mult. exact Ha. }
    replace (10 ^ 300) with ((10 ^ 100) ^ 3) by (rewrite <- pow_mult; reflexivity). apply pow_incr. lra. }
  assert (B13 : Rabs (kepler_equ_uni (iterate (uni_newton t al (vnorm r0) sg mu) 13 (uni_guess t al mu))
      al (vnorm r0) sg t mu) <= default_tol).
  { rewrite default_tol_R.
    pose proof (ell_residual r0 v0 mu Hmu Hh HE E0 H0 t
      (iterate (uni_newton t al (vnorm r0) sg mu) 13 (uni_guess t al mu))) as Res.
    fold al sg a e in Res. rewrite Res. clear Res. fold M.
    rewrite (iterate_conj _ (elps_newton M e) (fun chi => E0 + chi / sqrt a))
      by (intros y; exact (ell_step r0 v0 mu Hmu Hh HE E0 H0 t y)).
    pose proof (ell_guess r0 v0 mu Hmu Hh HE E0 t) as Gu. fold al a in Gu. cbv beta. rewrite Gu. clear Gu.
    set (g := E0 + mean_anomaly_elps a t mu).
    assert (D0 : Rabs (g - E) <= 2 * e).
    { rewrite kepler_equ_elps_R in HE0.
      replace (g - E) with (e * (sin E0 - sin E)) by (unfold g, M in *; lra).
      rewrite Rabs_mult, (Rabs_pos_eq e) by lra. rewrite (Rmult_comm 2).
      apply Rmult_le_compat_l; [lra|]. apply Rabs_le. pose proof (SIN_bound E0). pose proof (SIN_bound E). lra. }
    pose proof (quad_err e M E g ltac:(lra) HE0 D0 13) as Q.
    pose proof (elps_residual_lip e M E (iterate (elps_newton M e) 13 g) ltac:(lra) HE0) as L.
    pose proof nine_tenths as NT.
    set (x := iterate _ 13 g) in *. clearbody x.
    assert (L2 : Rabs (kepler_equ_elps x e M) <= 3 * / 10 ^ 320) by lra.
    rewrite Rabs_mult, (Rabs_pos_eq (sqrt a ^ 3)) by (apply pow_le; lra).
    apply Rle_trans with (10 ^ 300 * (3 * / 10 ^ 320)).
    { apply Rmult_le_compat; auto; [apply pow_le; lra|apply Rabs_pos]. }
    change 320%nat with (300 + 20)%nat. rewrite pow_add, Rinv_mult.
    assert (T0 : 0 < 10 ^ 300) by (apply pow_lt; lra).
    assert (T : 10 ^ 300 * / 10 ^ 300 = 1) by (apply Rinv_r; lra).
    set (u := 10 ^ 300) in *. set (ui := / u) in *. clearbody ui u.
    replace (u * (3 * (ui * / 10 ^ 20))) with (u * ui * (3 * / 10 ^ 20)) by ring. rewrite T. lra. }
  assert (K : (k <= 13)%nat).
  { apply Nat.nlt_ge. intros L. specialize (Hj 13%nat L). apply exceeds_R in Hj. lra. }
  exists (Z.of_nat k). do 2 eexists. split; [lia|]. split; [exact Hrun|].
  destruct Hx as [Hx|Hx].
  - change (Z.to_nat uni_max_iter) with 50%nat in Hx. lia.
  - apply exceeds_R_false in Hx. now rewrite default_tol_R in Hx.
Qed.

(** ** Hyperbolas: the default guess is too far away for late times *)
Lemma uni_hyperbolic_fails r0 v0 mu tol B (mi : Z) : 0 < mu -> cross r0 v0 <> vzero -> 0 < energy mu r0 v0 ->
  (0 <= mi)%Z ->
  let alpha := alpha_of (vnorm r0) (vnorm v0) mu in
  let sigma0 := sigma_fn r0 v0 mu in
  exists T, forall t, T <= t ->
    exists chi prev, uni_run t alpha (vnorm r0) sigma0 mu tol mi = Some (mi, chi, prev) /\
      solve_kepler_uni t alpha (vnorm r0) sigma0 mu tol mi = chi /\
      B < kepler_equ_uni chi alpha (vnorm r0) sigma0 t mu.
Proof.
  intros Hmu Hh HE Hmi. cbv zeta. set (al := alpha_of _ _ _). set (sg := sigma_fn _ _ _).
  destruct (ha_exists r0 v0 mu Hmu Hh HE) as [H0 [HH _]].
  pose proof (hs_pos r0 v0 mu Hmu Hh HE) as Ps. pose proof (e_hypb r0 v0 mu Hmu Hh HE) as Pe.
  set (a := semimajor_axis (vnorm r0) (vnorm v0) mu) in *. set (e := vnorm (eccentricity_vector r0 v0 mu)) in *.
  set (s := sqrt (- a)) in *.
  set (n := sqrt mu / (s * s * s)).
  assert (Pm : 0 < sqrt mu) by (apply sqrt_lt_R0; lra).
  assert (Ps3 : 0 < s * s * s) by (repeat apply Rmult_lt_0_compat; lra).
  assert (Pn : 0 < n) by (apply Rdiv_lt_0_compat; lra).
  assert (Hn : forall t, mean_anomaly_hypb a t mu = n * t).
  { intros t. pose proof (hmean r0 v0 mu Hmu Hh HE t) as Q. fold a in Q. fold s in Q. unfold n.
    apply (Rmult_eq_reg_l (s * s * s)); [|lra]. rewrite <- Q. field. lra. }
  set (m := INR (Z.to_nat mi)).
  set (C := e * sinh H0 - H0 - H0 + m).
  set (Y := 12 + Rabs C + Rabs B / (s * s * s) + Rabs tol / (s * s * s)).
  assert (PB : 0 <= Rabs B / (s * s * s)) by (apply Rmult_le_pos; [apply Rabs_pos|left; now apply Rinv_0_lt_compat]).
  assert (PT : 0 <= Rabs tol / (s * s * s)) by (apply Rmult_le_pos; [apply Rabs_pos|left; now apply Rinv_0_lt_compat]).
  exists ((Y - H0 + m) / n). intros t Ht.
  assert (Hnt : Y <= H0 + n * t - m).
  { assert ((Y - H0 + m) / n * n <= t * n) by (apply Rmult_le_compat_r; lra).
    replace ((Y - H0 + m) / n * n) with (Y - H0 + m) in * by (field; lra). lra. }
  set (y := H0 + n * t - m) in *.
  set (M := e * sinh H0 - H0 + mean_anomaly_hypb a t mu).
  assert (HM : M = C + y) by (unfold M, C, y; rewrite Hn; ring).
  pose proof (Rle_abs C) as AC1. pose proof (Rle_abs (- C)) as AC2. rewrite Rabs_Ropp in AC2.
  pose proof (Rle_abs B) as AB. pose proof (Rle_abs tol) as AT.
  pose proof (Rabs_pos C). assert (Pm0 : 0 <= m) by apply pos_INR.
  destruct (uni_run_char t al (vnorm r0) sg mu tol mi) as [k [Hk [Hrun [Hj Hx]]]].
  assert (Big : forall j, (j <= Z.to_nat mi)%nat ->
    Rmax B tol < kepler_equ_uni (iterate (uni_newton t al (vnorm r0) sg mu) j (uni_guess t al mu)) al (vnorm r0) sg t mu).
  { intros j Lj. assert (Lj' : INR j <= m) by (apply le_INR; exact Lj).
    pose proof (hyp_slow r0 v0 mu Hmu Hh HE H0 HH t j) as S. fold al sg a e in S. fold s in S. cbv zeta in S.
    fold M in S. rewrite Hn in S.
    specialize (S ltac:(unfold Y in *; lra) ltac:(unfold y, Y in *; lra)).
    pose proof (hyp_residual r0 v0 mu Hmu Hh HE H0 HH t
      (iterate (uni_newton t al (vnorm r0) sg mu) j (uni_guess t al mu))) as Res.
    fold al sg a e in Res. fold s in Res. fold M in Res. rewrite Res. clear Res.
    set (x := H0 + iterate _ j _ / s) in *. clearbody x.
    assert (X : y <= x) by (unfold y; lra). clear S.
    rewrite kepler_equ_hypb_R, HM.
    assert (X0 : 12 <= x) by (unfold Y in *; lra).
    pose proof (sinh_ge_cube x ltac:(lra)) as SC.
    assert (F : 24 * x <= x ^ 3 / 6) by nra.
    assert (G : e * (x + x ^ 3 / 6) <= e * sinh x) by (apply Rmult_le_compat_l; lra).
    assert (G' : x + x ^ 3 / 6 <= e * (x + x ^ 3 / 6)) by nra.
    assert (Z : Rabs B / (s * s * s) + Rabs tol / (s * s * s) + 1 <= e * sinh x - x - (C + y)) by (unfold Y in *; lra).
    replace (s ^ 3) with (s * s * s) by ring.
    apply Rlt_le_trans with (s * s * s * (Rabs B / (s * s * s) + Rabs tol / (s * s * s) + 1)).
    - replace (s * s * s * (Rabs B / (s * s * s) + Rabs tol / (s * s * s) + 1))
        with (Rabs B + Rabs tol + s * s * s) by (field; lra).
      pose proof (Rabs_pos B). pose proof (Rabs_pos tol). apply Rmax_lub_lt; lra.
    - apply Rmult_le_compat_l; lra. }
  assert (K : k = Z.to_nat mi).
  { destruct Hx as [Hx|Hx]; [exact Hx|]. specialize (Big k Hk). apply exceeds_R_false in Hx.
    pose proof (Rmax_r B tol). rewrite Rabs_pos_eq in Hx; [lra|].
    pose proof (Rabs_pos (kepler_equ_uni (iterate (uni_newton t al (vnorm r0) sg mu) k (uni_guess t al mu)) al (vnorm r0) sg t mu)). lra. }
  rewrite K, Z2Nat.id in Hrun by lia. do 2 eexists. split; [exact Hrun|]. split.
  - unfold solve_kepler_uni. rewrite Hrun. reflexivity.
  - eapply Rle_lt_trans; [apply (Rmax_l B tol)|]. apply Big. lia.
Qed.

(** ** A concrete hyperbola: the distance returned by [kepler] *)
Definition ur : vec := mk3 1 0 0.
Definition uv : vec := mk3 1 1 1.
Lemma ur_norm : vnorm ur = 1.
Proof. apply vnorm_unique; [lra|]. unfold dot, ur; simpl. ring. Qed.
Lemma uh : cross ur uv <> vzero.
Proof. unfold ur, uv, vzero, cross; simpl. intros H. injection H. lra. Qed.
Lemma u_alpha : alphaS ur uv 1 = -1.
Proof. unfold alphaS. rewrite ur_norm, vnorm_sq2. unfold dot, uv; simpl. lra. Qed.
Lemma u_sigma : sigmaS ur uv 1 = 1.
Proof. unfold sigmaS, dot, ur, uv; simpl. rewrite sqrt_1. lra. Qed.
Lemma u_U chi : U 0 chi (-1) = cosh chi /\ U 1 chi (-1) = sinh chi /\
  U 2 chi (-1) = cosh chi - 1 /\ U 3 chi (-1) = sinh chi - chi.
Proof.
  assert (S : sqrt (- (-1)) = 1) by (replace (- (-1)) with 1 by ring; apply sqrt_1).
  assert (A : U 0 chi (-1) = cosh chi) by (rewrite U0_neg, S, Rmult_1_l by lra; reflexivity).
  assert (B : U 1 chi (-1) = sinh chi) by (rewrite U1_neg, S, Rmult_1_l by lra; field).
  pose proof (U0_eq chi (-1)). pose proof (U1_eq chi (-1)). repeat split; auto; lra.
Qed.
Lemma u_rad chi : radS ur uv 1 chi = 2 * cosh chi + sinh chi - 1.
Proof. unfold radS. rewrite u_alpha, u_sigma, ur_norm. destruct (u_U chi) as [-> [-> [-> _]]]. ring. Qed.
Lemma u_time chi : timeS ur uv 1 chi = 2 * sinh chi + cosh chi - 1 - chi.
Proof. unfold timeS. rewrite u_alpha, u_sigma, ur_norm. destruct (u_U chi) as [_ [-> [-> ->]]]. ring. Qed.

Lemma u_iter t k : 0 <= t -> INR k <= t ->
  t - INR k <= iterate (uni_newton t (alpha_of (vnorm ur) (vnorm uv) 1) (vnorm ur) (sigma_fn ur uv 1) 1) k
    (uni_guess t (alpha_of (vnorm ur) (vnorm uv) 1) 1).
Proof.
  intros Ht. induction k as [|k IH]; intros L.
  - cbn [iterate]. rewrite uni_guess_R, alpha_of_S, u_alpha, sqrt_1. simpl INR.
    rewrite Rabs_left by lra. lra.
  - rewrite S_INR in *. cbn [iterate]. specialize (IH ltac:(lra)). set (x := iterate _ k _) in *. clearbody x.
    rewrite newton_S, sqrt_1, u_time, u_rad.
    assert (X : 0 <= x) by lra.
    pose proof (cosh_ge_1 x). pose proof (sinh_nonneg x X). pose proof (exp_cosh_sinh x) as E. pose proof (exp_pos (- x)).
    assert (D : 0 < 2 * cosh x + sinh x - 1) by lra.
    assert ((2 * sinh x + cosh x - 1 - x - 1 * t) / (2 * cosh x + sinh x - 1) <= 1).
    { apply (Rmult_le_reg_r (2 * cosh x + sinh x - 1)); [lra|]. unfold Rdiv. rewrite Rmult_assoc, Rinv_l by lra. lra. }
    lra.
Qed.

Lemma u_kepler_wrong t : 100 <= t ->
  exists r v, kepler [t] ur uv 1 = [(r, v)] /\ 1 + t ^ 2 / 4 <= vnorm r /\
    forall x, flows_to 1 t (ur, uv) x -> vnorm (fst x) <= 2 * t + 1.
Proof.
  intros Ht. set (al := alpha_of (vnorm ur) (vnorm uv) 1). set (sg := sigma_fn ur uv 1).
  destruct (uni_char t al (vnorm ur) sg 1 default_tol uni_max_iter) as [k [Hk [E _]]].
  change (Z.to_nat uni_max_iter) with 50%nat in Hk.
  assert (Hk' : INR k <= 50). { change 50 with (INR 50) || replace 50 with (INR 50) by (simpl; lra). now apply le_INR. }
  pose proof (u_iter t k ltac:(lra) ltac:(lra)) as It. fold al sg in It.
  pose proof (kepler_row [t] ur uv 1 0 t eq_refl) as Row.
  set (chi := solver_chi t ur uv 1) in *.
  assert (Ec : chi = iterate (uni_newton t al (vnorm ur) sg 1) k (uni_guess t al 1)) by exact E.
  rewrite <- Ec in It. clear Ec E.
  exists (posS ur uv 1 chi), (velS ur uv 1 chi).
  pose proof uh as Hh. pose proof (vec_nonzero_l _ _ Hh) as Hr. assert (H1 : 0 < 1) by lra.
  split; [|split].
  - destruct (kepler_rows [t] ur uv 1) as [_ L]. destruct (kepler [t] ur uv 1) as [|x [|y l]]; simpl in L; try discriminate.
    simpl in Row. injection Row as ->. reflexivity.
  - rewrite (pos_norm ur uv 1 H1 Hr Hh), u_rad.
    pose proof (cosh_ge_quad chi ltac:(lra)). pose proof (sinh_nonneg chi ltac:(lra)).
    assert (t ^ 2 / 4 <= chi ^ 2) by nra. lra.
  - intros x Fx. set (c := chiS ur uv 1 H1 Hh t).
    pose proof (chiS_spec ur uv 1 H1 Hh t) as Sp. fold c in Sp.
    pose proof (flow_state 1 t c ur uv H1 Hh Sp) as Fc.
    rewrite (flow_det 1 t (ur, uv) x _ H1 Hh Fx Fc). cbn [fst].
    rewrite (pos_norm ur uv 1 H1 Hr Hh), u_rad. rewrite u_time, sqrt_1 in Sp.
    assert (Pc : 0 <= c).
    { apply Rnot_lt_le. intros N. pose proof (timeS_incr ur uv 1 H1 Hh c 0 N) as I.
      rewrite !u_time, sinh_0, cosh_0 in I. lra. }
    pose proof (sinh_ge_id c Pc). pose proof (cosh_ge_1 c). pose proof (exp_cosh_sinh c) as Ec.
    assert (exp (- c) <= 1).
    { rewrite <- exp_0. destruct (Req_dec c 0) as [->|N]; [rewrite Ropp_0; lra|]. left. apply exp_increasing. lra. }
    lra.
Qed.

Lemma kepler_elliptic_accurate r0 v0 mu : 0 < mu -> cross r0 v0 <> vzero ->
  let a := semimajor_axis (vnorm r0) (vnorm v0) mu in
  let p := semiparameter (vnorm (angular_momentum r0 v0)) mu in
  let e := vnorm (eccentricity_vector r0 v0 mu) in
  e <= 3 / 5 -> a <= 10 ^ 200 ->
  forall ts i t rk vk r v,
  nth_error ts i = Some t -> nth_error (kepler ts r0 v0 mu) i = Some (rk, vk) ->
  flows_to mu t (r0, v0) (r, v) ->
  vnorm (vminus rk r) <= sqrt (mu / p) * (1 + e) * (/ 1000000 / sqrt mu).
Proof.
  intros Hmu Hh a p e He Ha ts i t rk vk r v Hi Hk [fr [fv [Hm [A B]]]].
  apply pair_equal_spec in A. apply pair_equal_spec in B. destruct A as [A1 A2]. destruct B as [B1 B2].
  destruct (uni_elliptic_converges r0 v0 mu t Hmu Hh He Ha) as [k [chi [prev [_ [Hrun Hres]]]]].
  pose proof (row_error r0 v0 mu Hmu Hh fr fv Hm A1 A2 ts i t (/ 1000000) rk vk) as Q. cbv zeta in Q.
  rewrite <- B1. apply Q; auto. unfold solve_kepler_uni. rewrite Hrun. exact Hres.
Qed.
