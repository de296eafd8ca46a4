(** * AdHypb2: the derivative of [solve_kepler_hypb] once a Newton step was made (proofs for C89) *)
From Coq Require Import Reals ZArith Lia Lra Psatz List Bool.
From Coquelicot Require Import Coquelicot.
From Verif Require Import Num NumR NumD Spec SpecAd OrbIntegrals KepEqu RLib Ana Atan2 LoopFacts KepRows SolveFacts NewtonConvex SolveElps SolveHypb UFacts AdOps AdKep AdHypb.
Local Open Scope R_scope.

(** ** The derivative of the solution *)
Lemma vanish_mul (a b : R -> R) (s a' : R) : is_derive a s a' -> a s = 0 -> continuity_pt b s -> is_derive (fun u : R => a u * b u) s (a' * b s).
Proof.
  intros Ha H0 Hb. apply is_derive_Reals in Ha. apply is_derive_Reals. intros eps Heps.
  set (k := Rabs a' + Rabs (b s) + 2). pose proof (Rabs_pos a') as P1. pose proof (Rabs_pos (b s)) as P2.
  set (eta := Rmin 1 (eps / k)). assert (Ke : 0 < eps / k) by (apply Rdiv_lt_0_compat; unfold k; lra).
  assert (E0 : 0 < eta) by (apply Rmin_pos; lra). assert (E1 : eta <= 1) by apply Rmin_l.
  assert (E2 : eta * k <= eps). { apply Rle_trans with (eps / k * k); [apply Rmult_le_compat_r; [unfold k; lra|apply Rmin_r]|right; field; unfold k; lra]. }
  destruct (Ha eta E0) as [d1 D1]. destruct (Hb eta E0) as [d2 [D2 D3]].
  assert (Dp : 0 < Rmin d1 d2) by (apply Rmin_pos; [apply cond_pos|exact D2]).
  exists (mkposreal _ Dp). intros h Hh Hl. cbn [pos] in Hl.
  assert (L1 : Rabs h < d1) by (eapply Rlt_le_trans; [exact Hl|apply Rmin_l]). assert (L2 : Rabs h < d2) by (eapply Rlt_le_trans; [exact Hl|apply Rmin_r]).
  specialize (D1 h Hh L1). rewrite H0, Rminus_0_r in D1.
  assert (B1 : Rabs (b (s + h) - b s) < eta).
  { apply (D3 (s + h)). split; [split; [exact I|lra]|]. simpl. unfold R_dist. replace (s + h - s) with h by ring. exact L2. }
  rewrite H0, Rmult_0_l, Rminus_0_r. set (P := a (s + h) / h) in *. set (Q := b (s + h)) in *.
  replace (a (s + h) * Q / h - a' * b s) with ((P - a') * (Q - b s) + (P - a') * b s + a' * (Q - b s)) by (unfold P; field; exact Hh).
  apply Rle_lt_trans with (1 := Rabs_triang _ _). rewrite Rabs_mult.
  apply Rle_lt_trans with (Rabs (P - a') * Rabs (Q - b s) + Rabs (P - a') * Rabs (b s) + Rabs a' * Rabs (Q - b s)).
  { apply Rplus_le_compat_r. rewrite <- !Rabs_mult. apply Rabs_triang. }
  pose proof (Rabs_pos (P - a')). pose proof (Rabs_pos (Q - b s)).
  assert (Rabs (P - a') * Rabs (Q - b s) <= eta * 1) by (apply Rmult_le_compat; lra).
  assert (Rabs (P - a') * Rabs (b s) <= eta * Rabs (b s)) by (apply Rmult_le_compat_r; lra).
  assert (Rabs a' * Rabs (Q - b s) <= Rabs a' * eta) by (apply Rmult_le_compat_l; lra).
  unfold k in E2. nra.
Qed.
(** If [phi] has slope [F <> 0] at [r s], [r] is continuous at [s] and [phi o r] has slope [G], then [r] has slope [G / F]. *)
Lemma inner_der (phi r : R -> R) (s F G : R) : F <> 0 -> is_derive phi (r s) F -> continuity_pt r s ->
  is_derive (fun u : R => phi (r u)) s G -> is_derive r s (G / F).
Proof.
  intros HF Hp Hr Hg.
  set (sl := fun y : R => if Req_EM_T y (r s) then F else (phi y - phi (r s)) / (y - r s)).
  assert (C : continuity_pt sl (r s)).
  { intros eps Heps. apply is_derive_Reals in Hp. destruct (Hp eps Heps) as [d D]. exists d. split; [apply cond_pos|].
    intros y [[_ Hy] Ly]. simpl in Ly |- *. unfold R_dist in *. unfold sl. destruct (Req_EM_T (r s) (r s)) as [_|N]; [|now contradict N].
    destruct (Req_EM_T y (r s)) as [E|E]; [rewrite Rminus_eq_0, Rabs_R0; exact Heps|].
    specialize (D (y - r s) ltac:(lra) Ly). assert (R1 : forall a b : R, a + (b - a) = b) by (intros; ring). rewrite R1 in D. exact D. }
  assert (S0 : sl (r s) = F) by (unfold sl; destruct (Req_EM_T (r s) (r s)) as [_|N]; [reflexivity|now contradict N]).
  assert (CI : continuity_pt (fun u => / sl (r u)) s).
  { apply (continuity_pt_inv (fun u => sl (r u))); [|rewrite S0; exact HF]. apply (continuity_pt_comp r sl); assumption. }
  assert (H1 : is_derive (fun u : R => (phi (r u) - phi (r s)) * / sl (r u)) s (G * / sl (r s))).
  { apply (vanish_mul (fun u => phi (r u) - phi (r s)) (fun u => / sl (r u))); [|ring|exact CI]. eapply der_eq; [apply der_minus; [exact Hg|apply der_const]|ring]. }
  rewrite S0 in H1. assert (H2 : is_derive (fun u : R => (phi (r u) - phi (r s)) * / sl (r u) + r s) s (G / F)).
  { eapply der_eq; [apply der_plus; [exact H1|apply der_const]|unfold Rdiv; ring]. }
  assert (L : locally s (fun u => (phi (r u) - phi (r s)) * / sl (r u) + r s = r u)).
  { destruct (C (Rabs F) (Rabs_pos_lt F HF)) as [d [D1 D2]]. destruct (Hr d D1) as [d' [D3 D4]].
    exists (mkposreal d' D3). intros u Hu. change (Rabs (u - s) < d') in Hu.
    destruct (Req_EM_T (r u) (r s)) as [E|E]; [rewrite E; ring|].
    assert (V : sl (r u) <> 0).
    { intros Z. assert (us : u <> s) by (intros ->; now apply E).
      assert (B : R_dist (r u) (r s) < d) by (apply (D4 u); split; [split; [exact I|lra]|exact Hu]).
      assert (B2 : R_dist (sl (r u)) (sl (r s)) < Rabs F) by (apply (D2 (r u)); split; [split; [exact I|intros Q; apply E; lra]|exact B]).
      unfold R_dist in B2. rewrite Z, S0 in B2. rewrite Rminus_0_l, Rabs_Ropp in B2. lra. }
    unfold sl in *. destruct (Req_EM_T (r u) (r s)) as [Q|Q]; [contradiction|].
    assert (V2 : phi (r u) - phi (r s) <> 0) by (intros Z; apply V; rewrite Z; unfold Rdiv; ring).
    field. split; [lra|exact V2]. }
  exact (is_derive_ext_loc _ _ _ _ L H2).
Qed.
Lemma hypb_implicit (N e root : R -> R) (s dN de : R) : 1 < e s -> is_derive N s dN -> is_derive e s de ->
  locally s (fun u => e u * sinh (root u) - root u = N u) ->
  is_derive root s ((dN - de * sinh (root s)) / (e s * cosh (root s) - 1)).
Proof.
  intros He HN Hd [d0 HR]. set (X := root s) in *. pose proof (cosh_ge_1 X) as CX.
  assert (F0 : 0 < e s * cosh X - 1) by nra.
  assert (RS : e s * sinh X - X = N s) by (apply HR, ball_center).
  assert (Cr : continuity_pt root s).
  { assert (Hz : is_derive (fun u : R => e u * sinh X - X - N u) s (de * sinh X - 0 - dN)).
    { apply der_minus; [apply der_minus; [apply der_scal_r; exact Hd|apply der_const]|exact HN]. }
    apply der_cont in Hz. pose proof (der_cont _ _ _ Hd) as Ce. set (q := e s - 1). assert (q0 : 0 < q) by (unfold q; lra).
    intros eps Heps. destruct (Hz (eps * (q / 2))) as [d1 [D1 D2]]; [apply Rmult_lt_0_compat; lra|]. destruct (Ce (q / 2)) as [d2 [D3 D4]]; [lra|].
    exists (Rmin d0 (Rmin d1 d2)). split; [repeat apply Rmin_pos; try apply cond_pos; assumption|].
    intros u [[_ us] Lu]. simpl in Lu |- *. unfold R_dist in *.
    assert (L0 : Rabs (u - s) < d0) by (eapply Rlt_le_trans; [exact Lu|apply Rmin_l]).
    assert (L1 : Rabs (u - s) < d1) by (eapply Rlt_le_trans; [exact Lu|eapply Rle_trans; [apply Rmin_r|apply Rmin_l]]).
    assert (L2 : Rabs (u - s) < d2) by (eapply Rlt_le_trans; [exact Lu|eapply Rle_trans; [apply Rmin_r|apply Rmin_r]]).
    assert (A1 : Rabs (e u * sinh X - X - N u - (e s * sinh X - X - N s)) < eps * (q / 2)) by (apply (D2 u); split; [split; [exact I|exact us]|exact L1]).
    assert (A2 : Rabs (e u - e s) < q / 2) by (apply (D4 u); split; [split; [exact I|exact us]|exact L2]).
    assert (Eu : q / 2 < e u - 1) by (apply Rabs_def2 in A2; unfold q in *; lra).
    pose proof (hypb_residual_dist (e u) (N u) X (root u) ltac:(lra) ltac:(rewrite kepler_equ_hypb_R; rewrite <- (HR u L0); ring)) as B.
    rewrite kepler_equ_hypb_R in B. rewrite RS, Rminus_eq_0, Rminus_0_r in A1.
    fold X. rewrite Rabs_minus_sym. pose proof (Rabs_pos (X - root u)). apply (Rmult_lt_reg_r (q / 2)); [lra|]. nra. }
  apply (inner_der (fun y => e s * sinh y - y)); [lra| |exact Cr|].
  - apply der_minus; [apply der_scal, der_sinh|apply der_id].
  - apply (is_derive_ext_loc (fun u => N u - (e u - e s) * sinh (root u))).
    { exists d0. intros u Hu. assert (Q : e u * sinh (root u) - root u = N u) by exact (HR u Hu). change (N u - (e u - e s) * sinh (root u) = e s * sinh (root u) - root u). lra. }
    apply der_minus; [exact HN|]. fold X. apply (vanish_mul (fun u => e u - e s) (fun u => sinh (root u))); [|ring|].
    + eapply der_eq; [apply der_minus; [exact Hd|apply der_const]|ring].
    + apply (continuity_pt_comp root sinh); [exact Cr|]. apply (der_cont _ _ _ (der_sinh _)).
Qed.

(** ** How far the recursion is from it *)
Lemma taylor2 (f f1 f2 : R -> R) (a b C : R) : a <= b -> (forall t : R, is_derive f t (f1 t)) -> (forall t : R, is_derive f1 t (f2 t)) ->
  (forall t, a <= t <= b -> Rabs (f2 t) <= C) -> Rabs (f b - (b - a) * f1 b - f a) <= C / 2 * (b - a) ^ 2.
Proof.
  intros L D1 D2 HC.
  assert (K : forall t, a <= t <= b -> Rabs (f1 b - f1 t) <= C * (b - t)).
  { intros t Ht. destruct (mvt f1 f2 t b D2) as [c [Hc Ec]]. rewrite Rmin_left, Rmax_right in Hc by lra. rewrite Ec, Rabs_mult, (Rabs_pos_eq (b - t)) by lra.
    apply Rmult_le_compat_r; [lra|]. apply HC. lra. }
  assert (U : forall z, is_derive (fun t : R => C / 2 * (b - t) ^ 2) z (- C * (b - z))).
  { intros z. eapply der_eq; [apply der_scal, (der_pow (fun t => b - t)), der_minus; [apply der_const|apply der_id]|simpl; field]. }
  assert (V : forall z, is_derive (fun t : R => f1 b * t) z (f1 b)) by (intros z; eapply der_eq; [apply der_scal, der_id|ring]).
  destruct (mvt (fun t => f t - f1 b * t - C / 2 * (b - t) ^ 2) (fun t => f1 t - f1 b - - C * (b - t)) a b) as [c [Hc Ec]].
  { intros z. apply der_minus; [apply der_minus; [apply D1|apply V]|apply U]. }
  destruct (mvt (fun t => f t - f1 b * t + C / 2 * (b - t) ^ 2) (fun t => f1 t - f1 b + - C * (b - t)) a b) as [c' [Hc' Ec']].
  { intros z. apply der_plus; [apply der_minus; [apply D1|apply V]|apply U]. }
  cbv beta in *. rewrite Rmin_left, Rmax_right in Hc, Hc' by lra.
  pose proof (proj1 (Rabs_le_between _ _) (K c Hc)) as K1. pose proof (proj1 (Rabs_le_between _ _) (K c' Hc')) as K2.
  assert (0 <= (f1 c - f1 b - - C * (b - c)) * (b - a)) by (apply Rmult_le_pos; lra).
  assert (0 <= - (f1 c' - f1 b + - C * (b - c')) * (b - a)) by (apply Rmult_le_pos; lra).
  assert (Z : C / 2 * (b - b) ^ 2 = 0) by (replace (b - b) with 0 by ring; ring). rewrite Z in *. apply Rabs_le. lra.
Qed.

Lemma sinh_cosh_abs x : Rabs (sinh x) <= cosh x.
Proof. unfold sinh, cosh. pose proof (exp_pos x). pose proof (exp_pos (- x)). apply Rabs_le. lra. Qed.
Lemma ratio65 e x : 2 <= e -> e * sinh x <= 6 / 5 * (e * cosh x - 1).
Proof.
  intros He.
  assert (A : 6 / 5 <= 2 * (6 / 5 * cosh x - sinh x)).
  { unfold cosh, sinh. assert (P : exp x * exp (- x) = 1) by (rewrite <- exp_plus, Rplus_opp_r; apply exp_0).
    pose proof (exp_pos x). pose proof (exp_pos (- x)). set (a := exp x) in *. set (b := exp (- x)) in *.
    assert (0 <= (a - 11 * b) ^ 2) by apply pow2_ge_0.
    assert ((a + 11 * b) ^ 2 >= 44) by nra. nra. }
  nra.
Qed.

Section Bound.
  Variables (e N H dN de : R).
  Hypothesis He : 2 <= e.
  Hypothesis HN : 0 <= N.
  Hypothesis Hroot : kepler_equ_hypb H e N = 0.
  Let F x := e * cosh x - 1.
  Definition hS (x : R) : R := (dN - de * sinh x) / (e * cosh x - 1).
  Definition hS1 (x : R) : R := - (de * cosh x + e * sinh x * hS x) / (e * cosh x - 1).
  Definition hS2 (x : R) : R := - (de * sinh x + e * cosh x * hS x + 2 * (e * sinh x) * hS1 x) / (e * cosh x - 1).
  Definition hW (x : R) : R := (Rabs dN + Rabs de * cosh x) / (e * cosh x - 1).

  Lemma F_pos x : 1 <= e * cosh x - 1.
  Proof using He. pose proof (cosh_ge_1 x). nra. Qed.
  Lemma F_der (x : R) : is_derive (fun t : R => e * cosh t - 1) x (e * sinh x).
  Proof using. eapply der_eq; [apply der_minus; [apply der_scal, der_cosh|apply der_const]|ring]. Qed.
  Lemma hS_der (x : R) : is_derive hS x (hS1 x).
  Proof using He.
    pose proof (F_pos x). eapply der_eq.
    - apply (der_div (fun t : R => dN - de * sinh t)); [apply der_minus; [apply der_const|apply der_scal, der_sinh]|apply F_der|lra].
    - unfold hS1, hS. field. lra.
  Qed.
  Lemma hS1_der (x : R) : is_derive hS1 x (hS2 x).
  Proof using He.
    pose proof (F_pos x). eapply der_eq.
    - apply (der_div (fun t : R => - (de * cosh t + e * sinh t * hS t))); [|apply F_der|lra].
      apply der_opp, der_plus; [apply der_scal, der_cosh|]. apply (der_mult (fun t => e * sinh t)); [apply der_scal, der_sinh|apply hS_der].
    - unfold hS2. set (s1 := hS1 x). assert (E : de * cosh x + e * sinh x * hS x = - s1 * (e * cosh x - 1)) by (unfold s1, hS1; field; lra).
      rewrite E. field. lra.
  Qed.
  Lemma hW_pos x : 0 <= hW x.
  Proof using He.
    pose proof (F_pos x). pose proof (cosh_ge_1 x). unfold hW, Rdiv. pose proof (Rabs_pos dN). pose proof (Rabs_pos de).
    apply Rmult_le_pos; [nra|]. apply Rlt_le, Rinv_0_lt_compat. lra.
  Qed.
  Lemma hW_F x : hW x * (e * cosh x - 1) = Rabs dN + Rabs de * cosh x.
  Proof using He. pose proof (F_pos x). unfold hW. field. lra. Qed.
  Lemma over_F x z c : Rabs z <= c * (hW x * (e * cosh x - 1)) -> Rabs (z / (e * cosh x - 1)) <= c * hW x.
  Proof using He.
    intros Hz. pose proof (F_pos x). unfold Rdiv. rewrite Rabs_mult, Rabs_inv, (Rabs_pos_eq (e * cosh x - 1)) by lra.
    apply (Rmult_le_reg_r (e * cosh x - 1)); [lra|]. rewrite Rmult_assoc, Rinv_l by lra. lra.
  Qed.
  Lemma sinh_F x : Rabs (e * sinh x) <= 6 / 5 * (e * cosh x - 1).
  Proof using He.
    pose proof (ratio65 e x He). pose proof (ratio65 e (- x) He) as Q. rewrite sinh_neg, cosh_neg in Q. apply Rabs_le. lra.
  Qed.
  Lemma hS_bound x : Rabs (hS x) <= 1 * hW x.
  Proof using He.
    apply over_F. rewrite hW_F. apply Rle_trans with (1 := Rabs_triang _ _). rewrite Rabs_Ropp, Rabs_mult.
    pose proof (sinh_cosh_abs x). pose proof (Rabs_pos de). nra.
  Qed.
  Lemma hS1_bound x : Rabs (hS1 x) <= 11 / 5 * hW x.
  Proof using He.
    unfold hS1. apply over_F. rewrite Rabs_Ropp. apply Rle_trans with (1 := Rabs_triang _ _). rewrite !Rabs_mult, (Rabs_pos_eq (cosh x)) by (pose proof (cosh_ge_1 x); lra).
    rewrite <- Rabs_mult. pose proof (sinh_F x) as A. pose proof (hS_bound x) as B. pose proof (hW_F x) as C. pose proof (Rabs_pos dN).
    assert (Rabs (e * sinh x) * Rabs (hS x) <= 6 / 5 * (e * cosh x - 1) * (1 * hW x)) by (apply Rmult_le_compat; try apply Rabs_pos; assumption). lra.
  Qed.
  Lemma hS2_bound x : Rabs (hS2 x) <= 83 / 10 * hW x.
  Proof using He.
    unfold hS2. apply over_F. rewrite Rabs_Ropp. apply Rle_trans with (1 := Rabs_triang _ _).
    apply Rle_trans with (Rabs de * Rabs (sinh x) + Rabs (e * cosh x) * Rabs (hS x) + 2 * (Rabs (e * sinh x) * Rabs (hS1 x))).
    { replace (2 * (e * sinh x) * hS1 x) with (2 * ((e * sinh x) * hS1 x)) by ring. rewrite (Rabs_mult 2), (Rabs_pos_eq 2) by lra. rewrite (Rabs_mult (e * sinh x)).
      apply Rplus_le_compat_r. rewrite <- !Rabs_mult. apply Rabs_triang. }
    pose proof (sinh_F x) as A. pose proof (hS_bound x) as B. pose proof (hS1_bound x) as B1. pose proof (hW_F x) as C. pose proof (cosh_ge_1 x) as G. pose proof (sinh_cosh_abs x) as G1.
    pose proof (Rabs_pos dN). pose proof (Rabs_pos de). pose proof (hW_pos x).
    assert (T1 : Rabs (e * sinh x) * Rabs (hS1 x) <= 6 / 5 * (e * cosh x - 1) * (11 / 5 * hW x)) by (apply Rmult_le_compat; try apply Rabs_pos; assumption).
    assert (T2 : Rabs (e * cosh x) * Rabs (hS x) <= 2 * (e * cosh x - 1) * (1 * hW x)).
    { apply Rmult_le_compat; try apply Rabs_pos; [|assumption]. rewrite Rabs_pos_eq by nra. nra. }
    assert (T3 : Rabs de * Rabs (sinh x) <= Rabs de * cosh x) by (apply Rmult_le_compat_l; assumption).
    assert (0 <= Rabs de * cosh x) by (apply Rmult_le_pos; lra). lra.
  Qed.
  Lemma hW_decr x y : 0 <= x -> x <= y -> hW y <= hW x.
  Proof using He.
    intros Hx L. pose proof (cosh_incr x y Hx L) as C. pose proof (cosh_ge_1 x) as C1. pose proof (F_pos x) as F1. pose proof (F_pos y) as F2.
    pose proof (Rabs_pos dN) as A. pose proof (Rabs_pos de) as B. pose proof (hW_F x) as Wx. pose proof (hW_F y) as Wy. pose proof (hW_pos y) as W0.
    apply (Rmult_le_reg_r ((e * cosh x - 1) * (e * cosh y - 1))); [nra|].
    replace (hW y * ((e * cosh x - 1) * (e * cosh y - 1))) with (hW y * (e * cosh y - 1) * (e * cosh x - 1)) by ring.
    replace (hW x * ((e * cosh x - 1) * (e * cosh y - 1))) with (hW x * (e * cosh x - 1) * (e * cosh y - 1)) by ring.
    rewrite Wx, Wy. assert (0 <= Rabs dN * (e * (cosh y - cosh x))) by (apply Rmult_le_pos; nra).
    assert (0 <= Rabs de * (cosh y - cosh x)) by (apply Rmult_le_pos; lra). nra.
  Qed.

  Let x j := hx e N j.
  Let k j := hk e N de dN j.
  Let dl j := x j - x (S j).
  Let W := hW H.
  Lemma Hq : forall y, H <= y -> e * sinh y <= 8 / 5 * dH y e.
  Proof using He. intros y _. now apply ratio_big_e. Qed.
  Lemma Hst : 0 <= kepler_equ_hypb (hypb_guess N e) e N.
  Proof using He HN. apply start_right; [lra|assumption|now left]. Qed.
  Lemma H0 : 0 <= H.
  Proof using He HN Hroot. apply (good_root_nonneg N e H); (assumption || lra). Qed.
  Lemma seq j : H <= x j <= x 0%nat.
  Proof using He HN Hroot. exact (good_seq N e H ltac:(lra) HN Hroot Hst Hq j). Qed.
  Lemma dl_ok j : 0 <= dl j <= x j - H /\ x (S j) = x j - (e * sinh (x j) - x j - N) / (e * cosh (x j) - 1).
  Proof using He HN Hroot.
    pose proof (good_step N e H ltac:(lra) HN Hroot Hq (x j) (proj1 (seq j))) as [[A B] _].
    assert (E : x (S j) = hypb_newton N e (x j)) by reflexivity. unfold dl. rewrite E. split; [lra|].
    rewrite hypb_newton_R, kepler_equ_hypb_R, dH_R. reflexivity.
  Qed.
  Lemma eps_step j : Rabs (k (S j) - hS (x (S j))) <= 415 / 100 * W * dl j ^ 2 + (e * sinh (x j) * dl j / (e * cosh (x j) - 1)) * Rabs (k j - hS (x j)).
  Proof using He HN Hroot.
    destruct (dl_ok j) as [[D0 D1] E]. pose proof (seq j) as [Sj _]. pose proof H0 as P0. pose proof (F_pos (x j)) as FP.
    assert (f : e * sinh (x j) - x j - N = dl j * (e * cosh (x j) - 1)) by (unfold dl; rewrite E; field; lra).
    assert (R1 : k (S j) = hS (x j) - dl j * hS1 (x j) + (e * sinh (x j) * dl j / (e * cosh (x j) - 1)) * (k j - hS (x j))).
    { change (k (S j)) with (hstep e N de dN (x j) (k j)). unfold hstep. rewrite f. unfold hS1, hS. field. lra. }
    pose proof (taylor2 hS hS1 hS2 (x (S j)) (x j) (83 / 10 * W)) as T. fold (dl j) in T.
    specialize (T ltac:(unfold dl in D0; lra) hS_der hS1_der).
    assert (TT : Rabs (hS (x j) - dl j * hS1 (x j) - hS (x (S j))) <= 83 / 10 * W / 2 * dl j ^ 2).
    { apply T. intros t Ht. pose proof (seq (S j)) as [Sj' _]. eapply Rle_trans; [apply hS2_bound|]. apply Rmult_le_compat_l; [lra|]. apply hW_decr; lra. }
    rewrite R1. replace (hS (x j) - dl j * hS1 (x j) + e * sinh (x j) * dl j / (e * cosh (x j) - 1) * (k j - hS (x j)) - hS (x (S j)))
      with ((hS (x j) - dl j * hS1 (x j) - hS (x (S j))) + e * sinh (x j) * dl j / (e * cosh (x j) - 1) * (k j - hS (x j))) by ring.
    apply Rle_trans with (1 := Rabs_triang _ _). apply Rplus_le_compat; [lra|]. rewrite Rabs_mult. right. f_equal. apply Rabs_pos_eq.
    pose proof (sinh_nonneg (x j) ltac:(lra)). unfold Rdiv. apply Rmult_le_pos; [apply Rmult_le_pos; nra|]. apply Rlt_le, Rinv_0_lt_compat. lra.
  Qed.
  Lemma q_step j : 0 <= e * sinh (x j) * dl j / (e * cosh (x j) - 1) <= 6 / 5 * dl j.
  Proof using He HN Hroot.
    destruct (dl_ok j) as [[D0 _] _]. pose proof (seq j) as [Sj _]. pose proof H0. pose proof (F_pos (x j)) as FP. pose proof (sinh_nonneg (x j) ltac:(lra)). pose proof (ratio65 e (x j) He).
    split; [unfold Rdiv; apply Rmult_le_pos; [apply Rmult_le_pos; nra|apply Rlt_le, Rinv_0_lt_compat; lra]|].
    apply (Rmult_le_reg_r (e * cosh (x j) - 1)); [lra|]. replace (e * sinh (x j) * dl j / (e * cosh (x j) - 1) * (e * cosh (x j) - 1)) with (e * sinh (x j) * dl j) by (field; lra). nra.
  Qed.
  Lemma eps_0 : Rabs (k 0%nat - hS (x 0%nat)) <= 3 * W.
  Proof using He HN Hroot.
    pose proof (seq 0) as [S0 _]. pose proof H0. set (y := x 0%nat) in *. pose proof (cosh_ge_1 y) as C.
    assert (Sw : e * sinh y = 2 * N) by (unfold y, x; change (hx e N 0) with (hypb_guess N e); rewrite hypb_guess_arcsinh, sinh_arcsinh; field; lra).
    assert (K : Rabs (k 0%nat) <= 2 * hW y).
    { assert (E : k 0%nat = (2 * dN - de * sinh y) * (e * cosh y - 1) / (e * cosh y) / (e * cosh y - 1)).
      { unfold k, hk, hk0. fold (x 0%nat). fold y. replace N with (e * sinh y / 2) by lra. pose proof (F_pos y). field. split; [lra|nra]. }
      rewrite E. apply over_F. rewrite hW_F. pose proof (F_pos y) as FP.
      assert (Q : 0 <= (e * cosh y - 1) / (e * cosh y) <= 1).
      { split; [apply Rlt_le, Rdiv_lt_0_compat; lra|]. apply (Rmult_le_reg_r (e * cosh y)); [lra|]. replace ((e * cosh y - 1) / (e * cosh y) * (e * cosh y)) with (e * cosh y - 1) by (field; nra). lra. }
      replace ((2 * dN - de * sinh y) * (e * cosh y - 1) / (e * cosh y)) with ((2 * dN - de * sinh y) * ((e * cosh y - 1) / (e * cosh y))) by (field; nra).
      rewrite Rabs_mult, (Rabs_pos_eq ((e * cosh y - 1) / (e * cosh y))) by lra.
      assert (A : Rabs (2 * dN - de * sinh y) <= 2 * Rabs dN + Rabs de * cosh y).
      { apply Rle_trans with (1 := Rabs_triang _ _). rewrite Rabs_Ropp, !Rabs_mult, (Rabs_pos_eq 2) by lra. pose proof (sinh_cosh_abs y). pose proof (Rabs_pos de). nra. }
      pose proof (Rabs_pos (2 * dN - de * sinh y)). pose proof (Rabs_pos de). assert (0 <= Rabs de * cosh y) by (apply Rmult_le_pos; lra).
      apply Rle_trans with (Rabs (2 * dN - de * sinh y) * 1); [apply Rmult_le_compat_l; lra|lra]. }
    pose proof (hS_bound y). pose proof (hW_decr H y ltac:(lra) ltac:(lra)) as D. fold W in D. unfold Rminus. apply Rle_trans with (1 := Rabs_triang _ _). rewrite Rabs_Ropp. lra.
  Qed.
  Lemma dl_0 : dl 0 <= 3 / 5.
  Proof using He HN Hroot.
    destruct (dl_ok 0) as [_ E]. pose proof (seq 0) as [S0 _]. pose proof H0. set (y := x 0%nat) in *. pose proof (F_pos y) as FP.
    assert (Sw : e * sinh y = 2 * N) by (unfold y, x; change (hx e N 0) with (hypb_guess N e); rewrite hypb_guess_arcsinh, sinh_arcsinh; field; lra).
    unfold dl. rewrite E. fold y. pose proof (ratio65 e y He). apply (Rmult_le_reg_r (e * cosh y - 1)); [lra|].
    replace ((y - (y - (e * sinh y - y - N) / (e * cosh y - 1))) * (e * cosh y - 1)) with (e * sinh y - y - N) by (field; lra). lra.
  Qed.
  Lemma rate j : x j - H <= 5 / 4 * (4 / 5) ^ (2 ^ j).
  Proof using He HN Hroot. assert (R : 4 / 5 * (x j - H) <= (4 / 5) ^ (2 ^ j)) by exact (good_rate N e H ltac:(lra) HN Hroot Hst Hq j). lra. Qed.
  Lemma next j d c c' : dl j <= d -> Rabs (k j - hS (x j)) <= c * W -> 0 <= c -> 415 / 100 * d ^ 2 + 6 / 5 * d * c <= c' -> Rabs (k (S j) - hS (x (S j))) <= c' * W.
  Proof using He HN Hroot.
    intros Hd Hc C0 Hc'. eapply Rle_trans; [apply eps_step|]. pose proof (q_step j) as [q0 q1]. destruct (dl_ok j) as [[D0 _] _]. pose proof (hW_pos H) as W0. fold W in W0.
    pose proof (Rabs_pos (k j - hS (x j))).
    assert (T1 : e * sinh (x j) * dl j / (e * cosh (x j) - 1) * Rabs (k j - hS (x j)) <= 6 / 5 * d * (c * W)) by (apply Rmult_le_compat; lra).
    assert (T2 : dl j ^ 2 <= d ^ 2) by (apply pow_incr; lra).
    assert (T3 : 415 / 100 * W * dl j ^ 2 <= 415 / 100 * W * d ^ 2) by (apply Rmult_le_compat_l; lra).
    assert (T4 : (415 / 100 * d ^ 2 + 6 / 5 * d * c) * W <= c' * W) by (apply Rmult_le_compat_r; assumption). lra.
  Qed.
  Lemma eps_all j : Rabs (k j - hS (x j)) <= 62 / 10 * W.
  Proof using He HN Hroot.
    pose proof (hW_pos H) as W0. fold W in W0.
    assert (E1 : Rabs (k 1%nat - hS (x 1%nat)) <= 3654 / 1000 * W) by (apply (next 0 (3 / 5) 3); [apply dl_0|apply eps_0|lra|lra]).
    assert (D : forall i, dl i <= 5 / 4 * (4 / 5) ^ (2 ^ i)) by (intros i; destruct (dl_ok i) as [[_ A] _]; pose proof (rate i); lra).
    assert (E2 : Rabs (k 2%nat - hS (x 2%nat)) <= 62 / 10 * W).
    { apply (next 1 (4 / 5) (3654 / 1000)); [|exact E1|lra|lra]. eapply Rle_trans; [apply D|]. simpl. lra. }
    destruct j as [|[|j]]; [pose proof eps_0; lra|lra|].
    induction j as [|j IH]; [exact E2|]. apply (next (S (S j)) (512 / 1000) (62 / 10)); [|exact IH|lra|lra].
    eapply Rle_trans; [apply D|]. apply Rle_trans with (5 / 4 * (4 / 5) ^ 4); [|simpl; lra]. apply Rmult_le_compat_l; [lra|].
    assert (P : (2 ^ S (S j) = 4 + (2 ^ S (S j) - 4))%nat).
    { assert (2 ^ 2 <= 2 ^ S (S j))%nat by (apply Nat.pow_le_mono_r; lia). simpl (2 ^ 2)%nat in *. lia. }
    rewrite P, pow_add. assert ((4 / 5) ^ (2 ^ S (S j) - 4) <= 1).
    { rewrite <- (pow1 (2 ^ S (S j) - 4)). apply pow_incr. lra. }
    assert (0 < (4 / 5) ^ 4) by (apply pow_lt; lra). nra.
  Qed.
  (** The residual after a step bounds the step. *)
  Lemma last_gen j (c : R -> R) (c1 : R -> R) : (forall t : R, is_derive c t (c1 t)) -> c (x j) = 0 ->
    (forall t, x (S j) <= t <= x j -> - c1 t <= e * (cosh (x j) - cosh t)) -> c (x (S j)) <= kepler_equ_hypb (x (S j)) e N.
  Proof using He HN Hroot.
    intros Dc C0 Hc. destruct (dl_ok j) as [[D0 D1] E]. pose proof (F_pos (x j)) as FP. unfold dl in D0.
    assert (f : e * sinh (x j) - x j - N = (x j - x (S j)) * (e * cosh (x j) - 1)) by (rewrite E; field; lra).
    destruct (mvt (fun t => e * sinh t - t - N - (e * cosh (x j) - 1) * t - c t) (fun t => e * cosh t - 1 - (e * cosh (x j) - 1) - c1 t) (x (S j)) (x j)) as [b [Hb Eb]].
    { intros z. apply der_minus; [|apply Dc]. apply der_minus; [|eapply der_eq; [apply der_scal, der_id|ring]].
      eapply der_eq; [apply der_minus; [apply der_minus; [apply der_scal, der_sinh|apply der_id]|apply der_const]|ring]. }
    cbv beta in Eb. rewrite Rmin_left, Rmax_right in Hb by lra. specialize (Hc b Hb). rewrite C0 in Eb.
    assert (0 <= - (e * cosh b - 1 - (e * cosh (x j) - 1) - c1 b) * (x j - x (S j))) by (apply Rmult_le_pos; lra).
    rewrite kepler_equ_hypb_R. lra.
  Qed.
  Lemma last_sq j : e * sinh (x (S j)) * dl j ^ 2 / 2 <= kepler_equ_hypb (x (S j)) e N.
  Proof using He HN Hroot.
    destruct (dl_ok j) as [[D0 D1] _]. pose proof (seq (S j)) as [Sj _]. pose proof H0 as P0. set (a := sinh (x (S j))). pose proof (sinh_nonneg (x (S j)) ltac:(lra)) as A0. fold a in A0.
    assert (Q := last_gen j (fun t => e * a * (x j - t) ^ 2 / 2) (fun t => - (e * a * (x j - t)))). cbv beta in Q. unfold dl. apply Q; clear Q.
    - intros t. eapply der_eq; [apply der_scal_r, der_scal, (der_pow (fun u => x j - u)), der_minus; [apply der_const|apply der_id]|simpl; field].
    - replace (x j - x j) with 0 by ring. field.
    - intros t Ht. destruct (mvt cosh sinh t (x j) der_cosh) as [b [Hb Eb]]. rewrite Rmin_left, Rmax_right in Hb by lra. rewrite Eb.
      pose proof (sinh_incr (x (S j)) b ltac:(lra)) as I. fold a in I. assert (a * (x j - t) <= sinh b * (x j - t)) by (apply Rmult_le_compat_r; lra). nra.
  Qed.
  Lemma last_cube j : e * dl j ^ 3 / 6 <= kepler_equ_hypb (x (S j)) e N.
  Proof using He HN Hroot.
    destruct (dl_ok j) as [[D0 D1] _]. pose proof (seq (S j)) as [Sj _]. pose proof H0 as P0.
    assert (Q := last_gen j (fun t => e * (x j - t) ^ 3 / 6) (fun t => - (e * (x j - t) ^ 2 / 2))). cbv beta in Q. unfold dl. apply Q; clear Q.
    - intros t. eapply der_eq; [apply der_scal_r, der_scal, (der_pow (fun u => x j - u)), der_minus; [apply der_const|apply der_id]|simpl; field].
    - replace (x j - x j) with 0 by ring. field.
    - intros t Ht. destruct (mvt (fun u => cosh u - u ^ 2 / 2) (fun u => sinh u - u) t (x j)) as [b [Hb Eb]].
      { intros z. apply der_minus; [apply der_cosh|]. eapply der_eq; [apply der_scal_r, der_pow, der_id|simpl; field]. }
      rewrite Rmin_left, Rmax_right in Hb by lra. pose proof (sinh_ge_id b ltac:(lra)) as G.
      assert (0 <= (sinh b - b) * (x j - t)) by (apply Rmult_le_pos; lra). rewrite <- Eb in *.
      assert (0 <= t * (x j - t)) by (apply Rmult_le_pos; lra).
      assert ((x j - t) ^ 2 / 2 <= cosh (x j) - cosh t) by nra. nra.
  Qed.
  Lemma F_sq y : 0 <= y -> e * sinh y <= (e * cosh y - 1) ^ 2.
  Proof using He.
    intros Hy. pose proof (cosh_sinh_sq y) as I. pose proof (sinh_nonneg y Hy) as S0. pose proof (cosh_ge_1 y) as C1. set (c := cosh y) in *. set (s := sinh y) in *. clearbody c s.
    assert (A : 2 * s <= (2 * c - 1) ^ 2).
    { assert (c <= 1 + s ^ 2 / 2) by nra. nra. }
    assert (B : s <= c) by nra. set (g := e - 2). assert (G : 0 <= g) by (unfold g; lra). replace e with (2 + g) by (unfold g; ring).
    assert (0 <= g * (2 * c * (2 * c - 1) - s)) by (apply Rmult_le_pos; [exact G|nra]). assert (0 <= (g * c) ^ 2) by apply pow2_ge_0. nra.
  Qed.
  Lemma last_q j : kepler_equ_hypb (x (S j)) e N <= / 1000000 ->
    dl j <= 145 / 10000 /\ e * sinh (x j) * dl j / (e * cosh (x j) - 1) <= 21 / 10000.
  Proof using He HN Hroot.
    intros Hr. pose proof (last_cube j) as C3. pose proof (last_sq j) as C2. destruct (dl_ok j) as [[D0 D1] _]. pose proof (seq (S j)) as [Sj _]. pose proof H0 as P0. pose proof (F_pos (x j)) as FP.
    assert (Dd : dl j <= 145 / 10000).
    { apply Rnot_lt_le. intros L. assert (P2 : (145 / 10000) ^ 2 <= dl j ^ 2) by (apply pow_incr; lra).
      assert (P3 : (145 / 10000) ^ 3 <= dl j ^ 3) by (apply pow_incr; lra). assert (2 * dl j ^ 3 <= e * dl j ^ 3) by (apply Rmult_le_compat_r; [apply pow_le|]; lra). lra. }
    split; [exact Dd|].
    assert (E : x j = x (S j) + dl j) by (unfold dl; ring). set (y := x j) in *. set (z := x (S j)) in *. set (d := dl j) in *. clearbody y z d.
    pose proof (sinh_nonneg y ltac:(lra)) as Sy. pose proof (sinh_nonneg z ltac:(lra)) as Sz.
    assert (Cy : cosh y <= 1 + sinh y). { pose proof (cosh_sinh_sq y). pose proof (cosh_ge_1 y). nra. }
    set (q := e * sinh y * d / (e * cosh y - 1)). assert (Eq : q * (e * cosh y - 1) = e * sinh y * d) by (unfold q; field; lra).
    assert (q0 : 0 <= q). { unfold q, Rdiv. apply Rmult_le_pos; [apply Rmult_le_pos; nra|apply Rlt_le, Rinv_0_lt_compat; lra]. }
    destruct (mvt sinh cosh z y der_sinh) as [b [Hb Eb]]. rewrite Rmin_left, Rmax_right in Hb by lra.
    pose proof (cosh_incr b y ltac:(lra) ltac:(lra)) as Cb. replace (y - z) with d in Eb by lra.
    assert (Gr : sinh y - sinh z <= (1 + sinh y) * d) by (rewrite Eb; apply Rmult_le_compat_r; lra).
    destruct (Rle_dec d z) as [L|L].
    - pose proof (sinh_ge_id z ltac:(lra)) as G. assert (R2 : sinh y * (1 - 145 / 10000) <= 2 * sinh z) by nra.
      assert (M : e * sinh y * d ^ 2 <= 406 / 100000000).
      { assert (d2 : 0 <= e * d ^ 2) by (apply Rmult_le_pos; [lra|apply pow2_ge_0]). nra. }
      pose proof (F_sq y ltac:(lra)) as FS.
      assert (Q2 : q ^ 2 * (e * cosh y - 1) ^ 2 <= 406 / 100000000 * (e * cosh y - 1) ^ 2).
      { replace (q ^ 2 * (e * cosh y - 1) ^ 2) with ((q * (e * cosh y - 1)) ^ 2) by ring. rewrite Eq.
        replace ((e * sinh y * d) ^ 2) with (e * sinh y * d ^ 2 * (e * sinh y)) by ring. apply Rmult_le_compat; try assumption.
        - apply Rmult_le_pos; [apply Rmult_le_pos; lra|apply pow2_ge_0].
        - apply Rmult_le_pos; lra. }
      apply Rmult_le_reg_r in Q2; [|apply pow_lt; lra]. nra.
    - assert (sinh z <= z + z * sinh y).
      { destruct (mvt sinh cosh 0 z der_sinh) as [b' [Hb' Eb']]. rewrite sinh_0, !Rminus_0_r in Eb'. rewrite Rmin_left, Rmax_right in Hb' by lra.
        pose proof (cosh_incr b' y ltac:(lra) ltac:(lra)). rewrite Eb'. nra. }
      assert (S3 : sinh y <= 30 / 1000) by nra.
      apply (Rmult_le_reg_r (e * cosh y - 1)); [lra|]. rewrite Eq. pose proof (cosh_ge_1 y).
      assert (e * sinh y * d <= e * (30 / 1000) * (145 / 10000)) by (apply Rmult_le_compat; [apply Rmult_le_pos; lra|lra|apply Rmult_le_compat_l; lra|lra]). nra.
  Qed.
  Lemma final n : kepler_equ_hypb (x (S n)) e N <= / 1000000 -> Rabs (k (S n) - hS H) <= 14 / 1000 * W.
  Proof using He HN Hroot.
    intros Hr. destruct (last_q n Hr) as [Dd Q]. pose proof (eps_step n) as ES. pose proof (eps_all n) as EA. pose proof (hW_pos H) as W0. fold W in W0. pose proof (q_step n) as [q0 _].
    destruct (dl_ok n) as [[D0 _] _]. pose proof (seq (S n)) as [Sj _]. pose proof H0 as P0.
    set (q := e * sinh (x n) * dl n / (e * cosh (x n) - 1)) in *.
    assert (T1 : q * Rabs (k n - hS (x n)) <= 21 / 10000 * (62 / 10 * W)) by (apply Rmult_le_compat; try apply Rabs_pos; assumption).
    assert (T2 : dl n ^ 2 <= (145 / 10000) ^ 2) by (apply pow_incr; lra).
    assert (T3 : 415 / 100 * W * dl n ^ 2 <= 415 / 100 * W * (145 / 10000) ^ 2) by (apply Rmult_le_compat_l; lra).
    destruct (mvt hS hS1 H (x (S n)) hS_der) as [b [Hb Eb]]. rewrite Rmin_left, Rmax_right in Hb by lra.
    destruct (mvt (fun t => kepler_equ_hypb t e N) (fun t => dH t e) H (x (S n)) ltac:(intros; apply hypb_deriv)) as [c [Hc Ec]]. cbv beta in Ec. rewrite Hroot, Rminus_0_r, dH_R in Ec.
    pose proof (F_pos c) as Fc. assert (X : x (S n) - H <= / 1000000) by nra.
    assert (T4 : Rabs (hS (x (S n)) - hS H) <= 11 / 5 * W * / 1000000).
    { rewrite Eb, Rabs_mult, (Rabs_pos_eq (x (S n) - H)) by lra. apply Rmult_le_compat; [apply Rabs_pos|lra| |exact X].
      eapply Rle_trans; [apply hS1_bound|]. apply Rmult_le_compat_l; [lra|]. apply hW_decr; lra. }
    replace (k (S n) - hS H) with ((k (S n) - hS (x (S n))) + (hS (x (S n)) - hS H)) by ring. apply Rle_trans with (1 := Rabs_triang _ _). lra.
  Qed.
End Bound.

(** Negative mean anomalies. *)
Lemma hx_neg e N j : hx e (- N) j = - hx e N j.
Proof. unfold hx. apply hypb_iter_neg. Qed.
Lemma hk_neg e N de dN j : 2 <= e -> hk e (- N) de (- dN) j = - hk e N de dN j.
Proof.
  intros He. induction j as [|j IH].
  - cbn [hk]. unfold hk0. rewrite hx_neg, cosh_neg. pose proof (cosh_ge_1 (hx e N 0)). field. split; lra.
  - cbn [hk]. unfold hstep. rewrite hx_neg, IH, sinh_neg, cosh_neg. pose proof (cosh_ge_1 (hx e N j)). field. nra.
Qed.
Lemma final_any e N H dN de n : 2 <= e -> kepler_equ_hypb H e N = 0 -> Rabs (kepler_equ_hypb (hx e N (S n)) e N) <= / 1000000 ->
  Rabs (hk e N de dN (S n) - (dN - de * sinh H) / (e * cosh H - 1)) <= 14 / 1000 * ((Rabs dN + Rabs de * cosh H) / (e * cosh H - 1)).
Proof.
  intros He HR Hn. destruct (Rle_dec 0 N) as [P|P].
  - apply (final e N H dN de He P HR n). pose proof (Rle_abs (kepler_equ_hypb (hx e N (S n)) e N)). lra.
  - assert (HR' : kepler_equ_hypb (- H) e (- N) = 0) by (rewrite hypb_equ_neg, HR; ring).
    pose proof (final e (- N) (- H) (- dN) de He ltac:(lra) HR' n) as Q. rewrite hx_neg, hk_neg, hypb_equ_neg in Q by exact He.
    unfold hS, hW in Q. rewrite cosh_neg, sinh_neg, Rabs_Ropp in Q. rewrite <- Rabs_Ropp.
    replace (- (hk e N de dN (S n) - (dN - de * sinh H) / (e * cosh H - 1))) with (- hk e N de dN (S n) - (- dN - de * - sinh H) / (e * cosh H - 1))
      by (pose proof (cosh_ge_1 H); field; nra).
    apply Q. pose proof (Rle_abs (- kepler_equ_hypb (hx e N (S n)) e N)) as A. rewrite Rabs_Ropp in A. lra.
Qed.

Lemma guess_residual e N : 1 < e -> kepler_equ_hypb (hypb_guess N e) e N = N - arcsinh (2 * N / e).
Proof. intros He. rewrite kepler_equ_hypb_R, hypb_guess_arcsinh, sinh_arcsinh. field. lra. Qed.

Lemma hypb_jvp_close (N e root : R -> R) (s : R) (dN de : dual) : 2 <= e s -> e s + 2 * Rabs (N s) <= 10 ^ 308 -> carries N s dN -> carries e s de ->
  / 1000000 < Rabs (N s - arcsinh (2 * N s / e s)) ->
  locally s (fun u => e u * sinh (root u) - root u = N u) ->
  let o := @solve_kepler_hypb _ Num_D dN de (@default_tol _ Num_D) hypb_max_iter in
  val o = solve_kepler_hypb (N s) (e s) default_tol hypb_max_iter /\
  exists root', is_derive root s root' /\
    Rabs (tang o - root') <= 14 / 1000 * ((Rabs (tang dN) + Rabs (tang de) * cosh (root s)) / (e s * cosh (root s) - 1)).
Proof.
  intros He HB [N0 N1] [e0 e1] HG HR o. unfold o. assert (Ha : 1 < val de) by (rewrite <- e0; lra).
  destruct (hypb_D dN de Ha) as [m [Hm [O1 [O2 [O3 O4]]]]]. rewrite O1. cbn [val tang]. rewrite N0, e0. split; [symmetry; exact O2|].
  exists ((tang dN - tang de * sinh (root s)) / (e s * cosh (root s) - 1)). split.
  - apply (hypb_implicit N e root s); [lra|exact N1|exact e1|exact HR].
  - rewrite <- e0, <- N0 in *.
    assert (Rm : Rabs (kepler_equ_hypb (hx (e s) (N s) m) (e s) (N s)) <= / 1000000).
    { pose proof (hypb_good (N s) (e s) ltac:(lra) (or_introl He) HB) as G. rewrite O2 in G. exact G. }
    destruct m as [|m].
    { exfalso. change (hx (e s) (N s) 0) with (hypb_guess (N s) (e s)) in Rm. rewrite guess_residual in Rm by lra. lra. }
    apply final_any; [exact He| |exact Rm]. rewrite kepler_equ_hypb_R.
    assert (e s * sinh (root s) - root s = N s) by (destruct HR as [d0 HR]; apply HR, ball_center). lra.
Qed.
(** Otherwise the guess is accepted. *)
Lemma hypb_guess_kept (N e : R -> R) (s : R) (dN de : dual) : 1 < e s -> carries N s dN -> carries e s de ->
  Rabs (N s - arcsinh (2 * N s / e s)) <= / 1000000 ->
  carries (fun u => arcsinh (2 * N u / e u)) s (@solve_kepler_hypb _ Num_D dN de (@default_tol _ Num_D) hypb_max_iter).
Proof.
  intros He [N0 N1] [e0 e1] HG. assert (Ha : 1 < val de) by (rewrite <- e0; lra).
  assert (K : @solve_kepler_hypb _ Num_D dN de (@default_tol _ Num_D) hypb_max_iter = @hypb_guess _ Num_D dN de).
  { destruct (hypb_D dN de Ha) as [m [Hm [S1 [_ [F _]]]]]. rewrite hguess_D by exact Ha. rewrite S1. destruct m as [|m]; [reflexivity|]. exfalso.
    specialize (F 0%nat ltac:(lia)). change (hx (val de) (val dN) 0) with (hypb_guess (val dN) (val de)) in F. rewrite guess_residual, <- e0, <- N0 in F by lra. lra. }
  rewrite K. unfold hypb_guess.
  assert (Y : carries (fun u => n_div (n_mul (n_Z 2) (N u)) (e u)) s (@n_div _ Num_D (@n_mul _ Num_D (@n_Z _ Num_D 2) dN) de)).
  { apply a_div; [apply a_mul; [apply a_Z|now split]|now split|lra]. }
  assert (W : forall y : R, 0 < y * y + 1) by (intro; nra).
  assert (Z : forall y : R, 0 < y + sqrt (y * y + 1)).
  { intro y. assert (Rabs y < sqrt (y * y + 1)). { rewrite <- sqrt_Rsqr_abs. apply sqrt_lt_1; unfold Rsqr; nra. } pose proof (Rle_abs (- y)) as V. rewrite Rabs_Ropp in V. lra. }
  eapply a_ext; [|apply a_log; [apply a_add; [exact Y|apply a_sqrt; [apply a_add; [apply (a_pow 2); exact Y|apply a_Z]|]]|]].
  - intro u. cbv beta. unfold arcsinh. cbn. do 3 f_equal. ring.
  - cbv beta. cbn. apply W.
  - cbv beta. cbn. apply Z.
Qed.
(** From a mean anomaly of 1/50 on a step is made if [e >= 2]. *)
Lemma hypb_step_made e N : 2 <= e -> 1 / 50 <= Rabs N -> / 1000000 < Rabs (N - arcsinh (2 * N / e)).
Proof.
  assert (Q : forall n, 2 <= e -> 1 / 50 <= n -> / 1000000 < n - arcsinh (2 * n / e)).
  { intros n He Hn. set (w := arcsinh (2 * n / e)). assert (E : sinh w = 2 * n / e) by apply sinh_arcsinh.
    assert (B : 0 <= 2 * n / e <= n).
    { split; [apply Rmult_le_pos; [lra|apply Rlt_le, Rinv_0_lt_compat; lra]|]. apply (Rmult_le_reg_r e); [lra|]. replace (2 * n / e * e) with (2 * n) by (field; lra). nra. }
    assert (w0 : 0 <= w). { apply Rnot_lt_le. intros L. pose proof (sinh_ge_id (- w) ltac:(lra)) as S. rewrite sinh_neg in S. lra. }
    pose proof (sinh_ge_cube w w0) as C. destruct (Rle_dec w (195 / 10000)) as [L|L]; [lra|].
    assert ((195 / 10000) ^ 3 <= w ^ 3) by (apply pow_incr; lra). lra. }
  intros He Hn. destruct (Rle_dec 0 N) as [P|P].
  - rewrite Rabs_pos_eq in Hn by lra. eapply Rlt_le_trans; [apply (Q N He Hn)|apply Rle_abs].
  - rewrite Rabs_left in Hn by lra. specialize (Q (- N) He Hn). replace (2 * - N / e) with (- (2 * N / e)) in Q by (field; lra). rewrite arcsinh_neg in Q.
    rewrite <- Rabs_Ropp. eapply Rlt_le_trans; [exact Q|]. eapply Rle_trans; [|apply Rle_abs]. lra.
Qed.
(** Along N = 3 sinh u - u with e = 3 the solution is u: the derivative at u = 1 is one. *)
Lemma hypb_jvp_ex : let o := @solve_kepler_hypb _ Num_D (mkD (3 * sinh 1 - 1) (3 * cosh 1 - 1)) (konst 3) (@default_tol _ Num_D) hypb_max_iter in
  Rabs (tang o - 1) <= 14 / 1000.
Proof.
  intro o. pose proof (cosh_ge_1 1) as C1. pose proof (sinh_ge_id 1 ltac:(lra)) as S1.
  assert (S2 : sinh 1 <= 3). { unfold sinh. pose proof exp_le_3. pose proof (exp_pos (Ropp 1)). lra. }
  assert (CN : carries (fun u => 3 * sinh u - u) 1 (mkD (3 * sinh 1 - 1) (3 * cosh 1 - 1))).
  { split; [reflexivity|]. apply der_minus; [apply der_scal, der_sinh|apply der_id]. }
  assert (Ce : carries (fun _ => 3) 1 (konst 3)) by (split; [reflexivity|apply der_const]).
  destruct (hypb_jvp_close (fun u => 3 * sinh u - u) (fun _ => 3) (fun u => u) 1 _ _ ltac:(lra)
    ltac:(rewrite Rabs_pos_eq by lra; apply Rle_trans with (10 ^ 2); [lra|apply Rle_pow; [lra|lia]]) CN Ce
    ltac:(apply hypb_step_made; [lra|rewrite Rabs_pos_eq; lra]) ltac:(apply filter_forall; intro; reflexivity)) as [_ [r' [D B]]].
  fold o in B. assert (r' = 1) as -> by (apply (der_uniq (fun u : R => u) 1); [exact D|apply der_id]).
  unfold konst in B. cbn [tang] in B. rewrite (Rabs_pos_eq (3 * cosh 1 - 1)), Rabs_R0, Rmult_0_l, Rplus_0_r in B by lra.
  replace ((3 * cosh 1 - 1) / (3 * cosh 1 - 1)) with 1 in B by (field; lra). lra.
Qed.
