(** * AdHypb3: the derivative of [solve_kepler_hypb] after a Newton step, for eccentricities from 6/5 on (proofs for C89) *)
From Coq Require Import Reals ZArith Lia Lra Psatz List Bool.
From Coquelicot Require Import Coquelicot.
From Verif Require Import Num NumR NumD Spec SpecAd OrbIntegrals KepEqu RLib Ana Atan2 LoopFacts KepRows SolveFacts NewtonConvex SolveElps SolveHypb SolveHypb2 UFacts AdOps AdKep AdHypb AdHypb2.
Local Open Scope R_scope.

(** [AdHypb2.taylor2] seen from the left end. *)
Lemma taylor2_left (f f1 f2 : R -> R) (a b C : R) : a <= b -> (forall t : R, is_derive f t (f1 t)) -> (forall t : R, is_derive f1 t (f2 t)) ->
  (forall t, a <= t <= b -> Rabs (f2 t) <= C) -> Rabs (f a + (b - a) * f1 a - f b) <= C / 2 * (b - a) ^ 2.
Proof.
  intros L D1 D2 HC. assert (I : forall z : R, is_derive (fun t : R => a + b - t) z (-1)).
  { intros z. eapply der_eq; [apply der_minus; [apply der_const|apply der_id]|ring]. }
  pose proof (taylor2 (fun t => f (a + b - t)) (fun t => - f1 (a + b - t)) (fun t => f2 (a + b - t)) a b C L) as T.
  cbv beta in T. replace (a + b - b) with a in T by ring. replace (a + b - a) with b in T by ring.
  replace (f a + (b - a) * f1 a - f b) with (f a - (b - a) * - f1 a - f b) by ring. apply T.
  - intros t. eapply der_eq; [apply (der_comp f (fun t => a + b - t)); [apply D1|apply I]|ring].
  - intros t. eapply der_eq; [apply der_opp, (der_comp f1 (fun t => a + b - t)); [apply D2|apply I]|ring].
  - intros t Ht. apply HC. lra.
Qed.

Lemma ratio181 e x : 6 / 5 <= e -> e * sinh x <= 181 / 100 * (e * cosh x - 1).
Proof.
  intros He. pose proof (cosh_sinh_sq x) as I. pose proof (cosh_ge_1 x) as C. set (c := cosh x) in *. set (s := sinh x) in *. clearbody c s.
  assert (A : 181 / 100 <= 6 / 5 * (181 / 100 * c - s)).
  { apply Rnot_lt_le. intro L. assert (B : 2172 / 1000 * c < 181 / 100 + 6 / 5 * s) by lra.
    assert (P : (2172 / 1000 * c) * (2172 / 1000 * c) < (181 / 100 + 6 / 5 * s) * (181 / 100 + 6 / 5 * s)) by (apply Rmult_le_0_lt_compat; lra).
    assert (Z : 0 <= (s - 66268 / 100000) ^ 2) by apply pow2_ge_0. nra. }
  assert (0 <= 181 / 100 * c - s) by lra.
  nra.
Qed.

Section Mid.
  Variables (e N H dN de : R).
  Hypothesis He : 6 / 5 <= e.
  Hypothesis HN : 0 < N.
  Hypothesis Hroot : kepler_equ_hypb H e N = 0.
  Let S_ := hS e dN de.
  Let S1 := hS1 e dN de.
  Let S2 := hS2 e dN de.
  Let Wt := hW e dN de.
  Let W := Wt H.

  Lemma mF x : e / 6 * cosh x <= e * cosh x - 1 /\ 1 / 5 <= e * cosh x - 1.
  Proof using He. pose proof (cosh_ge_1 x). split; nra. Qed.
  Lemma mS_der (x : R) : is_derive S_ x (S1 x).
  Proof using He.
    pose proof (mF x). unfold S_, hS. eapply der_eq.
    - apply (der_div (fun t : R => dN - de * sinh t)); [apply der_minus; [apply der_const|apply der_scal, der_sinh]|apply F_der|lra].
    - unfold S1, hS1, hS. field. lra.
  Qed.
  Lemma mS1_der (x : R) : is_derive S1 x (S2 x).
  Proof using He.
    pose proof (mF x). unfold S1, hS1. eapply der_eq.
    - apply (der_div (fun t : R => - (de * cosh t + e * sinh t * hS e dN de t))); [|apply F_der|lra].
      apply der_opp, der_plus; [apply der_scal, der_cosh|]. apply (der_mult (fun t => e * sinh t)); [apply der_scal, der_sinh|apply mS_der].
    - unfold S2, hS2. fold S_ S1. set (s1 := S1 x). assert (E : de * cosh x + e * sinh x * S_ x = - s1 * (e * cosh x - 1)) by (unfold s1, S1, hS1, S_; field; lra).
      rewrite E. field. lra.
  Qed.
  Lemma mW_pos x : 0 <= Wt x.
  Proof using He.
    pose proof (mF x). pose proof (cosh_ge_1 x). unfold Wt, hW, Rdiv. pose proof (Rabs_pos dN). pose proof (Rabs_pos de).
    apply Rmult_le_pos; [nra|]. apply Rlt_le, Rinv_0_lt_compat. lra.
  Qed.
  Lemma mW_F x : Wt x * (e * cosh x - 1) = Rabs dN + Rabs de * cosh x.
  Proof using He. pose proof (mF x). unfold Wt, hW. field. lra. Qed.
  Lemma mover x z c : Rabs z <= c * (Wt x * (e * cosh x - 1)) -> Rabs (z / (e * cosh x - 1)) <= c * Wt x.
  Proof using He.
    intros Hz. pose proof (mF x). unfold Rdiv. rewrite Rabs_mult, Rabs_inv, (Rabs_pos_eq (e * cosh x - 1)) by lra.
    apply (Rmult_le_reg_r (e * cosh x - 1)); [lra|]. rewrite Rmult_assoc, Rinv_l by lra. lra.
  Qed.
  Lemma msinh x : Rabs (e * sinh x) <= 181 / 100 * (e * cosh x - 1).
  Proof using He.
    pose proof (ratio181 e x He). pose proof (ratio181 e (- x) He) as Q. rewrite sinh_neg, cosh_neg in Q. apply Rabs_le. lra.
  Qed.
  Lemma mS_bound x : Rabs (S_ x) <= 1 * Wt x.
  Proof using He.
    apply mover. rewrite mW_F. apply Rle_trans with (1 := Rabs_triang _ _). rewrite Rabs_Ropp, Rabs_mult.
    pose proof (sinh_cosh_abs x). pose proof (Rabs_pos de). nra.
  Qed.
  Lemma mS1_bound x : Rabs (S1 x) <= 281 / 100 * Wt x.
  Proof using He.
    unfold S1, hS1. apply mover. rewrite Rabs_Ropp. apply Rle_trans with (1 := Rabs_triang _ _). rewrite !Rabs_mult, (Rabs_pos_eq (cosh x)) by (pose proof (cosh_ge_1 x); lra).
    rewrite <- Rabs_mult. pose proof (msinh x) as A. pose proof (mS_bound x) as B. pose proof (mW_F x) as C. pose proof (Rabs_pos dN).
    assert (Rabs (e * sinh x) * Rabs (S_ x) <= 181 / 100 * (e * cosh x - 1) * (1 * Wt x)) by (apply Rmult_le_compat; try apply Rabs_pos; assumption). fold S_. lra.
  Qed.
  Lemma mS2_bound x : Rabs (S2 x) <= 1718 / 100 * Wt x.
  Proof using He.
    unfold S2, hS2. fold S_ S1. apply mover. rewrite Rabs_Ropp. apply Rle_trans with (1 := Rabs_triang _ _).
    apply Rle_trans with (Rabs de * Rabs (sinh x) + Rabs (e * cosh x) * Rabs (S_ x) + 2 * (Rabs (e * sinh x) * Rabs (S1 x))).
    { replace (2 * (e * sinh x) * S1 x) with (2 * ((e * sinh x) * S1 x)) by ring. rewrite (Rabs_mult 2), (Rabs_pos_eq 2) by lra. rewrite (Rabs_mult (e * sinh x)).
      apply Rplus_le_compat_r. rewrite <- !Rabs_mult. apply Rabs_triang. }
    pose proof (msinh x) as A. pose proof (mS_bound x) as B. pose proof (mS1_bound x) as B1. pose proof (mW_F x) as C. pose proof (cosh_ge_1 x) as G. pose proof (sinh_cosh_abs x) as G1.
    pose proof (Rabs_pos dN). pose proof (Rabs_pos de). pose proof (mW_pos x). pose proof (mF x) as [F6 F5].
    assert (T1 : Rabs (e * sinh x) * Rabs (S1 x) <= 181 / 100 * (e * cosh x - 1) * (281 / 100 * Wt x)) by (apply Rmult_le_compat; try apply Rabs_pos; assumption).
    assert (T2 : Rabs (e * cosh x) * Rabs (S_ x) <= 6 * (e * cosh x - 1) * (1 * Wt x)).
    { apply Rmult_le_compat; try apply Rabs_pos; [|assumption]. rewrite Rabs_pos_eq by nra. lra. }
    assert (T3 : Rabs de * Rabs (sinh x) <= Rabs de * cosh x) by (apply Rmult_le_compat_l; assumption).
    assert (0 <= Rabs de * cosh x) by (apply Rmult_le_pos; lra). assert (0 <= Wt x * (e * cosh x - 1)) by (apply Rmult_le_pos; lra). lra.
  Qed.
  Lemma mW_decr x y : 0 <= x -> x <= y -> Wt y <= Wt x.
  Proof using He.
    intros Hx L. pose proof (cosh_incr x y Hx L) as C. pose proof (cosh_ge_1 x) as C1. pose proof (mF x) as [_ F1]. pose proof (mF y) as [_ F2].
    pose proof (Rabs_pos dN) as A. pose proof (Rabs_pos de) as B. pose proof (mW_F x) as Wx. pose proof (mW_F y) as Wy. pose proof (mW_pos y) as W0.
    apply (Rmult_le_reg_r ((e * cosh x - 1) * (e * cosh y - 1))); [nra|].
    replace (Wt y * ((e * cosh x - 1) * (e * cosh y - 1))) with (Wt y * (e * cosh y - 1) * (e * cosh x - 1)) by ring.
    replace (Wt x * ((e * cosh x - 1) * (e * cosh y - 1))) with (Wt x * (e * cosh x - 1) * (e * cosh y - 1)) by ring.
    rewrite Wx, Wy. assert (0 <= Rabs dN * (e * (cosh y - cosh x))) by (apply Rmult_le_pos; nra).
    assert (0 <= Rabs de * (cosh y - cosh x)) by (apply Rmult_le_pos; lra). nra.
  Qed.
  (** The slope grows at most exponentially. *)
  Lemma mF_exp x d : 0 <= d -> e * cosh (x + d) - 1 <= (e * cosh x - 1) * exp (181 / 100 * d).
  Proof using He.
    intros Hd. set (c := 181 / 100).
    destruct (mvt (fun t => (e * cosh t - 1) * exp (- c * (t - x))) (fun t => e * sinh t * exp (- c * (t - x)) + (e * cosh t - 1) * (- c * exp (- c * (t - x)))) x (x + d)) as [b [_ Eb]].
    { intros z. apply (der_mult (fun t => e * cosh t - 1) (fun t => exp (- c * (t - x)))); [apply F_der|]. eapply der_eq.
      - apply (der_comp exp (fun t => - c * (t - x))); [apply is_derive_Reals, derivable_pt_lim_exp|apply der_scal, der_minus; [apply der_id|apply der_const]].
      - ring. }
    cbv beta in Eb. replace (x - x) with 0 in Eb by ring. rewrite Rmult_0_r, exp_0, Rmult_1_r in Eb.
    replace (x + d - x) with d in Eb by ring. pose proof (ratio181 e b He) as Q. fold c in Q. pose proof (exp_pos (- c * (b - x))) as P.
    assert (Z : (e * sinh b * exp (- c * (b - x)) + (e * cosh b - 1) * (- c * exp (- c * (b - x)))) * d <= 0) by (replace (e * sinh b * exp (- c * (b - x)) + (e * cosh b - 1) * (- c * exp (- c * (b - x)))) with (- ((c * (e * cosh b - 1) - e * sinh b) * exp (- c * (b - x)))) by ring; assert (0 <= (c * (e * cosh b - 1) - e * sinh b) * exp (- c * (b - x)) * d) by (apply Rmult_le_pos; [apply Rmult_le_pos|]; lra); lra).
    assert (E : exp (- c * d) * exp (c * d) = 1) by (rewrite <- exp_plus; replace (- c * d + c * d) with 0 by ring; apply exp_0).
    pose proof (exp_pos (c * d)) as Pc. assert (Y : (e * cosh (x + d) - 1) * exp (- c * d) <= e * cosh x - 1) by lra.
    replace (e * cosh (x + d) - 1) with ((e * cosh (x + d) - 1) * exp (- c * d) * exp (c * d)) by (rewrite Rmult_assoc, E; ring). apply Rmult_le_compat_r; lra.
  Qed.
  Lemma mF_sq y : 0 <= y -> e * sinh y <= 6 * (e * cosh y - 1) ^ 2.
  Proof using He.
    intros Hy. pose proof (cosh_sinh_sq y) as I. pose proof (sinh_nonneg y Hy) as S0. pose proof (cosh_ge_1 y) as C1. set (c := cosh y) in *. set (s := sinh y) in *. clearbody c s.
    assert (A : 6 / 5 * s <= 6 * (6 / 5 * c - 1) ^ 2).
    { assert (2 * (1053 / 1000) * c <= c ^ 2 + (1053 / 1000) ^ 2) by (assert (0 <= (c - 1053 / 1000) ^ 2) by apply pow2_ge_0; nra).
      assert (0 <= (s - 1 / 3) ^ 2) by apply pow2_ge_0. nra. }
    assert (B : s <= c) by nra. set (g := e - 6 / 5). assert (G : 0 <= g) by (unfold g; lra). replace e with (6 / 5 + g) by (unfold g; ring).
    assert (0 <= g * (12 * c * (6 / 5 * c - 1) - s)) by (apply Rmult_le_pos; [exact G|nra]). assert (0 <= (g * c) ^ 2) by apply pow2_ge_0. nra.
  Qed.

  Let f y := e * sinh y - y - N.
  Let d_ y := f y / (e * cosh y - 1).
  Let nw y := y - d_ y.
  Let q_ y := e * sinh y * d_ y / (e * cosh y - 1).
  Lemma mH0 : 0 < H.
  Proof using He HN Hroot.
    destruct (good_root_nonneg N e H ltac:(lra) ltac:(lra) Hroot) as [P|P]; [exact P|]. exfalso. rewrite <- P in Hroot. rewrite kepler_equ_hypb_R, sinh_0 in Hroot. lra.
  Qed.
  Lemma mf y : f y = d_ y * (e * cosh y - 1).
  Proof using He. pose proof (mF y). unfold d_. field. lra. Qed.
  Lemma mf_der (y : R) : is_derive f y (e * cosh y - 1).
  Proof using. unfold f. eapply der_eq; [apply der_minus; [apply der_minus; [apply der_scal, der_sinh|apply der_id]|apply der_const]|ring]. Qed.
  Lemma mfH : f H = 0.
  Proof using Hroot. rewrite kepler_equ_hypb_R in Hroot. exact Hroot. Qed.
  Lemma hstep_split y k0 : hstep e N de dN y k0 = S_ y - d_ y * S1 y + q_ y * (k0 - S_ y).
  Proof using He. pose proof (mF y). unfold hstep, q_. fold (f y). rewrite (mf y). unfold S1, hS1, S_, hS. field. lra. Qed.

  (** *** A step from the right of the root *)
  Lemma mright y : H <= y -> 0 <= d_ y <= y - H.
  Proof using He HN Hroot.
    intros L. pose proof mH0 as P. pose proof (mF y) as [_ FP]. destruct (mvt f (fun t => e * cosh t - 1) H y mf_der) as [c [Hc Ec]]. rewrite mfH, Rminus_0_r in Ec.
    rewrite Rmin_left, Rmax_right in Hc by lra. pose proof (mF c) as [_ Fc]. pose proof (cosh_incr c y ltac:(lra) ltac:(lra)) as I.
    pose proof (mf y) as E. assert (e * cosh c - 1 <= e * cosh y - 1) by nra. split; apply (Rmult_le_reg_r (e * cosh y - 1)); try lra; rewrite <- E; nra.
  Qed.
  Lemma mq y : 0 <= y -> 0 <= d_ y -> 0 <= q_ y <= 181 / 100 * d_ y.
  Proof using He.
    intros Hy Hd. pose proof (mF y) as [_ FP]. pose proof (sinh_nonneg y Hy) as S0. pose proof (ratio181 e y He) as R1. unfold q_.
    split; [unfold Rdiv; apply Rmult_le_pos; [apply Rmult_le_pos; nra|apply Rlt_le, Rinv_0_lt_compat; lra]|].
    apply (Rmult_le_reg_r (e * cosh y - 1)); [lra|]. replace (e * sinh y * d_ y / (e * cosh y - 1) * (e * cosh y - 1)) with (e * sinh y * d_ y) by (field; lra). nra.
  Qed.
  Lemma bstep y k0 : H <= y -> Rabs (hstep e N de dN y k0 - S_ (nw y)) <= 859 / 100 * W * d_ y ^ 2 + q_ y * Rabs (k0 - S_ y).
  Proof using He HN Hroot.
    intros L. pose proof (mright y L) as D. pose proof mH0 as P. rewrite hstep_split.
    pose proof (taylor2 S_ S1 S2 (nw y) y (1718 / 100 * W)) as T. replace (y - nw y) with (d_ y) in T by (unfold nw; ring).
    assert (TT : Rabs (S_ y - d_ y * S1 y - S_ (nw y)) <= 1718 / 100 * W / 2 * d_ y ^ 2).
    { apply T; [unfold nw; lra|apply mS_der|apply mS1_der|]. intros t Ht. unfold nw in Ht. eapply Rle_trans; [apply mS2_bound|]. apply Rmult_le_compat_l; [lra|]. apply mW_decr; lra. }
    replace (S_ y - d_ y * S1 y + q_ y * (k0 - S_ y) - S_ (nw y)) with ((S_ y - d_ y * S1 y - S_ (nw y)) + q_ y * (k0 - S_ y)) by ring.
    apply Rle_trans with (1 := Rabs_triang _ _). apply Rplus_le_compat; [lra|]. rewrite Rabs_mult. right. f_equal. apply Rabs_pos_eq. apply mq; lra.
  Qed.
  Lemma bnext y k0 d c c' : H <= y -> d_ y <= d -> Rabs (k0 - S_ y) <= c * W -> 0 <= c -> 859 / 100 * d ^ 2 + 181 / 100 * d * c <= c' ->
    Rabs (hstep e N de dN y k0 - S_ (nw y)) <= c' * W.
  Proof using He HN Hroot.
    intros L Hd Hc C0 Hc'. eapply Rle_trans; [apply bstep, L|]. pose proof (mright y L) as D. pose proof mH0 as P. pose proof (mq y ltac:(lra) ltac:(lra)) as [q0 q1]. pose proof (mW_pos H) as W0. fold W in W0.
    pose proof (Rabs_pos (k0 - S_ y)).
    assert (T1 : q_ y * Rabs (k0 - S_ y) <= 181 / 100 * d * (c * W)) by (apply Rmult_le_compat; lra).
    assert (T2 : d_ y ^ 2 <= d ^ 2) by (apply pow_incr; lra).
    assert (T3 : 859 / 100 * W * d_ y ^ 2 <= 859 / 100 * W * d ^ 2) by (apply Rmult_le_compat_l; lra).
    assert (T4 : (859 / 100 * d ^ 2 + 181 / 100 * d * c) * W <= c' * W) by (apply Rmult_le_compat_r; assumption). lra.
  Qed.
  (** The residual after the step bounds the step, from below and from above. *)
  Lemma bgen y (c c1 : R -> R) : H <= y -> (forall t : R, is_derive c t (c1 t)) -> c y = 0 ->
    ((forall t, nw y <= t <= y -> - c1 t <= e * (cosh y - cosh t)) -> c (nw y) <= f (nw y)) /\
    ((forall t, nw y <= t <= y -> e * (cosh y - cosh t) <= - c1 t) -> f (nw y) <= c (nw y)).
  Proof using He HN Hroot.
    intros L Dc C0. pose proof (mright y L) as D. pose proof (mf y) as E.
    destruct (mvt (fun t => f t - (e * cosh y - 1) * t - c t) (fun t => e * cosh t - 1 - (e * cosh y - 1) - c1 t) (nw y) y) as [b [Hb Eb]].
    { intros z. apply der_minus; [|apply Dc]. apply der_minus; [apply mf_der|eapply der_eq; [apply der_scal, der_id|ring]]. }
    cbv beta in Eb. unfold nw in Hb at 1 2. rewrite Rmin_left, Rmax_right in Hb by lra. rewrite C0 in Eb. replace (y - nw y) with (d_ y) in Eb by (unfold nw; ring).
    assert (Z : (e * cosh y - 1) * nw y = (e * cosh y - 1) * y - f y) by (rewrite E; unfold nw; ring).
    split; intros Hc; specialize (Hc b Hb).
    - assert (0 <= - (e * cosh b - 1 - (e * cosh y - 1) - c1 b) * d_ y) by (apply Rmult_le_pos; lra). lra.
    - assert (0 <= (e * cosh b - 1 - (e * cosh y - 1) - c1 b) * d_ y) by (apply Rmult_le_pos; lra). lra.
  Qed.
  Lemma b_sq y : H <= y -> e * sinh (nw y) * d_ y ^ 2 / 2 <= f (nw y) <= e * sinh y * d_ y ^ 2 / 2.
  Proof using He HN Hroot.
    intros L. pose proof (mright y L) as D. pose proof mH0 as P.
    assert (G : forall a t : R, is_derive (fun t : R => e * a * (y - t) ^ 2 / 2) t (- (e * a * (y - t)))).
    { intros a t. eapply der_eq; [apply der_scal_r, der_scal, (der_pow (fun u => y - u)), der_minus; [apply der_const|apply der_id]|simpl; field]. }
    assert (Z : forall a, e * a * (y - y) ^ 2 / 2 = 0) by (intros a; replace (y - y) with 0 by ring; field).
    assert (I : forall t, nw y <= t <= y -> sinh (nw y) * (y - t) <= cosh y - cosh t <= sinh y * (y - t)).
    { intros t Ht. destruct (mvt cosh sinh t y der_cosh) as [b [Hb Eb]]. rewrite Rmin_left, Rmax_right in Hb by lra. rewrite Eb.
      pose proof (sinh_incr (nw y) b ltac:(lra)) as I1. pose proof (sinh_incr b y ltac:(lra)) as I2. split; apply Rmult_le_compat_r; lra. }
    replace (d_ y) with (y - nw y) by (unfold nw; ring). split.
    - apply (bgen y _ _ L (G (sinh (nw y))) (Z _)). intros t Ht. specialize (I t Ht). nra.
    - apply (bgen y _ _ L (G (sinh y)) (Z _)). intros t Ht. specialize (I t Ht). nra.
  Qed.
  Lemma b_cube y : H <= y -> e * d_ y ^ 3 / 6 <= f (nw y).
  Proof using He HN Hroot.
    intros L. pose proof (mright y L) as D. pose proof mH0 as P.
    replace (d_ y) with (y - nw y) by (unfold nw; ring).
    apply (bgen y (fun t => e * (y - t) ^ 3 / 6) (fun t => - (e * (y - t) ^ 2 / 2)) L).
    - intros t. eapply der_eq; [apply der_scal_r, der_scal, (der_pow (fun u => y - u)), der_minus; [apply der_const|apply der_id]|simpl; field].
    - replace (y - y) with 0 by ring. field.
    - intros t Ht. unfold nw in Ht. destruct (mvt (fun u => cosh u - u ^ 2 / 2) (fun u => sinh u - u) t y) as [b [Hb Eb]].
      { intros z. apply der_minus; [apply der_cosh|]. eapply der_eq; [apply der_scal_r, der_pow, der_id|simpl; field]. }
      rewrite Rmin_left, Rmax_right in Hb by lra. pose proof (sinh_ge_id b ltac:(lra)) as G.
      assert (0 <= (sinh b - b) * (y - t)) by (apply Rmult_le_pos; lra). rewrite <- Eb in *.
      assert (0 <= t * (y - t)) by (apply Rmult_le_pos; lra).
      assert ((y - t) ^ 2 / 2 <= cosh y - cosh t) by nra. nra.
  Qed.
  Lemma b_last y : H <= y -> f (nw y) <= / 1000000 -> d_ y <= 172 / 10000 /\ q_ y <= 5 / 1000.
  Proof using He HN Hroot.
    intros L Hr. pose proof (b_cube y L) as C3. pose proof (proj1 (b_sq y L)) as C2. pose proof (mright y L) as [D0 D1]. pose proof mH0 as P0. pose proof (mF y) as [F6 FP].
    assert (Dd : d_ y <= 172 / 10000).
    { apply Rnot_lt_le. intros B. assert (P3 : (172 / 10000) ^ 3 <= d_ y ^ 3) by (apply pow_incr; lra).
      assert (6 / 5 * d_ y ^ 3 <= e * d_ y ^ 3) by (apply Rmult_le_compat_r; [apply pow_le|]; lra). lra. }
    split; [exact Dd|]. pose proof (mq y ltac:(lra) D0) as [q0 _].
    assert (Eq : q_ y * (e * cosh y - 1) = e * sinh y * d_ y) by (unfold q_; field; lra).
    assert (E : y = nw y + d_ y) by (unfold nw; ring). assert (Hz : H <= nw y) by (unfold nw; lra).
    set (q := q_ y) in *. set (z := nw y) in *. set (d := d_ y) in *. clearbody q z d.
    pose proof (sinh_nonneg y ltac:(lra)) as Sy. pose proof (sinh_nonneg z ltac:(lra)) as Sz.
    assert (Cy : cosh y <= 1 + sinh y). { pose proof (cosh_sinh_sq y). pose proof (cosh_ge_1 y). nra. }
    destruct (mvt sinh cosh z y der_sinh) as [b [Hb Eb]]. rewrite Rmin_left, Rmax_right in Hb by lra.
    pose proof (cosh_incr b y ltac:(lra) ltac:(lra)) as Cb. replace (y - z) with d in Eb by lra.
    assert (Gr : sinh y - sinh z <= (1 + sinh y) * d) by (rewrite Eb; apply Rmult_le_compat_r; lra).
    destruct (Rle_dec d z) as [Lz|Lz].
    - pose proof (sinh_ge_id z ltac:(lra)) as G. assert (R2 : sinh y * (1 - 172 / 10000) <= 2 * sinh z) by nra.
      assert (M : e * sinh y * d ^ 2 <= 408 / 100000000).
      { assert (d2 : 0 <= e * d ^ 2) by (apply Rmult_le_pos; [lra|apply pow2_ge_0]). nra. }
      pose proof (mF_sq y ltac:(lra)) as FS.
      assert (Q2 : q ^ 2 * (e * cosh y - 1) ^ 2 <= 408 / 100000000 * 6 * (e * cosh y - 1) ^ 2).
      { replace (q ^ 2 * (e * cosh y - 1) ^ 2) with ((q * (e * cosh y - 1)) ^ 2) by ring. rewrite Eq.
        replace ((e * sinh y * d) ^ 2) with (e * sinh y * d ^ 2 * (e * sinh y)) by ring.
        replace (408 / 100000000 * 6 * (e * cosh y - 1) ^ 2) with (408 / 100000000 * (6 * (e * cosh y - 1) ^ 2)) by ring. apply Rmult_le_compat; try assumption.
        - apply Rmult_le_pos; [apply Rmult_le_pos; lra|apply pow2_ge_0].
        - apply Rmult_le_pos; lra. }
      apply Rmult_le_reg_r in Q2; [|apply pow_lt; lra]. nra.
    - assert (sinh z <= z + z * sinh y).
      { destruct (mvt sinh cosh 0 z der_sinh) as [b' [Hb' Eb']]. rewrite sinh_0, !Rminus_0_r in Eb'. rewrite Rmin_left, Rmax_right in Hb' by lra.
        pose proof (cosh_incr b' y ltac:(lra) ltac:(lra)). rewrite Eb'. nra. }
      assert (S3 : sinh y <= 36 / 1000) by nra.
      apply (Rmult_le_reg_r (e * cosh y - 1)); [lra|]. rewrite Eq. pose proof (cosh_ge_1 y).
      assert (e * sinh y * d <= e * (36 / 1000) * (172 / 10000)) by (apply Rmult_le_compat; [apply Rmult_le_pos; lra|lra|apply Rmult_le_compat_l; lra|lra]). nra.
  Qed.
  (** Two points right of the root whose residual is small carry nearly the same slope. *)
  Lemma close_root z : H <= z -> f z <= / 1000000 -> Rabs (S_ z - S_ H) <= / 50000 * W.
  Proof using He HN Hroot.
    intros L Hr. pose proof mH0 as P. pose proof (mW_pos H) as W0. fold W in W0.
    destruct (mvt S_ S1 H z mS_der) as [b [Hb Eb]]. rewrite Rmin_left, Rmax_right in Hb by lra.
    destruct (mvt f (fun t => e * cosh t - 1) H z mf_der) as [c [Hc Ec]]. rewrite mfH, Rminus_0_r in Ec. pose proof (mF c) as [_ Fc].
    assert (X : z - H <= / 200000) by nra.
    rewrite Eb, Rabs_mult, (Rabs_pos_eq (z - H)) by lra.
    apply Rle_trans with (281 / 100 * W * / 200000); [|lra]. apply Rmult_le_compat; [apply Rabs_pos|lra| |exact X].
    eapply Rle_trans; [apply mS1_bound|]. apply Rmult_le_compat_l; [lra|]. apply mW_decr; lra.
  Qed.
  Lemma b_final y k0 : H <= y -> Rabs (k0 - S_ y) <= 17 * W -> f (nw y) <= / 1000000 -> Rabs (hstep e N de dN y k0 - S_ H) <= 9 / 100 * W.
  Proof using He HN Hroot.
    intros L Hk Hr. destruct (b_last y L Hr) as [Dd Q]. pose proof (bstep y k0 L) as ES. pose proof (mW_pos H) as W0. fold W in W0. pose proof (mright y L) as [D0 D1]. pose proof mH0 as P.
    pose proof (mq y ltac:(lra) D0) as [q0 _]. pose proof (close_root (nw y) ltac:(unfold nw; lra) Hr) as T4.
    assert (T1 : q_ y * Rabs (k0 - S_ y) <= 5 / 1000 * (17 * W)) by (apply Rmult_le_compat; try apply Rabs_pos; assumption).
    assert (T2 : d_ y ^ 2 <= (172 / 10000) ^ 2) by (apply pow_incr; lra).
    assert (T3 : 859 / 100 * W * d_ y ^ 2 <= 859 / 100 * W * (172 / 10000) ^ 2) by (apply Rmult_le_compat_l; lra).
    replace (hstep e N de dN y k0 - S_ H) with ((hstep e N de dN y k0 - S_ (nw y)) + (S_ (nw y) - S_ H)) by ring. apply Rle_trans with (1 := Rabs_triang _ _). lra.
  Qed.

  (** *** A step from the left of the root *)
  Lemma mleft y : 0 <= y -> y <= H -> 0 <= - d_ y.
  Proof using He HN Hroot.
    intros P L. pose proof (mF y) as [_ FP]. destruct (mvt f (fun t => e * cosh t - 1) y H mf_der) as [c [Hc Ec]]. rewrite mfH in Ec.
    pose proof (mF c) as [_ Fc]. pose proof (mf y) as E. assert (f y <= 0) by nra.
    apply (Rmult_le_reg_r (e * cosh y - 1)); lra.
  Qed.
  Lemma fgen y (c c1 : R -> R) : 0 <= y -> y <= H -> (forall t : R, is_derive c t (c1 t)) -> c y = 0 ->
    ((forall t, y <= t <= nw y -> c1 t <= e * (cosh t - cosh y)) -> c (nw y) <= f (nw y)) /\
    ((forall t, y <= t <= nw y -> e * (cosh t - cosh y) <= c1 t) -> f (nw y) <= c (nw y)).
  Proof using He HN Hroot.
    intros P L Dc C0. pose proof (mleft y P L) as D. pose proof (mf y) as E.
    destruct (mvt (fun t => f t - (e * cosh y - 1) * t - c t) (fun t => e * cosh t - 1 - (e * cosh y - 1) - c1 t) y (nw y)) as [b [Hb Eb]].
    { intros z. apply der_minus; [|apply Dc]. apply der_minus; [apply mf_der|eapply der_eq; [apply der_scal, der_id|ring]]. }
    cbv beta in Eb. unfold nw in Hb at 1 2. rewrite Rmin_left, Rmax_right in Hb by lra. rewrite C0 in Eb. replace (nw y - y) with (- d_ y) in Eb by (unfold nw; ring).
    assert (Z : (e * cosh y - 1) * nw y = (e * cosh y - 1) * y - f y) by (rewrite E; unfold nw; ring).
    split; intros Hc; specialize (Hc b Hb).
    - assert (0 <= (e * cosh b - 1 - (e * cosh y - 1) - c1 b) * - d_ y) by (apply Rmult_le_pos; lra). lra.
    - assert (0 <= - (e * cosh b - 1 - (e * cosh y - 1) - c1 b) * - d_ y) by (apply Rmult_le_pos; lra). lra.
  Qed.
  Lemma f_sq y : 0 <= y -> y <= H -> e * sinh y * d_ y ^ 2 / 2 <= f (nw y) <= e * sinh (nw y) * d_ y ^ 2 / 2.
  Proof using He HN Hroot.
    intros P L. pose proof (mleft y P L) as D.
    assert (G : forall a t : R, is_derive (fun t : R => e * a * (t - y) ^ 2 / 2) t (e * a * (t - y))).
    { intros a t. eapply der_eq; [apply der_scal_r, der_scal, (der_pow (fun u => u - y)), der_minus; [apply der_id|apply der_const]|simpl; field]. }
    assert (Z : forall a, e * a * (y - y) ^ 2 / 2 = 0) by (intros a; replace (y - y) with 0 by ring; field).
    assert (I : forall t, y <= t <= nw y -> sinh y * (t - y) <= cosh t - cosh y <= sinh (nw y) * (t - y)).
    { intros t Ht. destruct (mvt cosh sinh y t der_cosh) as [b [Hb Eb]]. rewrite Rmin_left, Rmax_right in Hb by lra. rewrite Eb.
      pose proof (sinh_incr y b ltac:(lra)) as I1. pose proof (sinh_incr b (nw y) ltac:(lra)) as I2. split; apply Rmult_le_compat_r; lra. }
    replace (d_ y ^ 2) with ((nw y - y) ^ 2) by (unfold nw; ring). split.
    - apply (fgen y _ _ P L (G (sinh y)) (Z _)). intros t Ht. specialize (I t Ht). nra.
    - apply (fgen y _ _ P L (G (sinh (nw y))) (Z _)). intros t Ht. specialize (I t Ht). nra.
  Qed.
  Lemma f_cube y : 0 <= y -> y <= H -> e * (- d_ y) ^ 3 / 6 <= f (nw y).
  Proof using He HN Hroot.
    intros P L. pose proof (mleft y P L) as D. replace (- d_ y) with (nw y - y) by (unfold nw; ring).
    apply (fgen y (fun t => e * (t - y) ^ 3 / 6) (fun t => e * (t - y) ^ 2 / 2) P L).
    - intros t. eapply der_eq; [apply der_scal_r, der_scal, (der_pow (fun u => u - y)), der_minus; [apply der_id|apply der_const]|simpl; field].
    - replace (y - y) with 0 by ring. field.
    - intros t Ht. destruct (mvt (fun u => cosh u - u ^ 2 / 2) (fun u => sinh u - u) y t) as [b [Hb Eb]].
      { intros z. apply der_minus; [apply der_cosh|]. eapply der_eq; [apply der_scal_r, der_pow, der_id|simpl; field]. }
      rewrite Rmin_left, Rmax_right in Hb by lra. pose proof (sinh_ge_id b ltac:(lra)) as G.
      assert (0 <= (sinh b - b) * (t - y)) by (apply Rmult_le_pos; lra). rewrite <- Eb in *.
      assert (0 <= y * (t - y)) by (apply Rmult_le_pos; lra).
      assert ((t - y) ^ 2 / 2 <= cosh t - cosh y) by nra. nra.
  Qed.
  Lemma f_over y : 0 <= y -> y <= H -> H <= nw y.
  Proof using He HN Hroot.
    intros P L. pose proof (proj1 (f_sq y P L)) as Q. pose proof (sinh_nonneg y P) as S0.
    apply (good_right N e H ltac:(lra) Hroot). rewrite kepler_equ_hypb_R. fold (f (nw y)).
    assert (0 <= e * sinh y * d_ y ^ 2) by (apply Rmult_le_pos; [apply Rmult_le_pos; lra|apply pow2_ge_0]). lra.
  Qed.
  Lemma f_W y : 0 <= y -> y <= H -> - d_ y <= 27 / 50 -> Wt y <= 3 * W.
  Proof using He HN Hroot.
    intros P L Hd. pose proof (mleft y P L) as D. pose proof (f_over y P L) as O. pose proof (mF_exp y (- d_ y) D) as X. replace (y + - d_ y) with (nw y) in X by (unfold nw; ring).
    assert (X3 : exp (181 / 100 * - d_ y) <= 3).
    { apply Rle_trans with (exp 1); [|apply exp_le_3]. destruct (Req_dec (181 / 100 * - d_ y) 1) as [Z|Z]; [rewrite Z; right; reflexivity|]. apply Rlt_le, exp_increasing. lra. }
    pose proof (mF y) as [_ F1]. pose proof (mF H) as [_ FH]. pose proof (cosh_incr H (nw y) ltac:(lra) O) as CH. pose proof (cosh_incr y H P L) as Cy.
    pose proof (mW_pos H) as W0. fold W in W0. pose proof (mW_F y) as Wy. pose proof (mW_F H) as WH. fold W in WH. pose proof (Rabs_pos de).
    assert (A : e * cosh H - 1 <= 3 * (e * cosh y - 1)).
    { apply Rle_trans with (e * cosh (nw y) - 1); [nra|]. eapply Rle_trans; [exact X|]. rewrite Rmult_comm. apply Rmult_le_compat_r; lra. }
    assert (B : Wt y * (e * cosh y - 1) <= W * (e * cosh H - 1)) by (rewrite Wy, WH; nra).
    apply (Rmult_le_reg_r (e * cosh y - 1)); [lra|]. apply Rle_trans with (1 := B). replace (3 * W * (e * cosh y - 1)) with (W * (3 * (e * cosh y - 1))) by ring. apply Rmult_le_compat_l; assumption.
  Qed.
  Lemma mq_abs y : Rabs (q_ y) <= 181 / 100 * Rabs (d_ y).
  Proof using He.
    pose proof (mF y) as [_ FP]. unfold q_, Rdiv. rewrite !Rabs_mult, Rabs_inv, (Rabs_pos_eq (e * cosh y - 1)) by lra. rewrite <- Rabs_mult. pose proof (msinh y) as M. pose proof (Rabs_pos (d_ y)).
    apply (Rmult_le_reg_r (e * cosh y - 1)); [lra|]. rewrite Rmult_assoc, Rinv_l, Rmult_1_r by lra.
    apply Rle_trans with (181 / 100 * (e * cosh y - 1) * Rabs (d_ y)); [apply Rmult_le_compat_r; assumption|lra].
  Qed.
  Lemma fstep y k0 : 0 <= y -> y <= H -> - d_ y <= 27 / 50 -> Rabs (hstep e N de dN y k0 - S_ (nw y)) <= 2577 / 100 * W * d_ y ^ 2 + Rabs (q_ y) * Rabs (k0 - S_ y).
  Proof using He HN Hroot.
    intros P L Hd. pose proof (mleft y P L) as D. rewrite hstep_split. pose proof (f_W y P L Hd) as X3.
    pose proof (taylor2_left S_ S1 S2 y (nw y) (1718 / 100 * (3 * W))) as T. replace (nw y - y) with (- d_ y) in T by (unfold nw; ring).
    assert (TT : Rabs (S_ y + - d_ y * S1 y - S_ (nw y)) <= 1718 / 100 * (3 * W) / 2 * (- d_ y) ^ 2).
    { apply T; [unfold nw; lra|apply mS_der|apply mS1_der|]. intros t Ht. eapply Rle_trans; [apply mS2_bound|]. apply Rmult_le_compat_l; [lra|]. eapply Rle_trans; [apply (mW_decr y); lra|exact X3]. }
    replace (S_ y - d_ y * S1 y + q_ y * (k0 - S_ y) - S_ (nw y)) with ((S_ y + - d_ y * S1 y - S_ (nw y)) + q_ y * (k0 - S_ y)) by ring.
    apply Rle_trans with (1 := Rabs_triang _ _). apply Rplus_le_compat; [replace ((- d_ y) ^ 2) with (d_ y ^ 2) in TT by ring; lra|]. rewrite Rabs_mult. right. reflexivity.
  Qed.
  Lemma f_next y k0 : 0 <= y -> y <= H -> - d_ y <= 27 / 50 -> Rabs (k0 - S_ y) <= 9 * W -> Rabs (hstep e N de dN y k0 - S_ (nw y)) <= 17 * W.
  Proof using He HN Hroot.
    intros P L Hd Hk. eapply Rle_trans; [apply (fstep y k0 P L Hd)|]. pose proof (mleft y P L) as D. pose proof (mW_pos H) as W0. fold W in W0. pose proof (mq_abs y) as Q. rewrite (Rabs_left1 (d_ y)) in Q by lra.
    assert (T1 : Rabs (q_ y) * Rabs (k0 - S_ y) <= 181 / 100 * (27 / 50) * (9 * W)) by (apply Rmult_le_compat; try apply Rabs_pos; lra).
    assert (T2 : (- d_ y) ^ 2 <= (27 / 50) ^ 2) by (apply pow_incr; lra). replace ((- d_ y) ^ 2) with (d_ y ^ 2) in T2 by ring.
    assert (T3 : 2577 / 100 * W * d_ y ^ 2 <= 2577 / 100 * W * (27 / 50) ^ 2) by (apply Rmult_le_compat_l; lra). lra.
  Qed.
  Lemma f_final y k0 : 0 <= y -> y <= H -> - d_ y <= 27 / 50 -> Rabs (k0 - S_ y) <= 9 * W -> f (nw y) <= / 1000000 -> Rabs (hstep e N de dN y k0 - S_ H) <= 9 / 100 * W.
  Proof using He HN Hroot.
    intros P L Hd Hk Hr. pose proof (fstep y k0 P L Hd) as ES. pose proof (mleft y P L) as D. pose proof (mW_pos H) as W0. fold W in W0. pose proof (f_over y P L) as O. pose proof (close_root (nw y) O Hr) as T4.
    pose proof (f_cube y P L) as C3. pose proof (proj1 (f_sq y P L)) as C2. pose proof (mF y) as [_ FP]. pose proof (sinh_nonneg y P) as S0.
    assert (Dd : - d_ y <= 172 / 10000).
    { apply Rnot_lt_le. intros B. assert (P3 : (172 / 10000) ^ 3 <= (- d_ y) ^ 3) by (apply pow_incr; lra).
      assert (6 / 5 * (- d_ y) ^ 3 <= e * (- d_ y) ^ 3) by (apply Rmult_le_compat_r; [apply pow_le|]; lra). lra. }
    assert (Q : Rabs (q_ y) <= 5 / 1000).
    { assert (Eq : q_ y * (e * cosh y - 1) = e * sinh y * d_ y) by (unfold q_; field; lra). pose proof (mF_sq y P) as FS.
      assert (Q2 : q_ y ^ 2 * (e * cosh y - 1) ^ 2 <= 12 / 1000000 * (e * cosh y - 1) ^ 2).
      { replace (q_ y ^ 2 * (e * cosh y - 1) ^ 2) with ((q_ y * (e * cosh y - 1)) ^ 2) by ring. rewrite Eq.
        replace ((e * sinh y * d_ y) ^ 2) with (e * sinh y * d_ y ^ 2 * (e * sinh y)) by ring.
        replace (12 / 1000000 * (e * cosh y - 1) ^ 2) with (2 / 1000000 * (6 * (e * cosh y - 1) ^ 2)) by field. apply Rmult_le_compat; try lra.
        - apply Rmult_le_pos; [apply Rmult_le_pos; lra|apply pow2_ge_0].
        - apply Rmult_le_pos; lra. }
      apply Rmult_le_reg_r in Q2; [|apply pow_lt; lra]. apply Rabs_le. split; nra. }
    assert (T1 : Rabs (q_ y) * Rabs (k0 - S_ y) <= 5 / 1000 * (9 * W)) by (apply Rmult_le_compat; try apply Rabs_pos; assumption).
    assert (T2 : (- d_ y) ^ 2 <= (172 / 10000) ^ 2) by (apply pow_incr; lra). replace ((- d_ y) ^ 2) with (d_ y ^ 2) in T2 by ring.
    assert (T3 : 2577 / 100 * W * d_ y ^ 2 <= 2577 / 100 * W * (172 / 10000) ^ 2) by (apply Rmult_le_compat_l; lra).
    replace (hstep e N de dN y k0 - S_ H) with ((hstep e N de dN y k0 - S_ (nw y)) + (S_ (nw y) - S_ H)) by ring. apply Rle_trans with (1 := Rabs_triang _ _). lra.
  Qed.

  (** *** The iteration *)
  Let x j := hx e N j.
  Let k j := hk e N de dN j.
  Lemma m_x j : x (S j) = nw (x j).
  Proof using. change (x (S j)) with (hypb_newton N e (x j)). rewrite hypb_newton_R, kepler_equ_hypb_R, dH_R. reflexivity. Qed.
  Lemma m_k j : k (S j) = hstep e N de dN (x j) (k j).
  Proof using. reflexivity. Qed.
  Lemma m_Sw : e * sinh (x 0%nat) = 2 * N.
  Proof using He. unfold x. change (hx e N 0) with (hypb_guess N e). rewrite hypb_guess_arcsinh, sinh_arcsinh. field. lra. Qed.
  Lemma m_x0 : 0 <= x 0%nat.
  Proof using He HN.
    pose proof m_Sw as Sw. apply Rnot_lt_le. intros L. pose proof (sinh_ge_id (- x 0%nat) ltac:(lra)) as G. rewrite sinh_neg in G. nra.
  Qed.
  Lemma m_eps0 : Rabs (k 0%nat - S_ (x 0%nat)) <= 3 * Wt (x 0%nat).
  Proof using He HN.
    pose proof m_Sw as Sw. unfold k, hk, hk0. fold (x 0%nat). set (y := x 0%nat) in *. pose proof (cosh_ge_1 y) as C. pose proof (mF y) as [_ FP].
    assert (K : Rabs ((2 * dN / e - 2 * N * de / e ^ 2) / cosh y) <= 2 * Wt y).
    { assert (E : (2 * dN / e - 2 * N * de / e ^ 2) / cosh y = (2 * dN - de * sinh y) * (e * cosh y - 1) / (e * cosh y) / (e * cosh y - 1)).
      { replace N with (e * sinh y / 2) by lra. field. split; [lra|nra]. }
      rewrite E. apply mover. rewrite mW_F.
      assert (Q : 0 <= (e * cosh y - 1) / (e * cosh y) <= 1).
      { split; [apply Rlt_le, Rdiv_lt_0_compat; lra|]. apply (Rmult_le_reg_r (e * cosh y)); [lra|]. replace ((e * cosh y - 1) / (e * cosh y) * (e * cosh y)) with (e * cosh y - 1) by (field; nra). lra. }
      replace ((2 * dN - de * sinh y) * (e * cosh y - 1) / (e * cosh y)) with ((2 * dN - de * sinh y) * ((e * cosh y - 1) / (e * cosh y))) by (field; nra).
      rewrite Rabs_mult, (Rabs_pos_eq ((e * cosh y - 1) / (e * cosh y))) by lra.
      assert (A : Rabs (2 * dN - de * sinh y) <= 2 * Rabs dN + Rabs de * cosh y).
      { apply Rle_trans with (1 := Rabs_triang _ _). rewrite Rabs_Ropp, !Rabs_mult, (Rabs_pos_eq 2) by lra. pose proof (sinh_cosh_abs y). pose proof (Rabs_pos de). nra. }
      pose proof (Rabs_pos (2 * dN - de * sinh y)). pose proof (Rabs_pos de). assert (0 <= Rabs de * cosh y) by (apply Rmult_le_pos; lra).
      apply Rle_trans with (Rabs (2 * dN - de * sinh y) * 1); [apply Rmult_le_compat_l; lra|lra]. }
    pose proof (mS_bound y). unfold Rminus at 1. apply Rle_trans with (1 := Rabs_triang _ _). rewrite Rabs_Ropp. lra.
  Qed.
  Lemma m_d0 : - (27 / 50) <= d_ (x 0%nat) <= 1 / 2.
  Proof using He HN.
    pose proof m_Sw as Sw. pose proof m_x0 as P. pose proof (mf (x 0%nat)) as E. set (y := x 0%nat) in *. pose proof (mF y) as [_ FP].
    assert (F1 : f y = e * sinh y / 2 - y) by (unfold f; lra). pose proof (sinh_ge_cube y P) as S3. pose proof (cosh_ge_quad y P) as C2.
    split; apply (Rmult_le_reg_r (e * cosh y - 1)); try lra; rewrite <- E, F1.
    - assert (A : 0 <= 1 / 10 * y ^ 3 + 324 / 1000 * y ^ 2 - 4 / 10 * y + 108 / 1000).
      { assert (0 <= (y - 507 / 1000) ^ 2 * (y / 10 + 42 / 100)) by (apply Rmult_le_pos; [apply pow2_ge_0|lra]).
        nra. }
      assert (G : 0 <= (e - 6 / 5) * (sinh y / 2 + 27 / 50 * cosh y)) by (apply Rmult_le_pos; nra). nra.
    - unfold sinh, cosh. pose proof (exp_pos y). pose proof (exp_pos (- y)) as Pm. assert (1 + - y <= exp (- y)) by apply exp_ineq1_le. nra.
  Qed.
  Lemma final_right n : H <= x 0%nat -> f (x (S n)) <= / 1000000 -> Rabs (k (S n) - S_ H) <= 9 / 100 * W.
  Proof using He HN Hroot.
    intros R0 Hr. pose proof mH0 as P0. pose proof (mW_pos H) as W0. fold W in W0.
    assert (Sq : forall j, H <= x j) by (induction j as [|j IH]; [exact R0|]; rewrite m_x; pose proof (mright _ IH); unfold nw; lra).
    assert (Hst : 0 <= kepler_equ_hypb (hypb_guess N e) e N).
    { destruct R0 as [R0|R0]; [|change (hypb_guess N e) with (x 0%nat); rewrite <- R0, Hroot; lra].
      pose proof (hypb_residual_incr e N H (x 0%nat) ltac:(lra) R0) as I. change (hypb_guess N e) with (x 0%nat). lra. }
    assert (FH : 1 <= e * cosh H - 1).
    { pose proof mfH as EH. unfold f in EH. assert (G : kepler_equ_hypb (x 0%nat) e N = N - x 0%nat) by (rewrite kepler_equ_hypb_R, m_Sw; lra).
      change (hypb_guess N e) with (x 0%nat) in Hst. destruct (mvt sinh cosh 0 H der_sinh) as [b [Hb Eb]]. rewrite sinh_0, !Rminus_0_r in Eb. rewrite Rmin_left, Rmax_right in Hb by lra.
      pose proof (cosh_incr b H ltac:(lra) ltac:(lra)) as I. assert (sinh H <= cosh H * H) by (rewrite Eb; apply Rmult_le_compat_r; lra).
      assert (2 * H <= e * cosh H * H) by nra. assert (2 <= e * cosh H) by (apply (Rmult_le_reg_r H); lra). lra. }
    assert (Hq : forall y, H <= y -> e * sinh y <= 8 / 5 * dH y e).
    { intros y L. rewrite dH_R. pose proof (cosh_incr H y ltac:(lra) L) as I. assert (1 <= e * cosh y - 1) by nra.
      pose proof (cosh_sinh_sq y) as CS. pose proof (sinh_nonneg y ltac:(lra)) as S0. set (F := e * cosh y - 1) in *.
      assert (X : (e * sinh y) ^ 2 <= (8 / 5 * F) ^ 2).
      { replace ((e * sinh y) ^ 2) with ((F + 1) ^ 2 - e ^ 2) by (unfold F; replace (e ^ 2) with (e ^ 2 * (cosh y ^ 2 - sinh y ^ 2)) by (rewrite CS; ring); ring). clearbody F. nra. }
      clearbody F. apply Rnot_lt_le. intros B. nra. }
    assert (D : forall i, d_ (x i) <= 5 / 4 * (4 / 5) ^ (2 ^ i)).
    { intros i. pose proof (mright _ (Sq i)). assert (G : 4 / 5 * (x i - H) <= (4 / 5) ^ (2 ^ i)) by exact (good_rate N e H ltac:(lra) ltac:(lra) Hroot Hst Hq i). lra. }
    assert (E0 : Rabs (k 0%nat - S_ (x 0%nat)) <= 3 * W).
    { eapply Rle_trans; [apply m_eps0|]. apply Rmult_le_compat_l; [lra|]. apply mW_decr; [lra|exact R0]. }
    assert (E1 : Rabs (k 1%nat - S_ (x 1%nat)) <= 487 / 100 * W).
    { rewrite (m_x 0), (m_k 0). apply (bnext _ _ (1 / 2) 3); [apply Sq|apply m_d0|exact E0|lra|lra]. }
    assert (E2 : Rabs (k 2%nat - S_ (x 2%nat)) <= 126 / 10 * W).
    { rewrite (m_x 1), (m_k 1). apply (bnext _ _ (4 / 5) (487 / 100)); [apply Sq| |exact E1|lra|lra]. eapply Rle_trans; [apply D|]. simpl. lra. }
    assert (EA : forall j, Rabs (k j - S_ (x j)) <= 17 * W).
    { intros [|[|j]]; [lra|lra|]. induction j as [|j IH]; [lra|]. rewrite (m_x (S (S j))), (m_k (S (S j))). destruct j as [|j].
      { apply (bnext _ _ (512 / 1000) (126 / 10)); [apply Sq| |exact E2|lra|lra]. eapply Rle_trans; [apply D|]. simpl. lra. }
      apply (bnext _ _ (21 / 100) 17); [apply Sq| |exact IH|lra|lra]. eapply Rle_trans; [apply D|].
      apply Rle_trans with (5 / 4 * (4 / 5) ^ 8); [|simpl; lra]. apply Rmult_le_compat_l; [lra|].
      assert (P : (2 ^ S (S (S j)) = 8 + (2 ^ S (S (S j)) - 8))%nat).
      { assert (2 ^ 3 <= 2 ^ S (S (S j)))%nat by (apply Nat.pow_le_mono_r; lia). simpl (2 ^ 3)%nat in *. lia. }
      rewrite P, pow_add. assert ((4 / 5) ^ (2 ^ S (S (S j)) - 8) <= 1).
      { rewrite <- (pow1 (2 ^ S (S (S j)) - 8)). apply pow_incr. lra. }
      assert (0 < (4 / 5) ^ 8) by (apply pow_lt; lra). nra. }
    rewrite m_k. apply b_final; [apply Sq|apply EA|]. rewrite <- m_x. exact Hr.
  Qed.
  Lemma final_left n : x 0%nat <= H -> f (x (S n)) <= / 1000000 -> Rabs (k (S n) - S_ H) <= 9 / 100 * W.
  Proof using He HN Hroot.
    intros L0 Hr. pose proof m_x0 as P0. pose proof m_d0 as D0. pose proof (mW_pos H) as W0. fold W in W0. pose proof (mleft _ P0 L0) as Dn.
    assert (E0 : Rabs (k 0%nat - S_ (x 0%nat)) <= 9 * W).
    { eapply Rle_trans; [apply m_eps0|]. pose proof (f_W (x 0%nat) P0 L0 ltac:(lra)). lra. }
    destruct n as [|n].
    { rewrite m_k. apply f_final; [exact P0|exact L0|lra|exact E0|rewrite <- m_x; exact Hr]. }
    assert (Inv : forall j, H <= x (S j) /\ d_ (x (S j)) <= 264 / 1000 /\ Rabs (k (S j) - S_ (x (S j))) <= 17 * W).
    { induction j as [|j [I1 [I2 I3]]].
      - pose proof (f_over _ P0 L0) as O. pose proof (proj2 (f_sq _ P0 L0)) as Q. rewrite m_x, m_k. split; [exact O|]. split; [|apply f_next; try assumption; lra].
        pose proof (mf (nw (x 0%nat))) as E. pose proof (mF (nw (x 0%nat))) as [_ FP]. pose proof (ratio181 e (nw (x 0%nat)) He) as R1.
        set (z := nw (x 0%nat)) in *. assert (T2 : (- d_ (x 0%nat)) ^ 2 <= (27 / 50) ^ 2) by (apply pow_incr; lra). replace ((- d_ (x 0%nat)) ^ 2) with (d_ (x 0%nat) ^ 2) in T2 by ring.
        pose proof (pow2_ge_0 (d_ (x 0%nat))) as T0. set (dd := d_ (x 0%nat) ^ 2) in *. clearbody dd.
        apply (Rmult_le_reg_r (e * cosh z - 1)); [lra|]. rewrite <- E. apply Rle_trans with (1 := Q).
        apply Rle_trans with (181 / 100 * (e * cosh z - 1) * (27 / 50) ^ 2 / 2); [|lra].
        assert (e * sinh z * dd <= 181 / 100 * (e * cosh z - 1) * dd) by (apply Rmult_le_compat_r; assumption).
        assert (181 / 100 * (e * cosh z - 1) * dd <= 181 / 100 * (e * cosh z - 1) * (27 / 50) ^ 2) by (apply Rmult_le_compat_l; lra). lra.
      - pose proof (mright _ I1) as Dr. rewrite (m_x (S j)), (m_k (S j)). split; [unfold nw; lra|]. split; [|apply (bnext _ _ (264 / 1000) 17); try assumption; lra].
        pose proof (proj2 (b_sq _ I1)) as Q. pose proof (mF_exp (nw (x (S j))) (d_ (x (S j))) (proj1 Dr)) as X. replace (nw (x (S j)) + d_ (x (S j))) with (x (S j)) in X by (unfold nw; ring).
        pose proof (mf (nw (x (S j)))) as E. pose proof (mF (nw (x (S j)))) as [_ FP]. pose proof (ratio181 e (x (S j)) He) as R1.
        assert (X2 : exp (181 / 100 * d_ (x (S j))) <= 174 / 100).
        { assert (G : exp (181 / 100 * d_ (x (S j))) <= exp (1 / 2)) by (apply Rlt_le, exp_increasing; lra).
          assert (G2 : exp (1 / 2) * exp (1 / 2) = exp 1) by (rewrite <- exp_plus; f_equal; field). pose proof exp_le_3. pose proof (exp_pos (1 / 2)). nra. }
        set (z := nw (x (S j))) in *. set (y := x (S j)) in *. set (d := d_ y) in *.
        assert (T2 : d ^ 2 <= (264 / 1000) ^ 2) by (apply pow_incr; lra). pose proof (pow2_ge_0 d) as T0.
        assert (Fy : e * cosh y - 1 <= 174 / 100 * (e * cosh z - 1)) by (eapply Rle_trans; [exact X|]; rewrite Rmult_comm; apply Rmult_le_compat_r; lra).
        pose proof (mF y) as [_ FPy]. set (dd := d ^ 2) in *. clearbody dd.
        apply (Rmult_le_reg_r (e * cosh z - 1)); [lra|]. rewrite <- E. apply Rle_trans with (1 := Q).
        assert (e * sinh y * dd <= 181 / 100 * (e * cosh y - 1) * dd) by (apply Rmult_le_compat_r; assumption).
        assert (181 / 100 * (e * cosh y - 1) * dd <= 181 / 100 * (e * cosh y - 1) * (264 / 1000) ^ 2) by (apply Rmult_le_compat_l; lra). lra. }
    destruct (Inv n) as [I1 [_ I3]]. rewrite m_k. apply b_final; [exact I1|exact I3|]. rewrite <- m_x. exact Hr.
  Qed.
  Lemma final_mid n : kepler_equ_hypb (x (S n)) e N <= / 1000000 -> Rabs (k (S n) - S_ H) <= 9 / 100 * W.
  Proof using He HN Hroot.
    rewrite kepler_equ_hypb_R. intros Hr. destruct (Rle_dec H (x 0%nat)) as [L|L]; [apply final_right|apply final_left]; try assumption. lra.
  Qed.
End Mid.

(** Negative mean anomalies. *)
Lemma hk_neg_any e N de dN j : 1 < e -> hk e (- N) de (- dN) j = - hk e N de dN j.
Proof.
  intros He. induction j as [|j IH].
  - cbn [hk]. unfold hk0. rewrite hx_neg, cosh_neg. pose proof (cosh_ge_1 (hx e N 0)). field. split; lra.
  - cbn [hk]. unfold hstep. rewrite hx_neg, IH, sinh_neg, cosh_neg. pose proof (cosh_ge_1 (hx e N j)). field. nra.
Qed.
Lemma mid_any e N H dN de n : 6 / 5 <= e -> N <> 0 -> kepler_equ_hypb H e N = 0 -> Rabs (kepler_equ_hypb (hx e N (S n)) e N) <= / 1000000 ->
  Rabs (hk e N de dN (S n) - (dN - de * sinh H) / (e * cosh H - 1)) <= 9 / 100 * ((Rabs dN + Rabs de * cosh H) / (e * cosh H - 1)).
Proof.
  intros He N0 HR Hn. destruct (Rtotal_order N 0) as [P|[P|P]]; [|contradiction|].
  - assert (HR' : kepler_equ_hypb (- H) e (- N) = 0) by (rewrite hypb_equ_neg, HR; ring).
    pose proof (final_mid e (- N) (- H) (- dN) de He ltac:(lra) HR' n) as Q. rewrite hx_neg, hk_neg_any, hypb_equ_neg in Q by lra.
    unfold hS, hW in Q. rewrite cosh_neg, sinh_neg, Rabs_Ropp in Q. rewrite <- Rabs_Ropp.
    replace (- (hk e N de dN (S n) - (dN - de * sinh H) / (e * cosh H - 1))) with (- hk e N de dN (S n) - (- dN - de * - sinh H) / (e * cosh H - 1))
      by (pose proof (cosh_ge_1 H); field; nra).
    apply Q. pose proof (Rle_abs (- kepler_equ_hypb (hx e N (S n)) e N)) as A. rewrite Rabs_Ropp in A. lra.
  - apply (final_mid e N H dN de He P HR n). pose proof (Rle_abs (kepler_equ_hypb (hx e N (S n)) e N)). lra.
Qed.

Lemma hypb_jvp_mid (N e root : R -> R) (s : R) (dN de : dual) : 6 / 5 <= e s -> e s + 2 * Rabs (N s) <= 10 ^ 308 -> carries N s dN -> carries e s de ->
  / 1000000 < Rabs (N s - arcsinh (2 * N s / e s)) ->
  locally s (fun u => e u * sinh (root u) - root u = N u) ->
  let o := @solve_kepler_hypb _ Num_D dN de (@default_tol _ Num_D) hypb_max_iter in
  val o = solve_kepler_hypb (N s) (e s) default_tol hypb_max_iter /\
  exists root', is_derive root s root' /\
    Rabs (tang o - root') <= 9 / 100 * ((Rabs (tang dN) + Rabs (tang de) * cosh (root s)) / (e s * cosh (root s) - 1)).
Proof.
  intros He HB [N0 N1] [e0 e1] HG HR o. unfold o. assert (Ha : 1 < val de) by (rewrite <- e0; lra).
  destruct (hypb_D dN de Ha) as [m [Hm [O1 [O2 [O3 O4]]]]]. rewrite O1. cbn [val tang]. rewrite N0, e0. split; [symmetry; exact O2|].
  exists ((tang dN - tang de * sinh (root s)) / (e s * cosh (root s) - 1)). split.
  - apply (hypb_implicit N e root s); [lra|exact N1|exact e1|exact HR].
  - rewrite <- e0, <- N0 in *.
    assert (Rm : Rabs (kepler_equ_hypb (hx (e s) (N s) m) (e s) (N s)) <= / 1000000).
    { assert (C1 : 1 < e s) by lra. assert (C2 : 8001 / 8000 <= e s) by lra. pose proof (hypb_converges (N s) (e s) C1 (or_introl C2) HB) as G. rewrite O2 in G. exact G. }
    destruct m as [|m].
    { exfalso. change (hx (e s) (N s) 0) with (hypb_guess (N s) (e s)) in Rm. rewrite guess_residual in Rm by lra. lra. }
    assert (Nz : N s <> 0).
    { intros Z. rewrite Z in HG. replace (2 * 0 / e s) with 0 in HG by (field; lra). replace (arcsinh 0) with 0 in HG by (symmetry; apply arcsinh_0). rewrite Rminus_0_r, Rabs_R0 in HG. lra. }
    apply mid_any; [exact He|exact Nz| |exact Rm]. rewrite kepler_equ_hypb_R.
    assert (e s * sinh (root s) - root s = N s) by (destruct HR as [d0 HR]; apply HR, ball_center). lra.
Qed.
(** Along N = 6/5 sinh u - u with e = 6/5 the solution is u. At u = 1/2 the guess lies left of it and a step overshoots. *)
Lemma hypb_jvp_mid_ex : let N := 6 / 5 * sinh (1 / 2) - 1 / 2 in
  let o := @solve_kepler_hypb _ Num_D (mkD N (6 / 5 * cosh (1 / 2) - 1)) (konst (6 / 5)) (@default_tol _ Num_D) hypb_max_iter in
  kepler_equ_hypb (hypb_guess N (6 / 5)) (6 / 5) N < - (7 / 100) /\ Rabs (tang o - 1) <= 9 / 100.
Proof.
  intros N o. pose proof (cosh_ge_1 (1 / 2)) as C1.
  assert (S1 : 1 / 2 + 1 / 48 <= sinh (1 / 2) <= 3 / 5).
  { pose proof (sinh_ge_cube (1 / 2) ltac:(lra)). split; [lra|]. assert (E : exp (1 / 2) * exp (1 / 2) = exp 1) by (rewrite <- exp_plus; f_equal; field).
    assert (P : exp (1 / 2) * exp (- (1 / 2)) = 1) by (rewrite <- exp_plus, Rplus_opp_r; apply exp_0).
    pose proof exp_le_3. pose proof (exp_pos (1 / 2)). pose proof (exp_pos (- (1 / 2))). unfold sinh.
    assert (exp (1 / 2) <= 174 / 100) by nra. assert (54 / 100 <= exp (- (1 / 2))) by nra. lra. }
  assert (G : kepler_equ_hypb (hypb_guess N (6 / 5)) (6 / 5) N < - (7 / 100)).
  { rewrite guess_residual by lra. set (w := arcsinh (2 * N / (6 / 5))). assert (Sw : sinh w = 5 / 3 * N) by (unfold w; rewrite sinh_arcsinh; field).
    assert (N1 : 125 / 1000 <= N <= 22 / 100) by (unfold N; lra). clearbody w. clearbody N.
    assert (w0 : 0 <= w). { apply Rnot_lt_le. intros L. pose proof (sinh_ge_id (- w) ltac:(lra)) as S. rewrite sinh_neg in S. lra. }
    pose proof (sinh_le_cosh w w0) as U. pose proof (cosh_sinh_sq w) as I. pose proof (cosh_ge_1 w) as Cw.
    assert (Cu : cosh w <= 107 / 100) by nra. assert (21 / 107 <= w + 1 / 500) by nra. nra. }
  split; [exact G|].
  assert (CN : carries (fun u => 6 / 5 * sinh u - u) (1 / 2) (mkD N (6 / 5 * cosh (1 / 2) - 1))).
  { split; [reflexivity|]. apply der_minus; [apply der_scal, der_sinh|apply der_id]. }
  assert (Ce : carries (fun _ => 6 / 5) (1 / 2) (konst (6 / 5))) by (split; [reflexivity|apply der_const]).
  rewrite guess_residual in G by lra. set (r := N - arcsinh (2 * N / (6 / 5))) in G.
  assert (HG : / 1000000 < Rabs r) by (clearbody r; rewrite Rabs_left by lra; lra).
  destruct (hypb_jvp_mid (fun u => 6 / 5 * sinh u - u) (fun _ => 6 / 5) (fun u => u) (1 / 2) _ _ ltac:(lra)
    ltac:(rewrite Rabs_pos_eq by lra; apply Rle_trans with (10 ^ 1); [lra|apply Rle_pow; [lra|lia]]) CN Ce
    HG ltac:(apply filter_forall; intro; reflexivity)) as [_ [r' [D B]]].
  fold o in B. assert (r' = 1) as -> by (apply (der_uniq (fun u : R => u) (1 / 2)); [exact D|apply der_id]).
  unfold konst in B. cbn [tang] in B. rewrite (Rabs_pos_eq (6 / 5 * cosh (1 / 2) - 1)), Rabs_R0, Rmult_0_l, Rplus_0_r in B by lra.
  replace ((6 / 5 * cosh (1 / 2) - 1) / (6 / 5 * cosh (1 / 2) - 1)) with 1 in B by (field; lra). lra.
Qed.

(** For e = 2 N / sinh N < 2 the guess is the exact solution, with another slope. *)
Lemma hypb_jvp_lucky (N : R) : 0 < N -> sinh N < 2 * N -> let e := 2 * N / sinh N in
  let o := @solve_kepler_hypb _ Num_D (mkD N 1) (konst e) (@default_tol _ Num_D) hypb_max_iter in
  1 < e < 2 /\ e * sinh N - N = N /\ val o = N /\
  (exists root : R -> R, locally N (fun u => e * sinh (root u) - root u = u)) /\
  forall root : R -> R, locally N (fun u => e * sinh (root u) - root u = u) ->
    exists r : R, is_derive root N r /\ 0 < r /\ tang o = (2 - sinh N / (N * cosh N)) * r /\ sinh N / (N * cosh N) < 1.
Proof.
  intros HN HS e o. unfold o. pose proof (sinh_ge_id N ltac:(lra)) as S1. assert (S3 : N + N ^ 3 / 6 <= sinh N) by (apply sinh_ge_cube; lra). assert (N3 : 0 < N ^ 3) by (apply pow_lt; lra).
  pose proof (cosh_ge_1 N) as C1. assert (E : e * sinh N = 2 * N) by (unfold e; field; lra).
  assert (e1 : 1 < e) by (apply (Rmult_lt_reg_r (sinh N)); lra). assert (e2 : e < 2) by (apply (Rmult_lt_reg_r (sinh N)); lra).
  assert (NC : sinh N < N * cosh N).
  { destruct (mvt (fun t => t * cosh t - sinh t - t ^ 3 / 3) (fun t => t * sinh t - t ^ 2) 0 N) as [b [Hb Eb]].
    { intros t. eapply der_eq; [apply der_minus; [apply der_minus; [apply (der_mult (fun u => u) cosh); [apply der_id|apply der_cosh]|apply der_sinh]|apply der_scal_r, der_pow, der_id]|simpl; field]. }
    cbv beta in Eb. rewrite Rmin_left, Rmax_right in Hb by lra. rewrite sinh_0 in Eb. pose proof (sinh_ge_id b ltac:(lra)) as Sb.
    assert (0 <= b * sinh b - b ^ 2) by (replace (b * sinh b - b ^ 2) with (b * (sinh b - b)) by ring; apply Rmult_le_pos; lra).
    assert (0 <= (b * sinh b - b ^ 2) * (N - 0)) by (apply Rmult_le_pos; lra). replace (0 ^ 3) with 0 in Eb by ring. lra. }
  assert (EC : 2 < e * cosh N) by (apply (Rmult_lt_reg_r (sinh N)); [lra|]; replace (e * cosh N * sinh N) with (2 * (N * cosh N)) by (replace (2 * (N * cosh N)) with (2 * N * cosh N) by ring; rewrite <- E; ring); lra).
  assert (A : arcsinh (2 * N / e) = N). { apply sinh_inj. rewrite sinh_arcsinh. unfold e. field. split; lra. }
  split; [split; assumption|]. split; [lra|].
  assert (O : @solve_kepler_hypb _ Num_D (mkD N 1) (konst e) (@default_tol _ Num_D) hypb_max_iter = mkD N (2 / (e * cosh N))).
  { assert (Ha : 1 < val (konst e)) by exact e1. destruct (hypb_D (mkD N 1) (konst e) Ha) as [m [Hm [O1 [_ [F _]]]]]. rewrite O1. cbn [val tang konst].
    destruct m as [|m].
    - cbn [hk]. unfold hk0. change (hx e N 0) with (hypb_guess N e). rewrite hypb_guess_arcsinh, A. apply D_eq; [reflexivity|]. cbn [tang]. field. lra.
    - exfalso. specialize (F 0%nat ltac:(lia)). cbn [val konst] in F. change (hx e N 0) with (hypb_guess N e) in F. rewrite guess_residual, A in F by exact e1.
      replace (N - N) with 0 in F by ring. rewrite Rabs_R0 in F. lra. }
  rewrite O. cbn [val tang]. split; [reflexivity|]. split.
  - exists (fun u => real (Lub_Rbar (fun x => e * sinh x - x <= u))). apply filter_forall. intro u. cbv beta.
    destruct (hypb_unique e u e1) as [x [Hx _]]. rewrite kepler_equ_hypb_R in Hx.
    rewrite (is_lub_Rbar_unique _ (Finite x)); [cbn [real]; lra|]. split.
    + intros y Hy. cbn [Rbar_le]. apply Rnot_lt_le. intros L. pose proof (hypb_lt e x y e1 L). lra.
    + intros b Hb. apply Hb. lra.
  - intros root HR. exists (1 / (e * cosh N - 1)).
    assert (RN : root N = N).
    { assert (Z : e * sinh (root N) - root N = N) by (destruct HR as [d0 HR]; apply HR, ball_center).
      destruct (Rtotal_order (root N) N) as [L|[L|L]]; [|exact L|]; pose proof (hypb_lt e _ _ e1 L); lra. }
    split; [|split; [|split]].
    + pose proof (hypb_implicit (fun u => u) (fun _ => e) root N 1 0 e1 (der_id N) (der_const e N) HR) as D. rewrite RN in D. eapply der_eq; [exact D|]. field. lra.
    + apply Rdiv_lt_0_compat; lra.
    + replace e with (2 * N / sinh N) in * by reflexivity. clear O A. field_simplify_eq; [ring|]. repeat split; lra.
    + apply (Rmult_lt_reg_r (N * cosh N)); [nra|]. replace (sinh N / (N * cosh N) * (N * cosh N)) with (sinh N) by (field; lra). lra.
Qed.
Lemma hypb_jvp_lucky_ex : let e := 2 * 1 / sinh 1 in let o := @solve_kepler_hypb _ Num_D (mkD 1 1) (konst e) (@default_tol _ Num_D) hypb_max_iter in
  val o = 1 /\ forall root : R -> R, locally 1 (fun u => e * sinh (root u) - root u = u) -> exists r : R, is_derive root 1 r /\ 0 < r /\ 6 / 5 * r <= tang o.
Proof.
  intros e o. assert (P : exp 1 * exp (- (1)) = 1) by (rewrite <- exp_plus, Rplus_opp_r; apply exp_0).
  pose proof exp_le_3. pose proof (exp_pos 1). pose proof (exp_pos (- (1))). pose proof (cosh_ge_1 1) as C1.
  assert (1 / 3 <= exp (- (1))) by nra.
  destruct (hypb_jvp_lucky 1 ltac:(lra) ltac:(unfold sinh; lra)) as [_ [_ [V [_ R1]]]]. split; [exact V|].
  intros root HR. destruct (R1 root HR) as [r [D [r0 [T _]]]]. exists r. split; [exact D|]. split; [exact r0|].
  assert (Q : sinh 1 / (1 * cosh 1) <= 4 / 5).
  { apply (Rmult_le_reg_r (cosh 1)); [lra|]. replace (sinh 1 / (1 * cosh 1) * cosh 1) with (sinh 1) by (field; lra). unfold sinh, cosh. lra. }
  unfold o, e. rewrite T. apply Rmult_le_compat_r; lra.
Qed.
