(** * Convergence and failure of [solve_kepler_hypb] (C27) *)
From Coq Require Import Reals ZArith Lia Lra List Bool.
From Coquelicot Require Import Coquelicot.
From Verif Require Import Num NumR Spec OrbIntegrals KepEqu RLib Ana LoopFacts KepRows SolveFacts.
Local Open Scope R_scope.

(** ** Hyperbolic functions *)
Lemma sinh_nonneg x : 0 <= x -> 0 <= sinh x.
Proof. intros H. rewrite <- sinh_0. now apply sinh_incr. Qed.
Lemma cosh_sinh_sq x : cosh x ^ 2 = 1 + sinh x ^ 2.
Proof.
  unfold cosh, sinh. assert (exp x * exp (- x) = 1) by (rewrite <- exp_plus, Rplus_opp_r; apply exp_0).
  nra.
Qed.
Lemma cosh_incr x y : 0 <= x -> x <= y -> cosh x <= cosh y.
Proof.
  intros H L. apply (der_nonneg_from cosh sinh 0); auto; [apply der_cosh|intros; now apply sinh_nonneg].
Qed.
Lemma sinh_ge_id x : 0 <= x -> x <= sinh x.
Proof.
  intros H. pose proof (der_nonneg_incr (fun t => sinh t - t) (fun t => cosh t - 1)
    ltac:(intros; apply der_minus; [apply der_sinh|apply der_id])
    ltac:(intros t; pose proof (cosh_ge_1 t); lra) 0 x H) as P.
  cbv beta in P. rewrite sinh_0 in P. lra.
Qed.
Lemma cosh_ge_quad x : 0 <= x -> 1 + x ^ 2 / 2 <= cosh x.
Proof.
  intros H. pose proof (der_nonneg_from (fun t => cosh t - t ^ 2 / 2) (fun t => sinh t - t) 0) as P.
  specialize (P ltac:(intros t; apply der_minus; [apply der_cosh|];
    eapply der_eq; [apply der_scal_r; apply (der_pow (fun s => s)), der_id|simpl; lra])
    ltac:(intros t Ht; pose proof (sinh_ge_id t Ht); lra) 0 x ltac:(lra) H).
  cbv beta in P. rewrite cosh_0 in P. lra.
Qed.
Lemma sinh_ge_cube x : 0 <= x -> x + x ^ 3 / 6 <= sinh x.
Proof.
  intros H. pose proof (der_nonneg_from (fun t => sinh t - (t + t ^ 3 / 6)) (fun t => cosh t - (1 + t ^ 2 / 2)) 0) as P.
  specialize (P ltac:(intros t; apply der_minus; [apply der_sinh|apply der_plus; [apply der_id|]];
    eapply der_eq; [apply der_scal_r; apply (der_pow (fun s => s)), der_id|simpl; lra])
    ltac:(intros t Ht; pose proof (cosh_ge_quad t Ht); lra) 0 x ltac:(lra) H).
  cbv beta in P. rewrite sinh_0 in P. lra.
Qed.
Lemma sinh_le_cosh x : 0 <= x -> sinh x <= x * cosh x.
Proof.
  intros H. destruct (mvt sinh cosh 0 x der_sinh) as [c [Hc E]].
  rewrite Rmin_left, Rmax_right in Hc by lra. rewrite sinh_0 in E.
  pose proof (cosh_incr c x ltac:(lra) ltac:(lra)). nra.
Qed.
Lemma exp_cosh_sinh x : cosh x - sinh x = exp (- x).
Proof. unfold cosh, sinh. lra. Qed.

(** A Newton step of the hyperbolic solver moves left by at most 1. *)
Lemma hypb_step_slow Nm e H : 1 <= e -> 0 <= Nm -> 0 < H -> H - 1 <= hypb_newton Nm e H.
Proof.
  intros He HN HH. rewrite hypb_newton_R.
  assert (D : 0 < dH H e).
  { rewrite dH_R. pose proof (cosh_ge_quad H ltac:(lra)). nra. }
  assert (Q : kepler_equ_hypb H e Nm / dH H e <= 1); [|lra].
  apply (Rmult_le_reg_r (dH H e)); [exact D|].
  replace (kepler_equ_hypb H e Nm / dH H e * dH H e) with (kepler_equ_hypb H e Nm) by (field; lra).
  rewrite Rmult_1_l, kepler_equ_hypb_R, dH_R.
  pose proof (exp_cosh_sinh H). pose proof (exp_ineq1_le (- H)). 
  assert (1 - H <= e * (cosh H - sinh H)).
  { rewrite H0. pose proof (exp_pos (- H)). nra. }
  nra.
Qed.

(** ** Failure: for every iteration limit there are orbits that defeat it *)
Section Bad.
  Variables nu e : R.
  Hypothesis Hnu : 0 < nu <= 3 / 100.
  Hypothesis He : 1 < e <= 1 + nu ^ 2.
  Let w := hypb_guess nu e.

  Lemma bad_sinh_w : e * sinh w = 2 * nu.
  Proof using He Hnu.
    unfold w. rewrite hypb_guess_arcsinh, sinh_arcsinh. field. lra.
  Qed.
  Lemma bad_start : 0 <= sinh w <= 2 * nu /\ 0 <= w /\ cosh w <= 1 + sinh w ^ 2 / 2 /\ 199 / 100 * nu <= w.
  Proof using He Hnu.
    pose proof He as [E1 E2]. pose proof bad_sinh_w as Sw. set (y := sinh w) in *.
    assert (Y : 0 <= y <= 2 * nu) by nra.
    assert (W0 : 0 <= w).
    { apply Rnot_lt_le. intros L. pose proof (der_pos_incr sinh cosh der_sinh
        ltac:(intros t; pose proof (cosh_ge_1 t); lra) w 0 L) as I. rewrite sinh_0 in I. fold y in I. lra. }
    assert (Wy : w <= y) by (apply sinh_ge_id; auto).
    assert (C : cosh w <= 1 + y ^ 2 / 2).
    { pose proof (cosh_sinh_sq w) as Q. fold y in Q. pose proof (cosh_ge_1 w).
      apply Rnot_lt_le. intros L. assert ((1 + y ^ 2 / 2) ^ 2 < cosh w ^ 2) by nra. nra. }
    split; [exact Y|]. split; [exact W0|]. split; [exact C|].
    assert (n2 : nu ^ 2 <= 9 / 10000) by nra.
    assert (y2 : y ^ 2 <= 36 / 10000) by nra.
    pose proof (sinh_le_cosh w W0) as Q. fold y in Q.
    assert (y <= w * (1 + 18 / 10000)).
    { apply Rle_trans with (w * cosh w); [exact Q|]. apply Rmult_le_compat_l; lra. }
    assert (2 * nu <= y * (1 + 9 / 10000)) by nra. lra.
  Qed.
  Lemma bad_residual0 : kepler_equ_hypb w e nu <= - (99 / 100 * nu).
  Proof using He Hnu. rewrite kepler_equ_hypb_R. pose proof bad_start. pose proof bad_sinh_w. lra. Qed.
  Lemma bad_first : 10 / (31 * nu) <= hypb_newton nu e w.
  Proof using He Hnu.
    pose proof He as [E1 E2]. pose proof bad_residual0 as F.
    pose proof bad_start as [Y [W0 [C Wl]]]. set (y := sinh w) in *.
    assert (y2 : y ^ 2 <= 4 * nu ^ 2) by nra.
    assert (D : 0 < dH w e <= 301 / 100 * nu ^ 2).
    { rewrite dH_R. pose proof (cosh_ge_1 w). split; [nra|].
      assert (e * cosh w <= (1 + nu ^ 2) * (1 + 2 * nu ^ 2)) by (apply Rmult_le_compat; lra).
      assert (nu ^ 2 <= 9 / 10000) by nra. nra. }
    rewrite hypb_newton_R.
    assert (Q : 10 / (31 * nu) <= - (kepler_equ_hypb w e nu / dH w e)); [|lra].
    apply (Rmult_le_reg_r (dH w e)); [lra|].
    replace (- (kepler_equ_hypb w e nu / dH w e) * dH w e) with (- kepler_equ_hypb w e nu) by (field; lra).
    apply Rle_trans with (10 / (31 * nu) * (301 / 100 * nu ^ 2)).
    - apply Rmult_le_compat_l; [|lra]. apply Rlt_le, Rdiv_lt_0_compat; lra.
    - replace (10 / (31 * nu) * (301 / 100 * nu ^ 2)) with (301 / 310 * nu) by (field; lra). lra.
  Qed.
  Lemma bad_later k : INR k < 10 / (31 * nu) ->
    10 / (31 * nu) - INR k <= iterate (hypb_newton nu e) (S k) w.
  Proof using He Hnu.
    pose proof He. induction k as [|k IH]; intros L.
    - cbn [iterate]. simpl INR. pose proof bad_first. lra.
    - rewrite S_INR in L |- *. specialize (IH ltac:(lra)).
      change (iterate (hypb_newton nu e) (S (S k)) w) with (hypb_newton nu e (iterate (hypb_newton nu e) (S k) w)).
      pose proof (hypb_step_slow nu e (iterate (hypb_newton nu e) (S k) w) ltac:(lra) ltac:(lra) ltac:(lra)). lra.
  Qed.
End Bad.

Lemma hypb_far_residual Nm e H : 1 <= e -> 0 <= Nm <= 1 -> 10 <= H -> 100 < kepler_equ_hypb H e Nm.
Proof.
  intros He HN HH. rewrite kepler_equ_hypb_R. pose proof (sinh_ge_cube H ltac:(lra)) as C.
  assert (H ^ 2 >= 100) by nra. assert (1000 <= H ^ 3) by nra.
  assert (H + 1000 / 6 <= sinh H) by lra. nra.
Qed.

Lemma hypb_bad_residual (tol : R) (mi : Z) : 0 <= tol -> (1 <= mi)%Z -> tol * (7 * (IZR mi + 10)) <= 1 ->
  let Nm := 10 / (31 * (IZR mi + 10)) in
  forall e, 1 < e <= 1 + Nm ^ 2 ->
  (exists prev, hypb_run Nm e tol mi = Some (mi, solve_kepler_hypb Nm e tol mi, prev)) /\
  100 < kepler_equ_hypb (solve_kepler_hypb Nm e tol mi) e Nm.
Proof.
  intros Ht Hm Hb Nm e He. apply IZR_le in Hm as Hm'.
  assert (HN : 0 < Nm <= 3 / 100).
  { unfold Nm. split; [apply Rdiv_lt_0_compat; lra|].
    apply (Rmult_le_reg_r (31 * (IZR mi + 10))); [lra|].
    replace (10 / (31 * (IZR mi + 10)) * (31 * (IZR mi + 10))) with 10 by (field; lra). lra. }
  assert (HQ : 10 / (31 * Nm) = IZR mi + 10) by (unfold Nm; field; lra).
  assert (HT : tol <= Nm / 2).
  { apply (Rmult_le_reg_r (7 * (IZR mi + 10))); [lra|].
    replace (Nm / 2 * (7 * (IZR mi + 10))) with (35 / 31) by (unfold Nm; field; lra). lra. }
  assert (Far : forall k, (k < Z.to_nat mi)%nat ->
    100 < kepler_equ_hypb (iterate (hypb_newton Nm e) (S k) (hypb_guess Nm e)) e Nm).
  { intros k Hk.
    assert (K : INR k <= IZR mi).
    { rewrite INR_IZR_INZ. apply IZR_le. lia. }
    pose proof (bad_later Nm e HN He k ltac:(lra)) as L.
    apply hypb_far_residual; lra. }
  destruct (hypb_run_char Nm e tol mi) as [k [Hk [Hr [_ Hx]]]]. cbv zeta in *.
  assert (S : solve_kepler_hypb Nm e tol mi = iterate (hypb_newton Nm e) k (hypb_guess Nm e))
    by (unfold solve_kepler_hypb; now rewrite Hr).
  assert (k = Z.to_nat mi) as ->.
  { destruct Hx as [Hx|Hx]; auto. exfalso. apply exceeds_R_false in Hx. destruct k as [|k].
    - cbn [iterate] in Hx.
      assert (F : kepler_equ_hypb (hypb_guess Nm e) e Nm <= - (99 / 100 * Nm)) by exact (bad_residual0 Nm e HN He).
      pose proof (Rle_abs (- kepler_equ_hypb (hypb_guess Nm e) e Nm)) as A. rewrite Rabs_Ropp in A. lra.
    - specialize (Far k ltac:(lia)).
      pose proof (Rle_abs (kepler_equ_hypb (iterate (hypb_newton Nm e) (Datatypes.S k) (hypb_guess Nm e)) e Nm)).
      assert (tol <= 1) by lra. lra. }
  rewrite S. split.
  - eexists. rewrite Z2Nat.id in Hr by lia. exact Hr.
  - destruct (Z.to_nat mi) as [|k] eqn:Ek; [lia|]. apply Far. lia.
Qed.

(** ** Convergence when [e >= 2] or [N >= 8] *)
Lemma hypb_residual_incr e Nm x y : 1 < e -> x < y -> kepler_equ_hypb x e Nm < kepler_equ_hypb y e Nm.
Proof.
  intros He L. apply (der_pos_incr (fun t => kepler_equ_hypb t e Nm) (fun t => dH t e)); auto.
  - intros; apply hypb_deriv.
  - intros t. pose proof (dH_lower t e ltac:(lra)). lra.
Qed.

Section Good.
  Variables (Nm e H : R).
  Hypothesis He : 1 < e.
  Hypothesis HN : 0 <= Nm.
  Hypothesis Hroot : kepler_equ_hypb H e Nm = 0.
  Hypothesis Hstart : 0 <= kepler_equ_hypb (hypb_guess Nm e) e Nm.
  Hypothesis Hratio : forall x, H <= x -> e * sinh x <= 8 / 5 * dH x e.
  Let x k := iterate (hypb_newton Nm e) k (hypb_guess Nm e).

  Lemma good_root_nonneg : 0 <= H.
  Proof.
    apply Rnot_lt_le. intros L. pose proof (hypb_residual_incr e Nm H 0 He L) as I.
    rewrite Hroot in I. rewrite kepler_equ_hypb_R, sinh_0 in I. lra.
  Qed.
  Lemma good_right y : 0 <= kepler_equ_hypb y e Nm -> H <= y.
  Proof.
    intros P. apply Rnot_lt_le. intros L. pose proof (hypb_residual_incr e Nm y H He L). lra.
  Qed.
  Lemma good_dpos y : 0 < dH y e.
  Proof. pose proof (dH_lower y e ltac:(lra)). lra. Qed.

  (** Convexity: the step stays right of the root; the error is squared. *)
  Lemma good_step y : H <= y ->
    H <= hypb_newton Nm e y <= y /\ hypb_newton Nm e y - H <= 4 / 5 * (y - H) ^ 2.
  Proof.
    intros L. pose proof good_root_nonneg as R0. pose proof (good_dpos y) as D.
    assert (N : (hypb_newton Nm e y - H) * dH y e = (y - H) * dH y e - kepler_equ_hypb y e Nm)
      by (rewrite hypb_newton_R; field; lra).
    destruct (mvt (fun t => kepler_equ_hypb t e Nm) (fun t => dH t e) H y
      ltac:(intros; apply hypb_deriv)) as [c [Hc Ec]]. cbv beta in Ec. rewrite Hroot in Ec.
    rewrite Rmin_left, Rmax_right in Hc by lra.
    assert (C : dH c e <= dH y e). { rewrite !dH_R. pose proof (cosh_incr c y ltac:(lra) ltac:(lra)). nra. }
    assert (C0 : dH y e - dH c e <= e * sinh y * (y - H)).
    { rewrite !dH_R. destruct (mvt cosh sinh c y der_cosh) as [b [Hb Eb]].
      rewrite Rmin_left, Rmax_right in Hb by lra.
      pose proof (sinh_incr b y ltac:(lra)). pose proof (sinh_nonneg b ltac:(lra)).
      assert (sinh b * (y - c) <= sinh y * (y - H)) by (apply Rmult_le_compat; lra). nra. }
    pose proof (good_dpos c) as Dc.
    assert (F0 : 0 <= kepler_equ_hypb y e Nm) by nra.
    split; [split|].
    - apply Rnot_lt_le. intros B. nra.
    - rewrite hypb_newton_R. assert (0 <= kepler_equ_hypb y e Nm / dH y e).
      { apply Rmult_le_pos; [lra|]. apply Rlt_le, Rinv_0_lt_compat, D. }
      lra.
    - (* sharper: f(y) >= (y-H) f'(y) - e sinh y (y-H)^2/2 *)
      pose proof (mvt (fun t => kepler_equ_hypb t e Nm - (dH y e * (t - y) + e * sinh y * ((t - y) ^ 2 / 2)))
        (fun t => dH t e - (dH y e + e * sinh y * (t - y))) H y) as V.
      destruct V as [b [Hb Eb]].
      { intros t. apply der_minus; [apply hypb_deriv|]. apply der_plus.
        - eapply der_eq. apply der_scal. apply der_minus; [apply der_id|apply der_const]. ring.
        - apply der_scal. eapply der_eq. apply der_scal_r. apply (der_pow (fun u => u - y)).
          apply der_minus; [apply der_id|apply der_const]. simpl. field. }
      cbv beta in Eb. rewrite Hroot in Eb. rewrite Rmin_left, Rmax_right in Hb by lra.
      assert (G : 0 <= dH b e - (dH y e + e * sinh y * (b - y))).
      { rewrite !dH_R. destruct (mvt cosh sinh b y der_cosh) as [a [Ha Ea]].
        rewrite Rmin_left, Rmax_right in Ha by lra.
        pose proof (sinh_incr a y ltac:(lra)).
        assert (sinh a * (y - b) <= sinh y * (y - b)) by (apply Rmult_le_compat_r; lra). nra. }
      assert (W : 0 <= (dH b e - (dH y e + e * sinh y * (b - y))) * (y - H)) by (apply Rmult_le_pos; lra).
      rewrite <- Eb in W. replace (y - y) with 0 in W by ring.
      assert (U : (hypb_newton Nm e y - H) * dH y e <= e * sinh y * ((y - H) ^ 2 / 2)).
      { rewrite N. replace ((H - y) ^ 2) with ((y - H) ^ 2) in W by ring. nra. }
      specialize (Hratio y L). assert (0 <= (y - H) ^ 2) by apply pow2_ge_0.
      apply (Rmult_le_reg_r (dH y e)); [exact D|]. nra.
  Qed.

  Lemma good_first : x 0 - H <= 1.
  Proof.
    pose proof good_root_nonneg as R0. pose proof (good_right _ Hstart) as L. unfold x. cbn [iterate].
    set (w := hypb_guess Nm e) in *.
    assert (Sw : e * sinh w = 2 * Nm) by (unfold w; rewrite hypb_guess_arcsinh, sinh_arcsinh; field; lra).
    assert (SH : e * sinh H = Nm + H) by (rewrite kepler_equ_hypb_R in Hroot; lra).
    destruct (Req_dec Nm 0) as [Z|Z].
    { assert (w <= 0); [|lra]. apply Rnot_lt_le. intros P. 
      pose proof (sinh_ge_id w ltac:(lra)). nra. }
    destruct (mvt sinh cosh H w der_sinh) as [c [Hc Ec]].
    rewrite Rmin_left, Rmax_right in Hc by lra.
    pose proof (cosh_incr H c ltac:(lra) ltac:(lra)).
    assert (sinh H <= cosh H). { pose proof (exp_cosh_sinh H). pose proof (exp_pos (- H)). lra. }
    assert (A : e * (cosh c * (w - H)) = Nm - H) by (rewrite <- Ec; lra).
    assert (B : sinh H * (w - H) <= cosh c * (w - H)) by (apply Rmult_le_compat_r; lra).
    assert ((Nm + H) * (w - H) <= (Nm + H) * 1); [|apply (Rmult_le_reg_l (Nm + H)); lra].
    rewrite <- SH at 1. nra.
  Qed.
  Lemma good_seq k : H <= x k <= x 0.
  Proof.
    induction k as [|k IH].
    - pose proof (good_right _ Hstart). unfold x. cbn [iterate]. lra.
    - change (x (S k)) with (hypb_newton Nm e (x k)). pose proof (good_step (x k) ltac:(lra)). lra.
  Qed.
  (** [4/5 * error] after [k] steps is at most [(4/5)^(2^k)]. *)
  Lemma good_rate k : 4 / 5 * (x k - H) <= (4 / 5) ^ (2 ^ k).
  Proof.
    induction k as [|k IH].
    - pose proof good_first. simpl. lra.
    - change (x (S k)) with (hypb_newton Nm e (x k)). pose proof (good_seq k).
      pose proof (good_step (x k) ltac:(lra)) as [_ S].
      replace (2 ^ Datatypes.S k)%nat with (2 ^ k * 2)%nat by (simpl; lia).
      rewrite pow_mult.
      assert ((4 / 5 * (x k - H)) ^ 2 <= ((4 / 5) ^ (2 ^ k)) ^ 2) by (apply pow_incr; lra).
      nra.
  Qed.
  Lemma good_residual k : 0 <= kepler_equ_hypb (x k) e Nm <= (e + 2 * Nm) * (x k - H).
  Proof.
    pose proof (good_seq k) as [A B]. pose proof good_root_nonneg as R0.
    destruct (mvt (fun t => kepler_equ_hypb t e Nm) (fun t => dH t e) H (x k)
      ltac:(intros; apply hypb_deriv)) as [c [Hc Ec]]. cbv beta in Ec. rewrite Hroot, Rminus_0_r in Ec.
    rewrite Rmin_left, Rmax_right in Hc by lra. pose proof (good_dpos c) as D.
    rewrite Ec. split; [apply Rmult_le_pos; lra|]. apply Rmult_le_compat_r; [lra|].
    pose proof (cosh_incr c (x 0) ltac:(lra) ltac:(lra)) as C. rewrite dH_R.
    change (x 0) with (hypb_guess Nm e) in C. set (w := hypb_guess Nm e) in *.
    assert (Sw : e * sinh w = 2 * Nm) by (unfold w; rewrite hypb_guess_arcsinh, sinh_arcsinh; field; lra).
    assert (cosh w <= 1 + sinh w).
    { pose proof (cosh_sinh_sq w). assert (0 <= sinh w) by nra. pose proof (cosh_ge_1 w).
      apply Rnot_lt_le. intros L. nra. }
    nra.
  Qed.
End Good.

Lemma ratio_big_e e x : 2 <= e -> e * sinh x <= 8 / 5 * dH x e.
Proof.
  intros He. rewrite dH_R.
  assert (A : 1 <= 8 / 5 * cosh x - sinh x).
  { unfold cosh, sinh. assert (P : exp x * exp (- x) = 1) by (rewrite <- exp_plus, Rplus_opp_r; apply exp_0).
    pose proof (exp_pos x). pose proof (exp_pos (- x)). set (a := exp x) in *. set (b := exp (- x)) in *.
    assert (0 <= (3 * a - 13 * b) ^ 2) by apply pow2_ge_0.
    assert ((3 * a + 13 * b) ^ 2 >= 156) by nra. nra. }
  nra.
Qed.
Lemma exp_2_bounds : 5 <= exp 2 <= 9.
Proof.
  assert (E : exp 2 = exp 1 * exp 1) by (rewrite <- exp_plus; f_equal; ring).
  assert (E1 : exp 1 = exp (1 / 2) * exp (1 / 2)) by (rewrite <- exp_plus; f_equal; field).
  pose proof (exp_ineq1_le (1 / 2)). pose proof exp_le_3. pose proof (exp_pos 1).
  assert (9 / 4 <= exp 1) by nra. nra.
Qed.
Lemma ratio_far e x : 1 < e -> 2 <= x -> e * sinh x <= 8 / 5 * dH x e.
Proof.
  intros He Hx. rewrite dH_R.
  assert (A : 8 / 5 <= 8 / 5 * cosh x - sinh x).
  { unfold cosh, sinh. pose proof (exp_pos (- x)).
    assert (exp 2 <= exp x). { destruct Hx as [Hx| <-]; [left; now apply exp_increasing|lra]. }
    pose proof exp_2_bounds.
    assert (P : exp x * exp (- x) = 1) by (rewrite <- exp_plus, Rplus_opp_r; apply exp_0).
    set (a := exp x) in *. set (b := exp (- x)) in *.
    assert (0 <= (a - 5) * (3 * a - 1)) by nra. 
    assert (16 * a <= 3 * (a * a) + 13) by nra.
    assert (16 * (a * b) <= 3 * (a * a * b) + 13 * b) by nra.
    replace (a * a * b) with a in * by nra. rewrite P in *. nra. }
  nra.
Qed.
Lemma root_far e Nm H : 1 < e -> e < 2 -> 8 <= Nm -> kepler_equ_hypb H e Nm = 0 -> 2 <= H.
Proof.
  intros He He2 HN HR. apply Rnot_lt_le. intros L.
  pose proof (hypb_residual_incr e Nm H 2 He L) as I. rewrite HR, kepler_equ_hypb_R in I.
  assert (sinh 2 <= 9 / 2).
  { unfold sinh. pose proof exp_2_bounds. pose proof (exp_pos (Ropp 2)). lra. }
  pose proof (sinh_nonneg 2 ltac:(lra)). nra.
Qed.
Lemma start_right e Nm : 1 < e -> 0 <= Nm -> 2 <= e \/ 8 <= Nm -> 0 <= kepler_equ_hypb (hypb_guess Nm e) e Nm.
Proof.
  intros He HN HC. set (w := hypb_guess Nm e).
  assert (Sw : e * sinh w = 2 * Nm) by (unfold w; rewrite hypb_guess_arcsinh, sinh_arcsinh; field; lra).
  rewrite kepler_equ_hypb_R, Sw. assert (w <= Nm); [|lra].
  apply Rnot_lt_le. intros L.
  pose proof (sinh_incr Nm w ltac:(lra)) as I.
  destruct HC as [HC|HC].
  - pose proof (sinh_ge_id w ltac:(lra)). nra.
  - pose proof (sinh_ge_cube Nm HN). assert (64 <= Nm ^ 2) by nra. assert (Nm ^ 3 >= 64 * Nm) by nra. nra.
Qed.

Lemma pow45_13 : (4 / 5) ^ (2 ^ 13) <= / 10 ^ 512.
Proof.
  assert (A : (4 / 5) ^ 4 <= 1 / 2) by (simpl; lra).
  assert (B : (1 / 2) ^ 16 <= / 10 ^ 4) by (simpl; lra).
  replace (2 ^ 13)%nat with (4 * (16 * 128))%nat by reflexivity.
  rewrite pow_mult.
  apply Rle_trans with ((1 / 2) ^ (16 * 128)).
  { apply pow_incr. split; [|exact A]. simpl. lra. }
  rewrite pow_mult. apply Rle_trans with ((/ 10 ^ 4) ^ 128).
  { apply pow_incr. split; [|exact B]. apply pow_le. lra. }
  right. rewrite pow_inv, <- pow_mult. f_equal.
Qed.

Lemma hypb_good_pos Nm e : 1 < e -> 0 <= Nm -> 2 <= e \/ 8 <= Nm -> e + 2 * Nm <= 10 ^ 308 ->
  exists i prev, hypb_run Nm e default_tol hypb_max_iter
      = Some (i, solve_kepler_hypb Nm e default_tol hypb_max_iter, prev) /\ (i <= 13)%Z /\
    Rabs (kepler_equ_hypb (solve_kepler_hypb Nm e default_tol hypb_max_iter) e Nm) <= / 1000000.
Proof.
  intros He HN HC HB. destruct (hypb_unique e Nm He) as [H [HR _]].
  assert (Hs := start_right e Nm He HN HC).
  assert (Hq : forall x, H <= x -> e * sinh x <= 8 / 5 * dH x e).
  { intros x Hx. destruct (Rle_dec 2 e) as [E2|E2]; [now apply ratio_big_e|].
    apply ratio_far; auto. destruct HC as [HC|HC]; [lra|].
    pose proof (root_far e Nm H He ltac:(lra) HC HR). lra. }
  destruct (hypb_run_char Nm e default_tol hypb_max_iter) as [k [Hk [Hr [Hj Hx]]]]. cbv zeta in *.
  assert (S : solve_kepler_hypb Nm e default_tol hypb_max_iter = iterate (hypb_newton Nm e) k (hypb_guess Nm e))
    by (unfold solve_kepler_hypb; now rewrite Hr).
  assert (R13 : Rabs (kepler_equ_hypb (iterate (hypb_newton Nm e) 13 (hypb_guess Nm e)) e Nm) <= default_tol).
  { pose proof (good_residual Nm e H He HN HR Hs Hq 13) as [G1 G2].
    pose proof (good_rate Nm e H He HN HR Hs Hq 13) as G3.
    pose proof (good_seq Nm e H He HN HR Hs Hq 13) as [G4 _].
    cbv beta in *. remember (iterate (hypb_newton Nm e) 13 (hypb_guess Nm e)) as x eqn:Ex. clear Ex.
    rewrite Rabs_pos_eq by exact G1. rewrite default_tol_R.
    pose proof pow45_13 as P.
    assert (G5 : x - H <= 2 * / 10 ^ 512) by lra.
    assert (T : / 10 ^ 512 = / 10 ^ 308 * (/ 10 ^ 7 * / 10 ^ 197)).
    { rewrite <- !Rinv_mult, <- !pow_add. f_equal. }
    assert (T1 : 0 < 10 ^ 308) by (apply pow_lt; lra).
    assert (T2 : / 10 ^ 197 <= 1).
    { apply Rle_trans with (/ 1); [|right; apply Rinv_1]. apply Rinv_le_contravar; [lra|]. apply pow_R1_Rle. lra. }
    assert (T3 : 0 < / 10 ^ 197) by (apply Rinv_0_lt_compat, pow_lt; lra).
    eapply Rle_trans; [exact G2|].
    apply Rle_trans with (10 ^ 308 * (2 * / 10 ^ 512)).
    { apply Rmult_le_compat; lra. }
    rewrite T. assert (T4 : 10 ^ 308 * / 10 ^ 308 = 1) by (apply Rinv_r; lra).
    assert (T7 : / 10 ^ 7 = / 10000000) by (f_equal; simpl; lra). rewrite T7.
    set (u := 10 ^ 308) in *. set (ui := / u) in *. set (z := / 10 ^ 197) in *. clearbody ui u z.
    replace (u * (2 * (ui * (/ 10000000 * z)))) with (u * ui * (2 * / 10000000 * z)) by ring.
    rewrite T4. lra. }
  assert (K : (k <= 13)%nat).
  { apply Nat.nlt_ge. intros L. specialize (Hj 13%nat L). apply exceeds_R in Hj. lra. }
  exists (Z.of_nat k). eexists. split; [rewrite S; exact Hr|]. split; [lia|].
  rewrite S. destruct Hx as [Hx|Hx].
  - change (Z.to_nat hypb_max_iter) with 50%nat in Hx. lia.
  - apply exceeds_R_false in Hx. now rewrite default_tol_R in Hx.
Qed.
Lemma hypb_good Nm e : 1 < e -> 2 <= e \/ 8 <= Rabs Nm -> e + 2 * Rabs Nm <= 10 ^ 308 ->
    Rabs (kepler_equ_hypb (solve_kepler_hypb Nm e default_tol hypb_max_iter) e Nm) <= / 1000000.
Proof.
  intros He HC HB. destruct (Rle_dec 0 Nm) as [P|P].
  - rewrite Rabs_pos_eq in HC, HB by lra.
    destruct (hypb_good_pos Nm e He P HC HB) as [i [pr [_ [_ B]]]]. exact B.
  - rewrite Rabs_left in HC, HB by lra.
    destruct (hypb_good_pos (- Nm) e He ltac:(lra) HC HB) as [i [pr [_ [_ B]]]].
    rewrite solve_hypb_neg, hypb_equ_neg, Rabs_Ropp in B. exact B.
Qed.
