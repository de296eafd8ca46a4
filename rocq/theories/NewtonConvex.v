(** * Newton's method from the right of a root of a convex, log-concave function

    Every step divides the residual at least by the number exp 1. *)
From Coq Require Import Reals ZArith Lra.
From Coquelicot Require Import Coquelicot.
From Verif Require Import Num Spec KepEqu RLib Ana LoopFacts.
Local Open Scope R_scope.

Lemma iterate_first {A} (f : A -> A) k x : iterate f (S k) x = iterate f k (f x).
Proof. cbn [iterate]. symmetry. apply iterate_S_in. Qed.

Lemma iterate_add {A} (f : A -> A) j k x : iterate f (j + k) x = iterate f j (iterate f k x).
Proof. induction j as [|j IH]; cbn [iterate Nat.add]; congruence. Qed.

Lemma exp_1_low : 64 / 25 <= exp 1.
Proof.
  assert (A : 9 / 8 <= exp (1 / 8)) by (pose proof (exp_ineq1_le (1 / 8)); lra).
  assert (E : forall x, exp (2 * x) = exp x * exp x) by (intros; rewrite <- exp_plus; f_equal; ring).
  pose proof (E (1 / 8)) as E1. pose proof (E (1 / 4)) as E2. pose proof (E (1 / 2)) as E3.
  replace (2 * (1 / 8)) with (1 / 4) in E1 by field.
  replace (2 * (1 / 4)) with (1 / 2) in E2 by field.
  replace (2 * (1 / 2)) with 1 in E3 by field.
  assert (81 / 64 <= exp (1 / 4)) by nra. assert (6561 / 4096 <= exp (1 / 2)) by nra. nra.
Qed.
Lemma exp_nat k : exp (INR k) = exp 1 ^ k.
Proof.
  induction k as [|k IH]; [apply exp_0|]. rewrite S_INR, exp_plus, IH. simpl. ring.
Qed.
Lemma exp_m15 : exp (- 15) <= / 1000000.
Proof.
  change (- 15) with (Ropp 15). rewrite exp_Ropp. apply Rinv_le_contravar; [lra|].
  replace 15 with (INR 15) by (simpl; lra). rewrite exp_nat.
  apply Rle_trans with ((64 / 25) ^ 15); [lra|]. apply pow_incr. pose proof exp_1_low. lra.
Qed.

Lemma mvt_on (f df : R -> R) a b : a <= b ->
  (forall x, a <= x <= b -> is_derive f x (df x)) ->
  exists c, a <= c <= b /\ f b - f a = df c * (b - a).
Proof.
  intros L H. destruct (MVT_gen f a b df) as [c [Hc E]].
  - intros x Hx. rewrite Rmin_left, Rmax_right in Hx by lra. apply H. lra.
  - intros x Hx. rewrite Rmin_left, Rmax_right in Hx by lra. apply derivable_continuous_pt.
    exists (df x). apply is_derive_Reals, H. lra.
  - rewrite Rmin_left, Rmax_right in Hc by lra. eauto.
Qed.

Section Drop.
  Variables (f f1 f2 : R -> R) (H y : R).
  Hypothesis D1 : forall t : R, is_derive f t (f1 t).
  Hypothesis D2 : forall t : R, is_derive f1 t (f2 t).
  Hypothesis HL : H <= y.
  Hypothesis Hroot : f H = 0.
  Hypothesis P1 : forall t, H <= t <= y -> 0 < f1 t.
  Hypothesis P2 : forall t, H <= t <= y -> 0 <= f2 t.
  Hypothesis P3 : forall t, H <= t <= y -> f t * f2 t <= f1 t ^ 2.
  Let y' := y - f y / f1 y.

  Lemma drop_pos t : H <= t <= y -> 0 <= f t.
  Proof using D1 Hroot P1.
    intros Ht. destruct (mvt_on f f1 H t ltac:(lra) ltac:(intros; apply D1)) as [c [Hc E]].
    specialize (P1 c ltac:(lra)). rewrite Hroot in E.
    assert (0 <= f1 c * (t - H)) by (apply Rmult_le_pos; lra). lra.
  Qed.
  Lemma drop_spos t : H < t <= y -> 0 < f t.
  Proof using D1 Hroot P1.
    intros Ht. destruct (mvt_on f f1 H t ltac:(lra) ltac:(intros; apply D1)) as [c [Hc E]].
    specialize (P1 c ltac:(lra)). rewrite Hroot in E.
    assert (0 < f1 c * (t - H)) by (apply Rmult_lt_0_compat; lra). lra.
  Qed.
  Lemma drop_mono s t : H <= s -> s <= t -> t <= y -> f1 s <= f1 t.
  Proof using D2 P2.
    intros A B C. destruct (mvt_on f1 f2 s t B ltac:(intros; apply D2)) as [c [Hc E]].
    specialize (P2 c ltac:(lra)). assert (0 <= f2 c * (t - s)) by (apply Rmult_le_pos; lra). lra.
  Qed.
  Lemma drop_between : H <= y' <= y.
  Proof using D1 D2 HL Hroot P1 P2.
    pose proof (drop_pos y ltac:(lra)) as F. pose proof (P1 y ltac:(lra)) as Q.
    assert (0 <= f y / f1 y) by (apply Rdiv_le_0_compat; lra). split; [|unfold y'; lra].
    destruct (mvt_on f f1 H y HL ltac:(intros; apply D1)) as [c [Hc E]]. rewrite Hroot in E.
    pose proof (drop_mono c y ltac:(lra) ltac:(lra) ltac:(lra)) as M.
    assert (f1 c * (y - H) <= f1 y * (y - H)) by (apply Rmult_le_compat_r; lra).
    assert (f y / f1 y <= y - H); [|unfold y'; lra].
    apply (Rmult_le_reg_r (f1 y)); [exact Q|]. replace (f y / f1 y * f1 y) with (f y) by (field; lra). lra.
  Qed.
  Lemma drop_value : 0 <= f y' /\ f y' * exp 1 <= f y.
  Proof using D1 D2 HL Hroot P1 P2 P3.
    pose proof drop_between as B. pose proof (drop_pos y' B) as F0. split; [exact F0|].
    pose proof (drop_pos y ltac:(lra)) as F. pose proof (exp_pos 1) as X.
    destruct (proj1 B) as [B1|B1].
    2:{ rewrite <- B1, Hroot. lra. }
    assert (Fy : 0 < f y) by (apply drop_spos; lra).
    assert (Fy' : 0 < f y') by (apply drop_spos; lra).
    assert (Q : 0 < f1 y) by (apply P1; lra).
    (* f1/f is decreasing *)
    assert (R : forall c, y' <= c <= y -> f1 y / f y <= f1 c / f c).
    { intros c Hc.
      destruct (mvt_on (fun t => f1 t / f t) (fun t => (f2 t * f t - f1 t * f1 t) / (f t) ^ 2) c y
        ltac:(lra)) as [b [Hb E]].
      { intros t Ht. assert (0 < f t) by (apply drop_spos; lra). apply is_derive_div; [apply D2|apply D1|lra]. }
      assert (0 < f b) by (apply drop_spos; lra). specialize (P3 b ltac:(lra)).
      assert (0 < / f b ^ 2) by (apply Rinv_0_lt_compat, pow_lt; lra).
      assert ((f2 b * f b - f1 b * f1 b) / f b ^ 2 <= 0) by (unfold Rdiv; nra). nra. }
    destruct (mvt_on (fun t => ln (f t)) (fun t => f1 t / f t) y' y ltac:(lra)) as [c [Hc E]].
    { intros t Ht. assert (0 < f t) by (apply drop_spos; lra).
      eapply is_derive_ext_loc. 2:{ apply (is_derive_comp ln f); [apply is_derive_Reals, derivable_pt_lim_ln; eassumption|apply D1]. }
      apply filter_forall. reflexivity. }
    specialize (R c Hc).
    assert (S : y - y' = f y / f1 y) by (unfold y'; lra).
    assert (L : 1 <= ln (f y) - ln (f y')).
    { rewrite E, S. apply Rle_trans with (f1 y / f y * (f y / f1 y)); [right; field; lra|].
      apply Rmult_le_compat_r; [apply Rdiv_le_0_compat; lra|exact R]. }
    rewrite <- (exp_ln (f y')) at 1 by exact Fy'. rewrite <- (exp_ln (f y)) by exact Fy.
    rewrite <- exp_plus. destruct L as [L|L].
    - left. apply exp_increasing. lra.
    - right. f_equal. lra.
  Qed.
End Drop.
