(** * ElpsNine: Newton's method for Kepler's equation when every step carries an error, for e <= 9/10 (C77). *)
From Coq Require Import Reals Lra Lia Psatz ZArith.
From Flocq Require Import Core.
From Verif Require Import Num NumR Spec KepEqu RLib LoopFacts SolveFacts SolveElps.
From Verif Require AngReal.
Local Open Scope R_scope.

Definition nw (e M x : R) : R := x - (x - e * sin x - M) / (1 - e * cos x).
Definition gs (e M : R) : R := M + e * sin M + e ^ 2 * sin (2 * M) / 2.

Lemma cos_lip9 (x y : R) : Rabs (cos x - cos y) <= Rabs (x - y).
Proof.
  rewrite !cos_sin. replace (x - y) with ((PI / 2 + x) - (PI / 2 + y)) by ring. apply sin_lip.
Qed.

Lemma sqb (a h : R) : 0 <= a <= h -> a ^ 2 <= h * a.
Proof. intro H. replace (a ^ 2) with (a * a) by ring. apply Rmult_le_compat_r; lra. Qed.
Lemma sqm (a h : R) : - h <= a <= 0 -> a ^ 2 <= - h * a.
Proof. intro H. pose proof (sqb (- a) h ltac:(lra)) as Q. replace ((- a) ^ 2) with (a ^ 2) in Q by ring. lra. Qed.

Section Root.
  Variables (e M X : R).
  Hypothesis He : 0 <= e <= 9 / 10.
  Hypothesis HX : X - e * sin X = M.

  Lemma slope9 (x : R) : 1 / 10 <= 1 - e * cos x <= 19 / 10.
  Proof using He. pose proof (COS_bound x). nra. Qed.

  Lemma nw_diff (x : R) : (nw e M x - X) * (1 - e * cos x) = - (e * (sin X - sin x - (X - x) * cos x)).
  Proof using He HX. pose proof (slope9 x). unfold nw. rewrite <- HX. field. lra. Qed.

  Lemma quad9 (x : R) : Rabs (nw e M x - X) <= 9 / 2 * (x - X) ^ 2.
  Proof using He HX.
    pose proof (slope9 x) as P. pose proof (nw_diff x) as N. apply (f_equal Rabs) in N.
    pose proof (sin_taylor x (X - x)) as T. replace (x + (X - x)) with X in T by ring.
    replace ((X - x) ^ 2 / 2) with ((x - X) ^ 2 / 2) in T by field.
    rewrite Rabs_Ropp, !Rabs_mult, (Rabs_pos_eq e), (Rabs_pos_eq (1 - _)) in N by lra.
    set (S := Rabs (sin X - sin x - (X - x) * cos x)) in *. assert (S0 : 0 <= S) by apply Rabs_pos.
    pose proof (pow2_ge_0 (x - X)) as Q.
    pose proof (Rabs_pos (nw e M x - X)). nra.
  Qed.

  Lemma residual9 (x : R) : Rabs (x - e * sin x - M) <= 19 / 10 * Rabs (x - X).
  Proof using He HX.
    replace (x - e * sin x - M) with ((x - X) - e * (sin x - sin X)) by (rewrite <- HX; ring).
    apply Rle_trans with (Rabs (x - X) + Rabs (e * (sin x - sin X))).
    - unfold Rminus at 1. apply Rle_trans with (1 := Rabs_triang _ _). rewrite Rabs_Ropp. lra.
    - rewrite Rabs_mult, (Rabs_pos_eq e) by lra. pose proof (sin_lip x X). pose proof (Rabs_pos (sin x - sin X)). nra.
  Qed.

  Lemma root_near9 : Rabs (X - M) <= 9 / 10.
  Proof using He HX.
    replace (X - M) with (e * sin X) by (rewrite <- HX; ring).
    pose proof (SIN_bound X). apply Rabs_le. nra.
  Qed.

  Hypothesis HM : 0 <= M <= PI.
  Let k0 : kepler_equ_elps X e M = 0.
  Proof. rewrite kepler_equ_elps_R. lra. Qed.
  Let e1 : 0 <= e < 1.
  Proof. lra. Qed.

  Lemma nw_model (x : R) : elps_newton M e x = nw e M x.
  Proof using. rewrite elps_newton_R, kepler_equ_elps_R, dE_R. reflexivity. Qed.
  Lemma gs_model : elps_guess M e = gs e M.
  Proof using. rewrite elps_guess_R. reflexivity. Qed.

  Lemma X_in : 0 <= X <= PI.
  Proof using k0 e1 HM. exact (root_in e M X e1 HM k0). Qed.

  Lemma above9 (x : R) : 0 <= x <= PI -> X <= nw e M x.
  Proof using k0 e1 HM. intro H. rewrite <- nw_model. pose proof X_in. apply newton_above; auto; lra. Qed.

  Lemma inside9 (x : R) : 0 <= x <= PI -> X <= x -> nw e M x - X <= 2 / 3 * (x - X).
  Proof using k0 e1 HM HX He.
    intros H H1. pose proof X_in. destruct (Req_dec x 0) as [Z | Z].
    - pose proof (quad9 x) as Q. apply Rabs_le_inv in Q. replace (x - X) with 0 in Q |- * by lra. lra.
    - rewrite <- nw_model. apply newton_below; auto; lra.
  Qed.

  Lemma beyond9 (x : R) : PI <= x <= PI + 1 / 50 ->
    - (1 / 1000) <= nw e M x - X <= 238 / 1000 * (x - X) ^ 2.
  Proof using k0 e1 HM HX He.
    intro H. pose proof X_in as HX0. pose proof PI_tight as P.
    set (h := x - PI). assert (Hh : 0 <= h <= 1 / 50) by (unfold h; lra).
    assert (Ec : cos x = - cos h) by (replace x with (h + PI) by (unfold h; ring); apply neg_cos).
    assert (Es : sin x = - sin h) by (replace x with (h + PI) by (unfold h; ring); apply neg_sin).
    pose proof (cos_ge_quad h ltac:(lra)) as C1. pose proof (COS_bound h) as C2.
    assert (C3 : 9998 / 10000 <= cos h) by nra.
    pose proof (sin_le_id h ltac:(lra)) as S1.
    pose proof (nw_diff x) as N. set (A := nw e M x - X) in *.
    split.
    - pose proof (above9 PI ltac:(lra)) as AB. pose proof (nw_diff PI) as NP.
      rewrite cos_PI, sin_PI in NP.
      assert (G0 : 0 <= (nw e M PI - X) * (1 - e * -1)) by (apply Rmult_le_pos; nra).
      rewrite Ec, Es in N.
      assert (G1 : sin h - h * cos h <= h * (h ^ 2 / 2)) by nra.
      assert (G2 : (1 - cos h) * (PI - X) <= h ^ 2 / 2 * PI) by (apply Rmult_le_compat; lra).
      assert (h2 : h ^ 2 <= / 2500) by nra.
      assert (K : - (e * (sin X - - sin h - (X - x) * - cos h)) >= - (1 / 1000)).
      { replace (- (e * (sin X - - sin h - (X - x) * - cos h)))
          with ((nw e M PI - X) * (1 - e * -1) - e * ((sin h - h * cos h) + (1 - cos h) * (PI - X)))
          by (rewrite NP; unfold h; ring).
        assert (Z : (sin h - h * cos h) + (1 - cos h) * (PI - X) <= 7 / 10000) by nra.
        nra. }
      pose proof (slope9 x) as SL. rewrite Ec in SL.
      assert (B : 1 <= 1 - e * - cos h) by nra. nra.
    - pose proof (sin_taylor x (X - x)) as T. replace (x + (X - x)) with X in T by ring.
      apply Rabs_le_inv in T. set (S := sin X - sin x - (X - x) * cos x) in *.
      rewrite Ec in N. pose proof (pow2_ge_0 (x - X)) as Q.
      replace ((X - x) ^ 2) with ((x - X) ^ 2) in T by ring. set (q := (x - X) ^ 2) in *.
      assert (W : A * (1 - e * - cos h) <= e * (q / 2)) by (rewrite N; nra).
      assert (V : e * (q / 2) <= 238 / 1000 * q * (1 - e * - cos h)).
      { assert (e / 2 <= 238 / 1000 * (1 + e * cos h)) by nra. nra. }
      apply Rmult_le_reg_r with (1 - e * - cos h); [nra |]. lra.
  Qed.

  Lemma gs_M : M <= gs e M.
  Proof using HM He.
    rewrite <- gs_model, (guess_del e M). pose proof (del_nonneg e M ltac:(lra) HM). lra.
  Qed.

  Lemma start9 : let w := gs e M in 0 <= w <= PI /\ 0 <= (w - e * sin w - M) + (1 - e * cos w) * (PI - w).
  Proof using HM He.
    clear k0 HX X. cbv zeta. assert (E4 : 0 <= e <= 249 / 250) by lra.
    assert (H : 0 <= gs e M <= PI /\ (0 <= kepler_equ_elps (gs e M) e M + dE (gs e M) e * (PI - gs e M) \/ gs e M < 1 / 4)).
    { rewrite <- gs_model. destruct (Rle_dec M (PI / 2)) as [H | H].
      - destruct (start_q1 e M E4 HM H) as [A [B | [B _]]]; auto.
      - destruct (start_q2 e M E4 HM ltac:(lra)) as [A B]; auto. }
    rewrite kepler_equ_elps_R, dE_R in H. destruct H as [A B]. split; [exact A |]. destruct B as [B | B]; [exact B |].
    pose proof gs_M as G. set (w := gs e M) in *. pose proof PI_tight as P.
    pose proof (sin_le_id w ltac:(lra)) as S1. pose proof (cos_le_quart w ltac:(lra)) as C1.
    assert (w2 : 0 <= w ^ 2 <= 1 / 16) by nra. assert (w4 : w ^ 4 <= w ^ 2 / 16) by nra.
    assert (C2 : cos w <= 1 - 49 / 100 * w ^ 2) by lra.
    assert (C3 : 0 <= cos w) by (apply cos_ge_0; lra).
    assert (D1 : 1 / 10 + 44 / 100 * w ^ 2 <= 1 - e * cos w) by nra.
    assert (F1 : - (9 / 10 * w) <= w - e * sin w - M).
    { assert (e * sin w <= 9 / 10 * w) by (pose proof (sin_ge_0 w ltac:(lra) ltac:(lra)); nra). lra. }
    assert (F2 : (1 / 10 + 44 / 100 * w ^ 2) * (11 / 4) <= (1 - e * cos w) * (PI - w)) by (apply Rmult_le_compat; lra).
    pose proof (pow2_ge_0 (w - 37 / 100)). nra.
  Qed.

  (** the first step, from a guess that is wrong by at most [g] *)
  Lemma first9 (t g : R) : Rabs (t - gs e M) <= g -> g <= / 4000 ->
    - (1 / 1000) <= nw e M t - X /\ nw e M t <= PI + 70 * g.
  Proof using k0 e1 HM HX He.
    intros Ht Hg. destruct start9 as [W F]. pose proof gs_M as G. pose proof X_in as HX0. pose proof PI_tight as P.
    set (w := gs e M) in *. assert (g0 : 0 <= g) by (pose proof (Rabs_pos (t - w)); lra).
    pose proof (Rabs_le_inv _ _ Ht) as Ht'. pose proof (slope9 t) as St.
    split.
    - destruct (Rle_dec 0 t) as [T0 | T0].
      + destruct (Rle_dec t PI) as [T1 | T1].
        * pose proof (above9 t ltac:(lra)). lra.
        * pose proof (beyond9 t ltac:(lra)). lra.
      + assert (X <= 10 * g).
        { pose proof (sin_le_id X ltac:(lra)). assert (e * sin X <= 9 / 10 * X).
          { pose proof (sin_ge_0 X ltac:(lra) ltac:(lra)). nra. } lra. }
        pose proof (quad9 t) as Q. apply Rabs_le_inv in Q.
        assert ((t - X) ^ 2 <= (11 * g) ^ 2) by (replace ((t - X) ^ 2) with ((X - t) ^ 2) by ring; apply pow_incr; lra).
        assert (g ^ 2 <= / 4000 * / 4000) by nra. nra.
    - pose proof (sin_lip t w) as S1. pose proof (cos_lip9 t w) as C1.
      assert (S2 : Rabs (sin t - sin w) <= g) by lra. assert (C2 : Rabs (cos t - cos w) <= g) by lra.
      apply Rabs_le_inv in S2. apply Rabs_le_inv in C2.
      assert (A1 : - (19 / 10 * g) <= (t - w) - e * (sin t - sin w)) by nra.
      assert (A2 : - (19 / 10 * g) <= (1 - e * cos t) * (w - t)) by nra.
      assert (A3 : - (9 / 10 * g) <= - (e * (cos t - cos w))) by nra.
      assert (A4 : - (9 / 10 * g * 3.15) <= - (e * (cos t - cos w)) * (PI - w)) by nra.
      assert (A5 : - (7 * g) <= (t - e * sin t - M) + (1 - e * cos t) * (PI - t)).
      { replace ((t - e * sin t - M) + (1 - e * cos t) * (PI - t))
          with ((w - e * sin w - M) + (1 - e * cos w) * (PI - w) + ((t - w) - e * (sin t - sin w))
             + (1 - e * cos t) * (w - t) + - (e * (cos t - cos w)) * (PI - w)) by ring. lra. }
      assert (A6 : 7 * g <= (1 - e * cos t) * (70 * g)) by nra.
      unfold nw. apply Rmult_le_reg_r with (1 - e * cos t); [lra |].
      replace ((t - (t - e * sin t - M) / (1 - e * cos t)) * (1 - e * cos t))
        with (t * (1 - e * cos t) - (t - e * sin t - M)) by (field; lra).
      lra.
  Qed.

  (** later steps *)
  Lemma later9 (t : R) : - (1 / 100) <= t - X -> t <= PI + 1 / 50 ->
    - (1 / 1000) <= nw e M t - X /\ nw e M t <= PI + 17 / 1000.
  Proof using k0 e1 HM HX He.
    intros A B. pose proof X_in as HX0. pose proof PI_tight as P.
    destruct (Rle_dec X t) as [T | T].
    - destruct (Rle_dec t PI) as [U | U].
      + pose proof (above9 t ltac:(lra)). pose proof (inside9 t ltac:(lra) T). lra.
      + pose proof (beyond9 t ltac:(lra)) as Y. pose proof (sqb (t - X) (317 / 100) ltac:(lra)). lra.
    - pose proof (quad9 t) as Q. apply Rabs_le_inv in Q.
      assert ((t - X) ^ 2 <= / 10000) by nra. lra.
  Qed.
  Lemma later9_h (t h : R) : - (1 / 100) <= t - X <= h -> t <= PI + 1 / 50 -> / 1000 <= h <= 28 / 10 ->
    nw e M t - X <= 2 / 3 * h.
  Proof using k0 e1 HM HX He.
    intros A B H. pose proof X_in as HX0. pose proof PI_tight as P.
    destruct (Rle_dec X t) as [T | T].
    - destruct (Rle_dec t PI) as [U | U].
      + pose proof (inside9 t ltac:(lra) T). lra.
      + pose proof (beyond9 t ltac:(lra)) as Y. pose proof (sqb (t - X) (28 / 10) ltac:(lra)). lra.
    - pose proof (quad9 t) as Q. apply Rabs_le_inv in Q.
      assert ((t - X) ^ 2 <= / 10000) by nra. lra.
  Qed.
  Lemma later9_1 (t : R) : - (1 / 100) <= t - X -> t <= PI + 1 / 50 -> nw e M t - X <= 2399 / 1000.
  Proof using k0 e1 HM HX He.
    intros A B. pose proof X_in as HX0. pose proof PI_tight as P.
    destruct (Rle_dec X t) as [T | T].
    - destruct (Rle_dec t PI) as [U | U].
      + pose proof (inside9 t ltac:(lra) T). lra.
      + pose proof (beyond9 t ltac:(lra)) as Y. assert ((t - X) ^ 2 <= 3.1617 * 3.1617) by nra. lra.
    - pose proof (quad9 t) as Q. apply Rabs_le_inv in Q.
      assert ((t - X) ^ 2 <= / 10000) by nra. lra.
  Qed.
End Root.

(** ** Error bounds after n steps *)
Fixpoint hi (n : nat) : R := match n with O => 24 / 10 | S m => 2 / 3 * hi m + / 1000 end.
Lemma hi_range (n : nat) : 3 / 1000 <= hi n <= 24 / 10.
Proof. induction n; simpl; lra. Qed.
Lemma hi_8 : hi 8 <= / 10.
Proof. simpl. lra. Qed.

Fixpoint low (D : R) (n : nat) : R := match n with O => / 10 | S m => 9 / 2 * low D m ^ 2 + D end.

Section Bounds.
  Variable D : R.
  Hypothesis HD : 0 <= D <= / 1000.
  Lemma low_pos n : 0 <= low D n.
  Proof using HD. destruct n; simpl; [lra |]. pose proof (pow2_ge_0 (low D n)). nra. Qed.
  Lemma low_step (n : nat) (b c : R) : low D n <= b -> 9 / 2 * b ^ 2 + / 1000 <= c -> low D (S n) <= c.
  Proof using HD. intros H K. pose proof (low_pos n). simpl. simpl in K. nra. Qed.
  Lemma low_3 : low D 3 <= 16 / 10000.
  Proof using HD.
    apply low_step with (1053 / 100000); [| lra]. apply low_step with (46 / 1000); [| lra].
    apply low_step with (/ 10); [simpl; lra | lra].
  Qed.
  Lemma low_all (n : nat) : low D n <= / 10.
  Proof using HD. induction n; [simpl; lra |]. apply (low_step n (/ 10)); [exact IHn | lra]. Qed.
  Lemma low_small (n : nat) : low D (3 + n) <= 16 / 10000.
  Proof using HD. induction n; [exact low_3 |]. apply (low_step (3 + n) (16 / 10000)); [exact IHn | lra]. Qed.
  Lemma low_geo (n : nat) : low D (3 + n) <= 16 / 10000 * (72 / 10000) ^ n + 102 / 100 * D.
  Proof using HD.
    induction n.
    - pose proof low_3. simpl (_ ^ 0). change (3 + 0)%nat with 3%nat. lra.
    - pose proof (low_small n) as Sm. pose proof (low_pos (3 + n)) as P.
      change (3 + S n)%nat with (S (3 + n)). change (low D (S (3 + n))) with (9 / 2 * low D (3 + n) ^ 2 + D).
      assert (9 / 2 * low D (3 + n) ^ 2 <= 72 / 10000 * low D (3 + n)) by nra.
      assert (0 <= (72 / 10000) ^ n) by (apply pow_le; lra).
      change ((72 / 10000) ^ S n) with (72 / 10000 * (72 / 10000) ^ n). nra.
  Qed.
  Lemma low_late (n : nat) : (7 <= n)%nat -> low D n <= / 50000000000 + 11 / 10 * D.
  Proof using HD.
    intro H. replace n with (3 + (4 + (n - 7)))%nat by lia.
    apply Rle_trans with (1 := low_geo _).
    rewrite pow_add. assert (0 <= (72 / 10000) ^ (n - 7) <= 1).
    { split; [apply pow_le; lra |]. rewrite <- (pow1 (n - 7)). apply pow_incr. lra. }
    simpl ((72 / 10000) ^ 4). nra.
  Qed.

  (** what a small last step says *)
  Lemma posterior9 (a b T : R) : 0 <= a <= 10 * (T + D) -> b <= 9 / 2 * a ^ 2 + D -> a <= b + T -> 0 <= T <= 13 / 10000000 ->
    b <= / 50000000000 + 11 / 10 * D.
  Proof using HD.
    intros A B C HT.
    assert (H0 : a <= 102 / 10000) by lra.
    assert (H1 : a ^ 2 <= 102 / 10000 * a) by nra.
    assert (H4 : a <= 105 / 100 * (T + D)) by lra.
    assert (H5 : a ^ 2 <= (105 / 100 * (T + D)) ^ 2) by (apply pow_incr; lra).
    assert (H6 : (T + D) ^ 2 <= 2 * (T * T) + 2 * (D * D)) by (pose proof (pow2_ge_0 (T - D)); lra).
    assert (T * T <= 169 / 100000000000000) by nra. assert (D * D <= / 1000 * D) by nra. nra.
  Qed.
End Bounds.

(** ** The invariant of the k-th value, for mean anomalies between 0 and pi *)
Section Inv.
  Variables (e M X D : R).
  Hypothesis He : 0 <= e <= 9 / 10.
  Hypothesis HX : X - e * sin X = M.
  Hypothesis HM : 0 <= M <= PI.
  Hypothesis HD : 0 <= D <= / 1000.

  Definition Inv (k : nat) (t : R) : Prop :=
    (k = O -> Rabs (t - gs e M) <= D / 4) /\
    ((1 <= k)%nat -> - (1 / 100) <= t - X /\ t <= PI + 1 / 50) /\
    ((2 <= k)%nat -> t - X <= hi (k - 2)) /\
    ((10 <= k)%nat -> Rabs (t - X) <= low D (k - 10)).

  Lemma inv_nw (k : nat) (t : R) : Inv k t -> - (1 / 1000) <= nw e M t - X /\ nw e M t <= PI + 175 / 10000.
  Proof using He HX HM HD.
    intros [I0 [I1 _]]. destruct k as [| k].
    - specialize (I0 eq_refl). destruct (first9 e M X He HX HM t (D / 4) I0 ltac:(lra)). split; lra.
    - destruct (I1 ltac:(lia)) as [A B]. destruct (later9 e M X He HX HM t A B). split; lra.
  Qed.

  Lemma inv_step (k : nat) (t t' : R) : Inv k t -> Rabs (t' - nw e M t) <= D -> Inv (S k) t'.
  Proof using He HX HM HD.
    intros I E. destruct (inv_nw k t I) as [N1 N2]. pose proof (Rabs_le_inv _ _ E) as E'.
    destruct I as [I0 [I1 [I2 I3]]]. split; [intro; lia |]. split; [intros _; lra |].
    assert (K : (2 <= S k)%nat -> t' - X <= hi (S k - 2)).
    { intro K. destruct (I1 ltac:(lia)) as [A B]. destruct k as [| [| k]]; [lia | |].
      - pose proof (later9_1 e M X He HX HM t A B). simpl. lra.
      - specialize (I2 ltac:(lia)). replace (S (S k) - 2)%nat with k in I2 by lia.
        replace (S (S (S k)) - 2)%nat with (S k) by lia. pose proof (hi_range k) as R.
        pose proof (later9_h e M X He HX HM t (hi k) ltac:(lra) B ltac:(lra)). simpl. lra. }
    split; [exact K |]. intro K10. destruct (Nat.eq_dec k 9) as [-> | NE].
    - specialize (K ltac:(lia)). change (10 - 2)%nat with 8%nat in K. pose proof hi_8.
      replace (low D (10 - 10)) with (/ 10) by reflexivity. apply Rabs_le. lra.
    - specialize (I3 ltac:(lia)). replace (S k - 10)%nat with (S (k - 10)) by lia.
      pose proof (quad9 e M X He HX t) as Q. cbn [low].
      assert ((t - X) ^ 2 <= low D (k - 10) ^ 2).
      { rewrite <- (pow2_abs (t - X)). apply pow_incr. split; [apply Rabs_pos | exact I3]. }
      apply Rabs_le_inv in Q. apply Rabs_le. lra.
  Qed.

  Lemma inv_range (k : nat) (t : R) : Inv k t -> Rabs (t - X) <= 32 / 10 /\ Rabs (nw e M t - t) <= 32 / 10.
  Proof using He HX HM HD.
    intros I. destruct (inv_nw k t I) as [N1 N2]. pose proof (X_in e M X He HX HM) as HX0. pose proof PI_tight as P.
    destruct I as [I0 [I1 _]]. destruct k as [| k].
    - specialize (I0 eq_refl). apply Rabs_le_inv in I0. destruct (start9 e M He HM) as [W _]. split; apply Rabs_le; lra.
    - destruct (I1 ltac:(lia)) as [A B]. split; apply Rabs_le; lra.
  Qed.

  Lemma inv_stop (k : nat) (t t' T : R) : Inv k t -> Rabs (t' - nw e M t) <= D -> Rabs (t' - t) <= T -> T <= 13 / 10000000 ->
    Rabs (t' - X) <= / 50000000000 + 11 / 10 * D.
  Proof using He HX HM HD.
    intros I E ET HT. pose proof (Rabs_le_inv _ _ E) as E'. pose proof (Rabs_le_inv _ _ ET) as ET'.
    assert (T0 : 0 <= T) by (pose proof (Rabs_pos (t' - t)); lra).
    pose proof (quad9 e M X He HX t) as Q. pose proof (Rabs_le_inv _ _ Q) as Q'.
    pose proof (X_in e M X He HX HM) as HX0. pose proof PI_tight as P.
    apply (posterior9 D HD (Rabs (t - X)) (Rabs (t' - X)) T).
    - split; [apply Rabs_pos |]. destruct I as [I0 [I1 _]].
      assert (B : t <= PI + 1 / 50).
      { destruct k as [| k]; [| apply I1; lia]. specialize (I0 eq_refl). apply Rabs_le_inv in I0.
        destruct (start9 e M He HM) as [W _]. lra. }
      destruct (Rle_dec X t) as [U | U].
      + rewrite Rabs_pos_eq by lra. destruct (Rle_dec t PI) as [V | V].
        * pose proof (inside9 e M X He HX HM t ltac:(lra) U). lra.
        * pose proof (beyond9 e M X He HX HM t ltac:(lra)) as Y. pose proof (sqb (t - X) (317 / 100) ltac:(lra)). lra.
      + rewrite Rabs_left by lra. destruct (Rle_dec 0 t) as [V | V].
        * pose proof (above9 e M X He HX HM t ltac:(lra)). lra.
        * destruct k as [| k].
          -- specialize (I0 eq_refl). apply Rabs_le_inv in I0. pose proof (gs_M e M He HM) as G.
             pose proof (sin_le_id X ltac:(lra)). assert (e * sin X <= 9 / 10 * X).
             { pose proof (sin_ge_0 X ltac:(lra) ltac:(lra)). nra. } lra.
          -- destruct (I1 ltac:(lia)) as [A _]. pose proof (sqm (t - X) (/ 100) ltac:(lra)). lra.
    - rewrite pow2_abs. apply Rabs_le. lra.
    - replace (t - X) with ((t' - X) - (t' - t)) by ring. unfold Rminus at 1.
      apply Rle_trans with (1 := Rabs_triang _ _). rewrite Rabs_Ropp. lra.
    - lra.
  Qed.

  Lemma inv_late (k : nat) (t : R) : Inv k t -> (17 <= k)%nat -> Rabs (t - X) <= / 50000000000 + 11 / 10 * D.
  Proof using HD.
    intros [_ [_ [_ I]]] K. apply Rle_trans with (1 := I ltac:(lia)). apply low_late; [exact HD | lia].
  Qed.
End Inv.

(** ** Any mean anomaly is brought between 0 and pi by whole turns and a reflection *)
Definition fold (s c x : R) : R := s * (x - c).
Definition folds (s c : R) : Prop := (s = 1 \/ s = -1) /\ exists k : Z, c = 2 * PI * IZR k.

Lemma fold_ex (M : R) : exists s c, folds s c /\ 0 <= fold s c M <= PI.
Proof.
  destruct (mod_2PI M) as [k H].
  assert (c : - PI <= M - 2 * PI * IZR (- k) <= PI) by (rewrite opp_IZR; lra).
  destruct (Rle_dec 0 (M - 2 * PI * IZR (- k))) as [U | U].
  - exists 1, (2 * PI * IZR (- k)). unfold fold. split; [split; [auto | now exists (- k)%Z] | lra].
  - exists (-1), (2 * PI * IZR (- k)). unfold fold. split; [split; [auto | now exists (- k)%Z] | lra].
Qed.

Section Fold.
  Variables (s c : R).
  Hypothesis F : folds s c.

  Lemma fold_sin (x : R) : sin (fold s c x) = s * sin x.
  Proof using F.
    destruct F as [S [k ->]]. unfold fold. pose proof (proj2 (AngReal.period_Z (x - 2 * PI * IZR k) k)) as P.
    replace (x - 2 * PI * IZR k + 2 * IZR k * PI) with x in P by ring.
    destruct S as [-> | ->]; [rewrite !Rmult_1_l; symmetry; exact P |].
    replace (-1 * (x - 2 * PI * IZR k)) with (- (x - 2 * PI * IZR k)) by ring. rewrite sin_neg, <- P. ring.
  Qed.
  Lemma fold_cos (x : R) : cos (fold s c x) = cos x.
  Proof using F.
    destruct F as [S [k ->]]. unfold fold. pose proof (proj1 (AngReal.period_Z (x - 2 * PI * IZR k) k)) as P.
    replace (x - 2 * PI * IZR k + 2 * IZR k * PI) with x in P by ring.
    destruct S as [-> | ->]; [rewrite !Rmult_1_l; symmetry; exact P |].
    replace (-1 * (x - 2 * PI * IZR k)) with (- (x - 2 * PI * IZR k)) by ring. rewrite cos_neg. symmetry. exact P.
  Qed.
  Lemma fold_dist (x y : R) : Rabs (fold s c x - fold s c y) = Rabs (x - y).
  Proof using F.
    destruct F as [S _]. unfold fold. replace (s * (x - c) - s * (y - c)) with (s * (x - y)) by ring.
    rewrite Rabs_mult. destruct S as [-> | ->]; [rewrite Rabs_R1 | replace (Rabs (-1)) with 1 by (rewrite Rabs_left; lra)]; ring.
  Qed.
  Lemma fold_root (e M X : R) : X - e * sin X = M -> fold s c X - e * sin (fold s c X) = fold s c M.
  Proof using F. intros <-. rewrite fold_sin. unfold fold. ring. Qed.
  Lemma fold_nw (e M x : R) : 0 <= e <= 9 / 10 -> nw e (fold s c M) (fold s c x) = fold s c (nw e M x).
  Proof using F.
    intro He. pose proof (slope9 e He x). unfold nw. rewrite fold_sin, fold_cos. unfold fold. field. lra.
  Qed.
  Lemma fold_gs (e M : R) : gs e (fold s c M) = fold s c (gs e M).
  Proof using F.
    unfold gs. rewrite !sin_2a, fold_sin, fold_cos. unfold fold. field.
  Qed.
End Fold.

Lemma elps_follow9 (e X X' M M' : R) : 0 <= e <= 9 / 10 -> X - e * sin X = M -> X' - e * sin X' = M' -> Rabs (X' - X) <= 10 * Rabs (M' - M).
Proof.
  intros He HX HX'. pose proof (sin_lip X' X) as S. replace (M' - M) with ((X' - X) - e * (sin X' - sin X)) by lra.
  assert (K : Rabs (e * (sin X' - sin X)) <= 9 / 10 * Rabs (X' - X)).
  { rewrite Rabs_mult, (Rabs_pos_eq e) by lra. apply Rmult_le_compat; try apply Rabs_pos; lra. }
  pose proof (Rabs_triang_inv (X' - X) (e * (sin X' - sin X))). lra.
Qed.
