(** * B32Nine: the elliptic Kepler solver in single precision solves Kepler's equation up to e = 9/10 (C77). *)
From Coq Require Import ZArith Reals Lra Lia Psatz Bool List.
From Flocq Require Import Core IEEE754.BinarySingleNaN.
From Verif Require Import Num NumR NumB32 Spec KepEqu LoopFacts RLib SolveFacts ElpsNine B32Lib B32Facts B32Acc B32Rel B32Examples2.
From Verif Require Import B32Newton (un, op_add, op_sub, op_mul, op_div, const_val, exact_libm32_trig).
Local Open Scope R_scope.

Ltac near := repeat match goal with H : Rabs _ <= _ |- _ => apply Rabs_le_inv in H end; apply Rabs_le; lra.

Section Solver.
  Variable L : libm.
  Variables M e : b32.
  Variables (delta X : R).
  Hypotheses (FM : is_finite M = true) (Fe : is_finite e = true) (He : 0 <= B2R e <= 9 / 10).
  Let m := Rabs (B2R M).
  Hypothesis Hm : m <= 60.
  Let D := 44 * delta + (13 * m + 260) * eps.
  Hypothesis Hd : 0 <= delta.
  Hypothesis HD : D <= / 1000.
  Hypothesis Hsin : forall x, is_finite x = true -> Rabs (B2R x) <= 2 * m + 5 ->
    is_finite (m_sin L x) = true /\ Rabs (B2R (m_sin L x) - sin (B2R x)) <= delta.
  Hypothesis Hcos : forall x, is_finite x = true -> Rabs (B2R x) <= m + 5 ->
    is_finite (m_cos L x) = true /\ Rabs (B2R (m_cos L x) - cos (B2R x)) <= delta.
  Hypothesis HX : X - B2R e * sin X = B2R M.
  Local Instance NB : Num b32 := Num_B32 L.

  Lemma sizes : 0 <= m <= 60 /\ 0 < un /\ un * (m + 20) <= / 12000 /\ delta <= / 44000 /\ 0 <= D /\ un <= / 100000.
  Proof using Hd HD Hm.
    assert (0 <= m) by apply Rabs_pos.
    assert (0 < eps) by (unfold eps; lra).
    assert (eps <= / 16000000) by (unfold eps; lra).
    assert (eps * m <= / 16000000 * 60) by (apply Rmult_le_compat; lra).
    unfold un, D in *. repeat split; nra.
  Qed.

  Lemma step_close (x : b32) : is_finite x = true -> Rabs (B2R x - X) <= 32 / 10 -> Rabs (nw (B2R e) (B2R M) (B2R x) - B2R x) <= 32 / 10 ->
    is_finite (elps_newton M e x) = true /\
    Rabs (B2R (elps_newton M e x) - nw (B2R e) (B2R M) (B2R x)) <= D.
  Proof using FM Fe He Hm Hd HD Hsin Hcos HX.
    intros Fx Ex Ew. destruct sizes as [S0 [S1 [S2 [S3 [S4 S5]]]]].
    assert (Mm : - m <= B2R M <= m) by (unfold m; apply Rabs_le_inv; lra).
    pose proof (root_near9 (B2R e) (B2R M) X He HX) as RN. apply Rabs_le_inv in RN.
    pose proof (residual9 (B2R e) (B2R M) X He HX (B2R x)) as RE.
    assert (Bx : Rabs (B2R x) <= m + 41 / 10) by near.
    set (v := B2R x) in *. set (ee := B2R e) in *. set (mm := B2R M) in *.
    destruct (Hsin x Fx) as [Fs Es]; [fold v; lra |]. destruct (Hcos x Fx) as [Fc Ec]; [fold v; lra |]. fold v in Es, Ec.
    pose proof (SIN_bound v) as Sb. pose proof (COS_bound v) as Cb.
    set (s := m_sin L x) in *. set (c := m_cos L x) in *.
    assert (Es' : Rabs (ee * B2R s - ee * sin v) <= delta).
    { replace (ee * B2R s - ee * sin v) with (ee * (B2R s - sin v)) by ring.
      rewrite Rabs_mult, Rabs_pos_eq by lra. pose proof (Rabs_pos (B2R s - sin v)). nra. }
    assert (Ec' : Rabs (ee * B2R c - ee * cos v) <= delta).
    { replace (ee * B2R c - ee * cos v) with (ee * (B2R c - cos v)) by ring.
      rewrite Rabs_mult, Rabs_pos_eq by lra. pose proof (Rabs_pos (B2R c - cos v)). nra. }
    assert (es1 : - (9 / 10) <= ee * sin v <= 9 / 10) by nra.
    assert (ec1 : - (9 / 10) <= ee * cos v <= 9 / 10) by nra.
    (* e * sin x *)
    destruct (op_mul e s Fe Fs 1 ltac:(lra)) as [F1 E1]; [fold ee; near |]. fold ee in E1.
    (* x - e sin x *)
    destruct (op_sub x (b32_mul e s) Fx F1 (m + 6) ltac:(lra)) as [F2 E2]; [fold v; near |]. fold v in E2.
    (* ... - M *)
    set (f := v - ee * sin v - mm) in *.
    assert (Bf : Rabs f <= 19 / 10 * (32 / 10)) by lra.
    assert (um : 0 <= un * m) by (apply Rmult_le_pos; lra).
    destruct (op_sub (b32_sub x (b32_mul e s)) M F2 FM 7 ltac:(lra)) as [F3 E3]; [unfold f in Bf; fold mm; near |]. fold mm in E3.
    set (ff := b32_sub (b32_sub x (b32_mul e s)) M) in *.
    assert (E3' : Rabs (B2R ff - f) <= delta + un * (m + 14)) by (unfold f; near).
    (* the derivative *)
    destruct (op_mul e c Fe Fc 1 ltac:(lra)) as [F4 E4]; [fold ee; near |]. fold ee in E4.
    destruct (const_val 1 ltac:(lia)) as [V1 G1].
    destruct (op_sub (b32_Z 1) (b32_mul e c) G1 F4 2 ltac:(lra)) as [F5 E5]; [rewrite V1; near |]. rewrite V1 in E5.
    set (dd := b32_sub (b32_Z 1) (b32_mul e c)) in *.
    set (d := 1 - ee * cos v) in *.
    assert (E5' : Rabs (B2R dd - d) <= delta + un * 3) by (unfold d; near).
    assert (d1 : 1 / 10 <= d <= 19 / 10) by (unfold d; lra).
    assert (d2 : 5 / 51 <= B2R dd) by (apply Rabs_le_inv in E5'; lra).
    (* the quotient *)
    assert (Bq : Rabs (f / d) <= 32 / 10).
    { unfold nw in Ew. fold f d in Ew. rewrite Rabs_minus_sym in Ew. replace (v - (v - f / d)) with (f / d) in Ew by ring. exact Ew. }
    assert (Q : Rabs (B2R ff / B2R dd - f / d) <= 102 / 10 * (delta + un * (m + 14)) + 33 * (delta + un * 3)).
    { replace (B2R ff / B2R dd - f / d) with ((B2R ff - f) * / B2R dd + f / d * (d - B2R dd) * / B2R dd) by (field; lra).
      assert (I1 : 0 < / B2R dd <= 102 / 10).
      { split; [apply Rinv_0_lt_compat; lra |]. replace (102 / 10) with (/ (5 / 51)) by field. apply Rinv_le_contravar; lra. }
      apply Rle_trans with (1 := Rabs_triang _ _).
      rewrite !Rabs_mult, (Rabs_pos_eq (/ B2R dd)) by lra.
      rewrite (Rabs_minus_sym d). pose proof (Rabs_pos (B2R ff - f)). pose proof (Rabs_pos (f / d)). pose proof (Rabs_pos (B2R dd - d)).
      apply Rplus_le_compat.
      - rewrite (Rmult_comm (102 / 10)). apply Rmult_le_compat; lra.
      - apply Rle_trans with (32 / 10 * (delta + un * 3) * (102 / 10)); [| lra].
        apply Rmult_le_compat; [| lra | | lra].
        + apply Rmult_le_pos; lra.
        + apply Rmult_le_compat; lra. }
    destruct (op_div ff dd F3 4 ltac:(lra) ltac:(lra)) as [F6 E6]; [near |].
    set (q := b32_div ff dd) in *.
    (* the new value *)
    destruct (op_sub x q Fx F6 (m + 8) ltac:(lra)) as [F7 E7]; [fold v; near |]. fold v in E7.
    change (elps_newton M e x) with (b32_sub x q).
    split; [exact F7 |].
    assert (T : 102 / 10 * (delta + un * (m + 14)) + 33 * (delta + un * 3) + un * 4 + un * (m + 8) <= D).
    { unfold D, un. assert (0 <= eps) by (unfold eps; lra). nra. }
    apply Rabs_le_inv in Q. apply Rabs_le_inv in E6. apply Rabs_le_inv in E7. unfold nw. fold f d. apply Rabs_le. lra.
  Qed.

  Lemma guess_close : is_finite (elps_guess M e) = true /\
    Rabs (B2R (elps_guess M e) - gs (B2R e) (B2R M)) <= D / 4.
  Proof using FM Fe He Hm Hd HD Hsin Hcos HX.
    destruct sizes as [S0 [S1 [S2 [S3 [S4 S5]]]]].
    assert (Mm : - m <= B2R M <= m) by (unfold m; apply Rabs_le_inv; lra).
    assert (um : 0 <= un * m) by (apply Rmult_le_pos; lra).
    set (ee := B2R e) in *. set (mm := B2R M) in *.
    destruct (Hsin M FM) as [Fs Es]; [fold mm; apply Rabs_le; lra |]. fold mm in Es.
    set (s := m_sin L M) in *. pose proof (SIN_bound mm) as Sb.
    assert (Es' : Rabs (ee * B2R s - ee * sin mm) <= delta).
    { replace (ee * B2R s - ee * sin mm) with (ee * (B2R s - sin mm)) by ring.
      rewrite Rabs_mult, Rabs_pos_eq by lra. pose proof (Rabs_pos (B2R s - sin mm)). nra. }
    assert (es1 : - (9 / 10) <= ee * sin mm <= 9 / 10) by nra.
    destruct (op_mul e s Fe Fs 1 ltac:(lra)) as [F1 E1]; [fold ee; near |]. fold ee in E1.
    destruct (op_add M (b32_mul e s) FM F1 (m + 1) ltac:(lra)) as [F2 E2]; [fold mm; near |]. fold mm in E2.
    destruct (op_mul e e Fe Fe 1 ltac:(lra)) as [F3 E3]; [fold ee; apply Rabs_le; nra |]. fold ee in E3.
    destruct (const_val 2 ltac:(lia)) as [V2 G2].
    destruct (op_mul (b32_Z 2) M G2 FM (2 * m + 1) ltac:(lra)) as [F4 E4]; [rewrite V2; fold mm; apply Rabs_le; lra |].
    rewrite V2 in E4. fold mm in E4.
    destruct (Hsin (b32_mul (b32_Z 2) M) F4) as [F5 E5]; [near |].
    set (w := B2R (b32_mul (b32_Z 2) M)) in *. set (s2 := m_sin L (b32_mul (b32_Z 2) M)) in *.
    assert (E5' : Rabs (B2R s2 - sin (2 * mm)) <= delta + un * (2 * m + 1)).
    { pose proof (sin_lip w (2 * mm)). replace (B2R s2 - sin (2 * mm)) with ((B2R s2 - sin w) + (sin w - sin (2 * mm))) by ring.
      apply Rle_trans with (1 := Rabs_triang _ _). lra. }
    pose proof (SIN_bound (2 * mm)) as Sb2.
    set (e2 := b32_mul e e) in *.
    assert (e2b : 0 <= ee * ee <= 81 / 100) by nra.
    assert (E6' : Rabs (B2R e2 * B2R s2 - ee * ee * sin (2 * mm)) <= delta + un * (2 * m + 1) + 2 * un).
    { replace (B2R e2 * B2R s2 - ee * ee * sin (2 * mm))
        with ((B2R e2 - ee * ee) * B2R s2 + ee * ee * (B2R s2 - sin (2 * mm))) by ring.
      apply Rle_trans with (1 := Rabs_triang _ _). rewrite !Rabs_mult, (Rabs_pos_eq ee), (Rmult_comm _ (Rabs (B2R s2))) by lra.
      assert (Rabs (B2R s2) <= 2) by near.
      pose proof (Rabs_pos (B2R s2)). pose proof (Rabs_pos (B2R e2 - ee * ee)). pose proof (Rabs_pos (B2R s2 - sin (2 * mm))).
      rewrite Rplus_comm. apply Rplus_le_compat; nra. }
    assert (E6b : -1 <= ee * ee * sin (2 * mm) <= 1) by nra.
    destruct (op_mul e2 s2 F3 F5 2 ltac:(lra)) as [F6 E6]; [near |].
    set (p := b32_mul e2 s2) in *.
    destruct (op_div p (b32_Z 2) F6 1 ltac:(lra) ltac:(rewrite V2; lra)) as [F7 E7]; [rewrite V2; near |]. rewrite V2 in E7.
    destruct (op_add (b32_add M (b32_mul e s)) (b32_div p (b32_Z 2)) F2 F7 (m + 3) ltac:(lra)) as [F8 E8]; [near |].
    change (elps_guess M e) with (b32_add (b32_add M (b32_mul e s)) (b32_div p (b32_Z 2))).
    split; [exact F8 |]. unfold gs. replace (ee ^ 2) with (ee * ee) by ring.
    assert (T : delta + un + un * (m + 1) + (delta + un * (2 * m + 1) + 2 * un + un * 2) / 2 + un * 1 + un * (m + 3) <= D / 4).
    { unfold D, un. assert (0 <= eps) by (unfold eps; lra). nra. }
    near.
  Qed.

  Variables (sg tn : R).
  Hypotheses (HF : folds sg tn) (HFM : 0 <= fold sg tn (B2R M) <= PI).

  Lemma iterates_close (k : nat) : let x := iterate (elps_newton M e) k (elps_guess M e) in
    is_finite x = true /\ Inv (B2R e) (fold sg tn (B2R M)) (fold sg tn X) D k (fold sg tn (B2R x)).
  Proof using FM Fe He Hm Hd HD Hsin Hcos HX HF HFM.
    destruct sizes as [_ [_ [_ [_ [S4 _]]]]]. pose proof (fold_root sg tn HF (B2R e) (B2R M) X HX) as HX'.
    induction k as [| k [F E]]; cbv zeta.
    - cbn [iterate]. destruct guess_close as [F E]. split; [exact F |].
      split; [intros _; rewrite fold_gs, fold_dist by exact HF; exact E |]. split; [| split]; intro; lia.
    - cbn [iterate]. set (x := iterate (elps_newton M e) k (elps_guess M e)) in *.
      destruct (inv_range (B2R e) (fold sg tn (B2R M)) (fold sg tn X) D He HX' HFM ltac:(lra) k _ E) as [R1 R2].
      rewrite fold_nw in R2 by assumption. rewrite fold_dist in R1, R2 by exact HF.
      destruct (step_close x F R1 R2) as [F' E']. split; [exact F' |].
      apply (inv_step (B2R e) (fold sg tn (B2R M)) (fold sg tn X) D He HX' HFM ltac:(lra) k _ _ E).
      rewrite fold_nw, fold_dist by assumption. exact E'.
  Qed.

  Lemma tol_small : is_finite (default_tol (T := b32)) = true /\ 0 <= B2R (default_tol (T := b32)) <= 101 / 100000000.
  Proof using.
    change (default_tol (T := b32)) with tol.
    split; [exact tol_finite |]. rewrite tol_value. lra.
  Qed.

  Lemma solver_close (max_iter : Z) : (17 <= max_iter)%Z ->
    let E := solve_kepler_elps M e default_tol max_iter in
    is_finite E = true /\ Rabs (B2R E - X) <= / 50000000000 + 11 / 10 * D.
  Proof using FM Fe He Hm Hd HD Hsin Hcos HX HF HFM.
    intros Hi E. destruct sizes as [S0 [S1 [S2 [S3 [S4 S5]]]]]. destruct tol_small as [Ft Vt].
    destruct (elps_char M e default_tol max_iter) as [k [Hk C]]. cbv zeta in C. destruct C as [C1 [C2 C3]].
    pose proof (fold_root sg tn HF (B2R e) (B2R M) X HX) as HX'.
    unfold E. rewrite C1. destruct (iterates_close k) as [Fk Ek]. cbv zeta in Fk, Ek. split; [exact Fk |].
    rewrite <- (fold_dist sg tn HF).
    destruct (le_lt_dec 17 k) as [K | K].
    - exact (inv_late (B2R e) (fold sg tn (B2R M)) (fold sg tn X) D ltac:(lra) k _ Ek K).
    - destruct C3 as [C3 | C3]; [lia |].
      destruct k as [| k].
      + exfalso. destruct guess_close as [F0 E0]. unfold gs in E0.
        assert (G : - (4 / 3) <= B2R e * sin (B2R M) + B2R e ^ 2 * sin (2 * B2R M) / 2 <= 4 / 3).
        { pose proof (SIN_bound (B2R M)). pose proof (SIN_bound (2 * B2R M)).
          assert (0 <= B2R e ^ 2 <= 81 / 100) by nra. assert (- (9 / 10) <= B2R e * sin (B2R M) <= 9 / 10) by nra.
          assert (- (81 / 100) <= B2R e ^ 2 * sin (2 * B2R M) <= 81 / 100) by nra. lra. }
        assert (Mm : - m <= B2R M <= m) by (unfold m; apply Rabs_le_inv; lra). apply Rabs_le_inv in E0.
        cbn [iterate] in C3.
        change (exceeds (b32_sub (elps_guess M e) (b32_add (elps_guess M e) two_tol)) default_tol = false) in C3.
        rewrite (first_test L) in C3. unfold moving in C3. rewrite F0, Rle_bool_true, Rlt_bool_true in C3 by lra.
        discriminate C3.
      + destruct (iterates_close k) as [F0 E0]. cbv zeta in F0, E0. cbn [iterate] in *.
        set (x := iterate (elps_newton M e) k (elps_guess M e)) in *.
        destruct (inv_range (B2R e) (fold sg tn (B2R M)) (fold sg tn X) D He HX' HFM ltac:(lra) k _ E0) as [R1 R2].
        rewrite fold_nw in R2 by assumption. rewrite fold_dist in R1, R2 by exact HF.
        destruct (step_close x F0 R1 R2) as [F1 E1].
        set (y := elps_newton M e x) in *.
        assert (Bd : Rabs (B2R y - B2R x) <= 4) by near.
        destruct (op_sub y x F1 F0 4 ltac:(lra) Bd) as [F2 E2].
        assert (Sm : Rabs (B2R (b32_sub y x)) <= 101 / 100000000).
        { apply Rnot_lt_le. intro K'. unfold exceeds, n_gt in C3.
          change (n_lt default_tol (n_abs (n_sub y x))) with (Bltb (default_tol (T := b32)) (Babs (b32_sub y x))) in C3.
          rewrite lt_exact in C3; [| exact Ft | rewrite is_finite_Babs; exact F2].
          rewrite B2R_Babs, Rlt_bool_true in C3; [discriminate C3 | lra]. }
        apply (inv_stop (B2R e) (fold sg tn (B2R M)) (fold sg tn X) D He HX' HFM ltac:(lra) k (fold sg tn (B2R x)) _ (13 / 10000000) E0).
        * rewrite fold_nw, fold_dist by assumption. exact E1.
        * rewrite fold_dist by exact HF. assert (un <= / 16000000) by (unfold un, eps; lra). near.
        * lra.
  Qed.
End Solver.

(** ** The result *)
Lemma elps_float9 (L : libm) (M e : b32) (delta : R) (max_iter : Z) : let N := Num_B32 L in
  is_finite M = true -> Rabs (B2R M) <= 60 -> is_finite e = true -> 0 <= B2R e <= 9 / 10 -> 0 <= delta ->
  (forall x, is_finite x = true -> Rabs (B2R x) <= 2 * Rabs (B2R M) + 5 ->
    is_finite (m_sin L x) = true /\ Rabs (B2R (m_sin L x) - sin (B2R x)) <= delta /\
    is_finite (m_cos L x) = true /\ Rabs (B2R (m_cos L x) - cos (B2R x)) <= delta) ->
  let D := 44 * delta + (13 * Rabs (B2R M) + 260) * / IZR (2 ^ 24) in D <= / 1000 -> (17 <= max_iter)%Z ->
  let E := @solve_kepler_elps _ N M e (@default_tol _ N) max_iter in
  is_finite E = true /\
  (exists X, X - B2R e * sin X = B2R M /\ Rabs (B2R E - X) <= / 50000000000 + 11 / 10 * D) /\
  Rabs (B2R E - B2R e * sin (B2R E) - B2R M) <= / 25000000000 + 21 / 10 * D.
Proof.
  intros N FM HM Fe He Hd HL D HD Hi E.
  destruct (elps_unique (B2R e) (B2R M) ltac:(lra)) as [X [HX _]]. rewrite kepler_equ_elps_R in HX.
  assert (HX' : X - B2R e * sin X = B2R M) by lra.
  assert (D' : D = 44 * delta + (13 * Rabs (B2R M) + 260) * eps) by reflexivity.
  destruct (fold_ex (B2R M)) as [sg [tn [HF HFM]]].
  destruct (solver_close L M e delta X FM Fe He HM Hd) with (max_iter := max_iter) (sg := sg) (tn := tn) as [F C]; auto.
  - intros x Fx Bx. destruct (HL x Fx Bx) as [A [B _]]. split; assumption.
  - intros x Fx Bx. pose proof (Rabs_pos (B2R M)). destruct (HL x Fx ltac:(lra)) as [_ [_ [A B]]]. split; assumption.
  - rewrite <- D' in C. split; [exact F |]. split; [exists X; split; [exact HX' | exact C] |].
    pose proof (residual9 (B2R e) (B2R M) X He HX' (B2R E)) as RE. change (Rabs (B2R E - X) <= / 50000000000 + 11 / 10 * D) in C.
    assert (0 <= D) by (rewrite D'; pose proof (Rabs_pos (B2R M)); unfold eps; lra).
    lra.
Qed.

(** M = 1, e = 7/8 *)
Lemma elps_float9_example : let N := Num_B32 exact_libm32 in
  let E := @solve_kepler_elps _ N (b32_Z 1) (b32_dec 7 8) (@default_tol _ N) elps_max_iter in
  is_finite E = true /\ Rabs (B2R E - 7 / 8 * sin (B2R E) - 1) <= / 5000.
Proof.
  intros N E. destruct (const_val 1 ltac:(lia)) as [V1 F1].
  assert (F2 : is_finite (b32_dec 7 8) = true) by (vm_compute; reflexivity).
  assert (V2 : B2R (b32_dec 7 8) = 7 / 8).
  { rewrite <- SF2R_B2SF. replace (B2SF (b32_dec 7 8)) with (SpecFloat.S754_finite false 14680064 (-24)) by (vm_compute; reflexivity).
    unfold SF2R, F2R. simpl. lra. }
  destruct (elps_float9 exact_libm32 (b32_Z 1) (b32_dec 7 8) (/ 1048576) elps_max_iter F1) as [A [_ B]]; auto.
  - rewrite V1, Rabs_R1. simpl. lra.
  - rewrite V2. lra.
  - lra.
  - intros x _ _. apply exact_libm32_trig.
  - rewrite V1, Rabs_R1. simpl. lra.
  - unfold elps_max_iter. lia.
  - split; [exact A |]. fold N in B. fold E in B. clearbody E. rewrite V1, V2, Rabs_R1 in B. simpl in B. lra.
Qed.
