(** * B64Newton: the elliptic Kepler solver in double precision solves Kepler's equation (C77). *)
From Coq Require Import ZArith Reals Lra Lia Psatz Bool List.
From Flocq Require Import Core IEEE754.BinarySingleNaN.
From Verif Require Import Num NumR NumB64 Spec KepEqu LoopFacts RLib SolveFacts NewtonFl B64Lib B64Facts B64Acc B64Rel B64Examples B64Far.
Local Open Scope R_scope.

(** one operation whose exact result is at most [B] *)
Definition un : R := 101 / 100 * eps.

Lemma rnd_un (x B : R) : Rabs x <= B -> 1 <= B -> Rabs (rnd x - x) <= un * B.
Proof.
  intros H1 H2. apply Rle_trans with (1 := rnd_abs x).
  assert (T : / IZR (2 ^ 1074) <= / 100 * eps) by (unfold eps; simpl; lra).
  assert (0 < eps) by (unfold eps; lra). unfold un. nra.
Qed.

Lemma big_ok (B : R) : B <= 1000000000000 -> B <= IZR (2 ^ 1023).
Proof. intro H. apply Rle_trans with (1 := H). apply IZR_le. lia. Qed.

Section Ops.
  Variables x y : b64.
  Hypotheses (Fx : is_finite x = true) (Fy : is_finite y = true).
  Variable B : R.
  Hypothesis HB : 1 <= B <= 1000000000000.

  Lemma op_add : Rabs (B2R x + B2R y) <= B ->
    is_finite (b64_add x y) = true /\ Rabs (B2R (b64_add x y) - (B2R x + B2R y)) <= un * B.
  Proof using Fx Fy HB.
    intro H. destruct (add_exact x y Fx Fy) as [E F]; [apply Rle_trans with (1 := H), big_ok; lra |].
    split; [exact F |]. rewrite E. apply rnd_un; [exact H | lra].
  Qed.
  Lemma op_sub : Rabs (B2R x - B2R y) <= B ->
    is_finite (b64_sub x y) = true /\ Rabs (B2R (b64_sub x y) - (B2R x - B2R y)) <= un * B.
  Proof using Fx Fy HB.
    intro H. destruct (sub_exact x y Fx Fy) as [E F]; [apply Rle_trans with (1 := H), big_ok; lra |].
    split; [exact F |]. rewrite E. apply rnd_un; [exact H | lra].
  Qed.
  Lemma op_mul : Rabs (B2R x * B2R y) <= B ->
    is_finite (b64_mul x y) = true /\ Rabs (B2R (b64_mul x y) - (B2R x * B2R y)) <= un * B.
  Proof using Fx Fy HB.
    intro H. destruct (mul_exact x y Fx Fy) as [E F]; [apply Rle_trans with (1 := H), big_ok; lra |].
    split; [exact F |]. rewrite E. apply rnd_un; [exact H | lra].
  Qed.
  Lemma op_div : B2R y <> 0 -> Rabs (B2R x / B2R y) <= B ->
    is_finite (b64_div x y) = true /\ Rabs (B2R (b64_div x y) - (B2R x / B2R y)) <= un * B.
  Proof using Fx HB.
    intros Y H. destruct (div_exact x y Fx Y) as [E F]; [apply Rle_trans with (1 := H), big_ok; lra |].
    split; [exact F |]. rewrite E. apply rnd_un; [exact H | lra].
  Qed.
End Ops.

Lemma const_val (n : Z) : (Z.abs n < 2 ^ 53)%Z -> B2R (b64_Z n) = IZR n /\ is_finite (b64_Z n) = true.
Proof.
  intro H. destruct (Fl_int n H) as [F [t [V T]]]. split; [| exact F]. rewrite V. simpl in T.
  replace t with 1 by (rewrite Rinv_1 in T; lra). ring.
Qed.

(** a triangle inequality for chains of approximations *)
Ltac near := repeat match goal with H : Rabs _ <= _ |- _ => apply Rabs_le_inv in H end; apply Rabs_le; lra.

Section Solver.
  Variable L : libm64.
  Variables M e : b64.
  Variables (delta X : R).
  Hypotheses (FM : is_finite M = true) (Fe : is_finite e = true) (He : 0 <= B2R e <= 3 / 4).
  Let m := Rabs (B2R M).
  Hypothesis Hm : m <= IZR (2 ^ 34).
  Let D := 26 * delta + (7 * m + 115) * eps.
  Hypothesis Hd : 0 <= delta.
  Hypothesis HD : D <= / 1000.
  Hypothesis Hsin : forall x, is_finite x = true -> Rabs (B2R x) <= 2 * m + 3 ->
    is_finite (d_sin L x) = true /\ Rabs (B2R (d_sin L x) - sin (B2R x)) <= delta.
  Hypothesis Hcos : forall x, is_finite x = true -> Rabs (B2R x) <= m + 3 ->
    is_finite (d_cos L x) = true /\ Rabs (B2R (d_cos L x) - cos (B2R x)) <= delta.
  Hypothesis HX : X - B2R e * sin X = B2R M.
  Local Instance NB : Num b64 := Num_B64 L.

  Lemma sizes : 0 <= m <= 17179869184 /\ 0 < un /\ un * (m + 115 / 7) <= / 6000 /\ delta <= / 26000 /\ 0 <= D /\ un <= / 100000.
  Proof using Hd HD Hm.
    assert (0 <= m) by apply Rabs_pos. assert (Hm' : m <= 17179869184) by (apply Rle_trans with (1 := Hm); apply IZR_le; lia).
    assert (0 < eps) by (unfold eps; lra).
    assert (eps <= / 9000000000000000) by (unfold eps; lra).
    assert (eps * m <= / 9000000000000000 * 17179869184) by (apply Rmult_le_compat; lra).
    unfold un, D in *. repeat split; nra.
  Qed.

  Lemma step_close (x : b64) : is_finite x = true -> Rabs (B2R x - X) <= 57 / 100 ->
    is_finite (elps_newton M e x) = true /\
    Rabs (B2R (elps_newton M e x)
      - (B2R x - (B2R x - B2R e * sin (B2R x) - B2R M) / (1 - B2R e * cos (B2R x)))) <= D.
  Proof using FM Fe He Hm Hd HD Hsin Hcos HX.
    intros Fx Ex. destruct sizes as [S0 [S1 [S2 [S3 [S4 S5]]]]].
    assert (Mm : - m <= B2R M <= m) by (unfold m; apply Rabs_le_inv; lra).
    pose proof (root_near (B2R e) (B2R M) X He HX) as RN. apply Rabs_le_inv in RN.
    pose proof (residual_err (B2R e) (B2R M) X He HX (B2R x)) as RE.
    assert (Bx : Rabs (B2R x) <= m + 2) by near.
    set (v := B2R x) in *. set (ee := B2R e) in *. set (mm := B2R M) in *.
    destruct (Hsin x Fx) as [Fs Es]; [fold v; lra |]. destruct (Hcos x Fx) as [Fc Ec]; [fold v; lra |]. fold v in Es, Ec.
    pose proof (SIN_bound v) as Sb. pose proof (COS_bound v) as Cb.
    set (s := d_sin L x) in *. set (c := d_cos L x) in *.
    assert (Es' : Rabs (ee * B2R s - ee * sin v) <= delta).
    { replace (ee * B2R s - ee * sin v) with (ee * (B2R s - sin v)) by ring.
      rewrite Rabs_mult, Rabs_pos_eq by lra. pose proof (Rabs_pos (B2R s - sin v)). nra. }
    assert (Ec' : Rabs (ee * B2R c - ee * cos v) <= delta).
    { replace (ee * B2R c - ee * cos v) with (ee * (B2R c - cos v)) by ring.
      rewrite Rabs_mult, Rabs_pos_eq by lra. pose proof (Rabs_pos (B2R c - cos v)). nra. }
    assert (es1 : - (3 / 4) <= ee * sin v <= 3 / 4) by nra.
    assert (ec1 : - (3 / 4) <= ee * cos v <= 3 / 4) by nra.
    (* e * sin x *)
    destruct (op_mul e s Fe Fs 1 ltac:(lra)) as [F1 E1]; [fold ee; near |]. fold ee in E1.
    (* x - e sin x *)
    destruct (op_sub x (b64_mul e s) Fx F1 (m + 4) ltac:(lra)) as [F2 E2]; [fold v; near |]. fold v in E2.
    (* ... - M *)
    set (f := v - ee * sin v - mm) in *.
    assert (Bf : Rabs f <= 7 / 4 * (57 / 100)) by lra.
    assert (um : 0 <= un * m) by (apply Rmult_le_pos; lra).
    destruct (op_sub (b64_sub x (b64_mul e s)) M F2 FM 2 ltac:(lra)) as [F3 E3]; [unfold f in Bf; fold mm; near |]. fold mm in E3.
    set (ff := b64_sub (b64_sub x (b64_mul e s)) M) in *.
    assert (E3' : Rabs (B2R ff - f) <= delta + un * (m + 7)) by (unfold f; near).
    (* the derivative *)
    destruct (op_mul e c Fe Fc 1 ltac:(lra)) as [F4 E4]; [fold ee; near |]. fold ee in E4.
    destruct (const_val 1 ltac:(lia)) as [V1 G1].
    destruct (op_sub (b64_Z 1) (b64_mul e c) G1 F4 2 ltac:(lra)) as [F5 E5]; [rewrite V1; near |]. rewrite V1 in E5.
    set (dd := b64_sub (b64_Z 1) (b64_mul e c)) in *.
    set (d := 1 - ee * cos v) in *.
    assert (E5' : Rabs (B2R dd - d) <= delta + un * 3) by (unfold d; near).
    assert (d1 : 1 / 4 <= d <= 7 / 4) by (unfold d; lra).
    assert (d2 : 1 / 5 <= B2R dd) by (apply Rabs_le_inv in E5'; lra).
    (* the quotient *)
    assert (Q : Rabs (B2R ff / B2R dd - f / d) <= 5 * (delta + un * (m + 7)) + 20 * (delta + un * 3)).
    { replace (B2R ff / B2R dd - f / d) with ((B2R ff - f) * / B2R dd + f * / d * (d - B2R dd) * / B2R dd) by (field; lra).
      assert (I1 : 0 < / B2R dd <= 5).
      { split; [apply Rinv_0_lt_compat; lra |]. replace 5 with (/ (1 / 5)) by field. apply Rinv_le_contravar; lra. }
      assert (I2 : 0 < / d <= 4).
      { split; [apply Rinv_0_lt_compat; lra |]. replace 4 with (/ (1 / 4)) by field. apply Rinv_le_contravar; lra. }
      apply Rle_trans with (1 := Rabs_triang _ _).
      rewrite !Rabs_mult, (Rabs_pos_eq (/ B2R dd)), (Rabs_pos_eq (/ d)) by lra.
      rewrite (Rabs_minus_sym d). pose proof (Rabs_pos (B2R ff - f)). pose proof (Rabs_pos f). pose proof (Rabs_pos (B2R dd - d)).
      apply Rplus_le_compat.
      - rewrite (Rmult_comm 5). apply Rmult_le_compat; lra.
      - replace (20 * (delta + un * 3)) with (4 * (delta + un * 3) * 5) by ring.
        apply Rmult_le_compat; [| lra | | lra].
        + apply Rmult_le_pos; [apply Rmult_le_pos |]; lra.
        + apply Rmult_le_compat; [apply Rmult_le_pos; lra | lra | | lra].
          apply Rle_trans with (7 / 4 * (57 / 100) * 4); [apply Rmult_le_compat; lra | lra]. }
    assert (Bq : Rabs (f / d) <= 399 / 100).
    { unfold Rdiv. rewrite Rabs_mult, (Rabs_pos_eq (/ d)) by (left; apply Rinv_0_lt_compat; lra).
      assert (I2 : 0 < / d <= 4).
      { split; [apply Rinv_0_lt_compat; lra |]. replace 4 with (/ (1 / 4)) by field. apply Rinv_le_contravar; lra. }
      pose proof (Rabs_pos f). apply Rle_trans with (7 / 4 * (57 / 100) * 4); [apply Rmult_le_compat; lra | lra]. }
    destruct (op_div ff dd F3 6 ltac:(lra) ltac:(lra)) as [F6 E6]; [near |].
    set (q := b64_div ff dd) in *.
    (* the new value *)
    destruct (op_sub x q Fx F6 (m + 9) ltac:(lra)) as [F7 E7]; [fold v; near |]. fold v in E7.
    change (elps_newton M e x) with (b64_sub x q).
    split; [exact F7 |].
    assert (T : 5 * (delta + un * (m + 7)) + 20 * (delta + un * 3) + un * 6 + un * (m + 9) <= D).
    { unfold D, un. assert (0 <= eps) by (unfold eps; lra). nra. }
    apply Rabs_le_inv in Q. apply Rabs_le_inv in E6. apply Rabs_le_inv in E7. apply Rabs_le. lra.
  Qed.

  Lemma guess_close : is_finite (elps_guess M e) = true /\
    Rabs (B2R (elps_guess M e) - (B2R M + B2R e * sin (B2R M) + B2R e ^ 2 * sin (2 * B2R M) / 2)) <= D.
  Proof using FM Fe He Hm Hd HD Hsin Hcos HX.
    destruct sizes as [S0 [S1 [S2 [S3 [S4 S5]]]]].
    assert (Mm : - m <= B2R M <= m) by (unfold m; apply Rabs_le_inv; lra).
    assert (um : 0 <= un * m) by (apply Rmult_le_pos; lra).
    set (ee := B2R e) in *. set (mm := B2R M) in *.
    destruct (Hsin M FM) as [Fs Es]; [fold mm; apply Rabs_le; lra |]. fold mm in Es.
    set (s := d_sin L M) in *. pose proof (SIN_bound mm) as Sb.
    assert (Es' : Rabs (ee * B2R s - ee * sin mm) <= delta).
    { replace (ee * B2R s - ee * sin mm) with (ee * (B2R s - sin mm)) by ring.
      rewrite Rabs_mult, Rabs_pos_eq by lra. pose proof (Rabs_pos (B2R s - sin mm)). nra. }
    assert (es1 : - (3 / 4) <= ee * sin mm <= 3 / 4) by nra.
    destruct (op_mul e s Fe Fs 1 ltac:(lra)) as [F1 E1]; [fold ee; near |]. fold ee in E1.
    destruct (op_add M (b64_mul e s) FM F1 (m + 1) ltac:(lra)) as [F2 E2]; [fold mm; near |]. fold mm in E2.
    destruct (op_mul e e Fe Fe 1 ltac:(lra)) as [F3 E3]; [fold ee; apply Rabs_le; nra |]. fold ee in E3.
    destruct (const_val 2 ltac:(lia)) as [V2 G2].
    destruct (op_mul (b64_Z 2) M G2 FM (2 * m + 1) ltac:(lra)) as [F4 E4]; [rewrite V2; fold mm; apply Rabs_le; lra |].
    rewrite V2 in E4. fold mm in E4.
    destruct (Hsin (b64_mul (b64_Z 2) M) F4) as [F5 E5]; [near |].
    set (w := B2R (b64_mul (b64_Z 2) M)) in *. set (s2 := d_sin L (b64_mul (b64_Z 2) M)) in *.
    assert (E5' : Rabs (B2R s2 - sin (2 * mm)) <= delta + un * (2 * m + 1)).
    { pose proof (sin_lip w (2 * mm)). replace (B2R s2 - sin (2 * mm)) with ((B2R s2 - sin w) + (sin w - sin (2 * mm))) by ring.
      apply Rle_trans with (1 := Rabs_triang _ _). lra. }
    pose proof (SIN_bound (2 * mm)) as Sb2.
    set (e2 := b64_mul e e) in *.
    assert (e2b : 0 <= ee * ee <= 9 / 16) by nra.
    assert (E6' : Rabs (B2R e2 * B2R s2 - ee * ee * sin (2 * mm)) <= delta + un * (2 * m + 1) + 2 * un).
    { replace (B2R e2 * B2R s2 - ee * ee * sin (2 * mm))
        with ((B2R e2 - ee * ee) * B2R s2 + ee * ee * (B2R s2 - sin (2 * mm))) by ring.
      apply Rle_trans with (1 := Rabs_triang _ _). rewrite !Rabs_mult, (Rabs_pos_eq ee), (Rmult_comm _ (Rabs (B2R s2))) by lra.
      assert (Rabs (B2R s2) <= 2) by near.
      pose proof (Rabs_pos (B2R s2)). pose proof (Rabs_pos (B2R e2 - ee * ee)). pose proof (Rabs_pos (B2R s2 - sin (2 * mm))).
      rewrite Rplus_comm. apply Rplus_le_compat; nra. }
    assert (E6b : -1 <= ee * ee * sin (2 * mm) <= 1) by nra.
    destruct (op_mul e2 s2 F3 F5 2 ltac:(lra)) as [F6 E6]; [near |].
    set (p := b64_mul e2 s2) in *.
    destruct (op_div p (b64_Z 2) F6 1 ltac:(lra) ltac:(rewrite V2; lra)) as [F7 E7]; [rewrite V2; near |]. rewrite V2 in E7.
    destruct (op_add (b64_add M (b64_mul e s)) (b64_div p (b64_Z 2)) F2 F7 (m + 3) ltac:(lra)) as [F8 E8]; [near |].
    change (elps_guess M e) with (b64_add (b64_add M (b64_mul e s)) (b64_div p (b64_Z 2))).
    split; [exact F8 |]. replace (ee ^ 2) with (ee * ee) by ring.
    assert (T : delta + un + un * (m + 1) + (delta + un * (2 * m + 1) + 2 * un + un * 2) / 2 + un * 1 + un * (m + 3) <= D).
    { unfold D, un. assert (0 <= eps) by (unfold eps; lra). nra. }
    near.
  Qed.

  Lemma iterates_close (k : nat) : let x := iterate (elps_newton M e) k (elps_guess M e) in
    is_finite x = true /\ Rabs (B2R x - X) <= bnd D k.
  Proof using FM Fe He Hm Hd HD Hsin Hcos HX.
    destruct sizes as [_ [_ [_ [_ [S4 _]]]]]. pose proof (bnd_all D ltac:(lra)) as BA.
    induction k as [| k [F E]]; cbv zeta.
    - cbn [iterate]. destruct guess_close as [F E]. split; [exact F |].
      pose proof (guess_err (B2R e) (B2R M) X He HX). cbn [bnd]. near.
    - cbn [iterate]. set (x := iterate (elps_newton M e) k (elps_guess M e)) in *.
      destruct (step_close x F) as [F' E']; [specialize (BA k); lra |]. split; [exact F' |].
      pose proof (newton_err (B2R e) (B2R M) X He HX (B2R x)) as NE.
      assert ((B2R x - X) ^ 2 <= bnd D k ^ 2).
      { rewrite <- (pow2_abs (B2R x - X)). apply pow_incr. split; [apply Rabs_pos | exact E]. }
      cbn [bnd]. near.
  Qed.

  Lemma tol_small : is_finite (default_tol (T := b64)) = true /\ 0 <= B2R (default_tol (T := b64)) <= 101 / 100000000.
  Proof using.
    change (default_tol (T := b64)) with tol.
    split; [exact tol_finite |]. rewrite tol_value. lra.
  Qed.

  Lemma solver_close (max_iter : Z) : (10 <= max_iter)%Z ->
    let E := solve_kepler_elps M e default_tol max_iter in
    is_finite E = true /\ Rabs (B2R E - X) <= / 200000000000 + 11 / 10 * D.
  Proof using FM Fe He Hm Hd HD Hsin Hcos HX.
    intros Hi E. destruct sizes as [S0 [S1 [S2 [S3 [S4 S5]]]]]. destruct tol_small as [Ft Vt].
    destruct (elps_char M e default_tol max_iter) as [k [Hk C]]. cbv zeta in C. destruct C as [C1 [C2 C3]].
    unfold E. rewrite C1. destruct (iterates_close k) as [Fk Ek]. cbv zeta in Fk, Ek. split; [exact Fk |].
    destruct (le_lt_dec 10 k) as [K | K].
    - pose proof (bnd_late D ltac:(lra) k K). lra.
    - destruct C3 as [C3 | C3]; [lia |].
      destruct k as [| k].
      + exfalso. destruct (iterates_close 0) as [F0 E0]. cbv zeta in F0, E0. cbn [iterate bnd] in F0, E0.
        pose proof (root_near (B2R e) (B2R M) X He HX) as RN. apply Rabs_le_inv in RN.
        assert (Mm : - m <= B2R M <= m) by (unfold m; apply Rabs_le_inv; lra). apply Rabs_le_inv in E0.
        cbn [iterate] in C3.
        change (exceeds (b64_sub (elps_guess M e) (b64_add (elps_guess M e) two_tol)) default_tol = false) in C3.
        rewrite (first_test L) in C3. unfold moving in C3. rewrite F0, Rle_bool_true, Rlt_bool_true in C3 by lra.
        discriminate C3.
      + destruct (iterates_close k) as [F0 E0]. cbv zeta in F0, E0. cbn [iterate] in *.
        set (x := iterate (elps_newton M e) k (elps_guess M e)) in *.
        assert (Bk : 0 <= Rabs (B2R x - X) <= 561 / 1000).
        { split; [apply Rabs_pos |]. pose proof (bnd_all D ltac:(lra) k). lra. }
        destruct (step_close x F0) as [F1 E1]; [lra |].
        pose proof (newton_err (B2R e) (B2R M) X He HX (B2R x)) as NE.
        set (y := elps_newton M e x) in *.
        assert (P1 : Rabs (B2R y - X) <= 3 / 2 * Rabs (B2R x - X) ^ 2 + D) by (rewrite pow2_abs; near).
        assert (Bd : Rabs (B2R y - B2R x) <= 2).
        { pose proof (bnd_all D ltac:(lra) (S k)). destruct Bk as [_ Bk]. near. }
        destruct (op_sub y x F1 F0 2 ltac:(lra) Bd) as [F2 E2].
        assert (Sm : Rabs (B2R (b64_sub y x)) <= 101 / 100000000).
        { apply Rnot_lt_le. intro K'. unfold exceeds, n_gt in C3.
          change (n_lt default_tol (n_abs (n_sub y x))) with (Bltb (default_tol (T := b64)) (Babs (b64_sub y x))) in C3.
          rewrite lt_exact in C3; [| exact Ft | rewrite is_finite_Babs; exact F2].
          rewrite B2R_Babs, Rlt_bool_true in C3; [discriminate C3 | lra]. }
        apply (posterior D ltac:(lra) (Rabs (B2R x - X)) (Rabs (B2R y - X)) (12 / 10000000)).
        * exact Bk.
        * exact P1.
        * assert (un <= / 100000000000) by (unfold un, eps; lra). replace (B2R x - X) with ((B2R y - X) - (B2R y - B2R x)) by ring.
          unfold Rminus at 1. apply Rle_trans with (1 := Rabs_triang _ _). rewrite Rabs_Ropp.
          apply Rplus_le_compat_l. near.
        * lra.
  Qed.
End Solver.

(** ** The result *)
Lemma elps_float (L : libm64) (M e : b64) (delta : R) (max_iter : Z) : let N := Num_B64 L in
  is_finite M = true -> Rabs (B2R M) <= IZR (2 ^ 34) -> is_finite e = true -> 0 <= B2R e <= 3 / 4 -> 0 <= delta ->
  (forall x, is_finite x = true -> Rabs (B2R x) <= 2 * Rabs (B2R M) + 3 ->
    is_finite (d_sin L x) = true /\ Rabs (B2R (d_sin L x) - sin (B2R x)) <= delta /\
    is_finite (d_cos L x) = true /\ Rabs (B2R (d_cos L x) - cos (B2R x)) <= delta) ->
  let D := 26 * delta + (7 * Rabs (B2R M) + 115) * / IZR (2 ^ 53) in D <= / 1000 -> (10 <= max_iter)%Z ->
  let E := @solve_kepler_elps _ N M e (@default_tol _ N) max_iter in
  is_finite E = true /\
  (exists X, X - B2R e * sin X = B2R M /\ Rabs (B2R E - X) <= / 200000000000 + 11 / 10 * D) /\
  Rabs (B2R E - B2R e * sin (B2R E) - B2R M) <= / 100000000000 + 2 * D.
Proof.
  intros N FM HM Fe He Hd HL D HD Hi E.
  destruct (elps_unique (B2R e) (B2R M) ltac:(lra)) as [X [HX _]]. rewrite kepler_equ_elps_R in HX.
  assert (HX' : X - B2R e * sin X = B2R M) by lra.
  assert (D' : D = 26 * delta + (7 * Rabs (B2R M) + 115) * eps) by reflexivity.
  destruct (solver_close L M e delta X FM Fe He HM Hd) with (max_iter := max_iter) as [F C]; auto.
  - intros x Fx Bx. destruct (HL x Fx Bx) as [A [B _]]. split; assumption.
  - intros x Fx Bx. pose proof (Rabs_pos (B2R M)). destruct (HL x Fx ltac:(lra)) as [_ [_ [A B]]]. split; assumption.
  - rewrite <- D' in C. split; [exact F |]. split; [exists X; split; [exact HX' | exact C] |].
    pose proof (residual_err (B2R e) (B2R M) X He HX' (B2R E)) as RE. change (Rabs (B2R E - X) <= / 200000000000 + 11 / 10 * D) in C.
    assert (0 <= D) by (rewrite D'; pose proof (Rabs_pos (B2R M)); unfold eps; lra).
    lra.
Qed.

Lemma exact_libm_trig (x : b64) : is_finite (d_sin exact_libm x) = true /\ Rabs (B2R (d_sin exact_libm x) - sin (B2R x)) <= / 1099511627776 /\
  is_finite (d_cos exact_libm x) = true /\ Rabs (B2R (d_cos exact_libm x) - cos (B2R x)) <= / 1099511627776.
Proof.
  pose proof (SIN_bound (B2R x)) as Sb. destruct (near40_value (sin (B2R x)) ltac:(apply Rabs_le; lra)) as [F V].
  destruct (exact_libm_cos x) as [A B].
  split; [exact F |]. split; [apply Rabs_le; simpl; lra |]. split; assumption.
Qed.

(** M = 1, e = 1/2 *)
Lemma elps_float_example : let N := Num_B64 exact_libm in
  let E := @solve_kepler_elps _ N (b64_Z 1) (b64_dec 1 2) (@default_tol _ N) elps_max_iter in
  is_finite E = true /\ Rabs (B2R E - 1 / 2 * sin (B2R E) - 1) <= / 10000000000.
Proof.
  intros N E. destruct (const_val 1 ltac:(lia)) as [V1 F1].
  assert (F2 : is_finite (b64_dec 1 2) = true) by (vm_compute; reflexivity).
  assert (V2 : B2R (b64_dec 1 2) = 1 / 2).
  { rewrite <- SF2R_B2SF. replace (B2SF (b64_dec 1 2)) with (SpecFloat.S754_finite false 4503599627370496 (-53)) by (vm_compute; reflexivity).
    unfold SF2R, F2R. simpl. lra. }
  destruct (elps_float exact_libm (b64_Z 1) (b64_dec 1 2) (/ 1099511627776) elps_max_iter F1) as [A [_ B]]; auto.
  - rewrite V1, Rabs_R1. simpl. lra.
  - rewrite V2. lra.
  - lra.
  - intros x _ _. apply exact_libm_trig.
  - rewrite V1, Rabs_R1. simpl. lra.
  - unfold elps_max_iter. lia.
  - split; [exact A |]. fold N in B. fold E in B. clearbody E. rewrite V1, V2, Rabs_R1 in B. simpl in B. lra.
Qed.
