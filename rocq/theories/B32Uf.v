(** * B32Uf: rounding errors of the universal functions in single precision (proofs for C81) *)
From Coq Require Import ZArith Reals Lra Lia Psatz Bool List.
From Coquelicot Require Import Coquelicot.
From Flocq Require Import Core IEEE754.BinarySingleNaN.
From Verif Require Import Num NumB32 NumR Spec SpecFl SpecFl32 SpecFlV RLib RelLib RoundAn RoundFn B32Lib B32Acc B32Rel B32An B32Geo.
From Verif Require Import Uniformulas UFacts UfReal.
Local Open Scope R_scope.

Section Uf.
  Variable L : libm.
  Let N : Num b32 := Num_B32 L.

    Lemma core_Z (r z : Z) : (0 <= z < 2 ^ 24)%Z -> (z <= 2 ^ r)%Z -> (0 <= r)%Z -> Er32 r 0 (IZR z) (@n_Z _ N z) (IZR z).
    Proof using L N.
      intros H1 H2 H3. pose proof (An_Z L r z ltac:(lia) ltac:(lia) H3) as E. rewrite Rabs_pos_eq in E by (apply IZR_le; lia). exact E.
    Qed.

  (** the six formulas from a square root, a cosine and a sine (circular or hyperbolic) with errors *)
  Section Core.
    Variables (chi alpha aa rt cs sn : b32) (c : nat) (M Cv Sv : R).
    Let a : R := Rabs (B2R alpha).
    Let q : R := sqrt a.
    Let th : R := q * Rabs (B2R chi).
    Hypotheses (Hc : (c <= 8)%nat) (Ga : good32 17 alpha) (Pa : 0 < a) (Gx : good32 12 chi).
    Hypothesis Haa : Er32 17 0 a aa a.
    Hypothesis Hrt : Er32 9 2 q rt q.
    Hypotheses (Hcs : Er32 20 (c + 4) M cs Cv) (Hsn : Er32 20 (c + 4) M sn Sv) (M1 : 1 <= M) (Ht : th <= IZR (2 ^ 10)).

    Lemma core_q : 0 < q /\ q * q = a.
    Proof using All. split; [apply sqrt_lt_R0; exact Pa | apply sqrt_sqrt; lra]. Qed.
    Lemma core_th : 0 <= th.
    Proof using All. apply Rmult_le_pos; [pose proof core_q; lra | apply Rabs_pos]. Qed.
    Lemma core_M : 1 <= M <= IZR (2 ^ 20).
    Proof using All. split; [exact M1 |]. destruct Hcs as [_ [_ [_ [I _]]]]. destruct I as [I | I]; [lra |]. rewrite Rabs_pos_eq in I by lra. apply I. Qed.
    Lemma core_x : Er32 12 0 (Rabs (B2R chi)) chi (B2R chi).
    Proof using All. apply (An_good L); [lia | exact Gx]. Qed.
    Lemma core_a : Er32 17 0 a alpha (B2R alpha).
    Proof using All. apply (An_good L); [lia | exact Ga]. Qed.
    Lemma core_t : Er32 21 3 th (@n_mul _ N rt chi) (q * B2R chi).
    Proof using All. exact (An_mul L _ _ _ _ _ _ _ _ _ _ Hrt core_x ltac:(lia) ltac:(lia)). Qed.
    Lemma core_a2 : Er32 34 1 (a * a) (@n_mul _ N alpha alpha) (B2R alpha ^ 2).
    Proof using All.
      pose proof (An_mul L _ _ _ _ _ _ _ _ _ _ core_a core_a ltac:(lia) ltac:(lia)) as E. apply (An_v L _ _ _ _ _ _ _ E); [reflexivity | ring].
    Qed.
    Lemma core_a3 : Er32 51 2 (a * (a * a)) (@n_mul _ N alpha (@n_mul _ N alpha alpha)) (B2R alpha ^ 3).
    Proof using All.
      pose proof (An_mul L _ _ _ _ _ _ _ _ _ _ core_a core_a2 ltac:(lia) ltac:(lia)) as E. apply (An_v L _ _ _ _ _ _ _ E); [reflexivity | ring].
    Qed.
    Lemma core_x2 : Er32 24 1 (Rabs (B2R chi) * Rabs (B2R chi)) (@n_mul _ N chi chi) (B2R chi ^ 2).
    Proof using All.
      pose proof (An_mul L _ _ _ _ _ _ _ _ _ _ core_x core_x ltac:(lia) ltac:(lia)) as E. apply (An_v L _ _ _ _ _ _ _ E); [reflexivity | ring].
    Qed.
    Lemma core_x3 : Er32 36 2 (Rabs (B2R chi) * (Rabs (B2R chi) * Rabs (B2R chi))) (@n_mul _ N chi (@n_mul _ N chi chi)) (B2R chi ^ 3).
    Proof using All.
      pose proof (An_mul L _ _ _ _ _ _ _ _ _ _ core_x core_x2 ltac:(lia) ltac:(lia)) as E. apply (An_v L _ _ _ _ _ _ _ E); [reflexivity | ring].
    Qed.
    Lemma q_den : Er32 9 2 (Rabs q) rt q.
    Proof using All. rewrite (Rabs_pos_eq q) by (pose proof core_q; lra). exact Hrt. Qed.
    Lemma a_den : Er32 17 0 (Rabs a) aa a.
    Proof using All. rewrite (Rabs_pos_eq a) by lra. exact Haa. Qed.
    Lemma al_nz : B2R alpha <> 0.
    Proof using All. intro H. unfold a in Pa. rewrite H, Rabs_R0 in Pa. lra. Qed.
    Lemma core_1 : Er32 29 (c + 8) (M / q) (@n_div _ N sn rt) (Sv / q).
    Proof using All.
      pose proof core_q as [Q _]. pose proof (An_div1 L _ _ _ _ _ _ _ _ _ Hsn q_den ltac:(lra) ltac:(lia) ltac:(lia)) as E.
      rewrite (Rabs_pos_eq q) in E by lra. apply (An_k L _ _ _ _ _ _ E). lia.
    Qed.
    Lemma core_2 : Er32 38 (c + 7) (2 * M / a) (@n_div _ N (@n_sub _ N (@n_Z _ N 1) cs) aa) ((1 - Cv) / a).
    Proof using All.
      pose proof core_M as [_ MM].
      pose proof (An_sub L _ _ _ _ _ _ _ _ _ _ (core_Z 0 1 ltac:(lia) ltac:(lia) ltac:(lia)) Hcs ltac:(lia) ltac:(lia)) as D.
      assert (Rg : in_range 21 (2 * M)).
      { apply range_between; [| lia]. split; [apply Rle_trans with 1; [simpl; lra | lra] |]. change (2 ^ 21)%Z with (2 * 2 ^ 20)%Z. rewrite mult_IZR. lra. }
      pose proof (An_weak L _ 21 _ (c + 5) _ (2 * M) _ _ D ltac:(lra) ltac:(lia) Rg ltac:(lia)) as D2.
      pose proof (An_div1 L _ _ _ _ _ _ _ _ _ D2 a_den ltac:(lra) ltac:(lia) ltac:(lia)) as E.
      rewrite (Rabs_pos_eq a) in E by lra. apply (An_k L _ _ _ _ _ _ E). lia.
    Qed.
    Lemma core_2h : Er32 38 (c + 7) (2 * M / a) (@n_div _ N (@n_sub _ N cs (@n_Z _ N 1)) aa) ((Cv - 1) / a).
    Proof using All.
      pose proof core_M as [_ MM].
      pose proof (An_sub L _ _ _ _ _ _ _ _ _ _ Hcs (core_Z 0 1 ltac:(lia) ltac:(lia) ltac:(lia)) ltac:(lia) ltac:(lia)) as D.
      assert (Rg : in_range 21 (2 * M)).
      { apply range_between; [| lia]. split; [apply Rle_trans with 1; [simpl; lra | lra] |]. change (2 ^ 21)%Z with (2 * 2 ^ 20)%Z. rewrite mult_IZR. lra. }
      pose proof (An_weak L _ 21 _ (c + 5) _ (2 * M) _ _ D ltac:(lra) ltac:(lia) Rg ltac:(lia)) as D2.
      pose proof (An_div1 L _ _ _ _ _ _ _ _ _ D2 a_den ltac:(lra) ltac:(lia) ltac:(lia)) as E.
      rewrite (Rabs_pos_eq a) in E by lra. apply (An_k L _ _ _ _ _ _ E). lia.
    Qed.
    Lemma core_3 : th <= M -> Er32 47 (c + 11) (2 * M / a / q)
      (@n_div _ N (@n_div _ N (@n_sub _ N (@n_mul _ N rt chi) sn) alpha) rt) ((q * B2R chi - Sv) / B2R alpha / q).
    Proof using All.
      intro TM. pose proof core_M as [_ MM]. pose proof core_q as [Q _]. pose proof al_nz as Nz.
      pose proof (An_sub L _ _ _ _ _ _ _ _ _ _ core_t Hsn ltac:(lia) ltac:(lia)) as D.
      assert (Rg : in_range 21 (2 * M)).
      { apply range_between; [| lia]. split; [apply Rle_trans with 1; [simpl; lra | lra] |]. change (2 ^ 21)%Z with (2 * 2 ^ 20)%Z. rewrite mult_IZR. lra. }
      pose proof (An_weak L _ 21 _ (c + 5) _ (2 * M) _ _ D ltac:(lra) ltac:(lia) Rg ltac:(lia)) as D2.
      pose proof (An_div1 L _ _ _ _ _ _ _ _ _ D2 core_a Nz ltac:(lia) ltac:(lia)) as E. fold a in E.
      pose proof (An_div1 L _ _ _ _ _ _ _ _ _ E q_den ltac:(lra) ltac:(lia) ltac:(lia)) as F.
      rewrite (Rabs_pos_eq q) in F by lra. apply (An_k L _ _ _ _ _ _ F). lia.
    Qed.
    Let B4 : R := th * th + 2 + 2 * M.
    Lemma core_4 : Er32 58 (c + 11) (B4 / (2 * (a * a)))
      (@n_div _ N (@n_add _ N (@n_sub _ N (@n_mul _ N alpha (@n_mul _ N chi chi)) (@n_Z _ N 2)) (@n_mul _ N (@n_Z _ N 2) cs))
                  (@n_mul _ N (@n_Z _ N 2) (@n_mul _ N alpha alpha)))
      ((B2R alpha * B2R chi ^ 2 - 2 + 2 * Cv) / (2 * B2R alpha ^ 2)).
    Proof using All.
      pose proof core_M as [_ MM]. pose proof core_q as [Q QQ]. pose proof al_nz as Nz. pose proof core_th as T0.
      pose proof (core_Z 1 2 ltac:(lia) ltac:(lia) ltac:(lia)) as Two.
      pose proof (An_mul L _ _ _ _ _ _ _ _ _ _ core_a core_x2 ltac:(lia) ltac:(lia)) as X1.
      assert (E1 : a * (Rabs (B2R chi) * Rabs (B2R chi)) = th * th) by (unfold th; rewrite <- QQ; ring). rewrite E1 in X1.
      pose proof (An_sub L _ _ _ _ _ _ _ _ _ _ X1 Two ltac:(lia) ltac:(lia)) as X2.
      pose proof (An_mul L _ _ _ _ _ _ _ _ _ _ Two Hcs ltac:(lia) ltac:(lia)) as X3.
      pose proof (An_add L _ _ _ _ _ _ _ _ _ _ X2 X3 ltac:(lia) ltac:(lia)) as X4.
      assert (TT : th * th <= IZR (2 ^ 10) * IZR (2 ^ 10)) by (apply Rmult_le_compat; lra).
      assert (Rg : in_range 23 B4).
      { apply range_between; [| lia]. unfold B4. split.
        - apply Rle_trans with 1; [simpl; lra |]. assert (0 <= th * th) by (apply Rmult_le_pos; lra). lra.
        - apply Rle_trans with (IZR (2 ^ 10) * IZR (2 ^ 10) + 2 + 2 * IZR (2 ^ 20)); [lra |].
          rewrite <- !mult_IZR, <- !plus_IZR. apply IZR_le. lia. }
      pose proof (An_weak L _ 23 _ (c + 6) _ B4 _ _ X4 (Rle_refl _) ltac:(lia) Rg ltac:(lia)) as X5.
      pose proof (An_mul L _ _ _ _ _ _ _ _ _ _ Two core_a2 ltac:(lia) ltac:(lia)) as Y.
      assert (Yp : Rabs (2 * B2R alpha ^ 2) = 2 * (a * a)).
      { unfold a. rewrite Rabs_mult, <- RPow_abs, (Rabs_pos_eq 2) by lra. ring. }
      rewrite <- Yp in Y. rewrite <- Yp.
      pose proof (An_div1 L _ _ _ _ _ _ _ _ _ X5 Y ltac:(apply Rmult_integral_contrapositive; split; [lra | apply pow_nonzero; exact Nz]) ltac:(lia) ltac:(lia)) as Z.
      apply (An_k L _ _ _ _ _ _ Z). lia.
    Qed.
    Let B5 : R := th * (th * th) + 6 * th + 6 * M.
    Lemma core_5n : Er32 71 5 (q * (th * (th * th) + 6 * th))
        (@n_sub _ N (@n_mul _ N (@n_mul _ N alpha alpha) (@n_mul _ N chi (@n_mul _ N chi chi)))
                    (@n_mul _ N (@n_mul _ N (@n_Z _ N 6) alpha) chi)) (B2R alpha ^ 2 * B2R chi ^ 3 - 6 * B2R alpha * B2R chi) /\
      Er32 32 (c + 8) (q * (6 * M)) (@n_mul _ N (@n_mul _ N (@n_Z _ N 6) rt) sn) (6 * q * Sv).
    Proof using All.
      pose proof core_q as [Q QQ].
      pose proof (core_Z 3 6 ltac:(lia) ltac:(lia) ltac:(lia)) as Six.
      pose proof (An_mul L _ _ _ _ _ _ _ _ _ _ core_a2 core_x3 ltac:(lia) ltac:(lia)) as X1.
      pose proof (An_mul L _ _ _ _ _ _ _ _ _ _ (An_mul L _ _ _ _ _ _ _ _ _ _ Six core_a ltac:(lia) ltac:(lia)) core_x ltac:(lia) ltac:(lia)) as X2.
      pose proof (An_sub L _ _ _ _ _ _ _ _ _ _ X1 X2 ltac:(lia) ltac:(lia)) as X3.
      pose proof (An_mul L _ _ _ _ _ _ _ _ _ _ (An_mul L _ _ _ _ _ _ _ _ _ _ Six Hrt ltac:(lia) ltac:(lia)) Hsn ltac:(lia) ltac:(lia)) as X4.
      assert (E1 : a * a * (Rabs (B2R chi) * (Rabs (B2R chi) * Rabs (B2R chi))) + 6 * a * Rabs (B2R chi) = q * (th * (th * th) + 6 * th)) by (unfold th; rewrite <- QQ; ring).
      rewrite E1 in X3. split; [exact X3 |].
      replace (q * (6 * M)) with (6 * q * M) by ring. apply (An_k L _ _ _ _ _ _ X4). lia.
    Qed.
    Lemma core_5r : in_range 41 (q * B5) /\ (0 <= 41)%Z.
    Proof using All.
      split; [| lia]. pose proof core_M as [_ MM]. pose proof core_th as T0.
      assert (T2 : th * th <= IZR (2 ^ 10) * IZR (2 ^ 10)) by (apply Rmult_le_compat; lra).
      assert (P2 : 0 <= th * th) by (apply Rmult_le_pos; lra).
      assert (T3 : th * (th * th) <= IZR (2 ^ 10) * (IZR (2 ^ 10) * IZR (2 ^ 10))) by (apply Rmult_le_compat; lra).
      assert (P3 : 0 <= th * (th * th)) by (apply Rmult_le_pos; lra).
      apply (range_mul 9 32); [lia | lia | apply Hrt |]. apply range_between; [| lia]. unfold B5. split.
      - apply Rle_trans with 1; [simpl; lra | lra].
      - apply Rle_trans with (IZR (2 ^ 10) * (IZR (2 ^ 10) * IZR (2 ^ 10)) + 6 * IZR (2 ^ 10) + 6 * IZR (2 ^ 20)); [lra |].
        rewrite <- !mult_IZR, <- !plus_IZR. apply IZR_le. lia.
    Qed.
    Lemma core_5d : Er32 54 3 (Rabs (6 * B2R alpha ^ 3)) (@n_mul _ N (@n_Z _ N 6) (@n_mul _ N alpha (@n_mul _ N alpha alpha))) (6 * B2R alpha ^ 3) /\
      6 * B2R alpha ^ 3 <> 0 /\ Rabs (6 * B2R alpha ^ 3) = 6 * (a * (a * a)).
    Proof using All.
      pose proof al_nz as Nz. pose proof (core_Z 3 6 ltac:(lia) ltac:(lia) ltac:(lia)) as Six.
      pose proof (An_mul L _ _ _ _ _ _ _ _ _ _ Six core_a3 ltac:(lia) ltac:(lia)) as Y.
      assert (Yp : Rabs (6 * B2R alpha ^ 3) = 6 * (a * (a * a))).
      { unfold a. rewrite Rabs_mult, <- RPow_abs, (Rabs_pos_eq 6) by lra. ring. }
      rewrite <- Yp in Y. split; [exact Y |]. split; [| exact Yp].
      apply Rmult_integral_contrapositive; split; [lra | apply pow_nonzero; exact Nz].
    Qed.
    Lemma core_5 : Er32 95 (c + 14) (q * B5 / (6 * (a * (a * a))))
      (@n_div _ N (@n_add _ N (@n_sub _ N (@n_mul _ N (@n_mul _ N alpha alpha) (@n_mul _ N chi (@n_mul _ N chi chi)))
                                 (@n_mul _ N (@n_mul _ N (@n_Z _ N 6) alpha) chi)) (@n_mul _ N (@n_mul _ N (@n_Z _ N 6) rt) sn))
                  (@n_mul _ N (@n_Z _ N 6) (@n_mul _ N alpha (@n_mul _ N alpha alpha))))
      ((B2R alpha ^ 2 * B2R chi ^ 3 - 6 * B2R alpha * B2R chi + 6 * q * Sv) / (6 * B2R alpha ^ 3)).
    Proof using All.
      destruct core_5n as [X1 X2]. destruct core_5r as [Rg Rp]. destruct core_5d as [Y [Nz Yp]].
      pose proof (An_add L _ _ _ _ _ _ _ _ _ _ X1 X2 ltac:(lia) ltac:(lia)) as X3.
      pose proof (An_weak L _ 41 _ (c + 9) _ (q * B5) _ _ X3 ltac:(right; unfold B5; ring) ltac:(lia) Rg Rp) as X4.
      rewrite <- Yp. pose proof (An_div1 L _ _ _ _ _ _ _ _ _ X4 Y Nz ltac:(lia) ltac:(lia)) as Z.
      apply (An_k L _ _ _ _ _ _ Z). lia.
    Qed.
    Lemma core_5h : Er32 95 (c + 14) (q * B5 / (6 * (a * (a * a))))
      (@n_div _ N (@n_sub _ N (@n_sub _ N (@n_mul _ N (@n_mul _ N alpha alpha) (@n_mul _ N chi (@n_mul _ N chi chi)))
                                 (@n_mul _ N (@n_mul _ N (@n_Z _ N 6) alpha) chi)) (@n_mul _ N (@n_mul _ N (@n_Z _ N 6) rt) sn))
                  (@n_mul _ N (@n_Z _ N 6) (@n_mul _ N alpha (@n_mul _ N alpha alpha))))
      ((B2R alpha ^ 2 * B2R chi ^ 3 - 6 * B2R alpha * B2R chi - 6 * q * Sv) / (6 * B2R alpha ^ 3)).
    Proof using All.
      destruct core_5n as [X1 X2]. destruct core_5r as [Rg Rp]. destruct core_5d as [Y [Nz Yp]].
      pose proof (An_sub L _ _ _ _ _ _ _ _ _ _ X1 X2 ltac:(lia) ltac:(lia)) as X3.
      pose proof (An_weak L _ 41 _ (c + 9) _ (q * B5) _ _ X3 ltac:(right; unfold B5; ring) ltac:(lia) Rg Rp) as X4.
      rewrite <- Yp. pose proof (An_div1 L _ _ _ _ _ _ _ _ _ X4 Y Nz ltac:(lia) ltac:(lia)) as Z.
      apply (An_k L _ _ _ _ _ _ Z). lia.
    Qed.
  End Core.

  Lemma exp_nat (n : nat) : exp (INR n) <= 3 ^ n.
  Proof using.
    induction n; [simpl; rewrite exp_0; lra |]. rewrite S_INR, exp_plus. simpl. rewrite Rmult_comm.
    apply Rmult_le_compat; try (left; apply exp_pos); [apply exp_le_3 | exact IHn].
  Qed.

  Section All.
    Variables (chi alpha : b32) (c : nat).
    Let a : R := Rabs (B2R alpha).
    Let q : R := sqrt a.
    Let th : R := q * Rabs (B2R chi).
    Let M : R := spread (B2R chi) (B2R alpha).
    Hypotheses (Hc : (c <= 8)%nat) (Ga : good32 17 alpha) (Gx : good32 12 chi).
    Hypothesis Trig : trig32 L c (2 * IZR (2 ^ 10)) (2 * 10).
    Hypotheses (Bt : 0 < B2R alpha -> th <= IZR (2 ^ 10)) (Bh : B2R alpha < 0 -> th <= 10).

    Definition UF : Prop :=
      Er32 20 (c + 4) M (@ufunc0 _ N chi alpha) (universal 0 (B2R chi) (B2R alpha)) /\
      Er32 29 (c + 8) (M / q) (@ufunc1 _ N chi alpha) (universal 1 (B2R chi) (B2R alpha)) /\
      Er32 38 (c + 7) (2 * M / a) (@ufunc2 _ N chi alpha) (universal 2 (B2R chi) (B2R alpha)) /\
      Er32 47 (c + 11) (2 * M / a / q) (@ufunc3 _ N chi alpha) (universal 3 (B2R chi) (B2R alpha)) /\
      Er32 58 (c + 11) ((th * th + 2 + 2 * M) / (2 * (a * a))) (@ufunc4 _ N chi alpha) (universal 4 (B2R chi) (B2R alpha)) /\
      Er32 95 (c + 14) (q * (th * (th * th) + 6 * th + 6 * M) / (6 * (a * (a * a)))) (@ufunc5 _ N chi alpha) (universal 5 (B2R chi) (B2R alpha)).

    Lemma gt_0 : @n_gt _ N alpha (@n_Z _ N 0) = Rlt_bool 0 (B2R alpha) /\ @n_lt _ N alpha (@n_Z _ N 0) = Rlt_bool (B2R alpha) 0.
    Proof using All.
      destruct Ga as [Fa _]. destruct (Fl_int 0 ltac:(lia)) as [F0 [t [V T]]].
      assert (V0 : B2R (b32_Z 0) = 0) by (rewrite V; ring).
      change (Bltb (b32_Z 0) alpha = Rlt_bool 0 (B2R alpha) /\ Bltb alpha (b32_Z 0) = Rlt_bool (B2R alpha) 0).
      rewrite !lt_exact by assumption. rewrite V0. split; reflexivity.
    Qed.
    Lemma th_pos : 0 <= th.
    Proof using All. apply Rmult_le_pos; [apply sqrt_pos | apply Rabs_pos]. Qed.
    Lemma root_ok (x : b32) : Er32 17 0 a x a -> 0 < a -> Er32 9 2 q (@n_sqrt _ N x) q.
    Proof using All.
      intros E P. pose proof (An_weak L _ (9 + 9) _ 0 _ _ _ _ E (Rle_refl _) ltac:(lia) ltac:(apply (range_mono 17); [lia | apply E]) ltac:(lia)) as E2.
      exact (An_sqrt L 9 0 _ _ E2 P ltac:(lia) ltac:(lia)).
    Qed.
    Lemma theta_ok (x : b32) : Er32 9 2 q x q ->
      let t := @n_mul _ N x chi in is_finite t = true /\ Rabs (B2R t - q * B2R chi) <= gam u32 3 * th /\ Rabs (B2R t) <= 2 * th.
    Proof using All.
      intro E. pose proof (An_mul L _ _ _ _ _ _ _ _ _ _ E (An_good L 12 chi ltac:(lia) Gx) ltac:(lia) ltac:(lia)) as D.
      cbv zeta. destruct D as [F [D1 [D2 _]]]. split; [exact F |]. fold th in D1, D2. split; [exact D1 |].
      pose proof th_pos. pose proof gam14 as G. pose proof (gam_mono' u32 ltac:(unfold u32, eps; lra) 3 14 ltac:(lia)) as G2.
      assert (gam u32 3 * th <= 1 * th) by (apply Rmult_le_compat_r; [assumption | simpl in G; lra]).
      change (Rabs (B2R (@n_mul _ N x chi)) <= 2 * th). change (Rabs (B2R (@n_mul _ N x chi) - q * B2R chi) <= gam u32 3 * th) in D1. set (t := B2R (@n_mul _ N x chi)) in *. replace t with ((t - q * B2R chi) + q * B2R chi) by ring. apply Rle_trans with (1 := Rabs_triang _ _). lra.
    Qed.
    Lemma all_pos : 0 < B2R alpha -> UF.
    Proof using All.
      intro P. unfold UF. destruct gt_0 as [B1 _]. rewrite Rlt_bool_true in B1 by exact P.
      assert (Aa : a = B2R alpha) by (apply Rabs_pos_eq; lra). assert (Pa : 0 < a) by lra. pose proof (Bt P) as Bp.
      assert (Haa : Er32 17 0 a alpha a) by (pose proof (An_good L 17 alpha ltac:(lia) Ga) as E; fold a in E; rewrite <- Aa in E; exact E).
      pose proof (root_ok alpha Haa Pa) as Hrt. set (rt := @n_sqrt _ N alpha) in *.
      destruct (theta_ok rt Hrt) as [Ft [Et Bd]]. set (t := @n_mul _ N rt chi) in *.
      pose proof th_pos as T0. pose proof (spread_pos (B2R chi) (B2R alpha) P) as EM. change (M = 1 + th) in EM.
      assert (RM : in_range 20 M).
      { apply range_between; [| lia]. rewrite EM. split; [apply Rle_trans with 1; [simpl; lra | lra] |].
        apply Rle_trans with (1 + IZR (2 ^ 10)); [lra |]. rewrite <- plus_IZR. apply IZR_le. lia. }
      destruct Trig as [Tr _]. destruct (Tr t Ft ltac:(lra)) as [[Fs Es] [Fc Ec]]. rewrite Rmult_1_r in Es, Ec. clear Tr.
      assert (U : eps <= u32 /\ 0 <= u32) by (unfold u32, eps; lra).
      assert (Hcs : Er32 20 (c + 4) M (m_cos L t) (cos (q * B2R chi))).
      { apply (An_k L _ (c + 3)); [| lia]. split; [exact Fc |]. split; [| split; [| split; [exact RM | lia]]].
        - rewrite EM. exact (arg_trig u32 (proj2 U) cos c 3 eps (B2R t) _ th _ cos_lip' (proj1 U) Et T0 Ec).
        - pose proof (COS_bound (q * B2R chi)). rewrite EM. apply Rabs_le. lra. }
      assert (Hsn : Er32 20 (c + 4) M (m_sin L t) (sin (q * B2R chi))).
      { apply (An_k L _ (c + 3)); [| lia]. split; [exact Fs |]. split; [| split; [| split; [exact RM | lia]]].
        - rewrite EM. exact (arg_trig u32 (proj2 U) sin c 3 eps (B2R t) _ th _ sin_lip' (proj1 U) Et T0 Es).
        - pose proof (SIN_bound (q * B2R chi)). rewrite EM. apply Rabs_le. lra. }
      clear Es Ec Fs Fc.
      destruct (uf_pos (B2R chi) (B2R alpha) P) as [-> [-> [-> [-> [-> ->]]]]]. fold a. fold q.
      assert (M1 : 1 <= M) by lra.
      unfold ufunc0, ufunc1, ufunc2, ufunc3, ufunc4, ufunc5. rewrite B1. cbn [where_]. fold rt. fold t.
      split; [exact Hcs |].
      split; [exact (core_1 chi alpha alpha rt _ _ c M _ _ Hc Ga Pa Gx Haa Hrt Hcs Hsn M1 Bp) |].
      split; [exact (core_2 chi alpha alpha rt _ _ c M _ _ Hc Ga Pa Gx Haa Hrt Hcs Hsn M1 Bp) |].
      split; [exact (core_3 chi alpha alpha rt _ _ c M _ _ Hc Ga Pa Gx Haa Hrt Hcs Hsn M1 Bp ltac:(fold a; fold q; fold th; lra)) |].
      split; [exact (core_4 chi alpha alpha rt _ _ c M _ _ Hc Ga Pa Gx Haa Hrt Hcs Hsn M1 Bp) |].
      exact (core_5 chi alpha alpha rt _ _ c M _ _ Hc Ga Pa Gx Haa Hrt Hcs Hsn M1 Bp).
    Qed.
    Lemma all_neg : B2R alpha < 0 -> UF.
    Proof using All.
      intro P. unfold UF. destruct gt_0 as [B1 B2]. rewrite Rlt_bool_false in B1 by lra. rewrite Rlt_bool_true in B2 by exact P.
      assert (Aa : a = - B2R alpha) by (apply Rabs_left; lra). assert (Pa : 0 < a) by lra. pose proof (Bh P) as Bp.
      set (na := @n_neg _ N alpha).
      assert (Haa : Er32 17 0 a na a).
      { pose proof (An_neg L _ _ _ _ _ (An_good L 17 alpha ltac:(lia) Ga)) as E; fold a in E; rewrite <- Aa in E; exact E. }
      pose proof (root_ok na Haa Pa) as Hrt. set (rt := @n_sqrt _ N na) in *.
      destruct (theta_ok rt Hrt) as [Ft [Et Bd]]. set (t := @n_mul _ N rt chi) in *.
      pose proof th_pos as T0. pose proof (spread_neg (B2R chi) (B2R alpha) P) as EM. change (M = (1 + th) * cosh (q * B2R chi)) in EM.
      destruct (cosh_ge_sinh (q * B2R chi)) as [CS [CC C1]].
      assert (C2 : cosh (q * B2R chi) <= IZR (3 ^ 10)).
      { pose proof (exp_nat 10) as E1. assert (E2 : forall x, x <= 10 -> exp x <= IZR (3 ^ 10)).
        { intros x Hx. apply Rle_trans with (exp (INR 10)); [apply exp_le'; rewrite INR_IZR_INZ; exact Hx |]. apply Rle_trans with (1 := E1). right. rewrite pow_IZR. reflexivity. }
        assert (Ab : Rabs (q * B2R chi) = th) by (unfold th; rewrite Rabs_mult, (Rabs_pos_eq q) by apply sqrt_pos; reflexivity).
        pose proof (Rle_abs (q * B2R chi)). pose proof (Rle_abs (- (q * B2R chi))) as Hm. rewrite Rabs_Ropp in Hm.
        pose proof (E2 (q * B2R chi) ltac:(lra)). pose proof (E2 (- (q * B2R chi)) ltac:(lra)). unfold cosh. lra. }
      assert (M1 : 1 <= M) by (rewrite EM; rewrite <- (Rmult_1_l 1); apply Rmult_le_compat; lra).
      assert (MC : cosh (q * B2R chi) <= M) by (rewrite EM; rewrite <- (Rmult_1_l (cosh _)) at 1; apply Rmult_le_compat_r; lra).
      assert (MT : th <= M) by (rewrite EM; rewrite <- (Rmult_1_r th) at 1; apply Rmult_le_compat; lra).
      assert (RM : in_range 20 M).
      { apply range_between; [| lia]. split; [apply Rle_trans with 1; [simpl; lra | lra] |]. rewrite EM.
        apply Rle_trans with ((1 + 10) * IZR (3 ^ 10)); [apply Rmult_le_compat; lra |]. rewrite <- plus_IZR, <- mult_IZR. apply IZR_le. apply Z.leb_le. vm_compute. reflexivity. }
      destruct Trig as [_ Tr]. destruct (Tr t Ft ltac:(lra)) as [[Fs Es] [Fc Ec]]. clear Tr.
      assert (U : eps <= u32 /\ 0 <= u32 /\ u32 <= / 100000) by (unfold u32, eps; lra). destruct U as [U1 [U2 U3]].
      assert (CK : INR c + INR 3 <= 100). { apply le_INR in Hc. simpl in *. lra. }
      assert (G3 : gam u32 3 * th <= / 1000).
      { pose proof gam14 as G. pose proof (gam_mono' u32 U2 3 14 ltac:(lia)) as G2. apply Rle_trans with (/ 10 ^ 6 * 10); [apply Rmult_le_compat; [apply gam_pos'; exact U2 | lra | lra | lra] | simpl; lra]. }
      assert (Hcs : Er32 20 (c + 4) M (m_cosh L t) (cosh (q * B2R chi))).
      { split; [exact Fc |]. split; [| split; [lra | split; [exact RM | lia]]].
        replace (c + 4)%nat with (c + 3 + 1)%nat by lia. rewrite EM.
        exact (arg_hyp u32 U2 cosh sinh c 3 eps (B2R t) _ th _ cosh_d (fun x => proj1 (cosh_ge_sinh x)) U1 CK U3 Et T0 G3 Ec). }
      assert (Hsn : Er32 20 (c + 4) M (m_sinh L t) (sinh (q * B2R chi))).
      { split; [exact Fs |]. split; [| split; [lra | split; [exact RM | lia]]].
        replace (c + 4)%nat with (c + 3 + 1)%nat by lia. rewrite EM.
        exact (arg_hyp u32 U2 sinh cosh c 3 eps (B2R t) _ th _ sinh_d (fun x => proj1 (proj2 (cosh_ge_sinh x))) U1 CK U3 Et T0 G3 Es). }
      clear Es Ec Fs Fc.
      destruct (uf_neg (B2R chi) (B2R alpha) P) as [-> [-> [-> [-> [-> ->]]]]]. fold a. fold q.
      assert (Bt' : th <= IZR (2 ^ 10)) by (apply Rle_trans with (1 := Bp); apply IZR_le; lia).
      unfold ufunc0, ufunc1, ufunc2, ufunc3, ufunc4, ufunc5. rewrite B1, B2. cbn [where_]. fold na. fold rt. fold t.
      split; [exact Hcs |].
      split; [exact (core_1 chi alpha na rt _ _ c M _ _ Hc Ga Pa Gx Haa Hrt Hcs Hsn M1 Bt') |].
      split; [exact (core_2h chi alpha na rt _ _ c M _ _ Hc Ga Pa Gx Haa Hrt Hcs Hsn M1 Bt') |].
      split; [exact (core_3 chi alpha na rt _ _ c M _ _ Hc Ga Pa Gx Haa Hrt Hcs Hsn M1 Bt' MT) |].
      split; [exact (core_4 chi alpha na rt _ _ c M _ _ Hc Ga Pa Gx Haa Hrt Hcs Hsn M1 Bt') |].
      exact (core_5h chi alpha na rt _ _ c M _ _ Hc Ga Pa Gx Haa Hrt Hcs Hsn M1 Bt').
    Qed.
    Lemma all_nz : B2R alpha <> 0 -> UF.
    Proof using All.
      intro H. destruct (Rtotal_order (B2R alpha) 0) as [Q | [Q | Q]]; [apply all_neg; exact Q | contradiction | apply all_pos; exact Q].
    Qed.
  End All.
End Uf.
