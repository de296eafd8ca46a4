(** * B64Geo: rounding errors of the vector formulas in double precision (proofs for C78, C79) *)
From Coq Require Import ZArith Reals Lra Lia Psatz Bool List.
From Flocq Require Import Core IEEE754.BinarySingleNaN.
From Verif Require Import Num NumB64 Spec SpecFl SpecFl64 SpecFlV RelLib RoundAn B64Lib B64Acc B64Rel B64An.
From Verif Require Import OrbIntegrals Uniformulas PathCheck.
Local Open Scope R_scope.

Lemma one_range : in_range 0 1. Proof. right. rewrite Rabs_R1. simpl. lra. Qed.

Lemma gam14 : gam u64 14 <= / 10 ^ 6.
Proof. unfold gam, u64, eps. simpl. lra. Qed.

Section Geo.
  Variable L : libm64.
  Let N : Num b64 := Num_B64 L.

  Lemma geo_norm (a : V3 b64) : good64v 100 a -> off64 4 (vnorm (real64 a)) (@vector_norm _ N a) (vnorm (real64 a)).
  Proof using L N.
    intro G. destruct (Req_dec (vnorm (real64 a)) 0) as [Z | Z].
    - pose proof (Ev_inner0 L 100 100 a a ltac:(lia) ltac:(lia) ltac:(lia) G G) as [Fx [Ex _]].
      rewrite Z, !Rmult_0_r in Ex.
      assert (D0 : dot (real64 a) (real64 a) = 0).
      { apply sqrt_eq_0; [| exact Z]. unfold dot. pose proof (Rle_0_sqr (c0 (real64 a))).
        pose proof (Rle_0_sqr (c1 (real64 a))). pose proof (Rle_0_sqr (c2 (real64 a))). unfold Rsqr in *. lra. }
      rewrite D0, Rminus_0_r in Ex.
      assert (V0 : B2R (@vinner _ N a a) = 0).
      { destruct (Req_dec (B2R (@vinner _ N a a)) 0) as [K | K]; [exact K |]. pose proof (Rabs_pos_lt _ K) as K'. fold N in Ex. lra. }
      destruct (f_sqrt' L (@vinner _ N a a) Fx ltac:(lra)) as [Vs Fs]. split; [exact Fs |].
      rewrite Z. unfold vector_norm. fold N in Vs. rewrite Vs, V0, sqrt_0, rd_0', Rminus_0_r, Rabs_R0. lra.
    - assert (Nz : real64 a <> vzero).
      { intro E. apply Z. rewrite E. unfold vnorm, dot, vzero; simpl. rewrite Rmult_0_l, !Rplus_0_r. apply sqrt_0. }
      eapply (An_final L); [exact (Ev_norm0 L 100 a G Nz ltac:(lia) ltac:(lia)) | lia | simpl; lra | lra | reflexivity].
  Qed.

  Variables (r v : V3 b64).
  Hypotheses (Gr : good64v 100 r) (Gv : good64v 100 v).
  Let R1 : R := vnorm (real64 r).
  Let V1 : R := vnorm (real64 v).
  Let h := cross (real64 r) (real64 v).
  Lemma h_ok : Ev64 200 2 (R1 * V1) (@angular_momentum _ N r v) h.
  Proof using All. exact (Ev_cross0 L 100 100 r v ltac:(lia) ltac:(lia) ltac:(lia) Gr Gv). Qed.
  Lemma geo_h : off64v 3 (R1 * V1) (@angular_momentum _ N r v) h.
  Proof using All. eapply (Ev_final L); [exact h_ok | lia | simpl; lra | lra | reflexivity]. Qed.

  Variable mu : b64.
  Hypotheses (Gm : good64 100 mu) (Pm : 0 < B2R mu).
  Let M1 : R := B2R mu.

  Lemma mu_ok : Er64 100 0 M1 mu M1.
  Proof using All. pose proof (An_good L 100 mu ltac:(lia) Gm) as E. rewrite Rabs_pos_eq in E by lra. exact E. Qed.
  Lemma R1_pos : 0 <= R1. Proof using All. apply sqrt_pos. Qed.
  Lemma V1_pos : 0 <= V1. Proof using All. apply sqrt_pos. Qed.

  Lemma geo_sigma : off64 8 (R1 * V1 / sqrt M1) (@sigma_fn _ N r v mu) (dot (real64 r) (real64 v) / sqrt M1).
  Proof using All.
    pose proof (Ev_inner0 L 100 100 r v ltac:(lia) ltac:(lia) ltac:(lia) Gr Gv) as D.
    pose proof (An_weak L 100 100 0 0 _ _ _ _ mu_ok (Rle_refl _) ltac:(lia) ltac:(apply (range_mono 100); [lia | apply mu_ok]) ltac:(lia)) as M2.
    pose proof (An_sqrt L 50 0 _ _ M2 Pm ltac:(lia) ltac:(lia)) as Q.
    pose proof (sqrt_lt_R0 _ Pm) as Sp. fold M1 in Sp.
    assert (Q' : Er64 50 2 (Rabs (sqrt M1)) (@n_sqrt _ N mu) (sqrt M1)) by (rewrite Rabs_pos_eq by lra; exact Q).
    pose proof (An_div1 L _ _ _ _ _ _ _ _ _ D Q' ltac:(lra) ltac:(lia) ltac:(lia)) as E.
    apply (An_final L 8 _ _ _ _ _ _ _ E); [lia | simpl; lra | | reflexivity].
    rewrite Rabs_pos_eq by lra. apply Rle_refl.
  Qed.

  Definition big : R := 2 * (V1 * (R1 * V1)) / M1 + 1.
  Hypothesis Nr : real64 r <> vzero.
  Lemma R1_nz : 0 < R1. Proof using All. apply sqrt_lt_R0, dot_pos_nz. exact Nr. Qed.

  Lemma e_ok : Ev64 402 7 big (@eccentricity_vector _ N r v mu) (laplace M1 (real64 r) (real64 v)).
  Proof using All.
    pose proof R1_nz as P. assert (PM : 0 < M1) by exact Pm.
    pose proof (Ev_good L 100 v ltac:(lia) Gv) as Ov. pose proof (Ev_good L 100 r ltac:(lia) Gr) as Or.
    pose proof (Ev_cross L _ _ _ _ _ _ _ _ _ _ Ov h_ok ltac:(lia) ltac:(lia)) as X.
    assert (M2 : Er64 100 0 (Rabs M1) mu M1) by (rewrite Rabs_pos_eq by lra; exact mu_ok).
    pose proof (Ev_divs L _ _ _ _ _ _ _ _ _ X M2 ltac:(lra) ltac:(lia) ltac:(lia)) as A.
    assert (Q : Er64 100 3 (Rabs R1) (@vector_norm _ N r) R1).
    { rewrite Rabs_pos_eq by lra. exact (Ev_norm0 L 100 r Gr Nr ltac:(lia) ltac:(lia)). }
    pose proof (Ev_divs L _ _ _ _ _ _ _ _ _ Or Q ltac:(lra) ltac:(lia) ltac:(lia)) as B.
    fold R1 in B. rewrite (Rabs_pos_eq R1) in B by lra. replace (R1 / R1) with 1 in B by (field; lra).
    apply (Ev_weak L _ 0 _ 5 1 1) in B; [| lra | lia | exact one_range | lia].
    fold V1 in A. rewrite (Rabs_pos_eq M1) in A by lra.
    pose proof (Ev_sub L _ _ _ _ _ _ _ _ _ _ A B ltac:(lia) ltac:(lia)) as D.
    assert (EQ : laplace M1 (real64 r) (real64 v)
      = vminus (mk3 (c0 (cross (real64 v) h) / M1) (c1 (cross (real64 v) h) / M1) (c2 (cross (real64 v) h) / M1))
               (mk3 (c0 (real64 r) / R1) (c1 (real64 r) / R1) (c2 (real64 r) / R1))).
    { unfold laplace, vminus, smul, h; cbn [c0 c1 c2]. fold R1. f_equal; unfold Rdiv; ring. }
    rewrite EQ. exact D.
  Qed.

  Lemma geo_ecc : off64v 8 (2 * R1 * V1 ^ 2 / M1 + 1) (@eccentricity_vector _ N r v mu) (laplace M1 (real64 r) (real64 v)).
  Proof using All.
    eapply (Ev_final L); [exact e_ok | lia | simpl; lra | | reflexivity].
    unfold big. apply Req_le. assert (0 < M1) by exact Pm. field. lra.
  Qed.
  Lemma p_ok : Er64 502 19 (2 * (R1 * V1) * (2 * (R1 * V1)) / M1) (@semiparameter _ N (@vector_norm _ N (@angular_momentum _ N r v)) mu) (dot h h / M1).
  Proof using All.
    pose proof (Ev_norm L 200 2 _ _ _ h_ok ltac:(lia) ltac:(lia)) as H.
    pose proof (An_mul L _ _ _ _ _ _ _ _ _ _ H H ltac:(lia) ltac:(lia)) as H2.
    assert (PM : 0 < M1) by exact Pm.
    assert (M2 : Er64 100 0 (Rabs M1) mu M1) by (rewrite Rabs_pos_eq by lra; exact mu_ok).
    pose proof (An_div1 L _ _ _ _ _ _ _ _ _ H2 M2 ltac:(lra) ltac:(lia) ltac:(lia)) as Q.
    rewrite (Rabs_pos_eq M1) in Q by lra. apply (An_v L _ _ _ _ _ _ _ Q); [reflexivity |].
    assert (D : 0 <= dot h h).
    { unfold dot. pose proof (Rle_0_sqr (c0 h)). pose proof (Rle_0_sqr (c1 h)). pose proof (Rle_0_sqr (c2 h)). unfold Rsqr in *. lra. }
    unfold vnorm. rewrite sqrt_sqrt by exact D. reflexivity.
  Qed.
  Lemma geo_p : off64 20 (4 * R1 ^ 2 * V1 ^ 2 / M1) (@semiparameter _ N (@vector_norm _ N (@angular_momentum _ N r v)) mu) (dot h h / M1).
  Proof using All.
    eapply (An_final L); [exact p_ok | lia | simpl; lra | | reflexivity]. apply Req_le. assert (0 < M1) by exact Pm. field. lra.
  Qed.

  Hypothesis Slow : R1 * V1 ^ 2 <= 1000 * M1.
  Let e1 : R := vnorm (laplace M1 (real64 r) (real64 v)).
  Lemma big_le : 1 <= big <= 2001.
  Proof using All.
    unfold big. assert (PM : 0 < M1) by exact Pm. pose proof R1_pos. pose proof V1_pos.
    assert (0 <= V1 * (R1 * V1)) by (repeat apply Rmult_le_pos; assumption).
    replace (2 * (V1 * (R1 * V1)) / M1) with (2 * ((R1 * V1 ^ 2) / M1)) by (field; lra).
    assert (R1 * V1 ^ 2 / M1 <= 1000) by (apply Rmult_le_reg_r with M1; [exact PM |]; unfold Rdiv; rewrite Rmult_assoc, Rinv_l by lra; lra).
    assert (0 <= R1 * V1 ^ 2 / M1) by (apply Rmult_le_pos; [simpl; nra | left; apply Rinv_0_lt_compat; exact PM]). lra.
  Qed.
  Lemma e_ok' : Ev64 11 7 big (@eccentricity_vector _ N r v mu) (laplace M1 (real64 r) (real64 v)).
  Proof using All.
    pose proof big_le as B. apply (Ev_weak L _ 11 _ 7 _ big _ _ e_ok); [lra | lia | | lia].
    apply range_between; [simpl; lra | lia].
  Qed.
  Lemma emag_ok : Er64 12 13 (2 * big) (@vector_norm _ N (@eccentricity_vector _ N r v mu)) (vnorm (laplace M1 (real64 r) (real64 v))).
  Proof using All.
    exact (Ev_norm L 11 7 _ _ _ e_ok' ltac:(lia) ltac:(lia)). Qed.
  Lemma geo_emag : off64 14 (2 * (2 * R1 * V1 ^ 2 / M1 + 1)) (@vector_norm _ N (@eccentricity_vector _ N r v mu)) (vnorm (laplace M1 (real64 r) (real64 v))).
  Proof using All.
    eapply (An_final L); [exact emag_ok | lia | simpl; lra | | reflexivity].
    unfold big. apply Req_le. assert (0 < M1) by exact Pm. field. lra.
  Qed.
  Lemma d_ok : Er64 13 14 (1 + 2 * big) (@n_add _ N (@n_Z _ N 1) (@vector_norm _ N (@eccentricity_vector _ N r v mu))) (1 + e1).
  Proof using All.
    pose proof (An_Z L 0 1 ltac:(lia) ltac:(lia) ltac:(lia)) as O. rewrite Rabs_R1 in O. pose proof big_le as B.
    assert (I : in_range 12 (2 * big)) by (apply range_between; [simpl; lra | lia]).
    pose proof (An_weak L 12 12 13 13 _ _ _ _ emag_ok (Rle_refl _) ltac:(lia) I ltac:(lia)) as E.
    exact (An_add L _ _ _ _ _ _ _ _ _ _ O E ltac:(lia) ltac:(lia)).
  Qed.
  Lemma geo_rp : off64 36 (4 * R1 ^ 2 * V1 ^ 2 / M1 * (4 * R1 * V1 ^ 2 / M1 + 3) / (1 + e1) ^ 2)
    (@radius_periapsis _ N (@semiparameter _ N (@vector_norm _ N (@angular_momentum _ N r v)) mu)
                           (@vector_norm _ N (@eccentricity_vector _ N r v mu)))
    (dot h h / M1 / (1 + e1)).
  Proof using All.
    pose proof p_ok as P. pose proof d_ok as D. pose proof big_le as B. assert (PM : 0 < M1) by exact Pm.
    assert (E0 : 0 <= e1) by apply sqrt_pos. assert (E1 : e1 <= 2 * big) by (destruct emag_ok as [_ [_ [K _]]]; rewrite Rabs_pos_eq in K by exact E0; exact K).
    pose proof (An_m L _ _ _ _ _ P) as P0.
    assert (W1 : 1 <= (1 + e1) ^ 2 <= IZR (2 ^ 24)).
    { split; [nra |]. apply Rle_trans with (4004 ^ 2); [apply pow_incr; lra | simpl; lra]. }
    assert (P1 : in_range 502 (2 * (R1 * V1) * (2 * (R1 * V1)) / M1)) by apply P.
    eapply (An_final L).
    - apply (An_div L 502 13 526 19 14 _ _ _ _ _ _ P D); [lra | | | lia | lia].
      + rewrite Rabs_pos_eq by lra. pose proof gam14 as G.
        apply Rle_trans with (/ 10 ^ 6 * (1 + 2 * big)); [apply Rmult_le_compat_r; lra | lra].
      + replace (2 * (R1 * V1) * (2 * (R1 * V1)) / M1 * (1 + 2 * big) / (1 + e1) ^ 2)
          with (2 * (R1 * V1) * (2 * (R1 * V1)) / M1 * ((1 + 2 * big) / (1 + e1) ^ 2)) by (field; lra).
        apply (range_mul 502 24); [lia | lia | exact P1 |]. apply range_between; [| lia].
        assert (W2 : 0 < (1 + e1) ^ 2) by lra. assert (W3 : / IZR (2 ^ 24) <= / (1 + e1) ^ 2 <= / 1) by (split; apply Rinv_le_contravar; lra).
        assert (0 < / IZR (2 ^ 24)) by (simpl; lra). unfold Rdiv. split.
        * apply Rle_trans with (1 * / IZR (2 ^ 24)); [lra |]. apply Rmult_le_compat; lra.
        * apply Rle_trans with (4003 * / 1); [apply Rmult_le_compat; lra | simpl; lra].
    - lia.
    - simpl. lra.
    - apply Req_le. unfold big. field. split; lra.
    - reflexivity.
  Qed.
End Geo.
