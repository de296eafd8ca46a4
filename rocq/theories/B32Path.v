(** * B32Path: the path decisions in single precision, away from their boundaries (proofs for C79) *)
From Coq Require Import ZArith Reals Lra Lia Psatz Bool List.
From Flocq Require Import Core IEEE754.BinarySingleNaN.
From Verif Require Import Num NumB32 Spec SpecFl SpecFl32 SpecFlV RelLib RoundAn B32Lib B32Acc B32Rel B32An B32Closed B32Geo.
From Verif Require Import OrbIntegrals Uniformulas PathCheck.
Local Open Scope R_scope.

Lemma Rlt_bool_iff (x y : R) : Rlt_bool x y = true <-> x < y.
Proof. destruct (Rlt_bool_spec x y) as [H | H]; split; intro K; try reflexivity; try assumption; [discriminate | lra]. Qed.
Lemma eqb_iff (b c : bool) : Bool.eqb b c = true <-> (b = true <-> c = true).
Proof.
  destruct b, c; simpl; split; intro H; try reflexivity; try discriminate H; try (split; discriminate).
  - destruct H as [H _]. exact (H eq_refl).
  - destruct H as [_ H]. exact (H eq_refl).
Qed.

Section Path.
  Variable L : libm.
  Let N : Num b32 := Num_B32 L.

  Lemma near_lt (C m : R) (g t : b32) (v : R) : off C m g v -> is_finite t = true -> C * / IZR (2 ^ 24) * m < Rabs (v - B2R t) ->
    @n_lt _ N g t = Rlt_bool v (B2R t).
  Proof using.
    intros [Fg E] Ft H. change (@n_lt _ N g t) with (Bltb g t). rewrite lt_exact by assumption.
    apply Rabs_le_inv in E.
    destruct (Rlt_bool_spec v (B2R t)) as [K | K].
    - rewrite Rabs_left in H by lra. apply Rlt_bool_true. lra.
    - rewrite Rabs_pos_eq in H by lra. apply Rlt_bool_false. lra.
  Qed.
  Lemma near_gt0 (C m : R) (g : b32) (v : R) : off C m g v -> C * / IZR (2 ^ 24) * m < Rabs v ->
    @n_gt _ N g (@n_Z _ N 0) = Rlt_bool 0 v.
  Proof using.
    intros [Fg E] H. assert (V0 : B2R (b32_Z 0) = 0) by reflexivity. assert (F0 : is_finite (b32_Z 0) = true) by reflexivity. change (@n_gt _ N g (@n_Z _ N 0)) with (Bltb (b32_Z 0) g).
    rewrite lt_exact, V0 by assumption. apply Rabs_le_inv in E.
    destruct (Rlt_bool_spec 0 v) as [K | K].
    - rewrite Rabs_pos_eq in H by lra. apply Rlt_bool_true. lra.
    - rewrite Rabs_left1 in H by lra. apply Rlt_bool_false. lra.
  Qed.

  Variables (r v r2 : V3 b32).
  Hypotheses (Gr : good32v 17 r) (Gv : good32v 8 v) (G2 : good32v 17 r2).
  Let R1 : R := vnorm (real32 r).
  Let V1 : R := vnorm (real32 v).
  Let R2 : R := vnorm (real32 r2).

  Lemma short_value : off 8 (3 * (R1 * V1 * (R1 * R2))) (@vinner _ N (@vcross _ N r v) (@vcross _ N r r2))
    (dot (cross (real32 r) (real32 v)) (cross (real32 r) (real32 r2))).
  Proof using All.
    pose proof (Ev_cross0 L 17 8 r v ltac:(lia) ltac:(lia) ltac:(lia) Gr Gv) as H.
    pose proof (Ev_cross0 L 17 17 r r2 ltac:(lia) ltac:(lia) ltac:(lia) Gr G2) as K.
    pose proof (Ev_inner L _ _ _ _ _ _ _ _ _ _ H K ltac:(lia) ltac:(lia)) as D.
    apply (An_final L 8 _ _ _ _ _ _ _ D); [lia | simpl; lra | apply Rle_refl | reflexivity].
  Qed.
  Lemma short_ok : 24 * / IZR (2 ^ 24) * (R1 ^ 2 * V1 * R2) < Rabs (dot (cross (real32 r) (real32 v)) (cross (real32 r) (real32 r2))) ->
    @is_short_way _ N r v r2 = Rlt_bool 0 (dot (cross (real32 r) (real32 v)) (cross (real32 r) (real32 r2))).
  Proof using All.
    intro H. apply (near_gt0 8 (3 * (R1 * V1 * (R1 * R2)))); [exact short_value |].
    replace (8 * / IZR (2 ^ 24) * (3 * (R1 * V1 * (R1 * R2)))) with (24 * / IZR (2 ^ 24) * (R1 ^ 2 * V1 * R2)) by ring. exact H.
  Qed.

  Lemma short_iff : 24 * / IZR (2 ^ 24) * (R1 ^ 2 * V1 * R2) < Rabs (dot (cross (real32 r) (real32 v)) (cross (real32 r) (real32 r2))) ->
    @is_short_way _ N r v r2 = true <-> 0 < dot (cross (real32 r) (real32 v)) (cross (real32 r) (real32 r2)).
  Proof using All. intro H. rewrite short_ok by exact H. apply Rlt_bool_iff. Qed.

  Variable mu : b32.
  Hypotheses (Gm : good32 20 mu) (Pm : 0 < B2R mu) (Nr : real32 r <> vzero).
  Let M1 : R := B2R mu.
  Let e := laplace M1 (real32 r) (real32 v).
  Let Q : R := 2 * R1 * V1 ^ 2 / M1 + 1.
  Let n12 := cross (real32 r) (real32 r2).

  Lemma Q_big : big r v mu = Q.
  Proof using All. unfold big, Q, R1, V1, M1. assert (0 < B2R mu) by exact Pm. field. lra. Qed.
  Lemma per_values :
    off 15 (6 * (R1 ^ 2 * R2 * Q)) (@vinner _ N (@vcross _ N r r2) (@vcross _ N r (@eccentricity_vector _ N r v mu))) (dot n12 (cross (real32 r) e)) /\
    off 15 (6 * (R1 * R2 ^ 2 * Q)) (@vinner _ N (@vcross _ N r r2) (@vcross _ N (@eccentricity_vector _ N r v mu) r2)) (dot n12 (cross e (real32 r2))).
  Proof using All.
    pose proof (e_ok L r v Gr Gv mu Gm Pm Nr) as E. rewrite Q_big in E.
    pose proof (Ev_cross0 L 17 17 r r2 ltac:(lia) ltac:(lia) ltac:(lia) Gr G2) as K.
    pose proof (Ev_good L 17 r ltac:(lia) Gr) as Or. pose proof (Ev_good L 17 r2 ltac:(lia) G2) as O2.
    pose proof (Ev_cross L _ _ _ _ _ _ _ _ _ _ Or E ltac:(lia) ltac:(lia)) as A.
    pose proof (Ev_cross L _ _ _ _ _ _ _ _ _ _ E O2 ltac:(lia) ltac:(lia)) as B.
    pose proof (Ev_inner L _ _ _ _ _ _ _ _ _ _ K A ltac:(lia) ltac:(lia)) as DA.
    pose proof (Ev_inner L _ _ _ _ _ _ _ _ _ _ K B ltac:(lia) ltac:(lia)) as DB.
    split; [apply (An_final L 15 _ _ _ _ _ _ _ DA) | apply (An_final L 15 _ _ _ _ _ _ _ DB)];
      try lia; try (simpl; lra); try reflexivity; apply Req_le; unfold R1, R2; ring.
  Qed.
  Lemma perigee_ok :
    24 * / IZR (2 ^ 24) * (R1 ^ 2 * V1 * R2) < Rabs (dot (cross (real32 r) (real32 v)) n12) ->
    90 * / IZR (2 ^ 24) * (R1 ^ 2 * R2 * Q) < Rabs (dot n12 (cross (real32 r) e)) ->
    90 * / IZR (2 ^ 24) * (R1 * R2 ^ 2 * Q) < Rabs (dot n12 (cross e (real32 r2))) ->
    @pass_perigee _ N r v r2 mu =
      Bool.eqb (Rlt_bool 0 (dot n12 (cross (real32 r) e)) && Rlt_bool 0 (dot n12 (cross e (real32 r2))))
               (Rlt_bool 0 (dot (cross (real32 r) (real32 v)) n12)).
  Proof using All.
    intros H1 H2 H3. destruct per_values as [A B]. unfold pass_perigee. rewrite short_ok by exact H1.
    rewrite (near_gt0 _ _ _ _ A) by (replace (15 * / IZR (2 ^ 24) * (6 * (R1 ^ 2 * R2 * Q))) with (90 * / IZR (2 ^ 24) * (R1 ^ 2 * R2 * Q)) by ring; exact H2).
    rewrite (near_gt0 _ _ _ _ B) by (replace (15 * / IZR (2 ^ 24) * (6 * (R1 * R2 ^ 2 * Q))) with (90 * / IZR (2 ^ 24) * (R1 * R2 ^ 2 * Q)) by ring; exact H3).
    reflexivity.
  Qed.

  Lemma perigee_iff :
    24 * / IZR (2 ^ 24) * (R1 ^ 2 * V1 * R2) < Rabs (dot (cross (real32 r) (real32 v)) n12) ->
    90 * / IZR (2 ^ 24) * (R1 ^ 2 * R2 * Q) < Rabs (dot n12 (cross (real32 r) e)) ->
    90 * / IZR (2 ^ 24) * (R1 * R2 ^ 2 * Q) < Rabs (dot n12 (cross e (real32 r2))) ->
    @pass_perigee _ N r v r2 mu = true <->
      (0 < dot n12 (cross (real32 r) e) /\ 0 < dot n12 (cross e (real32 r2)) <-> 0 < dot (cross (real32 r) (real32 v)) n12).
  Proof using All.
    intros H1 H2 H3. rewrite perigee_ok by assumption. rewrite eqb_iff, andb_true_iff, !Rlt_bool_iff. reflexivity.
  Qed.

End Path.

Section Low.
  Variable L : libm.
  Let N : Num b32 := Num_B32 L.
  Variables (r v : V3 b32).
  Hypotheses (Gr : good32v 17 r) (Gv : good32v 8 v).
  Variable mu : b32.
  Hypotheses (Gm : good32 20 mu) (Pm : 0 < B2R mu) (Nr : real32 r <> vzero).
  Hypothesis Slow : vnorm (real32 r) * vnorm (real32 v) ^ 2 <= 1000 * B2R mu.
  Let q : R := vnorm (real32 r) * vnorm (real32 v) ^ 2 / B2R mu.
  Let h := cross (real32 r) (real32 v).
  Let e : R := vnorm (laplace (B2R mu) (real32 r) (real32 v)).
  Let e' := @vector_norm _ N (@eccentricity_vector _ N r v mu).
  Let p' := @semiparameter _ N (@vector_norm _ N (@angular_momentum _ N r v)) mu.
  Lemma size_all : off 14 (2 * (2 * q + 1)) e' e /\
    off 20 (4 * vnorm (real32 r) * q) p' (dot h h / B2R mu) /\
    off 36 (4 * vnorm (real32 r) * q * (4 * q + 3) / (1 + e) ^ 2) (@radius_periapsis _ N p' e') (dot h h / B2R mu / (1 + e)).
  Proof using All.
    assert (Q1 : 2 * q = 2 * vnorm (real32 r) * vnorm (real32 v) ^ 2 / B2R mu) by (unfold q; field; lra).
    assert (Q2 : 4 * vnorm (real32 r) * q = 4 * vnorm (real32 r) ^ 2 * vnorm (real32 v) ^ 2 / B2R mu) by (unfold q; field; lra).
    assert (Q3 : 4 * q = 4 * vnorm (real32 r) * vnorm (real32 v) ^ 2 / B2R mu) by (unfold q; field; lra).
    rewrite Q1, Q2, Q3. split; [| split].
    - exact (geo_emag L r v Gr Gv mu Gm Pm Nr Slow).
    - exact (geo_p L r v Gr Gv mu Gm Pm Nr).
    - exact (geo_rp L r v Gr Gv mu Gm Pm Nr Slow).
  Qed.
  Let rp : R := dot h h / B2R mu / (1 + e).
  Lemma low_iff (rmin : b32) : is_finite rmin = true ->
    36 * / IZR (2 ^ 24) * (4 * vnorm (real32 r) * q * (4 * q + 3) / (1 + e) ^ 2) < Rabs (rp - B2R rmin) ->
    @rp_islower_rmin _ N rmin r v mu = true <-> rp < B2R rmin.
  Proof using All.
    intros Fm H. destruct size_all as [_ [_ E]]. 
    assert (K : @rp_islower_rmin _ N rmin r v mu = Rlt_bool rp (B2R rmin)) by exact (near_lt L _ _ _ _ _ E Fm H).
    rewrite K. apply Rlt_bool_iff.
  Qed.
End Low.


(** ** The number of revolutions *)
Section Nmax.
  Variable L : libm.
  Let N : Num b32 := Num_B32 L.

  Lemma floor_value (x : b32) : is_finite x = true -> is_finite (@n_floor _ N x) = true /\ B2R (@n_floor _ N x) = IZR (Zfloor (B2R x)).
  Proof using.
    intro F. pose proof (Bnearbyint_correct 24 128 _ mode_DN x) as [V [Fi _]]. change (@n_floor _ N x) with (Bnearbyint mode_DN x).
    split; [rewrite Fi; exact F |]. rewrite V. unfold round, F2R, scaled_mantissa, cexp, FIX_exp. simpl. rewrite !Rmult_1_r. reflexivity.
  Qed.
  Lemma max_value (x y : b32) : is_finite x = true -> is_finite y = true ->
    is_finite (@n_max _ N x y) = true /\ B2R (@n_max _ N x y) = Rmax (B2R x) (B2R y).
  Proof using.
    intros Fx Fy. change (@n_max _ N x y) with (b32_max x y). unfold b32_max.
    replace (is_nan x) with false by (destruct x; try discriminate Fx; reflexivity).
    replace (is_nan y) with false by (destruct y; try discriminate Fy; reflexivity).
    rewrite lt_exact by assumption.
    destruct (Rlt_bool_spec (B2R x) (B2R y)) as [K | K]; split; try assumption; symmetry.
    - apply Rmax_right. lra.
    - apply Rmax_left. exact K.
  Qed.

  Variables (rp r1 r2 tof mu : b32).
  Hypotheses (Gp : good32 17 rp) (G1 : good32 17 r1) (G2 : good32 17 r2) (Gt : good32 40 tof) (Gm : good32 20 mu).
  Hypotheses (Pp : 0 < B2R rp) (P1 : 0 < B2R r1) (P2 : 0 < B2R r2) (Pm : 0 < B2R mu).
  Let a : R := (Rmax (B2R r1) (B2R r2) + B2R rp) / 2.
  Let x : R := B2R tof / (2 * PI * sqrt (a ^ 3 / B2R mu)).

  Lemma nmax_ok : is_finite (@nmax_by_periapsis _ N rp r1 r2 tof mu) = true /\
    exists k : Z, B2R (@nmax_by_periapsis _ N rp r1 r2 tof mu) = IZR k /\
      exists y : R, Rabs (y - x) <= 12 * / IZR (2 ^ 24) * Rabs x /\ IZR k <= y < IZR k + 1.
  Proof using All.
    destruct Gp as [Fp Ip], G1 as [F1 I1], G2 as [F2 I2], Gt as [Ft It], Gm as [Fm Im].
    destruct (max_value r1 r2 F1 F2) as [Fx Vx]. set (mx := @n_max _ N r1 r2) in *.
    assert (Px : 0 < Rmax (B2R r1) (B2R r2)) by (unfold Rmax; destruct Rle_dec; assumption).
    assert (Ix : in_range 17 (Rmax (B2R r1) (B2R r2))) by (unfold Rmax; destruct Rle_dec; assumption).
    assert (Isum : in_range (17 + 1) (Rmax (B2R r1) (B2R r2) + B2R rp)).
    { exact (range_sum' 17 17 _ _ ltac:(lia) ltac:(lia) (Rlt_le _ _ Px) (Rlt_le _ _ Pp) Ix Ip). }
    assert (Pa : 0 < a) by (unfold a; lra).
    assert (Ia : in_range 19 a).
    { unfold a. apply (range_div (17 + 1) 1); [lia | lia | exact Isum | apply range_between; [simpl; lra | lia]]. }
    set (am := @n_mul _ N (@n_dec _ N 1 2) (@n_add _ N mx rp)).
    assert (A1 : Fl 3 am a).
    { replace a with (1 / 2 * (Rmax (B2R r1) (B2R r2) + B2R rp)) in * by (unfold a; field).
      apply (Fl_mul 1 1); [lia | exact (Fl_dec 1 2 ltac:(lia) ltac:(lia) ltac:(lia)) | |].
      - rewrite <- Vx. apply (Fl_add 0); [lia | rewrite Vx; lra | lra | apply Fl_exact; exact Fx | apply Fl_exact; exact Fp |].
        rewrite Vx. apply (range_mono (17 + 1)); [lia | exact Isum].
      - apply (range_mono 19); [lia | exact Ia]. }
    assert (I3 : in_range 57 (a ^ 3)).
    { replace (a ^ 3) with (a * (a * a)) by ring. apply (range_mul 19 38); [lia | lia | exact Ia |].
      apply (range_mul 19 19); [lia | lia | exact Ia | exact Ia]. }
    assert (A3 : Fl 11 (@npow _ N am 3) (a ^ 3)).
    { apply (Fl_cube 3); [lia | exact A1 | apply (range_mono 57); [lia | exact I3]]. }
    assert (Pc : 0 < a ^ 3) by (apply pow_lt; exact Pa).
    assert (Iq : in_range 77 (B2R mu / a ^ 3)) by (apply (range_div 20 57); [lia | lia | exact Im | exact I3]).
    assert (Pq : 0 < B2R mu / a ^ 3) by (apply Rdiv_lt_0_compat; assumption).
    assert (Q1 : Fl 12 (@n_div _ N mu (@npow _ N am 3)) (B2R mu / a ^ 3)).
    { apply (Fl_div 0 11); [lia | lra | apply Fl_exact; exact Fm | exact A3 | apply (range_mono 77); [lia | exact Iq]]. }
    assert (S1 : Fl 7 (@n_sqrt _ N (@n_div _ N mu (@npow _ N am 3))) (sqrt (B2R mu / a ^ 3))).
    { apply (Fl_sqrt 6); [lia | exact Pq | exact Q1 | apply (range_mono 77); [lia | exact Iq]]. }
    assert (I2p : in_range 43 (B2R tof / (2 * PI))) by (apply (range_div 40 3); [lia | lia | exact It | exact two_pi_range]).
    assert (T1 : Fl 3 (@n_div _ N tof (@n_mul _ N (@n_Z _ N 2) (@n_pi _ N))) (B2R tof / (2 * PI))).
    { apply (Fl_div 0 2); [lia | pose proof PI_RGT_0; lra | apply Fl_exact; exact Ft | exact Fl_two_pi | apply (range_mono 43); [lia | exact I2p]]. }
    assert (X1 : Fl 11 (@n_mul _ N (@n_div _ N tof (@n_mul _ N (@n_Z _ N 2) (@n_pi _ N))) (@n_sqrt _ N (@n_div _ N mu (@npow _ N am 3))))
      (B2R tof / (2 * PI) * sqrt (B2R mu / a ^ 3))).
    { apply (Fl_mul 3 7); [lia | exact T1 | exact S1 |]. apply (range_mono (43 + 39)); [lia |].
      apply range_mul; [lia | lia | exact I2p |]. apply range_sqrt; [lia | exact Pq | exact (range_mono 77 (39 + 39) _ ltac:(lia) Iq)]. }
    assert (EQ : B2R tof / (2 * PI) * sqrt (B2R mu / a ^ 3) = x).
    { unfold x. replace (B2R mu / a ^ 3) with (/ (a ^ 3 / B2R mu)) by (field; lra).
      assert (0 < a ^ 3 / B2R mu) by (apply Rdiv_lt_0_compat; assumption).
      rewrite sqrt_inv. pose proof (sqrt_lt_R0 _ H). pose proof PI_RGT_0. field. split; lra. }
    rewrite EQ in X1. apply Fl_close in X1; [| lia]. destruct X1 as [Fy Cy].
    set (y := @n_mul _ N (@n_div _ N tof (@n_mul _ N (@n_Z _ N 2) (@n_pi _ N))) (@n_sqrt _ N (@n_div _ N mu (@npow _ N am 3)))) in *.
    destruct (floor_value y Fy) as [Fn Vn]. split; [exact Fn |].
    exists (Zfloor (B2R y)). split; [exact Vn |]. exists (B2R y). split.
    - replace (12 * / IZR (2 ^ 24)) with ((INR 11 + 1) * eps) by (unfold eps; simpl; lra). exact Cy.
    - split; [apply Zfloor_lb | apply Zfloor_ub].
  Qed.
End Nmax.
